(** Lemmas about sessions with the JSON dictionary and the string map. *)
From Verif Require Export L_HashTop.
Local Open Scope N_scope.

Lemma keq_true a b : keq a b = true <-> a = b.
Proof. unfold keq. destruct (list_eq_dec N.eq_dec a b); split; congruence. Qed.
Lemma keq_false a b : keq a b = false <-> a <> b.
Proof. unfold keq. destruct (list_eq_dec N.eq_dec a b); split; congruence. Qed.
Lemma lookup_none (M : fmap) k : lookup M k = None <-> ~ In k (map fst M).
Proof.
  unfold lookup. induction M as [|[x v] M IH]; [cbn; tauto|]. cbn [find map fst]. destruct (keq x k) eqn:E.
  - apply keq_true in E. split; [discriminate|]. intros H. elim H. now left.
  - apply keq_false in E. rewrite IH. split; [intros H [H'|H']; auto|intros H H'; apply H; now right].
Qed.
Lemma lookup_mid (M1 M2 : fmap) k v : NoDup (map fst (M1 ++ (k, v) :: M2)) -> lookup (M1 ++ (k, v) :: M2) k = Some v /\ without (M1 ++ (k, v) :: M2) k = M1 ++ M2.
Proof.
  intros H. rewrite map_app in H. cbn [map fst] in H. assert (Hn := NoDup_remove_2 _ _ _ H). unfold lookup, without.
  assert (H1 : forall x, In x M1 -> keq (fst x) k = false). { intros x Hx. apply keq_false. intros <-. apply Hn. apply in_or_app. left. now apply in_map. }
  assert (H2 : forall x, In x M2 -> keq (fst x) k = false). { intros x Hx. apply keq_false. intros <-. apply Hn. apply in_or_app. right. now apply in_map. }
  assert (HK : keq k k = true) by now apply keq_true.
  split.
  - clear H2 Hn H. induction M1 as [|x M1 IH]; cbn [app find fst]; [now rewrite HK|]. rewrite H1 by now left. apply IH. intros y Hy. apply H1. now right.
  - rewrite filter_app. cbn [filter fst]. rewrite HK. cbn [negb]. rewrite !filter_all; [reflexivity| |]; intros x Hx; [now rewrite H2|now rewrite H1].
Qed.
Lemma without_none (M : fmap) k : lookup M k = None -> without M k = M.
Proof.
  intros H. apply lookup_none in H. apply filter_all. intros x Hx. apply Bool.negb_true_iff, keq_false. intros <-. apply H. now apply in_map.
Qed.
Lemma nodup_without (M : fmap) k : NoDup (map fst M) -> NoDup (map fst (without M k)) /\ ~ In k (map fst (without M k)).
Proof.
  intros H. split.
  - induction M as [|x M IH]; [constructor|]. cbn [without filter map] in *. apply (proj1 (NoDup_cons_iff _ _)) in H as [H1 H2]. destruct (negb (keq (fst x) k)); [|auto]. cbn [map]. constructor; [|auto].
    intros H. apply H1. apply in_map_iff in H as (y & E & Hy). apply filter_In in Hy as [Hy _]. rewrite <- E. now apply in_map.
  - intros Hin. apply in_map_iff in Hin as (y & E & Hy). apply filter_In in Hy as [_ Hy]. apply Bool.negb_true_iff, keq_false in Hy. contradiction.
Qed.

(** ** JSON *)
Lemma strncmp_prefix b : forall a, strncmp_eq a b (length b) = true <-> exists r, a = b ++ r.
Proof.
  induction b as [|y b IH]; intros a.
  - cbn. split; [intros _; now exists a|]. intros _. now destruct a.
  - destruct a as [|x a]; [split; [discriminate|intros (r & E); discriminate]|]. cbn [length strncmp_eq]. rewrite Bool.andb_true_iff, N.eqb_eq, IH. split.
    + intros [-> (r & ->)]. now exists r.
    + intros (r & E). injection E as -> ->. split; [reflexivity|]. now exists r.
Qed.
Lemma attr_cmp_prefix a b : attr_cmp a b (strlen b) = true <-> exists r, a = b ++ r.
Proof. unfold attr_cmp, strlen. rewrite Nnat.Nat2N.id. apply strncmp_prefix. Qed.

Definition kv (x : N * hdat) : list byte * N := (key (snd x), obj (snd x)).
Definition JH := hinv default_hash JSON_HTBL_DEPTH.
Definition jok (U : list byte -> Prop) (L : list (N * hdat)) : Prop :=
  NoDup (map fst (map kv L)) /\ forall a d, In (a, d) L -> key_len d = strlen (key d) /\ U (key d).
Lemma depth_pos : 0 < JSON_HTBL_DEPTH.
Proof. reflexivity. Qed.

Section J.
Variable U : list byte -> Prop.
Hypothesis HU : prefix_free U.
Variable fuel : nat.

Lemma jfind_ok d L k : JH d L -> jok U L -> U k -> (length L < fuel)%nat ->
  exists a, json_attr_find fuel d k = Some a /\
    ((a = 0 /\ lookup (map kv L) k = None) \/
     (exists L1 x L2, L = L1 ++ (a, x) :: L2 /\ a <> 0 /\ key x = k /\ lookup (map kv L) k = Some (obj x) /\ without (map kv L) k = map kv (L1 ++ L2))).
Proof.
  intros HI [HN HL] Hk Hf. unfold json_attr_find.
  destruct (hfind_latest default_hash JSON_HTBL_DEPTH depth_pos attr_cmp fuel d L k (strlen k) HI Hf) as (a & E & Ha).
  { intros b x Hin _. destruct (HL b x Hin) as [H1 H2]. rewrite attr_cmp_prefix. split.
    - intros (r & Er). rewrite Er in H2. rewrite (HU k r Hk H2), app_nil_r in Er. now rewrite H1, Er.
    - intros [-> _]. exists []. now rewrite app_nil_r. }
  exists a. split; [exact E|]. destruct Ha as [[-> Ha]|(L1 & x & L2 & -> & Ha & Hx & _ & _)].
  - left. split; [reflexivity|]. apply lookup_none. intros H. rewrite map_map in H. apply in_map_iff in H as ([b x] & Ek & Hin). cbn [kv fst snd] in Ek. apply (Ha b x Hin).
    split; [exact Ek|]. rewrite (proj1 (HL b x Hin)). now rewrite Ek.
  - right. exists L1, x, L2. rewrite map_app in HN. cbn [map] in HN. change (kv (a, x)) with (key x, obj x) in HN. rewrite Hx in HN.
    destruct (lookup_mid _ _ _ _ HN) as [E1 E2]. rewrite !map_app. cbn [map]. change (kv (a, x)) with (key x, obj x). rewrite Hx. now sp.
Qed.
Lemma attr_rem_ok d L1 a x L2 : JH d (L1 ++ (a, x) :: L2) ->
  exists d', attr_rem d a = Some d' /\ JH d' (L1 ++ L2) /\ en (lists d') a = None /\ (forall y, y <> a -> ~ In y (map fst (L1 ++ L2)) -> en (lists d') y = en (lists d) y).
Proof.
  intros HI. assert (HN := proj1 HI). apply tb_nodup in HN. unfold addrs in HN. rewrite map_app in HN. cbn [map fst] in HN. apply NoDup_remove_2 in HN. rewrite <- map_app in HN.
  destruct (hinv_del default_hash JSON_HTBL_DEPTH depth_pos _ _ _ _ _ HI) as (d1 & E & HI1 & F1 & F2). unfold attr_rem. rewrite E. cbn [bnd].
  assert (Ha : en (lists d1) a <> None).
  { rewrite F1. destruct (table_in _ _ _ a x (proj1 HI)) as (_ & e & Ee & _); [apply in_or_app; right; now left|]. congruence. }
  destruct (hinv_drop default_hash JSON_HTBL_DEPTH _ _ _ HI1 HN Ha) as (s' & E2 & HI2 & F3 & F4). rewrite E2. cbn [bnd]. eexists. split; [reflexivity|]. split; [exact HI2|]. split; [exact F4|].
  intros y Hy Hny. cbn [lists]. rewrite F3 by exact Hy. now apply F2.
Qed.
Lemma jok_sub L1 y L2 : jok U (L1 ++ y :: L2) -> jok U (L1 ++ L2).
Proof.
  intros [H1 H2]. split.
  - rewrite !map_app in *. cbn [map] in H1. now apply NoDup_remove_1 in H1.
  - intros a d Hin. apply (H2 a d). apply in_app_iff in Hin. apply in_app_iff. destruct Hin as [H|H]; [now left|right; now right].
Qed.
Lemma fresh_not_in d L a : JH d L -> en (lists d) a = None -> ~ In a (map fst L).
Proof. intros HI He Hin. apply in_map_iff in Hin as ([b x] & Eb & Hin). cbn [fst] in Eb. subst b. destruct (table_in _ _ _ a x (proj1 HI) Hin) as (_ & e & Ee & _). congruence. Qed.

Lemma jdo_ok op d L : JH d L -> jok U L -> (jname op = [] \/ U (jname op)) -> (op = JCount \/ U (jname op)) -> jfresh op d -> (length L < fuel)%nat ->
  exists d' L', jdo fuel op d = Some (fst (jwant op (map kv L)), d') /\ JH d' L' /\ jok U L' /\ map kv L' = snd (jwant op (map kv L)) /\ (length L' <= S (length L))%nat.
Proof.
  intros HI HJ _ Hop Hfr Hf. destruct op as [k v a e|k|k|]; cbn [jdo jwant jname jfresh] in *.
  - destruct Hop as [Hop|Hk]; [discriminate|]. unfold json_attr_add. destruct (N.eqb_spec a 0) as [->|Ha].
    + exists d, L. cbn [bnd fst snd]. sp; auto.
    + pose proof (fresh_not_in _ _ _ HI Hfr) as Hn. set (x := mkHd k (strlen k) v).
      set (d1 := mkHt (table_depth d) (entry_count d) (put (lists d) a (mkEnt (nx e) (pv e) x))).
      assert (HI1 : JH d1 L) by now apply hinv_put.
      destruct (jfind_ok d1 L k HI1 HJ Hk Hf) as (a' & E & Hcase). rewrite E. cbn [bnd].
      assert (Ea1 : en (lists d1) a = Some (mkEnt (nx e) (pv e) x)) by (cbn [d1 lists put en]; apply upd1_eq).
      assert (HX : exists d2 L2, (if a' =? 0 then Some d1 else attr_rem d1 a') = Some d2 /\ JH d2 L2 /\ jok U L2 /\ map kv L2 = without (map kv L) k /\ en (lists d2) a = Some (mkEnt (nx e) (pv e) x) /\ ~ In a (map fst L2) /\ (length L2 <= length L)%nat).
      { destruct Hcase as [[-> Hl]|(L1 & y & L2 & -> & Ha' & Hy & Hl & Hw)].
        - exists d1, L. cbn [N.eqb]. rewrite (without_none _ _ Hl). now sp.
        - rewrite (proj2 (N.eqb_neq _ _) Ha'). destruct (attr_rem_ok d1 L1 a' y L2 HI1) as (d2 & E2 & HI2 & _ & F). exists d2, (L1 ++ L2).
          assert (Hn2 : ~ In a (map fst (L1 ++ L2))). { intros H. apply Hn. rewrite map_app, in_app_iff in *. cbn [map]. destruct H; [now left|right; now right]. }
          sp; [exact E2|exact HI2|now apply jok_sub in HJ|now symmetry| |exact Hn2|rewrite !app_length; cbn [length]; lia].
          rewrite F; [exact Ea1| |exact Hn2]. intros ->. apply Hn. rewrite map_app, in_app_iff. right. now left. }
      destruct HX as (d2 & L2 & E2 & HI2 & HJ2 & HM & Ea2 & Hn2 & HL2). rewrite E2. cbn [bnd].
      destruct (hinv_ins default_hash JSON_HTBL_DEPTH depth_pos d2 L2 a _ HI2 Ea2 Ha Hn2) as (d3 & E3 & HI3 & _). rewrite E3. cbn [bnd fst snd dat] in *.
      exists d3, ((a, x) :: L2). sp; [reflexivity|exact HI3| |cbn [map]; now rewrite HM|cbn [length]; lia].
      split.
      * cbn [map kv fst snd key x]. rewrite HM. destruct (nodup_without (map kv L) k (proj1 HJ)). now constructor.
      * intros b y [Eb|Hb]; [injection Eb as <- <-; now split|]. now apply (proj2 HJ2 b).
  - destruct Hop as [Hop|Hk]; [discriminate|]. unfold json_attr_rem. destruct (jfind_ok d L k HI HJ Hk Hf) as (a & E & [[-> Hl]|(L1 & y & L2 & -> & Ha' & Hy & Hl & Hw)]); rewrite E; cbn [bnd].
    + rewrite Hl. exists d, L. cbn [N.eqb bnd fst snd]. sp; auto.
    + rewrite Hl, (proj2 (N.eqb_neq _ _) Ha'). destruct (attr_rem_ok d L1 a y L2 HI) as (d2 & E2 & HI2 & _). rewrite E2. cbn [bnd fst snd]. exists d2, (L1 ++ L2).
      sp; [reflexivity|exact HI2|now apply jok_sub in HJ|now symmetry|rewrite !app_length; cbn [length]; lia].
  - destruct Hop as [Hop|Hk]; [discriminate|]. destruct (jfind_ok d L k HI HJ Hk Hf) as (a & E & [[-> Hl]|(L1 & y & L2 & HLe & Ha' & Hy & Hl & Hw)]); rewrite E; cbn [bnd].
    + rewrite Hl. exists d, L. cbn [N.eqb fst snd]. sp; auto.
    + rewrite Hl, (proj2 (N.eqb_neq _ _) Ha'). unfold json_attr_value. destruct (table_in _ _ _ a y (proj1 HI)) as (_ & ey & Ee & Ed); [rewrite HLe; apply in_or_app; right; now left|].
      rewrite Ee. cbn [bnd]. rewrite Ed. exists d, L. cbn [fst snd]. sp; auto.
  - exists d, L. cbn [fst snd]. sp; auto. f_equal. f_equal. unfold json_attr_count. rewrite (proj2 (proj2 HI)), map_length. f_equal.
    change H64 with (H32 * H32). rewrite N.mod_mul_r by (unfold H32; lia). rewrite (N.mul_comm H32), N.mod_add by (unfold H32; lia). now rewrite N.mod_mod by (unfold H32; lia).
Qed.
Definition jall (ops : list jop) : Prop := Forall (fun op => op = JCount \/ U (jname op)) ops.
Lemma jsession_ok d ops os d' : jsession fuel d ops os d' -> forall L, JH d L -> jok U L -> jall ops -> (length L + length ops < fuel)%nat ->
  exists L', os = fst (jwants ops (map kv L)) /\ JH d' L' /\ jok U L' /\ map kv L' = snd (jwants ops (map kv L)) /\ (length L' <= length L + length ops)%nat.
Proof.
  induction 1 as [d|d op o d1 ops os d2 Hfr E _ IH]; intros L HI HJ HA Hf.
  - exists L. cbn. sp; auto. lia.
  - apply (proj1 (Forall_cons_iff _ _ _)) in HA as [HA1 HA2]. cbn [length] in Hf.
    destruct (jdo_ok op d L HI HJ) as (d' & L' & E' & HI' & HJ' & HM & HL); [destruct HA1 as [->|H]; [now left|now right]|exact HA1|exact Hfr|lia|].
    rewrite E in E'. injection E' as -> ->. destruct (IH L' HI' HJ' HA2 ltac:(lia)) as (L2 & -> & HI2 & HJ2 & HM2 & HL2). exists L2. cbn [jwants].
    rewrite HM in *. destruct (jwant op (map kv L)) as [o M1]. cbn [fst snd] in *. destruct (jwants ops M1) as [os M2]. cbn [fst snd] in *. sp; auto. cbn [length]. lia.
Qed.
(** json_dict_free frees every attribute once *)
Lemma jfree_ok : forall n d L, JH d L -> N.of_nat (length L) < H64 -> (length L < n)%nat -> exists l d', json_dict_free n d = Some (l, d') /\ Permutation l (map fst L) /\ (forall a, In a l -> en (lists d') a = None) /\
  (forall y, ~ In y (map fst L) -> en (lists d') y = en (lists d) y).
Proof.
  induction n as [|n IH]; intros d L HI HB Hn; [lia|]. cbn [json_dict_free]. unfold htbl_empty. rewrite (proj2 (proj2 HI)), N.mod_small by exact HB.
  destruct L as [|x0 L0] eqn:EL.
  - cbn [length N.of_nat N.eqb]. exists [], d. sp; auto. intros a [].
  - rewrite <- EL in *. assert (HL : L <> []) by congruence. rewrite (proj2 (N.eqb_neq _ _)) by (rewrite EL; cbn [length]; lia).
    destruct (first_in default_hash JSON_HTBL_DEPTH depth_pos d L HI HL) as (x & Hx). set (a := htbl_first d) in *. apply in_split in Hx as (L1 & L2 & ->).
    destruct (attr_rem_ok d L1 a x L2 HI) as (d1 & E1 & HI1 & F0 & F1). rewrite E1. cbn [bnd].
    rewrite app_length in Hn, HB. cbn [length] in Hn, HB.
    destruct (IH d1 (L1 ++ L2) HI1) as (l & d' & E2 & HP & Hz & F2); [rewrite app_length; lia|rewrite app_length; lia|]. rewrite E2. cbn [bnd fst snd]. exists (a :: l), d'. split; [reflexivity|].
    assert (HN := tb_nodup _ _ _ (proj1 HI)). unfold addrs in HN. rewrite map_app in HN. cbn [map fst] in HN. apply NoDup_remove_2 in HN. rewrite <- map_app in HN.
    split; [|split].
    + rewrite HP. rewrite !map_app. cbn [map fst]. apply Permutation_middle.
    + intros b [<-|Hb]; [|auto]. now rewrite F2.
    + intros y Hy. rewrite F2, F1; auto.
      * intros ->. apply Hy. rewrite map_app, in_app_iff. right. now left.
      * intros H. apply Hy. rewrite map_app, in_app_iff in *. cbn [map]. destruct H; [now left|right; now right].
      * intros H. apply Hy. rewrite map_app, in_app_iff in *. cbn [map]. destruct H; [now left|right; now right].
Qed.
End J.

(** ** str_map *)
Lemma strcmp_eq_iff a : forall b, strcmp_eq a b = true <-> a = b.
Proof.
  induction a as [|x a IH]; intros [|y b]; cbn [strcmp_eq]; try (split; congruence). rewrite Bool.andb_true_iff, N.eqb_eq, IH. split; [intros [-> ->]; reflexivity|]. intros E. injection E as -> ->. auto.
Qed.
Section S.
Variable sz : N.
Hypothesis Hsz : 0 < sz.
Variable fuel : nat.
Definition sbk (d : sdat) : N := fnv_hash_a1_32 (skey d) (strlen (skey d)) 0 mod sz.
Definition skv (x : N * sdat) : list byte * N := (skey (snd x), sobj (snd x)).
Definition SH (m : smap) (L : list (N * sdat)) : Prop := table sbk (slists m) L /\ hash_size m = sz /\ NoDup (map fst (map skv L)).

Lemma sbucket_eq m k : hash_size m = sz -> sbucket m k = Some (fnv_hash_a1_32 k (strlen k) 0 mod sz).
Proof. intros E. unfold sbucket. rewrite E, (proj2 (N.eqb_neq _ _)); [reflexivity|lia]. Qed.
Lemma slookup_ok m L k : SH m L -> (length L < fuel)%nat ->
  exists a, slookup fuel m k (fnv_hash_a1_32 k (strlen k) 0 mod sz) = Some a /\
    ((a = 0 /\ lookup (map skv L) k = None) \/
     (exists L1 x L2, L = L1 ++ (a, x) :: L2 /\ a <> 0 /\ skey x = k /\ lookup (map skv L) k = Some (sobj x) /\ without (map skv L) k = map skv (L1 ++ L2))).
Proof.
  intros (HT & HS & HN) Hf. unfold slookup. rewrite (foreach_ok sbk _ L) by assumption. eexists. split; [reflexivity|].
  destruct (find _ L) as [[a x]|] eqn:E.
  - right. apply find_split in E as (L1 & L2 & -> & H1 & _). cbn [fst snd inb] in *. apply Bool.andb_true_iff in H1 as [_ H1]. apply strcmp_eq_iff in H1. exists L1, x, L2.
    rewrite map_app in HN. cbn [map] in HN. change (skv (a, x)) with (skey x, sobj x) in HN. rewrite H1 in HN. destruct (lookup_mid _ _ _ _ HN) as [E1 E2].
    rewrite !map_app. cbn [map]. change (skv (a, x)) with (skey x, sobj x). rewrite H1. sp; auto. destruct (table_in _ _ _ a x HT) as [H _]; [apply in_or_app; right; now left|exact H].
  - left. split; [reflexivity|]. apply lookup_none. intros H. rewrite map_map in H. apply in_map_iff in H as ([b x] & Ek & Hin). cbn [skv fst snd] in Ek.
    pose proof (find_none' _ _ E _ Hin) as H. cbn [snd] in H. apply Bool.andb_false_iff in H. unfold inb, sbk in H. cbn [snd] in H. rewrite Ek, N.eqb_refl in H. destruct H as [H|H]; [discriminate|].
    rewrite (proj2 (strcmp_eq_iff k k) eq_refl) in H. discriminate.
Qed.
Lemma sfresh_not_in m L a : SH m L -> en (slists m) a = None -> ~ In a (map fst L).
Proof. intros (HT & _) He Hin. apply in_map_iff in Hin as ([b x] & Eb & Hin). cbn [fst] in Eb. subst b. destruct (table_in _ _ _ a x HT Hin) as (_ & e & Ee & _). congruence. Qed.
Lemma sdo_ok op m L : SH m L -> sfresh op m -> (length L < fuel)%nat ->
  exists m' L', sdo fuel op m = Some (fst (swant op (map skv L)), m') /\ SH m' L' /\ map skv L' = snd (swant op (map skv L)) /\ (length L' <= S (length L))%nat.
Proof.
  intros HI Hfr Hf. destruct op as [k v a e dup|k|k]; cbn [sdo swant sfresh] in *; unfold str_map_insert, str_map_remove, str_map_get;
    destruct (slookup_ok m L k HI Hf) as (a' & E & Hcase); destruct HI as (HT & HS & HN); rewrite sbucket_eq by exact HS; cbn [bnd]; rewrite E; cbn [bnd].
  - destruct Hcase as [[-> Hl]|(L1 & x & L2 & HLe & Ha' & Hx & Hl & Hw)]; rewrite Hl.
    + cbn [N.eqb negb]. destruct (N.eqb_spec a 0) as [->|Ha]; [exists m, L; cbn [orb bnd fst snd]; sp; auto; unfold SH; auto|]. destruct dup; cbn [negb orb bnd fst snd]; [|exists m, L; sp; auto; unfold SH; auto].
      assert (Hn := sfresh_not_in m L a (conj HT (conj HS HN)) Hfr). destruct (table_put sbk (slists m) L a (mkEnt (nx e) (pv e) (mkSd k v)) HT Hn) as (HT1 & Ee & _).
      destruct (table_insert sbk _ L a _ HT1 Ee Ha Hn) as (s' & Ei & HT2 & _). unfold sbk in Ei. cbn [dat skey] in Ei. rewrite Ei. cbn [bnd fst snd]. cbn [dat] in HT2.
      eexists _, _. sp; [reflexivity|split; [exact HT2|split; [exact HS|]]|reflexivity|cbn [length]; lia]. cbn [map skv fst snd skey]. constructor; [|exact HN]. now apply lookup_none.
    + rewrite (proj2 (N.eqb_neq _ _) Ha'). cbn [negb bnd fst snd]. exists m, L. sp; auto. unfold SH; auto.
  - destruct Hcase as [[-> Hl]|(L1 & x & L2 & -> & Ha' & Hx & Hl & Hw)]; rewrite Hl.
    + cbn [N.eqb bnd fst snd]. exists m, L. sp; auto. unfold SH; auto.
    + rewrite (proj2 (N.eqb_neq _ _) Ha'). destruct (table_remove sbk _ _ _ _ _ HT) as (s' & Er & HT1 & F1 & _). rewrite Er. cbn [bnd].
      assert (Hn : ~ In a' (addrs (L1 ++ L2))). { assert (H := tb_nodup _ _ _ HT). unfold addrs in *. rewrite map_app in *. cbn [map fst] in H. now apply NoDup_remove_2 in H. }
      destruct (table_drop sbk s' _ a' HT1 Hn) as (s2 & Ed & HT2 & _).
      { rewrite F1. destruct (table_in _ _ _ a' x HT) as (_ & e0 & Ee & _); [apply in_or_app; right; now left|]. congruence. }
      rewrite Ed. cbn [bnd fst snd]. eexists _, _. sp; [reflexivity|split; [exact HT2|split; [exact HS|]]|now symmetry|rewrite !app_length; cbn [length]; lia].
      rewrite !map_app in *. cbn [map] in HN. now apply NoDup_remove_1 in HN.
  - destruct Hcase as [[-> Hl]|(L1 & x & L2 & HLe & Ha' & Hx & Hl & Hw)]; rewrite Hl.
    + cbn [N.eqb bnd fst snd]. exists m, L. sp; auto. unfold SH; auto.
    + rewrite (proj2 (N.eqb_neq _ _) Ha'). destruct (table_in _ _ _ a' x HT) as (_ & e0 & Ee & Ed); [rewrite HLe; apply in_or_app; right; now left|]. rewrite Ee. cbn [bnd fst snd]. rewrite Ed.
      exists m, L. sp; auto. unfold SH; auto.
Qed.
Lemma ssession_ok m ops os m' : ssession fuel m ops os m' -> forall L, SH m L -> (length L + length ops < fuel)%nat ->
  exists L', os = fst (swants ops (map skv L)) /\ SH m' L' /\ map skv L' = snd (swants ops (map skv L)) /\ (length L' <= length L + length ops)%nat.
Proof.
  induction 1 as [m|m op o m1 ops os m2 Hfr E _ IH]; intros L HI Hf.
  - exists L. cbn. sp; auto. lia.
  - cbn [length] in Hf. destruct (sdo_ok op m L HI Hfr ltac:(lia)) as (m' & L' & E' & HI' & HM & HL).
    rewrite E in E'. injection E' as -> ->. destruct (IH L' HI' ltac:(lia)) as (L2 & -> & HI2 & HM2 & HL2). exists L2. cbn [swants].
    rewrite HM in *. destruct (swant op (map skv L)) as [o M1]. cbn [fst snd] in *. destruct (swants ops M1) as [os M2]. cbn [fst snd] in *. sp; auto. cbn [length]. lia.
Qed.
(** str_map_free frees every entry once *)
Lemma free_list_ok h : forall n l xs L, (length L < n)%nat -> table sbk l L -> filter (inb sbk h) L = xs -> exists s' L', free_list n l h = Some (map fst xs, s') /\ table sbk s' L' /\ L' = filter (fun x => negb (inb sbk h x)) L.
Proof.
  induction n as [|n IH]; intros l xs L Hn HT Hx; [lia|]. cbn [free_list]. pose proof (tb_lists _ _ _ HT h) as HI. rewrite Hx in HI. unfold islist in HI. destruct xs as [|[a d] xs]; cbn [chain] in HI.
  - rewrite HI. cbn [N.eqb]. exists l, L. split; [reflexivity|]. split; [exact HT|]. symmetry. apply filter_all. intros x Hin. destruct (inb sbk h x) eqn:E; [|reflexivity].
    assert (H : In x (filter (inb sbk h) L)) by now apply filter_In. rewrite Hx in H. destruct H.
  - destruct HI as (Eh & Ha & _). rewrite Eh, (proj2 (N.eqb_neq _ _) Ha).
    assert (Hin : In (a, d) (filter (inb sbk h) L)) by (rewrite Hx; now left). apply filter_In in Hin as [Hin Hb].
    assert (HS : exists L1 L2, L = L1 ++ (a, d) :: L2 /\ filter (inb sbk h) L1 = []).
    { clear - Hx. induction L as [|y L IH]; [discriminate|]. cbn [filter] in Hx. destruct (inb sbk h y) eqn:E.
      - injection Hx as -> _. now exists [], L.
      - destruct (IH Hx) as (L1 & L2 & -> & H). exists (y :: L1), L2. split; [reflexivity|]. cbn [filter]. now rewrite E. }
    destruct HS as (L1 & L2 & -> & Hf1). rewrite filter_app in Hx. cbn [filter] in Hx. rewrite Hf1, Hb in Hx. cbn [app] in Hx. injection Hx as Hx.
    destruct (table_remove sbk _ _ _ _ _ HT) as (s' & Er & HT1 & F1 & _). rewrite Er. cbn [bnd].
    assert (Hna : ~ In a (addrs (L1 ++ L2))). { assert (H := tb_nodup _ _ _ HT). unfold addrs in *. rewrite map_app in *. cbn [map fst] in H. now apply NoDup_remove_2 in H. }
    destruct (table_drop sbk s' _ a HT1 Hna) as (s2 & Ed & HT2 & _).
    { rewrite F1. destruct (table_in _ _ _ a d HT) as (_ & e0 & Ee & _); [apply in_or_app; right; now left|]. congruence. }
    rewrite Ed. cbn [bnd]. rewrite app_length in Hn. cbn [length] in Hn.
    destruct (IH s2 xs (L1 ++ L2)) as (s3 & L3 & E3 & HT3 & HL3); [rewrite app_length; lia|exact HT2|rewrite filter_app, Hf1; exact Hx|]. rewrite E3. cbn [bnd fst snd map].
    exists s3, L3. split; [reflexivity|]. split; [exact HT3|]. rewrite HL3. rewrite !filter_app. cbn [filter]. now rewrite Hb.
Qed.
Lemma free_lists_ok : forall n l i L, (length L < fuel)%nat -> table sbk l L -> (forall x, In x L -> i <= sbk (snd x) < i + N.of_nat n) -> exists r s', free_lists fuel n l i = Some (r, s') /\ Permutation r (map fst L).
Proof.
  induction n as [|n IH]; intros l i L Hf HT HB; cbn [free_lists].
  - destruct L as [|x L]; [exists [], l; split; [reflexivity|constructor]|]. specialize (HB x (or_introl eq_refl)). lia.
  - destruct (free_list_ok i fuel l _ L Hf HT eq_refl) as (s1 & L1 & E1 & HT1 & HL1). rewrite E1. cbn [bnd fst snd].
    destruct (IH s1 (i + 1) L1) as (r & s2 & E2 & HP).
    + rewrite HL1. pose proof (filter_len (fun x => negb (inb sbk i x)) L). lia.
    + exact HT1.
    + intros x Hx. rewrite HL1 in Hx. apply filter_In in Hx as [Hx Hb]. specialize (HB x Hx). unfold inb in Hb. lia.
    + rewrite E2. cbn [bnd fst snd]. eexists _, _. split; [reflexivity|]. rewrite HP, HL1, <- map_app. apply Permutation_map.
      rewrite perm_filter by (intros x; destruct (inb sbk i x); reflexivity). apply Permutation_refl'. apply filter_all. intros x _. now destruct (inb sbk i x).
Qed.
End S.
