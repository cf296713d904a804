(** Theorems about the hash table (C06), the string map (C07) and the JSON
    dictionary (C45). *)
From Verif Require Import L_HashTop2.
From Verif Require Export S_Hash.
Local Open Scope N_scope.

(** Running a session, to show that there are some *)
Fixpoint jrun (fuel : nat) (ops : list jop) (d : htbl) : option (list out * htbl) :=
  match ops with
  | [] => Some ([], d)
  | op :: ops =>
    if match op with JAdd _ _ a _ => match en (lists d) a with None => true | _ => false end | _ => true end
    then bnd (jdo fuel op d) (fun r => bnd (jrun fuel ops (snd r)) (fun q => Some (fst r :: fst q, snd q))) else None
  end.
Lemma jrun_ok fuel : forall ops d os d', jrun fuel ops d = Some (os, d') -> jsession fuel d ops os d'.
Proof.
  induction ops as [|op ops IH]; intros d os d' E; cbn [jrun] in E.
  - injection E as <- <-. constructor.
  - destruct (match op with JAdd _ _ a _ => _ | _ => true end) eqn:Ef; [|discriminate]. destruct (jdo fuel op d) as [[o d1]|] eqn:E1; [|discriminate]. cbn [bnd fst snd] in E.
    destruct (jrun fuel ops d1) as [[os1 d2]|] eqn:E2; [|discriminate]. cbn [bnd fst snd] in E. injection E as <- <-. eapply js_cons; [|exact E1|now apply IH].
    destruct op; cbn [jfresh]; try exact I. destruct (en (lists d) a); [discriminate|reflexivity].
Qed.
Fixpoint srun (fuel : nat) (ops : list sop) (d : smap) : option (list out * smap) :=
  match ops with
  | [] => Some ([], d)
  | op :: ops =>
    if match op with SIns _ _ a _ _ => match en (slists d) a with None => true | _ => false end | _ => true end
    then bnd (sdo fuel op d) (fun r => bnd (srun fuel ops (snd r)) (fun q => Some (fst r :: fst q, snd q))) else None
  end.
Lemma srun_ok fuel : forall ops d os d', srun fuel ops d = Some (os, d') -> ssession fuel d ops os d'.
Proof.
  induction ops as [|op ops IH]; intros d os d' E; cbn [srun] in E.
  - injection E as <- <-. constructor.
  - destruct (match op with SIns _ _ a _ _ => _ | _ => true end) eqn:Ef; [|discriminate]. destruct (sdo fuel op d) as [[o d1]|] eqn:E1; [|discriminate]. cbn [bnd fst snd] in E.
    destruct (srun fuel ops d1) as [[os1 d2]|] eqn:E2; [|discriminate]. cbn [bnd fst snd] in E. injection E as <- <-. eapply ss_cons; [|exact E1|now apply IH].
    destruct op; cbn [sfresh]; try exact I. destruct (en (slists d) a); [discriminate|reflexivity].
Qed.
Lemma ran {A B} (x : option (A * B)) a : option_map fst x = Some a -> exists b, x = Some (a, b).
Proof. destruct x as [[a' b]|]; cbn; intros E; [injection E as ->; eauto|discriminate]. Qed.

(** ** C06: hash table.  Any hash function, any depth but 0. *)

(** Inserting an entry that is not in the table and deleting one that is are defined:
    no null or wild pointer is followed. *)
Theorem htbl_ins_defined hash depth t L a e : 0 < depth -> hreach hash depth t L -> a <> 0 -> ~ In a (map fst L) -> en (lists t) a = Some e ->
  exists t', htbl_ins hash t a = Some t' /\ hreach hash depth t' ((a, dat e) :: L).
Proof.
  intros Hd HR Ha Hn Ee. pose proof (hreach_inv hash depth Hd t L HR) as HI. destruct (hinv_ins hash depth Hd t L a e HI Ee Ha Hn) as (t' & E & _).
  exists t'. split; [exact E|]. now apply (hr_ins _ _ t _ _ e).
Qed.
Print Assumptions htbl_ins_defined.
Theorem htbl_del_defined hash depth t L1 a d L2 : 0 < depth -> hreach hash depth t (L1 ++ (a, d) :: L2) ->
  exists t', htbl_del t a = Some t' /\ hreach hash depth t' (L1 ++ L2).
Proof.
  intros Hd HR. pose proof (hreach_inv hash depth Hd t _ HR) as HI. destruct (hinv_del hash depth Hd t L1 a d L2 HI) as (t' & E & _).
  exists t'. split; [exact E|]. now apply (hr_del _ _ t _ a d).
Qed.
Print Assumptions htbl_del_defined.

(** A lookup returns the last inserted of the live entries with that key, if the
    comparison function tells apart the keys in the table and the key asked for. *)
Theorem htbl_find_latest hash depth cmp fuel t L k len : 0 < depth -> hreach hash depth t L -> (length L < fuel)%nat ->
  (forall a d, In (a, d) L -> cmp (key d) k len = true <-> key d = k /\ key_len d = len) ->
  exists a, htbl_find hash cmp fuel t k len = Some a /\ latest L k len a.
Proof.
  intros Hd HR Hf Hc. pose proof (hreach_inv hash depth Hd t _ HR) as HI. apply (hfind_latest hash depth Hd cmp fuel t L k len HI Hf). intros a d Hin _. now apply (Hc a).
Qed.
Print Assumptions htbl_find_latest.

(** The loop for (e = htbl_first(t); e; e = htbl_next(e)) sees each live entry once. *)
Theorem htbl_iterate_all hash depth fuel t L : 0 < depth -> hreach hash depth t L -> (length L < fuel)%nat ->
  exists l, iterate hash fuel t (htbl_first t) = Some l /\ Permutation l (map fst L).
Proof. intros Hd HR Hf. exact (iterate_ok hash depth Hd t L fuel (hreach_inv hash depth Hd t L HR) Hf). Qed.
Print Assumptions htbl_iterate_all.
Theorem htbl_empty_exact hash depth t L : 0 < depth -> hreach hash depth t L -> N.of_nat (length L) < H64 -> htbl_empty t = true <-> L = [].
Proof.
  intros Hd HR Hl. destruct (hreach_inv hash depth Hd t L HR) as (_ & _ & HC). unfold htbl_empty. rewrite HC, N.mod_small, N.eqb_eq by exact Hl. destruct L; cbn [length]; split; try congruence; lia.
Qed.
Print Assumptions htbl_empty_exact.

(** Example: depth 1, so that all keys collide; equal keys; one of them deleted. *)
Definition e0 (k : list byte) (o : N) : ent hdat := mkEnt 99 (Next 98) (mkHd k (strlen k) o).
Definition cmp_all (a b : list byte) (len : N) : bool := keq a b && (strlen a =? len).
Definition ex_ht : option htbl :=
  let t := htbl_alloc 1 (fun a => if a =? 10 then Some (e0 [1; 2] 0) else if a =? 20 then Some (e0 [3] 0) else if a =? 30 then Some (e0 [1; 2] 0) else None) in
  bnd (htbl_ins default_hash t 10) (fun t => bnd (htbl_ins default_hash t 20) (fun t => htbl_ins default_hash t 30)).
Example ex_htbl : bnd ex_ht (fun t => bnd (htbl_find default_hash cmp_all 9 t [1; 2] 2) (fun a => bnd (htbl_del t a) (fun t' =>
    bnd (htbl_find default_hash cmp_all 9 t' [1; 2] 2) (fun b => bnd (iterate default_hash 9 t (htbl_first t)) (fun l => Some (a, b, l)))))) = Some (30, 10, [30; 20; 10]).
Proof. vm_compute. reflexivity. Qed.
Example ex_htbl_reach : exists t, hreach default_hash 7 t [(20, mkHd [3] 1 0); (10, mkHd [1; 2] 2 0)] /\
  forall a d, In (a, d) [(20, mkHd [3] 1 0); (10, mkHd [1; 2] 2 0)] -> cmp_all (key d) [3] 1 = true <-> key d = [3] /\ key_len d = 1.
Proof.
  pose (m := fun a => if a =? 10 then Some (e0 [1; 2] 0) else if a =? 20 then Some (e0 [3] 0) else None).
  assert (H0 : hreach default_hash 7 (htbl_alloc 7 m) []) by constructor.
  destruct (htbl_ins_defined default_hash 7 _ _ 10 (e0 [1; 2] 0) eq_refl H0 ltac:(discriminate) (fun x => x) eq_refl) as (t1 & _ & H1).
  assert (H2 := hr_init _ _ _ _ 20 (e0 [3] 0) H1 ltac:(cbn; intros [H|[]]; discriminate)).
  destruct (htbl_ins_defined default_hash 7 _ _ 20 (e0 [3] 0) eq_refl H2 ltac:(discriminate) ltac:(cbn; intros [H|[]]; discriminate)) as (t2 & _ & H3).
  { cbn [lists put en]. apply upd1_eq. }
  exists t2. split; [exact H3|]. intros a d [E|[E|[]]]; injection E as <- <-; cbn; split; try discriminate; auto. intros [H _]. discriminate.
Qed.

(** With the comparison function of the JSON dictionary, strncmp over the length of
    the key asked for, a lookup finds an entry with another key: one that begins with
    the key asked for, and is in the same bucket. *)
Theorem htbl_find_refuted : exists t L k a d, hreach default_hash 23 t L /\
  htbl_find default_hash attr_cmp 9 t k (strlen k) = Some a /\ a <> 0 /\ In (a, d) L /\ key d <> k.
Proof.
  pose (m := fun a => if a =? 10 then Some (e0 [115; 99; 104; 101; 109; 97; 115] 0) else None).
  assert (H0 : hreach default_hash 23 (htbl_alloc 23 m) []) by constructor.
  destruct (htbl_ins default_hash (htbl_alloc 23 m) 10) as [t|] eqn:E; [|vm_compute in E; discriminate].
  assert (H1 := hr_ins _ _ _ _ 10 (e0 [115; 99; 104; 101; 109; 97; 115] 0) t H0 ltac:(discriminate) (fun x => x) eq_refl E).
  exists t, [(10, mkHd [115; 99; 104; 101; 109; 97; 115] 7 0)], [115; 99; 104; 101; 109; 97], 10, (mkHd [115; 99; 104; 101; 109; 97; 115] 7 0).
  split; [exact H1|]. split; [|split; [discriminate|split; [now left|discriminate]]].
  assert (HX : bnd (htbl_ins default_hash (htbl_alloc 23 m) 10) (fun t => htbl_find default_hash attr_cmp 9 t [115; 99; 104; 101; 109; 97] 6) = Some 10) by (vm_compute; reflexivity).
  rewrite E in HX. exact HX.
Qed.
Print Assumptions htbl_find_refuted.

(** ** C45: JSON dictionary *)
(** A session with a new dictionary returns what a finite map would, and each next
    operation is defined, if no name used is a proper prefix of another. *)
Theorem json_dict_map_partial (U : list byte -> Prop) fuel m ops os d : prefix_free U ->
  Forall (fun op => op = JCount \/ U (jname op)) ops -> (length ops < fuel)%nat ->
  jsession fuel (json_dict_new m) ops os d -> os = fst (jwants ops []).
Proof.
  intros HU HA Hf HS. destruct (jsession_ok U HU fuel _ _ _ _ HS []) as (L' & E & _); [split; [apply table_empty|now split]|split; [constructor|intros a x []]|exact HA|exact Hf|exact E].
Qed.
Print Assumptions json_dict_map_partial.
Theorem json_dict_defined_partial (U : list byte -> Prop) fuel m ops os d op : prefix_free U ->
  Forall (fun op => op = JCount \/ U (jname op)) (op :: ops) -> (length ops < fuel)%nat ->
  jsession fuel (json_dict_new m) ops os d -> jfresh op d -> exists o d', jdo fuel op d = Some (o, d').
Proof.
  intros HU HA Hf HS Hfr. apply (proj1 (Forall_cons_iff _ _ _)) in HA as [HA1 HA2].
  destruct (jsession_ok U HU fuel _ _ _ _ HS []) as (L' & _ & HI & HJ & _ & HL); [split; [apply table_empty|now split]|split; [constructor|intros a x []]|exact HA2|exact Hf|].
  cbn [length Nat.add] in HL. destruct (jdo_ok U HU fuel op d L' HI HJ) as (d' & L2 & E & _); [destruct HA1 as [->|H]; auto|exact HA1|exact Hfr|lia|].
  eexists _, _. exact E.
Qed.
Print Assumptions json_dict_defined_partial.
(** json_dict_free at the end of such a session frees exactly the attributes that are
    in the dictionary, each once. *)
Theorem json_dict_free_partial (U : list byte -> Prop) fuel m ops os d : prefix_free U ->
  Forall (fun op => op = JCount \/ U (jname op)) ops -> (length ops < fuel)%nat -> N.of_nat fuel < H64 ->
  jsession fuel (json_dict_new m) ops os d ->
  exists l d', json_dict_free fuel d = Some (l, d') /\ NoDup l /\ length l = length (snd (jwants ops [])) /\
    (forall a, In a l -> en (lists d') a = None) /\ (forall a, ~ In a l -> en (lists d') a = en (lists d) a).
Proof.
  intros HU HA Hf HB HS. destruct (jsession_ok U HU fuel _ _ _ _ HS []) as (L' & _ & HI & HJ & HM & HL); [split; [apply table_empty|now split]|split; [constructor|intros a x []]|exact HA|exact Hf|].
  cbn [length Nat.add] in HL. destruct (jfree_ok fuel d L' HI) as (l & d' & E & HP & Hz & F); [lia|lia|].
  exists l, d'. split; [exact E|]. split.
  - eapply Permutation_NoDup; [symmetry; exact HP|]. exact (tb_nodup _ _ _ (proj1 HI)).
  - split; [apply Permutation_length in HP; rewrite HP, map_length; cbn [map] in HM; rewrite <- HM; symmetry; apply map_length|]. split; [exact Hz|]. intros a Ha. apply F. intros H. apply Ha. eapply Permutation_in; [symmetry; exact HP|exact H].
Qed.
Print Assumptions json_dict_free_partial.
Example ex_prefix_free : prefix_free (fun k => k = [1; 2] \/ k = [1; 3; 4] \/ k = [5]).
Proof. intros k r [-> | [-> | ->]] [E | [E | E]]; cbn in E; injection E; congruence. Qed.
Example ex_session : exists d, jsession 9 (json_dict_new (fun _ => None)) [JAdd [1; 2] 7 10 (e0 [] 0); JAdd [5] 8 20 (e0 [] 0); JAdd [1; 2] 9 30 (e0 [] 0); JFind [1; 2]; JRem [5]; JCount]
  [Rc 0; Rc 0; Rc 0; Val (Some 9); Rc 0; Cnt 1] d.
Proof. match goal with |- exists d, jsession ?f ?d0 ?o ?r d => destruct (ran (jrun f o d0) r) as (d & E) end; [vm_compute; reflexivity|]. exists d. now apply jrun_ok. Qed.

(** In general a dictionary is not a map: adding "schema" removes "schemas". *)
Theorem json_dict_map_refuted : exists k k' e os d, k <> k' /\
  jsession 9 (json_dict_new (fun _ => None)) [JAdd k 1 10 e; JFind k'; JAdd k' 2 20 e; JFind k] os d /\
  (** "schema" is found when there is only "schemas"; "schemas" is gone *)
  os = [Rc 0; Val (Some 1); Rc 0; Val None] /\
  fst (jwants [JAdd k 1 10 e; JFind k'; JAdd k' 2 20 e; JFind k] []) = [Rc 0; Val None; Rc 0; Val (Some 1)].
Proof.
  exists [115; 99; 104; 101; 109; 97; 115], [115; 99; 104; 101; 109; 97], (e0 [] 0), [Rc 0; Val (Some 1); Rc 0; Val None].
  match goal with |- exists d, _ /\ jsession ?f ?d0 ?o ?r d /\ _ => destruct (ran (jrun f o d0) r) as (d & E) end; [vm_compute; reflexivity|].
  exists d. split; [discriminate|]. split; [now apply jrun_ok|]. split; [reflexivity|]. vm_compute. reflexivity.
Qed.
Print Assumptions json_dict_map_refuted.

(** ** C07: string map.  Any table size but 0, any strings. *)
Theorem str_map_is_map fuel sz m ops os s : 0 < sz -> (length ops < fuel)%nat ->
  ssession fuel (str_map_create sz m) ops os s -> os = fst (swants ops []).
Proof.
  intros Hz Hf HS. destruct (ssession_ok sz Hz fuel _ _ _ _ HS []) as (L' & E & _); [split; [apply table_empty|split; [reflexivity|constructor]]|exact Hf|exact E].
Qed.
Print Assumptions str_map_is_map.
Theorem str_map_defined fuel sz m ops os s op : 0 < sz -> (length ops < fuel)%nat ->
  ssession fuel (str_map_create sz m) ops os s -> sfresh op s -> exists o s', sdo fuel op s = Some (o, s').
Proof.
  intros Hz Hf HS Hfr. destruct (ssession_ok sz Hz fuel _ _ _ _ HS []) as (L' & _ & HI & _ & HL); [split; [apply table_empty|split; [reflexivity|constructor]]|exact Hf|].
  cbn [length Nat.add] in HL. destruct (sdo_ok sz Hz fuel op s L' HI Hfr ltac:(lia)) as (s' & L2 & E & _). eexists _, _. exact E.
Qed.
Print Assumptions str_map_defined.
(** str_map_free frees as many entries as there are, each once. *)
Theorem str_map_free_all fuel sz m ops os s : 0 < sz -> (length ops < fuel)%nat ->
  ssession fuel (str_map_create sz m) ops os s ->
  exists l, str_map_free fuel s = Some l /\ NoDup l /\ length l = length (snd (swants ops [])) /\ Forall (fun a => en (slists s) a <> None) l.
Proof.
  intros Hz Hf HS. destruct (ssession_ok sz Hz fuel _ _ _ _ HS []) as (L' & _ & (HT & HE & HN) & HM & HL); [split; [apply table_empty|split; [reflexivity|constructor]]|exact Hf|].
  cbn [length Nat.add] in HL. unfold str_map_free. rewrite HE.
  destruct (free_lists_ok sz Hz fuel (N.to_nat sz) (slists s) 0 L') as (r & s' & E & HP); [lia|exact HT| |].
  { intros x _. unfold sbk. pose proof (N.mod_lt (fnv_hash_a1_32 (skey (snd x)) (strlen (skey (snd x))) 0) sz ltac:(lia)). lia. }
  rewrite E. cbn [bnd fst]. exists r. split; [reflexivity|]. split; [|split].
  - eapply Permutation_NoDup; [symmetry; exact HP|]. exact (tb_nodup _ _ _ HT).
  - apply Permutation_length in HP. rewrite HP, map_length. cbn [map] in HM. rewrite <- HM. symmetry. apply map_length.
  - apply Forall_forall. intros a Ha. eapply Permutation_in in Ha; [|exact HP]. apply in_map_iff in Ha as ([b x] & Eb & Hin). cbn [fst] in Eb. subst b. destruct (table_in _ _ _ a x HT Hin) as (_ & e & Ee & _). congruence.
Qed.
Print Assumptions str_map_free_all.
(** str_map_id_init gives the keys consecutive numbers; the first key that is there
    already ends it. *)
Fixpoint number (keys : list (list byte)) (id : N) : list (list byte * N) :=
  match keys with [] => [] | k :: keys => (k, id) :: number keys ((id + 1) mod H64) end.
Lemma ins_frame sz fuel : 0 < sz -> forall m L k v a e m', SH sz m L -> a <> 0 -> en (slists m) a = None -> str_map_insert fuel m k v a e true = Some (0%Z, m') ->
  forall y, y <> a -> en (slists m) y = None -> en (slists m') y = None.
Proof.
  intros Hz m L k v a e m' HI Ha Hfa EI y Hy Hym. assert (Hyl := sfresh_not_in sz m L y HI Hym). assert (Hal := sfresh_not_in sz m L a HI Hfa). destruct HI as (HT & HS & HD).
  unfold str_map_insert in EI. rewrite (sbucket_eq sz Hz) in EI by exact HS. cbn [bnd] in EI. destruct (slookup fuel m k _) as [a'|]; [|discriminate]. cbn [bnd] in EI.
  destruct (negb (a' =? 0)); [discriminate|]. rewrite (proj2 (N.eqb_neq _ _) Ha) in EI. cbn [negb] in EI.
  destruct (table_put (sbk sz) (slists m) L a (mkEnt (nx e) (pv e) (mkSd k v)) HT Hal) as (HT1 & Ee & F1).
  destruct (table_insert (sbk sz) _ L a _ HT1 Ee Ha Hal) as (s' & Ei & HT2 & F2). unfold sbk in Ei. cbn [dat skey] in Ei. rewrite Ei in EI. cbn [bnd] in EI.
  injection EI as <-. cbn [slists].
  rewrite F2 by assumption. now rewrite F1 by exact Hy.
Qed.
Lemma id_init_ok sz fuel : 0 < sz -> forall keys al m L id, SH sz m L -> length al = length keys -> (length L + length keys < fuel)%nat ->
  Forall (fun x => fst (fst x) <> 0 /\ snd x = true) al -> NoDup (map (fun x => fst (fst x)) al) -> (forall x, In x al -> en (slists m) (fst (fst x)) = None) ->
  NoDup (keys ++ map fst (map skv L)) -> exists m' L', str_map_id_init fuel m keys al id = Some (0%Z, m') /\ SH sz m' L' /\ map skv L' = rev (number keys id) ++ map skv L.
Proof.
  intros Hz. induction keys as [|k keys IH]; intros al m L id HI Hl Hf Hal HN Hfr HK.
  - exists m, L. cbn. auto.
  - destruct al as [|[[a e] dup] al]; [discriminate|]. cbn [str_map_id_init]. apply (proj1 (Forall_cons_iff _ _ _)) in Hal as [[Ha Hdup] Hal]. cbn [fst snd] in Ha, Hdup. subst dup.
    assert (Hk : lookup (map skv L) k = None). { apply lookup_none. cbn [app] in HK. apply (proj1 (NoDup_cons_iff _ _)) in HK as [HK _]. intros H. apply HK. apply in_or_app. now right. }
    assert (Hfa : en (slists m) a = None) by exact (Hfr (a, e, true) (or_introl eq_refl)).
    destruct (sdo_ok sz Hz fuel (SIns k id a e true) m L HI Hfa) as (m1 & L1 & E1 & HI1 & HM1 & HL1); [cbn [length] in Hf; lia|]. cbn [sdo swant] in E1, HM1. rewrite Hk, (proj2 (N.eqb_neq _ _) Ha) in E1, HM1. cbn [orb negb fst snd] in E1, HM1.
    destruct (str_map_insert fuel m k id a e true) as [[z m2]|] eqn:EI; [|discriminate]. cbn [bnd fst snd] in E1. injection E1 as -> ->. cbn [bnd fst snd Z.eqb].
    cbn [map fst] in HN. apply (proj1 (NoDup_cons_iff _ _)) in HN as [HN1 HN2].
    assert (Hfr1 : forall x, In x al -> en (slists m1) (fst (fst x)) = None).
    { intros x Hx. assert (Hxa : fst (fst x) <> a) by (intros H; apply HN1; rewrite <- H; now apply (in_map (fun x => fst (fst x)))).
      exact (ins_frame sz fuel Hz m L k id a e m1 HI Ha Hfa EI _ Hxa (Hfr x (or_intror Hx))). }
    destruct (IH al m1 L1 ((id + 1) mod H64) HI1) as (m2 & L2 & E2 & HI2 & HM2); try assumption.
    + cbn [length] in Hl. congruence.
    + cbn [length] in Hf. lia.
    + rewrite HM1. cbn [map fst]. eapply Permutation_NoDup; [|exact HK]. cbn [app]. apply Permutation_middle.
    + exists m2, L2. split; [exact E2|]. split; [exact HI2|]. rewrite HM2, HM1. cbn [number rev]. now rewrite <- app_assoc.
Qed.
Theorem str_map_ids fuel sz m keys al id : 0 < sz -> length al = length keys -> (length keys < fuel)%nat ->
  Forall (fun x => fst (fst x) <> 0 /\ snd x = true) al -> NoDup (map (fun x => fst (fst x)) al) -> (forall x, In x al -> m (fst (fst x)) = None) ->
  NoDup keys -> id + N.of_nat (length keys) <= H64 ->
  exists s, str_map_id_init fuel (str_map_create sz m) keys al id = Some (0%Z, s) /\
    forall i k, nth_error keys i = Some k -> str_map_get fuel s k = Some (id + N.of_nat i, 0%Z).
Proof.
  intros Hz Hl Hf Hal HN Hfr HK HB. destruct (id_init_ok sz fuel Hz keys al (str_map_create sz m) [] id) as (s & L & E & HI & HM); try assumption.
  - split; [apply table_empty|split; [reflexivity|constructor]].
  - now rewrite app_nil_r.
  - exists s. split; [exact E|]. intros i k Hi.
    assert (HLn : (length L < fuel)%nat). { apply (f_equal (@length _)) in HM. cbn [map] in HM. rewrite map_length, app_nil_r, rev_length in HM. rewrite HM. assert (H : forall ks n, length (number ks n) = length ks) by (induction ks; intros n; cbn [number length]; auto). rewrite H. exact Hf. }
    destruct (sdo_ok sz Hz fuel (SGet k) s L HI I HLn) as (s' & L' & Eg & _). cbn [sdo swant] in Eg. cbn [map] in HM. rewrite app_nil_r in HM.
    assert (HG : lookup (map skv L) k = Some (id + N.of_nat i)).
    { destruct HI as (_ & _ & HD). rewrite HM in *.
      assert (HX : forall ks n j, n + N.of_nat (length ks) <= H64 -> nth_error ks j = Some k -> In (k, n + N.of_nat j) (number ks n)).
      { clear. induction ks as [|x ks IH]; intros n j HB H; [destruct j; discriminate|]. cbn [number length] in *. destruct j as [|j]; cbn [nth_error] in H.
        - left. injection H as ->. f_equal. lia.
        - right. destruct ks as [|y ks]; [destruct j; discriminate|]. rewrite N.mod_small by (cbn [length] in HB; lia). replace (n + N.of_nat (S j)) with (n + 1 + N.of_nat j) by lia. apply IH; [lia|exact H]. }
      specialize (HX keys id i HB Hi). apply in_rev in HX. apply in_split in HX as (M1 & M2 & HX). rewrite HX in *. now destruct (lookup_mid M1 M2 k (id + N.of_nat i) HD). }
    rewrite HG in Eg. cbn [fst] in Eg. destruct (str_map_get fuel s k) as [[v z]|]; [|discriminate]. cbn [bnd fst snd] in Eg. injection Eg as -> -> _. reflexivity.
Qed.
Print Assumptions str_map_ids.
Definition s0 : ent sdat := mkEnt 5 (Head 8) (mkSd [] 0).
Example ex_str_map : exists s, ssession 9 (str_map_create 1 (fun _ => None)) [SIns [65] 5 10 s0 true; SIns [65; 66] 6 20 s0 true; SIns [65] 7 30 s0 true; SRem [67]; SGet [65]; SRem [65]; SGet [65]; SGet [65; 66]]
  [Rc 0; Rc 0; Rc EEXIST; Rc ENOENT; Got 5 0; Rc 0; Got 0 ENOENT; Got 6 0] s.
Proof. match goal with |- exists d, ssession ?f ?d0 ?o ?r d => destruct (ran (srun f o d0) r) as (z & E) end; [vm_compute; reflexivity|]. exists z. now apply srun_ok. Qed.
Example ex_ids : bnd (str_map_id_init 9 (str_map_create 3 (fun _ => None)) [[65]; [66]; [67]] [(10, s0, true); (20, s0, true); (30, s0, true)] 100)
  (fun r => str_map_get 9 (snd r) [67]) = Some (102, 0%Z).
Proof. vm_compute. reflexivity. Qed.

(** A table of depth 0: the first operation divides by zero. *)
Theorem htbl_depth_zero_undefined hash cmp fuel m k len : hreach hash 0 (htbl_alloc 0 m) [] /\ htbl_find hash cmp fuel (htbl_alloc 0 m) k len = None.
Proof. split; [constructor|reflexivity]. Qed.
Print Assumptions htbl_depth_zero_undefined.
