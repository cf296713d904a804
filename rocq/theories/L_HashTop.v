(** Lemmas about the hash table, the JSON dictionary and the string map. *)
From Verif Require Export S_Hash L_Hash.
Local Open Scope N_scope.

Lemma perm_filter {A} (f g : A -> bool) L : (forall x, f x && g x = false) -> Permutation (filter f L ++ filter g L) (filter (fun x => f x || g x) L).
Proof.
  intros H. induction L as [|x L IH]; [constructor|]. cbn [filter]. specialize (H x). destruct (f x), (g x); cbn [andb orb app] in *; try discriminate; auto.
  now rewrite <- Permutation_middle, IH.
Qed.
Lemma filter_all {A} (f : A -> bool) L : (forall x, In x L -> f x = true) -> filter f L = L.
Proof. induction L as [|x L IH]; intros H; [reflexivity|]. cbn [filter]. rewrite (H x) by now left. f_equal. apply IH. intros y Hy. apply H. now right. Qed.

Section H.
Variable hash : list byte -> N -> N.
Variable depth : N.
Hypothesis Hd : 0 < depth.
Definition bkt (d : hdat) : N := hash (key d) (key_len d) mod depth.
Definition hinv (t : htbl) (L : list (N * hdat)) : Prop :=
  table bkt (lists t) L /\ table_depth t = depth /\ entry_count t = N.of_nat (length L) mod H64.

Lemma bucket_eq t k len : table_depth t = depth -> bucket hash t k len = Some (hash k len mod depth).
Proof. intros E. unfold bucket. rewrite E, (proj2 (N.eqb_neq _ _)); [reflexivity|lia]. Qed.
Lemma hinv_ins t L a e : hinv t L -> en (lists t) a = Some e -> a <> 0 -> ~ In a (map fst L) ->
  exists t', htbl_ins hash t a = Some t' /\ hinv t' ((a, dat e) :: L) /\ (forall x, x <> a -> ~ In x (map fst L) -> en (lists t') x = en (lists t) x).
Proof.
  intros (HT & HD & HC) Ea Ha Hn. unfold htbl_ins. rewrite Ea. cbn [bnd]. rewrite bucket_eq by exact HD. cbn [bnd].
  destruct (table_insert bkt _ _ _ _ HT Ea Ha Hn) as (s' & E & T' & F). unfold bkt in E. rewrite E. cbn [bnd]. eexists. split; [reflexivity|]. split; [|exact F].
  split; [exact T'|]. split; [exact HD|]. cbn [entry_count length]. rewrite HC. rewrite N.add_mod_idemp_l by (unfold H64; lia). f_equal. lia.
Qed.
Lemma hinv_del t L1 a d L2 : hinv t (L1 ++ (a, d) :: L2) ->
  exists t', htbl_del t a = Some t' /\ hinv t' (L1 ++ L2) /\ en (lists t') a = en (lists t) a /\ (forall x, ~ In x (map fst (L1 ++ L2)) -> en (lists t') x = en (lists t) x).
Proof.
  intros (HT & HD & HC). unfold htbl_del. destruct (table_remove bkt _ _ _ _ _ HT) as (s' & E & T' & F1 & F2). rewrite E. cbn [bnd].
  eexists. split; [reflexivity|]. split; [|split; [exact F1|exact F2]]. split; [exact T'|]. split; [exact HD|]. cbn [entry_count]. rewrite HC, !app_length. cbn [length].
  rewrite N.add_mod_idemp_l by (unfold H64; lia). replace (N.of_nat (length L1 + S (length L2)) + (H64 - 1)) with (N.of_nat (length L1 + length L2) + 1 * H64) by (unfold H64; lia).
  apply N.mod_add. unfold H64. lia.
Qed.
Lemma hinv_put t L a e : hinv t L -> ~ In a (map fst L) -> hinv (mkHt (table_depth t) (entry_count t) (put (lists t) a e)) L.
Proof. intros (HT & HD & HC) Hn. split; [|split; [exact HD|exact HC]]. now apply table_put. Qed.
Lemma hinv_drop t L a : hinv t L -> ~ In a (map fst L) -> en (lists t) a <> None ->
  exists s', drop (lists t) a = Some s' /\ hinv (mkHt (table_depth t) (entry_count t) s') L /\ (forall x, x <> a -> en s' x = en (lists t) x) /\ en s' a = None.
Proof.
  intros (HT & HD & HC) Hn Ha. destruct (table_drop bkt _ _ _ HT Hn Ha) as (s' & E & T' & F). exists s'. split; [exact E|]. split; [|exact F]. split; [exact T'|]. now split.
Qed.
Lemma hreach_inv t L : hreach hash depth t L -> hinv t L.
Proof.
  induction 1 as [m|t L a e _ IH Hn|t L a e t' _ IH Ha Hn Ea E|t L1 a d L2 t' _ IH E].
  - split; [apply table_empty|]. now split.
  - now apply hinv_put.
  - destruct (hinv_ins _ _ _ _ IH Ea Ha Hn) as (t1 & E1 & HI & _). rewrite E in E1. now injection E1 as ->.
  - destruct (hinv_del _ _ _ _ _ IH) as (t1 & E1 & HI & _). rewrite E in E1. now injection E1 as ->.
Qed.
Lemma hfind_ok cmp fuel t L k len : hinv t L -> (length L < fuel)%nat ->
  htbl_find hash cmp fuel t k len = Some match find (fun x => (bkt (snd x) =? hash k len mod depth) && cmp (key (snd x)) k len) L with Some x => fst x | None => 0 end.
Proof.
  intros (HT & HD & HC) Hf. unfold htbl_find. rewrite bucket_eq by exact HD. cbn [bnd]. now rewrite (foreach_ok bkt _ L) by assumption.
Qed.
Lemma find_none' {A} (f : A -> bool) L : find f L = None -> forall x, In x L -> f x = false.
Proof. intros H x Hx. destruct (f x) eqn:E; [|reflexivity]. now rewrite (find_none f L H x Hx) in E. Qed.
Lemma find_split {A} (f : A -> bool) L x : find f L = Some x -> exists L1 L2, L = L1 ++ x :: L2 /\ f x = true /\ forall y, In y L1 -> f y = false.
Proof.
  induction L as [|y L IH]; intros H; [discriminate|]. cbn [find] in H. destruct (f y) eqn:E.
  - injection H as ->. exists [], L. split; [reflexivity|]. split; [exact E|]. intros z [].
  - destruct (IH H) as (L1 & L2 & -> & H1 & H2). exists (y :: L1), L2. split; [reflexivity|]. split; [exact H1|]. intros z [<-|Hz]; auto.
Qed.
Lemma hfind_latest cmp fuel t L k len : hinv t L -> (length L < fuel)%nat ->
  (forall a d, In (a, d) L -> bkt d = hash k len mod depth -> cmp (key d) k len = true <-> key d = k /\ key_len d = len) ->
  exists a, htbl_find hash cmp fuel t k len = Some a /\ latest L k len a.
Proof.
  intros HI Hf Hc. rewrite (hfind_ok cmp fuel t L k len HI Hf). eexists. split; [reflexivity|].
  assert (HE : forall a d, In (a, d) L -> (bkt d =? hash k len mod depth) && cmp (key d) k len = true <-> key d = k /\ key_len d = len).
  { intros a d Hin. rewrite Bool.andb_true_iff, N.eqb_eq. split.
    - intros [H1 H2]. now apply (Hc a d Hin H1).
    - intros [H1 H2]. assert (Hb : bkt d = hash k len mod depth) by (unfold bkt; now rewrite H1, H2). split; [exact Hb|]. now apply (Hc a d Hin Hb). }
  destruct (find _ L) as [[a d]|] eqn:E.
  - right. apply find_split in E as (L1 & L2 & -> & H1 & H2). exists L1, d, L2. cbn [fst snd] in *. split; [reflexivity|].
    assert (Hin : In (a, d) (L1 ++ (a, d) :: L2)) by (apply in_or_app; right; now left).
    split; [destruct HI as (HT & _); now destruct (table_in bkt _ _ _ _ HT Hin)|]. apply (HE a d Hin) in H1 as [H1 H3]. split; [exact H1|]. split; [exact H3|].
    intros b c Hb Hk. specialize (H2 _ Hb). cbn [snd] in H2. rewrite (proj2 (HE b c (in_or_app _ _ _ (or_introl Hb)))) in H2 by exact Hk. discriminate.
  - left. split; [reflexivity|]. intros b d Hb Hk. pose proof (find_none' _ _ E _ Hb) as H. cbn [snd] in H. rewrite (proj2 (HE b d Hb)) in H by exact Hk. discriminate.
Qed.

(** Iteration *)
Fixpoint ord (n : nat) (h : N) (L : list (N * hdat)) : list (N * hdat) :=
  match n with O => [] | S n => filter (inb bkt h) L ++ ord n (h + 1) L end.
Lemma ord_perm L n : forall h, Permutation (ord n h L) (filter (fun x => (h <=? bkt (snd x)) && (bkt (snd x) <? h + N.of_nat n)) L).
Proof.
  induction n as [|n IH]; intros h; cbn [ord].
  - replace (filter _ L) with (@nil (N * hdat)); [constructor|]. symmetry. induction L as [|x L IHL]; [reflexivity|]. cbn [filter]. rewrite IHL.
    destruct (N.leb_spec h (bkt (snd x))), (N.ltb_spec (bkt (snd x)) (h + N.of_nat 0)); cbn [andb]; try reflexivity. lia.
  - rewrite IH. rewrite perm_filter.
    + apply Permutation_refl'. apply filter_ext. intros x. unfold inb.
      destruct (N.eqb_spec (bkt (snd x)) h), (N.leb_spec (h + 1) (bkt (snd x))), (N.ltb_spec (bkt (snd x)) (h + 1 + N.of_nat n)), (N.leb_spec h (bkt (snd x))), (N.ltb_spec (bkt (snd x)) (h + N.of_nat (S n))); cbn [andb orb]; try reflexivity; lia.
    + intros x. unfold inb. destruct (N.eqb_spec (bkt (snd x)) h), (N.leb_spec (h + 1) (bkt (snd x))); cbn [andb]; try reflexivity. lia.
Qed.
Lemma ord_all L : Permutation (ord (N.to_nat depth) 0 L) L.
Proof.
  rewrite ord_perm. rewrite filter_all; [reflexivity|]. intros x _. unfold bkt. pose proof (N.mod_lt (hash (key (snd x)) (key_len (snd x))) depth ltac:(lia)).
  destruct (N.ltb_spec (hash (key (snd x)) (key_len (snd x)) mod depth) (0 + N.of_nat (N.to_nat depth))); [|lia]. now destruct (N.leb_spec 0 (hash (key (snd x)) (key_len (snd x)) mod depth)); [|lia].
Qed.
Lemma iter_ok t L : hinv t L -> forall n h xs l p fuel, chain (lists t) l p xs -> (forall x, In x xs -> inb bkt h x = true) ->
  N.to_nat (depth - (h + 1)) = n -> h < depth ->
  (length xs + length (ord n (h + 1) L) < fuel)%nat ->
  iterate hash fuel t (if p =? 0 then first_from t n (h + 1) else p) = Some (map fst (xs ++ ord n (h + 1) L)).
Proof.
  intros (HT & HD & HC). induction n as [|n IHn]; intros h xs; induction xs as [|[x d] xs IHx]; intros l p fuel C Hb Hn Hh Hf; cbn [chain] in C.
  - subst p. cbn [N.eqb first_from]. destruct fuel as [|fuel]; [lia|]. reflexivity.
  - destruct C as (-> & Hx & e & E1 & E2 & E3 & C). rewrite (proj2 (N.eqb_neq _ _) Hx). destruct fuel as [|fuel]; [lia|]. cbn [iterate]. rewrite (proj2 (N.eqb_neq _ _) Hx).
    unfold htbl_next. rewrite E1. cbn [bnd].
    assert (Eb : hash (key (dat e)) (key_len (dat e)) mod depth = h) by (specialize (Hb (x, d) (or_introl eq_refl)); unfold inb, bkt in Hb; cbn [snd] in Hb; subst d; lia).
    assert (EN : (if nx e =? 0 then bnd (bucket hash t (key (dat e)) (key_len (dat e))) (fun h => Some (first_from t (N.to_nat (table_depth t - (h + 1))) (h + 1))) else Some (nx e)) = Some (if nx e =? 0 then first_from t 0 (h + 1) else nx e)).
    { rewrite bucket_eq by exact HD. cbn [bnd]. rewrite Eb, HD, Hn. now destruct (nx e =? 0). }
    rewrite EN. cbn [bnd]. rewrite (IHx (Next x) (nx e) fuel C); [reflexivity|intros y Hy; apply Hb; now right|exact Hn|exact Hh|cbn [length] in Hf; lia].
  - subst p. cbn [N.eqb]. cbn [first_from app ord]. cbn [length ord] in Hf.
    pose proof (tb_lists bkt _ _ HT (h + 1)) as C. unfold islist in C.
    apply (IHn (h + 1) (filter (inb bkt (h + 1)) L) (Head (h + 1)) (hd1 (lists t) (h + 1)) fuel C); [|lia|lia|rewrite app_length in Hf; lia].
    intros y Hy. now apply filter_In in Hy.
  - destruct C as (-> & Hx & e & E1 & E2 & E3 & C). rewrite (proj2 (N.eqb_neq _ _) Hx). destruct fuel as [|fuel]; [lia|]. cbn [iterate]. rewrite (proj2 (N.eqb_neq _ _) Hx).
    unfold htbl_next. rewrite E1. cbn [bnd].
    assert (Eb : hash (key (dat e)) (key_len (dat e)) mod depth = h) by (specialize (Hb (x, d) (or_introl eq_refl)); unfold inb, bkt in Hb; cbn [snd] in Hb; subst d; lia).
    assert (EN : (if nx e =? 0 then bnd (bucket hash t (key (dat e)) (key_len (dat e))) (fun h => Some (first_from t (N.to_nat (table_depth t - (h + 1))) (h + 1))) else Some (nx e)) = Some (if nx e =? 0 then first_from t (S n) (h + 1) else nx e)).
    { rewrite bucket_eq by exact HD. cbn [bnd]. rewrite Eb, HD, Hn. now destruct (nx e =? 0). }
    rewrite EN. cbn [bnd]. rewrite (IHx (Next x) (nx e) fuel C); [reflexivity|intros y Hy; apply Hb; now right|exact Hn|exact Hh|cbn [length] in Hf; lia].
Qed.
Lemma iterate_ok t L fuel : hinv t L -> (length L < fuel)%nat -> exists l, iterate hash fuel t (htbl_first t) = Some l /\ Permutation l (map fst L).
Proof.
  intros HI Hf. pose proof (ord_all L) as HP. pose proof (Permutation_length HP) as HL. destruct HI as (HT & HD & HC). unfold htbl_first. rewrite HD.
  destruct (N.to_nat depth) as [|n] eqn:En; [lia|]. cbn [first_from ord] in *.
  pose proof (tb_lists bkt _ _ HT 0) as C. unfold islist in C.
  rewrite (iter_ok t L (conj HT (conj HD HC)) n 0 (filter (inb bkt 0) L) (Head 0) (hd1 (lists t) 0) fuel C); [|intros y Hy; now apply filter_In in Hy|lia|lia|rewrite app_length in HL; cbn [N.add] in HL; cbn [N.add]; lia].
  eexists. split; [reflexivity|]. now apply Permutation_map.
Qed.
Lemma first_in t L : hinv t L -> L <> [] -> exists d, In (htbl_first t, d) L.
Proof.
  intros HI HL. destruct (iterate_ok t L (S (S (length L))) HI ltac:(lia)) as (l & E & HP). cbn [iterate] in E.
  destruct (N.eqb_spec (htbl_first t) 0) as [E0|E0].
  - injection E as <-. apply Permutation_nil in HP. destruct L; [congruence|discriminate].
  - destruct (htbl_next hash t (htbl_first t)) as [n|]; [|discriminate]. cbn [bnd] in E. destruct (if n =? 0 then _ else _) as [l'|]; [|discriminate]. cbn [bnd] in E. injection E as <-.
    assert (H : In (htbl_first t) (map fst L)) by (eapply Permutation_in; [exact HP|now left]). apply in_map_iff in H as ([a d] & Ea & H). cbn [fst] in Ea. subst a. now exists d.
Qed.
End H.
