(** Groups of sets (C61) *)
From Verif Require Import M_Group S_Group S_Info L_Info.
From Coq Require Import Lia String.
Local Open Scope Z_scope.

Lemma strip_app p t : strip p (p ++ t) = Some t.
Proof. induction p as [|a p IH]; cbn; [reflexivity|]. destruct (ascii_dec a a); [exact IH | congruence]. Qed.
Lemma strip_some p : forall t n, strip p t = Some n -> t = p ++ n.
Proof.
  induction p as [|a p IH]; intros t n; cbn; [congruence|]. destruct t as [|b t]; [discriminate|].
  destruct (ascii_dec a b) as [<-|]; [|discriminate]. intros H. rewrite (IH _ _ H). reflexivity.
Qed.
Lemma names_in l n : In n (names_of l) <-> In (kprefix ++ n) (keys l).
Proof.
  unfold names_of, keys. rewrite in_flat_map, in_map_iff. split.
  - intros [p [P H]]. unfold member_name in H. destruct (strip kprefix (fst p)) as [m|] eqn:E; [|destruct H]. destruct H as [->|[]]. apply strip_some in E. eauto.
  - intros [p [H P]]. exists p. split; [exact P|]. unfold member_name. rewrite H, strip_app. left; reflexivity.
Qed.
Lemma names_cons k v l : names_of ((k, v) :: l) = match member_name k with Some n => [n] | None => [] end ++ names_of l.
Proof. reflexivity. Qed.
Lemma names_nodup l : NoDup (keys l) -> NoDup (names_of l).
Proof.
  induction l as [|(k, v) l IH]; [constructor|]. intros N. apply NoDup_cons_iff in N as [N1 N2]. rewrite names_cons. unfold member_name. destruct (strip kprefix k) as [m|] eqn:E; [|exact (IH N2)].
  apply strip_some in E. cbn [app]. constructor; [|exact (IH N2)]. rewrite names_in. rewrite <- E. exact N1.
Qed.
Lemma find_key k l : find k l <> None <-> In k (keys l).
Proof.
  pose proof (find_none k l) as F. destruct (find k l) as [v|]; [|tauto]. split; [|discriminate]. intros _.
  destruct (in_dec (list_eq_dec ascii_dec) k (keys l)) as [X|X]; [exact X|]. apply F in X. discriminate X.
Qed.
Lemma key_fits n : member_key n = Some (kprefix ++ n) /\ fits n \/ member_key n = None /\ ~ fits n.
Proof.
  unfold member_key, fits. rewrite app_length. change (List.length kprefix) with 16%nat. rewrite Nat2Z.inj_add. change (Z.of_nat 16) with 16. destruct (512 <=? _) eqn:E; [right | left]; (split; [reflexivity|]); [apply Z.leb_le in E | apply Z.leb_gt in E]; clear -E; lia.
Qed.

(** One command: its effect on the own information, the result, and what is sent *)
Lemma gstep_ok s o s1 rc u : NoDup (keys (loc s)) -> gstep s o = (s1, rc, u) ->
  NoDup (keys (loc s1)) /\ rem s1 = rem s /\ published s1 = published s /\ (u = [] /\ s1 = s \/ u = upd s1) /\
  (forall n, In n (names_of (loc s1)) <-> match o with GAdd m => In n (names_of (loc s)) \/ (m = n /\ fits m) | GRm m => In n (names_of (loc s)) /\ ~ (m = n /\ fits m) end) /\
  (rc = 0 <-> fits (match o with GAdd m | GRm m => m end)).
Proof.
  intros N H. destruct o as [m|m]; cbn [gstep] in H; unfold group_add, group_rm in H; destruct (key_fits m) as [[K F]|[K F]]; rewrite K in H.
  - unfold set_info_set in H. destruct (info_set true true (loc s) (kprefix ++ m) (str "-")) as [l c] eqn:E.
    destruct (info_set_ok _ _ _ _ _ N E) as (N1 & FD & [(-> & -> & FK)|(-> & FK)]); cbn in H; injection H as <- <- <-; cbn [loc rem published].
    + split; [exact N|]. split; [reflexivity|]. split; [reflexivity|]. split; [left; destruct s; auto|]. split; [|tauto].
      intros n. rewrite !names_in. split; [auto|]. intros [X|[<- _]]; [exact X|]. apply find_key. congruence.
    + split; [exact N1|]. split; [reflexivity|]. split; [reflexivity|]. split; [right; reflexivity|]. split; [|tauto].
      intros n. rewrite !names_in, <- !find_key, FD. unfold put. destruct (list_eq_dec ascii_dec (kprefix ++ n) (kprefix ++ m)) as [X|X].
      * apply app_inv_head in X. subst. split; [auto | discriminate].
      * split; [auto|]. intros [Y|[<- _]]; [exact Y | congruence].
  - injection H as <- <- <-. split; [exact N|]. split; [reflexivity|]. split; [reflexivity|]. split; [auto|]. split; [intros n; tauto|]. unfold ENAMETOOLONG. split; [lia | tauto].
  - clear K. assert (INJ : forall n, kprefix ++ n = kprefix ++ m <-> n = m) by (intros n; split; [apply app_inv_head | intros ->; reflexivity]).
    remember (kprefix ++ m) as km eqn:KM. clear KM. unfold set_info_unset in H. destruct (find km (loc s)) as [v|] eqn:E; injection H as <- <- <-; cbn [loc rem published].
    + split; [apply nodup_remove; exact N|]. split; [reflexivity|]. split; [reflexivity|]. split; [right; reflexivity|]. split; [|tauto].
      intros n. rewrite !names_in, <- !find_key, find_remove by exact N. unfold put. destruct (list_eq_dec ascii_dec (kprefix ++ n) km) as [X|X].
      * apply INJ in X. split; [intros Z; exfalso; apply Z; reflexivity | intros [_ Z]; exfalso; apply Z; auto].
      * split; [|intros [Y _]; exact Y]. intros Y. split; [exact Y|]. intros [Z _]. apply X, INJ. auto.
    + split; [exact N|]. split; [reflexivity|]. split; [reflexivity|]. split; [auto|]. split; [|tauto]. intros n. rewrite !names_in, <- !find_key.
      split; [|intros [Y _]; exact Y]. intros Y. split; [exact Y|]. intros [Z _]. apply Y. symmetry in Z. apply INJ in Z. rewrite Z. exact E.
  - injection H as <- <- <-. split; [exact N|]. split; [reflexivity|]. split; [reflexivity|]. split; [auto|]. split; [intros n; tauto|]. unfold ENAMETOOLONG. split; [lia | tauto].
Qed.
Lemma is_member_iff l n : forall A B : Prop, (A <-> B) -> (is_member l n A <-> is_member l n B).
Proof. induction l as [|[m|m] r IH]; intros A B E; cbn; [exact E | apply IH; tauto | apply IH; tauto]. Qed.

(** Where the group is made, exactly the names that were added and not removed are members, each once *)
Theorem group_members l : let s := grun (mkI [] [] true) l in NoDup (members s) /\ forall n, In n (members s) <-> is_member l n False.
Proof.
  assert (G : forall l s, NoDup (keys (loc s)) -> rem s = [] -> NoDup (keys (loc (grun s l))) /\ rem (grun s l) = [] /\ forall n, In n (names_of (loc (grun s l))) <-> is_member l n (In n (names_of (loc s)))).
  { clear l. induction l as [|o r IH]; intros s N R; cbn [grun fold_left is_member]; [split; [exact N|]; split; [exact R | tauto]|].
    destruct (gstep s o) as [[s1 rc] u] eqn:E. cbn [fst]. destruct (gstep_ok _ _ _ _ _ N E) as (N1 & R1 & _ & _ & M & _).
    destruct (IH s1 N1) as (A1 & A2 & A3); [congruence|]. split; [exact A1|]. split; [exact A2|]. intros n. fold (grun s1 r). rewrite A3. destruct o; apply is_member_iff; apply M. }
  cbn zeta. destruct (G l (mkI [] [] true)) as (A1 & A2 & A3); [constructor | reflexivity|]. unfold members. rewrite A2. cbn [names_of flat_map]. rewrite app_nil_r.
  split; [apply names_nodup; exact A1|]. intros n. rewrite A3. reflexivity.
Qed.
(** A command succeeds exactly if the name is not too long *)
Theorem group_result l o s1 rc u : gstep (grun (mkI [] [] true) l) o = (s1, rc, u) -> (rc = 0 <-> fits (match o with GAdd m | GRm m => m end)).
Proof.
  assert (G : forall l s, NoDup (keys (loc s)) -> NoDup (keys (loc (grun s l)))).
  { clear. induction l as [|o r IH]; intros s N; cbn; [exact N|]. destruct (gstep s o) as [[s1 rc] u] eqn:E. apply IH. exact (proj1 (gstep_ok _ _ _ _ _ N E)). }
  intros H. refine (proj2 (proj2 (proj2 (proj2 (proj2 (gstep_ok _ _ _ _ _ _ H)))))). apply G. constructor.
Qed.
Example group_members_ex : members (grun (mkI [] [] true) [GAdd (str "a/x"); GAdd (str "b/y"); GAdd (str "a/x"); GRm (str "b/y"); GAdd (str "c")]) = [str "c"; str "a/x"].
Proof. vm_compute. reflexivity. Qed.

(** An aggregator's copy has the same members, as long as the group was never emptied *)
Definition never_empty (l : list gop) : Prop := forall a b, l = a ++ b -> a <> [] -> loc (grun (mkI [] [] true) a) <> [].
Theorem group_mirrored_partial l : never_empty l -> let '(s, r) := both_run (mkI [] [] true, mkI [] [] true) l in
  s = grun (mkI [] [] true) l /\ forall n, In n (members r) <-> In n (members s).
Proof.
  intros NE. unfold both_run.
  assert (G : forall b a s r, l = a ++ b -> s = grun (mkI [] [] true) a -> NoDup (keys (loc s)) -> rem s = [] -> published s = true -> loc r = [] -> NoDup (keys (rem r)) -> (forall x, find x (rem r) = find x (loc s)) ->
    let '(s1, r1) := fold_left both b (s, r) in s1 = grun (mkI [] [] true) l /\ rem s1 = [] /\ loc r1 = [] /\ forall x, find x (rem r1) = find x (loc s1)).
  { induction b as [|o b IH]; intros a s r L S N R P LR NR F; cbn [fold_left].
    - rewrite app_nil_r in L. subst a. auto.
    - unfold both at 2. cbn [fst snd]. destruct (gstep s o) as [[s1 rc] u] eqn:E. destruct (gstep_ok _ _ _ _ _ N E) as (N1 & R1 & P1 & U & _).
      assert (S1 : s1 = grun (mkI [] [] true) (a ++ [o])). { unfold grun. rewrite fold_left_app. fold (grun (mkI [] [] true) a). rewrite <- S. cbn. rewrite E. reflexivity. }
      assert (L1 : l = (a ++ [o]) ++ b) by (rewrite <- app_assoc; exact L). rewrite P in P1. rewrite R in R1.
      assert (H1 : loc s1 <> []). { rewrite S1. apply (NE (a ++ [o]) b L1). destruct a; discriminate. }
      destruct U as [[-> ->]|U]; [cbn [fold_left]; apply (IH (a ++ [o])); assumption|].
      unfold upd in U. rewrite P1 in U. rewrite U. cbn [fold_left].
      assert (SH : shown_info s1 = loc s1) by (unfold shown_info, shown; cbn; rewrite R1; cbn; apply app_nil_r). rewrite SH.
      destruct (dir_info true r (loc s1)) as [r1 u1] eqn:D. destruct (dir_info_ok _ _ _ _ _ NR H1 D) as (Q1 & _ & Q3 & Q4 & _). cbn [fst].
      apply (IH (a ++ [o])); auto; [congruence|]. intros x. rewrite Q4. apply (said_tells (loc s1) (fun x => find x (loc s1))). split; [exact N1|]. intros k v. symmetry. apply find_in. exact N1. }
  specialize (G l [] (mkI [] [] true) (mkI [] [] true) eq_refl eq_refl). cbn [loc rem published] in G.
  specialize (G (NoDup_nil _) eq_refl eq_refl eq_refl (NoDup_nil _) (fun _ => eq_refl)).
  destruct (fold_left both l (mkI [] [] true, mkI [] [] true)) as [s r]. destruct G as (G1 & G2 & G3 & G4). split; [exact G1|].
  intros n. unfold members. rewrite G2, G3. cbn [names_of flat_map app]. rewrite app_nil_r, !names_in, <- !find_key, G4. tauto.
Qed.
Example group_mirrored_ex : let '(s, r) := both_run (mkI [] [] true, mkI [] [] true) [GAdd (str "a"); GAdd (str "b"); GRm (str "a"); GAdd (str "c")] in
  members s = [str "c"; str "b"] /\ forall n, In n (members r) <-> In n [str "c"; str "b"].
Proof. vm_compute. split; [reflexivity|]. intros n; tauto. Qed.
(** When the last member is removed, the aggregators keep it *)
Theorem group_last_member_refuted : exists l n, let '(s, r) := both_run (mkI [] [] true, mkI [] [] true) l in members s = [] /\ In n (members r).
Proof. exists [GAdd (str "a"); GAdd (str "b"); GRm (str "a"); GRm (str "b")], (str "b"). vm_compute. split; [reflexivity | left; reflexivity]. Qed.
(** A member that an aggregator adds to its copy is given to the callback twice when it is there already,
    and cannot be removed there although that reports success *)
Theorem group_copy_refuted : exists r n s1 u1 s2 u2, members r = [n] /\ gstep r (GAdd n) = (s1, 0, u1) /\ ~ NoDup (members s1) /\
  gstep s1 (GRm n) = (s2, 0, u2) /\ In n (members s2).
Proof.
  exists (mkI [] [(kprefix ++ str "a", str "-")] true), (str "a"). do 4 eexists.
  split; [vm_compute; reflexivity|]. split; [vm_compute; reflexivity|]. split.
  - vm_compute. intros N. inversion_clear N as [|? ? N1 N2]. apply N1. left; reflexivity.
  - split; [vm_compute; reflexivity|]. vm_compute. left; reflexivity.
Qed.

Print Assumptions group_members.
Print Assumptions group_result.
Print Assumptions group_mirrored_partial.
Print Assumptions group_last_member_refuted.
Print Assumptions group_copy_refuted.
