From Verif Require Import M_Strgp S_Strgp.
From Coq Require Import Lia.

Lemma eqs_eq a b : eqs a b = true <-> a = b.
Proof.
  revert b. induction a as [|x a IH]; intros [|y b]; cbn; try (split; congruence).
  rewrite andb_true_iff, Nat.eqb_eq, IH. split; [intros [-> ->]; reflexivity | intros [= -> ->]; auto].
Qed.
Lemma by_name_nth ms m i : by_name ms m = Some i -> nth_error ms i = Some m.
Proof.
  revert i. induction ms as [|x r IH]; intros i; cbn; [discriminate|]. destruct (Nat.eqb x m) eqn:E; [apply Nat.eqb_eq in E; intros [= <-]; cbn; congruence|].
  destruct (by_name r m) as [k|]; [|discriminate]. intros [= <-]. cbn. auto.
Qed.
Lemma by_name_in ms m : In m ms -> by_name ms m <> None.
Proof.
  induction ms as [|x r IH]; cbn; [tauto|]. intros [->|H]; [rewrite Nat.eqb_refl; discriminate|].
  destruct (Nat.eqb x m); [discriminate|]. specialize (IH H). destruct (by_name r m); [discriminate | congruence].
Qed.
Lemma indices_named ms l a : indices ms l = Some a -> named ms a l.
Proof.
  unfold named. revert a. induction l as [|m r IH]; intros a; cbn; [intros [= <-]; reflexivity|].
  destruct (by_name ms m) as [i|] eqn:E; [|discriminate]. destruct (indices ms r) as [b|]; [|discriminate]. intros [= <-]. cbn.
  rewrite (by_name_nth _ _ _ E), (IH b eq_refl). reflexivity.
Qed.
Lemma indices_some ms l : incl l ms -> indices ms l <> None.
Proof.
  induction l as [|m r IH]; intros I; cbn; [discriminate|]. pose proof (by_name_in ms m (I m (or_introl eq_refl))) as B.
  destruct (by_name ms m); [|congruence]. assert (K : indices ms r <> None) by (apply IH; intros x X; apply I; right; exact X). destruct (indices ms r); [discriminate | congruence].
Qed.

Definition names (s : state) : list nat := map p_name (sets s).
Record inv (s : state) : Prop := {
  i_names : NoDup (names s);
  i_handle : handle s = true -> running s = true /\ exists d, digest s = Some d /\ indices d (mlist s) = Some (arry s);
  i_ref : forall p, In p (sets s) -> p_ref p = true -> p_match p = true /\ running s = true /\ handle s = true /\ digest s = Some (p_metrics p)
}.
Lemma in_put p q s : In q (sets (put_set p s)) <-> (q = p /\ In (p_name p) (names s)) \/ (In q (sets s) /\ p_name q <> p_name p).
Proof.
  cbn [put_set sets]. unfold names. rewrite in_map_iff. split.
  - intros [x [H K]]. destruct (Nat.eqb (p_name x) (p_name p)) eqn:E; [apply Nat.eqb_eq in E | apply Nat.eqb_neq in E]; subst q.
    + left. split; [reflexivity|]. rewrite <- E. apply in_map; exact K.
    + right; auto.
  - intros [[-> H]|[H K]].
    + apply in_map_iff in H as [x [H K]]. exists x. rewrite H, Nat.eqb_refl; auto.
    + exists q. destruct (Nat.eqb (p_name q) (p_name p)) eqn:E; [apply Nat.eqb_eq in E; congruence | auto].
Qed.
Lemma put_names p s : names (put_set p s) = names s.
Proof.
  unfold names; cbn [put_set sets]. rewrite map_map. apply map_ext. intros q. destruct (Nat.eqb (p_name q) (p_name p)) eqn:E; [apply Nat.eqb_eq in E; congruence | reflexivity].
Qed.
Lemma same_name s p q : NoDup (names s) -> In p (sets s) -> In q (sets s) -> p_name p = p_name q -> p = q.
Proof.
  unfold names. induction (sets s) as [|x r IH]; cbn; [tauto|]. intros N A B E. inversion_clear N as [|? ? N1 N2].
  destruct A as [->|A], B as [->|B]; auto; exfalso; apply N1; [rewrite E | rewrite <- E]; apply in_map; assumption.
Qed.

Definition others (p : pset) (s s1 : state) : Prop := forall q, p_name q <> p_name p -> In q (sets s) <-> In q (sets s1).
(** What attaching does: nothing, or the open failed, or the set is attached *)
Lemma attach_inv ok p s : inv s -> In p (sets s) -> running s = true ->
  let s1 := attach ok p s in inv s1 /\ running s1 = true /\ names s1 = names s /\ others p s s1.
Proof.
  intros I IN R. unfold attach. destruct (negb (p_match p) || p_ref p) eqn:E1; [unfold others; intuition|].
  apply orb_false_iff in E1 as [E1 E2]. apply negb_false_iff in E1.
  destruct (match digest s with Some d => negb (eqs d (p_metrics p)) | None => false end) eqn:E3; [unfold others; intuition|].
  assert (D : digest s = None \/ digest s = Some (p_metrics p)).
  { destruct (digest s) as [d|]; [|auto]. apply negb_false_iff, eqs_eq in E3. right; congruence. }
  destruct (handle s) eqn:H.
  - destruct (i_handle _ I H) as (_ & d & D1 & D2). assert (d = p_metrics p) by (destruct D; congruence). subst d.
    cbn zeta. split; [split|split; [|split]].
    + unfold names; cbn [add_cnt sets]. apply (eq_ind_r (@NoDup nat) (i_names _ I) (put_names (with_ref true p) s)).
    + cbn. intros _. split; [exact R|]. eauto.
    + intros q Q F. cbn [add_cnt sets] in Q. apply in_put in Q as [[-> _]|[Q _]]; [cbn; auto|]. exact (i_ref _ I q Q F).
    + exact R.
    + apply (put_names (with_ref true p) s).
    + intros q N. cbn [add_cnt sets]. rewrite in_put. cbn [with_ref p_name]. cbn; split; [intros X; right; auto | intros [[X _]|[X _]]; [subst q; cbn in N; congruence | exact X]].
  - unfold open. set (l := match mlist s with [] => p_metrics p | l => l end).
    assert (NR : forall q, In q (sets s) -> p_ref q = false).
    { intros q Q. destruct (p_ref q) eqn:F; [|reflexivity]. destruct (i_ref _ I q Q F) as (_ & _ & X & _). congruence. }
    assert (FAIL : let s1 := mkSt (running s) false (digest s) l [] (cnt s) (arrays s) (sets s) in inv s1 /\ running s1 = true /\ names s1 = names s /\ others p s s1).
    { cbn zeta. split; [split|split; [|split]]; cbn [running handle digest mlist arry sets]; auto; try discriminate; try (exact (i_names _ I)); try reflexivity.
      - intros q Q F. rewrite (NR q Q) in F. discriminate F.
      - unfold others; cbn; tauto. }
    destruct (match digest s with Some d => eqs d (p_metrics p) | None => true end); [|exact FAIL].
    destruct (indices (p_metrics p) l) as [a|] eqn:A; [|exact FAIL]. destruct ok; [|exact FAIL].
    cbn zeta. set (s2 := mkSt (running s) true (Some (p_metrics p)) l a (cnt s) (S (arrays s)) (sets s)).
    split; [split|split; [|split]].
    + apply (eq_ind_r (@NoDup nat) (i_names _ I) (put_names (with_ref true p) s2)).
    + cbn. intros _. split; [exact R|]. eauto.
    + intros q Q F. cbn [add_cnt sets] in Q. apply in_put in Q as [[-> _]|[Q _]]; [cbn; auto|]. cbn [s2 sets] in Q. rewrite (NR q Q) in F. discriminate F.
    + exact R.
    + apply (put_names (with_ref true p) s2).
    + intros q N. cbn [add_cnt sets]. rewrite in_put. cbn. split; [intros X; right; auto | intros [[X _]|[X _]]; [subst q; cbn in N; congruence | exact X]].
Qed.
Lemma attach_all_inv ok : forall l s, inv s -> incl l (sets s) -> NoDup (map p_name l) -> running s = true ->
  let s1 := attach_all ok l s in inv s1 /\ running s1 = true /\ names s1 = names s.
Proof.
  induction l as [|p r IH]; intros s I IN ND R; cbn [attach_all]; [auto|]. inversion_clear ND as [|? ? N1 N2].
  destruct (attach_inv ok p s I (IN p (or_introl eq_refl)) R) as (I1 & R1 & NM & OT).
  destruct (IH (attach ok p s)) as (I2 & R2 & NM2); auto.
  - intros q Q. apply OT; [|apply IN; right; exact Q]. intros X. apply N1. rewrite <- X. apply in_map; exact Q.
  - cbn zeta. rewrite NM2, NM. auto.
Qed.

Lemma find_set_some i l p : find_set i l = Some p -> In p l /\ p_name p = i.
Proof. unfold find_set. intros H. apply find_some in H as [H K]. apply Nat.eqb_eq in K. auto. Qed.
Lemma find_set_none i l : find_set i l = None -> ~ In i (map p_name l).
Proof.
  unfold find_set. intros H K. apply in_map_iff in K as [p [K L]]. apply (find_none _ _ H) in L. rewrite K, Nat.eqb_refl in L. discriminate.
Qed.
Lemma in_detach q s : In q (map detach (sets s)) -> exists p, In p (sets s) /\ q = detach p.
Proof. intros H. apply in_map_iff in H as [p [H K]]. eauto. Qed.
Lemma detach_name p : p_name (detach p) = p_name p. Proof. unfold detach. destruct (_ && _); reflexivity. Qed.

Lemma step_inv s o s1 x : inv s -> step s o = (s1, x) -> inv s1.
Proof.
  intros I H. pose proof I as [K1 K2 K3]. destruct o; cbn [step] in H.
  - destruct (running s) eqn:R; injection H as <- <-; [exact I|].
    assert (HF : handle s = false) by (destruct (handle s); [destruct (K2 eq_refl) as [X _]; congruence | reflexivity]).
    apply attach_all_inv; cbn [set_running sets running]; auto; [|apply incl_refl].
    split; cbn [set_running sets running handle digest mlist arry]; [exact K1 | congruence|].
    intros p P F. destruct (K3 p P F) as (_ & X & _). congruence.
  - destruct (running s) eqn:R; injection H as <- <-; [|exact I].
    split; cbn [set_sets set_running set_handle sets running handle digest mlist arry]; [|discriminate|].
    + unfold names; cbn. rewrite map_map. rewrite (map_ext _ p_name detach_name). exact K1.
    + intros q Q F. apply in_detach in Q as [p [P ->]]. exfalso. unfold detach in F. destruct (p_match p && p_ref p) eqn:E; [discriminate F|].
      destruct (K3 p P F) as (X & _). rewrite X, F in E. discriminate E.
  - destruct (running s) eqn:R; [injection H as <- <-; exact I|]. destruct (member m (mlist s)); injection H as <- <-; [exact I|].
    split; cbn [set_list sets running handle digest mlist arry]; auto.
    + intros X. destruct (K2 X) as [Y _]. congruence.
    + rewrite R. exact K3.
  - destruct (running s) eqn:R; [injection H as <- <-; exact I|]. destruct (member m (mlist s)); injection H as <- <-; [|exact I].
    split; cbn [set_list sets running handle digest mlist arry]; auto.
    + intros X. destruct (K2 X) as [Y _]. congruence.
    + rewrite R. exact K3.
  - destruct (find_set i (sets s)) eqn:F; injection H as <- <-; [exact I|]. apply find_set_none in F.
    assert (I1 : inv (set_sets (mkP i ms match_ false :: sets s) s)).
    { split; cbn [set_sets sets running handle digest mlist arry]; auto.
      - constructor; assumption.
      - intros p [<-|P] X; [discriminate X | exact (K3 p P X)]. }
    cbn [set_sets running]. destruct (running s) eqn:R; [|exact I1].
    apply (attach_inv ok); [exact I1 | left; reflexivity | exact R].
  - destruct (find_set i (sets s)) as [p|] eqn:F; injection H as <- <-; [|exact I].
    split; cbn [add_cnt set_sets sets running handle digest mlist arry]; auto.
    + unfold names in *; cbn. clear -K1. induction (sets s) as [|y r IH]; cbn in *; [constructor|]. inversion_clear K1 as [|? ? N1 N2].
      destruct (Nat.eqb (p_name y) i); cbn; [auto|]. constructor; [|auto]. intros X. apply N1. apply in_map_iff in X as [z [Z1 Z2]]. apply filter_In in Z2 as [Z2 _]. rewrite <- Z1. apply in_map; exact Z2.
    + intros q Q X. apply filter_In in Q as [Q _]. exact (K3 q Q X).
  - destruct (find_set i (sets s)) as [p|] eqn:F; [|injection H as <- <-; exact I].
    apply find_set_some in F as [F _]. destruct (p_ref p && running s) eqn:E; [|injection H as <- <-; exact I].
    apply andb_true_iff in E as [E1 E2]. destruct (K3 p F E1) as (_ & _ & X & _). rewrite X in H. injection H as <- <-. exact I.
Qed.
Lemma init_inv : inv init.
Proof. split; cbn; [constructor | discriminate | intros p []]. Qed.
Lemma run_step_inv (P : state -> Prop) (Q : op -> Prop) : (forall s o s1 x, P s -> Q o -> step s o = (s1, x) -> P s1) ->
  forall l s s1 xs, P s -> (forall o, In o l -> Q o) -> run s l = (s1, xs) -> P s1.
Proof.
  intros ST. induction l as [|o r IH]; intros s s1 xs I QS H; cbn in H; [injection H as <- <-; exact I|].
  destruct (step s o) as [s2 x] eqn:E. destruct (run s2 r) as [s3 ys] eqn:R. injection H as <- <-.
  refine (IH s2 s3 ys _ _ R); [|intros o1 X; apply QS; right; exact X]. eapply ST; [exact I | apply QS; left; reflexivity | exact E].
Qed.
Lemma run_inv l s xs : run init l = (s, xs) -> inv s.
Proof. intros H. refine (run_step_inv inv (fun _ => True) _ l init s xs init_inv (fun _ _ => Logic.I) H). intros s0 o s1 x I _ E. eapply step_inv; eassumption. Qed.
