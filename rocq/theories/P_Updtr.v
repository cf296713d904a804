(** C58: the tasks of updaters *)
From Verif Require Import M_Updtr S_Updtr L_Updtr.
From Coq Require Import Lia.
Local Open Scope Z_scope.

Definition sec2 : hint := (2000000, 0).
Definition sec5 : hint := (5000000, NONE).
(** An updater with automatic intervals, default 1 s, no matches, skew 0.1 s *)
Definition conf1 : conf := mkConf (1000000, NONE) true false [] 100000.

(** Every set that the updater is asked to update and that has a hint is updated: its task is
    due (once it is done, if it is in its function), and goes through the set then; and the
    schedule told for the set is that of this task. *)
Theorem auto_set_updated_partial : forall c l s xs p,
  auto c = true -> push c = false -> calm l -> run c init l = Some (s, xs) -> up s = true -> conn s = true ->
  In p (sets s) -> asked c (p_name p) -> fst (p_hint p) <> 0 ->
  (exists s1 v, run c s (next_time c (p_hint p)) = Some (s1, [Nothing; Went (p_hint p) v]) /\ In (p_name p) v)
  /\ p_told p = Some (sched (skew c) (p_hint p)).
Proof.
  intros c l s xs p A P CA R U C IN E Z0. destruct (run_inv c l [] init s xs (init_inv c) CA R) as [open I].
  apply eligible_asked in E.
  assert (V : forall s0, conn s0 = true -> sets s0 = sets s -> In (p_name p) (visits c (p_hint p) s0)).
  { intros s0 C0 S0. apply visits_in. split; [exact C0|]. split; [exact E|]. exists p. rewrite S0. auto. }
  split.
  2: { rewrite (i_told _ _ _ I P U p IN E). unfold chosen. rewrite A. apply Z.eqb_neq in Z0. rewrite Z0. reflexivity. }
  unfold next_time. destruct (i_served _ _ _ I A P U C p IN E) as [Z1|T]; [congruence|].
  destruct (hint_eqb (dflt c) (p_hint p)) eqn:D.
  - apply hint_eqb_eq in D. cbn [run step ok].
    assert (DT : ended (dtask s) = Sched) by (destruct (i_dflt _ _ _ I U) as [Q|Q]; rewrite Q; reflexivity).
    cbn [dtask]. rewrite DT. cbn [up]. rewrite U, D. eexists _, _. split; [reflexivity|]. apply V; auto.
  - apply hint_eqb_neq in D. destruct T as [T|T]; [congruence|].
    assert (N : find_task (p_hint p) (tasks s) <> None) by (destruct T as [T|T]; rewrite T; discriminate).
    cbn [run step]. destruct (find_task (p_hint p) (tasks s)) as [t|] eqn:F; [|congruence]. cbn [ok].
    cbn [with_tasks tasks up conn]. rewrite find_set_task_same by congruence.
    replace (ended t) with Sched by (destruct T as [T|T]; injection T as ->; reflexivity).
    rewrite U. eexists _, _. split; [reflexivity|]. apply V; auto.
Qed.
Print Assumptions auto_set_updated_partial.
Example auto_set_updated_ex :
  let l := [UStart; Add 1 sec2; Begin sec2; End sec2; Upd 1 sec5; Begin sec2; End sec2; Upd 1 sec2] in
  calm l /\ exists s xs, run conf1 init l = Some (s, xs) /\ up s = true /\ conn s = true /\ sets s = [mkP 1 sec2 (Some (2000000, 100000))]
  /\ tasks s = [(sec2, Sched); (sec5, Sched)].
Proof.
  split; [cbn; intuition congruence|].
  exists (mkSt true Sched [(sec2, Sched); (sec5, Sched)] true [mkP 1 sec2 (Some (2000000, 100000))]),
         [Nothing; Nothing; Went sec2 [1%nat]; Nothing; Nothing; Went sec2 []; Nothing; Nothing].
  split; [vm_compute; reflexivity|]. cbn [up conn sets tasks]. auto.
Qed.

(** Without automatic intervals the default task goes through all of them *)
Theorem manual_set_updated : forall c l s xs p,
  auto c = false -> run c init l = Some (s, xs) -> calm l -> up s = true -> conn s = true ->
  In p (sets s) -> asked c (p_name p) ->
  (exists s1 v, run c s [EndD; BeginD] = Some (s1, [Nothing; Went (dflt c) v]) /\ In (p_name p) v)
  /\ (push c = false -> p_told p = Some (sched (skew c) (dflt c))) /\ tasks s = [].
Proof.
  intros c l s xs p A R CA U C IN E. destruct (run_inv c l [] init s xs (init_inv c) CA R) as [open I].
  apply eligible_asked in E. split; [|split].
  - cbn [run step ok dtask up].
    assert (DT : ended (dtask s) = Sched) by (destruct (i_dflt _ _ _ I U) as [Q|Q]; rewrite Q; reflexivity).
    rewrite DT, U. eexists _, _. split; [reflexivity|]. apply visits_in. split; [exact C|]. split; [exact E|]. exists p. rewrite A. cbn. split; [exact IN|]. split; [reflexivity | discriminate].
  - intros P. rewrite (i_told _ _ _ I P U p IN E). unfold chosen. rewrite A. reflexivity.
  - destruct (tasks s) as [|[k t] r] eqn:T; [reflexivity|]. destruct (i_key _ _ _ I k) as (_ & _ & X & _); [rewrite T; left; reflexivity | congruence].
Qed.
Print Assumptions manual_set_updated.
Definition conf2 : conf := mkConf (1000000, NONE) false false [Nat.eqb 1; Nat.eqb 2] 100000.
Example manual_set_updated_ex : exists s xs, run conf2 init [Add 1 sec2; UStart; Add 2 (0, 0); Add 3 sec2] = Some (s, xs) /\ up s = true /\ conn s = true
  /\ map p_name (sets s) = [3; 2; 1]%nat /\ asked conf2 2 /\ ~ asked conf2 3.
Proof.
  eexists _, _. split; [reflexivity|]. repeat split.
  - right. exists (Nat.eqb 2). cbn. auto.
  - intros [H|[m [[<-|[<-|[]]] K]]]; discriminate.
Qed.

(** A set is not updated by the task of another hint, nor one that the updater was not asked
    to update *)
Theorem auto_only_its_task : forall c s o s1 h v i,
  step c s o = Some (s1, Went h v) -> In i v ->
  asked c i /\ exists p, In p (sets s) /\ p_name p = i /\ (auto c = true -> p_hint p = h).
Proof.
  intros c s o s1 h v i H IN.
  assert (V : In i (visits c h s)).
  { destruct o; cbn [step] in H; unfold ok in H; repeat match type of H with
      | match ?x with _ => _ end = _ => destruct x eqn:?; try discriminate H
      end; try discriminate H; injection H as _ <- <-; destruct (up s); solve [exact IN | destruct IN]. }
  apply visits_in in V as (_ & E & p & H1 & H2 & H3). split; [apply eligible_asked; exact E|]. exists p. split; [exact H1|]. split; [exact H2|]. intros A. apply H3; exact A.
Qed.
Print Assumptions auto_only_its_task.
Example auto_only_its_task_ex : let s := mkSt true Sched [(sec2, Sched)] true [mkP 1 sec2 None; mkP 2 sec5 None] in
  exists s1, step conf1 s (Begin sec2) = Some (s1, Went sec2 [1%nat]).
Proof. eexists. reflexivity. Qed.

(** There is one task for a hint, and none beside the default task for its hint *)
Theorem auto_one_task : forall c l s xs, run c init l = Some (s, xs) -> calm l -> NoDup (map fst (tasks s)) /\ ~ In (dflt c) (map fst (tasks s)).
Proof.
  intros c l s xs R CA. destruct (run_inv c l [] init s xs (init_inv c) CA R) as [open I]. split; [apply (i_keys _ _ _ I)|].
  intros H. destruct (i_key _ _ _ I _ H) as [X _]. congruence.
Qed.
Print Assumptions auto_one_task.
Example auto_one_task_ex : exists s xs, run conf1 init [UStart; Add 1 sec2; Add 2 sec2; Add 3 (dflt conf1); Add 4 sec5] = Some (s, xs) /\ map fst (tasks s) = [sec2; sec5].
Proof. eexists _, _. split; reflexivity. Qed.

(** A set is gone through once each time, if no two matches select it *)
Lemma walk_nodup c h s m : NoDup (map p_name (sets s)) -> NoDup (walk c h s m).
Proof.
  unfold walk. destruct (conn s); [|constructor]. set (f := fun p => _). clearbody f. clear. induction (sets s) as [|p r IH]; cbn; intros H; [constructor|].
  inversion_clear H as [|? ? N1 N2]. destruct (f p); cbn; [|auto]. constructor; [|auto]. intros X. apply N1. apply in_map_iff in X as [q [Q1 Q2]]. apply filter_In in Q2 as [Q2 _]. rewrite <- Q1. apply in_map; exact Q2.
Qed.
Definition times (i : nat) (l : list nat) : nat := count_occ Nat.eq_dec l i.
Theorem auto_once_partial : forall c l s xs h i,
  run c init l = Some (s, xs) -> calm l -> disjoint c i -> (times i (visits c h s) <= 1)%nat.
Proof.
  intros c l s xs h i R CA DJ. destruct (run_inv c l [] init s xs (init_inv c) CA R) as [open I]. pose proof (i_names _ _ _ I) as ND. clear I R CA.
  unfold visits, times. unfold disjoint in DJ.
  assert (G : forall ms, (forall a b m n, nth_error ms a = Some m -> nth_error ms b = Some n -> m i = true -> n i = true -> a = b) ->
     (count_occ Nat.eq_dec (flat_map (fun m => walk c h s (Some m)) ms) i <= 1)%nat).
  { induction ms as [|m ms IH]; intros D; cbn [flat_map]; [cbn; lia|]. rewrite count_occ_app.
    assert (W : (count_occ Nat.eq_dec (walk c h s (Some m)) i <= 1)%nat) by (apply NoDup_count_occ, walk_nodup; exact ND).
    assert (D2 : forall a b m0 n, nth_error ms a = Some m0 -> nth_error ms b = Some n -> m0 i = true -> n i = true -> a = b).
    { intros a b m0 n H1 H2 H3 H4. apply Nat.succ_inj. apply (D (S a) (S b) m0 n); assumption. }
    specialize (IH D2). destruct (m i) eqn:M.
    - assert (Z0 : count_occ Nat.eq_dec (flat_map (fun m0 => walk c h s (Some m0)) ms) i = 0%nat).
      { apply count_occ_not_In. intros X. apply in_flat_map in X as [n [X Y]]. apply walk_in in Y as (_ & Y & _). cbn in Y.
        apply In_nth_error in X as [k X]. specialize (D 0%nat (S k) m n eq_refl X M Y). discriminate D. }
      lia.
    - assert (Z0 : count_occ Nat.eq_dec (walk c h s (Some m)) i = 0%nat).
      { apply count_occ_not_In. intros X. apply walk_in in X as (_ & X & _). cbn in X. congruence. }
      lia. }
  destruct (matches c) as [|m ms]; [apply NoDup_count_occ, walk_nodup; exact ND | apply G; exact DJ].
Qed.
Print Assumptions auto_once_partial.
Example auto_once_ex : disjoint conf2 1.
Proof.
  intros a b m n H1 H2 H3 H4. destruct a as [|[|a]]; cbn in H1; [| |destruct a; discriminate]; injection H1 as <-; [|discriminate H3].
  destruct b as [|[|b]]; cbn in H2; [| |destruct b; discriminate]; injection H2 as <-; [reflexivity | discriminate H4].
Qed.
(** In general not: with matches for the instance name and for the schema the second time finds
    the update of the first outstanding, and counts a skipped update (C53) *)
Theorem auto_once_refuted : exists c l s xs h i, run c init l = Some (s, xs) /\ calm l /\ times i (visits c h s) = 2%nat.
Proof.
  exists (mkConf (1000000, NONE) true false [Nat.eqb 1; (fun i => Nat.ltb i 5)] 100000), [UStart; Add 1 sec2].
  eexists _, _, sec2, 1%nat. split; [reflexivity|]. split; [cbn; tauto | reflexivity].
Qed.
Print Assumptions auto_once_refuted.

(** After a stop there is no more update until a start *)
Theorem stop_final : forall c l s xs l2 s2 ys,
  run c init (l ++ [UStop]) = Some (s, xs) -> run c s l2 = Some (s2, ys) -> ~ In UStart l2 -> up s2 = false /\ forall y, In y ys -> y = Nothing.
Proof.
  assert (R1 : forall c l s0 o s xs, run c s0 (l ++ [o]) = Some (s, xs) -> exists s1 x, step c s1 o = Some (s, x)).
  { intros c l; induction l as [|a l IH]; intros s0 o s xs H; cbn in H.
    - destruct (step c s0 o) as [[s1 x]|] eqn:E; [|discriminate]. injection H as <- <-. eauto.
    - destruct (step c s0 a) as [[s1 x]|]; [|discriminate]. destruct (run c s1 (l ++ [o])) as [[s2 ys]|] eqn:E; [|discriminate]. injection H as <- <-. eapply IH; exact E. }
  assert (J : forall c l s0 s xs, (up s0 = false -> dtask s0 = Idle /\ tasks s0 = []) -> run c s0 l = Some (s, xs) -> up s = false -> dtask s = Idle /\ tasks s = []).
  { intros c l. induction l as [|o r IH]; intros s0 s xs J H U; cbn in H; [injection H as <- <-; auto|].
    destruct (step c s0 o) as [[s1 x]|] eqn:E; [|discriminate]. destruct (run c s1 r) as [[s2 ys]|] eqn:R; [|discriminate]. injection H as <- <-.
    refine (IH s1 s2 ys _ R U). clear IH R U. intros U. destruct o; cbn [step] in E; unfold ok in E.
    - destruct (find_set i (sets s0)); injection E as <- <-; [auto|]. unfold announce in *. cbn [with_sets up tasks dtask conn sets p_name] in *.
      destruct (up s0) eqn:U0; cbn [andb] in *; [|apply J; reflexivity]. destruct (negb (push c) && eligible c i); [destruct (tasks_update _ _ _); discriminate U | cbn in U; congruence].
    - destruct (find_set i (sets s0)); injection E as <- <-; [|auto]. destruct (hint_eqb _ _); [cbn in *; auto|]. unfold announce in *. cbn [with_sets up tasks dtask conn sets p_name] in *.
      destruct (up s0) eqn:U0; cbn [andb] in *; [|apply J; reflexivity]. destruct (negb (push c) && eligible c i); [destruct (tasks_update _ _ _); discriminate U | cbn in U; congruence].
    - injection E as <- <-. cbn in *; auto.
    - injection E as <- <-. cbn in *; auto.
    - destruct (conn s0); injection E as <- <-; cbn in *; auto.
    - destruct (sets s0); injection E as <- <-; cbn in *; auto.
    - destruct (find_task h (tasks s0)) as [[| |]|] eqn:F; injection E as <- <-; auto. cbn in *. destruct (J U) as [_ X]. rewrite X in F. discriminate F.
    - destruct (find_task h (tasks s0)) as [t|] eqn:F; injection E as <- <-; auto. cbn in *. destruct (J U) as [_ X]. rewrite X in F. discriminate F.
    - destruct (dtask s0) eqn:D; injection E as <- <-; rewrite ?D; auto. cbn in *. destruct (J U) as [X _]. discriminate X.
    - injection E as <- <-. cbn in *. destruct (J U) as [X Y]. rewrite X, Y. auto.
    - destruct (up s0 && auto c); [destruct (tasks s0) as [|[? [| |[]]] ?] eqn:T|]; try discriminate E; injection E as <- <-; rewrite ?T; auto.
    - destruct (up s0) eqn:U0; [injection E as <- <-; congruence|].
      destruct (negb (push c) || auto c); [destruct (tasks_create _ _ _)|]; injection E as <- <-; discriminate U.
    - destruct (up s0); injection E as <- <-; cbn; auto. }
  intros c l s xs l2 s2 ys H1 H2 NS.
  assert (U : up s = false).
  { destruct (R1 _ _ _ _ _ _ H1) as (s1 & x & E). cbn in E. destruct (up s1) eqn:U; injection E as <- <-; [reflexivity | exact U]. }
  assert (K := J c _ init s xs (fun _ => conj eq_refl eq_refl) H1 U). clear H1. revert s s2 ys U K H2 NS.
  induction l2 as [|o r IH]; intros s s2 ys U K H2 NS; cbn in H2; [injection H2 as <- <-; split; [exact U | intros y []]|].
  destruct (step c s o) as [[s1 x]|] eqn:E; [|discriminate]. destruct (run c s1 r) as [[s3 zs]|] eqn:R; [|discriminate]. injection H2 as <- <-.
  assert (G : up s1 = false /\ x = Nothing).
  { destruct K as [KD KT]. destruct o; cbn [step] in E; unfold ok in E.
    - destruct (find_set i (sets s)); injection E as <- <-; [auto|]. unfold announce. cbn [with_sets up]. rewrite U. auto.
    - destruct (find_set i (sets s)); injection E as <- <-; [|auto]. destruct (hint_eqb _ _); [auto|]. unfold announce. cbn [with_sets up]. rewrite U. auto.
    - injection E as <- <-. auto.
    - injection E as <- <-. auto.
    - destruct (conn s); injection E as <- <-; auto.
    - destruct (sets s); injection E as <- <-; auto.
    - rewrite KT in E. injection E as <- <-. auto.
    - rewrite KT in E. injection E as <- <-. auto.
    - rewrite KD in E. injection E as <- <-. auto.
    - injection E as <- <-. auto.
    - rewrite U in E. injection E as <- <-. auto.
    - exfalso. apply NS. left; reflexivity.
    - rewrite U in E. injection E as <- <-. auto. }
  destruct G as [G ->]. assert (K1 := J c [o] s s1 [Nothing] (fun _ => K)). cbn [run] in K1. rewrite E in K1.
  destruct (IH s1 s3 zs G (K1 eq_refl G) R) as [A B]; [intros X; apply NS; right; exact X|]. split; [exact A|]. intros y [<-|Y]; [reflexivity | apply B; exact Y].
Qed.
Print Assumptions stop_final.
Example stop_final_ex : exists s xs, run conf1 init ([UStart; Add 1 sec2; Begin sec2] ++ [UStop]) = Some (s, xs) /\
  exists ys, run conf1 s [End sec2; Begin sec2; Upd 1 sec5; Begin sec5; BeginD] = Some (with_sets [mkP 1 sec5 (Some (2000000, 100000))] s, ys).
Proof. eexists _, _. split; [reflexivity|]. eexists. reflexivity. Qed.

(** ** Updates that do not come *)
(** The start of a task that is just finding out that it has nothing to do is lost: the sets
    of its hint are gone (a disconnect), it is in its function, one is announced again; the
    task has F_STOP set and is RUNNING, so that ldmsd_task_start answers EBUSY; then it stops. *)
Theorem auto_lost_refuted : exists c l s xs p,
  auto c = true /\ push c = false /\ run c init l = Some (s, xs) /\ up s = true /\ conn s = true /\ In p (sets s) /\ asked c (p_name p) /\ fst (p_hint p) <> 0 /\
  find_task (p_hint p) (tasks s) = Some Idle /\ p_hint p <> dflt c.
Proof.
  exists conf1, [UStart; Add 1 sec2; Lost; Gone; Conn; Begin sec2; Add 1 sec2; End sec2].
  eexists _, _, (mkP 1 sec2 (Some (2000000, 100000))). split; [reflexivity|]. split; [reflexivity|]. split; [reflexivity|].
  repeat split; try discriminate; [left; reflexivity | left; reflexivity].
Qed.
Print Assumptions auto_lost_refuted.
(** and it is not started again, whatever the tasks do, until some set is announced with that
    hint or the updater is stopped *)
Lemma find_announce c q s h : p_hint q <> h -> find_task h (tasks (announce c q s)) = find_task h (tasks s).
Proof.
  intros N. unfold announce. destruct (_ && _); [|reflexivity]. unfold tasks_update.
  destruct (negb (auto c)); [reflexivity|]. destruct (fst (p_hint q) =? 0); [reflexivity|]. destruct (hint_eqb (dflt c) (p_hint q)); [reflexivity|].
  destruct (find_task (p_hint q) (tasks s)); cbn [tasks]; [apply find_set_task_other | apply find_ins_other]; exact N.
Qed.
Theorem auto_idle_stays : forall c l s s1 xs h,
  up s = true -> find_task h (tasks s) = Some Idle -> h <> dflt c ->
  (forall o, In o l -> o <> UStop /\ forall i, o <> Add i h /\ o <> Upd i h) ->
  run c s l = Some (s1, xs) -> find_task h (tasks s1) = Some Idle /\ forall v, ~ In (Went h v) xs.
Proof.
  intros c l. induction l as [|o r IH]; intros s s1 xs h U F D N H; cbn in H; [injection H as <- <-; auto|].
  destruct (step c s o) as [[s2 x]|] eqn:E; [|discriminate]. destruct (run c s2 r) as [[s3 zs]|] eqn:R; [|discriminate]. injection H as <- <-.
  assert (G : up s2 = true /\ find_task h (tasks s2) = Some Idle /\ forall v, x <> Went h v).
  { destruct (N o (or_introl eq_refl)) as [N1 N2]. destruct o; cbn [step] in E; unfold ok in E.
    - destruct (find_set i (sets s)); injection E as <- <-; [repeat split; auto; discriminate|]. rewrite find_announce.
      + repeat split; [|exact F | discriminate]. unfold announce; cbn [with_sets up]. destruct (_ && _); [destruct (tasks_update _ _ _)|]; exact U.
      + cbn. intros ->. destruct (N2 i) as [X _]. congruence.
    - destruct (find_set i (sets s)) as [p|]; injection E as <- <-; [|repeat split; auto; discriminate]. destruct (hint_eqb _ _); [repeat split; auto; discriminate|]. rewrite find_announce.
      + repeat split; [|exact F | discriminate]. unfold announce; cbn [with_sets up]. destruct (_ && _); [destruct (tasks_update _ _ _)|]; exact U.
      + cbn. intros ->. destruct (N2 i) as [_ X]. congruence.
    - injection E as <- <-. repeat split; auto; discriminate.
    - injection E as <- <-. repeat split; auto; discriminate.
    - destruct (conn s); injection E as <- <-; repeat split; auto; discriminate.
    - destruct (sets s); injection E as <- <-; repeat split; auto; discriminate.
    - destruct (hint_eqb h0 h) eqn:Q; [apply hint_eqb_eq in Q; subst h0; rewrite F in E; injection E as <- <-; repeat split; auto; discriminate|]. apply hint_eqb_neq in Q.
      destruct (find_task h0 (tasks s)) as [[| |]|]; injection E as <- <-; try (repeat split; auto; discriminate).
      cbn [with_tasks up tasks]. rewrite find_set_task_other by exact Q. repeat split; auto. intros v [= X _]. congruence.
    - destruct (hint_eqb h0 h) eqn:Q; [apply hint_eqb_eq in Q; subst h0; rewrite F in E; injection E as <- <-; cbn [with_tasks up tasks ended]; rewrite find_set_task_same by congruence; repeat split; auto; discriminate|]. apply hint_eqb_neq in Q.
      destruct (find_task h0 (tasks s)) as [t|]; injection E as <- <-; try (repeat split; auto; discriminate).
      cbn [with_tasks up tasks]. rewrite find_set_task_other by exact Q. repeat split; auto. discriminate.
    - destruct (dtask s); injection E as <- <-; repeat split; auto; try discriminate. intros v [= X _]. congruence.
    - injection E as <- <-. repeat split; auto; discriminate.
    - destruct (up s && auto c); [destruct (tasks s) as [|[? [| |[]]] ?] eqn:T|]; try discriminate E; injection E as <- <-; rewrite ?T; repeat split; auto; discriminate.
    - rewrite U in E. injection E as <- <-. repeat split; auto; discriminate.
    - congruence. }
  destruct G as (G1 & G2 & G3). destruct (IH s2 s3 zs h G1 G2 D) as [A B]; [intros o0 X; apply N; right; exact X | exact R|].
  split; [exact A|]. intros v [X|X]; [apply (G3 v); exact X | apply (B v); exact X].
Qed.
Print Assumptions auto_idle_stays.
Example auto_idle_stays_ex : let s := mkSt true Sched [(sec2, Idle)] true [mkP 1 sec2 None] in
  exists s1, run conf1 s [Begin sec2; End sec2; Cleanup; BeginD; EndD; Add 2 sec5; Begin sec5] = Some (s1, [Nothing; Nothing; Nothing; Went (dflt conf1) []; Nothing; Nothing; Went sec5 [2%nat]]).
Proof. eexists. reflexivity. Qed.

(** A set without a hint is told the schedule of the default task, but no task ever goes
    through it: with automatic intervals the default task, too, looks in the hint tree *)
Theorem auto_nohint_refuted : exists c l s xs p,
  auto c = true /\ push c = false /\ calm l /\ run c init l = Some (s, xs) /\ up s = true /\ conn s = true /\ In p (sets s) /\ asked c (p_name p) /\
  p_told p = Some (sched (skew c) (dflt c)) /\ exists s1, run c s [EndD; BeginD] = Some (s1, [Nothing; Went (dflt c) []]).
Proof.
  exists conf1, [UStart; Add 1 (0, 0)]. eexists _, _, (mkP 1 (0, 0) (Some (1000000, NONE))). split; [reflexivity|]. split; [reflexivity|].
  split; [cbn; tauto|]. split; [reflexivity|]. repeat split; [left; reflexivity | left; reflexivity|]. eexists; reflexivity.
Qed.
Print Assumptions auto_nohint_refuted.
Theorem auto_nohint_never : forall c s o s1 h v p,
  auto c = true -> NoDup (map p_name (sets s)) -> In p (sets s) -> fst (p_hint p) = 0 -> step c s o = Some (s1, Went h v) -> ~ In (p_name p) v.
Proof.
  intros c s o s1 h v p A ND IN Z0 H K.
  assert (V : In (p_name p) (visits c h s)).
  { destruct o; cbn [step] in H; unfold ok in H; repeat match type of H with
      | match ?x with _ => _ end = _ => destruct x eqn:?; try discriminate H
      end; try discriminate H; injection H as _ <- <-; destruct (up s); solve [exact K | destruct K]. }
  apply visits_in in V as (_ & _ & q & H1 & H2 & H3). destruct (H3 A) as [H4 _]. apply H4.
  replace q with p; [exact Z0|]. clear -ND IN H1 H2. induction (sets s) as [|x r IH]; cbn in *; [tauto|]. inversion_clear ND as [|? ? N1 N2].
  destruct IN as [->|IN], H1 as [->|H1]; auto; exfalso; apply N1; [rewrite <- H2 | rewrite H2]; apply in_map; assumption.
Qed.
Print Assumptions auto_nohint_never.
Example auto_nohint_never_ex : let s := mkSt true Sched [] true [mkP 1 (0, 0) None; mkP 2 (1000000, NONE) None] in
  NoDup (map p_name (sets s)) /\ exists s1, step conf1 s BeginD = Some (s1, Went (dflt conf1) [2%nat]).
Proof. split; [repeat constructor; cbn; intuition discriminate|]. eexists; reflexivity. Qed.

(** updtr_start with auto_interval for an updater that pushes: sets announced later get no task *)
Theorem auto_push_refuted : exists c l s xs p,
  auto c = true /\ calm l /\ run c init l = Some (s, xs) /\ up s = true /\ conn s = true /\ In p (sets s) /\ asked c (p_name p) /\ fst (p_hint p) <> 0 /\
  p_hint p <> dflt c /\ tasks s = [].
Proof.
  exists (mkConf (1000000, NONE) true true [] 100000), [UStart; Add 1 sec2]. eexists _, _, (mkP 1 sec2 None). split; [reflexivity|].
  split; [cbn; tauto|]. split; [reflexivity|]. repeat split; try discriminate; left; reflexivity.
Qed.
Print Assumptions auto_push_refuted.

(** ** Tasks that are not used any more *)
(** The hourly clean up is to delete them.  It deletes none: F_STOP is cleared when a task has
    stopped. *)
Theorem cleanup_never : forall c s, step c s Cleanup = None \/ step c s Cleanup = Some (s, Nothing).
Proof. intros c s. cbn. destruct (_ && _); [destruct (tasks s) as [|[? [| |[]]] ?]|]; auto. Qed.
Print Assumptions cleanup_never.
Theorem cleanup_refuted : exists c l s xs h, calm l /\ tidy l /\ run c init l = Some (s, xs) /\ up s = true /\ auto c = true /\ sets s = [] /\
  find_task h (tasks s) = Some Idle /\ exists s1, step c s Cleanup = Some (s1, Nothing) /\ find_task h (tasks s1) = Some Idle.
Proof.
  exists conf1, [UStart; Add 1 sec2; Del 1; Begin sec2; End sec2; Cleanup]. eexists _, _, sec2. split; [cbn; tauto|].
  split; [cbn; repeat split; auto; try discriminate; intros _; rewrite ?hint_eqb_refl; reflexivity|]. split; [reflexivity|]. repeat split. eexists; split; reflexivity.
Qed.
Print Assumptions cleanup_refuted.
(** So there are as many tasks as there ever were hints *)
Definition nth_hint (k : nat) : hint := (5000000, - Z.of_nat k).
Definition wander (n : nat) : list op := UStart :: flat_map (fun k => [Add 1 (nth_hint k); Del 1; Begin (nth_hint k); End (nth_hint k); Cleanup]) (seq 0 n).
Lemma run_app c : forall l1 l2 s, run c s (l1 ++ l2) = match run c s l1 with Some (s1, xs) => match run c s1 l2 with Some (s2, ys) => Some (s2, xs ++ ys) | None => None end | None => None end.
Proof.
  induction l1 as [|o r IH]; intros l2 s; cbn; [destruct (run c s l2) as [[? ?]|]; reflexivity|].
  destruct (step c s o) as [[s1 x]|]; [|reflexivity]. rewrite IH. destruct (run c s1 r) as [[s2 xs]|]; [|reflexivity]. destruct (run c s2 l2) as [[? ?]|]; reflexivity.
Qed.
Lemma ins_len h t l : length (ins_task h t l) = S (length l).
Proof. induction l as [|[k u] r IH]; cbn; [reflexivity|]. destruct (before h k); cbn; congruence. Qed.
Lemma set_len h t l : length (set_task h t l) = length l.
Proof. induction l as [|[k u] r IH]; cbn; [reflexivity|]. destruct (hint_eqb k h); cbn; congruence. Qed.
Lemma all_idle h ts : find_task h ts = None -> (forall k t, In (k, t) ts -> t = Idle) ->
  forall k t, In (k, t) (set_task h Idle (set_task h (Busy true) (ins_task h Sched ts))) -> t = Idle.
Proof.
  intros F AI. induction ts as [|[k u] r IH]; intros j t; cbn.
  { rewrite !hint_eqb_refl; cbn; rewrite hint_eqb_refl. intros [[= _ <-]|[]]; reflexivity. }
  cbn in F. destruct (hint_eqb k h) eqn:E; [discriminate F|]. destruct (before h k); cbn.
  - rewrite hint_eqb_refl; cbn; rewrite hint_eqb_refl. intros [[= _ <-]|H]; [reflexivity | apply (AI j t); exact H].
  - rewrite E; cbn; rewrite E. intros [[= -> ->]|H]; [apply (AI j t); left; reflexivity | apply (IH F (fun a b X => AI a b (or_intror X)) j t H)].
Qed.
Lemma wander_one h ts : fst h <> 0 -> h <> dflt conf1 -> find_task h ts = None -> (forall k t, In (k, t) ts -> t = Idle) ->
  run conf1 (mkSt true Sched ts true []) [Add 1 h; Del 1; Begin h; End h; Cleanup] =
  Some (mkSt true Sched (set_task h Idle (set_task h (Busy true) (ins_task h Sched ts))) true [], [Nothing; Nothing; Went h []; Nothing; Nothing]).
Proof.
  intros Z0 D F AI. pose proof (all_idle h ts F AI) as AI2.
  assert (F0 : find_task h (ins_task h Sched ts) = Some Sched) by (apply find_ins_same; exact F).
  assert (F1 : find_task h (set_task h (Busy true) (ins_task h Sched ts)) = Some (Busy true)) by (apply find_set_task_same; congruence).
  apply Z.eqb_neq in Z0. assert (X : hint_eqb (dflt conf1) h = false) by (apply hint_eqb_neq; congruence).
  set (t2 := set_task h Idle (set_task h (Busy true) (ins_task h Sched ts))) in *.
  assert (S1 : step conf1 (mkSt true Sched ts true []) (Add 1 h) = Some (mkSt true Sched (ins_task h Sched ts) true [mkP 1 h (Some (sched 100000 h))], Nothing)).
  { cbn [step find_set find sets]. unfold ok, announce, with_sets, tasks_update. cbn [up push conf1 negb andb eligible matches p_name tasks sets auto p_hint dtask conn].
    rewrite Z0, X, F. reflexivity. }
  assert (S2 : step conf1 (mkSt true Sched (ins_task h Sched ts) true []) (Begin h) = Some (mkSt true Sched (set_task h (Busy true) (ins_task h Sched ts)) true [], Went h [])).
  { cbn [step tasks]. rewrite F0. reflexivity. }
  assert (S3 : step conf1 (mkSt true Sched (set_task h (Busy true) (ins_task h Sched ts)) true []) (End h) = Some (mkSt true Sched t2 true [], Nothing)).
  { cbn [step tasks]. rewrite F1. reflexivity. }
  assert (S4 : step conf1 (mkSt true Sched t2 true []) Cleanup = Some (mkSt true Sched t2 true [], Nothing)).
  { cbn [step tasks up auto conf1 andb]. destruct t2 as [|[k [| |[]]] r]; try reflexivity; exfalso; specialize (AI2 k _ (or_introl eq_refl)); discriminate AI2. }
  assert (SD : step conf1 (mkSt true Sched (ins_task h Sched ts) true [mkP 1 h (Some (sched 100000 h))]) (Del 1) = Some (mkSt true Sched (ins_task h Sched ts) true [], Nothing)) by reflexivity.
  unfold run. rewrite S1, SD, S2, S3, S4. reflexivity.
Qed.
Theorem tasks_grow : forall n, exists s xs, run conf1 init (wander n) = Some (s, xs) /\ length (tasks s) = n /\ sets s = [].
Proof.
  assert (G : forall n, exists ts xs, run conf1 init (wander n) = Some (mkSt true Sched ts true [], xs) /\ length ts = n /\ (forall k t, In (k, t) ts -> t = Idle) /\ (forall k, In k (map fst ts) -> - Z.of_nat n < snd k)).
  { induction n as [|n IH]; [exists [], [Nothing]; cbn; repeat split; auto; try (intros ? ? []); intros ? []|].
    destruct IH as (ts & xs & R & L & AI & KB).
    assert (F : find_task (nth_hint n) ts = None) by (apply find_task_none; intros X; apply KB in X; cbn in X; lia).
    unfold wander. rewrite seq_S, flat_map_app. cbn [flat_map plus]. rewrite app_comm_cons.
    change (UStart :: _) with (wander n). rewrite app_nil_r, run_app, R. rewrite wander_one; [|discriminate | discriminate | exact F | exact AI].
    eexists _, _. split; [reflexivity|]. split; [rewrite !set_len, ins_len, L; reflexivity|]. split; [apply all_idle; assumption|].
    intros k X. rewrite !set_task_keys in X. apply ins_task_keys in X as [->|X]; [cbn; lia | apply KB in X; lia]. }
  intros n. destruct (G n) as (ts & xs & R & L & _). eexists _, _. split; [exact R|]. split; [exact L | reflexivity].
Qed.
Print Assumptions tasks_grow.
Example tasks_grow_ex : exists s xs, run conf1 init (wander 3) = Some (s, xs) /\ tasks s = [((5000000, -2), Idle); ((5000000, -1), Idle); ((5000000, 0), Idle)].
Proof.
  exists (mkSt true Sched [((5000000, -2), Idle); ((5000000, -1), Idle); ((5000000, 0), Idle)] true []),
    (Nothing :: flat_map (fun k => [Nothing; Nothing; Went (nth_hint k) []; Nothing; Nothing]) [0; 1; 2]%nat).
  split; [vm_compute; reflexivity | reflexivity].
Qed.

(** If it does find one, which it joins, it reads it after the free *)
Theorem cleanup_freed_refuted : exists c l, calm l /\ run c init l = None.
Proof. exists conf1, [UStart; Add 1 sec2; Del 1; Begin sec2; Cleanup]. split; [cbn; tauto | reflexivity]. Qed.
Print Assumptions cleanup_freed_refuted.
Theorem cleanup_safe_partial : forall c l, calm l -> tidy l -> run c init l <> None.
Proof.
  intros c l. unfold calm, tidy.
  cut (forall open s, inv c open s -> along (fun open o => match o with Add _ h | Upd _ h => ~ In h open | _ => True end) open l ->
         along (fun open o => o = Cleanup -> open = []) open l -> run c s l <> None); [intros G; apply G; apply init_inv|].
  induction l as [|o r IH]; intros open s I CA TI H; cbn in *; [discriminate H|]. destruct CA as [CA1 CA2], TI as [TI1 TI2].
  destruct (step c s o) as [[s1 x]|] eqn:E.
  - specialize (IH (opens open o) s1 (step_inv _ _ _ _ _ _ I CA1 E) CA2 TI2). destruct (run c s1 r) as [[? ?]|]; [discriminate H | congruence].
  - clear IH. destruct o; cbn [step] in E; unfold ok in E; repeat match type of E with
      | match ?x with _ => _ end = _ => destruct x eqn:?; try discriminate E
      end; try discriminate E.
    rewrite (TI1 eq_refl) in I. refine (i_open _ _ _ I _ _).
    match goal with T : tasks s = (?k, _) :: _ |- _ => rewrite T; cbn; instantiate (1 := k); rewrite hint_eqb_refl; reflexivity end.
Qed.
Print Assumptions cleanup_safe_partial.
Example cleanup_safe_ex : let l := [UStart; Add 1 sec2; Del 1; Begin sec2; End sec2; Cleanup; Add 1 sec2; Cleanup] in calm l /\ tidy l.
Proof. split; cbn; repeat split; intros; try discriminate; auto; try (rewrite ?hint_eqb_refl; reflexivity); tauto. Qed.
