(** C48: the life of a task. *)
From Verif Require Import S_Task.
From Coq Require Import Lia.

Lemma trun_app l1 l2 t : trun (l1 ++ l2) t = match trun l1 t with
  | Some (r, t') => match trun l2 t' with Some (r', t'') => Some (r ++ r', t'') | None => None end | None => None end.
Proof.
  revert t. induction l1 as [|s l1 IH]; intros t; cbn [app trun].
  - destruct (trun l2 t) as [[? ?]|]; reflexivity.
  - destruct (tstep_do s t) as [[a t']|]; [|reflexivity]. rewrite IH. destruct (trun l1 t') as [[r t2]|]; [|reflexivity].
    destruct (trun l2 t2) as [[? ?]|]; reflexivity.
Qed.
Lemma calls_app l1 l2 r1 r2 : length r1 = length l1 -> calls (l1 ++ l2) (r1 ++ r2) = calls l1 r1 + calls l2 r2.
Proof.
  revert r1. induction l1 as [|s l1 IH]; intros [|a r1]; try discriminate; intros H; [reflexivity|]. cbn [app calls]. injection H as H.
  rewrite (IH r1 H). destruct s, a; reflexivity.
Qed.
Lemma trun_length l t r t' : trun l t = Some (r, t') -> length r = length l.
Proof.
  revert t r. induction l as [|s l IH]; intros t r; cbn [trun]; [intros H; injection H as <- _; reflexivity|].
  destruct (tstep_do s t) as [[a t1]|]; [|discriminate]. destruct (trun l t1) as [[r1 t2]|] eqn:E; [|discriminate].
  intros H. injection H as <- <-. cbn [length]. now rewrite (IH _ _ E).
Qed.

(** The states reached *)
Inductive good : task -> Prop :=
| g_stopped : good task_new
| g_started w : good (mkTask Started false (Some w) (Some w) [] 1)
| g_running w f : good (mkTask Running f (Some w) (Some w) [(w, Inside Started)] 1).
Ltac vs w v := let E := fresh in destruct (Nat.eqb w v) eqn:E;
  [apply Nat.eqb_eq in E; subst; repeat (cbn; unfold take, enter, leave; cbn; rewrite ?Nat.eqb_refl; cbn)
  |repeat (cbn; unfold take, enter, leave; cbn; rewrite ?E; cbn)].
Lemma good_step t m : good t -> exists r t', trun (expand1 m) t = Some (r, t') /\ good t'.
Proof.
  intros H. destruct H as [|w|w f], m as [v| | | |v|v]; cbn; try (do 2 eexists; split; [reflexivity|constructor]).
  - vs w v; do 2 eexists; (split; [reflexivity|]); constructor.
  - vs w v; do 2 eexists; (split; [reflexivity|]); constructor.
  - vs w v; [|do 2 eexists; (split; [reflexivity|]); constructor].
    destruct f; do 2 eexists; (split; [reflexivity|]); constructor.
Qed.
Lemma good_run l t : good t -> exists r t', trun (expand l) t = Some (r, t') /\ good t'.
Proof.
  revert t. induction l as [|m l IH]; intros t H; [do 2 eexists; split; [reflexivity|exact H]|].
  destruct (good_step t m H) as (r1 & t1 & E1 & G1). destruct (IH t1 G1) as (r2 & t2 & E2 & G2).
  exists (r1 ++ r2), t2. split; [|exact G2]. cbn [expand flat_map]. rewrite trun_app, E1. fold (expand l). now rewrite E2.
Qed.

(** Every run, if nothing comes between a scheduler taking the event and locking the
    task: no NULL scheduler is used; the task is in state running exactly while its
    function executes, and it executes in one thread at a time; a stopped task is in
    no heap and counts for no thread; any other is in exactly one. *)
Theorem task_life_partial l : exists r t, trun (expand l) task_new = Some (r, t) /\
  (st t = Running <-> exists w n, work t = [(w, Inside n)]) /\ (st t <> Running -> work t = []) /\
  (st t = Stopped <-> armed t = None) /\ users t = (match st t with Stopped => 0 | _ => 1 end)%Z.
Proof.
  destruct (good_run l task_new g_stopped) as (r & t & E & G). exists r, t. split; [exact E|].
  destruct G as [|w|w f]; cbn [st work armed users task_new]; repeat split; intros; try discriminate; try reflexivity.
  - destruct H as (? & ? & ?); discriminate.
  - destruct H as (? & ? & ?); discriminate.
  - eauto.
  - congruence.
Qed.
(** After a stop, until someone starts or reschedules it, the function is not called
    again, the task is stopped as soon as it is not executing, and then join returns. *)
Theorem task_stop_partial l1 l2 r1 t1 r2 t2 : trun (expand (l1 ++ [MStop])) task_new = Some (r1, t1) ->
  trun (expand l2) t1 = Some (r2, t2) -> leaves_alone l2 ->
  calls (expand l2) r2 = O /\ (work t2 = [] -> st t2 = Stopped) /\ (st t2 = Stopped -> trun [Join] t2 = Some ([Done], t2)).
Proof.
  intros E1 E2 HA.
  assert (G1 : t1 = task_new \/ exists w, t1 = mkTask Running true (Some w) (Some w) [(w, Inside Started)] 1).
  { destruct (good_run l1 task_new g_stopped) as (r & t & E & G). unfold expand in E1. rewrite flat_map_app in E1. fold (expand l1) in E1.
    rewrite trun_app, E in E1. destruct G as [|w|w f]; cbn in E1; injection E1 as _ <-; [left|left|right]; [reflexivity..|eauto]. }
  clear E1. cut (calls (expand l2) r2 = O /\ (work t2 = [] -> st t2 = Stopped)).
  { intros [Q1 Q2]. split; [exact Q1|]. split; [exact Q2|]. intros HS. cbn. unfold join. now rewrite HS. }
  revert t1 G1 r2 E2. induction l2 as [|m l2 IH]; intros t1 G1 r2 E2.
  - cbn in E2. injection E2 as <- <-. split; [reflexivity|]. destruct G1 as [->|(w & ->)]; [reflexivity|discriminate].
  - cbn [expand flat_map] in E2 |- *. fold (expand l2) in E2 |- *. rewrite trun_app in E2. destruct (trun (expand1 m) t1) as [[ra ta]|] eqn:EA; [|discriminate].
    destruct (trun (expand l2) ta) as [[rb tb]|] eqn:EB; [|discriminate]. injection E2 as <- <-. rewrite calls_app by exact (trun_length _ _ _ _ EA).
    assert (G : calls (expand1 m) ra = O /\ (ta = task_new \/ exists w, ta = mkTask Running true (Some w) (Some w) [(w, Inside Started)] 1)).
    { specialize (HA m (or_introl eq_refl)). destruct G1 as [->|(w & ->)], m as [v| | | |v|v]; try destruct HA; cbn in EA; try (injection EA as <- <-; split; [reflexivity|eauto]);
      revert EA; vs w v; intros EA; injection EA as <- <-; (split; [reflexivity|eauto]). }
    destruct G as [G0 G2]. rewrite G0. cbn [Nat.add]. apply (IH (fun x Hx => HA x (or_intror Hx)) ta G2 rb EB).
Qed.
(** A started task is called by its scheduler, and called again after it returned. *)
Theorem task_called_partial l r t : trun (expand l) task_new = Some (r, t) -> st t = Started ->
  exists w t1 t2, trun (expand [MRun w]) t = Some ([Done; Done], t1) /\ st t1 = Running /\
    trun (expand [MLeave w]) t1 = Some ([Done], t2) /\ st t2 = Started.
Proof.
  intros E HS. destruct (good_run l task_new g_stopped) as (r' & t' & E' & G). rewrite E in E'. injection E' as _ <-.
  destruct G as [|w|w f]; try discriminate. exists w. do 2 eexists. split.
  - repeat (cbn; unfold take, enter; cbn; rewrite ?Nat.eqb_refl; cbn). reflexivity.
  - split; [reflexivity|]. split; [repeat (cbn; unfold leave; cbn; rewrite ?Nat.eqb_refl; cbn); reflexivity|reflexivity].
Qed.
Example task_ex : trun (expand [MStart 2; MRun 2; MStop; MJoin; MLeave 2; MJoin; MRun 2])%nat task_new =
  Some ([Done; Done; Done; Done; Blocked; Done; Done; Blocked; Blocked], task_new).
Proof. reflexivity. Qed.

(** ** What goes wrong *)

(** A task that was stopped and joined runs after that (its owner has freed it), and
    is counted out of its thread twice. *)
Theorem task_runs_after_join_refuted : exists l r t, trun (l ++ [Join; Enter 0 true; Leave 0]) task_new = Some (r ++ [Done; Done; Done], t) /\
  l = [Start 0 true; Take 0; Stop] /\ users t = (-1)%Z.
Proof. exists [Start 0 true; Take 0; Stop], [Done; Done; Done]. eexists. split; [reflexivity|]. split; reflexivity. Qed.
(** A stop followed by a reschedule, both while the function executes, is lost. *)
Theorem task_stop_lost_refuted : exists r t, trun [Start 0 true; Take 0; Enter 0 true; Stop; Resched true; Leave 0; Join] task_new =
  Some (r ++ [Blocked], t) /\ st t = Started /\ armed t = Some 0%nat.
Proof. exists [Done; Done; Done; Done; Done; Done]. eexists. split; [reflexivity|]. split; reflexivity. Qed.
(** Rescheduling a task that runs after it was stopped uses a NULL scheduler. *)
Theorem task_null_refuted : exists l, trun l task_new <> None /\ trun (l ++ [Resched true]) task_new = None.
Proof. exists [Start 0 true; Take 0; Stop; Enter 0 true]. split; [discriminate|reflexivity]. Qed.
(** Stopped and started again on another thread, the function executes in two threads
    at once. *)
Theorem task_twice_refuted : exists l r t, trun l task_new = Some (r, t) /\ calls l r = 2%nat /\
  work t = [(1%nat, Inside Started); (0%nat, Inside Started)] /\ ~ In Blocked r.
Proof.
  exists [Start 0 true; Take 0; Stop; Start 1 true; Enter 0 true; Take 1; Enter 1 true]. do 2 eexists. split; [reflexivity|].
  split; [reflexivity|]. split; [reflexivity|]. cbn. intuition discriminate.
Qed.
(** A task whose event cannot be added is not started and yet counted for its thread
    for good. *)
Theorem task_failed_start_refuted : exists r t, trun [Start 0 false; Stop; Join] task_new = Some (r, t) /\ st t = Stopped /\ users t = 1%Z.
Proof. do 2 eexists. split; [reflexivity|]. split; reflexivity. Qed.

Print Assumptions task_life_partial.
Print Assumptions task_stop_partial.
Print Assumptions task_called_partial.
Print Assumptions task_runs_after_join_refuted.
Print Assumptions task_stop_lost_refuted.
Print Assumptions task_null_refuted.
Print Assumptions task_twice_refuted.
Print Assumptions task_failed_start_refuted.
