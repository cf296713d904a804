(** Theorems on the connection of a producer. *)
From Verif Require Import S_Prdcr L_Prdcr.
From Coq Require Import Lia.

(** ** Safety.  No interleaving of commands, task and events makes an active producer fail
    an assertion or use an endpoint it has put; it has at most one connection, and exactly
    one while it is connecting or connected. *)
Theorem prdcr_safe : forall l, exists p, run Active l new = Some p /\ (live p <= 1)%nat /\
  ((cs p = CConnecting \/ cs p = CConn) -> live p = 1%nat) /\ ((cs p = CStopped \/ cs p = CDisc) -> live p = 0%nat).
Proof.
  intros l. destruct (inv_run Active l new (inv_new _) (calm_active l new (inv_new _))) as (p & R & I). exists p. split; [exact R|].
  destruct (live_one _ _ I) as (L & X). split; [exact L|]. pose proof (iC _ _ I) as C. split.
  - intros [H|H]; rewrite H in C; apply X; exact C.
  - assert (N : xp p = None -> live p = 0%nat). { intros N. destruct (live p) as [|[|n]]; [reflexivity| |lia]. exfalso. apply (proj1 X); [reflexivity|exact N]. }
    intros [H|H]; rewrite H in C; [apply N, C|]. destruct C as [C|(i & C)]; [apply N, C|]. destruct (iG _ _ I i C) as (_ & _ & _ & K). discriminate.
Qed.
Print Assumptions prdcr_safe.
Definition session := [UStart; TFire; TRun true; TLeave; EConnected 0; ETerm 0; TFire; TRun false; TLeave; TFire; TRun true; EConnected 1; TLeave].
Example prdcr_safe_ex : run Active session new = Some (mkP CConn (Some 1%nat) TStopped PNone [EGone; EUp] 0 0).
Proof. reflexivity. Qed.
(** A passive producer, as long as no connection ends while it is being taken over *)
Theorem prdcr_safe_passive_partial : forall l, along Passive calm l new -> exists p, run Passive l new = Some p /\ (live p <= 1)%nat.
Proof. intros l A. destruct (inv_run Passive l new (inv_new _) A) as (p & R & I). exists p. split; [exact R|]. apply (live_one _ _ I). Qed.
Print Assumptions prdcr_safe_passive_partial.
Example prdcr_safe_passive_ex : let l := [EPeerIn; UStart; TFire; TRun true; TAccept; TLeave; ETerm 0; TFire; TRun true; TLeave] in
  along Passive calm l new /\ run Passive l new = Some (mkP CDisc None TStarted PNone [EGone] 0 0).
Proof. cbn zeta. split; [cbn; repeat split; intros i H; inversion H; discriminate|reflexivity]. Qed.
(** Otherwise it uses an endpoint that is gone (or NULL) *)
Theorem prdcr_safe_passive_refuted : exists l, run Passive l new = None.
Proof. exists [EPeerIn; UStart; TFire; TRun true; ETerm 0; TAccept]. reflexivity. Qed.
Print Assumptions prdcr_safe_passive_refuted.

(** ** Stop.  After a stop was accepted a producer makes no attempt to connect until it is
    started, provided that no connection is reported as made after the stop.
    Missing: that proviso. *)
Definition stopped (p : prdcr) : Prop := cs p = CStopping \/ cs p = CStopped.
Lemma stop_step : forall k p s a q, stopped p -> s <> UStart -> (forall i, s <> EConnected i) -> s <> TAccept ->
  do k s p = Ok a q -> stopped q /\ (k = Active -> attempts q = attempts p).
Proof.
  intros k [c x t pc0 es j f] s a q S NS NC NA E. unfold stopped in *; cbn [cs] in S.
  destruct s; try congruence; cbn in E; try (exfalso; eapply NC; reflexivity).
  - destruct S as [->| ->]; injection E as <- <-; cbn; auto.
  - destruct j; [injection E as <- <-; auto|]. destruct t; injection E as <- <-; cbn; auto.
  - destruct f; [injection E as <- <-; auto|]. injection E as <- <-. cbn. split; [destruct x; auto|reflexivity].
  - destruct t; try (injection E as <- <-; auto). destruct pc0; injection E as <- <-; cbn; auto.
  - destruct pc0; try (injection E as <- <-; auto). destruct S as [->| ->]; injection E as <- <-; cbn; auto.
  - destruct pc0; try (injection E as <- <-; auto). destruct t; injection E as <- <-; cbn; auto.
  - assert (U : forall v, attempts (mkP c x t pc0 (upd es i v) j f) = attempts (mkP c x t pc0 es j f)) by (intros v; unfold attempts; cbn; apply upd_len).
    unfold reset in E; cbn in E. destruct (nth_error es i) as [[]|]; try (injection E as <- <-; auto); destruct S as [->| ->]; try discriminate;
    injection E as <- <-; cbn; split; auto; intros _; unfold attempts; cbn; apply upd_len.
  - destruct k; injection E as <- <-; cbn; split; auto. discriminate.
Qed.
Definition no_start (s : step) : Prop := s <> UStart /\ (forall i, s <> EConnected i) /\ s <> TAccept.
Theorem prdcr_stop_partial : forall k p a q l r, reachable k p -> do k UStop p = Ok a q -> a = AZero ->
  Forall no_start l -> run k l q = Some r -> stopped r /\ (k = Active -> attempts r = attempts q).
Proof.
  intros k p a q l r _ E -> F R.
  assert (S : stopped q). { unfold stopped. cbn in E. destruct (cs p) eqn:C; try discriminate; injection E as <-; cbn; auto. }
  clear E. revert q S R. induction F as [|s l (N1 & N2 & N3) F IH]; intros q S R; cbn in R; [injection R as <-; auto|].
  destruct (do k s q) as [b q'|] eqn:E; [|discriminate]. destruct (stop_step k q s b q' S N1 N2 N3 E) as (S' & A).
  destruct (IH q' S' R) as (S2 & A2). split; [exact S2|]. intros K. rewrite (A2 K). apply A, K.
Qed.
Print Assumptions prdcr_stop_partial.
Example prdcr_stop_ex : exists p q r, run Active session new = Some p /\ do Active UStop p = Ok AZero q /\
  run Active [UJoin; UFinal; ETerm 1; TFire] q = Some r /\ cs q = CStopping /\ cs r = CStopped /\ tk r = TStopped.
Proof. eexists. eexists. eexists. repeat (split; [cbv; reflexivity|]). cbv. reflexivity. Qed.
(** A connection that was made just before the stop: the stop is accepted and completes, no
    start follows, and the producer connects again *)
Theorem prdcr_stop_refuted : exists l p a q m r, run Active l new = Some p /\ do Active UStop p = Ok a q /\ a = AZero /\
  ~ In UStart m /\ run Active m q = Some r /\ joiners r = 0%nat /\ finals r = 0%nat /\ cs r = CConn /\ attempts q < attempts r.
Proof.
  exists [UStart; TFire; TRun true; TLeave]. eexists. eexists. eexists.
  exists [EConnected 0; UJoin; UFinal; ETerm 0; TFire; TRun true; TLeave; EConnected 1]. eexists.
  split; [cbv; reflexivity|]. split; [cbv; reflexivity|]. split; [cbv; reflexivity|]. split; [cbn; intuition discriminate|]. split; [cbv; reflexivity|]. cbn. repeat split. lia.
Qed.
Print Assumptions prdcr_stop_refuted.
(** A producer that is stopping gets to an end: its connection has an event to come, or the
    command is still at work *)
Theorem prdcr_stopping_ends : forall p, reachable Active p -> cs p = CStopping -> live p = 1%nat \/ (0 < joiners p + finals p)%nat.
Proof.
  intros p (l & R) C. destruct (inv_run Active l new (inv_new _) (calm_active l new (inv_new _))) as (q & R' & I). rewrite R in R'; injection R' as <-.
  destruct (iS _ _ I C) as [X|J]; [left; apply (live_one _ _ I), X|right; exact J].
Qed.
Print Assumptions prdcr_stopping_ends.
(** The last event of the connection ends it *)
Theorem prdcr_stopping_event : forall k p i e, reachable k p -> cs p = CStopping -> nth_error (eps p) i = Some e -> is_live e = true ->
  exists a q, do k (ETerm i) p = Ok a q /\ cs q = CStopped.
Proof. intros k p i e _ C N L. cbn. rewrite N. unfold reset; cbn. rewrite C. destruct e; try discriminate; eexists _, _; split; reflexivity. Qed.
Print Assumptions prdcr_stopping_event.
Example prdcr_stopping_ex : exists p, run Active [UStart; TFire; TRun true; UStop; TLeave; UJoin; UFinal] new = Some p /\ cs p = CStopping /\ live p = 1%nat /\ (joiners p + finals p)%nat = 0%nat.
Proof. eexists. split; [cbv; reflexivity|]. cbv. repeat split. Qed.

(** ** Retry.  A producer that is disconnected has its task armed, provided that start and
    events of connections come while the task function is not being called.
    Missing: that proviso. *)
Definition apart (p : prdcr) (s : step) : Prop := match s with UStart | EConnected _ | ETerm _ => pc p = PNone | _ => True end.
Definition armed (p : prdcr) : Prop := cs p = CDisc -> will_retry p.
Lemma retry_step : forall k p s a q, inv k p -> (armed p /\ (tk p = TRunning true -> cs p <> CDisc)) -> apart p s -> do k s p = Ok a q -> (armed q /\ (tk q = TRunning true -> cs q <> CDisc)).
Proof.
  intros k [c x t pc0 es j f] s a q I (A & T) P E. pose proof (iP _ _ I) as IP. unfold armed, will_retry in *; cbn [cs tk pc] in *.
  destruct s; cbn in E, P.
  - (* start *) subst pc0. destruct c; injection E as <- <-; cbn; auto. destruct t; cbn; try (destruct IP; fail); split; auto; discriminate.
  - destruct c; injection E as <- <-; cbn; auto; split; discriminate.
  - destruct j; [injection E as <- <-; auto|]. destruct t; injection E as <- <-; cbn; auto.
  - destruct f; [injection E as <- <-; auto|]. injection E as <- <-. cbn. destruct x; auto; split; discriminate.
  - destruct t; try (injection E as <- <-; auto). destruct pc0; injection E as <- <-; cbn; auto; split; auto; discriminate.
  - destruct pc0; try (injection E as <- <-; auto). destruct t as [| |b]; try (destruct IP; fail). destruct c.
    + injection E as <- <-; cbn; split; discriminate.
    + unfold connect in E; cbn in E. destruct x; [discriminate|]. assert (B : b = false) by (destruct b; [exfalso; apply T; reflexivity|reflexivity]). subst b.
      destruct k; [destruct ok|destruct (peer 0 es)]; injection E as <- <-; cbn; split; auto; discriminate.
    + injection E as <- <-; cbn; split; discriminate.
    + injection E as <- <-; cbn; split; discriminate.
    + injection E as <- <-; cbn; split; discriminate.
  - destruct pc0; try (injection E as <- <-; auto). destruct (nth_error es i) as [[]|]; try discriminate; injection E as <- <-; cbn; split; discriminate.
  - destruct pc0; try (injection E as <- <-; auto). destruct t as [| |b]; injection E as <- <-; auto. cbn. split; [|destruct b; discriminate].
    intros H. destruct b; [exfalso; apply T; [reflexivity|exact H]|]. left; reflexivity.
  - destruct (nth_error es i) as [[]|]; injection E as <- <-; cbn; auto; split; discriminate.
  - subst pc0. unfold reset in E; cbn in E. destruct (nth_error es i) as [[]|]; try (injection E as <- <-; auto); destruct c; try discriminate;
    injection E as <- <-; cbn; split; try discriminate; destruct t; cbn in *; try (destruct IP; fail); auto; discriminate.
  - destruct k; injection E as <- <-; cbn; auto.
Qed.
Theorem prdcr_retry_partial : forall l p, along Active apart l new -> run Active l new = Some p -> cs p = CDisc -> will_retry p.
Proof.
  intros l p. assert (G : forall p0, inv Active p0 -> (armed p0 /\ (tk p0 = TRunning true -> cs p0 <> CDisc)) -> along Active apart l p0 -> run Active l p0 = Some p -> armed p).
  { clear. induction l as [|s l IH]; intros p0 I R A E; cbn in E; [injection E as <-; apply R|]. destruct A as (A & B).
    destruct (inv_step Active p0 s I) as (a & q & D & J). { intros i H. destruct (iG _ _ I i H) as (_ & _ & _ & K). discriminate. }
    rewrite D in *. apply (IH q J (retry_step _ _ _ _ _ I R A D) B E). }
  intros A E. apply (G new (inv_new _)); [|exact A|exact E]. split; [intros H; discriminate H|discriminate].
Qed.
Print Assumptions prdcr_retry_partial.
Example prdcr_retry_ex : let l := [UStart; TFire; TRun true; TLeave; EConnected 0; ETerm 0; TFire; TRun false; TLeave] in
  along Active apart l new /\ run Active l new = Some (mkP CDisc None TStarted PNone [EGone] 0 0).
Proof. cbv. repeat split. Qed.
(** An active producer that connects and loses the connection while the task function has
    not returned is never connected again: nothing is left that could run *)
Theorem prdcr_retry_refuted : exists l p, run Active l new = Some p /\ cs p = CDisc /\ ~ will_retry p /\ live p = 0%nat /\
  forall s, s <> UStart -> s <> UStop -> exists a, do Active s p = Ok a p.
Proof.
  exists [UStart; TFire; TRun true; EConnected 0; ETerm 0; TLeave]. eexists. split; [cbv; reflexivity|]. cbn. split; [cbv; reflexivity|].
  split; [intros [H|[H|H]]; discriminate|]. split; [cbv; reflexivity|]. intros s N1 N2. destruct s; try congruence; cbn; try (eexists; reflexivity).
  - destruct i as [|[|i]]; eexists; reflexivity.
  - destruct i as [|[|i]]; eexists; reflexivity.
Qed.
Print Assumptions prdcr_retry_refuted.

(** ** Start.  A producer that was started stays so until it is stopped, provided that no
    earlier stop is still at work. *)
Definition active_state (p : prdcr) : Prop := cs p = CDisc \/ cs p = CConnecting \/ cs p = CConn.
Theorem prdcr_start_partial : forall k l p a q r, reachable k p -> joiners p = 0%nat -> finals p = 0%nat -> do k UStart p = Ok a q -> a = AZero ->
  ~ In UStop l -> run k l q = Some r -> active_state r.
Proof.
  intros k l p a q r _ J F E -> N R.
  assert (S : active_state q /\ joiners q = 0%nat /\ finals q = 0%nat).
  { cbn in E. destruct (cs p); try discriminate. injection E as <-. cbn. unfold active_state; cbn; auto. }
  clear E J F p. revert q S R. induction l as [|s l IH]; intros q (S & J & F) R; cbn in R; [injection R as <-; exact S|].
  destruct (do k s q) as [b q'|] eqn:E; [|discriminate]. apply (IH (fun H => N (or_intror H)) q'); [|exact R].
  assert (NS : s <> UStop) by (intros ->; apply N; left; reflexivity). clear N R IH. unfold active_state in *.
  destruct q as [c x t pc0 es j f]; cbn in *; subst j f. destruct s; try congruence; cbn in E.
  - destruct c; injection E as <- <-; cbn; auto.
  - injection E as <- <-; auto.
  - injection E as <- <-; auto.
  - destruct t; try (injection E as <- <-; auto). destruct pc0; injection E as <- <-; cbn; auto.
  - destruct pc0; try (injection E as <- <-; auto). destruct c; try (injection E as <- <-; cbn; auto). unfold connect in E; cbn in E.
    destruct x; [discriminate|]. destruct k; [destruct ok|destruct (peer 0 es)]; injection E as <- <-; cbn; auto.
  - destruct pc0; try (injection E as <- <-; auto). destruct (nth_error es i) as [[]|]; try discriminate; injection E as <- <-; cbn; auto.
  - destruct pc0; try (injection E as <- <-; auto). destruct t; injection E as <- <-; cbn; auto.
  - destruct (nth_error es i) as [[]|]; injection E as <- <-; cbn; auto.
  - unfold reset in E; cbn in E. destruct S as [->|[->| ->]]; destruct (nth_error es i) as [[]|]; injection E as <- <-; cbn; auto.
  - destruct k; injection E as <- <-; cbn; auto.
Qed.
Print Assumptions prdcr_start_partial.
Example prdcr_start_ex : exists p q r, run Active (session ++ [UStop; UJoin; ETerm 1; UFinal]) new = Some p /\ joiners p = 0%nat /\ finals p = 0%nat /\
  do Active UStart p = Ok AZero q /\ run Active [TFire; TRun true; EConnected 2] q = Some r /\ cs r = CConn.
Proof. eexists. eexists. eexists. repeat (split; [cbv; reflexivity|]). cbv. reflexivity. Qed.
(** A stop that is still at work when its connection ends and the producer is started again
    stops it once more, after the start was answered *)
Theorem prdcr_start_refuted : exists l p a q m r, run Active l new = Some p /\ do Active UStart p = Ok a q /\ a = AZero /\
  ~ In UStop m /\ run Active m q = Some r /\ cs r = CStopped.
Proof.
  exists (session ++ [UStop; UJoin; ETerm 1]). eexists. eexists. eexists. exists [UFinal]. eexists.
  split; [cbv; reflexivity|]. split; [cbv; reflexivity|]. split; [cbv; reflexivity|]. split; [cbn; intuition discriminate|]. split; reflexivity.
Qed.
Print Assumptions prdcr_start_refuted.
