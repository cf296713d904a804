(** Theorems about send credits (C24) and rate limits (C25). *)
From Verif Require Import S_Credit L_Credit.
Local Open Scope N_scope.

Ltac snocs n := match n with O => apply ex_nil | S ?m => eapply ex_snoc; [snocs m|] end.

(** C24.  Every execution, any number of threads and any limit: available
    credit + bytes inside send/release calls + bytes handed to the transport and
    not yet returned (read off the trace) + bytes of failed publishes = limit. *)
Theorem credit_accounting : forall L nthreads es s,
  L < UNLIMITED -> exec cstep (cinit L nthreads) es s ->
  returned es <= sent es /\
  credit s + held (threads s) + (sent es - returned es) + lost es = L.
Proof.
  intros L nt es s HL H. destruct (inv_exec _ _ _ _ HL H) as (A & B & _). lia.
Qed.
Print Assumptions credit_accounting.

(** The C24 statement, for executions in which no publish fails in the
    transport.  Missing: executions with such failures (refuted below). *)
Theorem credit_conserved_partial : forall L nthreads es s,
  L < UNLIMITED -> exec cstep (cinit L nthreads) es s ->
  (forall i n, ~ In (PublishFailed i n) es) ->
  quiescent s ->
  credit s + (sent es - returned es) = L.
Proof.
  intros L nt es s HL H Hp Hq. destruct (inv_exec _ _ _ _ HL H) as (A & B & _).
  rewrite (held_quiescent _ Hq) in A.
  assert (lost es = 0).
  { clear -Hp. induction es as [|e es IH]; simpl; auto.
    assert (forall i n, ~ In (PublishFailed i n) es) by (intros i n Hi; eapply Hp; right; eauto).
    destruct e; auto. exfalso. eapply Hp; left; eauto. }
  lia.
Qed.
Print Assumptions credit_conserved_partial.

(** A refused send happens only when the available credit is below the message
    size, and leaves credit and in-flight bytes unchanged. *)
Theorem credit_refusal : forall s i n s', cstep s (Refused i n) s' ->
  credit s < n /\ credit s' = credit s /\ flight s' = flight s /\ nth_error (threads s') i = Some Idle.
Proof.
  assert (Hn : forall l i t t0, nth_error l i = Some t0 -> nth_error (upd l i t) i = Some t).
  { induction l as [|x l IH]; intros [|i] t t0 H; simpl in *; try discriminate; eauto. }
  intros s i n s' H. inversion H; subst; unfold after_read in *;
  destruct (N.ltb_spec (credit s) n0); simpl in *;
  match goal with E : _ = Refused _ _ |- _ => inversion E; subst | E : Refused _ _ = _ |- _ => inversion E; subst end;
  repeat split; eauto.
Qed.
Print Assumptions credit_refusal.

(** In-flight bytes never exceed the limit: no send is admitted beyond it. *)
Theorem credit_bounds_flight : forall L nthreads es s,
  L < UNLIMITED -> exec cstep (cinit L nthreads) es s ->
  sent es <= L + returned es /\ credit s <= L.
Proof.
  intros L nt es s HL H. destruct (inv_exec _ _ _ _ HL H) as (A & B & _). lia.
Qed.
Print Assumptions credit_bounds_flight.

(** Without a limit no send is ever refused and the credit never changes. *)
Theorem credit_unlimited : forall nthreads es s,
  exec cstep (cinit UNLIMITED nthreads) es s ->
  credit s = UNLIMITED /\ forall i n, ~ In (Refused i n) es.
Proof. intros nt es s H. destruct (unlimited_exec _ _ _ H) as (A & _ & _ & B). auto. Qed.
Print Assumptions credit_unlimited.

(** A publish that fails in the transport loses its credit for good: the
    connection goes quiet, nothing is in flight, and yet the credit is short. *)
Theorem credit_conserved_refuted : exists L nthreads es s,
  L < UNLIMITED /\ exec cstep (cinit L nthreads) es s /\ quiescent s /\
  sent es = returned es /\ credit s = 0 /\ 0 < L.
Proof.
  exists 10, 1%nat, ([Tau] ++ [Tau] ++ [PublishFailed 0 10]), (mkC 0 [Idle] 0).
  split; [reflexivity|]. split; [|repeat split; auto; intros t [<-|[]]; reflexivity].
  change ([Tau] ++ [Tau] ++ [PublishFailed 0 10]) with ((([] ++ [Tau]) ++ [Tau]) ++ [PublishFailed 0 10]).
  eapply ex_snoc; [eapply ex_snoc; [eapply ex_snoc; [apply ex_nil|]|]|].
  - apply (cs_load (cinit 10 1) 0 10 Publisher); vm_compute; congruence.
  - cbn. apply (cs_cas (mkC 10 [Cas 10 10 Publisher] 0) 0 10 10 Publisher); reflexivity.
  - cbn. apply (cs_publish_fail (mkC 0 [Hold 10 Publisher] 0) 0 10); reflexivity.
Qed.
Print Assumptions credit_conserved_refuted.

(** Non-trivial execution meeting the hypotheses: two senders race for a credit
    of 10; the second loses the exchange, is refused, and the peer returns the
    first one's bytes. *)
Example credit_race : exists es s, exec cstep (cinit 10 2) es s /\ quiescent s /\
  (forall i n, ~ In (PublishFailed i n) es) /\ In (Refused 1 7) es /\ sent es = 8 /\ credit s = 10.
Proof.
  exists (((((((([] ++ [Tau]) ++ [Tau]) ++ [Tau]) ++ [Refused 1 7]) ++ [Sent 0 8]) ++ [Returned 1 8]) ++ [Tau])),
    (mkC 10 [Idle; Idle] 0).
  split; [|split; [intros t [<-|[<-|[]]]; reflexivity|]].
  2:{ split; [intros i n H; simpl in H; intuition discriminate|]. simpl. intuition. }
  snocs 7%nat.
  - apply (cs_load (cinit 10 2) 0 8 Sender); vm_compute; congruence.
  - cbn. apply (cs_load (mkC 10 [Cas 10 8 Sender; Idle] 0) 1 7 Sender); vm_compute; congruence.
  - cbn. apply (cs_cas (mkC 10 [Cas 10 8 Sender; Cas 10 7 Sender] 0) 0 10 8 Sender); reflexivity.
  - cbn. apply (cs_cas_fail (mkC 2 [Hold 8 Sender; Cas 10 7 Sender] 0) 1 10 7 Sender); vm_compute; congruence.
  - cbn. apply (cs_sent (mkC 2 [Hold 8 Sender; Idle] 0) 0 8 Sender); reflexivity.
  - cbn. apply (cs_return (mkC 2 [Idle; Idle] 8) 1 8); vm_compute; congruence.
  - cbn. apply (cs_add (mkC 2 [Idle; Rel 8] 0) 1 8); reflexivity.
Qed.

(** C25.  Calls that do not overlap, on a clock that does not go back: the bytes
    admitted in any second exceed the rate at most by the bytes given back in
    that second.  (Missing: overlapping calls, refuted below.) *)
Theorem rate_limit_sequential_partial : forall R cs o s sec,
  nondecreasing 0 cs -> run_calls R (mkQ R 0) cs = (o, s) ->
  adm sec o <= R + giv sec o.
Proof.
  intros R cs o s sec Hn H. destruct (seq_bound R sec _ _ _ _ _ H Hn) as (A & B & C); simpl; [lia|].
  simpl in *. lia.
Qed.
Print Assumptions rate_limit_sequential_partial.

(** Overlapping calls within one second already stamped: every interleaving
    admits at most the credit there was.  (Missing: interleavings in which the
    second changes, refuted below.) *)
Theorem rate_limit_same_second_partial : forall R s0 es s,
  rsec s0 = clock s0 -> (forall i t, nth_error (rthreads s0) i = Some t -> t = RIdle) ->
  exec (rstep R) s0 es s -> clock s = clock s0 ->
  admitted (clock s0) es + rcredit s = rcredit s0.
Proof. intros. rewrite N.add_comm. eapply rinv_exec; eauto. Qed.
Print Assumptions rate_limit_same_second_partial.

Example rate_sequential_case : exists o s,
  run_calls 10 (mkQ 10 0) [Acq 3 6; Acq 3 6; Acq 3 4; Acq 4 10; Acq 4 1] = (o, s) /\
  nondecreasing 0 [Acq 3 6; Acq 3 6; Acq 3 4; Acq 4 10; Acq 4 1] /\ adm 3 o = 10 /\ adm 4 o = 10 /\
  map snd o = [true; false; true; true; false].
Proof. eexists; eexists; split; [vm_compute; reflexivity|]. repeat split; simpl; vm_compute; congruence. Qed.

(** Two threads, rate 10: 20 bytes are admitted in second 6.  Thread 1 reads the
    exhausted credit 0 of second 5, thread 0 then resets and exhausts second 6,
    and thread 1's compare-exchange 0 -> 10 still succeeds. *)
Theorem rate_limit_refuted : exists R nthreads es s sec,
  exec (rstep R) (rinit R nthreads) es s /\ R < admitted sec es.
Proof.
  exists 10, 2%nat. eexists. eexists. exists 6. split.
  - snocs 22%nat.
    + apply rs_tick with (t := 5). vm_compute; congruence.
    + cbn. apply rs_load_sec with (i := 0%nat) (n := 10); reflexivity.
    + cbn. eapply rs_load_credit with (i := 0%nat); reflexivity.
    + cbn. eapply rs_clock_new with (i := 0%nat); reflexivity.
    + cbn. eapply rs_reset with (i := 0%nat); reflexivity.
    + cbn. eapply rs_stamp with (i := 0%nat); [reflexivity|reflexivity|vm_compute; congruence].
    + cbn. eapply rs_take with (i := 0%nat); reflexivity.
    + cbn. apply rs_tick with (t := 6). vm_compute; congruence.
    + cbn. apply rs_load_sec with (i := 1%nat) (n := 10); reflexivity.
    + cbn. eapply rs_load_credit with (i := 1%nat); reflexivity.
    + cbn. eapply rs_clock_new with (i := 1%nat); reflexivity.
    + cbn. apply rs_load_sec with (i := 0%nat) (n := 10); reflexivity.
    + cbn. eapply rs_load_credit with (i := 0%nat); reflexivity.
    + cbn. eapply rs_clock_new with (i := 0%nat); reflexivity.
    + cbn. eapply rs_reset with (i := 0%nat); reflexivity.
    + cbn. eapply rs_stamp with (i := 0%nat); [reflexivity|reflexivity|vm_compute; congruence].
    + cbn. eapply rs_take with (i := 0%nat); reflexivity.
    + cbn. eapply rs_reset with (i := 1%nat); reflexivity.
    + cbn. eapply rs_stamp_fail with (i := 1%nat); [reflexivity|vm_compute; congruence].
    + cbn. eapply rs_load_credit with (i := 1%nat); reflexivity.
    + cbn. eapply rs_clock_same with (i := 1%nat); [reflexivity|vm_compute; congruence|vm_compute; congruence].
    + cbn. eapply rs_take with (i := 1%nat); reflexivity.
  - cbn. lia.
Qed.
Print Assumptions rate_limit_refuted.

(** Even without overlap: giving back in second 6 the bytes admitted in second
    5 lets 20 bytes through in second 6, none of which is ever given back. *)
Theorem rate_limit_late_release_refuted : exists R o s,
  run_calls R (mkQ R 0) [Acq 5 10; Acq 6 0; Relr 6 10; Acq 6 20] = (o, s) /\
  map snd o = [true; true; true; true] /\ giv 6 o = adm 5 o /\ R < adm 6 o.
Proof. exists 10. eexists; eexists. split; [vm_compute; reflexivity|]. repeat split; reflexivity. Qed.
Print Assumptions rate_limit_late_release_refuted.
