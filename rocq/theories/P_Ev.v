(** C29: event workers. *)
From Verif Require Import S_Ev L_Ev L_EvTop.
From Coq Require Import List ZArith Lia Bool ZifyBool ZifyNat. Import ListNotations.
Local Open Scope nat_scope.

(** ** For users that keep the rules of [legal]
    Missing for C29 in full: the calls that [legal] excludes (ev_cancel of an event that
    is not in the tree of its worker), refuted below. *)
(** No call and no step of a worker's thread goes wrong. *)
Theorem ev_no_error_partial n s tr l : reach n any s tr -> legal n l s -> exists s' o, step false l s = Some (s', o).
Proof.
  intros R L. destruct (reach_good _ _ _ _ R) as [I Cv B _]. destruct (step_ok n l s I Cv B L) as (s' & o & E & _). eauto.
Qed.
(** The actors are called once for each successful post, except those still pending:
    a list, a tree, or a worker's thread that is about to call. *)
Theorem ev_exactly_once_partial n s tr e : reach n any s tr -> posts e tr = deliveries e tr + pending n e s.
Proof. intros R. apply (t_once _ _ _ (g_tinv _ _ _ (reach_good _ _ _ _ R))). Qed.
(** References: those of the users, one for each pending post, one for an actor that
    runs.  The event exists while there is one. *)
Theorem ev_references_partial n s tr e : reach n any s tr ->
  refs (evs s e) = held s e + pending n e s + acting n e s /\ (alive (evs s e) = true <-> 0 < refs (evs s e)).
Proof.
  intros R. destruct (reach_good _ _ _ _ R) as [I _ _ _]. split; [|apply (i_alive _ _ _ I)].
  rewrite (i_refs _ _ _ I). pose proof (pending_acting n e s). lia.
Qed.
(** Events without timeouts, and cancelled ones, are delivered in the order in which
    they were posted (cancelled). *)
Theorem ev_fifo n s tr w : reach n any s tr -> w < n ->
  entered w tr = delivered_from_list w tr ++ match ph (wks s w) with Popped e InList => [e] | _ => [] end ++ queue (wks s w).
Proof.
  intros R Hw. rewrite (t_fifo _ _ _ (g_tinv _ _ _ (reach_good _ _ _ _ R)) w Hw). destruct (ph (wks s w)) as [| |e [|now]|e [|now]]; reflexivity.
Qed.
(** A worker's thread takes the event with the earliest time of those in its tree,
    and, unless it was told to flush, not before that time. *)
Theorem ev_timers_in_order n s tr l s' o w e now : reach n any s tr -> legal n l s -> step false l s = Some (s', o) -> w < n ->
  (forall e' p, ph (wks s w) <> Popped e' p) -> ph (wks s' w) = Popped e (InTree now) ->
  exists t, In (t, e) (tree (wks s w)) /\ last_post e tr = Some (w, Some t) /\
    (forall t' e', In (t', e') (tree (wks s w)) -> (time_cmp t t' <= 0)%Z) /\
    (wst (wks s w) <> Flushing -> (time_cmp t now <= 0)%Z) /\ (time_cmp now (clk s') <= 0)%Z.
Proof.
  intros R L E Hw Hp Hp'. eapply pops_in_order; eauto. destruct (ph (wks s w)) eqn:Q; cbn; auto. exfalso. eapply Hp; eauto.
Qed.
(** The events in a worker's tree are those last posted to it with the timeouts they
    have there. *)
Theorem ev_tree_exact n s tr w t e : reach n any s tr -> w < n -> In (t, e) (tree (wks s w)) -> last_post e tr = Some (w, Some t).
Proof. intros R Hw H. apply (t_tree _ _ _ (g_tinv _ _ _ (reach_good _ _ _ _ R)) w t e Hw H). Qed.
(** If nobody posts an event on its way to its actor, it is delivered to the worker
    to which it was last posted, and with EV_OK not before its time. *)
Theorem ev_delivered_as_posted_partial n s a w e f c p b : reach n (calm n) s (a ++ ODelivered w e f c p :: b) ->
  exists to, last_post e a = Some (w, to) /\ (f = false -> forall t, to = Some t -> (time_cmp t c <= 0)%Z).
Proof. intros R. eapply delivered_as_posted; eauto. Qed.
(** EV_FLUSH is delivered only if there was an ev_cancel of that event or an ev_flush. *)
Theorem ev_flush_has_cause n s tr w e c p : reach n any s tr -> In (ODelivered w e true c p) tr -> (exists rc, In (OCancel e rc) tr) \/ exists v, In (OFlush v) tr.
Proof. intros R. eapply delivered_cause; eauto. Qed.
(** A thread that sleeps while there is something to do wakes up and takes it. *)
Theorem ev_no_lost_wakeup n s tr w : reach n any s tr -> w < n -> ph (wks s w) = Asleep ->
  (queue (wks s w) <> [] \/ exists t e, In (t, e) (tree (wks s w)) /\ (time_cmp t (clk s) <= 0)%Z) ->
  exists s' e p, step false (Wake w) s = Some (s', []) /\ ph (wks s' w) = Popped e p.
Proof. apply wakes. Qed.
(** ev_pending counts what is in the list and in the tree. *)
Theorem ev_pending_exact n s tr w : reach n any s tr -> w < n -> ev_pending w s = Z.of_nat (length (queue (wks s w)) + length (tree (wks s w))).
Proof.
  intros R Hw. destruct (reach_good _ _ _ _ R) as [I _ _ _]. unfold ev_pending. rewrite (w_qlen _ _ _ (i_wok _ _ _ I w Hw)). lia.
Qed.
(** ev_posted says whether the event waits in a list or a tree, or is being put there. *)
Theorem ev_posted_exact n s tr e : reach n any s tr ->
  ev_posted e s = true <-> (exists w b, In (e, w, b) (claims s)) \/ exists w, w < n /\ (In e (queue (wks s w)) \/ exists t, In (t, e) (tree (wks s w))).
Proof.
  intros R. destruct (reach_good _ _ _ _ R) as [I _ _ _]. pose proof (i_claim _ _ _ I e) as C. unfold ev_posted. split.
  - intros H. rewrite H in C. cbn in C. destruct (Nat.eq_dec (claimed e (claims s)) 0) as [E|E]; [|left; apply claimed_in; lia].
    right. assert (G : 0 < waiting n e s) by lia. apply sumw_pos in G. destruct G as (w & Hw & G). exists w. split; [exact Hw|].
    unfold wcnt in G. destruct (Nat.eq_dec (in_queue e (wks s w)) 0) as [Q|Q]; [right; apply tree_count_in; unfold in_tree in G; lia|].
    left. apply (count_occ_In Nat.eq_dec). unfold in_queue in Q. lia.
  - intros [H|(w & Hw & [H|(t & H)])].
    + apply claimed_in in H. destruct (posted (evs s e)); cbn in C; [reflexivity|lia].
    + apply (waits n _ s w e I Hw (wcnt_queue _ _ H)).
    + apply (waits n _ s w e I Hw (wcnt_tree _ t _ H)).
Qed.
(** For times with 0 <= tv_nsec < 10^9 the order is that of real time. *)
Definition ns (t : Z * Z) : Z := (fst t * 1000000000 + snd t)%Z.
Definition normal (t : Z * Z) : Prop := (0 <= snd t < 1000000000)%Z.
Theorem ev_time_order_real a b : normal a -> normal b -> (time_cmp a b <= 0 <-> ns a <= ns b)%Z /\ (time_cmp a b = 0 <-> ns a = ns b)%Z.
Proof.
  unfold normal, ns, time_cmp. intros Ha Hb. repeat match goal with |- context [(?x <? ?y)%Z] => destruct (Z.ltb_spec x y) end; lia.
Qed.
(** The actor called is the one registered for the type, the last one if there are
    several; the default one otherwise. *)
Lemma dispatch_nth tbl id fn i : nth i (dispatch tbl id fn) 0 = if i =? id then fn else nth i tbl 0.
Proof.
  unfold dispatch. set (t2 := match tbl with [] => _ | _ => _ end).
  assert (L : id < length t2).
  { subst t2. destruct tbl as [|x r]; [rewrite repeat_length; destruct (Nat.ltb_spec id 100); lia|].
    destruct (Nat.ltb_spec id (length (x :: r))); [assumption|]. rewrite app_length, repeat_length. cbn [length] in *. lia. }
  assert (N : nth i t2 0 = nth i tbl 0).
  { subst t2. destruct tbl as [|x r]; [rewrite nth_repeat; destruct i; reflexivity|].
    destruct (Nat.ltb_spec id (length (x :: r))); [reflexivity|]. destruct (Nat.lt_ge_cases i (length (x :: r))) as [H1|H1]; [apply app_nth1; exact H1|].
    rewrite app_nth2, nth_repeat by exact H1. rewrite nth_overflow by exact H1. reflexivity. }
  rewrite <- N. clearbody t2. clear N. assert (F : length (firstn id t2) = id) by (apply firstn_length_le; lia).
  destruct (Nat.eqb_spec i id) as [->|Hn].
  - rewrite app_nth2 by lia. rewrite F, Nat.sub_diag. reflexivity.
  - destruct (Nat.lt_ge_cases i id) as [H1|H1].
    + rewrite app_nth1 by lia. rewrite <- (firstn_skipn id t2) at 2. rewrite app_nth1 by lia. reflexivity.
    + rewrite app_nth2 by lia. rewrite F. destruct (i - id) as [|j] eqn:E; [lia|]. cbn [nth]. rewrite <- (firstn_skipn (S id) t2) at 2.
      rewrite app_nth2 by (rewrite firstn_length_le; lia). rewrite firstn_length_le by lia. f_equal. lia.
Qed.
Lemma actor_nth tbl dflt id : actor tbl dflt id = if nth id tbl 0 =? 0 then dflt else nth id tbl 0.
Proof. unfold actor. destruct (Nat.ltb_spec id (length tbl)) as [H|H]; [reflexivity|]. rewrite nth_overflow by exact H. reflexivity. Qed.
Fixpoint registered (regs : list (nat * nat)) (id : nat) : option nat :=
  match regs with
  | [] => None
  | (i, f) :: r => match registered r id with Some g => Some g | None => if i =? id then Some f else None end
  end.
Theorem ev_dispatch_last regs dflt id :
  actor (fold_left (fun t r => dispatch t (fst r) (snd r)) regs []) dflt id = match registered regs id with Some f => if f =? 0 then dflt else f | None => dflt end.
Proof.
  rewrite actor_nth. assert (G : forall t, nth id (fold_left (fun t r => dispatch t (fst r) (snd r)) regs t) 0 = match registered regs id with Some f => f | None => nth id t 0 end).
  { induction regs as [|[i f] r IH]; intros t; cbn [fold_left registered fst snd]; [reflexivity|]. rewrite IH. destruct (registered r id); [reflexivity|].
    rewrite dispatch_nth, Nat.eqb_sym. destruct (i =? id); reflexivity. }
  rewrite G. destruct (registered regs id); [reflexivity|]. destruct id; reflexivity.
Qed.
Example ev_dispatch_ex : actor (fold_left (fun t r => dispatch t (fst r) (snd r)) [(3, 7); (250, 8); (3, 9)] []) 1 250 = 8 /\
  actor (fold_left (fun t r => dispatch t (fst r) (snd r)) [(3, 7); (250, 8); (3, 9)] []) 1 3 = 9 /\
  actor (fold_left (fun t r => dispatch t (fst r) (snd r)) [(3, 7); (250, 8); (3, 9)] []) 1 499 = 1.
Proof. vm_compute. auto. Qed.

(** ** A run that keeps the rules: two workers, three events; a post, timers in the
    wrong order, a cancelled one, a flush *)
Definition safeb (n e : nat) (s : sys) : bool := (0 <? held s e) || existsb (fun w => match ph (wks s w) with Acting e' _ => e =? e' | _ => false end) (seq 0 n).
Definition fairb (n : nat) (l : label) (s : sys) : bool :=
  match l with
  | New _ | Tick _ => true
  | Get e => safeb n e s
  | Put e => 0 <? held s e
  | Claim e w _ => safeb n e s && (w <? n)
  | Cancel1 e => safeb n e s && match flushed (evs s e) with None => false | _ => true end
  | Cancel2 e => match edst (evs s e), eto (evs s e) with
                 | Some w, Some t => (time_diff t (clk s) <? 1000000000)%Z || existsb (fun x => snd x =? e) (tree (wks s w))
                 | _, _ => true end
  | Insert _ w | Flush w | Start w | Wake w | Deliver w | Return w => w <? n
  end.
Definition afterb (n : nat) (s : sys) : bool := forallb (fun c => safeb n (fst (fst c)) s) (claims s) && forallb (fun e => safeb n e s) (cancels s).
Definition calmb (n : nat) (l : label) (s : sys) : bool :=
  match l with Claim e _ _ => forallb (fun w => match ph (wks s w) with Popped e' _ => negb (e =? e') | _ => true end) (seq 0 n) | _ => true end.
Fixpoint runb (n : nat) (ls : list label) (s : sys) : option (sys * list out) :=
  match ls with
  | [] => Some (s, [])
  | l :: ls => if fairb n l s && calmb n l s then
      match step false l s with
      | Some (s1, o1) => if afterb n s1 then match runb n ls s1 with Some (s2, o2) => Some (s2, o1 ++ o2) | None => None end else None
      | None => None end
    else None
  end.
Lemma safeb_ok n e s : safeb n e s = true -> safe n e s.
Proof.
  unfold safeb, safe. intros H. apply orb_prop in H. destruct H as [H|H]; [left; lia|]. right. apply existsb_exists in H. destruct H as (w & Hw & H). apply in_seq in Hw.
  destruct (ph (wks s w)) as [| | |e' p] eqn:E; try discriminate. apply Nat.eqb_eq in H. subst. exists w, p. split; [lia|exact E].
Qed.
Lemma fairb_ok n l s : fairb n l s = true -> fair n l s.
Proof.
  destruct l; cbn [fairb fair]; intros H; auto using safeb_ok; try lia.
  - apply andb_prop in H. destruct H. split; [apply safeb_ok; assumption|lia].
  - apply andb_prop in H. destruct H. split; [apply safeb_ok; assumption|]. destruct (flushed (evs s e)); congruence.
  - intros w t Hw Ht. rewrite Hw, Ht in H. apply orb_prop in H. destruct H as [H|H]; [left; lia|]. right. apply existsb_exists in H. destruct H as ([t' e'] & Hin & E).
    cbn in E. apply Nat.eqb_eq in E. subst. eauto.
Qed.
Lemma runb_reach n ls s s' o : runb n ls s = Some (s', o) -> forall tr, reach n (calm n) s tr -> reach n (calm n) s' (tr ++ o).
Proof.
  revert s s' o. induction ls as [|l ls IH]; cbn; intros s s' o H tr R; [injection H as <- <-; rewrite app_nil_r; exact R|].
  destruct (fairb n l s && calmb n l s) eqn:F; [|discriminate]. apply andb_prop in F. destruct F as (F1 & F2).
  destruct (step false l s) as [[s1 o1]|] eqn:E; [|discriminate]. destruct (afterb n s1) eqn:A; [|discriminate].
  destruct (runb n ls s1) as [[s2 o2]|] eqn:E2; [|discriminate]. injection H as <- <-. rewrite app_assoc. apply (IH _ _ _ E2). eapply re_step; eauto.
  - split; [apply fairb_ok; exact F1|]. intros s3 o3 E3 e Hb. rewrite E in E3. injection E3 as <- <-. apply andb_prop in A. destruct A as (A1 & A2).
    rewrite forallb_forall in A1, A2. apply safeb_ok. destruct Hb as [(w & b & Hb)|Hb]; [apply (A1 _ Hb)|apply (A2 _ Hb)].
  - destruct l; cbn; auto. intros v p Hv Hp. cbn in F2. rewrite forallb_forall in F2. specialize (F2 v ltac:(apply in_seq; lia)). rewrite Hp, Nat.eqb_refl in F2. discriminate.
Qed.
Definition demo : list label :=
  [New 0; New 1; New 2; Start 0; Wake 0;
   Claim 0 0 (Some (70, 0)%Z); Insert 0 0; Claim 1 0 (Some (60, 5)%Z); Insert 1 0; Claim 2 0 (Some (5000, 0)%Z); Insert 2 0;
   Cancel1 2; Cancel2 2; Wake 0; Deliver 0; Return 0;
   Tick (100, 0)%Z; Wake 0; Wake 0; Wake 0; Deliver 0; Claim 1 0 None; Insert 1 0; Return 0; Deliver 0; Put 0; Return 0; Wake 0; Deliver 0; Return 0;
   Start 1; Claim 2 1 (Some (9000, 0)%Z); Insert 2 1; Flush 1; Claim 1 1 None; Insert 1 1; Wake 1; Deliver 1; Return 1].
Example ev_demo :
  match runb 2 demo (sys_new (50, 0)%Z) with
  | Some (s, o) => o = [OPosted 0 0 (Some (70, 0)%Z); OPosted 1 0 (Some (60, 5)%Z); OPosted 2 0 (Some (5000, 0)%Z); OMoved 2 0; OCancel 2 0%Z;
       ODelivered 0 2 true (50, 0)%Z InList; ODelivered 0 1 false (100, 0)%Z (InTree (100, 0)%Z); OPosted 1 0 None; ODelivered 0 0 false (100, 0)%Z (InTree (100, 0)%Z);
       ODelivered 0 1 false (100, 0)%Z InList; OPosted 2 1 (Some (9000, 0)%Z); OFlush 1; OBusy 1; ODelivered 1 2 true (100, 0)%Z (InTree (100, 0)%Z)] /\
       map (fun e => (alive (evs s e), refs (evs s e), held s e)) [0; 1; 2] = [(false, 0, 0); (true, 1, 1); (true, 1, 1)] /\ map (fun w => ev_pending w s) [0; 1] = [0; 0]%Z
  | None => False
  end.
Proof. vm_compute. auto. Qed.
Lemma sys0_reach n now : (time_cmp (0, 0) now <= 0)%Z -> reach n (calm n) (sys_new now) [].
Proof. intros H. apply re_init. exact H. Qed.
(** So the hypotheses of the theorems above are met after these 39 steps. *)
Example ev_demo_reach : exists s tr, reach 2 (calm 2) s tr /\ posts 1 tr = 2 /\ deliveries 1 tr = 2 /\ length tr = 14.
Proof.
  destruct (runb 2 demo (sys_new (50, 0)%Z)) as [[s o]|] eqn:E.
  - exists s, ([] ++ o). split; [apply (runb_reach 2 demo _ _ _ E); apply sys0_reach; vm_compute; discriminate|].
    pose proof ev_demo as D. rewrite E in D. destruct D as (-> & _). vm_compute. auto.
  - pose proof ev_demo as D. rewrite E in D. destruct D.
Qed.

(** ** What goes wrong otherwise *)
Definition outcome (r : option (sys * list out)) : option (list out) := match r with Some (_, o) => Some o | None => None end.
Definition t0 : Z * Z := (0, 0)%Z.
(** ev_cancel of an event that was never posted reads fields that were never set. *)
Theorem ev_cancel_unposted_refuted : exists ls, ls = [New 0; Cancel1 0] /\ run false ls (sys_new t0) = None.
Proof. eexists. split; [reflexivity|]. reflexivity. Qed.
(** A second ev_cancel removes the event from a tree in which it is not. *)
Theorem ev_cancel_twice_refuted : exists ls, ls = [New 0; Claim 0 0 (Some (100, 0)%Z); Insert 0 0; Cancel1 0; Cancel2 0; Cancel1 0; Cancel2 0] /\
  run false ls (sys_new t0) = None /\ outcome (run false (firstn 5 ls) (sys_new t0)) = Some [OPosted 0 0 (Some (100, 0)%Z); OMoved 0 0; OCancel 0 0%Z].
Proof. eexists. split; [reflexivity|]. split; reflexivity. Qed.
(** So does an ev_cancel while ev_post is between its compare and swap and the lock. *)
Theorem ev_cancel_race_post_refuted : exists ls, ls = [New 0; Claim 0 0 (Some (100, 0)%Z); Cancel1 0; Cancel2 0] /\ run false ls (sys_new t0) = None.
Proof. eexists. split; reflexivity. Qed.
(** And an ev_cancel that waits for the lock while a flush delivers the event. *)
Theorem ev_cancel_race_flush_refuted : exists ls,
  ls = [New 0; Start 0; Claim 0 0 (Some (100, 0)%Z); Insert 0 0; Cancel1 0; Flush 0; Wake 0; Deliver 0; Return 0; Cancel2 0] /\ run false ls (sys_new t0) = None /\
  outcome (run false (firstn 9 ls) (sys_new t0)) = Some [OPosted 0 0 (Some (100, 0)%Z); OFlush 0; ODelivered 0 0 true t0 (InTree t0)].
Proof. eexists. split; [reflexivity|]. split; reflexivity. Qed.
(** And an ev_cancel after an ev_post that was refused because of a flush. *)
Theorem ev_cancel_refused_post_refuted : exists ls,
  ls = [New 0; Flush 0; Claim 0 0 (Some (100, 0)%Z); Insert 0 0; Cancel1 0; Cancel2 0] /\ run false ls (sys_new t0) = None /\
  outcome (run false (firstn 4 ls) (sys_new t0)) = Some [OFlush 0; OBusy 0].
Proof. eexists. split; [reflexivity|]. split; reflexivity. Qed.
(** ev_cancel that says EBUSY has cancelled the event all the same: it is delivered as
    EV_FLUSH, at its time. *)
Theorem ev_cancel_busy_cancels_refuted : exists ls,
  ls = [New 0; Start 0; Claim 0 0 (Some (0, 5)%Z); Insert 0 0; Cancel1 0; Cancel2 0; Wake 0; Tick (0, 5)%Z; Wake 0; Deliver 0] /\
  outcome (run false ls (sys_new t0)) = Some [OPosted 0 0 (Some (0, 5)%Z); OCancel 0 EBUSY; ODelivered 0 0 true (0, 5)%Z (InTree (0, 5)%Z)].
Proof. eexists. split; [reflexivity|]. vm_compute. reflexivity. Qed.
(** ev_flush: an event posted before it is delivered as EV_OK, because the worker was in
    the tree and not in the list. *)
Theorem ev_flush_misses_refuted : exists ls,
  ls = [New 0; New 1; Start 0; Claim 0 0 (Some t0); Insert 0 0; Wake 0; Deliver 0; Claim 1 0 None; Insert 1 0; Flush 0; Return 0; Wake 0; Deliver 0] /\
  outcome (run false ls (sys_new t0)) = Some [OPosted 0 0 (Some t0); ODelivered 0 0 false t0 (InTree t0); OPosted 1 0 None; OFlush 0; ODelivered 0 1 false t0 InList].
Proof. eexists. split; [reflexivity|]. vm_compute. reflexivity. Qed.
(** ev_flush before the thread of the worker runs is forgotten. *)
Theorem ev_flush_before_start_refuted : exists ls,
  ls = [New 0; Claim 0 0 None; Insert 0 0; Flush 0; Start 0; Wake 0; Deliver 0] /\
  outcome (run false ls (sys_new t0)) = Some [OPosted 0 0 None; OFlush 0; ODelivered 0 0 false t0 InList].
Proof. eexists. split; [reflexivity|]. vm_compute. reflexivity. Qed.
(** Posted again between its removal for a flush and the call of the actor, an event is
    delivered as EV_OK before its time. *)
Theorem ev_repost_race_refuted : exists ls,
  ls = [New 0; Start 0; Claim 0 0 (Some (100, 0)%Z); Insert 0 0; Flush 0; Wake 0; Claim 0 1 (Some (200, 0)%Z); Deliver 0] /\
  outcome (run false ls (sys_new t0)) = Some [OPosted 0 0 (Some (100, 0)%Z); OFlush 0; ODelivered 0 0 false t0 (InTree t0)].
Proof. eexists. split; [reflexivity|]. vm_compute. reflexivity. Qed.
(** Compiled with NDEBUG, ev_get does nothing: the event is freed after its delivery,
    although the user has a reference. *)
Theorem ev_ndebug_refuted : exists ls, ls = [New 0; Claim 0 0 None; Insert 0 0; Start 0; Wake 0; Deliver 0; Return 0; Put 0] /\
  run true ls (sys_new t0) = None /\ run false ls (sys_new t0) <> None /\
  match run true (firstn 7 ls) (sys_new t0) with Some (s, _) => (alive (evs s 0), held s 0) = (false, 1) | None => False end.
Proof. eexists. split; [reflexivity|]. split; [reflexivity|]. split; [vm_compute; discriminate|]. vm_compute. reflexivity. Qed.
(** ev_sched_to does not carry nanoseconds: an event due in 0.2 s, asked for at
    10.9 s, is delivered at 11 s. *)
Theorem ev_sched_to_early_refuted : exists now secs nsecs c ls, normal now /\ (0 <= nsecs < 1000000000)%Z /\ normal c /\
  ls = [New 0; Start 0; Claim 0 0 (Some (sched_to now secs nsecs)); Insert 0 0; Wake 0; Tick c; Wake 0; Deliver 0] /\
  outcome (run false ls (sys_new now)) = Some [OPosted 0 0 (Some (sched_to now secs nsecs)); ODelivered 0 0 false c (InTree c)] /\
  (ns c < ns now + secs * 1000000000 + nsecs)%Z.
Proof.
  exists (10, 900000000)%Z, 0%Z, 200000000%Z, (11, 0)%Z. eexists. split; [unfold normal; cbn; lia|]. split; [lia|]. split; [unfold normal; cbn; lia|]. split; [reflexivity|].
  split; [vm_compute; reflexivity|]. unfold ns. cbn. lia.
Qed.
(** Such times are also in the wrong order. *)
Theorem ev_sched_to_order_refuted : exists a b, normal a /\ normal b /\
  let x := sched_to a 0 999999999 in let y := sched_to b 0 0 in (ns y < ns x)%Z /\ (time_cmp x y < 0)%Z.
Proof. exists (10, 900000000)%Z, (11, 0)%Z. cbv zeta. unfold normal, ns. vm_compute. intuition congruence. Qed.
(** The test of ev_cancel for "less than a second away" is wrong by up to a second: it
    passes one nanosecond before the time. *)
Theorem ev_time_diff_refuted : exists t now, normal t /\ normal now /\ (ns t - ns now = 1)%Z /\ (1000000000 <= time_diff t now)%Z.
Proof. exists (1, 0)%Z, (0, 999999999)%Z. unfold normal, ns. vm_compute. intuition congruence. Qed.
(** An event that posts itself again from its actor keeps the worker in its list: an
    event whose time has come is not delivered, however many steps there are. *)
Definition starving (s : sys) : Prop :=
  evs s 1 = mkEv true 2 false (Some false) (Some (0, 0)%Z) (Some 0) /\ (exists sw m, (time_cmp (0, 0) sw <= 0)%Z /\ wks s 0 = mkWk Running sw m [] 0 [(t0, 0)] (Acting 1 InList)) /\ claims s = [].
Definition again : list label := [Claim 1 0 None; Insert 1 0; Return 0; Deliver 0].
Lemma starving_step s : starving s -> exists s', run false again s = Some (s', [OPosted 1 0 None; ODelivered 0 1 false (clk s) InList]) /\ starving s' /\ clk s' = clk s.
Proof.
  intros (E & (sw & m & Hsw & W) & C). unfold again. cbn [run step].
  unfold do_claim. rewrite E. cbn [alive posted refs].
  unfold do_insert. cbn [claims]. rewrite C. cbn [take_claim Nat.eqb andb]. cbv zeta. cbn [evs wks]. rewrite fupd_eq. cbn [alive]. rewrite W. cbn [wst].
  unfold get_ref. cbn [evs]. rewrite fupd_eq. cbn [alive refs Nat.eqb eto posted flushed edst semw]. destruct (Z.leb_spec (time_cmp (0, 0)%Z sw) 0); [|lia].
  unfold set_wk, set_ev. cbn [evs wks clk claims cancels held sem queue qlen tree ph app].
  unfold do_return. cbn [wks]. rewrite fupd_eq. cbn [ph]. unfold put_ref. cbn [evs]. rewrite fupd_eq. cbn [alive refs posted flushed eto edst].
  unfold immediate, set_ev. cbn [wks evs]. rewrite !fupd_eq. cbn [queue alive wst semw sem qlen tree refs flushed eto edst].
  unfold set_wk. cbn [evs wks clk claims cancels held].
  unfold do_deliver. cbn [wks evs]. rewrite !fupd_eq. cbn [ph alive flushed wst semw sem queue qlen tree clk].
  eexists. split; [reflexivity|]. split; [|reflexivity]. unfold starving, set_wk. cbn [evs wks claims]. rewrite !fupd_eq. split; [reflexivity|]. split; [|reflexivity].
  exists sw, (S m). split; [exact Hsw|reflexivity].
Qed.
Lemma run_app ls ls' s s1 o1 : run false ls s = Some (s1, o1) -> run false (ls ++ ls') s = match run false ls' s1 with Some (s2, o2) => Some (s2, o1 ++ o2) | None => None end.
Proof.
  revert s o1. induction ls as [|l ls IH]; cbn; intros s o1 H; [injection H as <- <-; destruct (run false ls' s) as [[? ?]|]; reflexivity|].
  destruct (step false l s) as [[s2 o2]|]; [|discriminate]. destruct (run false ls s2) as [[s3 o3]|] eqn:E; [|discriminate]. injection H as <- <-.
  rewrite (IH _ _ E). destruct (run false ls' s3) as [[? ?]|]; [rewrite app_assoc|]; reflexivity.
Qed.
Theorem ev_timer_starved_refuted : exists pre loop, forall k, exists s o, run false (pre ++ concat (repeat loop k)) (sys_new t0) = Some (s, o) /\
  posts 0 o = 1 /\ deliveries 0 o = 0 /\ last_post 0 o = Some (0, Some t0) /\ clk s = t0 /\ deliveries 1 o = S k.
Proof.
  exists [New 0; New 1; Start 0; Claim 0 0 (Some t0); Insert 0 0; Claim 1 0 None; Insert 1 0; Wake 0; Deliver 0], again. intros k.
  set (pre := [New 0; _; _; _; _; _; _; _; _]).
  assert (H : exists s, run false pre (sys_new t0) = Some (s, [OPosted 0 0 (Some t0); OPosted 1 0 None; ODelivered 0 1 false t0 InList]) /\ starving s /\ clk s = t0).
  { assert (D : match run false pre (sys_new t0) with
      | Some (s, o) => o = [OPosted 0 0 (Some t0); OPosted 1 0 None; ODelivered 0 1 false t0 InList] /\
          evs s 1 = mkEv true 2 false (Some false) (Some (0, 0)%Z) (Some 0) /\ wks s 0 = mkWk Running (0, 0)%Z 1 [] 0 [(t0, 0)] (Acting 1 InList) /\ claims s = [] /\ clk s = t0
      | None => False end) by (vm_compute; auto 10).
    destruct (run false pre (sys_new t0)) as [[s o]|]; [|destruct D]. destruct D as (-> & D1 & D2 & D3 & D4). exists s. split; [reflexivity|]. split; [|exact D4].
    split; [exact D1|]. split; [|exact D3]. exists (0, 0)%Z, 1. split; [vm_compute; discriminate|exact D2]. }
  destruct H as (s & H & Hs & Hc). rewrite (run_app _ _ _ _ _ H). clear H pre.
  assert (G : forall k s, starving s -> clk s = t0 -> exists s' o', run false (concat (repeat again k)) s = Some (s', o') /\ clk s' = t0 /\ posts 0 o' = 0 /\ deliveries 0 o' = 0 /\ last_post 0 o' = None /\ deliveries 1 o' = k).
  { clear. induction k as [|k IH]; intros s Hs Hc; [exists s, []; repeat split; auto|]. destruct (starving_step s Hs) as (s1 & E1 & Hs1 & Hc1).
    destruct (IH s1 Hs1 ltac:(congruence)) as (s2 & o2 & E2 & H2 & P1 & P2 & P3 & P4). cbn [repeat concat]. rewrite (run_app _ _ _ _ _ E1), E2. do 2 eexists. split; [reflexivity|].
    split; [exact H2|]. rewrite posts_app, !deliveries_app, last_post_app, P1, P2, P3, P4. repeat split. }
  destruct (G k s Hs Hc) as (s2 & o2 & E2 & H2 & P1 & P2 & P3 & P4). rewrite E2. do 2 eexists. split; [reflexivity|]. rewrite posts_app, !deliveries_app, last_post_app, P1, P2, P3, P4. repeat split. exact H2.
Qed.

Print Assumptions ev_no_error_partial.
Print Assumptions ev_exactly_once_partial.
Print Assumptions ev_references_partial.
Print Assumptions ev_fifo.
Print Assumptions ev_timers_in_order.
Print Assumptions ev_tree_exact.
Print Assumptions ev_delivered_as_posted_partial.
Print Assumptions ev_flush_has_cause.
Print Assumptions ev_no_lost_wakeup.
Print Assumptions ev_pending_exact.
Print Assumptions ev_posted_exact.
Print Assumptions ev_time_order_real.
Print Assumptions ev_dispatch_last.
Print Assumptions ev_timer_starved_refuted.
