(** C26: the events that the application of a rail sees. *)
From Verif Require Import M_Rail S_Rail L_Rail L_RailStep L_RailStep2 L_RailStep5 L_RailTop.
From Coq Require Import List ZArith Lia. Import ListNotations.

(** The application sees CONNECTED at most once, and only after all endpoints were
    connected with nothing gone wrong; and when all callbacks have returned it has seen
    it if and only if this was so.  For active and passive rails. *)
Theorem rail_connected p n ls s h : 0 < n -> legal_run (born p n) ls -> run (born p n) ls = Ran s h ->
  number told h <= 1 /\ (forall a b, h = a ++ Saw (OApp XConnected) :: b -> joined n a) /\ (quiet s -> (number told h = 1 <-> joined n h)).
Proof.
  intros P L R. pose proof (all_run p n ls P L) as H. rewrite R in H. destruct H as ((IE & IR & IF) & A & _). destruct (r_c _ _ _ _ IR) as (B & C). cbv zeta in *.
  pose proof (sumz_nonneg n (fun i => ind (pC (at_pc s i))) ltac:(intros; apply ind_bound)). unfold hC in *. split; [lia|]. split; [exact A|].
  intros Q. rewrite (quiet_sum n s pC Q eq_refl) in *. rewrite <- C. lia.
Qed.

(** An active rail, and a passive one that was connected: at most one terminal event.
    When every endpoint has finished and every callback has returned there is one, if
    and only if the fate of the rail was decided (closed, failed, rejected or connected
    as a whole) when the last endpoint finished. *)
Theorem rail_terminal_partial p n ls s h : 0 < n -> legal_run (born p n) ls -> run (born p n) ls = Ran s h -> p = false \/ joined n h ->
  number terminal h <= 1 /\ (finished s -> (number terminal h = 1 <-> settled_last n h)).
Proof.
  intros P L R J. pose proof (all_run p n ls P L) as H. rewrite R in H. destruct H as ((IE & IR & IF) & _). destruct (r_t _ _ _ _ IR J) as (B & C).
  pose proof (sumz_nonneg n (fun i => ind (pT (at_pc s i))) ltac:(intros; apply ind_bound)). unfold hT in *. split; [lia|].
  intros F. assert (Q : quiet s) by (intros i; apply F). assert (D : allDone s) by (intros i; apply F). rewrite (quiet_sum n s pT Q eq_refl) in *. destruct C as (C1 & C2). split; [intros X; apply C1; lia|]. intros X. specialize (C2 (conj D X)). lia.
Qed.
(** For a rail that was connected the fate was decided, so the terminal event comes. *)
Theorem rail_disconnected p n ls s h : 0 < n -> legal_run (born p n) ls -> run (born p n) ls = Ran s h -> joined n h -> finished s -> number terminal h = 1.
Proof.
  intros P L R J F. apply (rail_terminal_partial p n ls s h P L R (or_intror J)); [exact F|]. pose proof (all_run p n ls P L) as H. rewrite R in H. destruct H as ((IE & IR & IF) & _).
  assert (NT : forall i, i < n -> tp s i = TDone) by (intros i Hi; destruct (joined_up _ _ _ _ i IE J Hi) as (_ & X & _); destruct (F i) as ([Y|Y] & _); congruence).
  assert (EF : exists e, final e /\ ev 0 e h) by (apply (e_done _ _ _ _ IE); apply NT; exact P). destruct EF as (e & Fe & E).
  (* the last final event *)
  assert (LF : exists g1 i f g2, h = g1 ++ Did (Event i f) :: g2 /\ final f /\ forall j q, final q -> ~ ev j q g2).
  { clear -E Fe. induction h as [|x h IH] using rev_ind; [destruct E|]. apply in_app_iff in E.
    assert (DX : (exists i f, x = Did (Event i f) /\ final f) \/ forall i f, final f -> x <> Did (Event i f)).
    { destruct x as [[| | |i f| | | | |]|]; try (right; discriminate). destruct f; try (right; intros k q Fq X; injection X as _ <-; destruct Fq; fail); left; eexists; eexists; split; try reflexivity; exact I. }
    destruct DX as [(i & f & -> & Ff)|NX]; [exists h, i, f, []; split; [reflexivity|]; split; [exact Ff|intros j q _ []]|].
    destruct E as [E|[E|[]]]; [|now apply NX in E]. destruct (IH E) as (g1 & i & f & g2 & -> & Ff & N). exists g1, i, f, (g2 ++ [x]). rewrite <- app_assoc. split; [reflexivity|]. split; [exact Ff|].
    intros j q Fq X. apply in_app_iff in X. destruct X as [X|[X|[]]]; [now apply (N j q)|now apply (NX j q)]. }
  destruct LF as (g1 & i & f & g2 & E1 & Ff & N). exists g1, i, f, g2. split; [exact E1|]. split; [exact Ff|]. split; [exact N|]. right. right. right. right.
  destruct J as (a & b & E2 & C & U). rewrite E2 in E1. assert (X : exists c, g1 ++ [Did (Event i f)] = a ++ c).
  { destruct (app_eq_app _ _ _ _ E1) as (l & [(X & Y)|(X & Y)]); [|exists (l ++ [Did (Event i f)]); rewrite X, <- app_assoc; reflexivity].
    destruct l as [|y l]; [exists [Did (Event i f)]; rewrite X, app_nil_r; reflexivity|]. injection Y as <- Y. exfalso. destruct C as (_ & C2 & C3 & C4).
    assert (Z : some_ev f a) by (exists i; unfold ev; rewrite X; apply in_app_iff; right; left; reflexivity). destruct f; contradiction. }
  destruct X as (c & X). exists a, c. auto.
Qed.
(** After the terminal event nothing more: no event for the application, and no event
    of an endpoint.  (A passive rail: if it was connected.) *)
Theorem rail_last p n ls s h : 0 < n -> legal_run (born p n) ls -> run (born p n) ls = Ran s h ->
  forall a t b, h = a ++ Saw (OApp t) :: b -> final t -> p = false \/ joined n a -> (forall e, ~ In (Saw (OApp e)) b) /\ (forall i e, ~ ev i e b).
Proof. intros P L R. pose proof (all_run p n ls P L) as H. rewrite R in H. destruct H as (_ & _ & H & _). exact H. Qed.
(** The terminal event tells how the endpoints fared, up to the end of the last one;
    after CONNECTED it is DISCONNECTED. *)
Theorem rail_verdict p n ls s h t : 0 < n -> legal_run (born p n) ls -> run (born p n) ls = Ran s h -> p = false \/ joined n h ->
  final t -> In (Saw (OApp t)) h -> last_verdict h t /\ (joined n h -> t = XDisconnected).
Proof.
  intros P L R J F T. pose proof (all_run p n ls P L) as H. rewrite R in H. destruct H as (I & _ & _ & V & _). specialize (V J t F (or_introl T)). split; [exact V|]. intros X. eapply disconnected_after; eauto.
Qed.
(** An active rail aborts the process exactly when an endpoint gets connected although
    the rail counts as rejected; nothing else goes wrong: no use of the rail after it
    was freed, no freeing of a rail whose endpoints are in use. *)
Theorem rail_abort n ls : 0 < n -> legal_run (active_sys n) ls ->
  match run (active_sys n) ls with
  | Crashed c h l => c = Assert /\ rejected_last h /\ exists i, l = Event i XConnected
  | Ran s h => forall i, legal s (Event i XConnected) -> rejected_last h -> step s (Event i XConnected) = Crash Assert
  end.
Proof.
  intros P L. pose proof (all_run false n ls P L) as H. change (born false n) with (active_sys n) in H. destruct (run (active_sys n) ls) as [s h|c h l].
  - intros i Li R. destruct H as (I & _). eapply crash_when; eauto.
  - destruct H as (s & I & _ & Ll & E). destruct (crash_only _ _ _ _ _ _ I Ll (or_introl eq_refl) E) as [(A & B & _ & C)|(_ & X & _)]; [auto|discriminate].
Qed.
(** As long as no endpoint was rejected, no order of the events aborts the process. *)
Theorem rail_no_abort_partial n ls c h l : 0 < n -> legal_run (active_sys n) ls -> run (active_sys n) ls = Crashed c h l -> some_ev XRejected h.
Proof.
  intros P L R. pose proof (rail_abort n ls P L) as H. rewrite R in H. destruct H as (_ & (g1 & i & g2 & -> & _) & _). exists i. apply in_app_iff. right. left. reflexivity.
Qed.
(** A passive rail that was connected fails in one way only: a request of the peer that
    had found the rail before comes after it was freed. *)
Theorem rail_passive_connected_partial n ls c h l : 0 < n -> legal_run (passive_sys n) ls -> run (passive_sys n) ls = Crashed c h l -> joined n h ->
  c = Freed /\ exists i m b, l = Make i m b.
Proof.
  intros P L R J. pose proof (all_run true n ls P L) as H. change (born true n) with (passive_sys n) in H. rewrite R in H. destruct H as (s & I & _ & Ll & E).
  destruct (crash_only _ _ _ _ _ _ I Ll (or_intror J) E) as [(_ & _ & X & _)|(A & _ & _ & B)]; [discriminate|auto].
Qed.
(** An endpoint is closed by the rail at most once, and only while it is connected; once
    the rail is decided, every endpoint that is still connected has been closed, if the
    application closed the rail or if some endpoint is not connected. *)
Theorem rail_closes p n ls s h : 0 < n -> legal_run (born p n) ls -> run (born p n) ls = Ran s h ->
  (forall i, number (closes i) h <= 1) /\
  (forall a i b, h = a ++ Saw (OClose i) :: b -> up i a) /\
  (settled n h -> In (Did Close) h \/ (exists k, k < n /\ ~ up k h) -> forall i, up i h -> number (closes i) h = 1).
Proof.
  intros P L R. pose proof (all_run p n ls P L) as H. rewrite R in H. destruct H as ((IE & IR & IF) & _ & _ & _ & C & B).
  split; [intros i; apply (e_cl _ _ _ _ IE)|]. split.
  - intros a i b E. destruct (C a i b E) as (X & Y). split; [exact X|]. apply Y. exact I.
  - intros S K i (U1 & U2). assert (UP : forall k, tp s k = TUp <-> up k h).
    { intros k. split; [intros T; destruct (e_up _ _ _ _ IE k T) as (X & Y); split; [exact X|apply Y; exact I]|]. intros (X & Y). destruct (tp s k) eqn:T; [exfalso; eapply (e_none _ _ _ _ IE k); eauto|exfalso; eapply (e_none _ _ _ _ IE k); eauto|reflexivity|].
      destruct (e_done _ _ _ _ IE k T) as (f & Ff & Z). destruct (e_excl _ _ _ _ IE k X). destruct f; contradiction. }
    assert (Ti : tp s i = TUp) by (apply UP; split; assumption).
    assert (BD : bad s).
    { pose proof (r_st _ _ _ _ IR) as RS. unfold bad. destruct K as [K|(k & Hk & K)]; [apply B; exact K|]. destruct (st (rl s)); try contradiction; auto.
      - destruct RS as (_ & _ & _ & X). contradiction.
      - destruct RS as (_ & X). contradiction.
      - destruct RS as (_ & _ & X). contradiction.
      - destruct RS as (_ & X & _). exfalso. apply K. apply UP. apply X. exact Hk. }
    assert (EI : ep_st (rl s) i = ERROR) by (pose proof (r_st _ _ _ _ IR) as RS; destruct BD as [X|X]; rewrite X in RS; apply RS; exact Ti).
    pose proof (e_st _ _ _ _ IE i) as ES. rewrite Ti, EI in ES. destruct ES as [(X & _)|(_ & X)]; [discriminate|exact X].
Qed.
(** The rail is freed when the application has put its reference and all is finished:
    always for an active rail, and for a passive one that was connected. *)
Theorem rail_freed p n ls s h : 0 < n -> legal_run (born p n) ls -> run (born p n) ls = Ran s h -> p = false \/ joined n h ->
  finished s -> has_ref s = false -> refs (rl s) = 0%Z.
Proof.
  intros P L R J F A. pose proof (all_run p n ls P L) as H. rewrite R in H. destruct H as ((IE & IR & IF) & _).
  assert (Q : quiet s) by (intros i; apply F). assert (D : allDone s) by (intros i; apply F).
  assert (T : in_tree (rl s) = false).
  { destruct J as [J|J]; [apply (f_act _ _ _ _ IF); exact J|]. destruct p; [|apply (f_act _ _ _ _ IF); reflexivity].
    destruct (f_tree _ _ _ _ IF eq_refl J) as (_ & X). rewrite (quiet_sum n s pRm Q eq_refl) in X. destruct (in_tree (rl s)); [|reflexivity]. cbn [negb ind] in X. apply X in D. discriminate. }
  rewrite (f_ref _ _ _ _ IF), A, T, (quiet_sum n s busy Q eq_refl), !sumz_0; [reflexivity| |]; intros i; destruct (D i) as [-> | ->]; reflexivity.
Qed.
(** ... and not before, while the application or an endpoint uses it. *)
Theorem rail_held p n ls s h : 0 < n -> legal_run (born p n) ls -> run (born p n) ls = Ran s h ->
  has_ref s = true \/ (exists i, tp s i = TTrying \/ tp s i = TUp \/ at_pc s i <> Idle) -> (1 <= refs (rl s))%Z.
Proof.
  intros P L R H. pose proof (all_run p n ls P L) as X. rewrite R in X. destruct X as ((IE & IR & IF) & _). pose proof (f_ref _ _ _ _ IF) as F.
  pose proof (ind_bound (has_ref s)). pose proof (ind_bound (in_tree (rl s))).
  assert (S1 : (0 <= sumz n (fun i => ind (isTry (tp s i))))%Z) by (apply sumz_nonneg; intros; apply ind_bound).
  assert (S2 : (0 <= sumz n (fun i => ind (isUp (tp s i))))%Z) by (apply sumz_nonneg; intros; apply ind_bound).
  assert (S3 : (0 <= sumz n (fun i => ind (busy (at_pc s i))))%Z) by (apply sumz_nonneg; intros; apply ind_bound).
  destruct H as [H|(i & [H|[H|H]])].
  - rewrite H in F. cbn [ind] in F. lia.
  - pose proof (sumz_ge n (fun i => ind (isTry (tp s i))) i ltac:(intros; apply ind_bound) (tp_lt _ _ _ _ i IE ltac:(congruence))) as G. cbv beta in G. rewrite H in G. cbn [isTry ind] in G. lia.
  - pose proof (sumz_ge n (fun i => ind (isUp (tp s i))) i ltac:(intros; apply ind_bound) (tp_lt _ _ _ _ i IE ltac:(congruence))) as G. cbv beta in G. rewrite H in G. cbn [isUp ind] in G. lia.
  - pose proof (sumz_ge n (fun i => ind (busy (at_pc s i))) i ltac:(intros; apply ind_bound) (pc_lt _ _ _ _ i IE H)) as G. cbv beta in G. destruct (at_pc s i); [congruence|cbn [busy ind] in G; lia|cbn [busy ind] in G; lia].
Qed.

(** ** Cases *)
(** What the application sees *)
Definition seen (h : list item) : list out := flat_map (fun x => match x with Saw o => [o] | _ => [] end) h.
Definition good2 : list label :=
  [Connect (fun _ => Starts); Event 1 XConnected; Event 0 XConnected; Call 1; Call 0; End 0; End 1; Event 0 XData; Call 0; End 0;
   Event 1 XDisconnected; Event 0 XDisconnected; Call 0; Call 1; End 1; End 0; Put].
Example rail_ex : legal_run (active_sys 2) good2 /\
  match run (active_sys 2) good2 with
  | Ran s h => seen h = [ORet true; OApp XConnected; OApp XData; OClose 0; OApp XDisconnected] /\ refs (rl s) = 0%Z /\ at_pc s 0 = Idle /\ at_pc s 1 = Idle /\ tp s 0 = TDone /\ tp s 1 = TDone
  | _ => False end.
Proof. split; [apply legal_runb_ok; vm_compute; reflexivity|]. vm_compute. repeat split. Qed.
Example rail_ex_joined : exists s h, run (active_sys 2) good2 = Ran s h /\ joined 2 h /\ finished s.
Proof.
  destruct (run (active_sys 2) good2) as [s h|] eqn:E; [|vm_compute in E; discriminate]. exists s, h. split; [reflexivity|].
  assert (L : legal_run (active_sys 2) good2) by (apply legal_runb_ok; vm_compute; reflexivity).
  pose proof (rail_connected false 2 good2 s h ltac:(lia) L E) as (_ & _ & C).
  assert (X : (at_pc s 0, at_pc s 1, tp s 0, tp s 1, number told h) = (Idle, Idle, TDone, TDone, 1)).
  { transitivity (match run (active_sys 2) good2 with Ran s h => (at_pc s 0, at_pc s 1, tp s 0, tp s 1, number told h) | _ => (Idle, Idle, TNone, TNone, 0) end); [rewrite E; reflexivity|vm_compute; reflexivity]. }
  injection X as X1 X2 X3 X4 X5. pose proof (all_run false 2 good2 ltac:(lia) L) as A. change (born false 2) with (active_sys 2) in A. rewrite E in A. destruct A as ((IE & _) & _).
  assert (F : finished s).
  { intros [|[|i]]; [rewrite X1, X3|rewrite X2, X4|destruct (e_out _ _ _ _ IE (S (S i)) ltac:(lia)) as (U1 & U2 & U3 & _); auto];
    (split; [auto|]; split; [reflexivity|]; match goal with |- made s ?k = false => destruct (made s k) eqn:M; [|reflexivity]; destruct (e_made _ _ _ _ IE _ M) as (_ & _ & Y); discriminate end). }
  split; [|exact F]. apply C; [intros i; apply F|exact X5].
Qed.
(** A passive rail that is connected, loses an endpoint, and is freed *)
Definition pass2 : list label :=
  [Make 1 2 true; Find; Accept 1 true; Event 1 XConnected; Make 0 2 true; Accept 0 true; Call 1; Event 0 XConnected; End 1; Call 0; End 0;
   Event 1 XDisconnected; Call 1; Event 0 XDisconnected; Call 0; Put; End 0; End 1].
Example rail_passive_ex : legal_run (passive_sys 2) pass2 /\
  match run (passive_sys 2) pass2 with
  | Ran s h => seen h = [OApp XConnected; OClose 0; OApp XDisconnected] /\ refs (rl s) = 0%Z /\ in_tree (rl s) = false
  | _ => False end.
Proof. split; [apply legal_runb_ok; vm_compute; reflexivity|]. vm_compute. repeat split. Qed.
(** An endpoint that gets connected after the other was rejected aborts the process. *)
Theorem rail_abort_refuted : exists ls, legal_run (active_sys 2) ls /\
  match run (active_sys 2) ls with Crashed c _ l => c = Assert /\ l = Event 1 XConnected | _ => False end.
Proof. exists [Connect (fun _ => Starts); Event 0 XRejected; Event 1 XConnected]. split; [apply legal_runb_ok; vm_compute; reflexivity|]. vm_compute. split; reflexivity. Qed.
(** A rail of which one endpoint was lost before the other connected gives no event at
    all, although all endpoints have finished; and the second endpoint, connected for
    nothing, is not closed by the rail. *)
Definition lost2 : list label :=
  [Connect (fun _ => Starts); Event 0 XConnected; Call 0; End 0; Event 0 XDisconnected; Call 0; End 0;
   Event 1 XConnected; Call 1; End 1; Event 1 XDisconnected; Call 1; End 1].
Theorem rail_silent_refuted : exists ls, legal_run (active_sys 2) ls /\
  match run (active_sys 2) ls with
  | Ran s h => seen h = [ORet true] /\ tp s 0 = TDone /\ tp s 1 = TDone /\ at_pc s 0 = Idle /\ at_pc s 1 = Idle
  | _ => False end.
Proof. exists lost2. split; [apply legal_runb_ok; vm_compute; reflexivity|]. vm_compute. repeat split. Qed.
(** The application is told by connect that it failed, and later gets a terminal event
    for the endpoints that had been started. *)
Theorem rail_error_and_event_refuted : exists ls, legal_run (active_sys 2) ls /\
  match run (active_sys 2) ls with
  | Ran s h => seen h = [ORet false; OClose 0; OApp XDisconnected]
  | _ => False end.
Proof.
  exists [Connect (fun i => match i with 0 => Starts | _ => Fails end); Event 0 XConnected; Call 0; End 0; Event 0 XDisconnected; Call 0; End 0].
  split; [apply legal_runb_ok; vm_compute; reflexivity|]. vm_compute. reflexivity.
Qed.
(** Data of an endpoint come before CONNECTED. *)
Theorem rail_data_early_refuted : exists ls, legal_run (active_sys 2) ls /\
  match run (active_sys 2) ls with
  | Ran s h => seen h = [ORet true; OApp XData; OApp XConnected]
  | _ => False end.
Proof.
  exists [Connect (fun _ => Starts); Event 0 XConnected; Call 0; End 0; Event 0 XData; Call 0; End 0; Event 1 XConnected; Call 1; End 1].
  split; [apply legal_runb_ok; vm_compute; reflexivity|]. vm_compute. reflexivity.
Qed.
(** A passive rail: a request found while the failed rail is still in the tree brings a
    second terminal event, and the rail is taken out of the tree twice. *)
Definition twice2 : list label :=
  [Make 0 2 true; Accept 0 true; Event 0 XError; Call 0; Find; Make 1 2 true; Accept 1 true; Event 1 XError; Call 1; End 0].
Theorem rail_passive_twice_refuted : exists ls, legal_run (passive_sys 2) ls /\
  match run (passive_sys 2) ls with
  | Ran s h => seen h = [OApp XError; OApp XError]
  | _ => False end /\ legal_run (passive_sys 2) (ls ++ [End 1]) /\ 
  match run (passive_sys 2) (ls ++ [End 1]) with Crashed c _ l => c = NotInTree /\ l = End 1 | _ => False end.
Proof.
  exists twice2. split; [apply legal_runb_ok; vm_compute; reflexivity|]. split; [vm_compute; reflexivity|]. split; [apply legal_runb_ok; vm_compute; reflexivity|]. vm_compute. split; reflexivity.
Qed.
(** A passive rail: a request that has found the rail uses it after it was freed. *)
Theorem rail_passive_freed_refuted : exists ls, legal_run (passive_sys 2) ls /\
  match run (passive_sys 2) ls with Crashed c _ l => c = Freed /\ l = Make 1 2 true | _ => False end.
Proof.
  exists [Make 0 2 true; Accept 0 true; Event 0 XError; Call 0; Find; Put; End 0; Make 1 2 true].
  split; [apply legal_runb_ok; vm_compute; reflexivity|]. vm_compute. split; reflexivity.
Qed.

Print Assumptions rail_connected.
Print Assumptions rail_terminal_partial.
Print Assumptions rail_disconnected.
Print Assumptions rail_last.
Print Assumptions rail_verdict.
Print Assumptions rail_abort.
Print Assumptions rail_no_abort_partial.
Print Assumptions rail_passive_connected_partial.
Print Assumptions rail_closes.
Print Assumptions rail_freed.
Print Assumptions rail_held.
Print Assumptions rail_abort_refuted.
Print Assumptions rail_silent_refuted.
Print Assumptions rail_error_and_event_refuted.
Print Assumptions rail_data_early_refuted.
Print Assumptions rail_passive_twice_refuted.
Print Assumptions rail_passive_freed_refuted.
