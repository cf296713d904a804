(** Theorems on the sets of a producer. *)
From Verif Require Import S_PrdSet L_PrdSet.
From Coq Require Import Lia.

(** ** Safety.  In the orders of steps described by [calm] no freed set is used and no
    assertion fails; there is at most one lookup and one update at a time; a set is freed
    only when nobody holds it.  Missing: the other orders, refuted below. *)
Theorem pset_safe_partial : forall g h l, along g calm l (new h) -> exists p, run g l (new h) = Some p /\
  (lk p <= 1 /\ up p <= 1 /\ (tree p = true -> lk p + up p <= 1)) /\ (freed p = true -> holders p = 0).
Proof.
  intros g h l A. destruct (inv_run g l _ (inv_new g h) A) as (p & R & I). exists p. split; [exact R|].
  pose proof (iL1 _ _ I) as L. pose proof (iU1 _ _ I) as U. pose proof (iS _ _ I) as S. split.
  - split; [exact L|]. split; [exact U|]. intros T. specialize (S T). destruct (st p); lia.
  - intros F. destruct (iF _ _ I F) as (T & L0 & U0 & I0 & _). destruct (iT _ _ I T) as (H & _). unfold holders. rewrite T, H, L0, U0, I0. reflexivity.
Qed.
Print Assumptions pset_safe_partial.
(** A session: added with a hint, looked up, updated, its hint changed, asked about, and
    taken away while an update is outstanding *)
Definition session := [Use; Sched true; Sched true; LookupDone true true; Sched true; DirUpd false true; Use; UpdateDone true false; Sched true; InfoFind; InfoRef; Reset; UpdateDone false false; InfoPut].
Example pset_safe_ex : along false calm session (new true) /\
  run false session (new true) = Some (mkS SStart true 0 false false 0 0 0 0 0 true).
Proof. split; [cbv; repeat split|reflexivity]. Qed.
(** The use behind the unlock in _add_cb and prdcr_dir_cb_upd: the set goes meanwhile *)
Theorem pset_use_refuted : exists h l, run false l (new h) = None /\ (forall s, In s l -> s = Use \/ s = Reset).
Proof. exists true, [Reset; Use]. split; [reflexivity|]. cbn. intuition. Qed.
Print Assumptions pset_use_refuted.
(** ldmsd_set_info_get takes its reference after the unlock *)
Theorem pset_info_refuted : exists h l, run false l (new h) = None /\ hd Reset l = Use /\ (forall s, In s l -> s = Use \/ s = Reset \/ s = InfoFind \/ s = InfoRef).
Proof. exists true, [Use; InfoFind; Reset; InfoRef]. split; [reflexivity|]. cbn. intuition. Qed.
Print Assumptions pset_info_refuted.
(** A member of a group that is looked up by an update of the group: the lookup has no
    reference, but its callback gives one back *)
Theorem pset_member_refuted : exists h l, run false l (new h) = None /\ along false (fun p s => s = Reset -> quiet p) l (new h) /\ ~ In InfoFind l.
Proof. exists false, [Use; MSched true; LookupDone true true; Reset]. split; [reflexivity|]. split; [vm_compute; repeat split; discriminate|]. cbn. intuition discriminate. Qed.
Print Assumptions pset_member_refuted.
(** ... and the state stays START, so that a second lookup follows: an assertion fails *)
Theorem pset_member_twice_refuted : exists h l, run false l (new h) = None /\ ~ In Reset l /\ ~ In InfoFind l.
Proof. exists false, [Use; MSched true; MSched true; LookupDone true true; LookupDone true true]. split; [reflexivity|]. cbn. intuition discriminate. Qed.
Print Assumptions pset_member_twice_refuted.

Ltac witness g l p0 := let r := eval vm_compute in (run g l p0) in match r with Some ?p => exists p end.
(** ** Release.  A set that is not a group is freed exactly when nobody holds it. *)
Theorem pset_release_partial : forall h l p, along false calm l (new h) -> run false l (new h) = Some p -> (freed p = true <-> holders p = 0).
Proof.
  intros h l p A R. destruct (inv_run false l _ (inv_new false h) A) as (q & R' & I). rewrite R in R'; injection R' as <-. split.
  - intros F. destruct (pset_safe_partial false h l A) as (q & R' & _ & S). rewrite R in R'; injection R' as <-. apply S, F.
  - intros H. destruct (freed p) eqn:F; [reflexivity|]. pose proof (iA _ _ I F) as G. destruct (iR _ _ I) as (_ & E). specialize (E eq_refl). lia.
Qed.
Print Assumptions pset_release_partial.
Example pset_release_ex : let l := firstn 12 session in along false calm l (new true) /\
  match run false l (new true) with Some p => holders p = 2 /\ freed p = false | None => False end.
Proof. split; [vm_compute; repeat split|]. vm_compute. split; reflexivity. Qed.
(** A group loses a reference with each update: after its end nobody holds it, no step is
    possible, and it is not freed *)
Theorem pset_release_refuted : exists h l p, along true calm l (new h) /\ run true l (new h) = Some p /\
  holders p = 0 /\ freed p = false /\ forall s, do true s p = Blocked.
Proof.
  exists false, [Use; Sched true; LookupDone true true; Sched true; Reset]. witness true ([Use; Sched true; LookupDone true true; Sched true; Reset]) (new false). split; [vm_compute; repeat split|]. split; [vm_compute; reflexivity|].
  split; [reflexivity|]. split; [reflexivity|]. intros []; reflexivity.
Qed.
Print Assumptions pset_release_refuted.
(** n updates: n references *)
Theorem pset_group_leak : forall h n, exists p,
  run true ([Use; Sched true; LookupDone true true] ++ repeat (Sched true) n ++ [Reset]) (new h) = Some p /\ holders p = 0 /\ ref p = n /\ freed p = (n =? 0).
Proof.
  intros h n. cbn [app run]. replace (do true Use (new h)) with (Ok (set_uses 0 (new h))) by reflexivity. cbv iota.
  assert (G : forall n k, exists p, run true (repeat (Sched true) n ++ [Reset]) (mkS SReady true ((if h then 3 else 2) + k) true h 0 0 0 0 0 false) = Some p /\ holders p = 0 /\ ref p = n + k /\ freed p = (n + k =? 0)).
  { clear n. induction n as [|n IH]; intros k.
    - cbn [repeat app run]. destruct h; destruct k; cbn; eexists; repeat split; reflexivity.
    - cbn [repeat app run]. replace (do true (Sched true) (mkS SReady true ((if h then 3 else 2) + k) true h 0 0 0 0 0 false)) with (Ok (mkS SReady true ((if h then 3 else 2) + S k) true h 0 0 0 0 0 false)).
      + destruct (IH (S k)) as (p & R & H & E & F). exists p. split; [exact R|]. split; [exact H|]. split; [lia|]. rewrite F. f_equal. lia.
      + destruct h; reflexivity. }
  destruct (G n 0) as (p & R & H & E & F). rewrite !Nat.add_0_r in *. exists p. split; [|auto]. destruct h; exact R.
Qed.
Print Assumptions pset_group_leak.

(** ** Progress.  While no update or lookup of members fails, a set in the tree with nothing
    outstanding is looked up or updated by the next call of the updater.
    Missing: what follows a failure. *)
Theorem pset_progress_partial : forall h l p, along false (smooth false) l (new h) -> run false l (new h) = Some p -> tree p = true -> lk p = 0 -> up p = 0 ->
  exists q, do false (Sched true) p = Ok q /\ if has p then up q = 1 else lk q = 1.
Proof.
  intros h l p A R. assert (G : inv false p /\ inv2 p).
  { revert A R. assert (J : inv2 (new h)) by (intros _; reflexivity). generalize (inv_new false h) J. generalize (new h). clear J h. induction l as [|s l IH]; intros p0 I J A R; cbn in R.
    - injection R as <-. auto.
    - destruct A as (M & A). pose proof (inv_step false p0 s I (proj1 M)) as K. destruct (do false s p0) as [q| |] eqn:E.
      + apply (IH q K (smooth_step _ _ _ _ I J M E) A R).
      + apply (IH p0 I J A R).
      + discriminate. }
  destruct G as (I & J). intros T L U. specialize (J T). pose proof (iA _ _ I) as RF. pose proof (iF _ _ I) as FF. destruct (freed p) eqn:F; [destruct (FF eq_refl) as (F1 & _); congruence|].
  specialize (RF eq_refl). cbn. rewrite T. unfold touch, bind. rewrite F. destruct (st p) eqn:S.
  - rewrite J. unfold lookup, ref_get, bind. rewrite F. destruct (ref p) eqn:RR; [lia|]. eexists. split; [reflexivity|]. cbn. rewrite L. reflexivity.
  - destruct J as (J & _). lia.
  - rewrite J. unfold set_updates, ref_get, bind. cbn. rewrite F. destruct (ref p) eqn:RR; [lia|]. eexists. split; [reflexivity|]. cbn. rewrite U. reflexivity.
  - destruct J as (J & _). lia.
Qed.
Print Assumptions pset_progress_partial.
Example pset_progress_ex : let l := firstn 8 session in along false (smooth false) l (new true) /\
  match run false l (new true) with Some p => tree p = true /\ lk p = 0 /\ up p = 0 /\ has p = true | None => False end.
Proof. split; [vm_compute; repeat split; intros; reflexivity|]. vm_compute. repeat split. Qed.
(** Waiting for a callback that will not come: nothing but the end of the set changes that *)
Definition waiting (p : pset) : Prop := tree p = true /\ (st p = SUpdating /\ up p = 0 /\ lk p = 0 \/ st p = SLookup /\ lk p = 0 /\ up p = 0).
Lemma waiting_run : forall g l p q, waiting p -> ~ In Reset l -> run g l p = Some q -> waiting q.
Proof.
  intros g l. induction l as [|s l IH]; intros p q W N R; cbn in R; [injection R as <-; exact W|].
  assert (NR : s <> Reset) by (intros ->; apply N; left; reflexivity). assert (N' : ~ In Reset l) by (intros H; apply N; right; exact H).
  assert (K : forall q0, do g s p = Ok q0 -> waiting q0).
  { clear - W NR. intros q E. revert E. destruct p as [c h r t hi l u i us fi fr]. unfold waiting in *; cbn in W. destruct W as (-> & [(-> & -> & ->)|(-> & -> & ->)]);
    destruct s as [|[] []|[]|[]|[]|[] []|[] []| | | |]; try congruence; expand; cases; intros E; try discriminate; injection E as <-; cbn; auto. }
  destruct (do g s p) as [q0| |] eqn:E; [apply (IH q0 q (K q0 eq_refl) N' R)|apply (IH p q W N' R)|discriminate].
Qed.
(** An update that fails, at once or in its callback: the set is not updated again *)
Theorem pset_progress_refuted : exists h l p, along false calm l (new h) /\ run false l (new h) = Some p /\ tree p = true /\ lk p = 0 /\ up p = 0 /\
  forall m q, ~ In Reset m -> run false m p = Some q -> lk q = 0 /\ up q = 0.
Proof.
  exists true, [Use; Sched true; LookupDone true true; Sched true; UpdateDone false false]. witness false ([Use; Sched true; LookupDone true true; Sched true; UpdateDone false false]) (new true). split; [vm_compute; repeat split|]. split; [vm_compute; reflexivity|].
  split; [reflexivity|]. split; [reflexivity|]. split; [reflexivity|]. intros m q N R.
  eapply waiting_run in R; [|split; [reflexivity|left; repeat split]|exact N]. destruct R as (_ & [W|W]); intuition.
Qed.
Print Assumptions pset_progress_refuted.
Theorem pset_progress_sync_refuted : exists h l p, along false calm l (new h) /\ run false l (new h) = Some p /\ (forall o m, ~ In (UpdateDone o m) l) /\ tree p = true /\
  forall m q, ~ In Reset m -> run false m p = Some q -> lk q = 0 /\ up q = 0.
Proof.
  exists true, [Use; Sched true; LookupDone true true; Sched false]. witness false ([Use; Sched true; LookupDone true true; Sched false]) (new true). split; [vm_compute; repeat split|]. split; [vm_compute; reflexivity|].
  split; [cbn; intuition discriminate|]. split; [reflexivity|]. intros m q N R.
  eapply waiting_run in R; [|split; [reflexivity|left; repeat split]|exact N]. destruct R as (_ & [W|W]); intuition.
Qed.
Print Assumptions pset_progress_sync_refuted.
(** A group one of whose members cannot be looked up: it stays in the state of the lookup *)
Theorem pset_group_lookup_refuted : exists h l p, along true calm l (new h) /\ run true l (new h) = Some p /\ tree p = true /\
  forall m q, ~ In Reset m -> run true m p = Some q -> st q = SLookup /\ lk q = 0.
Proof.
  exists true, [Use; Sched true; LookupDone true false]. witness true ([Use; Sched true; LookupDone true false]) (new true). split; [vm_compute; repeat split|]. split; [vm_compute; reflexivity|]. split; [reflexivity|]. intros m q N R.
  assert (G : st q = SLookup /\ lk q = 0 /\ up q = 0 /\ tree q = true); [|tauto].
  revert q R. match goal with |- forall q, run true m ?p = _ -> _ => assert (W : st p = SLookup /\ lk p = 0 /\ up p = 0 /\ tree p = true) by (repeat split); generalize dependent p end.
  induction m as [|s m IH]; intros p W q R; cbn in R; [injection R as <-; exact W|].
  assert (NR : s <> Reset) by (intros ->; apply N; left; reflexivity). assert (N' : ~ In Reset m) by (intros H; apply N; right; exact H).
  assert (K : forall q0, do true s p = Ok q0 -> st q0 = SLookup /\ lk q0 = 0 /\ up q0 = 0 /\ tree q0 = true).
  { clear - W NR. intros q E. revert E. destruct p as [c h r t hi l u i us fi fr]. cbn in W. destruct W as (-> & -> & -> & ->).
    destruct s as [|[] []|[]|[]|[]|[] []|[] []| | | |]; try congruence; expand; cases; intros E; try discriminate; injection E as <-; cbn; auto. }
  destruct (do true s p) as [q0| |] eqn:E; [apply (IH N' q0 (K q0 eq_refl) q R)|apply (IH N' p W q R)|discriminate].
Qed.
Print Assumptions pset_group_lookup_refuted.
