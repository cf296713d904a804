(** What the steps of the event workers do to the observations. *)
From Verif Require Import S_Ev L_Ev.
From Coq Require Import List ZArith Lia Bool ZifyBool ZifyNat Sorting.Sorted. Import ListNotations.
Local Arguments Nat.eq_dec : simpl never.

Definition pop_of (p : phase) : option (nat * place) := match p with Popped e q => Some (e, q) | _ => None end.
Definition quiet (o : list out) : Prop := forall x, In x o -> match x with OBusy _ | OCancel _ _ | OFlush _ => True | _ => False end.
Inductive effect (s s' : sys) : list out -> Prop :=
| ef_none o : quiet o -> (forall v, queue (wks s' v) = queue (wks s v) /\ tree (wks s' v) = tree (wks s v) /\ pop_of (ph (wks s' v)) = pop_of (ph (wks s v))) -> effect s s' o
| ef_list e w : 0 < claimed e (claims s) -> evs s e <> dead -> (forall v, v <> w -> wks s' v = wks s v) ->
    queue (wks s' w) = queue (wks s w) ++ [e] -> tree (wks s' w) = tree (wks s w) -> pop_of (ph (wks s' w)) = pop_of (ph (wks s w)) ->
    flushed (evs s' e) = flushed (evs s e) -> eto (evs s' e) = eto (evs s e) -> effect s s' [OPosted e w None]
| ef_tree e w t : 0 < claimed e (claims s) -> (forall v, v <> w -> wks s' v = wks s v) ->
    queue (wks s' w) = queue (wks s w) -> tree (wks s' w) = ins t e (tree (wks s w)) -> pop_of (ph (wks s' w)) = pop_of (ph (wks s w)) ->
    effect s s' [OPosted e w (Some t)]
| ef_move e w : (forall v, v <> w -> wks s' v = wks s v) ->
    queue (wks s' w) = queue (wks s w) ++ [e] -> del e (tree (wks s w)) = Some (tree (wks s' w)) -> pop_of (ph (wks s' w)) = pop_of (ph (wks s w)) ->
    flushed (evs s' e) = Some true -> effect s s' [OMoved e w; OCancel e 0]
| ef_popl e w : (forall v, v <> w -> wks s' v = wks s v) ->
    queue (wks s w) = e :: queue (wks s' w) -> tree (wks s' w) = tree (wks s w) -> pop_of (ph (wks s w)) = None -> pop_of (ph (wks s' w)) = Some (e, InList) ->
    posted (evs s' e) = false -> effect s s' []
| ef_popt e w t now : (forall v, v <> w -> wks s' v = wks s v) ->
    queue (wks s' w) = queue (wks s w) -> tree (wks s w) = (t, e) :: tree (wks s' w) -> pop_of (ph (wks s w)) = None -> pop_of (ph (wks s' w)) = Some (e, InTree now) ->
    (flushed (evs s' e) = Some false -> (time_cmp t now <= 0)%Z) -> (wst (wks s w) <> Flushing -> (time_cmp t now <= 0)%Z) -> posted (evs s' e) = false -> effect s s' []
| ef_del e w p f : (forall v, v <> w -> wks s' v = wks s v) ->
    queue (wks s' w) = queue (wks s w) -> tree (wks s' w) = tree (wks s w) -> pop_of (ph (wks s w)) = Some (e, p) -> pop_of (ph (wks s' w)) = None ->
    flushed (evs s e) = Some f -> evs s' e = evs s e -> effect s s' [ODelivered w e f (clk s) p].

Lemma quiet_nil : quiet []. Proof. intros x []. Qed.
Lemma quiet_one x : match x with OBusy _ | OCancel _ _ | OFlush _ => True | _ => False end -> quiet [x].
Proof. intros H y [<-|[]]. exact H. Qed.
#[global] Hint Resolve quiet_nil quiet_one : core.

Lemma to_events_eff w now s s' o : to_events w now s = Some (s', o) -> pop_of (ph (wks s w)) = None -> effect s s' o.
Proof.
  unfold to_events. intros H Hp. destruct (tree (wks s w)) as [|[t e] r] eqn:Et.
  - injection H as <- <-. apply ef_none; [auto|]. intros v. cx. destruct (Nat.eq_dec v w) as [->|E]; cx; auto.
  - destruct (alive (evs s e)); [|discriminate]. destruct (wst (wks s w)) eqn:Ew.
    + destruct (Z.gtb_spec (time_cmp t now) 0); injection H as <- <-.
      * apply ef_none; [auto|]. intros v. cx. destruct (Nat.eq_dec v w) as [->|E]; cx; auto.
      * apply (ef_popt s _ e w t now); cx; auto. intros v E. cx. reflexivity.
    + destruct (Z.gtb_spec (time_cmp t now) 0); injection H as <- <-.
      * apply ef_none; [auto|]. intros v. cx. destruct (Nat.eq_dec v w) as [->|E]; cx; auto.
      * apply (ef_popt s _ e w t now); cx; auto. intros v E. cx. reflexivity.
    + injection H as <- <-. apply (ef_popt s _ e w t now); cx; auto; try congruence. intros v E. cx. reflexivity.
Qed.
Lemma immediate_eff w s s' o : immediate w s = Some (s', o) -> pop_of (ph (wks s w)) = None -> effect s s' o.
Proof.
  unfold immediate. intros H Hp. destruct (queue (wks s w)) as [|e r] eqn:Eq; [eapply to_events_eff; eauto|].
  destruct (alive (evs s e)); [|discriminate]. injection H as <- <-. apply (ef_popl s _ e w); cx; auto. intros v E. cx. reflexivity.
Qed.
(** the effect does not depend on the semaphore, and on events only by their status *)
Lemma effect_pre s1 s s' : (forall v, queue (wks s1 v) = queue (wks s v) /\ tree (wks s1 v) = tree (wks s v) /\ pop_of (ph (wks s1 v)) = pop_of (ph (wks s v)) /\ wst (wks s1 v) = wst (wks s v)) ->
  forall w, (forall v, v <> w -> wks s1 v = wks s v) -> effect s1 s' [] -> (forall v, v <> w -> wks s' v = wks s1 v) -> effect s s' [].
Proof.
  intros H w Hw E Hv. inversion E as [o Q V|e v V1 V2 V3 V4 V5 V6 V7 V8|e v t V1 V2 V3 V4 V5|e v V1 V2 V3 V4 V5|e v V1 V2 V3 V4 V5 V6|e v t now V1 V2 V3 V4 V5 V6 V7 V8|e v p f V1 V2 V3 V4 V5 V6 V7]; subst.
  - apply ef_none; [auto|]. intros v. destruct (V v) as (A1 & A2 & A3), (H v) as (B1 & B2 & B3 & _). rewrite A1, A2, A3. auto.
  - destruct (Nat.eq_dec v w) as [->|Hn].
    + destruct (H w) as (B1 & B2 & B3 & _). apply (ef_popl s s' e w); try congruence. intros u Hu. rewrite Hv, Hw by exact Hu. reflexivity.
    + rewrite (Hv v Hn) in V5. congruence.
  - destruct (Nat.eq_dec v w) as [->|Hn].
    + destruct (H w) as (B1 & B2 & B3 & B4). apply (ef_popt s s' e w t now); try congruence; auto. intros u Hu. rewrite Hv, Hw by exact Hu. reflexivity.
      rewrite <- B4. exact V7.
    + rewrite (Hv v Hn) in V5. congruence.
Qed.
Lemma immediate_other w s s' o v : immediate w s = Some (s', o) -> v <> w -> wks s' v = wks s v.
Proof.
  unfold immediate, to_events. intros H Hv. destruct (queue (wks s w)) as [|e r].
  - destruct (tree (wks s w)) as [|[t e] r]; [injection H as <- <-; cx; reflexivity|]. destruct (alive (evs s e)); [|discriminate].
    destruct (wst (wks s w)); try destruct (time_cmp t (clk s) >? 0)%Z; injection H as <- <-; cx; reflexivity.
  - destruct (alive (evs s e)); [|discriminate]. injection H as <- <-; cx; reflexivity.
Qed.
Lemma to_events_other w now s s' o v : to_events w now s = Some (s', o) -> v <> w -> wks s' v = wks s v.
Proof.
  unfold to_events. intros H Hv.
  destruct (tree (wks s w)) as [|[t e] r]; [injection H as <- <-; cx; reflexivity|]. destruct (alive (evs s e)); [|discriminate].
  destruct (wst (wks s w)); try destruct (time_cmp t now >? 0)%Z; injection H as <- <-; cx; reflexivity.
Qed.
Lemma to_events_nil w now s s' o : to_events w now s = Some (s', o) -> o = [].
Proof.
  unfold to_events. intros H. destruct (tree (wks s w)) as [|[t e] r]; [congruence|]. destruct (alive (evs s e)); [|discriminate].
  destruct (wst (wks s w)); try destruct (time_cmp t now >? 0)%Z; congruence.
Qed.
Lemma immediate_nil w s s' o : immediate w s = Some (s', o) -> o = [].
Proof.
  unfold immediate. intros H. destruct (queue (wks s w)) as [|e r]; [eapply to_events_nil; eauto|]. destruct (alive (evs s e)); [congruence|discriminate].
Qed.
Lemma put_ref_wks e s s' : put_ref e s = Some s' -> wks s' = wks s /\ clk s' = clk s.
Proof. unfold put_ref. destruct (alive (evs s e)); [|discriminate]. destruct (refs (evs s e)) as [|[|m]]; [discriminate| |]; intros H; injection H as <-; auto. Qed.

Lemma same_views s s' : wks s' = wks s -> forall o, quiet o -> effect s s' o.
Proof. intros H o Q. apply ef_none; [exact Q|]. intros v. rewrite H. auto. Qed.

Theorem step_effect l s s' o : step false l s = Some (s', o) -> effect s s' o.
Proof.
  destruct l as [e|e|e|e w to|e w|e|e|w|w|w|w|w|t]; cbn [step].
  - unfold do_new. destruct (alive (evs s e)); intros H; injection H as <- <-; apply same_views; auto.
  - unfold do_get, get_ref. destruct (alive (evs s e)); [|discriminate]. destruct (refs (evs s e) =? 0); [discriminate|]. intros H; injection H as <- <-; apply same_views; auto.
  - unfold do_put. destruct (put_ref e s) as [s1|] eqn:E; [|discriminate]. intros H; injection H as <- <-. apply same_views; auto. apply (put_ref_wks _ _ _ E).
  - unfold do_claim. destruct (alive (evs s e)); [|discriminate]. destruct (posted (evs s e)); intros H; injection H as <- <-; apply same_views; auto.
  - unfold do_insert. destruct (take_claim e w (claims s)) as [[b cl]|] eqn:Et; [|intros H; injection H as <- <-; apply same_views; auto].
    destruct (take_claim_some _ _ _ _ _ Et) as (_ & _ & Hc). specialize (Hc e). rewrite Nat.eqb_refl in Hc.
    cbv zeta. cbn [evs wks]. destruct (alive (evs s e)) eqn:Ha; [|discriminate]. unfold get_ref. cbn [evs]. rewrite Ha.
    assert (Nd : evs s e <> dead) by (intros Q; rewrite Q in Ha; discriminate).
    destruct (wst (wks s w)) eqn:Ew; try (intros H; injection H as <- <-; apply same_views; auto; fail);
      (destruct (refs (evs s e) =? 0); [discriminate|]; destruct (eto (evs s e)) as [t|] eqn:Eto; [|discriminate]; destruct b; intros H; injection H as <- <-;
       [apply ef_tree; cx; auto; try lia; intros v E; cx; reflexivity|apply ef_list; cx; auto; try lia; intros v E; cx; reflexivity]).
  - unfold do_cancel1. destruct (alive (evs s e)); [|discriminate]. destruct (posted (evs s e)), (flushed (evs s e)) as [[|]|]; intros H; try discriminate; injection H as <- <-; apply same_views; auto.
  - unfold do_cancel2. destruct (take_cancel e (cancels s)) as [c|]; [|intros H; injection H as <- <-; apply same_views; auto].
    destruct (alive (evs s e)); [|discriminate]. destruct (edst (evs s e)) as [w|]; [|discriminate]. destruct (eto (evs s e)) as [t|]; [|discriminate]. cbv zeta. cbn [clk].
    destruct (time_diff t (clk s) <? 1000000000)%Z; [intros H; injection H as <- <-; apply same_views; auto|].
    destruct (del e (tree (wks s w))) as [l|] eqn:El; [|discriminate]. destruct (existsb (Nat.eqb e) (queue (wks s w))); [discriminate|]. intros H; injection H as <- <-.
    apply ef_move; cx; auto. intros v E. cx. reflexivity.
  - unfold do_flush. intros H; injection H as <- <-. apply ef_none; [auto|]. intros v. cx. destruct (Nat.eq_dec v w) as [->|E]; cx; auto.
  - unfold do_start. destruct (ph (wks s w)) eqn:Ep; intros H; injection H as <- <-; try (apply same_views; auto; fail).
    apply ef_none; [auto|]. intros v. cx. destruct (Nat.eq_dec v w) as [->|E]; cx; auto. rewrite Ep. auto.
  - unfold do_wake. destruct (ph (wks s w)) eqn:Ep; try (intros H; injection H as <- <-; apply same_views; auto; fail).
    destruct (sem (wks s w)) as [|m] eqn:Es.
    + destruct (time_cmp (semw (wks s w)) (clk s) <=? 0)%Z; intros H; [|injection H as <- <-; apply same_views; auto]. apply (immediate_eff w); auto. rewrite Ep. reflexivity.
    + intros H. pose proof (immediate_nil _ _ _ _ H). subst o. eapply effect_pre with (w := w); [| |eapply immediate_eff; [exact H|cx; reflexivity]|].
      * intros v. cx. destruct (Nat.eq_dec v w) as [->|E]; cx; auto. rewrite Ep. auto.
      * intros v E. cx. reflexivity.
      * intros v E. apply (immediate_other _ _ _ _ v H E).
  - unfold do_deliver. destruct (ph (wks s w)) as [| |e p|e p] eqn:Ep; try (intros H; injection H as <- <-; apply same_views; auto; fail).
    destruct (alive (evs s e)); [|discriminate]. destruct (flushed (evs s e)) as [f|] eqn:Ef; [|discriminate]. intros H; injection H as <- <-.
    apply ef_del; cx; auto; [intros v E; cx; reflexivity|]. rewrite Ep. reflexivity.
  - unfold do_return. destruct (ph (wks s w)) as [| |e p|e p] eqn:Ep; try (intros H; injection H as <- <-; apply same_views; auto; fail).
    destruct (put_ref e s) as [s1|] eqn:E1; [|discriminate]. destruct (put_ref_wks _ _ _ E1) as (Ew & Ec). intros H.
    assert (o = []) by (destruct p; [eapply immediate_nil|eapply to_events_nil]; eauto). subst o.
    apply (effect_pre s1 s s') with (w := w).
    + intros v. rewrite Ew. auto.
    + intros v _. rewrite Ew. reflexivity.
    + destruct p; [eapply immediate_eff|eapply to_events_eff]; eauto; rewrite Ew, Ep; reflexivity.
    + intros v Hv. destruct p; [eapply immediate_other|eapply to_events_other]; eauto.
  - unfold do_tick. destruct (time_cmp (clk s) t <=? 0)%Z; intros H; injection H as <- <-; apply same_views; auto.
Qed.

(** ** The status of an event *)
Definition status_rel (l : label) (s s' : sys) (o : list out) (e : nat) : Prop :=
  flushed (evs s' e) = flushed (evs s e) \/ evs s' e = dead \/ (l = New e /\ alive (evs s e) = false) \/
  ((exists w to, l = Claim e w to) /\ posted (evs s e) = false /\ flushed (evs s' e) = Some false) \/
  (flushed (evs s' e) = Some true /\ ((exists rc, In (OCancel e rc) o) \/ exists w, wst (wks s w) = Flushing)).
Lemma put_ref_status e s s' e' : put_ref e s = Some s' -> flushed (evs s' e') = flushed (evs s e') \/ evs s' e' = dead.
Proof.
  unfold put_ref. destruct (alive (evs s e)); [|discriminate]. destruct (refs (evs s e)) as [|[|m]]; [discriminate| |]; intros H; injection H as <-; cx;
    (destruct (Nat.eq_dec e' e) as [->|E]; cx; auto).
Qed.
Lemma to_events_status w now s s' o e : to_events w now s = Some (s', o) -> flushed (evs s' e) = flushed (evs s e) \/ (flushed (evs s' e) = Some true /\ wst (wks s w) = Flushing).
Proof.
  unfold to_events. destruct (tree (wks s w)) as [|[t e1] r]; [intros H; injection H as <- <-; auto|]. destruct (alive (evs s e1)); [|discriminate].
  destruct (wst (wks s w)); try destruct (time_cmp t now >? 0)%Z; intros H; injection H as <- <-; cx; auto; destruct (Nat.eq_dec e e1) as [->|E]; cx; auto.
Qed.
Lemma immediate_status w s s' o e : immediate w s = Some (s', o) -> flushed (evs s' e) = flushed (evs s e) \/ (flushed (evs s' e) = Some true /\ wst (wks s w) = Flushing).
Proof.
  unfold immediate. destruct (queue (wks s w)) as [|e1 r]; [apply to_events_status|]. destruct (alive (evs s e1)); [|discriminate].
  intros H; injection H as <- <-; cx; auto; destruct (Nat.eq_dec e e1) as [->|E]; cx; auto. destruct (wst (wks s w)); auto.
Qed.
Lemma to_events_dead w now s s' o e : to_events w now s = Some (s', o) -> evs s e = dead -> evs s' e = dead.
Proof.
  unfold to_events. destruct (tree (wks s w)) as [|[t e1] r]; [intros H; injection H as <- <-; auto|]. destruct (alive (evs s e1)) eqn:Ea; [|discriminate].
  intros H Hd. assert (e <> e1) by (intros ->; rewrite Hd in Ea; discriminate). 
  destruct (wst (wks s w)); try destruct (time_cmp t now >? 0)%Z; injection H as <- <-; cx; auto.
Qed.
Lemma immediate_dead w s s' o e : immediate w s = Some (s', o) -> evs s e = dead -> evs s' e = dead.
Proof.
  unfold immediate. destruct (queue (wks s w)) as [|e1 r]; [apply to_events_dead|]. destruct (alive (evs s e1)) eqn:Ea; [|discriminate].
  intros H Hd. assert (e <> e1) by (intros ->; rewrite Hd in Ea; discriminate). injection H as <- <-; cx; auto.
Qed.
Theorem step_status l s s' o e : step false l s = Some (s', o) -> status_rel l s s' o e.
Proof.
  unfold status_rel. destruct l as [e1|e1|e1|e1 w to|e1 w|e1|e1|w|w|w|w|w|t]; cbn [step].
  - unfold do_new. destruct (alive (evs s e1)) eqn:Ea; intros H; injection H as <- <-; auto. cx. destruct (Nat.eq_dec e e1) as [->|E]; cx; auto.
  - unfold do_get, get_ref. destruct (alive (evs s e1)); [|discriminate]. destruct (refs (evs s e1) =? 0); [discriminate|]. intros H; injection H as <- <-; cx.
    left. destruct (Nat.eq_dec e e1) as [->|E]; cx; auto.
  - unfold do_put. destruct (put_ref e1 s) as [s1|] eqn:E; [|discriminate]. intros H; injection H as <- <-. cx. destruct (put_ref_status _ _ _ e E); auto.
  - unfold do_claim. destruct (alive (evs s e1)); [|discriminate]. destruct (posted (evs s e1)) eqn:Ep; intros H; injection H as <- <-; auto. cx.
    destruct (Nat.eq_dec e e1) as [->|E]; cx; auto. right. right. right. left. eauto.
  - unfold do_insert. destruct (take_claim e1 w (claims s)) as [[b cl]|] eqn:Et; [|intros H; injection H as <- <-; auto].
    cbv zeta. cbn [evs wks]. destruct (alive (evs s e1)) eqn:Ha; [|discriminate]. unfold get_ref. cbn [evs]. rewrite Ha.
    intros H. left. destruct (wst (wks s w)) eqn:Ew; try (injection H as <- <-; cx; destruct (Nat.eq_dec e e1) as [->|E]; cx; reflexivity);
      (destruct (refs (evs s e1) =? 0); [discriminate|]; destruct (eto (evs s e1)) as [t|] eqn:Eto; [|discriminate]; destruct b; injection H as <- <-; cx; destruct (Nat.eq_dec e e1) as [->|E]; cx; reflexivity).
  - unfold do_cancel1. destruct (alive (evs s e1)); [|discriminate]. destruct (posted (evs s e1)), (flushed (evs s e1)) as [[|]|]; intros H; try discriminate; injection H as <- <-; auto.
  - unfold do_cancel2. destruct (take_cancel e1 (cancels s)) as [c|]; [|intros H; injection H as <- <-; auto].
    destruct (alive (evs s e1)); [|discriminate]. destruct (edst (evs s e1)) as [w|]; [|discriminate]. destruct (eto (evs s e1)) as [t|]; [|discriminate]. cbv zeta. cbn [clk].
    destruct (time_diff t (clk s) <? 1000000000)%Z.
    + intros H; injection H as <- <-. cx. destruct (Nat.eq_dec e e1) as [->|E]; cx; auto. right. right. right. right. split; [reflexivity|]. left. eexists. left. reflexivity.
    + destruct (del e1 (tree (wks s w))) as [l|] eqn:El; [|discriminate]. destruct (existsb (Nat.eqb e1) (queue (wks s w))); [discriminate|]. intros H; injection H as <- <-.
      cx. destruct (Nat.eq_dec e e1) as [->|E]; cx; auto. right. right. right. right. split; [reflexivity|]. left. eexists. right. left. reflexivity.
  - unfold do_flush. intros H; injection H as <- <-. auto.
  - unfold do_start. destruct (ph (wks s w)) eqn:Ep; intros H; injection H as <- <-; auto.
  - unfold do_wake. destruct (ph (wks s w)) eqn:Ep; try (intros H; injection H as <- <-; auto; fail).
    destruct (sem (wks s w)) as [|m] eqn:Es.
    + destruct (time_cmp (semw (wks s w)) (clk s) <=? 0)%Z; intros H; [|injection H as <- <-; auto]. destruct (immediate_status _ _ _ _ e H) as [?|(? & ?)]; auto.
      right. right. right. right. eauto.
    + intros H. destruct (immediate_status _ _ _ _ e H) as [?|(? & Hf)]; auto. right. right. right. right. split; [assumption|]. right. exists w. cx. exact Hf.
  - unfold do_deliver. destruct (ph (wks s w)) as [| |e2 p|e2 p] eqn:Ep; try (intros H; injection H as <- <-; auto; fail).
    destruct (alive (evs s e2)); [|discriminate]. destruct (flushed (evs s e2)) as [f|] eqn:Ef; [|discriminate]. intros H; injection H as <- <-. auto.
  - unfold do_return. destruct (ph (wks s w)) as [| |e2 p|e2 p] eqn:Ep; try (intros H; injection H as <- <-; auto; fail).
    destruct (put_ref e2 s) as [s1|] eqn:E1; [|discriminate]. destruct (put_ref_wks _ _ _ E1) as (Ew & Ec). intros H.
    destruct (put_ref_status _ _ _ e E1) as [Hs|Hd].
    + assert (G : flushed (evs s' e) = flushed (evs s1 e) \/ (flushed (evs s' e) = Some true /\ wst (wks s1 w) = Flushing)) by (destruct p; [eapply immediate_status|eapply to_events_status]; eauto).
      rewrite Ew, Hs in G. destruct G as [G|(G1 & G2)]; auto. right. right. right. right. eauto.
    + right. left. destruct p; [eapply immediate_dead|eapply to_events_dead]; eauto.
  - unfold do_tick. destruct (time_cmp (clk s) t <=? 0)%Z; intros H; injection H as <- <-; auto.
Qed.
(** What a step does to the calls of ev_cancel under way *)
Lemma step_cancels l s s' o e : step false l s = Some (s', o) -> In e (cancels s') -> In e (cancels s) \/ (l = Cancel1 e /\ (alive (evs s e) = true) /\ evs s' e = evs s e).
Proof.
  destruct l as [e1|e1|e1|e1 w to|e1 w|e1|e1|w|w|w|w|w|t]; cbn [step].
  - unfold do_new. destruct (alive (evs s e1)) eqn:Ea; intros H; injection H as <- <-; auto.
  - unfold do_get, get_ref. destruct (alive (evs s e1)); [|discriminate]. destruct (refs (evs s e1) =? 0); [discriminate|]. intros H; injection H as <- <-; cx; auto.
  - unfold do_put, put_ref. destruct (alive (evs s e1)); [|discriminate]. destruct (refs (evs s e1)) as [|[|m]]; [discriminate| |]; intros H; injection H as <- <-; auto.
  - unfold do_claim. destruct (alive (evs s e1)); [|discriminate]. destruct (posted (evs s e1)) eqn:Ep; intros H; injection H as <- <-; auto.
  - unfold do_insert. destruct (take_claim e1 w (claims s)) as [[b cl]|] eqn:Et; [|intros H; injection H as <- <-; auto].
    cbv zeta. cbn [evs wks]. destruct (alive (evs s e1)) eqn:Ha; [|discriminate]. unfold get_ref. cbn [evs]. rewrite Ha.
    intros H. destruct (wst (wks s w)) eqn:Ew; try (injection H as <- <-; auto);
      (destruct (refs (evs s e1) =? 0); [discriminate|]; destruct (eto (evs s e1)) as [t|] eqn:Eto; [|discriminate]; destruct b; injection H as <- <-; auto).
  - unfold do_cancel1. destruct (alive (evs s e1)) eqn:Ea; [|discriminate]. destruct (posted (evs s e1)), (flushed (evs s e1)) as [[|]|]; intros H; try discriminate; injection H as <- <-; auto;
      cbn; intros [<-|Hi]; auto.
  - unfold do_cancel2. destruct (take_cancel e1 (cancels s)) as [c|] eqn:Ec; [|intros H; injection H as <- <-; auto]. destruct (take_cancel_some _ _ _ Ec) as (_ & Hs).
    destruct (alive (evs s e1)); [|discriminate]. destruct (edst (evs s e1)) as [w|]; [|discriminate]. destruct (eto (evs s e1)) as [t|]; [|discriminate]. cbv zeta. cbn [clk].
    destruct (time_diff t (clk s) <? 1000000000)%Z; [intros H; injection H as <- <-; cx; auto|].
    destruct (del e1 (tree (wks s w))) as [l|] eqn:El; [|discriminate]. destruct (existsb (Nat.eqb e1) (queue (wks s w))); [discriminate|]. intros H; injection H as <- <-. cx. auto.
  - unfold do_flush. intros H; injection H as <- <-. auto.
  - unfold do_start. destruct (ph (wks s w)) eqn:Ep; intros H; injection H as <- <-; auto.
  - assert (R : forall s1, immediate w s1 = Some (s', o) -> cancels s' = cancels s1).
    { intros s1. unfold immediate, to_events. destruct (queue (wks s1 w)); [destruct (tree (wks s1 w)) as [|[t e2] r]; [intros H; injection H as <- <-; reflexivity|]; destruct (alive (evs s1 e2)); [|discriminate];
        destruct (wst (wks s1 w)); try destruct (time_cmp t (clk s1) >? 0)%Z; intros H; injection H as <- <-; reflexivity|].
      destruct (alive (evs s1 n)); [|discriminate]. intros H; injection H as <- <-; reflexivity. }
    unfold do_wake. destruct (ph (wks s w)) eqn:Ep; try (intros H; injection H as <- <-; auto; fail).
    destruct (sem (wks s w)) as [|m] eqn:Es.
    + destruct (time_cmp (semw (wks s w)) (clk s) <=? 0)%Z; intros H; [|injection H as <- <-; auto]. rewrite (R _ H). auto.
    + intros H. rewrite (R _ H). auto.
  - unfold do_deliver. destruct (ph (wks s w)) as [| |e2 p|e2 p] eqn:Ep; try (intros H; injection H as <- <-; auto; fail).
    destruct (alive (evs s e2)); [|discriminate]. destruct (flushed (evs s e2)) as [f|] eqn:Ef; [|discriminate]. intros H; injection H as <- <-. auto.
  - assert (R2 : forall now s1, to_events w now s1 = Some (s', o) -> cancels s' = cancels s1).
    { intros now s1. unfold to_events. destruct (tree (wks s1 w)) as [|[t e2] r]; [intros H; injection H as <- <-; reflexivity|]; destruct (alive (evs s1 e2)); [|discriminate];
        destruct (wst (wks s1 w)); try destruct (time_cmp t now >? 0)%Z; intros H; injection H as <- <-; reflexivity. }
    assert (R : forall s1, immediate w s1 = Some (s', o) -> cancels s' = cancels s1).
    { intros s1. unfold immediate. destruct (queue (wks s1 w)); [apply R2|].
      destruct (alive (evs s1 n)); [|discriminate]. intros H; injection H as <- <-; reflexivity. }
    unfold do_return. destruct (ph (wks s w)) as [| |e2 p|e2 p] eqn:Ep; try (intros H; injection H as <- <-; auto; fail).
    destruct (put_ref e2 s) as [s1|] eqn:E1; [|discriminate]. assert (cancels s1 = cancels s).
    { unfold put_ref in E1. destruct (alive (evs s e2)); [|discriminate]. destruct (refs (evs s e2)) as [|[|m]]; [discriminate| |]; injection E1 as <-; reflexivity. }
    intros H0. assert (cancels s' = cancels s1) by (destruct p; eauto). intros Hin. left. congruence.
  - unfold do_tick. destruct (time_cmp (clk s) t <=? 0)%Z; intros H; injection H as <- <-; auto.
Qed.

Lemma cinv_step n l s s' o : inv n (cur s) s -> inv n (cur s') s' -> cinv s -> binv n s -> binv n s' -> legal n l s -> step false l s = Some (s', o) -> cinv s'.
Proof.
  intros I I' Cv B B' [F L] H e Hin. destruct (safe_alive n s' e I' (B' e (or_intror Hin))) as (Ha' & _).
  assert (Pre : alive (evs s e) = true /\ flushed (evs s e) <> None).
  { destruct (step_cancels _ _ _ _ _ H Hin) as [Hc|(-> & Ha & He)].
    - split; [apply (safe_alive n s e I (B e (or_intror Hc)))|apply Cv; exact Hc].
    - split; [exact Ha|]. cbn in F. tauto. }
  destruct Pre as (Ha & Hf). destruct (step_status _ _ _ _ e H) as [Q|[Q|[(_ & Q)|[(_ & _ & Q)|(Q & _)]]]]; try congruence.
  rewrite Q in Ha'. discriminate.
Qed.

(** ** What is observed *)
Record tinv (n : nat) (s : sys) (tr : list out) : Prop := {
  t_once : forall e, posts e tr = deliveries e tr + pending n e s;
  t_fifo : forall w, w < n -> entered w tr = delivered_from_list w tr ++ match pop_of (ph (wks s w)) with Some (e, InList) => [e] | _ => [] end ++ queue (wks s w);
  t_tree : forall w t e, w < n -> In (t, e) (tree (wks s w)) -> last_post e tr = Some (w, Some t);
  t_list : forall w e, w < n -> In e (queue (wks s w)) -> exists to, last_post e tr = Some (w, to) /\ (to <> None -> flushed (evs s e) = Some true) }.
Lemma posts_app e a b : posts e (a ++ b) = posts e a + posts e b.
Proof. unfold posts. rewrite filter_app, app_length. reflexivity. Qed.
Lemma deliveries_app e a b : deliveries e (a ++ b) = deliveries e a + deliveries e b.
Proof. unfold deliveries. rewrite filter_app, app_length. reflexivity. Qed.
Lemma last_post_app e a b : last_post e (a ++ b) = match last_post e b with Some x => Some x | None => last_post e a end.
Proof. induction a as [|o r IH]; cbn; [destruct (last_post e b); reflexivity|]. rewrite IH. destruct (last_post e b); [reflexivity|]. reflexivity. Qed.
Lemma entered_app w a b : entered w (a ++ b) = entered w a ++ entered w b.
Proof. unfold entered. apply flat_map_app. Qed.
Lemma dfl_app w a b : delivered_from_list w (a ++ b) = delivered_from_list w a ++ delivered_from_list w b.
Proof. unfold delivered_from_list. apply flat_map_app. Qed.
Lemma quiet_none o : quiet o -> (forall e, posts e o = 0 /\ deliveries e o = 0 /\ last_post e o = None) /\ forall w, entered w o = [] /\ delivered_from_list w o = [].
Proof.
  induction o as [|x o IH]; intros Q; [auto|]. assert (Q' : quiet o) by (intros y Hy; apply Q; right; exact Hy). destruct (IH Q') as (A & B).
  pose proof (Q x (or_introl eq_refl)) as Qx. split.
  - intros e. destruct (A e) as (A1 & A2 & A3). unfold posts, deliveries in *. destruct x; try contradiction; cbn; rewrite A3; auto.
  - intros w. destruct (B w) as (B1 & B2). unfold entered, delivered_from_list in *. destruct x; try contradiction; cbn; auto.
Qed.
Definition lab_worker (l : label) (s : sys) : option nat :=
  match l with Insert _ w | Flush w | Start w | Wake w | Deliver w | Return w => Some w | Cancel2 e => edst (evs s e) | _ => None end.
Lemma step_wks l s s' o v : step false l s = Some (s', o) -> lab_worker l s <> Some v -> wks s' v = wks s v.
Proof.
  destruct l as [e1|e1|e1|e1 w to|e1 w|e1|e1|w|w|w|w|w|t]; cbn [step lab_worker].
  - unfold do_new. destruct (alive (evs s e1)) eqn:Ea; intros H; injection H as <- <-; auto.
  - unfold do_get, get_ref. destruct (alive (evs s e1)); [|discriminate]. destruct (refs (evs s e1) =? 0); [discriminate|]. intros H; injection H as <- <-; cx; auto.
  - unfold do_put, put_ref. destruct (alive (evs s e1)); [|discriminate]. destruct (refs (evs s e1)) as [|[|m]]; [discriminate| |]; intros H; injection H as <- <-; auto.
  - unfold do_claim. destruct (alive (evs s e1)); [|discriminate]. destruct (posted (evs s e1)) eqn:Ep; intros H; injection H as <- <-; auto.
  - unfold do_insert. destruct (take_claim e1 w (claims s)) as [[b cl]|] eqn:Et; [|intros H; injection H as <- <-; auto].
    cbv zeta. cbn [evs wks]. destruct (alive (evs s e1)) eqn:Ha; [|discriminate]. unfold get_ref. cbn [evs]. rewrite Ha.
    intros H Hn. assert (v <> w) by congruence. destruct (wst (wks s w)) eqn:Ew; try (injection H as <- <-; cx; auto; fail);
      (destruct (refs (evs s e1) =? 0); [discriminate|]; destruct (eto (evs s e1)) as [t|] eqn:Eto; [|discriminate]; destruct b; injection H as <- <-; cx; auto).
  - unfold do_cancel1. destruct (alive (evs s e1)) eqn:Ea; [|discriminate]. destruct (posted (evs s e1)), (flushed (evs s e1)) as [[|]|]; intros H; try discriminate; injection H as <- <-; auto.
  - unfold do_cancel2. destruct (take_cancel e1 (cancels s)) as [c|] eqn:Ec; [|intros H; injection H as <- <-; auto].
    destruct (alive (evs s e1)); [|discriminate]. destruct (edst (evs s e1)) as [w|]; [|discriminate]. destruct (eto (evs s e1)) as [t|]; [|discriminate]. cbv zeta. cbn [clk].
    destruct (time_diff t (clk s) <? 1000000000)%Z; [intros H; injection H as <- <-; cx; auto|].
    destruct (del e1 (tree (wks s w))) as [l|] eqn:El; [|discriminate]. destruct (existsb (Nat.eqb e1) (queue (wks s w))); [discriminate|]. intros H Hn; injection H as <- <-.
    assert (v <> w) by congruence. cx. auto.
  - unfold do_flush. intros H Hn; injection H as <- <-. assert (v <> w) by congruence. cx. auto.
  - unfold do_start. destruct (ph (wks s w)) eqn:Ep; intros H Hn; injection H as <- <-; auto. assert (v <> w) by congruence. cx. auto.
  - unfold do_wake. destruct (ph (wks s w)) eqn:Ep; try (intros H; injection H as <- <-; auto; fail).
    destruct (sem (wks s w)) as [|m] eqn:Es.
    + destruct (time_cmp (semw (wks s w)) (clk s) <=? 0)%Z; intros H Hn; [|injection H as <- <-; auto]. assert (v <> w) by congruence. eapply immediate_other; eauto.
    + intros H Hn. assert (v <> w) by congruence. rewrite (immediate_other _ _ _ _ v H) by assumption. cx. reflexivity.
  - unfold do_deliver. destruct (ph (wks s w)) as [| |e2 p|e2 p] eqn:Ep; try (intros H; injection H as <- <-; auto; fail).
    destruct (alive (evs s e2)); [|discriminate]. destruct (flushed (evs s e2)) as [f|] eqn:Ef; [|discriminate]. intros H Hn; injection H as <- <-. assert (v <> w) by congruence. cx. auto.
  - unfold do_return. destruct (ph (wks s w)) as [| |e2 p|e2 p] eqn:Ep; try (intros H; injection H as <- <-; auto; fail).
    destruct (put_ref e2 s) as [s1|] eqn:E1; [|discriminate]. destruct (put_ref_wks _ _ _ E1) as (Ew & _). intros H Hn. assert (v <> w) by congruence. rewrite <- Ew.
    destruct p; [eapply immediate_other|eapply to_events_other]; eauto.
  - unfold do_tick. destruct (time_cmp (clk s) t <=? 0)%Z; intros H; injection H as <- <-; auto.
Qed.
Lemma wks_lt n l s s' o v : inv n (cur s) s -> cinv s -> legal n l s -> step false l s = Some (s', o) -> wks s' v <> wks s v -> v < n.
Proof.
  intros I Cv [F _] H Hv. destruct (lab_worker l s) as [w|] eqn:El; [|exfalso; apply Hv; eapply step_wks; eauto; congruence].
  destruct (Nat.eq_dec v w) as [->|Hn]; [|exfalso; apply Hv; eapply step_wks; eauto; congruence].
  destruct l; cbn in El, F; try discriminate; try (injection El as <-; assumption).
  cbn [step] in H. unfold do_cancel2 in H. destruct (take_cancel e (cancels s)) as [c|] eqn:Ec; [|injection H as <- <-; congruence].
  destruct (take_cancel_some _ _ _ Ec) as (Hin & _). destruct (i_set2 _ _ _ I e (Cv e Hin)) as (_ & w2 & Hw & Hd). congruence.
Qed.
Definition load (e : nat) (k : wk) : nat := in_queue e k + in_tree e k + is_popped e (ph k).
Lemma pending_chg n e s s' w : w < n -> (forall v, v <> w -> wks s' v = wks s v) -> pending n e s' + load e (wks s w) = pending n e s + load e (wks s' w).
Proof. intros Hw Hv. unfold pending. apply (sumw_chg n (fun v => load e (wks s v)) (fun v => load e (wks s' v)) w Hw). intros j Hj. rewrite (Hv j Hj). reflexivity. Qed.
Lemma popped_of e p : is_popped e p = match pop_of p with Some (e', _) => if Nat.eqb e e' then 1 else 0 | None => 0 end.
Proof. destruct p; reflexivity. Qed.
Lemma waits n phs s w e : inv n phs s -> w < n -> 0 < wcnt e (wks s w) -> posted (evs s e) = true /\ claimed e (claims s) = 0 /\ forall v, v < n -> v <> w -> wcnt e (wks s v) = 0.
Proof.
  intros I Hw H. pose proof (i_claim _ _ _ I e) as C. pose proof (sumw_ge n (fun w => wcnt e (wks s w)) w Hw) as G. cbv beta in G. fold (waiting n e s) in G.
  assert (P : posted (evs s e) = true) by (destruct (posted (evs s e)); cbn in C; [reflexivity|lia]). rewrite P in C. cbn in C. split; [exact P|]. split; [lia|].
  intros v Hv Hn. pose proof (sumw_chg n (fun w => wcnt e (wks s w)) (fun u => if Nat.eqb u w then 0 else wcnt e (wks s u)) w Hw) as G2. cbv beta in G2.
  specialize (G2 ltac:(intros j Hj; destruct (Nat.eqb_spec j w); [congruence|reflexivity])). rewrite Nat.eqb_refl in G2. fold (waiting n e s) in G2.
  pose proof (sumw_ge n (fun u => if Nat.eqb u w then 0 else wcnt e (wks s u)) v Hv) as G3. cbv beta in G3. destruct (Nat.eqb_spec v w); [congruence|]. lia.
Qed.
Lemma claimed_free n phs s e w : inv n phs s -> 0 < claimed e (claims s) -> w < n -> ~ In e (queue (wks s w)) /\ forall t, ~ In (t, e) (tree (wks s w)).
Proof.
  intros I Hc Hw. split.
  - intros H. destruct (waits n phs s w e I Hw (wcnt_queue _ _ H)) as (_ & G & _). lia.
  - intros t H. destruct (waits n phs s w e I Hw (wcnt_tree _ t _ H)) as (_ & G & _). lia.
Qed.
Lemma flush_keep n l s s' o e w : inv n (cur s) s -> inv n (cur s') s' -> step false l s = Some (s', o) -> w < n ->
  In e (queue (wks s w)) -> In e (queue (wks s' w)) -> flushed (evs s e) = Some true -> flushed (evs s' e) = Some true.
Proof.
  intros I I' H Hw Hq Hq' Hf. destruct (waits n _ s w e I Hw (wcnt_queue _ _ Hq)) as (Hp & _). destruct (wait_alive n _ s' e w I' Hw (wcnt_queue _ _ Hq')) as (Ha & _).
  destruct (wait_alive n _ s e w I Hw (wcnt_queue _ _ Hq)) as (Ha2 & _).
  destruct (step_status _ _ _ _ e H) as [Q|[Q|[(_ & Q)|[(_ & Q & _)|(Q & _)]]]]; try congruence. rewrite Q in Ha. discriminate.
Qed.

Theorem tinv_step n l s s' o tr : inv n (cur s) s -> inv n (cur s') s' -> cinv s -> legal n l s -> step false l s = Some (s', o) -> tinv n s tr -> tinv n s' (tr ++ o).
Proof.
  intros I I' Cv Lg H T. pose proof (step_effect _ _ _ _ H) as E. pose proof (wks_lt n l s s' o) as WL. specialize (fun v => WL v I Cv Lg H).
  assert (FK := fun e w => flush_keep n l s s' o e w I I' H). destruct T as [T1 T2 T3 T4].
  destruct E as [o Q V|e w Hc Nd V1 V2 V3 V4 V5 V6|e w t Hc V1 V2 V3 V4|e w V1 V2 V3 V4 V5|e w V1 V2 V3 V4 V5 V6|e w t now V1 V2 V3 V4 V5 V6 V7 V8|e w p f V1 V2 V3 V4 V5 V6 V7].
  - destruct (quiet_none o Q) as (QA & QB). constructor.
    + intros e. destruct (QA e) as (A1 & A2 & A3). rewrite posts_app, deliveries_app, A1, A2, T1. unfold pending. rewrite (sumw_ext n _ (fun w => in_queue e (wks s' w) + in_tree e (wks s' w) + is_popped e (ph (wks s' w)))); [lia|].
      intros v _. destruct (V v) as (B1 & B2 & B3). unfold in_queue, in_tree. rewrite B1, B2, !popped_of, B3. reflexivity.
    + intros w Hw. destruct (QB w) as (B1 & B2), (V w) as (C1 & C2 & C3). rewrite entered_app, dfl_app, B1, B2, C1, C3, !app_nil_r. apply T2; exact Hw.
    + intros w t e Hw Hin. destruct (QA e) as (_ & _ & A3), (V w) as (C1 & C2 & C3). rewrite last_post_app, A3. rewrite C2 in Hin. apply T3; auto.
    + intros w e Hw Hin. destruct (QA e) as (_ & _ & A3), (V w) as (C1 & C2 & C3). rewrite last_post_app, A3. pose proof Hin as Hin'. rewrite C1 in Hin.
      destruct (T4 w e Hw Hin) as (to & P1 & P2). exists to. split; [exact P1|]. intros Hto. apply (FK e w); auto.
  - assert (Hw : w < n). { apply WL. intros Q. rewrite Q in V2. apply (f_equal (@length nat)) in V2. rewrite app_length in V2. cbn in V2. lia. }
    constructor.
    + intros e'. rewrite posts_app, deliveries_app, T1. pose proof (pending_chg n e' s s' w Hw V1) as P. unfold load, in_queue, in_tree in P. rewrite V2, V3, !popped_of, V4, count_occ_app in P.
      unfold posts, deliveries. cbn in *. destruct (Nat.eqb_spec e' e), (Nat.eq_dec e e'); try congruence; cbn in *; lia.
    + intros v Hv. rewrite entered_app, dfl_app. cbn [entered delivered_from_list flat_map]. rewrite app_nil_r. destruct (Nat.eqb_spec v w) as [->|Hn].
      * rewrite V2, V4, (T2 w Hw), app_nil_r, <- !app_assoc. reflexivity.
      * rewrite (V1 v Hn), (T2 v Hv), !app_nil_r. reflexivity.
    + intros v t e' Hv Hin. destruct (claimed_free n _ s e v I Hc Hv) as (_ & N). assert (Hin2 : In (t, e') (tree (wks s v))). { destruct (Nat.eq_dec v w) as [->|Hn]; [rewrite V3 in Hin; exact Hin|rewrite (V1 v Hn) in Hin; exact Hin]. }
      rewrite last_post_app. cbn. destruct (Nat.eqb_spec e' e) as [->|Hne]; [exfalso; eapply N; eauto|]. apply T3; auto.
    + intros v e' Hv Hin. destruct (claimed_free n _ s e v I Hc Hv) as (N & _). rewrite last_post_app. cbn. destruct (Nat.eqb_spec e' e) as [->|Hne].
      * destruct (Nat.eq_dec v w) as [->|Hn]; [|rewrite (V1 v Hn) in Hin; contradiction]. exists None. split; [reflexivity|congruence].
      * assert (Hin2 : In e' (queue (wks s v))). { destruct (Nat.eq_dec v w) as [->|Hn]; [rewrite V2 in Hin; apply in_app_or in Hin; destruct Hin as [?|[?|[]]]; congruence|rewrite (V1 v Hn) in Hin; exact Hin]. }
        destruct (T4 v e' Hv Hin2) as (to & P1 & P2). exists to. split; [exact P1|]. intros Hto. apply (FK e' v); auto.
  - assert (Hw : w < n). { apply WL. intros Q. rewrite Q in V3. apply (f_equal (@length _)) in V3. rewrite ins_length in V3. lia. }
    constructor.
    + intros e'. rewrite posts_app, deliveries_app, T1. pose proof (pending_chg n e' s s' w Hw V1) as P. unfold load, in_queue, in_tree in P. rewrite V2, V3, !popped_of, V4, ins_count in P.
      unfold posts, deliveries. cbn in *. destruct (Nat.eqb_spec e' e); cbn in *; lia.
    + intros v Hv. rewrite entered_app, dfl_app. cbn [entered delivered_from_list flat_map]. rewrite !app_nil_r. destruct (Nat.eq_dec v w) as [->|Hn].
      * rewrite V2, V4. auto.
      * rewrite (V1 v Hn). auto.
    + intros v t' e' Hv Hin. destruct (claimed_free n _ s e v I Hc Hv) as (_ & N). rewrite last_post_app. cbn. destruct (Nat.eqb_spec e' e) as [->|Hne].
      * destruct (Nat.eq_dec v w) as [->|Hn]; [|rewrite (V1 v Hn) in Hin; exfalso; eapply N; eauto]. rewrite V3 in Hin. apply ins_in in Hin. destruct Hin as [Hin|Hin]; [congruence|exfalso; eapply N; eauto].
      * apply T3; auto. destruct (Nat.eq_dec v w) as [->|Hn]; [|rewrite (V1 v Hn) in Hin; exact Hin]. rewrite V3 in Hin. apply ins_in in Hin. destruct Hin; [congruence|assumption].
    + intros v e' Hv Hin. destruct (claimed_free n _ s e v I Hc Hv) as (N & _). assert (Hin2 : In e' (queue (wks s v))). { destruct (Nat.eq_dec v w) as [->|Hn]; [rewrite V2 in Hin; exact Hin|rewrite (V1 v Hn) in Hin; exact Hin]. }
      rewrite last_post_app. cbn. destruct (Nat.eqb_spec e' e) as [->|Hne]; [contradiction|].
      destruct (T4 v e' Hv Hin2) as (to & P1 & P2). exists to. split; [exact P1|]. intros Hto. apply (FK e' v); auto.
  - assert (Hw : w < n). { apply WL. intros Q. rewrite Q in V2. apply (f_equal (@length nat)) in V2. rewrite app_length in V2. cbn in V2. lia. }
    assert (exists t, In (t, e) (tree (wks s w))) as (t & Ht). { apply tree_count_in. rewrite (del_count _ _ _ e V3), Nat.eqb_refl. lia. }
    constructor.
    + intros e'. rewrite posts_app, deliveries_app, T1. pose proof (pending_chg n e' s s' w Hw V1) as P. unfold load, in_queue, in_tree in P. rewrite V2, !popped_of, V4, count_occ_app, (del_count _ _ _ e' V3) in P.
      unfold posts, deliveries. cbn in *. destruct (Nat.eqb_spec e' e), (Nat.eq_dec e e'); try congruence; cbn in *; lia.
    + intros v Hv. rewrite entered_app, dfl_app. cbn [entered delivered_from_list flat_map app]. rewrite !app_nil_r. destruct (Nat.eqb_spec v w) as [->|Hn].
      * rewrite V2, V4, (T2 w Hw), <- !app_assoc. reflexivity.
      * rewrite (V1 v Hn), (T2 v Hv), !app_nil_r. reflexivity.
    + intros v t' e' Hv Hin. rewrite last_post_app. cbn. apply T3; auto. destruct (Nat.eq_dec v w) as [->|Hn]; [eapply del_in; eauto|rewrite (V1 v Hn) in Hin; exact Hin].
    + intros v e' Hv Hin. rewrite last_post_app. cbn. destruct (Nat.eq_dec v w) as [->|Hn].
      * pose proof Hin as Hin'. rewrite V2 in Hin. apply in_app_or in Hin. destruct Hin as [Hin|[<-|[]]].
        -- destruct (T4 w e' Hw Hin) as (to & P1 & P2). exists to. split; [exact P1|]. intros Hto. apply (FK e' w); auto.
        -- exists (Some t). split; [apply T3; auto|]. auto.
      * pose proof Hin as Hin'. rewrite (V1 v Hn) in Hin. destruct (T4 v e' Hv Hin) as (to & P1 & P2). exists to. split; [exact P1|]. intros Hto. apply (FK e' v); auto.
  - assert (Hw : w < n). { apply WL. intros Q. rewrite Q in V2. apply (f_equal (@length nat)) in V2. cbn in V2. lia. }
    rewrite app_nil_r. constructor.
    + intros e'. rewrite T1. pose proof (pending_chg n e' s s' w Hw V1) as P. unfold load, in_queue, in_tree in P. rewrite V2, V3, !popped_of, V4, V5 in P. cbn in P.
      destruct (Nat.eqb_spec e' e), (Nat.eq_dec e e'); try congruence; cbn in *; lia.
    + intros v Hv. rewrite (T2 v Hv). destruct (Nat.eq_dec v w) as [->|Hn]; [rewrite V4, V5, V2|rewrite (V1 v Hn)]; reflexivity.
    + intros v t' e' Hv Hin. apply T3; auto. destruct (Nat.eq_dec v w) as [->|Hn]; [rewrite V3 in Hin; exact Hin|rewrite (V1 v Hn) in Hin; exact Hin].
    + intros v e' Hv Hin. assert (Hin2 : In e' (queue (wks s v))). { destruct (Nat.eq_dec v w) as [->|Hn]; [rewrite V2; right; exact Hin|rewrite (V1 v Hn) in Hin; exact Hin]. }
      destruct (T4 v e' Hv Hin2) as (to & P1 & P2). exists to. split; [exact P1|]. intros Hto. apply (FK e' v); auto.
  - assert (Hw : w < n). { apply WL. intros Q. rewrite Q in V3. apply (f_equal (@length _)) in V3. cbn in V3. lia. }
    rewrite app_nil_r. constructor.
    + intros e'. rewrite T1. pose proof (pending_chg n e' s s' w Hw V1) as P. unfold load, in_queue, in_tree in P. rewrite V2, V3, !popped_of, V4, V5 in P. cbn in P.
      destruct (Nat.eqb_spec e' e), (Nat.eq_dec e e'); try congruence; cbn in *; lia.
    + intros v Hv. rewrite (T2 v Hv). destruct (Nat.eq_dec v w) as [->|Hn]; [rewrite V4, V5, V2|rewrite (V1 v Hn)]; reflexivity.
    + intros v t' e' Hv Hin. apply T3; auto. destruct (Nat.eq_dec v w) as [->|Hn]; [rewrite V3; right; exact Hin|rewrite (V1 v Hn) in Hin; exact Hin].
    + intros v e' Hv Hin. assert (Hin2 : In e' (queue (wks s v))). { destruct (Nat.eq_dec v w) as [->|Hn]; [rewrite V2 in Hin; exact Hin|rewrite (V1 v Hn) in Hin; exact Hin]. }
      destruct (T4 v e' Hv Hin2) as (to & P1 & P2). exists to. split; [exact P1|]. intros Hto. apply (FK e' v); auto.
  - assert (Hw : w < n). { apply WL. intros Q. rewrite Q in V5. congruence. }
    constructor.
    + intros e'. rewrite posts_app, deliveries_app, T1. pose proof (pending_chg n e' s s' w Hw V1) as P. unfold load, in_queue, in_tree in P. rewrite V2, V3, !popped_of, V4, V5 in P.
      unfold posts, deliveries. cbn in *. destruct (Nat.eqb_spec e' e); cbn in *; lia.
    + intros v Hv. rewrite entered_app, dfl_app, (T2 v Hv). cbn [entered delivered_from_list flat_map]. rewrite !app_nil_r. destruct (Nat.eq_dec v w) as [->|Hn].
      * rewrite V2, V4, V5, Nat.eqb_refl. destruct p; cbn; rewrite <- ?app_assoc, ?app_nil_r; reflexivity.
      * rewrite (V1 v Hn). destruct p; [|rewrite app_nil_r; reflexivity]. destruct (Nat.eqb_spec v w); [congruence|]. rewrite app_nil_r. reflexivity.
    + intros v t' e' Hv Hin. rewrite last_post_app. cbn. apply T3; auto. destruct (Nat.eq_dec v w) as [->|Hn]; [rewrite V3 in Hin; exact Hin|rewrite (V1 v Hn) in Hin; exact Hin].
    + intros v e' Hv Hin. rewrite last_post_app. cbn. assert (Hin2 : In e' (queue (wks s v))). { destruct (Nat.eq_dec v w) as [->|Hn]; [rewrite V2 in Hin; exact Hin|rewrite (V1 v Hn) in Hin; exact Hin]. }
      destruct (T4 v e' Hv Hin2) as (to & P1 & P2). exists to. split; [exact P1|]. intros Hto. apply (FK e' v); auto.
Qed.

(** ** When nobody posts an event on its way to its actor *)
Lemma put_ref_posted e s s' e' : put_ref e s = Some s' -> posted (evs s' e') = true -> posted (evs s e') = true.
Proof.
  unfold put_ref. destruct (alive (evs s e)); [|discriminate]. destruct (refs (evs s e)) as [|[|m]]; [discriminate| |]; intros H; injection H as <-; cx;
    (destruct (Nat.eq_dec e' e) as [->|E]; cx; auto). cbn. discriminate.
Qed.
Lemma to_events_posted w now s s' o e : to_events w now s = Some (s', o) -> posted (evs s' e) = true -> posted (evs s e) = true.
Proof.
  unfold to_events. destruct (tree (wks s w)) as [|[t e1] r]; [intros H; injection H as <- <-; auto|]. destruct (alive (evs s e1)); [|discriminate].
  destruct (wst (wks s w)); try destruct (time_cmp t now >? 0)%Z; intros H; injection H as <- <-; cx; auto; destruct (Nat.eq_dec e e1) as [->|E]; cx; auto; discriminate.
Qed.
Lemma immediate_posted w s s' o e : immediate w s = Some (s', o) -> posted (evs s' e) = true -> posted (evs s e) = true.
Proof.
  unfold immediate. destruct (queue (wks s w)) as [|e1 r]; [apply to_events_posted|]. destruct (alive (evs s e1)); [|discriminate].
  intros H; injection H as <- <-; cx; auto; destruct (Nat.eq_dec e e1) as [->|E]; cx; auto. discriminate.
Qed.
Lemma step_posted l s s' o e : step false l s = Some (s', o) -> posted (evs s' e) = true -> posted (evs s e) = true \/ exists w to, l = Claim e w to.
Proof.
  destruct l as [e1|e1|e1|e1 w to|e1 w|e1|e1|w|w|w|w|w|t]; cbn [step].
  - unfold do_new. destruct (alive (evs s e1)) eqn:Ea; intros H; injection H as <- <-; auto. cx. destruct (Nat.eq_dec e e1) as [->|E]; cx; auto. discriminate.
  - unfold do_get, get_ref. destruct (alive (evs s e1)); [|discriminate]. destruct (refs (evs s e1) =? 0); [discriminate|]. intros H; injection H as <- <-; cx.
    destruct (Nat.eq_dec e e1) as [->|E]; cx; auto.
  - unfold do_put. destruct (put_ref e1 s) as [s1|] eqn:E; [|discriminate]. intros H; injection H as <- <-. cx. left. eapply put_ref_posted; eauto.
  - unfold do_claim. destruct (alive (evs s e1)); [|discriminate]. destruct (posted (evs s e1)) eqn:Ep; intros H; injection H as <- <-; auto. cx.
    destruct (Nat.eq_dec e e1) as [->|E]; cx; auto. eauto.
  - unfold do_insert. destruct (take_claim e1 w (claims s)) as [[b cl]|] eqn:Et; [|intros H; injection H as <- <-; auto].
    cbv zeta. cbn [evs wks]. destruct (alive (evs s e1)) eqn:Ha; [|discriminate]. unfold get_ref. cbn [evs]. rewrite Ha.
    intros H Hp. left. destruct (wst (wks s w)) eqn:Ew; try (injection H as <- <-; cx; destruct (Nat.eq_dec e e1) as [->|E]; cx; auto; discriminate);
      (destruct (refs (evs s e1) =? 0); [discriminate|]; destruct (eto (evs s e1)) as [t|] eqn:Eto; [|discriminate]; destruct b; injection H as <- <-; cx; destruct (Nat.eq_dec e e1) as [->|E]; cx; auto).
  - unfold do_cancel1. destruct (alive (evs s e1)); [|discriminate]. destruct (posted (evs s e1)), (flushed (evs s e1)) as [[|]|]; intros H; try discriminate; injection H as <- <-; auto.
  - unfold do_cancel2. destruct (take_cancel e1 (cancels s)) as [c|]; [|intros H; injection H as <- <-; auto].
    destruct (alive (evs s e1)); [|discriminate]. destruct (edst (evs s e1)) as [w|]; [|discriminate]. destruct (eto (evs s e1)) as [t|]; [|discriminate]. cbv zeta. cbn [clk].
    destruct (time_diff t (clk s) <? 1000000000)%Z.
    + intros H; injection H as <- <-. cx. destruct (Nat.eq_dec e e1) as [->|E]; cx; auto.
    + destruct (del e1 (tree (wks s w))) as [l|] eqn:El; [|discriminate]. destruct (existsb (Nat.eqb e1) (queue (wks s w))); [discriminate|]. intros H; injection H as <- <-.
      cx. destruct (Nat.eq_dec e e1) as [->|E]; cx; auto.
  - unfold do_flush. intros H; injection H as <- <-. auto.
  - unfold do_start. destruct (ph (wks s w)) eqn:Ep; intros H; injection H as <- <-; auto.
  - unfold do_wake. destruct (ph (wks s w)) eqn:Ep; try (intros H; injection H as <- <-; auto; fail).
    destruct (sem (wks s w)) as [|m] eqn:Es.
    + destruct (time_cmp (semw (wks s w)) (clk s) <=? 0)%Z; intros H; [|injection H as <- <-; auto]. left. eapply immediate_posted; eauto.
    + intros H Hp. left. apply (immediate_posted _ _ _ _ e H Hp).
  - unfold do_deliver. destruct (ph (wks s w)) as [| |e2 p|e2 p] eqn:Ep; try (intros H; injection H as <- <-; auto; fail).
    destruct (alive (evs s e2)); [|discriminate]. destruct (flushed (evs s e2)) as [f|] eqn:Ef; [|discriminate]. intros H; injection H as <- <-. auto.
  - unfold do_return. destruct (ph (wks s w)) as [| |e2 p|e2 p] eqn:Ep; try (intros H; injection H as <- <-; auto; fail).
    destruct (put_ref e2 s) as [s1|] eqn:E1; [|discriminate]. intros H Hp. left. eapply put_ref_posted; eauto. destruct p; [eapply immediate_posted|eapply to_events_posted]; eauto.
  - unfold do_tick. destruct (time_cmp (clk s) t <=? 0)%Z; intros H; injection H as <- <-; auto.
Qed.
Definition kinv (n : nat) (s : sys) (tr : list out) : Prop := forall w e p, w < n -> pop_of (ph (wks s w)) = Some (e, p) ->
  posted (evs s e) = false /\ exists to, last_post e tr = Some (w, to) /\
  match p with
  | InList => to <> None -> flushed (evs s e) = Some true
  | InTree now => exists t, to = Some t /\ (flushed (evs s e) = Some false -> (time_cmp t now <= 0)%Z)
  end.
Theorem kinv_step n l s s' o tr : inv n (cur s) s -> inv n (cur s') s' -> cinv s -> legal n l s -> calm n l s -> step false l s = Some (s', o) ->
  tinv n s tr -> kinv n s tr -> kinv n s' (tr ++ o).
Proof.
  intros I I' Cv Lg Cm H T K. pose proof (step_effect _ _ _ _ H) as E. pose proof (wks_lt n l s s' o) as WL. specialize (fun v => WL v I Cv Lg H).
  (* an event that was on its way before *)
  assert (Old : forall w e p, w < n -> pop_of (ph (wks s w)) = Some (e, p) -> (forall to, last_post e tr = Some to -> last_post e (tr ++ o) = Some to) ->
    pop_of (ph (wks s' w)) = Some (e, p) ->
    posted (evs s' e) = false /\ exists to, last_post e (tr ++ o) = Some (w, to) /\
    match p with InList => to <> None -> flushed (evs s' e) = Some true | InTree now => exists t, to = Some t /\ (flushed (evs s' e) = Some false -> (time_cmp t now <= 0)%Z) end).
  { intros w e p Hw Hp Hl Hp'. destruct (K w e p Hw Hp) as (K1 & to & K2 & K3).
    assert (Hph : ph (wks s w) = Popped e p) by (destruct (ph (wks s w)); cbn in Hp; congruence).
    assert (Hph' : ph (wks s' w) = Popped e p) by (destruct (ph (wks s' w)); cbn in Hp'; congruence).
    assert (Hal : alive (evs s e) = true). { apply (i_alive _ _ _ I). rewrite (i_refs _ _ _ I). pose proof (flight_ge n e (cur s) w p Hw (or_introl Hph)). lia. }
    assert (Hal' : alive (evs s' e) = true). { apply (i_alive _ _ _ I'). rewrite (i_refs _ _ _ I'). pose proof (flight_ge n e (cur s') w p Hw (or_introl Hph')). lia. }
    assert (Nc : forall w' to', l <> Claim e w' to'). { intros w' to' ->. cbn in Cm. apply (Cm w p Hw Hph). }
    split. { destruct (posted (evs s' e)) eqn:Ep; [|reflexivity]. destruct (step_posted _ _ _ _ e H Ep) as [?|(w' & to' & ?)]; [congruence|exfalso; eapply Nc; eauto]. }
    exists to. split; [apply Hl; exact K2|]. assert (Fl : flushed (evs s' e) = flushed (evs s e) \/ flushed (evs s' e) = Some true).
    { destruct (step_status _ _ _ _ e H) as [Q|[Q|[(_ & Q)|[((w' & to' & Q) & _)|(Q & _)]]]]; auto; try congruence.
      rewrite Q in Hal'. discriminate. }
    destruct p as [|now].
    - intros Hto. specialize (K3 Hto). destruct Fl; congruence.
    - destruct K3 as (t & K4 & K5). exists t. split; [exact K4|]. intros Hf. apply K5. destruct Fl; congruence. }
  assert (Post : forall w e p, w < n -> pop_of (ph (wks s w)) = Some (e, p) -> claimed e (claims s) = 0).
  { intros w e p Hw Hp. destruct (K w e p Hw Hp) as (K1 & _). pose proof (i_claim _ _ _ I e) as C. rewrite K1 in C. cbn in C. lia. }
  intros w0 e0 p0 Hw0 Hp0.
  destruct E as [o Q V|e w Hc Nd V1 V2 V3 V4 V5 V6|e w t Hc V1 V2 V3 V4|e w V1 V2 V3 V4 V5|e w V1 V2 V3 V4 V5 V6|e w t now V1 V2 V3 V4 V5 V6 V7 V8|e w p f V1 V2 V3 V4 V5 V6 V7].
  - destruct (V w0) as (_ & _ & A). apply Old; auto; [congruence|]. intros to Hl. rewrite last_post_app. destruct (quiet_none o Q) as (QA & _). destruct (QA e0) as (_ & _ & ->). exact Hl.
  - assert (A : pop_of (ph (wks s w0)) = Some (e0, p0)) by (destruct (Nat.eq_dec w0 w) as [->|Hn]; [congruence|rewrite <- (V1 w0 Hn); exact Hp0]).
    apply Old; auto. intros to Hl. rewrite last_post_app. cbn. destruct (Nat.eqb_spec e0 e) as [->|Hne]; [|exact Hl]. specialize (Post w0 e p0 Hw0 A). lia.
  - assert (A : pop_of (ph (wks s w0)) = Some (e0, p0)) by (destruct (Nat.eq_dec w0 w) as [->|Hn]; [congruence|rewrite <- (V1 w0 Hn); exact Hp0]).
    apply Old; auto. intros to Hl. rewrite last_post_app. cbn. destruct (Nat.eqb_spec e0 e) as [->|Hne]; [|exact Hl]. specialize (Post w0 e p0 Hw0 A). lia.
  - assert (A : pop_of (ph (wks s w0)) = Some (e0, p0)) by (destruct (Nat.eq_dec w0 w) as [->|Hn]; [congruence|rewrite <- (V1 w0 Hn); exact Hp0]).
    apply Old; auto. intros to Hl. rewrite last_post_app. cbn. exact Hl.
  - destruct (Nat.eq_dec w0 w) as [->|Hn].
    + rewrite V5 in Hp0. injection Hp0 as <- <-. split; [exact V6|]. rewrite app_nil_r. assert (Hq : In e (queue (wks s w))) by (rewrite V2; left; reflexivity).
      destruct (t_list _ _ _ T w e Hw0 Hq) as (to & P1 & P2). exists to. split; [exact P1|]. intros Hto. specialize (P2 Hto).
      destruct (wait_alive n _ s e w I Hw0 (wcnt_queue _ _ Hq)) as (Ha & _). destruct (waits n _ s w e I Hw0 (wcnt_queue _ _ Hq)) as (Hpo & _).
      assert (Hph' : ph (wks s' w) = Popped e InList) by (destruct (ph (wks s' w)); cbn in V5; congruence).
      assert (Hal' : alive (evs s' e) = true). { apply (i_alive _ _ _ I'). rewrite (i_refs _ _ _ I'). pose proof (flight_ge n e (cur s') w InList Hw0 (or_introl Hph')). lia. }
      destruct (step_status _ _ _ _ e H) as [Q|[Q|[(_ & Q)|[(_ & Q & _)|(Q & _)]]]]; try congruence. rewrite Q in Hal'. discriminate.
    + apply Old; auto; [rewrite <- (V1 w0 Hn); exact Hp0|]. rewrite app_nil_r. auto.
  - destruct (Nat.eq_dec w0 w) as [->|Hn].
    + rewrite V5 in Hp0. injection Hp0 as <- <-. split; [exact V8|]. rewrite app_nil_r. exists (Some t). split; [|exists t; auto].
      apply (t_tree _ _ _ T); auto. rewrite V3. left. reflexivity.
    + apply Old; auto; [rewrite <- (V1 w0 Hn); exact Hp0|]. rewrite app_nil_r. auto.
  - destruct (Nat.eq_dec w0 w) as [->|Hn]; [congruence|]. apply Old; auto; [rewrite <- (V1 w0 Hn); exact Hp0|]. intros to Hl. rewrite last_post_app. cbn. exact Hl.
Qed.

(** ** Reachable states *)
Lemma inv_init n now : (time_cmp (0, 0) now <= 0)%Z -> inv n (cur (sys_new now)) (sys_new now).
Proof.
  intros H. assert (W : forall e, waiting n e (sys_new now) = 0) by (intros e; apply sumw_zero; reflexivity).
  assert (F : forall e, flight n e (cur (sys_new now)) = 0) by (intros e; apply sumw_zero; reflexivity). constructor.
  - intros e. rewrite W. reflexivity.
  - intros e. rewrite W, F. reflexivity.
  - intros e. cbn. split; [discriminate|lia].
  - intros e. rewrite W, F. cbn. lia.
  - intros e. cbn. congruence.
  - intros w t e _ [].
  - intros e w [].
  - intros w _. constructor; cbn; auto; [constructor|tl].
  - exact H.
Qed.
Record good (n : nat) (s : sys) (tr : list out) : Prop := { g_inv : inv n (cur s) s; g_cinv : cinv s; g_binv : binv n s; g_tinv : tinv n s tr }.
Theorem reach_good n P s tr : reach n P s tr -> good n s tr.
Proof.
  induction 1 as [now H0|s tr l s' o R IH L HP E].
  - constructor; [apply inv_init; exact H0| | |].
    + intros e [].
    + intros e [(w & b & [])|[]].
    + constructor.
      * intros e. symmetry. apply sumw_zero. reflexivity.
      * reflexivity.
      * intros w t e _ [].
      * intros w e _ [].
  - destruct IH as [I Cv B T]. destruct (step_ok n l s I Cv B L) as (s2 & o2 & E2 & I2). rewrite E in E2. injection E2 as <- <-.
    assert (B' : binv n s') by (intros e; apply (proj2 L s' o E)). constructor; auto.
    + exact (cinv_step n l s s' o I I2 Cv B B' L E).
    + exact (tinv_step n l s s' o tr I I2 Cv L E T).
Qed.
Theorem reach_calm n s tr : reach n (calm n) s tr -> kinv n s tr.
Proof.
  induction 1 as [now H0|s tr l s' o R IH L HP E].
  - intros w e p _ H. discriminate.
  - pose proof (reach_good _ _ _ _ R) as [I Cv B T]. assert (R' : reach n (calm n) s' (tr ++ o)) by (econstructor; eauto). pose proof (reach_good _ _ _ _ R') as [I' _ _ _].
    exact (kinv_step n l s s' o tr I I' Cv L HP E T IH).
Qed.
(** cancelled deliveries have a cause *)
Lemma to_events_wst w now s s' o v : to_events w now s = Some (s', o) -> wst (wks s' v) = Flushing -> wst (wks s v) = Flushing.
Proof.
  unfold to_events. destruct (tree (wks s w)) as [|[t e1] r]; [|destruct (alive (evs s e1)); [|discriminate]; destruct (wst (wks s w)) eqn:E; try destruct (time_cmp t now >? 0)%Z];
    intros H; injection H as <- <-; cx; (destruct (Nat.eq_dec v w) as [->|Hn]; cx; auto); try congruence; try (destruct (wst (wks s w)); congruence); rewrite ?E in *; cbn in *; congruence.
Qed.
Lemma immediate_wst w s s' o v : immediate w s = Some (s', o) -> wst (wks s' v) = Flushing -> wst (wks s v) = Flushing.
Proof.
  unfold immediate. destruct (queue (wks s w)) as [|e1 r]; [apply to_events_wst|]. destruct (alive (evs s e1)); [|discriminate].
  intros H; injection H as <- <-; cx; auto; destruct (Nat.eq_dec v w) as [->|E]; cx; auto.
Qed.
Lemma step_wst l s s' o v : step false l s = Some (s', o) -> wst (wks s' v) = Flushing -> wst (wks s v) = Flushing \/ In (OFlush v) o.
Proof.
  intros H Hf. destruct (lab_worker l s) as [w|] eqn:El; [|left; rewrite <- (step_wks l s s' o v H) by congruence; exact Hf].
  destruct (Nat.eq_dec v w) as [->|Hn]; [|left; rewrite <- (step_wks l s s' o v H) by congruence; exact Hf].
  destruct l as [e1|e1|e1|e1 w1 to|e1 w1|e1|e1|w1|w1|w1|w1|w1|t]; cbn [lab_worker] in El; try discriminate; try (injection El as ->); cbn [step] in H.
  - unfold do_insert in H. left. destruct (take_claim e1 w (claims s)) as [[b cl]|] eqn:Et; [|injection H as <- <-; auto].
    cbv zeta in H. cbn [evs wks] in H. destruct (alive (evs s e1)) eqn:Ha; [|discriminate]. unfold get_ref in H. cbn [evs] in H. rewrite Ha in H.
    destruct (wst (wks s w)) eqn:Ew; auto;
      (destruct (refs (evs s e1) =? 0); [discriminate|]; destruct (eto (evs s e1)) as [t|] eqn:Eto; [|discriminate]; destruct b; injection H as <- <-; cx; congruence).
  - unfold do_cancel2 in H. destruct (take_cancel e1 (cancels s)) as [c|] eqn:Ec; [|injection H as <- <-; auto].
    destruct (alive (evs s e1)); [|discriminate]. rewrite El in H. destruct (eto (evs s e1)) as [t|]; [|discriminate]. cbv zeta in H. cbn [clk] in H.
    destruct (time_diff t (clk s) <? 1000000000)%Z; [injection H as <- <-; cx; auto|].
    destruct (del e1 (tree (wks s w))) as [l|]; [|discriminate]. destruct (existsb (Nat.eqb e1) (queue (wks s w))); [discriminate|]. injection H as <- <-. cx. auto.
  - unfold do_flush in H. injection H as <- <-. right. left. reflexivity.
  - unfold do_start in H. destruct (ph (wks s w)) eqn:Ep; injection H as <- <-; auto. cx. discriminate.
  - unfold do_wake in H. destruct (ph (wks s w)) eqn:Ep; try (injection H as <- <-; auto; fail).
    destruct (sem (wks s w)) as [|m] eqn:Es.
    + destruct (time_cmp (semw (wks s w)) (clk s) <=? 0)%Z; [|injection H as <- <-; auto]. left. eapply immediate_wst; eauto.
    + left. pose proof (immediate_wst _ _ _ _ w H Hf) as Q. cx. exact Q.
  - unfold do_deliver in H. destruct (ph (wks s w)) as [| |e2 p|e2 p] eqn:Ep; try (injection H as <- <-; auto; fail).
    destruct (alive (evs s e2)); [|discriminate]. destruct (flushed (evs s e2)) as [f|] eqn:Ef; [|discriminate]. injection H as <- <-. cx. auto.
  - unfold do_return in H. destruct (ph (wks s w)) as [| |e2 p|e2 p] eqn:Ep; try (injection H as <- <-; auto; fail).
    destruct (put_ref e2 s) as [s1|] eqn:E1; [|discriminate]. destruct (put_ref_wks _ _ _ E1) as (Ew & _). left. rewrite <- Ew. destruct p; [eapply immediate_wst|eapply to_events_wst]; eauto.
Qed.
Theorem reach_flush n P s tr : reach n P s tr ->
  (forall w, wst (wks s w) = Flushing -> In (OFlush w) tr) /\
  (forall e, flushed (evs s e) = Some true -> (exists rc, In (OCancel e rc) tr) \/ exists w, In (OFlush w) tr).
Proof.
  induction 1 as [now H0|s tr l s' o R [IH1 IH2] L HP E]; [split; discriminate|]. split.
  - intros w Hf. apply in_or_app. destruct (step_wst _ _ _ _ w E Hf); auto.
  - intros e Hf. destruct (step_status _ _ _ _ e E) as [Q|[Q|[(Q1 & Q)|[(_ & _ & Q)|(_ & Q)]]]].
    + rewrite Q in Hf. destruct (IH2 e Hf) as [(rc & ?)|(w & ?)]; [left; exists rc|right; exists w]; apply in_or_app; auto.
    + rewrite Q in Hf. discriminate.
    + subst l. cbn [step] in E. unfold do_new in E. rewrite Q in E. injection E as <- <-. cx. discriminate.
    + congruence.
    + destruct Q as [(rc & ?)|(w & Hw)]; [left; exists rc; apply in_or_app; auto|]. right. exists w. apply in_or_app. left. auto.
Qed.

Lemma reach_any n P s tr : reach n P s tr -> reach n any s tr.
Proof. induction 1; econstructor; eauto. exact Logic.I. Qed.
Lemma pending_acting n e s : pending n e s + acting n e s = waiting n e s + flight n e (cur s).
Proof.
  unfold pending, acting, waiting, flight. rewrite <- !sumw_add. apply sumw_ext. intros w _. unfold wcnt, fcnt, cur. lia.
Qed.
Lemma app_cut {A} (a b c d : list A) (x : A) : a ++ b = c ++ x :: d -> (exists d', a = c ++ x :: d') \/ exists b', b = b' ++ x :: d /\ c = a ++ b'.
Proof.
  revert c. induction a as [|y a IH]; cbn; intros c H; [right; exists c; auto|]. destruct c as [|z c]; cbn in H.
  - injection H as -> _. left. exists a. reflexivity.
  - injection H as -> H. destruct (IH c H) as [(d' & ->)|(b' & -> & ->)]; [left; exists d'; reflexivity|right; exists b'; auto].
Qed.
Lemma effect_delivered s s' o a w e f c p b : effect s s' o -> o = a ++ ODelivered w e f c p :: b ->
  a = [] /\ pop_of (ph (wks s w)) = Some (e, p) /\ flushed (evs s e) = Some f /\ c = clk s.
Proof.
  intros E Ho. destruct E as [o Q V|e1 w1 Hc Nd V1 V2 V3 V4 V5 V6|e1 w1 t Hc V1 V2 V3 V4|e1 w1 V1 V2 V3 V4 V5|e1 w1 V1 V2 V3 V4 V5 V6|e1 w1 t now V1 V2 V3 V4 V5 V6 V7 V8|e1 w1 p1 f1 V1 V2 V3 V4 V5 V6 V7].
  - exfalso. apply (Q (ODelivered w e f c p)). rewrite Ho. apply in_elt.
  - destruct a as [|? [|]]; discriminate.
  - destruct a as [|? [|]]; discriminate.
  - destruct a as [|? [|? [|]]]; discriminate.
  - destruct a; discriminate.
  - destruct a; discriminate.
  - destruct a as [|? [|]]; try discriminate. injection Ho as <- <- <- <- <- <-. auto.
Qed.
Lemma delivered_lt n s s' l o tr a w e f c p b : good n s tr -> legal n l s -> step false l s = Some (s', o) -> o = a ++ ODelivered w e f c p :: b -> w < n.
Proof.
  intros G L H Ho. pose proof (step_effect _ _ _ _ H) as E. apply (wks_lt n l s s' o w (g_inv _ _ _ G) (g_cinv _ _ _ G) L H). intros Q.
  destruct E as [o Q' V|e1 w1 Hc Nd V1 V2 V3 V4 V5 V6|e1 w1 t Hc V1 V2 V3 V4|e1 w1 V1 V2 V3 V4 V5|e1 w1 V1 V2 V3 V4 V5 V6|e1 w1 t now V1 V2 V3 V4 V5 V6 V7 V8|e1 w1 p1 f1 V1 V2 V3 V4 V5 V6 V7].
  - exfalso. apply (Q' (ODelivered w e f c p)). rewrite Ho. apply in_elt.
  - destruct a as [|? [|]]; discriminate.
  - destruct a as [|? [|]]; discriminate.
  - destruct a as [|? [|? [|]]]; discriminate.
  - destruct a; discriminate.
  - destruct a; discriminate.
  - destruct a as [|? [|]]; try discriminate. injection Ho as <- <- <- <- <- <-. congruence.
Qed.
Theorem delivered_as_posted n s tr : reach n (calm n) s tr -> forall a w e f c p b, tr = a ++ ODelivered w e f c p :: b ->
  exists to, last_post e a = Some (w, to) /\ (f = false -> forall t, to = Some t -> (time_cmp t c <= 0)%Z).
Proof.
  induction 1 as [now H0|s tr l s' o R IH L HP E]; intros a w e f c p b Ht; [destruct a; discriminate|].
  destruct (app_cut _ _ _ _ _ Ht) as [(d & Hd)|(a' & Ho & Ha)]; [eapply IH; eauto|].
  pose proof (reach_good _ _ _ _ R) as G. pose proof (delivered_lt n s s' l o tr _ _ _ _ _ _ _ G L E Ho) as Hw.
  destruct (effect_delivered _ _ _ _ _ _ _ _ _ _ (step_effect _ _ _ _ E) Ho) as (-> & Hp & Hf & ->). rewrite app_nil_r in Ha. subst a.
  destruct (reach_calm _ _ _ R w e p Hw Hp) as (_ & to & K1 & K2). exists to. split; [exact K1|]. intros -> t ->. destruct p as [|now].
  - rewrite K2 in Hf by discriminate. discriminate.
  - destruct K2 as (t' & K2 & K3). injection K2 as <-. specialize (K3 Hf).
    assert (Hph : ph (wks s w) = Popped e (InTree now)) by (destruct (ph (wks s w)); cbn in Hp; congruence).
    pose proof (w_wake _ _ _ (i_wok _ _ _ (g_inv _ _ _ G) w Hw)) as W. unfold cur in W. rewrite Hph in W. cbn in W. destruct W as (W & _). tl.
Qed.
Theorem delivered_cause n P s tr : reach n P s tr -> forall w e c p, In (ODelivered w e true c p) tr -> (exists rc, In (OCancel e rc) tr) \/ exists v, In (OFlush v) tr.
Proof.
  induction 1 as [now H0|s tr l s' o R IH L HP E]; intros w e c p Hin; [destruct Hin|]. apply in_app_or in Hin. destruct Hin as [Hin|Hin].
  - destruct (IH _ _ _ _ Hin) as [(rc & ?)|(v & ?)]; [left; exists rc|right; exists v]; apply in_or_app; auto.
  - apply in_split in Hin. destruct Hin as (a & b & Ho). destruct (effect_delivered _ _ _ _ _ _ _ _ _ _ (step_effect _ _ _ _ E) Ho) as (_ & _ & Hf & _).
    destruct (proj2 (reach_flush _ _ _ _ R) e Hf) as [(rc & ?)|(v & ?)]; [left; exists rc|right; exists v]; apply in_or_app; auto.
Qed.
Theorem pops_in_order n P s tr l s' o w e now : reach n P s tr -> legal n l s -> step false l s = Some (s', o) -> w < n ->
  pop_of (ph (wks s w)) = None -> ph (wks s' w) = Popped e (InTree now) ->
  exists t, In (t, e) (tree (wks s w)) /\ last_post e tr = Some (w, Some t) /\
    (forall t' e', In (t', e') (tree (wks s w)) -> (time_cmp t t' <= 0)%Z) /\ (wst (wks s w) <> Flushing -> (time_cmp t now <= 0)%Z) /\ (time_cmp now (clk s') <= 0)%Z.
Proof.
  intros R L H Hw Hp Hp'. pose proof (reach_good _ _ _ _ R) as [I Cv B T]. destruct (step_ok n l s I Cv B L) as (s2 & o2 & E2 & I2). rewrite H in E2. injection E2 as <- <-.
  pose proof (w_wake _ _ _ (i_wok _ _ _ I2 w Hw)) as W. unfold cur in W. rewrite Hp' in W. cbn in W. destruct W as (W & _).
  pose proof (step_effect _ _ _ _ H) as E. assert (Q' : pop_of (ph (wks s' w)) = Some (e, InTree now)) by (rewrite Hp'; reflexivity).
  destruct E as [o Q V|e1 w1 Hc Nd V1 V2 V3 V4 V5 V6|e1 w1 t Hc V1 V2 V3 V4|e1 w1 V1 V2 V3 V4 V5|e1 w1 V1 V2 V3 V4 V5 V6|e1 w1 t now1 V1 V2 V3 V4 V5 V6 V7 V8|e1 w1 p1 f1 V1 V2 V3 V4 V5 V6 V7].
  - destruct (V w) as (_ & _ & A). congruence.
  - destruct (Nat.eq_dec w w1) as [->|Hn]; [congruence|rewrite (V1 w Hn) in Q'; congruence].
  - destruct (Nat.eq_dec w w1) as [->|Hn]; [congruence|rewrite (V1 w Hn) in Q'; congruence].
  - destruct (Nat.eq_dec w w1) as [->|Hn]; [congruence|rewrite (V1 w Hn) in Q'; congruence].
  - destruct (Nat.eq_dec w w1) as [->|Hn]; [congruence|rewrite (V1 w Hn) in Q'; congruence].
  - destruct (Nat.eq_dec w w1) as [->|Hn]; [|rewrite (V1 w Hn) in Q'; congruence].
    rewrite Q' in V5. injection V5 as <- <-. exists t. assert (Hin : In (t, e) (tree (wks s w1))) by (rewrite V3; left; reflexivity).
    split; [exact Hin|]. split; [apply (t_tree _ _ _ T); auto|]. split; [|split; [exact V7|exact W]].
    intros t' e' Hin'. pose proof (w_sorted _ _ _ (i_wok _ _ _ I w1 Hw)) as S. rewrite V3 in S, Hin'. destruct Hin' as [Hin'|Hin']; [injection Hin' as <- <-; tl|].
    unfold tsorted in S. inversion S as [|? ? _ Hf]; subst. rewrite Forall_forall in Hf. apply (Hf _ Hin').
  - destruct (Nat.eq_dec w w1) as [->|Hn]; [congruence|rewrite (V1 w Hn) in Q'; congruence].
Qed.
Theorem wakes n P s tr w : reach n P s tr -> w < n -> ph (wks s w) = Asleep ->
  (queue (wks s w) <> [] \/ exists t e, In (t, e) (tree (wks s w)) /\ (time_cmp t (clk s) <= 0)%Z) ->
  exists s' e p, step false (Wake w) s = Some (s', []) /\ ph (wks s' w) = Popped e p.
Proof.
  intros R Hw Hp Hd. pose proof (reach_good _ _ _ _ R) as [I Cv B T]. destruct (i_wok _ _ _ I w Hw) as [K1 K2 K3 K4]. unfold cur in K4. rewrite Hp in K4. cbn in K4.
  assert (Im : forall s1, wks s1 w = mkWk (wst (wks s w)) (semw (wks s w)) (sem (wks s1 w)) (queue (wks s w)) (qlen (wks s w)) (tree (wks s w)) Asleep -> evs s1 = evs s -> clk s1 = clk s ->
     exists s' e p, immediate w s1 = Some (s', []) /\ ph (wks s' w) = Popped e p).
  { intros s1 H1 H2 H3. unfold immediate, to_events. rewrite H1, H2, H3. cbn [queue tree wst].
    destruct (queue (wks s w)) as [|e r] eqn:Eq.
    - destruct Hd as [Hd|(t & e & Hin & Hc)]; [congruence|]. destruct (tree (wks s w)) as [|[t0 e0] r] eqn:Et; [destruct Hin|].
      destruct (wait_alive n _ s e0 w I Hw) as (Ha & _). { apply (wcnt_tree e0 t0). rewrite Et. left. reflexivity. } rewrite Ha.
      assert (Hc0 : (time_cmp t0 (clk s) <= 0)%Z). { destruct Hin as [Hin|Hin]; [injection Hin as -> ->; exact Hc|]. unfold tsorted in K1. inversion K1 as [|? ? _ Hf]; subst. rewrite Forall_forall in Hf. specialize (Hf _ Hin). cbn in Hf. tl. }
      destruct (Z.gtb_spec (time_cmp t0 (clk s)) 0); [lia|]. destruct (wst (wks s w)); do 3 eexists; (split; [reflexivity|]); cx; reflexivity.
    - destruct (wait_alive n _ s e w I Hw) as (Ha & _). { apply wcnt_queue. rewrite Eq. left. reflexivity. } rewrite Ha.
      do 3 eexists. split; [reflexivity|]. cx. reflexivity. }
  cbn [step]. unfold do_wake. rewrite Hp. destruct (sem (wks s w)) as [|m] eqn:Es.
  - assert (Hs : (time_cmp (semw (wks s w)) (clk s) <= 0)%Z).
    { destruct K4 as [K4|[K4|(A1 & A2 & A3)]]; [lia|exact K4|]. destruct Hd as [Hd|(t & e & Hin & Hc)]; [congruence|]. specialize (A3 t e Hin). tl. }
    destruct (Z.leb_spec (time_cmp (semw (wks s w)) (clk s)) 0); [|lia]. apply Im; auto. rewrite <- Hp. destruct (wks s w); reflexivity.
  - apply Im; cx; auto.
Qed.
