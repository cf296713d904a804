(** The invariant of the event workers. *)
From Verif Require Import S_Ev.
From Coq Require Import List ZArith Lia Bool ZifyBool ZifyNat Sorting.Sorted. Import ListNotations.

Local Arguments Nat.eq_dec : simpl never.
(** ** Times *)
Lemma tle_iff a b : (time_cmp a b <= 0)%Z <-> (fst a < fst b \/ fst a = fst b /\ snd a <= snd b)%Z.
Proof. unfold time_cmp. repeat match goal with |- context [(?x <? ?y)%Z] => destruct (Z.ltb_spec x y) end; lia. Qed.
Lemma tlt_iff a b : (time_cmp a b < 0)%Z <-> (fst a < fst b \/ fst a = fst b /\ snd a < snd b)%Z.
Proof. unfold time_cmp. repeat match goal with |- context [(?x <? ?y)%Z] => destruct (Z.ltb_spec x y) end; lia. Qed.
Lemma tgt_iff a b : (0 < time_cmp a b)%Z <-> (fst b < fst a \/ fst a = fst b /\ snd b < snd a)%Z.
Proof. unfold time_cmp. repeat match goal with |- context [(?x <? ?y)%Z] => destruct (Z.ltb_spec x y) end; lia. Qed.
Ltac tl := repeat match goal with
  | H : (time_cmp _ _ <= 0)%Z |- _ => apply tle_iff in H
  | H : (time_cmp _ _ < 0)%Z |- _ => apply tlt_iff in H
  | H : (0 < time_cmp _ _)%Z |- _ => apply tgt_iff in H
  | H : (0 <= time_cmp _ _)%Z |- _ => apply Z.nlt_ge in H; rewrite tlt_iff in H
  | |- (time_cmp _ _ <= 0)%Z => apply tle_iff
  | |- (time_cmp _ _ < 0)%Z => apply tlt_iff
  | |- (0 < time_cmp _ _)%Z => apply tgt_iff end; cbn [fst snd] in *; try lia.

(** ** Sums *)
Lemma sumw_ext n f g : (forall i, i < n -> f i = g i) -> sumw n f = sumw n g.
Proof. induction n; intros H; cbn; [reflexivity|]. rewrite IHn, H by (intros; try apply H; lia). reflexivity. Qed.
Lemma sumw_chg n f g i : i < n -> (forall j, j <> i -> g j = f j) -> sumw n g + f i = sumw n f + g i.
Proof.
  induction n; intros Hi H; [lia|]. cbn. destruct (Nat.eq_dec i n) as [->|E].
  - rewrite (sumw_ext n g f) by (intros j Hj; apply H; lia). lia.
  - rewrite (H n) by congruence. specialize (IHn ltac:(lia) H). lia.
Qed.
Lemma sumw_ge n f i : i < n -> f i <= sumw n f.
Proof. induction n; intros Hi; [lia|]. cbn. destruct (Nat.eq_dec i n) as [->|E]; [lia|]. specialize (IHn ltac:(lia)). lia. Qed.
Lemma sumw_zero n f : sumw n f = 0 <-> forall i, i < n -> f i = 0.
Proof.
  induction n; cbn; [split; intros; lia|]. split.
  - intros H i Hi. destruct (Nat.eq_dec i n) as [->|E]; [lia|]. apply IHn; lia.
  - intros H. rewrite (proj2 IHn), H; [lia|lia|]. intros; apply H; lia.
Qed.
Lemma sumw_pos n f : 0 < sumw n f -> exists i, i < n /\ 0 < f i.
Proof.
  induction n; cbn; [lia|]. intros H. destruct (Nat.eq_dec (f n) 0) as [E|E]; [|exists n; lia].
  destruct IHn as (i & Hi & Hf); [lia|]. exists i. lia.
Qed.
Lemma sumw_add n f g : sumw n (fun i => f i + g i) = sumw n f + sumw n g.
Proof. induction n; cbn; lia. Qed.

(** ** The tree *)
Definition tsorted (l : list (Z * Z * nat)) : Prop := StronglySorted (fun a b => (time_cmp (fst a) (fst b) <= 0)%Z) l.
Lemma ins_in t e l x : In x (ins t e l) <-> x = (t, e) \/ In x l.
Proof. induction l as [|[t' e'] r IH]; cbn; [intuition auto|]. destruct (Z.ltb_spec (time_cmp t t') 0); cbn; [|rewrite IH]; intuition auto. Qed.
Lemma ins_sorted t e l : tsorted l -> tsorted (ins t e l).
Proof.
  unfold tsorted. induction l as [|[t' e'] r IH]; cbn; intros H; [repeat constructor|]. inversion H as [|? ? Hs Hf]; subst.
  rewrite Forall_forall in Hf. destruct (Z.ltb_spec (time_cmp t t') 0) as [E|E].
  - constructor; [exact H|]. rewrite Forall_forall. intros x [<-|Hx]; cbn; [tl|]. specialize (Hf x Hx). cbn in Hf. tl.
  - constructor; [apply IH; exact Hs|]. rewrite Forall_forall. intros x Hx. apply ins_in in Hx. destruct Hx as [->|Hx]; cbn; [|apply Hf; exact Hx].
    tl.
Qed.
Lemma ins_count t e l e' : count_occ Nat.eq_dec (map snd (ins t e l)) e' = (if Nat.eqb e' e then 1 else 0) + count_occ Nat.eq_dec (map snd l) e'.
Proof.
  induction l as [|[t' e2] r IH]; cbn.
  - destruct (Nat.eqb_spec e' e), (Nat.eq_dec e e'); try congruence; lia.
  - destruct (time_cmp t t' <? 0)%Z; cbn; [destruct (Nat.eqb_spec e' e), (Nat.eq_dec e e'), (Nat.eq_dec e2 e'); lia|].
    destruct (Nat.eq_dec e2 e'); rewrite IH; lia.
Qed.
Lemma ins_length t e l : length (ins t e l) = S (length l).
Proof. induction l as [|[t' e2] r IH]; cbn; [reflexivity|]. destruct (time_cmp t t' <? 0)%Z; cbn; congruence. Qed.
Lemma del_in e l l' x : del e l = Some l' -> In x l' -> In x l.
Proof.
  revert l'. induction l as [|[t e'] r IH]; cbn; intros l' H Hx; [discriminate|]. destruct (Nat.eqb e e'); [injection H as <-; auto|].
  destruct (del e r) as [r'|]; [|discriminate]. injection H as <-. destruct Hx as [<-|Hx]; [auto|]. right. eapply IH; eauto.
Qed.
Lemma del_some e l t : In (t, e) l -> exists l', del e l = Some l'.
Proof.
  induction l as [|[t' e'] r IH]; cbn; intros H; [easy|]. destruct (Nat.eqb_spec e e'); [eauto|].
  destruct H as [H|H]; [congruence|]. destruct (IH H) as (l' & ->). eauto.
Qed.
Lemma del_sorted e l l' : del e l = Some l' -> tsorted l -> tsorted l'.
Proof.
  revert l'. unfold tsorted. induction l as [|[t e'] r IH]; cbn; intros l' H Hs; [discriminate|]. inversion Hs as [|? ? Hs' Hf]; subst.
  destruct (Nat.eqb e e'); [injection H as <-; exact Hs'|]. destruct (del e r) as [r'|] eqn:E; [|discriminate]. injection H as <-.
  constructor; [apply IH; auto|]. rewrite Forall_forall in *. intros x Hx. apply Hf. eapply del_in; eauto.
Qed.
Lemma del_count e l l' e' : del e l = Some l' -> count_occ Nat.eq_dec (map snd l) e' = (if Nat.eqb e' e then 1 else 0) + count_occ Nat.eq_dec (map snd l') e'.
Proof.
  revert l'. induction l as [|[t e2] r IH]; cbn; intros l' H; [discriminate|]. destruct (Nat.eqb_spec e e2) as [<-|Hn].
  - injection H as <-. destruct (Nat.eqb_spec e' e), (Nat.eq_dec e e'); try congruence; lia.
  - destruct (del e r) as [r'|] eqn:E; [|discriminate]. injection H as <-. cbn. rewrite (IH r' eq_refl).
    destruct (Nat.eqb_spec e' e), (Nat.eq_dec e2 e'); lia.
Qed.
Lemma del_length e l l' : del e l = Some l' -> length l = S (length l').
Proof.
  revert l'. induction l as [|[t e2] r IH]; cbn; intros l' H; [discriminate|]. destruct (Nat.eqb e e2); [injection H as <-; reflexivity|].
  destruct (del e r) as [r'|] eqn:E; [|discriminate]. injection H as <-. cbn. rewrite (IH r' eq_refl). reflexivity.
Qed.
Lemma tree_count_in l e : 0 < count_occ Nat.eq_dec (map snd l) e <-> exists t : Z * Z, In (t, e) l.
Proof.
  change (0 < ?x) with (x > 0). rewrite <- count_occ_In, in_map_iff. split.
  - intros ([t e'] & Ht & Hin). cbn in Ht. subst. eauto.
  - intros (t & H). exists (t, e). auto.
Qed.

(** ** Claims *)
Definition claimed (e : nat) (l : list (nat * nat * bool)) : nat := count_occ Nat.eq_dec (map (fun c => fst (fst c)) l) e.
Lemma take_claim_some e w l b l' : take_claim e w l = Some (b, l') -> In (e, w, b) l /\ (forall x, In x l' -> In x l) /\
  forall e', claimed e' l = (if Nat.eqb e' e then 1 else 0) + claimed e' l'.
Proof.
  revert b l'. unfold claimed. induction l as [|[[e1 w1] b1] r IH]; cbn; intros b l' H; [discriminate|].
  destruct (Nat.eqb_spec e e1) as [<-|Hn]; cbn in H.
  - destruct (Nat.eqb_spec w w1) as [<-|Hw].
    + injection H as <- <-. split; [auto|split; [auto|]]. intros e'. destruct (Nat.eqb_spec e' e), (Nat.eq_dec e e'); try congruence; lia.
    + destruct (take_claim e w r) as [[b2 r2]|] eqn:E; [|discriminate]. injection H as <- <-. destruct (IH _ _ eq_refl) as (H1 & H2 & H3).
      split; [auto|split]. { intros x [<-|Hx]; cbn; auto. } intros e'. cbn. rewrite H3. destruct (Nat.eqb_spec e' e), (Nat.eq_dec e e'); lia.
  - destruct (take_claim e w r) as [[b2 r2]|] eqn:E; [|discriminate]. injection H as <- <-. destruct (IH _ _ eq_refl) as (H1 & H2 & H3).
    split; [auto|split]. { intros x [<-|Hx]; cbn; auto. } intros e'. cbn. rewrite H3. destruct (Nat.eqb_spec e' e), (Nat.eq_dec e1 e'); lia.
Qed.
Lemma claimed_in e l : 0 < claimed e l <-> exists w b, In (e, w, b) l.
Proof.
  unfold claimed. change (0 < ?x) with (x > 0). rewrite <- count_occ_In, in_map_iff. split.
  - intros ([[e' w] b] & Ht & Hin). cbn in Ht. subst. eauto.
  - intros (w & b & H). exists (e, w, b). auto.
Qed.
Lemma take_cancel_some e l l' : take_cancel e l = Some l' -> In e l /\ forall x, In x l' -> In x l.
Proof.
  revert l'. induction l as [|e1 r IH]; cbn; intros l' H; [discriminate|]. destruct (Nat.eqb_spec e e1) as [<-|Hn]; [injection H as <-; auto|].
  destruct (take_cancel e r) as [r'|] eqn:E; [|discriminate]. injection H as <-. destruct (IH _ eq_refl) as (H1 & H2).
  split; [auto|]. intros x [<-|Hx]; cbn; auto.
Qed.

(** ** The invariant; [phs] gives the phases of the threads *)
Definition wcnt (e : nat) (k : wk) : nat := in_queue e k + in_tree e k.
Definition fcnt (e : nat) (p : phase) : nat := is_popped e p + is_acting e p.
Definition waiting (n e : nat) (s : sys) : nat := sumw n (fun w => wcnt e (wks s w)).
Definition flight (n e : nat) (phs : nat -> phase) : nat := sumw n (fun w => fcnt e (phs w)).
Definition b2n (b : bool) : nat := if b then 1 else 0.
Definition wake_ok (c : Z * Z) (k : wk) (p : phase) : Prop :=
  match p with
  | Asleep => 0 < sem k \/ (time_cmp (semw k) c <= 0)%Z \/
              (queue k = [] /\ wst k <> Flushing /\ forall t e, In (t, e) (tree k) -> (time_cmp (semw k) t <= 0)%Z)
  | Popped _ (InTree now) | Acting _ (InTree now) => (time_cmp now c <= 0)%Z /\ (time_cmp (0, 0) now <= 0)%Z /\ (queue k = [] \/ 0 < sem k)
  | _ => True
  end.
Record wok (c : Z * Z) (k : wk) (p : phase) : Prop := {
  w_sorted : tsorted (tree k);
  w_qlen : qlen k = Z.of_nat (length (queue k));
  w_semw : (time_cmp (0, 0) (semw k) <= 0)%Z;
  w_wake : wake_ok c k p }.
Record inv (n : nat) (phs : nat -> phase) (s : sys) : Prop := {
  i_claim : forall e, waiting n e s + claimed e (claims s) = b2n (posted (evs s e));
  i_refs : forall e, refs (evs s e) = held s e + waiting n e s + flight n e phs;
  i_alive : forall e, alive (evs s e) = true <-> 0 < refs (evs s e);
  i_set : forall e, 0 < waiting n e s + flight n e phs + claimed e (claims s) -> flushed (evs s e) <> None;
  i_set2 : forall e, flushed (evs s e) <> None -> (exists t, eto (evs s e) = Some t) /\ exists w, w < n /\ edst (evs s e) = Some w;
  i_key : forall w t e, w < n -> In (t, e) (tree (wks s w)) -> eto (evs s e) = Some t;
  i_clm : forall e w, In (e, w, false) (claims s) -> eto (evs s e) = Some (0, 0)%Z;
  i_wok : forall w, w < n -> wok (clk s) (wks s w) (phs w);
  i_clk : (time_cmp (0, 0) (clk s) <= 0)%Z }.

(** A change of one event and one worker *)
Lemma inv_chg n phs s phs' s' e w :
  inv n phs s -> w < n ->
  (forall e', e' <> e -> evs s' e' = evs s e' /\ held s' e' = held s e' /\ wcnt e' (wks s' w) = wcnt e' (wks s w) /\
     fcnt e' (phs' w) = fcnt e' (phs w) /\ claimed e' (claims s') = claimed e' (claims s)) ->
  (forall w', w' <> w -> wks s' w' = wks s w' /\ phs' w' = phs w') ->
  (forall t e', e' <> e -> In (t, e') (tree (wks s' w)) -> In (t, e') (tree (wks s w))) ->
  (forall e' w' b, e' <> e -> In (e', w', b) (claims s') -> In (e', w', b) (claims s)) ->
  b2n (posted (evs s' e)) + wcnt e (wks s w) + claimed e (claims s) = b2n (posted (evs s e)) + wcnt e (wks s' w) + claimed e (claims s') ->
  refs (evs s' e) + held s e + wcnt e (wks s w) + fcnt e (phs w) = refs (evs s e) + held s' e + wcnt e (wks s' w) + fcnt e (phs' w) ->
  (alive (evs s' e) = true <-> 0 < refs (evs s' e)) ->
  (0 < waiting n e s' + flight n e phs' + claimed e (claims s') -> flushed (evs s' e) <> None) ->
  (flushed (evs s' e) <> None -> (exists t, eto (evs s' e) = Some t) /\ exists w, w < n /\ edst (evs s' e) = Some w) ->
  (forall w' t, w' < n -> In (t, e) (tree (wks s' w')) -> eto (evs s' e) = Some t) ->
  (forall w', In (e, w', false) (claims s') -> eto (evs s' e) = Some (0, 0)%Z) ->
  wok (clk s') (wks s' w) (phs' w) ->
  clk s' = clk s ->
  inv n phs' s'.
Proof.
  intros I Hw He Hwk Htr Hcl C1 C2 C3 C4 C5 C6 C7 C8 C9.
  assert (Wd : forall e', waiting n e' s' + wcnt e' (wks s w) = waiting n e' s + wcnt e' (wks s' w)).
  { intros e'. unfold waiting. apply (sumw_chg n (fun w => wcnt e' (wks s w)) (fun w => wcnt e' (wks s' w)) w Hw).
    intros j Hj. rewrite (proj1 (Hwk j Hj)). reflexivity. }
  assert (Fd : forall e', flight n e' phs' + fcnt e' (phs w) = flight n e' phs + fcnt e' (phs' w)).
  { intros e'. unfold flight. apply (sumw_chg n (fun w => fcnt e' (phs w)) (fun w => fcnt e' (phs' w)) w Hw).
    intros j Hj. rewrite (proj2 (Hwk j Hj)). reflexivity. }
  pose proof (i_claim _ _ _ I) as I1. pose proof (i_refs _ _ _ I) as I2.
  constructor.
  - intros e'. specialize (I1 e'). specialize (Wd e'). destruct (Nat.eq_dec e' e) as [->|Hn]; [lia|].
    destruct (He e' Hn) as (E1 & E2 & E3 & E4 & E5). rewrite E1. lia.
  - intros e'. specialize (I2 e'). specialize (Wd e'). specialize (Fd e'). destruct (Nat.eq_dec e' e) as [->|Hn]; [lia|].
    destruct (He e' Hn) as (E1 & E2 & E3 & E4 & E5). rewrite E1. lia.
  - intros e'. destruct (Nat.eq_dec e' e) as [->|Hn]; [exact C3|]. rewrite (proj1 (He e' Hn)). apply (i_alive _ _ _ I).
  - intros e'. destruct (Nat.eq_dec e' e) as [->|Hn]; [exact C4|]. destruct (He e' Hn) as (E1 & E2 & E3 & E4 & E5). rewrite E1.
    intros H. apply (i_set _ _ _ I). specialize (Wd e'). specialize (Fd e'). lia.
  - intros e'. destruct (Nat.eq_dec e' e) as [->|Hn]; [exact C5|]. rewrite (proj1 (He e' Hn)). apply (i_set2 _ _ _ I).
  - intros w' t e' Hw' Hin. destruct (Nat.eq_dec e' e) as [->|Hn]; [eapply C6; eauto|]. rewrite (proj1 (He e' Hn)).
    apply (i_key _ _ _ I w' t e' Hw'). destruct (Nat.eq_dec w' w) as [->|Hv]; [apply Htr; auto|]. rewrite <- (proj1 (Hwk w' Hv)). exact Hin.
  - intros e' w' Hin. destruct (Nat.eq_dec e' e) as [->|Hn]; [eapply C7; eauto|]. rewrite (proj1 (He e' Hn)).
    apply (i_clm _ _ _ I e' w'). apply Hcl; auto.
  - intros w' Hw'. destruct (Nat.eq_dec w' w) as [->|Hv]; [exact C8|]. rewrite (proj1 (Hwk w' Hv)), (proj2 (Hwk w' Hv)), C9. apply (i_wok _ _ _ I w' Hw').
  - rewrite C9. apply (i_clk _ _ _ I).
Qed.

Definition cur (s : sys) : nat -> phase := fun w => ph (wks s w).
Definition cinv (s : sys) : Prop := forall e, In e (cancels s) -> flushed (evs s e) <> None.
Definition binv (n : nat) (s : sys) : Prop := forall e, busy e s -> safe n e s.

Lemma flight_ge n e phs w p : w < n -> phs w = Popped e p \/ phs w = Acting e p -> 0 < flight n e phs.
Proof.
  intros Hw Hp. pose proof (sumw_ge n (fun w => fcnt e (phs w)) w Hw) as G. unfold flight. cbv beta in G.
  assert (fcnt e (phs w) = 1); [|lia]. unfold fcnt. destruct Hp as [-> | ->]; cbn; rewrite Nat.eqb_refl; reflexivity.
Qed.
Lemma safe_alive n s e : inv n (cur s) s -> safe n e s -> alive (evs s e) = true /\ 0 < refs (evs s e).
Proof.
  intros I H. assert (0 < refs (evs s e)).
  { rewrite (i_refs _ _ _ I). destruct H as [H|(w & p & Hw & Hp)]; [lia|].
    pose proof (sumw_ge n (fun w => fcnt e (cur s w)) w Hw) as G. unfold flight. cbv beta in G.
    assert (fcnt e (cur s w) = 1) by (unfold cur, fcnt; rewrite Hp; cbn; rewrite Nat.eqb_refl; reflexivity). lia. }
  split; [apply (i_alive _ _ _ I)|]; assumption.
Qed.
Lemma wait_alive n phs s e w : inv n phs s -> w < n -> 0 < wcnt e (wks s w) -> alive (evs s e) = true /\ 0 < refs (evs s e) /\ 0 < waiting n e s.
Proof.
  intros I Hw H. pose proof (sumw_ge n (fun w => wcnt e (wks s w)) w Hw) as G. cbv beta in G. fold (waiting n e s) in G.
  pose proof (i_refs _ _ _ I e). assert (0 < refs (evs s e)) by lia. split; [apply (i_alive _ _ _ I); assumption|lia].
Qed.
Lemma wcnt_queue e k : In e (queue k) -> 0 < wcnt e k.
Proof. intros H. unfold wcnt, in_queue. apply (count_occ_In Nat.eq_dec) in H. lia. Qed.
Lemma wcnt_tree e t k : In (t, e) (tree k) -> 0 < wcnt e k.
Proof. intros H. unfold wcnt, in_tree. assert (0 < count_occ Nat.eq_dec (map snd (tree k)) e) by (apply tree_count_in; eauto). lia. Qed.

Lemma inv_ext n phs phs' s : (forall w, phs w = phs' w) -> inv n phs s -> inv n phs' s.
Proof.
  intros E I. assert (F : forall e, flight n e phs' = flight n e phs) by (intros e; apply sumw_ext; intros; rewrite E; reflexivity).
  destruct I as [I1 I2 I3 I4 I5 I6 I7 I8 I9]. constructor; auto.
  - intros e. rewrite F. auto.
  - intros e. rewrite F. auto.
  - intros w Hw. rewrite <- E. auto.
Qed.

(** ** A round of the worker's thread, up to where it drops the lock *)
Definition taken (x : ev) (f : option bool) : ev := mkEv true (refs x) false f (eto x) (edst x).
Inductive rounds (now : Z * Z) (w : nat) (s : sys) : sys -> Prop :=
| rd_list e r f : queue (wks s w) = e :: r -> alive (evs s e) = true ->
    (f = flushed (evs s e) \/ wst (wks s w) = Flushing /\ f = Some true) ->
    rounds now w s (set_wk (set_ev s e (taken (evs s e) f)) w
      (mkWk (wst (wks s w)) (semw (wks s w)) (sem (wks s w)) r (qlen (wks s w) - 1) (tree (wks s w)) (Popped e InList)))
| rd_tree t e r f : tree (wks s w) = (t, e) :: r -> alive (evs s e) = true -> (queue (wks s w) = [] \/ 0 < sem (wks s w)) ->
    (f = flushed (evs s e) /\ (time_cmp t now <= 0)%Z \/ wst (wks s w) = Flushing /\ f = Some true) ->
    rounds now w s (set_wk (set_ev s e (taken (evs s e) f)) w
      (mkWk (wst (wks s w)) (semw (wks s w)) (sem (wks s w)) (queue (wks s w)) (qlen (wks s w)) r (Popped e (InTree now))))
| rd_sleep to : (queue (wks s w) = [] \/ 0 < sem (wks s w)) ->
    (to = None /\ tree (wks s w) = [] \/ exists t e r, to = Some t /\ tree (wks s w) = (t, e) :: r /\ (0 < time_cmp t now)%Z /\ wst (wks s w) <> Flushing) ->
    rounds now w s (set_wk s w (go_asleep (wks s w) (clk s) to)).

Lemma to_events_ok s w now : (forall e, 0 < wcnt e (wks s w) -> alive (evs s e) = true) -> (queue (wks s w) = [] \/ 0 < sem (wks s w)) ->
  exists s', to_events w now s = Some (s', []) /\ rounds now w s s'.
Proof.
  intros A Hq. unfold to_events. destruct (tree (wks s w)) as [|[t e] r] eqn:Et.
  - eexists. split; [reflexivity|]. apply rd_sleep; auto.
  - assert (Ha : alive (evs s e) = true). { apply A, (wcnt_tree e t). rewrite Et. left. reflexivity. }
    rewrite Ha. destruct (wst (wks s w)) eqn:Es.
    + destruct (Z.gtb_spec (time_cmp t now) 0).
      * eexists. split; [reflexivity|]. apply rd_sleep; [auto|]. right. exists t, e, r. repeat split; auto; congruence.
      * eexists. split; [reflexivity|]. rewrite <- Es. eapply rd_tree; eauto.
    + destruct (Z.gtb_spec (time_cmp t now) 0).
      * eexists. split; [reflexivity|]. apply rd_sleep; [auto|]. right. exists t, e, r. repeat split; auto; congruence.
      * eexists. split; [reflexivity|]. rewrite <- Es. eapply rd_tree; eauto.
    + eexists. split; [reflexivity|]. rewrite <- Es. eapply rd_tree; eauto.
Qed.
Lemma immediate_ok s w : (forall e, 0 < wcnt e (wks s w) -> alive (evs s e) = true) -> exists s', immediate w s = Some (s', []) /\ rounds (clk s) w s s'.
Proof.
  intros A. unfold immediate. destruct (queue (wks s w)) as [|e r] eqn:Eq.
  - apply to_events_ok; auto.
  - assert (Ha : alive (evs s e) = true). { apply A, wcnt_queue. rewrite Eq. left. reflexivity. }
    rewrite Ha. eexists. split; [reflexivity|]. eapply rd_list; eauto. destruct (wst (wks s w)); auto.
Qed.

Ltac cx := unfold set_wk, set_ev, set_held in *; cbn [evs wks clk claims cancels held wst semw sem queue qlen tree ph alive refs posted flushed eto edst taken go_asleep] in *;
  repeat first [rewrite fupd_eq in * | rewrite fupd_neq in * by congruence]; cbn [evs wks clk claims cancels held wst semw sem queue qlen tree ph alive refs posted flushed eto edst taken go_asleep] in *.

Lemma inv_round n phs s s' w now : inv n phs s -> w < n -> (forall e, fcnt e (phs w) = 0) -> rounds now w s s' ->
  (time_cmp now (clk s) <= 0)%Z -> (time_cmp (0, 0) now <= 0)%Z ->
  inv n (fupd phs w (ph (wks s' w))) s'.
Proof.
  intros I Hw Hp R Hn H0. pose proof (i_wok _ _ _ I w Hw) as [W1 W2 W3 W4]. destruct R as [e r f Eq Ha Hf|t e r f Et Ha Hq Hf|to Hq Hto].
  - destruct (wait_alive n phs s e w I Hw) as (_ & Hr & Hwt). { apply wcnt_queue. rewrite Eq. left. reflexivity. }
    assert (Hpo : posted (evs s e) = true). { pose proof (i_claim _ _ _ I e). destruct (posted (evs s e)); cbn in *; [reflexivity|lia]. }
    assert (Hfl : flushed (evs s e) <> None) by (apply (i_set _ _ _ I); lia).
    eapply (inv_chg n phs s _ _ e w I Hw); cx; auto.
    + intros e' He'. cx. repeat split; auto.
      * unfold wcnt, in_queue, in_tree. cx. rewrite Eq. cbn. destruct (Nat.eq_dec e e'); congruence.
      * rewrite Hp. unfold fcnt. cbn [is_popped is_acting]. destruct (Nat.eqb_spec e' e); [congruence|reflexivity].
    + intros w' Hw'. cx. auto.
    + rewrite Hpo. unfold wcnt, in_queue, in_tree. cx. rewrite Eq. cbn. destruct (Nat.eq_dec e e); [|congruence]. lia.
    + rewrite Hp. unfold wcnt, in_queue, in_tree. cx. rewrite Eq. cbn. rewrite Nat.eqb_refl. destruct (Nat.eq_dec e e); [|congruence]. lia.
    + tauto.
    + intros _. destruct Hf as [->|(_ & ->)]; [exact Hfl|discriminate].
    + intros _. apply (i_set2 _ _ _ I); assumption.
    + intros w' t Hw' Hin. apply (i_key _ _ _ I w' t e Hw'). destruct (Nat.eq_dec w' w) as [->|Hv]; cx; auto.
    + intros w' Hin. apply (i_clm _ _ _ I e w'). auto.
    + constructor; cx; auto. rewrite W2, Eq. cbn [length]. lia. cbn. exact Logic.I.
  - destruct (wait_alive n phs s e w I Hw) as (_ & Hr & Hwt). { apply (wcnt_tree e t). rewrite Et. left. reflexivity. }
    assert (Hpo : posted (evs s e) = true). { pose proof (i_claim _ _ _ I e). destruct (posted (evs s e)); cbn in *; [reflexivity|lia]. }
    assert (Hfl : flushed (evs s e) <> None) by (apply (i_set _ _ _ I); lia).
    eapply (inv_chg n phs s _ _ e w I Hw); cx; auto.
    + intros e' He'. cx. repeat split; auto.
      * unfold wcnt, in_queue, in_tree. cx. rewrite Et. cbn. destruct (Nat.eq_dec e e'); congruence.
      * rewrite Hp. unfold fcnt. cbn [is_popped is_acting]. destruct (Nat.eqb_spec e' e); [congruence|reflexivity].
    + intros w' Hw'. cx. auto.
    + intros t' e' _ Hin. rewrite Et. right. exact Hin.
    + rewrite Hpo. unfold wcnt, in_queue, in_tree. cx. rewrite Et. cbn. destruct (Nat.eq_dec e e); [|congruence]. lia.
    + rewrite Hp. unfold wcnt, in_queue, in_tree. cx. rewrite Et. cbn. rewrite Nat.eqb_refl. destruct (Nat.eq_dec e e); [|congruence]. lia.
    + tauto.
    + intros _. destruct Hf as [(-> & _)|(_ & ->)]; [exact Hfl|discriminate].
    + intros _. apply (i_set2 _ _ _ I); assumption.
    + intros w' t' Hw' Hin. apply (i_key _ _ _ I w' t' e Hw'). destruct (Nat.eq_dec w' w) as [->|Hv]; cx; auto. rewrite Et. right. exact Hin.
    + intros w' Hin. apply (i_clm _ _ _ I e w'). auto.
    + constructor; cx; auto. { rewrite Et in W1. unfold tsorted in *. inversion W1; assumption. } cbn. auto.
  - eapply (inv_chg n phs s _ _ 0 w I Hw); cx; auto.
    + intros w' Hw'. cx. auto.
    + apply (i_alive _ _ _ I).
    + intros H. apply (i_set _ _ _ I). unfold waiting, flight in *.
      pose proof (sumw_chg n (fun v => wcnt 0 (wks s v)) (fun v => wcnt 0 (fupd (wks s) w (go_asleep (wks s w) (clk s) to) v)) w Hw) as G1.
      pose proof (sumw_chg n (fun v => fcnt 0 (phs v)) (fun v => fcnt 0 (fupd phs w Asleep v)) w Hw) as G2.
      cbv beta in G1, G2. cx. specialize (G1 ltac:(intros j Hj; cx; auto)). specialize (G2 ltac:(intros j Hj; cx; auto)).
      rewrite Hp in G2. unfold wcnt at 2 4 in G1. unfold in_queue, in_tree in G1. cx. unfold fcnt at 3 in G2. cbn [is_popped is_acting] in G2. 
      cbn in H. lia.
    + apply (i_set2 _ _ _ I).
    + intros w' t' Hw' Hin. apply (i_key _ _ _ I w' t' 0 Hw'). destruct (Nat.eq_dec w' w) as [->|Hv]; cx; auto.
    + intros w' Hin. apply (i_clm _ _ _ I 0 w'). auto.
    + constructor; cx; auto.
      * destruct Hto as [(-> & _)|(t & e & r & -> & _ & Hc & _)]; [|tl]. pose proof (i_clk _ _ _ I). unfold sched_to. tl.
      * cbn. destruct Hq as [Hq|Hq]; [|left; exact Hq]. right. right. split; [exact Hq|]. split.
        { destruct (wst (wks s w)); discriminate. }
        intros t' e' Hin. destruct Hto as [(-> & Et)|(t & e & r & -> & Et & Hc & _)]; [rewrite Et in Hin; easy|].
        rewrite Et in Hin, W1. destruct Hin as [Hin|Hin]; [injection Hin as <- <-; tl|].
        unfold tsorted in W1. inversion W1 as [|? ? _ Hf]; subst. rewrite Forall_forall in Hf. apply (Hf _ Hin).
Qed.

(** A change of one event only *)
Lemma inv_ev n phs s s' e :
  inv n phs s -> wks s' = wks s -> clk s' = clk s ->
  (forall e', e' <> e -> evs s' e' = evs s e' /\ held s' e' = held s e' /\ claimed e' (claims s') = claimed e' (claims s)) ->
  (forall e' w' b, e' <> e -> In (e', w', b) (claims s') -> In (e', w', b) (claims s)) ->
  b2n (posted (evs s' e)) + claimed e (claims s) = b2n (posted (evs s e)) + claimed e (claims s') ->
  refs (evs s' e) + held s e = refs (evs s e) + held s' e ->
  (alive (evs s' e) = true <-> 0 < refs (evs s' e)) ->
  (0 < waiting n e s + flight n e phs + claimed e (claims s') -> flushed (evs s' e) <> None) ->
  (flushed (evs s' e) <> None -> (exists t, eto (evs s' e) = Some t) /\ exists w, w < n /\ edst (evs s' e) = Some w) ->
  (eto (evs s' e) = eto (evs s e) \/ waiting n e s = 0) ->
  (forall w', In (e, w', false) (claims s') -> eto (evs s' e) = Some (0, 0)%Z) ->
  inv n phs s'.
Proof.
  intros I Hwk Hclk He Hcl C1 C2 C3 C4 C5 C6 C7.
  assert (Wd : forall e', waiting n e' s' = waiting n e' s) by (intros e'; unfold waiting; rewrite Hwk; reflexivity).
  pose proof (i_claim _ _ _ I) as I1. pose proof (i_refs _ _ _ I) as I2.
  constructor.
  - intros e'. specialize (I1 e'). rewrite (Wd e'). destruct (Nat.eq_dec e' e) as [->|Hn]; [lia|].
    destruct (He e' Hn) as (E1 & E2 & E3). rewrite E1. lia.
  - intros e'. specialize (I2 e'). rewrite (Wd e'). destruct (Nat.eq_dec e' e) as [->|Hn]; [lia|].
    destruct (He e' Hn) as (E1 & E2 & E3). rewrite E1. lia.
  - intros e'. destruct (Nat.eq_dec e' e) as [->|Hn]; [exact C3|]. rewrite (proj1 (He e' Hn)). apply (i_alive _ _ _ I).
  - intros e'. rewrite (Wd e'). destruct (Nat.eq_dec e' e) as [->|Hn]; [exact C4|]. destruct (He e' Hn) as (E1 & E2 & E3). rewrite E1, E3. apply (i_set _ _ _ I).
  - intros e'. destruct (Nat.eq_dec e' e) as [->|Hn]; [exact C5|]. rewrite (proj1 (He e' Hn)). apply (i_set2 _ _ _ I).
  - intros w' t e' Hw' Hin. rewrite Hwk in Hin. pose proof (i_key _ _ _ I w' t e' Hw' Hin) as K. destruct (Nat.eq_dec e' e) as [->|Hn].
    + destruct C6 as [->|C6]; [exact K|]. destruct (wait_alive n phs s e w' I Hw' (wcnt_tree e t _ Hin)) as (_ & _ & G). lia.
    + rewrite (proj1 (He e' Hn)). exact K.
  - intros e' w' Hin. destruct (Nat.eq_dec e' e) as [->|Hn]; [eapply C7; eauto|]. rewrite (proj1 (He e' Hn)).
    apply (i_clm _ _ _ I e' w'). apply Hcl; auto.
  - intros w' Hw'. rewrite Hwk, Hclk. apply (i_wok _ _ _ I w' Hw').
  - rewrite Hclk. apply (i_clk _ _ _ I).
Qed.
(** A change of one worker only *)
Lemma inv_wk n phs phs' s w k' : inv n phs s -> w < n ->
  (forall e, wcnt e k' = wcnt e (wks s w)) -> (forall e, fcnt e (phs' w) = fcnt e (phs w)) ->
  (forall x, In x (tree k') -> In x (tree (wks s w))) -> (forall w', w' <> w -> phs' w' = phs w') ->
  wok (clk s) k' (phs' w) -> inv n phs' (set_wk s w k').
Proof.
  intros I Hw Hc Hf Ht Hp Hk.
  assert (Wd : forall e, waiting n e (set_wk s w k') = waiting n e s).
  { intros e. unfold waiting. apply sumw_ext. intros i _. cx. destruct (Nat.eq_dec i w) as [->|E]; cx; auto. }
  assert (Fd : forall e, flight n e phs' = flight n e phs).
  { intros e. unfold flight. apply sumw_ext. intros i _. destruct (Nat.eq_dec i w) as [->|E]; auto. rewrite Hp; auto. }
  destruct I as [I1 I2 I3 I4 I5 I6 I7 I8 I9]. constructor; auto.
  - intros e. rewrite Wd. apply I1.
  - intros e. rewrite Wd, Fd. apply I2.
  - intros e. rewrite Wd, Fd. apply I4.
  - intros v t e Hv Hin. cx. destruct (Nat.eq_dec v w) as [->|E]; cx; eauto.
  - intros v Hv. cx. destruct (Nat.eq_dec v w) as [->|E]; cx; auto. rewrite Hp by exact E. auto.
Qed.

Definition def_step (n : nat) (l : label) (s : sys) : Prop := exists s' o, step false l s = Some (s', o) /\ inv n (cur s') s'.

Lemma new_ok n e s : inv n (cur s) s -> binv n s -> def_step n (New e) s.
Proof.
  intros I B. unfold def_step. cbn [step]. unfold do_new. destruct (alive (evs s e)) eqn:Ha; [eauto|].
  do 2 eexists. split; [reflexivity|]. pose proof (i_alive _ _ _ I e) as A. pose proof (i_refs _ _ _ I e) as R. pose proof (i_claim _ _ _ I e) as C.
  assert (R0 : refs (evs s e) = 0). { destruct (refs (evs s e)); [reflexivity|]. assert (alive (evs s e) = true) by (apply A; lia). congruence. }
  assert (C0 : claimed e (claims s) = 0).
  { destruct (claimed e (claims s)) eqn:E; [reflexivity|]. assert (G : 0 < claimed e (claims s)) by lia. apply claimed_in in G.
    destruct (safe_alive n s e I (B e (or_introl G))). lia. }
  apply (inv_ev n (cur s) s _ e I); cx; auto.
  - intros e' He'. cx. auto.
  - cbn. lia.
  - lia.
  - split; [lia|reflexivity].
  - intros G. lia.
  - congruence.
  - right. lia.
  - intros w' Hin. assert (0 < claimed e (claims s)) by (apply claimed_in; eauto). lia.
Qed.
Lemma get_ok n e s : inv n (cur s) s -> safe n e s -> def_step n (Get e) s.
Proof.
  intros I S. unfold def_step. cbn [step]. unfold do_get, get_ref. destruct (safe_alive n s e I S) as (Ha & Hr). rewrite Ha.
  destruct (Nat.eqb_spec (refs (evs s e)) 0); [lia|]. do 2 eexists. split; [reflexivity|].
  apply (inv_ev n (cur s) s _ e I); cx; auto.
  - intros e' He'. cx. auto.
  - lia.
  - split; [lia|reflexivity].
  - apply (i_set _ _ _ I).
  - apply (i_set2 _ _ _ I).
  - apply (i_clm _ _ _ I).
Qed.
(** One reference less *)
Lemma put_ref_ok s e : alive (evs s e) = true -> 0 < refs (evs s e) -> exists x, put_ref e s = Some (set_ev s e x) /\
  (refs x = refs (evs s e) - 1 /\ (x = dead /\ refs (evs s e) = 1 \/
   x = mkEv true (refs (evs s e) - 1) (posted (evs s e)) (flushed (evs s e)) (eto (evs s e)) (edst (evs s e)) /\ 1 < refs (evs s e))).
Proof.
  intros Ha Hr. unfold put_ref. rewrite Ha. destruct (refs (evs s e)) as [|[|m]]; [lia| |]; eexists; (split; [reflexivity|]); cbn.
  - auto.
  - split; [reflexivity|]. right. auto with arith.
Qed.
Lemma put_ok n e s : inv n (cur s) s -> binv n s -> 0 < held s e ->
  (forall s' o, step false (Put e) s = Some (s', o) -> forall e, busy e s' -> safe n e s') -> def_step n (Put e) s.
Proof.
  intros I B S L. unfold def_step. cbn [step] in *. unfold do_put in *. destruct (safe_alive n s e I (or_introl S)) as (Ha & Hr).
  destruct (put_ref_ok s e Ha Hr) as (x & E & Hx & D). rewrite E in *. do 2 eexists. split; [reflexivity|].
  specialize (L _ _ eq_refl e). pose proof (i_refs _ _ _ I e) as R. pose proof (i_claim _ _ _ I e) as C.
  destruct D as [(-> & R1)|(-> & R1)].
  - assert (C0 : claimed e (claims s) = 0).
    { destruct (claimed e (claims s)) eqn:Ec; [reflexivity|]. assert (G : 0 < claimed e (claims s)) by lia. apply claimed_in in G.
      destruct (L (or_introl G)) as [H|(w & p & Hw & Hp)]; cx; [lia|].
      pose proof (flight_ge n e (cur s) w p Hw (or_intror Hp)). lia. }
    assert (posted (evs s e) = false). { destruct (posted (evs s e)); cbn in C; [lia|reflexivity]. }
    apply (inv_ev n (cur s) s _ e I); cx; cbn [dead alive refs posted flushed eto edst] in *; auto.
    + intros e' He'. cx. auto.
    + rewrite H. cbn. lia.
    + lia.
    + split; [discriminate|lia].
    + lia.
    + congruence.
    + right. lia.
    + intros w' Hin. assert (0 < claimed e (claims s)) by (apply claimed_in; eauto). lia.
  - apply (inv_ev n (cur s) s _ e I); cx; auto.
    + intros e' He'. cx. auto.
    + lia.
    + split; [lia|reflexivity].
    + apply (i_set _ _ _ I).
    + apply (i_set2 _ _ _ I).
    + apply (i_clm _ _ _ I).
Qed.
Lemma claim_ok n e w to s : inv n (cur s) s -> safe n e s -> w < n -> def_step n (Claim e w to) s.
Proof.
  intros I S Hw. unfold def_step. cbn [step]. unfold do_claim. destruct (safe_alive n s e I S) as (Ha & Hr). rewrite Ha.
  pose proof (i_claim _ _ _ I e) as C. destruct (posted (evs s e)) eqn:Hp; [eauto|]. cbn in C. do 2 eexists. split; [reflexivity|].
  apply (inv_ev n (cur s) s _ e I); cx; auto.
  - intros e' He'. cx. repeat split; auto. unfold claimed. cbn. destruct (Nat.eq_dec e e'); congruence.
  - intros e' w' b He' [Hin|Hin]; [congruence|exact Hin].
  - rewrite Hp. unfold claimed. cbn. destruct (Nat.eq_dec e e); [|congruence]. lia.
  - tauto.
  - discriminate.
  - intros _. eauto.
  - right. lia.
  - intros w' [Hin|Hin].
    + injection Hin as -> Hb. destruct to; [discriminate|reflexivity].
    + assert (0 < claimed e (claims s)) by (apply claimed_in; eauto). lia.
Qed.
Lemma cur_wk s w k' v : cur (set_wk s w k') v = fupd (cur s) w (ph k') v.
Proof. unfold cur, set_wk. cbn. destruct (Nat.eq_dec v w) as [->|E]; fupd_tac; reflexivity. Qed.
Lemma insert_ok n e w s : inv n (cur s) s -> binv n s -> w < n -> def_step n (Insert e w) s.
Proof.
  intros I B Hw. unfold def_step. cbn [step]. unfold do_insert.
  destruct (take_claim e w (claims s)) as [[b cl]|] eqn:Et; [|eauto]. destruct (take_claim_some _ _ _ _ _ Et) as (Hin & Hsub & Hcnt). cbv zeta. cx.
  assert (Hs : safe n e s) by (apply B; left; eauto). destruct (safe_alive n s e I Hs) as (Ha & Hr). rewrite Ha.
  pose proof (i_claim _ _ _ I e) as C. assert (Gc : 0 < claimed e (claims s)) by (apply claimed_in; eauto).
  assert (Hp : posted (evs s e) = true) by (destruct (posted (evs s e)); cbn in C; [reflexivity|lia]). rewrite Hp in C. cbn in C.
  assert (Hfl : flushed (evs s e) <> None) by (apply (i_set _ _ _ I); lia). destruct (i_set2 _ _ _ I e Hfl) as ((t & Hto) & Hdst).
  pose proof (Hcnt e) as Hce. rewrite Nat.eqb_refl in Hce.
  assert (Hcn : forall e', e' <> e -> claimed e' cl = claimed e' (claims s)). { intros e' He'. rewrite (Hcnt e'). destruct (Nat.eqb_spec e' e); [congruence|reflexivity]. }
  assert (Hcz : forall w' b, ~ In (e, w', b) cl). { intros w' b' Hc. assert (0 < claimed e cl) by (apply claimed_in; eauto). lia. }
  destruct (i_wok _ _ _ I w Hw) as [W1 W2 W3 W4].
  assert (Main : wst (wks s w) <> Flushing -> exists s' o,
    match get_ref false e (mkSys (evs s) (wks s) (clk s) cl (cancels s) (held s)), eto (evs s e) with
    | Some s0, Some t => let n := if (time_cmp t (semw (wks s w)) <=? 0)%Z then S (sem (wks s w)) else sem (wks s w) in
       if b then Some (set_wk s0 w (mkWk (wst (wks s w)) (semw (wks s w)) n (queue (wks s w)) (qlen (wks s w)) (ins t e (tree (wks s w))) (ph (wks s w))), [OPosted e w (Some t)])
       else Some (set_wk s0 w (mkWk (wst (wks s w)) (semw (wks s w)) n (queue (wks s w) ++ [e]) (qlen (wks s w) + 1)%Z (tree (wks s w)) (ph (wks s w))), [OPosted e w None])
    | _, _ => None end = Some (s', o) /\ inv n (cur s') s').
  { intros Hnf. unfold get_ref. cx. rewrite Ha, Hto. destruct (Nat.eqb_spec (refs (evs s e)) 0); [lia|]. cbv zeta. cx.
    assert (Hcu : forall k', ph k' = ph (wks s w) -> forall v, fupd (wks s) w k' v = fupd (wks s) w k' v /\ ph (fupd (wks s) w k' v) = cur s v).
    { intros k' Hk v. split; [reflexivity|]. unfold cur. destruct (Nat.eq_dec v w) as [->|E]; fupd_tac; auto. }
    destruct b.
    - do 2 eexists. split; [reflexivity|]. match goal with |- inv n (cur ?s2) _ => apply (inv_ext n (cur s)); [intros v; symmetry; unfold cur; cx; destruct (Nat.eq_dec v w) as [->|E]; fupd_tac; reflexivity|] end.
      apply (inv_chg n (cur s) s _ _ e w I Hw); cx; auto.
      + intros e' He'. cx. repeat split; auto. unfold wcnt, in_queue, in_tree. cx. rewrite ins_count. destruct (Nat.eqb_spec e' e); [congruence|reflexivity].
      + intros w' Hw'. cx. auto.
      + intros t' e' He' H. apply ins_in in H. destruct H as [H|H]; [congruence|exact H].
      + rewrite Hp. unfold wcnt, in_queue, in_tree. cx. rewrite ins_count, Nat.eqb_refl. lia.
      + unfold wcnt, in_queue, in_tree. cx. rewrite ins_count, Nat.eqb_refl. lia.
      + split; [lia|reflexivity].
      + intros _. eauto.
      + intros w' t' Hw' H. destruct (Nat.eq_dec w' w) as [->|E]; cx.
        * apply ins_in in H. destruct H as [H|H]; [congruence|]. rewrite <- Hto. apply (i_key _ _ _ I w t' e Hw H).
        * rewrite <- Hto. apply (i_key _ _ _ I w' t' e Hw' H).
      + intros w' H. exfalso. eapply Hcz; eauto.
      + constructor; cx; auto; [apply ins_sorted; exact W1|]. unfold cur in *. destruct (ph (wks s w)) as [| |e1 [|now]|e1 [|now]]; cbn in *; auto.
        * destruct (Z.leb_spec (time_cmp t (semw (wks s w))) 0); [left; lia|]. destruct W4 as [W4|[W4|(W4 & W5 & W6)]]; auto. right. right. split; [auto|split; [auto|]].
          intros t' e' H'. apply ins_in in H'. destruct H' as [H'|H']; [injection H' as -> ->; tl|eauto].
        * destruct W4 as (A1 & A2 & A3). split; [exact A1|]. split; [exact A2|]. destruct A3; auto. right. destruct (time_cmp t (semw (wks s w)) <=? 0)%Z; lia.
        * destruct W4 as (A1 & A2 & A3). split; [exact A1|]. split; [exact A2|]. destruct A3; auto. right. destruct (time_cmp t (semw (wks s w)) <=? 0)%Z; lia.
    - assert (Ht0 : t = (0, 0)%Z). { pose proof (i_clm _ _ _ I e w Hin). congruence. } subst t. destruct (Z.leb_spec (time_cmp (0, 0)%Z (semw (wks s w))) 0); [|lia].
      do 2 eexists. split; [reflexivity|]. match goal with |- inv n (cur ?s2) _ => apply (inv_ext n (cur s)); [intros v; symmetry; unfold cur; cx; destruct (Nat.eq_dec v w) as [->|E]; fupd_tac; reflexivity|] end.
      apply (inv_chg n (cur s) s _ _ e w I Hw); cx; auto.
      + intros e' He'. cx. repeat split; auto. unfold wcnt, in_queue, in_tree. cx. rewrite count_occ_app. cbn. destruct (Nat.eq_dec e e'); [congruence|]. lia.
      + intros w' Hw'. cx. auto.
      + rewrite Hp. unfold wcnt, in_queue, in_tree. cx. rewrite count_occ_app. cbn. destruct (Nat.eq_dec e e); [|congruence]. lia.
      + unfold wcnt, in_queue, in_tree. cx. rewrite count_occ_app. cbn. destruct (Nat.eq_dec e e); [|congruence]. lia.
      + split; [lia|reflexivity].
      + intros _. eauto.
      + intros w' t' Hw' H'. destruct (Nat.eq_dec w' w) as [->|E]; cx; rewrite <- Hto.
        * apply (i_key _ _ _ I w t' e Hw H').
        * apply (i_key _ _ _ I w' t' e Hw' H').
      + constructor; cx; auto. { rewrite app_length, W2. cbn. lia. } unfold cur in *. destruct (ph (wks s w)) as [| |e1 [|now]|e1 [|now]]; cbn in *; auto; try (left; lia).
        * destruct W4 as (A1 & A2 & A3). split; [exact A1|]. split; [exact A2|]. right. lia.
        * destruct W4 as (A1 & A2 & A3). split; [exact A1|]. split; [exact A2|]. right. lia. }
  destruct (wst (wks s w)) eqn:Es; [rewrite <- Es in *; apply Main; congruence|rewrite <- Es in *; apply Main; congruence|].
  do 2 eexists. split; [reflexivity|]. cx. apply (inv_ev n (cur s) s _ e I); cx; auto.
  - intros e' He'. cx. auto.
  - rewrite Hp. cbn. lia.
  - tauto.
  - intros _. eauto.
  - intros w' H'. exfalso. eapply Hcz; eauto.
Qed.
Lemma cancel1_ok n e s : inv n (cur s) s -> safe n e s -> flushed (evs s e) <> None -> def_step n (Cancel1 e) s.
Proof.
  intros I S F. unfold def_step. cbn [step]. unfold do_cancel1. destruct (safe_alive n s e I S) as (Ha & Hr). rewrite Ha.
  assert (J : inv n (cur s) (mkSys (evs s) (wks s) (clk s) (claims s) (e :: cancels s) (held s))) by (destruct I; constructor; auto).
  destruct (posted (evs s e)), (flushed (evs s e)) as [[|]|] eqn:Ef; try congruence; do 2 eexists; (split; [reflexivity|]); assumption.
Qed.
Lemma cancel2_ok n e s : inv n (cur s) s -> binv n s -> cinv s -> fair n (Cancel2 e) s -> def_step n (Cancel2 e) s.
Proof.
  intros I B Cv F. unfold def_step. cbn [step fair] in *. unfold do_cancel2. destruct (take_cancel e (cancels s)) as [c|] eqn:Ec; [|eauto].
  destruct (take_cancel_some _ _ _ Ec) as (Hin & _). destruct (safe_alive n s e I (B e (or_intror Hin))) as (Ha & Hr). rewrite Ha.
  destruct (i_set2 _ _ _ I e (Cv e Hin)) as ((t & Ht) & w & Hw & Hd). rewrite Hd, Ht. cbv zeta. specialize (F w t Hd Ht).
  pose proof (i_refs _ _ _ I e) as R. pose proof (i_claim _ _ _ I e) as C. cx.
  destruct (Z.ltb_spec (time_diff t (clk s)) 1000000000) as [Hd'|Hd'].
  { do 2 eexists. split; [reflexivity|]. apply (inv_ev n (cur s) s _ e I); cx; auto.
    - intros e' He'. cx. auto.
    - tauto.
    - discriminate.
    - intros _. eauto.
    - intros w' H. rewrite <- Ht. apply (i_clm _ _ _ I e w' H). }
  destruct F as [F|(t' & F)]; [lia|]. destruct (del_some e _ t' F) as (l & El). rewrite El.
  destruct (wait_alive n (cur s) s e w I Hw (wcnt_tree e t' _ F)) as (_ & _ & Hwt).
  assert (W1 : wcnt e (wks s w) <= 1). { pose proof (sumw_ge n (fun w => wcnt e (wks s w)) w Hw) as G. cbv beta in G. fold (waiting n e s) in G. destruct (posted (evs s e)); cbn in C; lia. }
  pose proof (del_count e _ l e El) as Hdc. rewrite Nat.eqb_refl in Hdc. fold (in_tree e (wks s w)) in Hdc.
  assert (Hq : in_queue e (wks s w) = 0) by (unfold wcnt in W1; lia).
  assert (Hex : existsb (Nat.eqb e) (queue (wks s w)) = false).
  { apply not_true_is_false. intros H. apply existsb_exists in H. destruct H as (x & Hx & E). apply Nat.eqb_eq in E. subst x.
    apply (count_occ_In Nat.eq_dec) in Hx. unfold in_queue in Hq. lia. }
  rewrite Hex. do 2 eexists. split; [reflexivity|].
  apply (inv_ext n (cur s)). { intros v. unfold cur. cx. destruct (Nat.eq_dec v w) as [->|E]; fupd_tac; reflexivity. }
  destruct (i_wok _ _ _ I w Hw) as [K1 K2 K3 K4].
  apply (inv_chg n (cur s) s _ _ e w I Hw); cx; auto.
  - intros e' He'. cx. repeat split; auto. unfold wcnt, in_queue, in_tree. cx. rewrite count_occ_app, (del_count e _ l e' El). cbn.
    destruct (Nat.eq_dec e e'); [congruence|]. destruct (Nat.eqb_spec e' e); [congruence|]. lia.
  - intros w' Hw'. cx. auto.
  - intros t2 e' He' H. eapply del_in; eauto.
  - unfold wcnt, in_queue, in_tree in *. cx. rewrite count_occ_app. cbn. destruct (Nat.eq_dec e e); [|congruence]. lia.
  - unfold wcnt, in_queue, in_tree in *. cx. rewrite count_occ_app. cbn. destruct (Nat.eq_dec e e); [|congruence]. lia.
  - tauto.
  - discriminate.
  - intros _. eauto.
  - intros w' t2 Hw' H. rewrite <- Ht. apply (i_key _ _ _ I w' t2 e Hw'). destruct (Nat.eq_dec w' w) as [->|E]; cx; auto. eapply del_in; eauto.
  - intros w' H. rewrite <- Ht. apply (i_clm _ _ _ I e w' H).
  - constructor; cx; auto. { eapply del_sorted; eauto. } { rewrite app_length, K2. cbn. lia. }
    unfold cur in *. destruct (ph (wks s w)) as [| |e1 [|now]|e1 [|now]]; cbn in *; auto; try (left; lia).
    + destruct K4 as (A1 & A2 & A3). split; [exact A1|]. split; [exact A2|]. right. lia.
    + destruct K4 as (A1 & A2 & A3). split; [exact A1|]. split; [exact A2|]. right. lia.
Qed.
Lemma flush_ok n w s : inv n (cur s) s -> w < n -> def_step n (Flush w) s.
Proof.
  intros I Hw. unfold def_step. cbn [step]. unfold do_flush. do 2 eexists. split; [reflexivity|]. destruct (i_wok _ _ _ I w Hw) as [K1 K2 K3 K4].
  apply (inv_wk n (cur s) _ s w _ I Hw); auto.
  - intros e. rewrite cur_wk, fupd_eq. reflexivity.
  - intros w' Hw'. rewrite cur_wk, fupd_neq by exact Hw'. reflexivity.
  - rewrite cur_wk, fupd_eq. constructor; cx; auto. unfold cur in *. destruct (ph (wks s w)) as [| |e1 [|now]|e1 [|now]]; cbn in *; auto; try (left; lia).
    + destruct K4 as (A1 & A2 & A3). split; [exact A1|]. split; [exact A2|]. right. lia.
    + destruct K4 as (A1 & A2 & A3). split; [exact A1|]. split; [exact A2|]. right. lia.
Qed.
Lemma start_ok n w s : inv n (cur s) s -> w < n -> def_step n (Start w) s.
Proof.
  intros I Hw. unfold def_step. cbn [step]. unfold do_start. destruct (ph (wks s w)) eqn:Ep; try (do 2 eexists; split; [reflexivity|assumption]).
  do 2 eexists. split; [reflexivity|]. destruct (i_wok _ _ _ I w Hw) as [K1 K2 K3 K4]. pose proof (i_clk _ _ _ I).
  apply (inv_wk n (cur s) _ s w _ I Hw); auto.
  - intros e. rewrite cur_wk, fupd_eq. unfold cur. rewrite Ep. reflexivity.
  - intros w' Hw'. rewrite cur_wk, fupd_neq by exact Hw'. reflexivity.
  - rewrite cur_wk, fupd_eq. constructor; cx; auto.
    + unfold sched_to. tl.
    + cbn. right. left. unfold sched_to. tl.
Qed.
Lemma deliver_ok n w s : inv n (cur s) s -> w < n -> def_step n (Deliver w) s.
Proof.
  intros I Hw. unfold def_step. cbn [step]. unfold do_deliver. destruct (ph (wks s w)) as [| |e p|e p] eqn:Ep; try (do 2 eexists; split; [reflexivity|assumption]).
  assert (Hf : 0 < flight n e (cur s)) by (apply (flight_ge n e (cur s) w p Hw); left; exact Ep).
  pose proof (i_refs _ _ _ I e) as R. assert (Ha : alive (evs s e) = true) by (apply (i_alive _ _ _ I); lia). rewrite Ha.
  assert (Hfl : flushed (evs s e) <> None) by (apply (i_set _ _ _ I); lia). destruct (flushed (evs s e)) as [f|] eqn:Ef; [|congruence].
  do 2 eexists. split; [reflexivity|]. destruct (i_wok _ _ _ I w Hw) as [K1 K2 K3 K4].
  apply (inv_wk n (cur s) _ s w _ I Hw); auto.
  - intros e'. rewrite cur_wk, fupd_eq. unfold cur. rewrite Ep. unfold fcnt. cbn. lia.
  - intros w' Hw'. rewrite cur_wk, fupd_neq by exact Hw'. reflexivity.
  - rewrite cur_wk, fupd_eq. constructor; cx; auto. unfold cur in *. rewrite Ep in K4. exact K4.
Qed.
Lemma tick_ok n t s : inv n (cur s) s -> def_step n (Tick t) s.
Proof.
  intros I. unfold def_step. cbn [step]. unfold do_tick. destruct (Z.leb_spec (time_cmp (clk s) t) 0) as [H|H]; do 2 eexists; (split; [reflexivity|]); [|assumption].
  destruct I as [I1 I2 I3 I4 I5 I6 I7 I8 I9]. constructor; auto; [|cx; tl].
  intros w Hw. destruct (I8 w Hw) as [K1 K2 K3 K4]. constructor; auto. cx. unfold cur in *. cx. destruct (ph (wks s w)) as [| |e1 [|now]|e1 [|now]]; cbn in *; auto.
  - destruct K4 as [K4|[K4|K4]]; auto. right. left. tl.
  - destruct K4 as (A1 & A2 & A3). repeat split; auto. tl.
  - destruct K4 as (A1 & A2 & A3). repeat split; auto. tl.
Qed.

Lemma rounds_other now w s s' v : rounds now w s s' -> v <> w -> wks s' v = wks s v.
Proof. intros R Hv. destruct R; cx; reflexivity. Qed.
Lemma rounds_ph now w s s' : rounds now w s s' -> ph (wks s' w) = Asleep \/ exists e p, ph (wks s' w) = Popped e p.
Proof. intros R. destruct R; cx; eauto. Qed.
Lemma rounds_rest now w s s' : rounds now w s s' -> clk s' = clk s /\ claims s' = claims s /\ cancels s' = cancels s /\ held s' = held s.
Proof. intros R. destruct R; cx; auto. Qed.
Lemma wake_step_ok n w s : inv n (cur s) s -> w < n -> def_step n (Wake w) s.
Proof.
  intros I Hw. unfold def_step. cbn [step]. unfold do_wake. destruct (ph (wks s w)) as [| |e p|e p] eqn:Ep; try (do 2 eexists; split; [reflexivity|assumption]).
  destruct (i_wok _ _ _ I w Hw) as [K1 K2 K3 K4].
  assert (M : forall m, exists s' o, immediate w (set_wk s w (mkWk (wst (wks s w)) (semw (wks s w)) m (queue (wks s w)) (qlen (wks s w)) (tree (wks s w)) Asleep)) = Some (s', o) /\ inv n (cur s') s').
  { intros m. set (s1 := set_wk _ _ _).
    assert (J : inv n (fupd (cur s) w Starting) s1).
    { apply (inv_wk n (cur s) _ s w _ I Hw); auto.
      - intros e. rewrite fupd_eq. unfold cur. rewrite Ep. reflexivity.
      - intros v Hv. rewrite fupd_neq by exact Hv. reflexivity.
      - rewrite fupd_eq. constructor; auto. exact Logic.I. }
    destruct (immediate_ok s1 w) as (s2 & E & R). { intros e He. apply (wait_alive n _ s1 e w J Hw He). }
    exists s2, []. split; [exact E|]. eapply inv_ext; [|apply (inv_round n _ s1 s2 w (clk s1) J Hw); [|exact R| |]].
    - intros v. unfold cur. destruct (Nat.eq_dec v w) as [->|Hv]; fupd_tac; [reflexivity|]. rewrite (rounds_other _ _ _ _ v R Hv). subst s1. cx. reflexivity.
    - intros e. rewrite fupd_eq. reflexivity.
    - tl.
    - apply (i_clk _ _ _ J). }
  destruct (sem (wks s w)) as [|m] eqn:Es.
  - destruct (time_cmp (semw (wks s w)) (clk s) <=? 0)%Z; [|do 2 eexists; split; [reflexivity|assumption]].
    destruct (immediate_ok s w) as (s2 & E & R). { intros e He. apply (wait_alive n _ s e w I Hw He). }
    exists s2, []. split; [exact E|]. eapply inv_ext; [|apply (inv_round n _ s s2 w (clk s) I Hw); [|exact R| |]].
    + intros v. unfold cur. destruct (Nat.eq_dec v w) as [->|Hv]; fupd_tac; [reflexivity|]. rewrite (rounds_other _ _ _ _ v R Hv). reflexivity.
    + intros e. unfold cur. rewrite Ep. reflexivity.
    + tl.
    + apply (i_clk _ _ _ I).
  - apply M.
Qed.
(** what the round after an actor starts from *)
Lemma return_ok n w s : inv n (cur s) s -> binv n s -> w < n ->
  (forall s' o, step false (Return w) s = Some (s', o) -> forall e, busy e s' -> safe n e s') -> def_step n (Return w) s.
Proof.
  intros I B Hw L. unfold def_step. cbn [step] in *. unfold do_return in *. destruct (ph (wks s w)) as [| |e p|e p] eqn:Ep; try (do 2 eexists; split; [reflexivity|assumption]).
  assert (Hf : 0 < flight n e (cur s)) by (apply (flight_ge n e (cur s) w p Hw); right; exact Ep).
  pose proof (i_refs _ _ _ I e) as Rf. assert (Ha : alive (evs s e) = true) by (apply (i_alive _ _ _ I); lia).
  destruct (put_ref_ok s e Ha ltac:(lia)) as (x & E & Hx & D). rewrite E in *. set (s1 := set_ev s e x) in *.
  assert (Al : forall h, 0 < wcnt h (wks s1 w) -> alive (evs s1 h) = true).
  { intros h Hh. subst s1. cx. destruct (wait_alive n (cur s) s h w I Hw Hh) as (A1 & A2 & A3).
    destruct (Nat.eq_dec h e) as [->|Hn]; fupd_tac; [|exact A1]. destruct D as [(-> & D)|(-> & D)]; [lia|reflexivity]. }
  destruct (i_wok _ _ _ I w Hw) as [K1 K2 K3 K4]. unfold cur in K4. rewrite Ep in K4.
  assert (Rd : exists s2 now, match p with InList => immediate w s1 | InTree now => to_events w now s1 end = Some (s2, []) /\ rounds now w s1 s2 /\
    (time_cmp now (clk s1) <= 0)%Z /\ (time_cmp (0, 0) now <= 0)%Z).
  { pose proof (i_clk _ _ _ I). destruct p as [|now].
    - destruct (immediate_ok s1 w Al) as (s2 & E2 & R2). exists s2, (clk s1). split; [exact E2|]. split; [exact R2|]. split; [tl|assumption].
    - destruct K4 as (A1 & A2 & A3). destruct (to_events_ok s1 w now Al A3) as (s2 & E2 & R2). exists s2, now. auto. }
  destruct Rd as (s2 & now & E2 & R2 & N1 & N2). exists s2, []. split; [exact E2|]. specialize (L _ _ E2).
  assert (J : inv n (fupd (cur s) w Starting) s1).
  { assert (Fd : flight n e (fupd (cur s) w Starting) + 1 = flight n e (cur s)).
    { unfold flight. pose proof (sumw_chg n (fun v => fcnt e (cur s v)) (fun v => fcnt e (fupd (cur s) w Starting v)) w Hw) as G. cbv beta in G.
      specialize (G ltac:(intros j Hj; fupd_tac; reflexivity)). rewrite fupd_eq in G. unfold cur at 2 in G. rewrite Ep in G. unfold fcnt at 2 4 in G. cbn [is_popped is_acting] in G.
      rewrite Nat.eqb_refl in G. lia. }
    pose proof (i_claim _ _ _ I e) as C.
    assert (Cl : refs (evs s e) = 1 -> claimed e (claims s) = 0).
    { intros R1. destruct (claimed e (claims s)) eqn:Ec; [reflexivity|]. assert (G : 0 < claimed e (claims s)) by lia. apply claimed_in in G.
      destruct (rounds_rest _ _ _ _ R2) as (Q1 & Q2 & Q3 & Q4). assert (Bz : busy e s2) by (left; rewrite Q2; exact G).
      destruct (L e Bz) as [H|(v & q & Hv & Hq)]; [rewrite Q4 in H; subst s1; cx; lia|].
      destruct (Nat.eq_dec v w) as [->|Hn]; [destruct (rounds_ph _ _ _ _ R2) as [H|(e1 & p1 & H)]; congruence|].
      rewrite (rounds_other _ _ _ _ v R2 Hn) in Hq. subst s1. cx.
      assert (0 < flight n e (fupd (cur s) w Starting)); [|lia]. apply (flight_ge n e _ v q Hv). right. fupd_tac. exact Hq. }
    subst s1. eapply (inv_chg n (cur s) s _ _ e w I Hw); cx; auto.
    - intros e' He'. cx. try rewrite fupd_eq. repeat split; auto. unfold cur. rewrite Ep. unfold fcnt. cbn [is_popped is_acting]. destruct (Nat.eqb_spec e' e); [congruence|reflexivity].
    - intros v Hv. split; [reflexivity|]. fupd_tac. reflexivity.
    - destruct D as [(-> & D)|(-> & D)]; cbn [dead posted]; [|lia]. rewrite (Cl D) in *. destruct (posted (evs s e)); cbn in *; lia.
    - try rewrite fupd_eq. unfold cur. rewrite Ep. unfold fcnt. cbn [is_popped is_acting]. rewrite Nat.eqb_refl. lia.
    - destruct D as [(-> & D)|(-> & D)]; cbn; [split; [discriminate|lia]|split; [lia|reflexivity]].
    - intros H. destruct D as [(-> & D)|(-> & D)]; cbn [flushed].
      + rewrite (Cl D) in H. change (waiting n e _) with (waiting n e s) in H. lia.
      + apply (i_set _ _ _ I). change (waiting n e _) with (waiting n e s) in H. lia.
    - destruct D as [(-> & D)|(-> & D)]; cbn; [congruence|apply (i_set2 _ _ _ I)].
    - intros v t Hv H. destruct D as [(-> & D)|(-> & D)]; cbn [eto]; [|apply (i_key _ _ _ I v t e Hv H)].
      destruct (wait_alive n (cur s) s e v I Hv (wcnt_tree e t _ H)) as (_ & _ & G). lia.
    - intros v H. destruct D as [(-> & D)|(-> & D)]; cbn [eto]; [|apply (i_clm _ _ _ I e v H)].
      assert (0 < claimed e (claims s)) by (apply claimed_in; eauto). rewrite (Cl D) in *. lia.
    - try rewrite fupd_eq. constructor; auto. exact Logic.I. }
  eapply inv_ext; [|apply (inv_round n _ s1 s2 w now J Hw); [|exact R2| |]]; auto.
  - intros v. unfold cur. destruct (Nat.eq_dec v w) as [->|Hv]; fupd_tac; [reflexivity|]. rewrite (rounds_other _ _ _ _ v R2 Hv). reflexivity.
  - intros e'. try rewrite fupd_eq. reflexivity.
Qed.
Theorem step_ok n l s : inv n (cur s) s -> cinv s -> binv n s -> legal n l s -> def_step n l s.
Proof.
  intros I Cv B [F L]. destruct l; cbn [fair] in F.
  - apply new_ok; auto.
  - apply get_ok; auto.
  - apply put_ok; auto.
  - apply claim_ok; tauto.
  - apply insert_ok; auto.
  - apply cancel1_ok; tauto.
  - apply cancel2_ok; auto.
  - apply flush_ok; auto.
  - apply start_ok; auto.
  - apply wake_step_ok; auto.
  - apply deliver_ok; auto.
  - apply return_ok; auto.
  - apply tick_ok; auto.
Qed.
