(** Rails: consequences of the invariant on runs. *)
From Verif Require Import S_Rail L_Rail L_RailStep L_RailStep2 L_RailStep3 L_RailStep4 L_RailStep5.
From Coq Require Import List ZArith Lia Bool ZifyBool ZifyNat. Import ListNotations.
Local Arguments Nat.eq_dec : simpl never.
Local Arguments Z.add : simpl never.
Local Arguments Z.of_nat : simpl never.

(** ** Runs *)
Lemma run_inv (P : sys -> list item -> Prop) p n :
  (forall s h l s' o, Inv p n s h -> P s h -> legal s l -> step s l = Ok s' o -> Inv p n s' (h ++ items l o) -> P s' (h ++ items l o)) ->
  forall ls s h0, Inv p n s h0 -> P s h0 -> legal_run s ls ->
  match run s ls with
  | Ran s' h => Inv p n s' (h0 ++ h) /\ P s' (h0 ++ h)
  | Crashed c h l => exists s', Inv p n s' (h0 ++ h) /\ P s' (h0 ++ h) /\ legal s' l /\ step s' l = Crash c
  end.
Proof.
  intros K. induction ls as [|l ls IH]; intros s h0 I0 P0 L; cbn [run].
  - rewrite app_nil_r. auto.
  - destruct L as (L1 & L2). destruct (step s l) as [s' o|c] eqn:E.
    + pose proof (inv_step _ _ _ _ _ _ _ I0 L1 E) as I1. specialize (IH s' _ I1 (K _ _ _ _ _ I0 P0 L1 E I1) L2).
      destruct (run s' ls) as [s'' h|c h l']; rewrite <- ?app_assoc in IH; exact IH.
    + rewrite app_nil_r. eauto.
Qed.

Lemma nil_not_joined n : 0 < n -> ~ joined n [].
Proof. intros P (a & b & E & _ & U). symmetry in E. apply app_eq_nil in E. destruct E as (-> & _). apply (U 0 P). Qed.
Lemma nil_not_settled n : 0 < n -> ~ settled n [].
Proof.
  intros P [[]|[(a & o & b & E & _)|[(i & [])|[(i & [])|H]]]]; [destruct a; discriminate|]. now apply (nil_not_joined n P).
Qed.
Lemma nil_not_last n : ~ settled_last n [].
Proof. intros (a & i & e & b & E & _). destruct a; discriminate. Qed.
Lemma nil_not_rejected : ~ rejected_last [].
Proof. intros (a & i & b & E & _). destruct a; discriminate. Qed.
Lemma sumz_0 n (f : nat -> Z) : (forall i, f i = 0%Z) -> sumz n f = 0%Z.
Proof. intros H. induction n; cbn [sumz]; [reflexivity|]. rewrite IHn, H. reflexivity. Qed.

Ltac zs := repeat match goal with |- context [sumz ?n ?f] => rewrite (sumz_0 n f) by (intros; reflexivity) end.
Lemma inv_init (p : bool) n s : 0 < n -> s = (if p then passive_sys n else active_sys n) -> Inv p n s [].
Proof.
  intros P ->. pose proof (nil_not_joined n P). pose proof (nil_not_settled n P). pose proof (nil_not_last n). pose proof nil_not_rejected.
  assert (NE : forall e, ~ some_ev e []) by (intros e (i & [])).
  assert (FS : ~ failed_start n []) by (intros (a & o & b & E & _); destruct a; discriminate).
  destruct p; (split; [|split]).
  - constructor; cbn [passive_sys rail_passive idle rl at_pc tp made found has_ref n_eps passive ep_st ep_x connected_eps connecting_eps rejected_eps conn_error_eps number closes filter length]; auto; zs; try lia; try (intros; discriminate); try (intros; contradiction).
    + split; [lia|]. split; auto.
    + split; [lia|]. split; auto.
  - constructor; cbn [passive_sys rail_passive rl st at_pc tp idle]; cbv zeta; auto; try tauto; zs; change (hC []) with 0%Z; change (hT []) with 0%Z; try (split; [lia|]; split; [lia|tauto]).
    + split; [tauto|discriminate].
    + reflexivity.
  - constructor; cbn [passive_sys rail_passive rl at_pc tp idle found has_ref refs in_tree]; zs; cbn [ind]; auto; try lia; try discriminate. tauto.
  - constructor; cbn [active_sys rail_new idle rl at_pc tp made found has_ref n_eps passive ep_st ep_x connected_eps connecting_eps rejected_eps conn_error_eps number closes filter length]; auto; zs; try lia; try (intros; discriminate); try (intros; contradiction).
    + split; [lia|]. split; auto.
    + split; [lia|]. split; auto.
  - constructor; cbn [active_sys rail_new rl st at_pc tp idle ep_st]; cbv zeta; auto; try tauto; zs; change (hC []) with 0%Z; change (hT []) with 0%Z; try (split; [lia|]; split; [lia|tauto]).
    + repeat split; auto. intros (o & []).
    + split; [tauto|discriminate].
    + reflexivity.
  - constructor; cbn [active_sys rail_new rl at_pc tp idle found has_ref refs in_tree]; zs; cbn [ind]; auto; try lia; try discriminate.
Qed.

(** ** Outputs *)
Lemma out_app s l s' o e : step s l = Ok s' o -> In (OApp e) o -> exists i rm, l = Call i /\ at_pc s i = Calling (Some e) rm /\ o = [OApp e].
Proof.
  assert (NC : forall cl, ~ In (OApp e) (map OClose cl)) by (intros cl H; apply in_map_iff in H; destruct H as (x & X & _); discriminate).
  unfold step, settle. destruct (_ =? 0)%Z; [discriminate|]. destruct l as [c| | |i f|i|i| |i m b|i b].
  - destruct (rail_connect _ _) as (r', ok). intros H J. injection H as <- <-. destruct J as [J|[]]; discriminate.
  - unfold rail_close. intros H J. injection H as <- <-. now apply NC in J.
  - destruct (_ && _); [discriminate|]. intros H J. injection H as <- <-. destruct J.
  - destruct (rail_cb _ _ _) as [[[[r' a] rm] cl]|]; [|discriminate]. intros H J. injection H as <- <-. now apply NC in J.
  - destruct (at_pc s i) as [|a rm|rm] eqn:E; intros H J; injection H as <- <-; try destruct J. destruct a as [f|]; [|destruct J]. destruct J as [J|[]]. injection J as ->. eauto.
  - destruct (at_pc s i) as [|a rm|[|]]; try (intros H J; injection H as <- <-; destruct J).
    + destruct (in_tree _); [|discriminate]. destruct (_ && _); [discriminate|]. intros H J. injection H as <- <-. destruct J.
    + destruct (_ && _); [discriminate|]. intros H J. injection H as <- <-. destruct J.
  - intros H J. injection H as <- <-. destruct J.
  - destruct (conn_make _ _ _ _) as (r', ok). intros H J. injection H as <- <-. destruct J.
  - destruct b; intros H J; injection H as <- <-; destruct J.
Qed.

(** Where an output is in the history *)
Lemma split_out h l o a x b : h ++ items l o = a ++ Saw x :: b ->
  (exists c, h = a ++ Saw x :: c /\ b = c ++ items l o) \/ (exists o1 o2, o = o1 ++ x :: o2 /\ a = h ++ items l o1 /\ b = map Saw o2).
Proof.
  revert h. induction a as [|y a IH]; intros [|z h] H; cbn [app] in H; unfold items in H; cbn [app] in H.
  - discriminate.
  - injection H as -> H. left. exists h. split; [reflexivity|]. symmetry. exact H.
  - injection H as <- H. right. clear IH. revert a H. induction o as [|w o IH]; intros a H; cbn [map] in H; [destruct a; discriminate|].
    destruct a as [|y a]; cbn [app] in H.
    + injection H as -> H. exists [], o. split; [reflexivity|]. split; [reflexivity|]. symmetry. exact H.
    + injection H as <- H. destruct (IH a H) as (o1 & o2 & E1 & E2 & E3). exists (w :: o1), o2. cbn [app map]. subst o. cbn [app] in E2. injection E2 as ->. auto.
  - injection H as <- H. destruct (IH h H) as [(c & E1 & E2)|(o1 & o2 & E1 & E2 & E3)].
    + left. exists c. subst h. auto.
    + right. exists o1, o2. subst a. auto.
Qed.

Lemma pT_one p n s h i a rm : Inv p n s h -> at_pc s i = Calling a rm -> isT a = true -> (1 <= hT h + sumz n (fun j => ind (pT (at_pc s j))))%Z.
Proof.
  intros (IE & _) E T. assert (i < n) by (apply (pc_lt p n s h i IE); congruence).
  pose proof (sumz_ge n (fun j => ind (pT (at_pc s j))) i ltac:(intros; apply ind_bound) H) as G. cbv beta in G. rewrite E in G. cbn [pT] in G. rewrite T in G. cbn [ind] in G. unfold hT. lia.
Qed.
Lemma pC_one p n s h i rm : Inv p n s h -> at_pc s i = Calling (Some XConnected) rm -> joined n h.
Proof.
  intros (IE & IR & _) E. assert (i < n) by (apply (pc_lt p n s h i IE); congruence).
  pose proof (sumz_ge n (fun j => ind (pC (at_pc s j))) i ltac:(intros; apply ind_bound) H) as G. cbv beta in G. rewrite E in G. cbn [pC isC ind] in G.
  destruct IR as [_ _ _ (A & B) _ _]. apply B. unfold hC in *. lia.
Qed.
Lemma term_in h t : In (Saw (OApp t)) h -> final t -> (1 <= hT h)%Z.
Proof.
  intros H F. unfold hT, number. assert (In (Saw (OApp t)) (filter terminal h)) by (apply filter_In; split; [exact H|destruct t; try contradiction; reflexivity]).
  destruct (filter terminal h); [contradiction|]. cbn [length]. lia.
Qed.
Lemma sum_pT_nonneg n s : (0 <= sumz n (fun j => ind (pT (at_pc s j))))%Z.
Proof. apply sumz_nonneg. intros. apply ind_bound. Qed.
Lemma hT_nonneg h : (0 <= hT h)%Z.
Proof. unfold hT. lia. Qed.

(** Once a terminal event is decided, all is done *)
Lemma over p n s h : Inv p n s h -> p = false \/ joined n h -> (1 <= hT h + sumz n (fun j => ind (pT (at_pc s j))))%Z -> allDone s.
Proof. intros (_ & IR & _) J C. destruct IR as [_ _ _ _ _ R]. cbv zeta in R. destruct (R J) as (A & B). apply B. lia. Qed.

(** ** The CONNECTED event *)
Definition Told (n : nat) (h : list item) : Prop := forall a b, h = a ++ Saw (OApp XConnected) :: b -> joined n a.
Lemma told_step p n s h l s' o : Inv p n s h -> Told n h -> step s l = Ok s' o -> Told n (h ++ items l o).
Proof.
  intros I T E a b H. apply split_out in H. destruct H as [(c & -> & ->)|(o1 & o2 & -> & -> & ->)]; [eapply T; reflexivity|].
  apply joined_mono. destruct (out_app _ _ _ _ _ E ltac:(apply in_app_iff; right; left; reflexivity)) as (i & rm & _ & A & _). eapply pC_one; eauto.
Qed.

(** ** After the terminal event *)
Definition Last (p : bool) (n : nat) (h : list item) : Prop :=
  forall a t b, h = a ++ Saw (OApp t) :: b -> final t -> p = false \/ joined n a ->
  (forall e, ~ In (Saw (OApp e)) b) /\ (forall i e, ~ ev i e b).
Lemma last_step p n s h l s' o : Inv p n s h -> Last p n h -> legal s l -> step s l = Ok s' o -> Last p n (h ++ items l o).
Proof.
  intros I T L E a t b H F J. apply split_out in H. destruct H as [(c & -> & ->)|(o1 & o2 & -> & -> & ->)].
  - destruct (T a t c eq_refl F J) as (T1 & T2). set (h := a ++ Saw (OApp t) :: c) in *.
    assert (J' : p = false \/ joined n h) by (destruct J as [J|J]; [auto|right; unfold h; apply joined_mono; exact J]).
    assert (HT : (1 <= hT h)%Z) by (apply (term_in h t); [unfold h; apply in_app_iff; right; left; reflexivity|exact F]).
    assert (AD : allDone s). { apply (over p n s h I J'). pose proof (sum_pT_nonneg n s). lia. }
    split.
    + intros e X. apply in_app_iff in X. destruct X as [X|[X|X]]; [now apply (T1 e)|discriminate|]. apply in_map_iff in X. destruct X as (x & X & Y). injection X as ->.
      destruct (out_app _ _ _ _ _ E Y) as (i & rm & _ & A & _). pose proof I as (IE & IR & _). pose proof (e_pc _ _ _ _ IE i _ _ A) as PCs. specialize (AD i).
      assert (G : isT (Some e) = true) by (destruct e; try reflexivity; destruct PCs as (PC & _); rewrite PC in AD; destruct AD; discriminate).
      destruct IR as [_ _ _ _ _ R]. cbv zeta in R. destruct (R J') as (B & _).
      assert (Hi : i < n) by (apply (pc_lt p n s h i IE); congruence). pose proof (sumz_ge n (fun j => ind (pT (at_pc s j))) i ltac:(intros; apply ind_bound) Hi) as Q. cbv beta in Q. rewrite A in Q. cbn [pT] in Q. rewrite G in Q. cbn [ind] in Q. lia.
    + intros i e X. apply in_app_iff in X. destruct X as [X|[X|X]]; [now apply (T2 i e)| |now apply did_saw in X]. injection X as ->. destruct L as (_ & _ & L). destruct (AD i) as [D|D]; rewrite D in L; destruct e; discriminate.
  - destruct (out_app _ _ _ _ t E ltac:(apply in_app_iff; right; left; reflexivity)) as (i & rm & _ & A & B).
    assert (o2 = []) by (destruct o1 as [|x [|]]; cbn [app] in B; [injection B as X; exact X|discriminate B|discriminate B]). subst o2. split; [intros e []|intros j e []].
Qed.

(** ** Which terminal event *)
Lemma lv_items h l o t : last_verdict h t -> ~ fin l -> last_verdict (h ++ items l o) t.
Proof.
  intros (g1 & i & e & g2 & -> & F & N & V) L. exists g1, i, e, (g2 ++ items l o). rewrite <- app_assoc. split; [reflexivity|]. split; [exact F|]. split; [|exact V].
  intros j f Ff X. apply ev_items in X. destruct X as [X|X]; [now apply (N j f)|]. apply L. rewrite <- X. exact Ff.
Qed.
Definition Verd (p : bool) (n : nat) (s : sys) (h : list item) : Prop :=
  p = false \/ joined n h -> forall t, final t -> In (Saw (OApp t)) h \/ (exists i rm, at_pc s i = Calling (Some t) rm) -> last_verdict h t.

Lemma joined_calm n h l o : (forall i e, l <> Event i e) -> joined n (h ++ items l o) -> joined n h.
Proof.
  intros NE H. apply joined_items in H. destruct H as [H|(C & U)]; [exact H|]. exists h, []. rewrite app_nil_r. split; [reflexivity|]. split.
  - destruct C as (C1 & C2 & C3 & C4). split; [intros X; apply C1; apply did_snoc; auto|]. split; [|split]; intros (i & X); [apply C2|apply C3|apply C4]; exists i; apply ev_snoc; auto.
  - intros i Hi. specialize (U i Hi). apply ev_snoc in U. destruct U as [U|U]; [exact U|]. symmetry in U. now apply NE in U.
Qed.
Lemma pc_back s l s' o i a rm : (forall i e, l <> Event i e) -> step s l = Ok s' o -> at_pc s' i = Calling a rm -> at_pc s i = Calling a rm.
Proof.
  intros NE. unfold step, settle. destruct (_ =? 0)%Z; [discriminate|]. destruct l as [c| | |j f|j|j| |j m b|j b].
  - destruct (rail_connect _ _) as (r', ok). intros H. injection H as <- <-. auto.
  - unfold rail_close. intros H. injection H as <- <-. auto.
  - destruct (_ && _); [discriminate|]. intros H. injection H as <- <-. auto.
  - now elim (NE j f).
  - destruct (at_pc s j) as [|a' rm'|rm'] eqn:E; intros H; injection H as <- <-; auto. unfold set_pc. cbn [at_pc]. intros X. fuh X; [discriminate|exact X].
  - destruct (at_pc s j) as [|a' rm'|[|]] eqn:E; try (intros H; injection H as <- <-; auto; fail).
    + destruct (in_tree _); [|discriminate]. destruct (_ && _); [discriminate|]. intros H. injection H as <- <-. unfold set_pc, set_rl. cbn [at_pc]. intros X. fuh X; [discriminate|exact X].
    + destruct (_ && _); [discriminate|]. intros H. injection H as <- <-. unfold set_pc, set_rl. cbn [at_pc]. intros X. fuh X; [discriminate|exact X].
  - intros H. injection H as <- <-. auto.
  - destruct (conn_make _ _ _ _) as (r', ok). intros H. injection H as <- <-. auto.
  - destruct b; intros H; injection H as <- <-; auto.
Qed.
Lemma event_step s i e s' o : step s (Event i e) = Ok s' o -> exists r' a rm cl, rail_cb (rl s) i e = Some (r', a, rm, cl) /\
  s' = set_tp (set_pc (set_rl s r') i (Calling a rm)) i (next e (tp s i)) /\ o = map OClose cl.
Proof.
  unfold step. destruct (_ =? 0)%Z; [discriminate|]. destruct (rail_cb _ _ _) as [[[[r' a] rm] cl]|] eqn:E; [|discriminate]. intros H. injection H as <- <-. eauto 9.
Qed.
Lemma up_le p n s h : Eps p n s h -> (connected_eps (rl s) <= Z.of_nat n)%Z.
Proof. intros []. rewrite e_cc. clear. induction n; cbn [sumz]; [lia|]. pose proof (ind_bound (isUp (tp s n))). lia. Qed.
Lemma some_dec e h : some_ev e h \/ ~ some_ev e h.
Proof.
  induction h as [|x h IH]; [right; intros (i & [])|]. destruct IH as [(i & X)|N]; [left; exists i; right; exact X|].
  assert (D : (exists i, x = Did (Event i e)) \/ ~ exists i, x = Did (Event i e)).
  { destruct x as [[| | |j f| | | | |]|]; try (right; intros (? & X); discriminate). destruct e, f; try (left; eexists; reflexivity); right; intros (? & X); discriminate. }
  destruct D as [(i & ->)|D]; [left; exists i; left; reflexivity|]. right. intros (i & [X|X]); [apply D; eauto|apply N; exists i; exact X].
Qed.
Lemma out_verdict p n s' h l o t : Inv p n s' (h ++ items l o) -> outcome (rl s') = Some t -> verdict (h ++ [Did l]) t.
Proof.
  intros (IE & IR & _) O. destruct IE as [_ _ _ _ _ _ _ _ _ _ (J1 & J2) (E1 & E2) _ _ _ _ _ _]. destruct IR as [_ _ R _ _ _].
  assert (RE : rejected_last (h ++ [Did l]) <-> rejected_last (h ++ items l o)) by (change [Did l] with (items l []); rewrite !rejected_items; reflexivity).
  assert (SE : forall e, some_ev e (h ++ [Did l]) <-> some_ev e (h ++ items l o)) by (intros e; change [Did l] with (items l []); rewrite !some_items; reflexivity).
  unfold verdict. rewrite RE, !SE, R. unfold outcome in O. pose proof (some_dec XError (h ++ items l o)) as D1. pose proof (some_dec XRejected (h ++ items l o)) as D2.
  destruct (st (rl s')); try discriminate.
  - destruct (zero (rl s')); [|discriminate]. injection O as <-. right.
    destruct (Z.eqb_spec (conn_error_eps (rl s')) 0) as [Z1|Z1]; cbn [negb]; [|left; split; [discriminate|]; split; [tauto|reflexivity]]. apply E2 in Z1. right.
    destruct (Z.eqb_spec (rejected_eps (rl s')) 0) as [Z2|Z2]; cbn [negb]; [apply J2 in Z2; right; auto|]. left. repeat split; [discriminate|exact Z1|tauto].
  - destruct (passive (rl s')); [discriminate|]. destruct (zero (rl s')); [|discriminate]. injection O as <-. left. auto.
Qed.
Lemma verd_step p n s h l s' o : Inv p n s h -> Verd p n s h -> legal s l -> step s l = Ok s' o -> Inv p n s' (h ++ items l o) -> Verd p n s' (h ++ items l o).
Proof.
  intros I V L E I' J t F H.
  assert (DEC : (exists i e, l = Event i e) \/ forall i e, l <> Event i e) by (destruct l; try (right; discriminate); left; eauto).
  destruct DEC as [(i & e & ->)|NE].
  - pose proof (event_step _ _ _ _ _ E) as (r' & a & rm & cl & CB & -> & ->). destruct L as (Li & Lp & Lt).
    assert (DF : final e \/ e = XConnected \/ e = XData) by (destruct e; cbn; auto).
    destruct DF as [Fe|Fe].
    + assert (J' : p = false \/ joined n h).
      { destruct J as [J|J]; [auto|]. right. apply joined_items in J. destruct J as [J|((_ & A2 & A3 & A4) & _)]; [exact J|]. exfalso. change [Did (Event i e)] with (items (Event i e) []) in *. rewrite some_items in A2, A3, A4. destruct e; try contradiction; [apply A2|apply A3|apply A4]; right; eauto. }
      assert (ND : ~ allDone s) by (intros D; destruct (D i) as [X|X]; rewrite X in Lt; destruct e; discriminate).
      assert (C0 : ~ (1 <= hT h + sumz n (fun j => ind (pT (at_pc s j))))%Z) by (intros X; apply ND; eapply over; eauto).
      destruct H as [H|(j & rm' & H)].
      * exfalso. apply C0. apply in_app_iff in H. destruct H as [H|[H|H]]; [|discriminate|].
        -- pose proof (term_in _ _ H F). pose proof (sum_pT_nonneg n s). lia.
        -- apply in_map_iff in H. destruct H as (x & X & Y). injection X as ->. apply in_map_iff in Y. destruct Y as (y & Y & _). discriminate.
      * unfold set_tp, set_pc, set_rl in H. cbn [at_pc] in H. fuh H.
        -- injection H as -> ->. exists h, i, e, (map Saw (map OClose cl)). split; [reflexivity|]. split; [exact Fe|]. split; [intros k f _; apply did_saw|].
           apply (out_verdict p n _ h _ _ t I'). destruct I as (IE & _). pose proof (up_le _ _ _ _ IE) as UL. destruct IE. apply fin_fields in CB; [|exact Fe|intros _; rewrite e_n; exact UL]. symmetry. apply CB.
        -- exfalso. apply C0. eapply pT_one; eauto. destruct t; try contradiction; reflexivity.
    + assert (ND : ~ allDone (set_tp (set_pc (set_rl s r') i (Calling a rm)) i (next e (tp s i)))).
      { intros D. specialize (D i). unfold set_tp in D. cbn [tp] in D. rewrite fupd_eq in D. destruct Fe as [-> | ->]; cbn [next] in D; [|rewrite Lt in D]; destruct D; discriminate. }
      exfalso. apply ND. eapply over; eauto. destruct H as [H|(j & rm' & H)]; [|eapply pT_one; eauto; destruct t; try contradiction; reflexivity].
      pose proof (term_in _ _ H F). match goal with |- (1 <= ?x + sumz n (fun j => ind (pT (at_pc ?q j))))%Z => pose proof (sum_pT_nonneg n q) end. lia.
  - assert (J' : p = false \/ joined n h) by (destruct J as [J|J]; [auto|right; eapply joined_calm; eauto]).
    apply lv_items; [|intros X; destruct l; try contradiction; now elim (NE i e)]. apply (V J' t F). destruct H as [H|(j & rm & H)]; [|right; exists j, rm; eapply pc_back; eauto].
    apply in_app_iff in H. destruct H as [H|[H|H]]; [auto|discriminate|]. apply in_map_iff in H. destruct H as (x & X & Y). injection X as ->. destruct (out_app _ _ _ _ _ E Y) as (i & rm & _ & A & _). eauto.
Qed.
Lemma disconnected_after p n s h t : Inv p n s h -> joined n h -> last_verdict h t -> t = XDisconnected.
Proof.
  intros (IE & _) J (g1 & i & e & g2 & E & _ & _ & V).
  assert (NO : forall f, f = XRejected \/ f = XError -> ~ some_ev f (g1 ++ [Did (Event i e)])).
  { intros f Hf (k & X). assert (Y : ev k f h). { unfold ev in *. rewrite E. apply in_app_iff. apply in_app_iff in X. destruct X as [X|[X|[]]]; [auto|right; left; exact X]. }
    assert (Hk : k < n). { destruct (Nat.lt_ge_cases k n) as [A|A]; [exact A|]. exfalso. eapply (e_none _ _ _ _ IE k f); [left; apply (e_out _ _ _ _ IE k A)|exact Y]. }
    destruct (joined_up _ _ _ _ k IE J Hk) as (U & _). destruct (e_excl _ _ _ _ IE k U). destruct Hf as [-> | ->]; contradiction. }
  destruct V as [((a & k & b & X & _) & _)|[(_ & X & _)|[(_ & _ & X & _)|(_ & _ & X)]]]; [|exfalso; apply (NO XError); [auto|exact X]|exfalso; apply (NO XRejected); [auto|exact X]|exact X].
  exfalso. apply (NO XRejected); [auto|]. exists k. unfold ev. rewrite X. apply in_app_iff. right. left. reflexivity.
Qed.

(** ** Crashes *)
Lemma refs_live p n s h l : Inv p n s h -> legal s l -> (forall i m b, l <> Make i m b) -> (forall i b, l <> Accept i b) -> (1 <= refs (rl s))%Z.
Proof.
  intros (IE & IR & IF) L NM NA. pose proof (f_ref _ _ _ _ IF) as R.
  pose proof (ind_bound (has_ref s)). pose proof (ind_bound (in_tree (rl s))).
  assert (S1 : (0 <= sumz n (fun i => ind (isTry (tp s i))))%Z) by (apply sumz_nonneg; intros; apply ind_bound).
  assert (S2 : (0 <= sumz n (fun i => ind (isUp (tp s i))))%Z) by (apply sumz_nonneg; intros; apply ind_bound).
  assert (S3 : (0 <= sumz n (fun i => ind (busy (at_pc s i))))%Z) by (apply sumz_nonneg; intros; apply ind_bound).
  assert (BU : forall i, at_pc s i <> Idle -> (1 <= sumz n (fun i => ind (busy (at_pc s i))))%Z).
  { intros i Hi. pose proof (sumz_ge n (fun i => ind (busy (at_pc s i))) i ltac:(intros; apply ind_bound) (pc_lt _ _ _ _ _ IE Hi)) as G. cbv beta in G. destruct (at_pc s i); [congruence|cbn [busy ind] in G; lia|cbn [busy ind] in G; lia]. }
  destruct l as [c| | |i e|i|i| |i m b|i b].
  - destruct L as (L & _). rewrite L in R. cbn [ind] in R. lia.
  - cbn in L. rewrite L in R. cbn [ind] in R. lia.
  - cbn in L. rewrite L in R. cbn [ind] in R. lia.
  - destruct L as (Li & _ & L). rewrite (e_n _ _ _ _ IE) in Li.
    assert (T : tp s i = TTrying \/ tp s i = TUp) by (destruct e; auto). destruct T as [T|T].
    + pose proof (sumz_ge n (fun i => ind (isTry (tp s i))) i ltac:(intros; apply ind_bound) Li) as G. cbv beta in G. rewrite T in G. cbn [isTry ind] in G. lia.
    + pose proof (sumz_ge n (fun i => ind (isUp (tp s i))) i ltac:(intros; apply ind_bound) Li) as G. cbv beta in G. rewrite T in G. cbn [isUp ind] in G. lia.
  - destruct L as (a & rm & L). specialize (BU i ltac:(congruence)). lia.
  - destruct L as (rm & L). specialize (BU i ltac:(congruence)). lia.
  - cbn in L. rewrite L in R. cbn [ind] in R. lia.
  - now elim (NM i m b).
  - now elim (NA i b).
Qed.
Lemma made_none p n s h : Inv p n s h -> p = false \/ joined n h -> forall j, made s j = false.
Proof.
  intros (IE & _) J j. destruct (made s j) eqn:M; [|reflexivity]. destruct J as [J|J].
  - destruct (e_made _ _ _ _ IE j M) as (_ & _ & X). congruence.
  - rewrite <- M. apply (joined_up _ _ _ _ j IE J). eapply made_lt; eauto.
Qed.
(** putting the last reference finds no endpoint in use *)
Lemma settle_fine s o : (refs (rl s) = 0%Z -> connecting_eps (rl s) = 0%Z /\ connected_eps (rl s) = 0%Z) -> settle s o = Ok s o.
Proof. intros H. unfold settle. destruct (Z.eqb_spec (refs (rl s)) 0) as [E|E]; [|reflexivity]. destruct (H E) as (-> & ->). reflexivity. Qed.

Lemma crash_only p n s h l c : Inv p n s h -> legal s l -> p = false \/ joined n h -> step s l = Crash c ->
  (c = Assert /\ rejected_last h /\ p = false /\ exists i, l = Event i XConnected) \/ (c = Freed /\ p = true /\ refs (rl s) = 0%Z /\ exists i m b, l = Make i m b).
Proof.
  intros I L J E. pose proof (made_none _ _ _ _ I J) as M. pose proof (refs_live _ _ _ _ l I L) as RL. pose proof I as (IE & IR & IF).
  assert (MZ : sumz n (fun i => ind (made s i)) = 0%Z) by (apply sumz_0; intros i; rewrite M; reflexivity).
  assert (MK : (exists i m b, l = Make i m b) \/ forall i m b, l <> Make i m b) by (destruct l; try (right; discriminate); left; eauto).
  destruct MK as [(i & m & b & ->)|MK].
  { right. unfold step in E. destruct (Z.eqb_spec (refs (rl s)) 0) as [Z0|Z0]; [|destruct (conn_make _ _ _ _); discriminate]. injection E as <-. split; [reflexivity|].
    split; [|split; [exact Z0|eauto]]. destruct p; [reflexivity|]. destruct (f_act _ _ _ _ IF eq_refl) as (_ & F & _). cbn in L. lia. }
  left. assert (NA : forall i b, l <> Accept i b) by (intros i b ->; cbn in L; rewrite M in L; discriminate).
  specialize (RL MK NA). unfold step in E. destruct (Z.eqb_spec (refs (rl s)) 0) as [Z0|_]; [lia|].
  pose proof (f_ref _ _ _ _ IF) as R. pose proof (e_cc _ _ _ _ IE) as CC. pose proof (e_cg _ _ _ _ IE) as CG.
  pose proof (ind_bound (has_ref s)). pose proof (ind_bound (in_tree (rl s))).
  assert (S1 : (0 <= sumz n (fun i => ind (isTry (tp s i))))%Z) by (apply sumz_nonneg; intros; apply ind_bound).
  assert (S2 : (0 <= sumz n (fun i => ind (isUp (tp s i))))%Z) by (apply sumz_nonneg; intros; apply ind_bound).
  assert (S3 : (0 <= sumz n (fun i => ind (busy (at_pc s i))))%Z) by (apply sumz_nonneg; intros; apply ind_bound).
  assert (BU : forall i, at_pc s i <> Idle -> (1 <= sumz n (fun i => ind (busy (at_pc s i))))%Z).
  { intros i Hi. pose proof (sumz_ge n (fun i => ind (busy (at_pc s i))) i ltac:(intros; apply ind_bound) (pc_lt _ _ _ _ _ IE Hi)) as G. cbv beta in G. destruct (at_pc s i); [congruence|cbn [busy ind] in G; lia|cbn [busy ind] in G; lia]. }
  destruct l as [k| | |i e|i|i| |i m b|i b].
  - destruct (rail_connect _ _). discriminate.
  - discriminate.
  - exfalso. cbn in L. rewrite settle_fine in E; [discriminate|]. cbn [rl ref_add refs connecting_eps connected_eps]. rewrite L in R. cbn [ind] in R. lia.
  - destruct (rail_cb (rl s) i e) as [[[[r' a] rm] cl]|] eqn:CB; [discriminate|]. injection E as <-. destruct L as (Li & Lp & Lt). rewrite (e_n _ _ _ _ IE) in Li.
    pose proof (e_st _ _ _ _ IE i) as ES. unfold rail_cb in CB. destruct e.
    + rewrite Lt in ES. split; [reflexivity|]. cbn [st count set_ep ref_add] in CB.
      destruct IR as [RS _ RR _ _ _]. destruct (st (rl s)) eqn:S; try contradiction.
      * destruct RS as (_ & X & _). destruct (X i). congruence.
      * destruct (ev_prep _). discriminate.
      * destruct (ev_prep _). discriminate.
      * destruct RS as (_ & X & _). specialize (X i Li). congruence.
      * destruct (ev_prep _). discriminate.
      * split; [apply RR; reflexivity|]. split; [|eauto]. destruct J as [J|J]; [exact J|]. destruct (joined_up _ _ _ _ i IE J Li) as (_ & _ & X & _). congruence.
    + exfalso. rewrite Lt in ES. cbn [ep_st ref_add] in CB. destruct ES as [ES|ES]; rewrite ES in CB; cbn [is orb] in CB; destruct (ev_prep _); discriminate.
    + exfalso. rewrite Lt in ES. cbn [ep_st ref_add] in CB. destruct ES as [ES|ES]; rewrite ES in CB; cbn [is orb] in CB; destruct (ev_prep _); discriminate.
    + exfalso. rewrite Lt in ES. cbv zeta in CB. destruct (is (st (ref_add (rl s) 1)) CONNECTED); cbn [ep_st ref_add count set_st] in CB; destruct ES as [(ES & _)|(ES & _)]; rewrite ES in CB; destruct (ev_prep _); discriminate.
    + discriminate.
  - destruct (at_pc s i); discriminate.
  - exfalso. destruct L as (rm & L). rewrite L in E. specialize (BU i ltac:(congruence)). pose proof (pc_lt _ _ _ _ i IE ltac:(congruence)) as Hi. destruct rm.
    + assert (IT : in_tree (rl s) = true).
      { destruct p; [|destruct (f_act _ _ _ _ IF eq_refl) as (_ & _ & X); specialize (X i); rewrite L in X; discriminate]. destruct J as [J|J]; [discriminate|].
        destruct (f_tree _ _ _ _ IF eq_refl J) as (X & _). pose proof (sumz_ge n (fun i => ind (pRm (at_pc s i))) i ltac:(intros; apply ind_bound) Hi) as G. cbv beta in G. rewrite L in G. cbn [pRm ind] in G. destruct (in_tree (rl s)); [reflexivity|]. cbn [negb ind] in X. lia. }
      rewrite IT in E. rewrite settle_fine in E; [discriminate|]. cbn [rl set_pc set_rl set_tree ref_add refs connecting_eps connected_eps]. rewrite IT in R. cbn [ind] in R. lia.
    + rewrite settle_fine in E; [discriminate|]. cbn [rl set_pc set_rl set_tree ref_add refs connecting_eps connected_eps]. lia.
  - discriminate.
  - now elim (MK i m b).
  - now elim (NA i b).
Qed.
Lemma crash_when p n s h i : Inv p n s h -> legal s (Event i XConnected) -> rejected_last h -> step s (Event i XConnected) = Crash Assert.
Proof.
  intros I L R. pose proof (refs_live _ _ _ _ _ I L ltac:(discriminate) ltac:(discriminate)) as RL. destruct I as (_ & IR & _). apply (r_rl _ _ _ _ IR) in R.
  unfold step. destruct (Z.eqb_spec (refs (rl s)) 0) as [Z0|_]; [lia|]. unfold rail_cb. cbn [st count set_ep ref_add]. rewrite R. reflexivity.
Qed.

(** ** Closing endpoints *)
Lemma out_close s l s' o i : step s l = Ok s' o -> In (OClose i) o -> legal s l ->
  ep_st (rl s) i = CONNECTED /\ (forall e, l <> Event i e) \/ l = Event i XConnected.
Proof.
  assert (TC : forall r, In i (to_close r) -> ep_st r i = CONNECTED) by (intros r H; apply filter_In in H; destruct H as (_ & H); apply is_true; exact H).
  unfold step, settle. destruct (_ =? 0)%Z; [discriminate|]. destruct l as [c| | |j f|j|j| |j m b|j b].
  - destruct (rail_connect _ _) as (r', ok). intros H J. injection H as <- <-. destruct J as [J|[]]; discriminate.
  - unfold rail_close. intros H J _. injection H as <- <-. apply in_map_iff in J. destruct J as (x & X & Y). injection X as ->. left. split; [auto|discriminate].
  - destruct (_ && _); [discriminate|]. intros H J. injection H as <- <-. destruct J.
  - destruct (rail_cb _ _ _) as [[[[r' a] rm] cl]|] eqn:CB; [|discriminate]. intros H J L. injection H as <- <-. apply in_map_iff in J. destruct J as (x & X & Y). injection X as ->.
    assert (G : forall q v, to_close q = cl -> ep_st q = fupd (ep_st (rl s)) j v -> v <> CONNECTED -> ep_st (rl s) i = CONNECTED /\ (forall e, Event j f <> Event i e)).
    { intros q v E1 E2 N. rewrite <- E1 in Y. apply TC in Y. rewrite E2 in Y. fuh Y; [congruence|]. split; [exact Y|]. intros e X. congruence. }
    unfold rail_cb in CB. destruct f.
    + cbn [st count set_ep ref_add] in CB. destruct (st (rl s)); try discriminate; destruct (ev_prep _); injection CB as <- <- <- <-; try destruct Y as []. right. congruence. contradiction.
    + destruct (_ || _); [|discriminate]. destruct (ev_prep _). injection CB as <- <- <- <-. left. eapply G; [reflexivity|reflexivity|discriminate].
    + destruct (_ || _); [|discriminate]. destruct (ev_prep _). injection CB as <- <- <- <-. left. eapply G; [reflexivity|reflexivity|discriminate].
    + cbv zeta in CB. left. destruct (is (st (ref_add (rl s) 1)) CONNECTED); cbn [ep_st ref_add count set_st] in CB; destruct (ep_st (rl s) j); try discriminate; destruct (ev_prep _); injection CB as <- <- <- <-; eapply G; try reflexivity; discriminate.
    + injection CB as <- <- <- <-. destruct Y.
  - destruct (at_pc s j) as [|a rm|rm] eqn:E; intros H J; injection H as <- <-; try destruct J. destruct a as [f|]; [|destruct J]. destruct J as [J|[]]. discriminate.
  - destruct (at_pc s j) as [|a rm|[|]]; try (intros H J; injection H as <- <-; destruct J).
    + destruct (in_tree _); [|discriminate]. destruct (_ && _); [discriminate|]. intros H J. injection H as <- <-. destruct J.
    + destruct (_ && _); [discriminate|]. intros H J. injection H as <- <-. destruct J.
  - intros H J. injection H as <- <-. destruct J.
  - destruct (conn_make _ _ _ _) as (r', ok). intros H J. injection H as <- <-. destruct J.
  - destruct b; intros H J; injection H as <- <-; destruct J.
Qed.
Definition ClosesUp (h : list item) : Prop := forall a i b, h = a ++ Saw (OClose i) :: b -> ev i XConnected a /\ forall e, final e -> ~ ev i e a.
Lemma closes_step p n s h l s' o : Inv p n s h -> ClosesUp h -> legal s l -> step s l = Ok s' o -> ClosesUp (h ++ items l o).
Proof.
  intros (IE & _) T L E a i b H. apply split_out in H. destruct H as [(c & -> & ->)|(o1 & o2 & -> & -> & ->)]; [eapply T; reflexivity|].
  destruct (out_close _ _ _ _ i E ltac:(apply in_app_iff; right; left; reflexivity) L) as [(C & N)|C].
  - assert (U : tp s i = TUp). { pose proof (e_st _ _ _ _ IE i) as ES. rewrite C in ES. destruct (tp s i); try contradiction; [destruct ES as [X|X]; discriminate|reflexivity|destruct ES as [X|[X|X]]; discriminate]. }
    destruct (e_up _ _ _ _ IE i U) as (A & B). split; [apply ev_items; auto|]. intros e F. rewrite ev_items. intros [X|X]; [now apply (B e)|]. now apply (N e).
  - subst l. split; [apply ev_items; auto|]. intros e F. rewrite ev_items. destruct L as (_ & _ & L). intros [X|X]; [apply (e_none _ _ _ _ IE i e); auto|]. injection X as ->. destruct F.
Qed.
Definition bad (s : sys) : Prop := st (rl s) = ERROR \/ st (rl s) = REJECTED.
Lemma connect_bad r c : st r = ERROR \/ st r = REJECTED -> rail_connect r c = (r, false).
Proof. intros H. unfold rail_connect. destruct H as [-> | ->]; reflexivity. Qed.
Definition Bad (s : sys) (h : list item) : Prop := In (Did Close) h -> bad s.
Lemma bad_step p n s h l s' o : Inv p n s h -> Bad s h -> step s l = Ok s' o -> Bad s' (h ++ items l o).
Proof.
  intros I B E H. apply did_items in H. destruct H as [H|H].
  2:{ subst l. unfold step in E. destruct (_ =? 0)%Z; [discriminate|]. unfold rail_close in E. injection E as <- <-. left. reflexivity. }
  specialize (B H). unfold bad in *. unfold step, settle in E. destruct (_ =? 0)%Z; [discriminate|]. destruct l as [c| | |j f|j|j| |j m b|j b].
  - rewrite connect_bad in E by exact B. injection E as <- <-. exact B.
  - unfold rail_close in E. injection E as <- <-. left. reflexivity.
  - destruct (_ && _); [discriminate|]. injection E as <- <-. exact B.
  - destruct (rail_cb _ _ _) as [[[[r' a] rm] cl]|] eqn:CB; [|discriminate]. injection E as <- <-. cbn [rl set_tp set_pc set_rl].
    destruct f.
    + unfold rail_cb in CB. cbn [st count set_ep ref_add] in CB. destruct B as [B|B]; rewrite B in CB; [|discriminate]. unfold ev_prep in CB. cbn [st count set_ep ref_add] in CB. rewrite B in CB. injection CB as <- <- <- <-. left. exact B.
    + apply fin_fields in CB; [|exact Logic.I|discriminate]. destruct CB as (-> & _). right. reflexivity.
    + apply fin_fields in CB; [|exact Logic.I|discriminate]. destruct CB as (-> & _). left. reflexivity.
    + apply fin_fields in CB; [|exact Logic.I|]. 2:{ intros _. destruct I as (IE & _). rewrite (e_n _ _ _ _ IE). eapply up_le. exact IE. }
      destruct CB as (-> & _). cbn [st_after]. destruct B as [-> | ->]; cbn [is]; auto.
    + unfold rail_cb in CB. injection CB as <- <- <- <-. exact B.
  - destruct (at_pc s j); injection E as <- <-; exact B.
  - destruct (at_pc s j) as [|a rm|[|]]; try (injection E as <- <-; exact B).
    + destruct (in_tree _); [|discriminate]. destruct (_ && _); [discriminate|]. injection E as <- <-. exact B.
    + destruct (_ && _); [discriminate|]. injection E as <- <-. exact B.
  - injection E as <- <-. exact B.
  - unfold conn_make in E. destruct (negb (m =? _)); [injection E as <- <-; exact B|]. destruct (negb (j <? _)); [injection E as <- <-; exact B|].
    destruct (ep_x _ _); [injection E as <- <-; exact B|]. destruct (_ =? 0)%Z; [injection E as <- <-; exact B|]. destruct b; injection E as <- <-; exact B.
  - destruct b; injection E as <- <-; exact B.
Qed.

(** ** All of it, on runs *)
Definition All (p : bool) (n : nat) (s : sys) (h : list item) : Prop := Told n h /\ Last p n h /\ Verd p n s h /\ ClosesUp h /\ Bad s h.
Lemma all_run p n ls : 0 < n -> legal_run (born p n) ls ->
  match run (born p n) ls with
  | Ran s h => Inv p n s h /\ All p n s h
  | Crashed c h l => exists s, Inv p n s h /\ All p n s h /\ legal s l /\ step s l = Crash c
  end.
Proof.
  intros P L. apply (run_inv (All p n) p n) with (h0 := []); [|apply inv_init; auto| |exact L].
  - intros s h l s' o I (A1 & A2 & A3 & A4 & A5) Ll E I'. split; [eapply told_step; eauto|]. split; [eapply last_step; eauto|]. split; [eapply verd_step; eauto|]. split; [eapply closes_step; eauto|eapply bad_step; eauto].
  - split; [intros a b X; destruct a; discriminate|]. split; [intros a t b X; destruct a; discriminate|]. split; [|split; [intros a i b X; destruct a; discriminate|intros []]].
    intros _ t _ [[]|(i & rm & X)]. destruct p; discriminate.
Qed.
Lemma run_snoc : forall ls s l s' h, run s ls = Ran s' h -> run s (ls ++ [l]) = match step s' l with Ok s'' o => Ran s'' (h ++ items l o) | Crash c => Crashed c h l end.
Proof.
  induction ls as [|x ls IH]; intros s l s' h H; cbn [run app] in *.
  - injection H as <- <-. destruct (step s l); [cbn [app]; rewrite app_nil_r|]; reflexivity.
  - destruct (step s x) as [s1 o|c]; [|discriminate]. destruct (run s1 ls) as [s2 h2|] eqn:E; [|discriminate]. injection H as <- <-. rewrite (IH _ l _ _ E).
    destruct (step s2 l); [rewrite app_assoc|]; reflexivity.
Qed.
Lemma quiet_sum n s (f : pc -> bool) : quiet s -> f Idle = false -> sumz n (fun i => ind (f (at_pc s i))) = 0%Z.
Proof. intros Q F. apply sumz_0. intros i. rewrite Q, F. reflexivity. Qed.

(** A check of [legal_run] *)
Definition legalb (s : sys) (l : label) : bool :=
  match l with
  | Connect _ => has_ref s && negb (passive (rl s))
  | Close | Put => has_ref s
  | Event i e => (i <? n_eps (rl s)) && (match at_pc s i with Idle => true | _ => false end) &&
      match e, tp s i with (XConnected | XRejected | XError), TTrying | (XDisconnected | XData), TUp => true | _, _ => false end
  | Call i => match at_pc s i with Calling _ _ => true | _ => false end
  | End i => match at_pc s i with Ending _ => true | _ => false end
  | Find => in_tree (rl s)
  | Make _ _ _ => 0 <? found s
  | Accept i _ => made s i
  end.
Fixpoint legal_runb (s : sys) (ls : list label) : bool :=
  match ls with
  | [] => true
  | l :: ls => legalb s l && match step s l with Ok s' _ => legal_runb s' ls | Crash _ => true end
  end.
Lemma legalb_ok s l : legalb s l = true -> legal s l.
Proof.
  destruct l as [c| | |i e|i|i| |i m b|i b]; cbn [legalb legal]; auto.
  - intros H. apply andb_true_iff in H. destruct H as (A & B). split; [exact A|]. now apply negb_true_iff in B.
  - intros H. apply andb_true_iff in H. destruct H as (H & C). apply andb_true_iff in H. destruct H as (A & B). apply Nat.ltb_lt in A. split; [exact A|].
    split; [destruct (at_pc s i); [reflexivity|discriminate|discriminate]|]. destruct e, (tp s i); try discriminate; reflexivity.
  - destruct (at_pc s i); try discriminate. eauto.
  - destruct (at_pc s i); try discriminate. eauto.
  - intros H. now apply Nat.ltb_lt in H.
Qed.
Lemma legal_runb_ok ls : forall s, legal_runb s ls = true -> legal_run s ls.
Proof.
  induction ls as [|l ls IH]; intros s H; cbn in *; [exact Logic.I|]. apply andb_true_iff in H. destruct H as (A & B). split; [now apply legalb_ok|].
  destruct (step s l); [auto|exact Logic.I].
Qed.
