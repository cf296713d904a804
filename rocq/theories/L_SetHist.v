(** The properties of metric sets, over histories. *)
From Verif Require Import Bytes M_Set S_Set L_SetMem L_SetLay L_SetCreate L_SetInit L_SetTop L_SetMake L_SetRep L_SetOps L_SetTx L_SetBuilt L_SetProp.
Local Open Scope N_scope.

Lemma act_put es o k e off bs : action es o = Some (RPut k e off bs) ->
  op_metric o = Some (Z.of_nat k) /\ nth_error es k = Some e /\ not_type e /\ off + blen bs <= room e.
Proof.
  intros H.
  assert (G : exists i, op_metric o = Some i /\ at_idx es i = Some (k, e) /\ not_type e /\ off + blen bs <= room e).
  { destruct o; cbn [action] in H; cbn [op_metric]; try discriminate;
    (destruct (at_idx es i) as [[kk ee]|] eqn:HI); cbv beta iota zeta in H; try discriminate;
    repeat (match type of H with
     | None = Some _ => discriminate H
     | a_put _ _ _ _ = Some _ => apply a_put_inv in H; destruct H as (H & ? & ?)
     | (if ?x then _ else _) = _ => destruct x
     | match ?x with Some _ => _ | None => _ end = _ => destruct x
     end); try discriminate; injection H as -> -> -> ->; eauto 10. }
  destruct G as (i & Ho & HI & Hn & Hb). unfold at_idx in HI.
  destruct (Z.leb_spec 0 i) as [Hi|]; [|discriminate].
  destruct (nth_error es (Z.to_nat i)) as [e'|] eqn:Hk; [|discriminate].
  assert (HI' : (Z.to_nat i, e') = (k, e)) by congruence. injection HI' as <- <-.
  rewrite Ho. split; [f_equal; lia|auto].
Qed.
Lemma at_of_nat es k e : nth_error es k = Some e -> at_idx es (Z.of_nat k) = Some (k, e).
Proof. intros H. unfold at_idx. destruct (Z.leb_spec 0 (Z.of_nat k)); [|lia]. rewrite Nat2Z.id. now rewrite H. Qed.

Section Hist.
Variables (s : schema) (inst : list byte) (own : N * N * N).
Notation es := (metrics s).
Notation n := (buffers s).
Notation H := (history s inst own).
Notation E req := (env_of inst s req).

Lemma allowed_runs l m A m' req : ok_env (E req) -> rep s inst req m A -> Forall (allowed es) l -> do_ops l m = Ret tt m' ->
  runs s l.
Proof.
  intros OK R F HD. destruct (steps s inst req l m A m' OK R F HD) as [_ F2].
  unfold runs. apply Forall_forall. intros o Ho. rewrite Forall_forall in F, F2. specialize (F o Ho). specialize (F2 o Ho).
  unfold allowed in F. destruct (action es o) as [a|] eqn:Ea; [|congruence]. exists a. split; [reflexivity|congruence].
Qed.
Lemma rep_cur req m A : rep s inst req m A -> a_cur A < n.
Proof. intros R. exact (p_cur _ _ m A R). Qed.

(** *** Generation numbers *)
Lemma gn_step l m o m' : H l m -> allowed es o -> do_op o m = Ret tt m' ->
  exists g, data_gn_get m = Ret g m /\
            data_gn_get m' = Ret (if touches_data es o then (g + 1) mod B64 else g) m'.
Proof.
  intros HH HA HD. destruct (hist_repr s inst own l m HH) as (req & A0 & A & OK & _ & _ & R & _).
  destruct (step s inst req m A o m' OK R HA HD) as (a & Ha & Hn & R' & _).
  destruct (act_touches es o a Ha Hn) as [T _].
  exists (h_gn (now A)). split; [exact (ag_gn _ _ _ _ (rep_agrees s inst req m A OK R))|].
  rewrite (ag_gn _ _ _ _ (rep_agrees s inst req m' _ OK R')), (eff_gn n a A), T. reflexivity.
Qed.
Lemma mgn_step l m o m' : H l m -> allowed es o -> do_op o m = Ret tt m' ->
  exists g, meta_gn_get m = Ret g m /\
            meta_gn_get m' = Ret (if touches_meta es o then (g + 1) mod B64 else g) m'.
Proof.
  intros HH HA HD. destruct (hist_repr s inst own l m HH) as (req & A0 & A & OK & _ & _ & R & _).
  destruct (step s inst req m A o m' OK R HA HD) as (a & Ha & Hn & R' & _).
  destruct (act_touches es o a Ha Hn) as [_ T].
  exists (a_mgn A). split; [exact (ag_mgn _ _ _ _ (rep_agrees s inst req m A OK R))|].
  rewrite (ag_mgn _ _ _ _ (rep_agrees s inst req m' _ OK R')), (eff_mgn n a A), T. reflexivity.
Qed.
(** Equal generation numbers, with fewer than 2^64 operations in between. *)
Lemma gn_equal l m l2 m' g : H l m -> Forall (allowed es) l2 -> do_ops l2 m = Ret tt m' ->
  N.of_nat (length l2) < B64 -> (exists c, is_consistent m = Ret c m /\ disciplined c l2) ->
  data_gn_get m = Ret g m -> data_gn_get m' = Ret g m' ->
  forall k e, nth_error es k = Some e -> buffered e = true -> exists bs, shows m k e bs /\ shows m' k e bs.
Proof.
  intros HH F HD HL (c & Hc & Hdi) G1 G2 k e Hk Hb.
  destruct (hist_repr s inst own l m HH) as (req & A0 & A & OK & _ & _ & R & _).
  destruct (steps s inst req l2 m A m' OK R F HD) as [R' _].
  pose proof (allowed_runs l2 m A m' req OK R F HD) as RU.
  pose proof (rep_agrees s inst req m A OK R) as AG. pose proof (rep_agrees s inst req m' _ OK R') as AG'.
  assert (E1 : h_gn (now A) = g) by (pose proof (ag_gn _ _ _ _ AG); congruence).
  assert (E2 : h_gn (now (run_acts s l2 A)) = g) by (pose proof (ag_gn _ _ _ _ AG'); congruence).
  assert (LT : h_gn (now A) < B64).
  { exact (proj1 (rp_small _ _ _ _ R) (a_cur A) FGn (rep_cur req m A R) ltac:(discriminate)). }
  pose proof (run_gn s l2 A RU LT) as RG. pose proof (n_data_len s l2) as NL.
  assert (Z : n_data s l2 = 0).
  { rewrite E2, E1 in RG. rewrite E1 in LT. destruct (N.lt_ge_cases (g + n_data s l2) B64) as [h|h].
    - rewrite N.mod_small in RG by exact h. lia.
    - assert (D : (g + n_data s l2) mod B64 = (g + n_data s l2 - B64) mod B64).
      { rewrite <- (N.mod_add (g + n_data s l2 - B64) 1 B64) by discriminate. f_equal. lia. }
      rewrite D in RG.
      rewrite N.mod_small in RG; lia. }
  assert (Hf : c = true -> h_flags (now A) = 2).
  { intros ->. pose proof (ag_cons _ _ _ _ AG). assert (Q : (h_flags (now A) =? 2) = true) by congruence. now apply N.eqb_eq in Q. }
  destruct (buffered_inv e Hb) as (Hn & _).
  exists (view es n A k e). split; [exact (rep_shows s inst req m A k e OK R Hk Hn)|].
  rewrite <- (quiet_view s l2 c A k e RU Z Hdi Hf (rep_cur req m A R) Hb).
  exact (rep_shows s inst req m' _ k e OK R' Hk Hn).
Qed.

(** *** Transactions *)
Lemma begin_keeps l m x y m' : H l m -> is_consistent m = Ret true m -> do_op (OBegin x y) m = Ret tt m' ->
  is_consistent m' = Ret false m' /\
  forall k e, nth_error es k = Some e -> buffered e = true -> exists bs, shows m k e bs /\ shows m' k e bs.
Proof.
  intros HH HC HD. destruct (hist_repr s inst own l m HH) as (req & A0 & A & OK & _ & _ & R & _).
  destruct (step s inst req m A (OBegin x y) m' OK R ltac:(discriminate) HD) as (a & Ha & Hn & R' & _).
  cbn [action] in Ha. injection Ha as <-.
  assert (Hf : h_flags (now A) = 2).
  { pose proof (ag_cons _ _ _ _ (rep_agrees s inst req m A OK R)). assert (Q : (h_flags (now A) =? 2) = true) by congruence.
    now apply N.eqb_eq in Q. }
  split.
  - rewrite (ag_cons _ _ _ _ (rep_agrees s inst req m' _ OK R')), (eff_cons n (RBegin (x, y)) A). reflexivity.
  - intros k e Hk Hb. destruct (buffered_inv e Hb) as (Hnt & _). exists (view es n A k e).
    split; [exact (rep_shows s inst req m A k e OK R Hk Hnt)|].
    rewrite <- (begin_view s A (x, y) k e Hb Hf (rep_cur req m A R)).
    exact (rep_shows s inst req m' _ k e OK R' Hk Hnt).
Qed.
Lemma isolated l m x y lw m' : H l m -> 2 <= n -> is_consistent m = Ret true m ->
  Forall (allowed es) lw -> Forall no_tx lw -> do_ops (OBegin x y :: lw) m = Ret tt m' ->
  is_consistent m' = Ret false m' /\
  (forall k e, nth_error es k = Some e -> buffered e = true -> exists bs, shows m k e bs /\ shows m' k e bs) /\
  forall z w m'', do_op (OEnd z w) m' = Ret tt m'' ->
    is_consistent m'' = Ret true m'' /\
    exists base, (copy m = true -> forall k e, nth_error es k = Some e -> buffered e = true -> shows m k e (base k)) /\
      forall k e, nth_error es k = Some e -> buffered e = true -> shows m'' k e (written es lw base k).
Proof.
  intros HH H2 HC F NT HD. destruct (hist_repr s inst own l m HH) as (req & A0 & A & OK & _ & _ & R & _).
  pose proof (rep_cur req m A R) as HC1.
  assert (F' : Forall (allowed es) (OBegin x y :: lw)) by (constructor; [discriminate|exact F]).
  destruct (steps s inst req _ m A m' OK R F' HD) as [R' _].
  pose proof (allowed_runs _ m A m' req OK R F' HD) as RU. apply Forall_cons_iff in RU. destruct RU as [_ RU].
  change (run_acts s (OBegin x y :: lw) A) with (run_acts s lw (effect n (RBegin (x, y)) A)) in R'.
  set (B := effect n (RBegin (x, y)) A) in *.
  assert (Hf : h_flags (now A) = 2).
  { pose proof (ag_cons _ _ _ _ (rep_agrees s inst req m A OK R)). assert (Q : (h_flags (now A) =? 2) = true) by congruence.
    now apply N.eqb_eq in Q. }
  assert (HfB : h_flags (now B) = 1) by (unfold B; now rewrite (eff_cons n (RBegin (x, y)) A)).
  assert (CB : a_cur B = (a_cur A + 1) mod n) by reflexivity.
  destruct (inner s lw B RU NT) as (I1 & I2 & I3 & I4).
  pose proof (next_buf _ _ HC1 H2) as NX.
  split.
  { rewrite (ag_cons _ _ _ _ (rep_agrees s inst req m' _ OK R')), I2, HfB. reflexivity. }
  split.
  - intros k e Hk Hb. destruct (buffered_inv e Hb) as (Hnt & _). exists (view es n A k e).
    split; [exact (rep_shows s inst req m A k e OK R Hk Hnt)|].
    assert (V : view es n (run_acts s lw B) k e = view es n A k e).
    { rewrite !view_buffered by exact Hb. rewrite I2, HfB, Hf, I1, CB. cbn [N.eqb Pos.eqb].
      rewrite (prev_buf _ _ HC1). rewrite I3 by (rewrite CB; congruence). unfold B. cbn [effect a_val].
      destruct (a_copy A); [|reflexivity]. rewrite fN_other by congruence. reflexivity. }
    rewrite <- V. exact (rep_shows s inst req m' _ k e OK R' Hk Hnt).
  - intros z w m'' HE.
    destruct (step s inst req m' _ (OEnd z w) m'' OK R' ltac:(discriminate) HE) as (a & Ha & _ & R'' & _).
    cbn [action] in Ha. injection Ha as <-. set (C := run_acts s lw B) in *.
    split; [now rewrite (ag_cons _ _ _ _ (rep_agrees s inst req m'' _ OK R'')), (eff_cons n (REnd (z, w)) C)|].
    exists (a_val B (a_cur B)). split.
    + intros CP k e Hk Hb. destruct (buffered_inv e Hb) as (Hnt & _).
      assert (CA : a_copy A = true) by (rewrite <- (rp_copy _ _ _ _ R); exact CP).
      assert (V : a_val B (a_cur B) k = view es n A k e).
      { rewrite view_buffered by exact Hb. rewrite Hf. cbn [N.eqb Pos.eqb]. rewrite CB. unfold B. cbn [effect a_val].
        rewrite CA, fN_same. reflexivity. }
      rewrite V. exact (rep_shows s inst req m A k e OK R Hk Hnt).
    + intros k e Hk Hb. destruct (buffered_inv e Hb) as (Hnt & _).
      assert (V : view es n (effect n (REnd (z, w)) C) k e = written es lw (a_val B (a_cur B)) k).
      { rewrite view_buffered by exact Hb. rewrite (eff_cons n (REnd (z, w)) C). cbn [N.eqb Pos.eqb].
        rewrite eff_cur by discriminate. rewrite eff_val_cur by discriminate. cbn [wr]. rewrite I1.
        now apply I4. }
      rewrite <- V. exact (rep_shows s inst req m'' _ k e OK R'' Hk Hnt).
Qed.

(** *** Writes *)
Lemma write_exact l m o k e off bs m' : H l m -> action es o = Some (RPut k e off bs) -> do_op o m = Ret tt m' ->
  exists a vd, placed m (Z.of_nat k) a vd /\ placed m' (Z.of_nat k) a vd /\
    get m' (a + off) (length bs) = bs /\
    (forall x, a + off <= x < a + off + blen bs \/ gn_byte m e x \/ mb m' x = mb m x) /\
    (msz m', darr m', dat m', cur m', copy m') = (msz m, darr m, dat m, cur m, copy m).
Proof.
  intros HH Ha HD. destruct (hist_repr s inst own l m HH) as (req & A0 & A & OK & _ & _ & R & _).
  destruct (act_put es o k e off bs Ha) as (_ & Hk & Hn & Hb).
  destruct (step s inst req m A o m' OK R ltac:(unfold allowed; congruence) HD) as (a & Ha' & _ & R' & R2).
  assert (a = RPut k e off bs) by congruence. subst a. specialize (R2 ltac:(discriminate)).
  cbn [effect] in R', R2.
  destruct (write_bytes (E req) (mb m) m A m' k e off bs OK R R2 Hk Hn Hb) as [W1 W2].
  assert (CC : a_cur (put e k off bs A) = a_cur A).
  { exact (eff_cur n (RPut k e off bs) A ltac:(discriminate)). }
  exists (addr (E req) (vloc A k e)), (v_doff (E req) (pos (E req) k)).
  assert (VL : vloc (put e k off bs A) k e = vloc A k e) by (unfold vloc; now rewrite CC).
  split; [|split; [|split; [exact W1|split; [exact W2|]]]].
  - unfold placed. apply reads_ret. exact (mval_set_at (E req) OK (mb m) m A R k e Hk _ (at_of_nat _ k e Hk)).
  - unfold placed. apply reads_ret. rewrite <- VL.
    exact (mval_set_at (E req) OK (mb m') m' _ R' k e Hk _ (at_of_nat _ k e Hk)).
  - destruct (rp_static _ _ _ _ R) as (_ & _ & S1 & S2 & S3 & S4).
    destruct (rp_static _ _ _ _ R') as (_ & _ & S1' & S2' & S3' & S4').
    pose proof (rp_cur _ _ _ _ R) as C1. pose proof (rp_cur _ _ _ _ R') as C2.
    pose proof (rp_copy _ _ _ _ R) as C3. pose proof (rp_copy _ _ _ _ R') as C4. rewrite CC in C2.
    assert (CP : a_copy (put e k off bs A) = a_copy A).
    { unfold put, bump. destruct (in_data e); reflexivity. }
    rewrite S1, S2, S3, S1', S2', S3', C1, C2, C3, C4, CP. reflexivity.
Qed.
End Hist.
