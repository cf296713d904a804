(** Refinement, array elements and transaction times. *)
From Verif Require Import Bytes M_Set S_Set L_SetMem L_SetLay L_SetCreate L_SetInit L_SetTop L_SetMake L_SetRep L_SetOps L_SetTx L_SetBuilt L_SetProp L_SetHist.
Local Open Scope N_scope.

(** ** Slices *)
Lemma slice_splice_out {T} (off : nat) (bs l : list T) (o n : nat) : (off + length bs <= length l)%nat ->
  (o + n <= off \/ off + length bs <= o)%nat -> slice o n (splice off bs l) = slice o n l.
Proof.
  intros HL HD. unfold splice. assert (LF : length (firstn off l) = off) by (rewrite firstn_length; lia). destruct HD as [HD|HD].
  - rewrite <- (firstn_skipn off l) at 3. rewrite !slice_app_l by lia. reflexivity.
  - rewrite slice_app_r by lia. rewrite slice_app_r by lia. rewrite LF.
    rewrite <- (firstn_skipn (off + length bs) l) at 2.
    rewrite (slice_app_r o n (firstn (off + length bs) l)) by (rewrite firstn_length; lia).
    f_equal. rewrite firstn_length. lia.
Qed.
Lemma slice_splice_in {T} (off : nat) (bs l : list T) (o n : nat) : (off + length bs <= length l)%nat ->
  (off <= o)%nat -> (o + n <= off + length bs)%nat -> slice o n (splice off bs l) = slice (o - off) n bs.
Proof.
  intros HL H1 H2. unfold splice. assert (LF : length (firstn off l) = off) by (rewrite firstn_length; lia).
  rewrite slice_app_r by lia. rewrite LF. now rewrite slice_app_l by lia.
Qed.
Lemma slice_els w els : forall i, (i < length els)%nat -> slice (w * i) w (concat (map (le w) els)) = le w (nth i els 0).
Proof.
  induction els as [|v r IH]; intros i Hi; [cbn in Hi; lia|]. cbn [map concat]. destruct i as [|i].
  - rewrite Nat.mul_0_r. rewrite slice_app_l by (rewrite le_length; lia). apply slice_all, le_length.
  - rewrite slice_app_r by (rewrite le_length; lia). rewrite le_length. replace (w * S i - w)%nat with (w * i)%nat by lia.
    rewrite IH by (cbn in Hi; lia). reflexivity.
Qed.
Lemma els_length w els : length (concat (map (le w) els)) = (w * length els)%nat.
Proof.
  induction els as [|v r IH]; [cbn; lia|]. cbn [map concat]. rewrite app_length, IH, le_length. cbn [length]. lia.
Qed.
Lemma nth_slice {T} (l : list T) o n i d : (i < n)%nat -> nth i (slice o n l) d = nth (o + i) l d.
Proof.
  intros H. unfold slice. revert o l. induction n as [|n IH] in i, H |- *; intros o l; [lia|].
  destruct (le_lt_dec (length l) o) as [h|h].
  - rewrite skipn_all2 by exact h. rewrite nth_overflow by (cbn; lia). rewrite nth_overflow by lia. reflexivity.
  - destruct (nth_error l o) as [x|] eqn:E; [|apply nth_error_None in E; lia].
    assert (SK : skipn o l = x :: skipn (S o) l).
    { clear -E. revert o E. induction l as [|y l IH]; intros o E; [destruct o; discriminate|].
      destruct o as [|o]; cbn in *; [congruence|]. now apply IH. }
    rewrite SK. destruct i as [|i]; cbn [firstn nth].
    + rewrite Nat.add_0_r. symmetry. now apply nth_error_nth.
    + rewrite IH by lia. f_equal. lia.
Qed.

Section More.
Variables (s : schema) (inst : list byte) (own : N * N * N).
Notation es := (metrics s).
Notation n := (buffers s).
Notation H := (history s inst own).
Notation E req := (env_of inst s req).

(** ** Refinement *)
Lemma refines m0 : created s inst own m0 ->
  exists A0, starts es n own A0 /\ forall l,
    match spec_run es n l A0 with
    | None => True
    | Some None => do_ops l m0 = Abort
    | Some (Some A) => exists m, do_ops l m0 = Ret tt m /\ agrees es n m A
    end.
Proof.
  intros C. destruct (created_repr s inst own m0 C) as (req & h & CA & OK & R & S0 & _).
  exists (start_of (E req) own m0). split; [exact S0|]. intros l.
  pose proof (run_ok (E req) OK l m0 _ R) as RO. change (v_es (E req)) with es in RO. change (v_ac (E req)) with n in RO.
  destruct (spec_run es n l (start_of (E req) own m0)) as [[A|]|]; [|exact RO|exact I].
  destruct RO as (m & HD & R'). exists m. split; [exact HD|]. exact (rep_agrees s inst req m A OK R').
Qed.
Lemma rejects l m o : H l m -> action es o = Some RAbort -> do_op o m = Abort.
Proof.
  intros HH HA. destruct (hist_repr s inst own l m HH) as (req & A0 & A & OK & _ & _ & R & _).
  exact (op_ok (E req) OK (mb m) m A o RAbort R HA).
Qed.
Lemma accepts l m o a : H l m -> action es o = Some a -> a <> RAbort -> exists m', do_op o m = Ret tt m' /\ H (l ++ [o]) m'.
Proof.
  intros HH HA Hn. destruct (hist_repr s inst own l m HH) as (req & A0 & A & OK & _ & _ & R & _).
  pose proof (op_ok (E req) OK (mb m) m A o a R HA) as C. unfold carries in C.
  assert (X : exists m', do_op o m = Ret tt m') by (destruct a; [congruence|..]; destruct C as (m1 & E1 & _); eauto).
  destruct X as (m' & HD). exists m'. split; [exact HD|]. apply (hist_app s inst own l [o] m m' HH).
  - constructor; [|constructor]. unfold allowed. congruence.
  - cbn [do_ops]. unfold bind. rewrite HD. reflexivity.
Qed.

(** ** Values *)
Lemma put_view A k e off bs k' e' : n = 1 \/ h_flags (now A) = 2 \/ in_data e = false -> a_cur A < n ->
  nth_error es k = Some e -> nth_error es k' = Some e' ->
  view es n (put e k off bs A) k' e' =
    if Nat.eqb k' k then splice (N.to_nat off) bs (view es n A k' e') else view es n A k' e'.
Proof.
  intros HS HC Hk Hk'.
  pose proof (eff_cur n (RPut k e off bs) A ltac:(discriminate)) as C1.
  pose proof (eff_cons n (RPut k e off bs) A) as F1. cbn [effect] in C1, F1. cbv beta iota in F1. unfold now in F1, HS.
  assert (B : n = 1 -> forall c, (c + (n - 1)) mod n = 0) by (intros -> c; apply N.mod_1_r).
  destruct (Nat.eqb_spec k' k) as [->|Hne].
  - assert (e' = e) by congruence. subst e'. unfold view. rewrite F1, C1.
    destruct (in_data e) eqn:Hd.
    + pose proof (eff_val_cur n (RPut k e off bs) A k ltac:(discriminate)) as V. cbn [effect wr] in V. rewrite Hd in V.
      unfold fn in V. rewrite Nat.eqb_refl in V.
      destruct ((h_flags (a_hd A (a_cur A)) =? 2) || (md_type (base e) =? 23) || (md_type (base e) =? 27)) eqn:Q; [exact V|].
      destruct HS as [H1|[H2|H3]]; [|rewrite H2 in Q; discriminate|congruence].
      rewrite (B H1). assert (C0 : a_cur A = 0) by lia. rewrite C0 in V. exact V.
    + unfold put, bump. rewrite Hd. cbn [bump_meta a_mval with_hd]. unfold fn. now rewrite Nat.eqb_refl.
  - unfold view. rewrite F1, C1.
    assert (VV : forall b, a_val (put e k off bs A) b k' = a_val A b k').
    { intros b. destruct (N.eq_dec b (a_cur A)) as [->|Hb].
      - pose proof (eff_val_cur n (RPut k e off bs) A k' ltac:(discriminate)) as V. cbn [effect wr] in V. rewrite V.
        destruct (in_data e); [|reflexivity]. unfold fn. destruct (Nat.eqb_spec k' k); [contradiction|reflexivity].
      - pose proof (eff_val n (RPut k e off bs) A b ltac:(discriminate) Hb) as V. cbn [effect] in V. now rewrite V. }
    rewrite !VV. destruct (in_data e') ; [reflexivity|]. unfold put, bump.
    destruct (in_data e); cbn [bump_data bump_meta a_mval with_hd]; [reflexivity|]. unfold fn.
    destruct (Nat.eqb_spec k' k); [contradiction|reflexivity].
Qed.
Lemma write_shows l m o k e off bs m' : H l m -> settled s m -> action es o = Some (RPut k e off bs) -> do_op o m = Ret tt m' ->
  (exists V, shows m k e V /\ shows m' k e (splice (N.to_nat off) bs V)) /\
  forall k' e', k' <> k -> nth_error es k' = Some e' -> (forall r, e' <> RecT r) -> exists V, shows m k' e' V /\ shows m' k' e' V.
Proof.
  intros HH HS HA HD. destruct (hist_repr s inst own l m HH) as (req & A0 & A & OK & _ & _ & R & _).
  destruct (act_put es o k e off bs HA) as (_ & Hk & Hn & Hb).
  destruct (step s inst req m A o m' OK R ltac:(unfold allowed; congruence) HD) as (a & Ha' & _ & R' & _).
  assert (a = RPut k e off bs) by congruence. subst a. cbn [effect] in R'.
  assert (SE : n = 1 \/ h_flags (now A) = 2 \/ in_data e = false).
  { destruct HS as [HS|HS]; [auto|]. right. left. pose proof (ag_cons _ _ _ _ (rep_agrees s inst req m A OK R)) as Q.
    assert (Q' : (h_flags (now A) =? 2) = true) by congruence. now apply N.eqb_eq in Q'. }
  pose proof (rep_cur s inst req m A R) as HC. split.
  - exists (view es n A k e). split; [exact (rep_shows s inst req m A k e OK R Hk Hn)|].
    pose proof (put_view A k e off bs k e SE HC Hk Hk) as PV. rewrite Nat.eqb_refl in PV. rewrite <- PV.
    exact (rep_shows s inst req m' _ k e OK R' Hk Hn).
  - intros k' e' Hne Hk' Hn'. exists (view es n A k' e'). split; [exact (rep_shows s inst req m A k' e' OK R Hk' Hn')|].
    pose proof (put_view A k e off bs k' e' SE HC Hk Hk') as PV. destruct (Nat.eqb_spec k' k); [contradiction|]. rewrite <- PV.
    exact (rep_shows s inst req m' _ k' e' OK R' Hk' Hn').
Qed.
Lemma elem_width t w : elem t = Some w -> is_width w = true.
Proof.
  unfold elem. intros Ht. destruct (N.to_nat t) as [|x] eqn:Et; [discriminate|].
  do 23 (destruct x as [|x]; [cbn in Ht; first [discriminate|injection Ht as <-; reflexivity]|]). destruct x; discriminate.
Qed.
Lemma arr_room req k e w : ok_env (E req) -> nth_error es k = Some e -> not_type e -> array_type (md_type (base e)) = true ->
  elem (md_type (base e)) = Some w -> w * md_count (base e) <= room e.
Proof.
  intros OK Hk Hn HA HE. destruct (split_at (E req) k e Hk) as [SP _]. pose proof (e_wf (E req) OK _ _ _ SP) as (_ & W).
  destruct e as [d|r|d rt isz]; cbn [base] in *.
  - pose proof (round8_le (need_bytes (Plain d))) as RL. unfold need_bytes in RL at 1. rewrite HE, HA in RL. exact RL.
  - destruct (Hn _ eq_refl).
  - destruct W as (W & _). rewrite W in HA. discriminate.
Qed.
Lemma array_write l m i src start count m' k e w : H l m -> settled s m ->
  at_idx es i = Some (k, e) -> array_type (md_type (base e)) = true -> elem (md_type (base e)) = Some w ->
  allowed es (OArr i src start count) -> start + count <= md_count (base e) ->
  do_op (OArr i src start count) m = Ret tt m' ->
  forall j, j < md_count (base e) -> exists v, metric_array_get_w w i (Z.of_N j) m = Ret v m /\
    metric_array_get_w w i (Z.of_N j) m' =
      Ret (if (start <=? j) && (j <? start + count) then word w (nth (N.to_nat j) src 0) else v) m'.
Proof.
  intros HH HS HI HT HE HA HC HD j Hj. unfold allowed in HA. cbn [action] in HA. rewrite HI, HT, HE in HA. cbv zeta in HA.
  rewrite N.min_l in HA by exact HC.
  destruct ((start <? 2147483648) && (start + count <? B64) && (md_count (base e) <? 2147483648) &&
            (N.to_nat (start + count) <=? length src)%nat) eqn:HB; [|congruence].
  set (els := slice (N.to_nat start) (N.to_nat (start + count - start)) src) in *.
  set (off := if start + count <=? start then 0 else w * start) in *.
  set (bs := concat (map (le (N.to_nat w)) els)) in *.
  destruct (a_put k e off bs) as [a|] eqn:HP; [|congruence].
  assert (ACT : action es (OArr i src start count) = Some a).
  { cbn [action]. rewrite HI, HT, HE. cbv zeta. rewrite N.min_l by exact HC. rewrite HB. exact HP. }
  destruct (a_put_inv _ _ _ _ _ HP) as (-> & Hn & Hr).
  assert (NI : nth_error es k = Some e /\ (0 <= i)%Z /\ k = Z.to_nat i).
  { unfold at_idx in HI. destruct (Z.leb_spec 0 i); [|discriminate].
    destruct (nth_error es (Z.to_nat i)) as [e'|] eqn:H1; [|discriminate]. injection HI as <- <-. auto. }
  destruct NI as (Hk & Hi & Ek). assert (Zi : Z.of_nat k = i) by lia.
  destruct (write_shows l m _ k e off bs m' HH HS ACT HD) as [(V & S1 & S2) _].
  destruct (hist_repr s inst own l m HH) as (req & _ & _ & OK & _).
  pose proof (arr_room req k e w OK Hk Hn HT HE) as AR. pose proof (elem_width _ _ HE) as WW.
  apply andb_true_iff in HB. destruct HB as [HB B4]. apply andb_true_iff in HB. destruct HB as [HB B3].
  apply andb_true_iff in HB. destruct HB as [B1 B2]. apply Nat.leb_le in B4. apply N.ltb_lt in B1, B2, B3.
  assert (WJ : w * (j + 1) <= room e) by (assert (w * (j + 1) <= w * md_count (base e)) by (apply N.mul_le_mono_l; lia); lia).
  pose proof (sh_elem _ _ _ _ S1 w (Z.of_N j) WW ltac:(lia) ltac:(lia)) as G1.
  pose proof (sh_elem _ _ _ _ S2 w (Z.of_N j) WW ltac:(lia) ltac:(lia)) as G2. rewrite Zi, N2Z.id in G1, G2.
  specialize (G1 WJ). specialize (G2 WJ).
  eexists. split; [exact G1|]. rewrite G2. f_equal.
  assert (LE : length els = N.to_nat count).
  { unfold els, slice. rewrite firstn_length, skipn_length. lia. }
  assert (LB : length bs = (N.to_nat w * N.to_nat count)%nat) by (unfold bs; rewrite els_length, LE; reflexivity).
  pose proof (sh_len _ _ _ _ S1) as LV. unfold blen in LV, Hr.
  destruct (N.leb_spec start j) as [J1|J1]; destruct (N.ltb_spec j (start + count)) as [J2|J2]; cbn [andb].
  - assert (OF : off = w * start) by (unfold off; destruct (N.leb_spec (start + count) start); [lia|reflexivity]).
    rewrite OF in *. assert (WS : w * start <= w * j) by (apply N.mul_le_mono_l; lia).
    assert (WE : w * (j + 1) <= w * (start + count)) by (apply N.mul_le_mono_l; lia).
    rewrite slice_splice_in by lia.
    replace (N.to_nat (w * j) - N.to_nat (w * start))%nat with (N.to_nat w * N.to_nat (j - start))%nat.
    2: { rewrite <- !N2Nat.inj_mul, <- N2Nat.inj_sub. f_equal. rewrite N.mul_sub_distr_l. reflexivity. }
    unfold bs. rewrite slice_els by lia. rewrite of_le_le, N2Nat.id. unfold word. f_equal.
    unfold els. rewrite nth_slice by lia. f_equal. lia.
  - destruct (N.eq_dec count 0) as [C0|C0].
    + assert (B0 : length bs = 0%nat) by (rewrite LB, C0; cbn; lia). rewrite slice_splice_out; [reflexivity|lia|].
      assert (OF : off = 0) by (unfold off; destruct (N.leb_spec (start + count) start); [reflexivity|lia]). rewrite OF. lia.
    + assert (OF : off = w * start) by (unfold off; destruct (N.leb_spec (start + count) start); [lia|reflexivity]).
      rewrite OF in *. assert (WE : w * (start + count) <= w * j) by (apply N.mul_le_mono_l; lia).
      rewrite slice_splice_out; [reflexivity|lia|lia].
  - assert (WE : w * (j + 1) <= w * start) by (apply N.mul_le_mono_l; lia).
    destruct (N.eq_dec count 0) as [C0|C0].
    + assert (B0 : length bs = 0%nat) by (rewrite LB, C0; cbn; lia). rewrite slice_splice_out; [reflexivity|lia|].
      assert (OF : off = 0) by (unfold off; destruct (N.leb_spec (start + count) start); [reflexivity|lia]). rewrite OF. lia.
    + assert (OF : off = w * start) by (unfold off; destruct (N.leb_spec (start + count) start); [lia|reflexivity]).
      rewrite OF in *. rewrite slice_splice_out; [reflexivity|lia|lia].
  - exfalso. lia.
Qed.

(** ** Times *)
Lemma tv_exact t1 t0 : normal t1 -> normal t0 -> usec_of t0 <= usec_of t1 ->
  snd (tv_diff t1 t0) < 1000000 /\ usec_of (tv_diff t1 t0) = usec_of t1 - usec_of t0.
Proof.
  destruct t1 as [s1 u1], t0 as [s0 u0]. unfold normal, usec_of, tv_diff. cbn [fst snd]. unfold B32. intros (A1 & A2) (A3 & A4) LE.
  unfold w32. destruct (N.le_gt_cases u0 u1) as [h|h].
  - rewrite (Z.mod_small (Z.of_N u1 - Z.of_N u0)) by lia. rewrite (Z.mod_small (Z.of_N s1 - Z.of_N s0)) by lia.
    destruct (N.ltb_spec (Z.to_N (Z.of_N u1 - Z.of_N u0)) 2147483648); cbn [fst snd]; [|lia]. lia.
  - assert (M : ((Z.of_N u1 - Z.of_N u0) mod 4294967296 = Z.of_N u1 - Z.of_N u0 + 4294967296)%Z).
    { rewrite <- (Z.mod_add _ 1) by lia. rewrite Z.mod_small; lia. }
    rewrite M. rewrite (Z.mod_small (Z.of_N s1 - Z.of_N s0)) by lia.
    destruct (N.ltb_spec (Z.to_N (Z.of_N u1 - Z.of_N u0 + 4294967296)) 2147483648); [lia|]. cbn [fst snd].
    assert (M2 : ((Z.of_N (Z.to_N (Z.of_N u1 - Z.of_N u0 + 4294967296)) + 1000000) mod 4294967296 = Z.of_N u1 - Z.of_N u0 + 1000000)%Z).
    { rewrite Z2N.id by lia. replace (Z.of_N u1 - Z.of_N u0 + 4294967296 + 1000000)%Z with (Z.of_N u1 - Z.of_N u0 + 1000000 + 1 * 4294967296)%Z by lia.
      rewrite Z.mod_add by lia. apply Z.mod_small. lia. }
    rewrite M2. rewrite (Z.mod_small (Z.of_N (Z.to_N (Z.of_N s1 - Z.of_N s0)) - 1)) by lia. lia.
Qed.
Lemma duration l m sec usec m' t0 : H l m -> timestamp_get m = Ret t0 m -> do_op (OEnd sec usec) m = Ret tt m' ->
  normal t0 -> normal (sec, usec) -> usec_of t0 <= usec_of (sec, usec) ->
  timestamp_get m' = Ret (sec, usec) m' /\
  exists d, duration_get m' = Ret d m' /\ snd d < 1000000 /\ usec_of d = usec_of (sec, usec) - usec_of t0.
Proof.
  intros HH HT HD N0 N1 LE. destruct (hist_repr s inst own l m HH) as (req & A0 & A & OK & _ & _ & R & _).
  destruct (step s inst req m A (OEnd sec usec) m' OK R ltac:(discriminate) HD) as (a & Ha & _ & R' & _).
  cbn [action] in Ha. injection Ha as <-. pose proof (rep_agrees s inst req m A OK R) as AG.
  pose proof (rep_agrees s inst req m' _ OK R') as AG'.
  assert (T0 : h_ts (now A) = t0) by (pose proof (ag_ts _ _ _ _ AG); congruence).
  assert (NW : now (effect n (REnd (sec, usec)) A) =
    mkAh 2 (tv32 (sec, usec)) (tv_diff (sec, usec) t0) ((h_gn (now A) + 1) mod B64) (h_mgn (now A))).
  { unfold now in *. cbn [effect bump_data with_hd a_cur a_hd]. rewrite !fN_same. cbn [h_flags h_ts h_dur h_gn h_mgn]. now rewrite T0. }
  split.
  - rewrite (ag_ts _ _ _ _ AG'), NW. cbn [h_ts]. unfold tv32. cbn [fst snd]. destruct N1 as [N1 N2]. cbn [fst snd] in *.
    rewrite !N.mod_small by (unfold B32 in *; lia). reflexivity.
  - exists (tv_diff (sec, usec) t0). rewrite (ag_dur _ _ _ _ AG'), NW. split; [reflexivity|]. now apply tv_exact.
Qed.
Lemma begin_time l m sec usec m' : H l m -> do_op (OBegin sec usec) m = Ret tt m' -> normal (sec, usec) ->
  timestamp_get m' = Ret (sec, usec) m'.
Proof.
  intros HH HD (N1 & N2). destruct (hist_repr s inst own l m HH) as (req & A0 & A & OK & _ & _ & R & _).
  destruct (step s inst req m A (OBegin sec usec) m' OK R ltac:(discriminate) HD) as (a & Ha & _ & R' & _).
  cbn [action] in Ha. injection Ha as <-. rewrite (ag_ts _ _ _ _ (rep_agrees s inst req m' _ OK R')).
  unfold now. cbn [effect a_cur a_hd]. rewrite fN_same. cbn [h_ts]. unfold tv32. cbn [fst snd] in *.
  rewrite !N.mod_small by (unfold B32 in *; lia). reflexivity.
Qed.
Lemma tx_time l m b lw e m' : H l m -> Forall (allowed es) lw -> Forall no_tx lw -> normal b -> normal e -> usec_of b <= usec_of e ->
  do_ops (OBegin (fst b) (snd b) :: lw ++ [OEnd (fst e) (snd e)]) m = Ret tt m' ->
  timestamp_get m' = Ret e m' /\
  exists d, duration_get m' = Ret d m' /\ snd d < 1000000 /\ usec_of d = usec_of e - usec_of b.
Proof.
  intros HH F NT Nb Ne LE HD. destruct b as [bs bu], e as [es' eu]. cbn [fst snd] in HD.
  cbn [do_ops] in HD. unfold bind in HD. destruct (do_op (OBegin bs bu) m) as [[] m1| |] eqn:E1; try discriminate.
  rewrite do_ops_app in HD. unfold bind in HD. destruct (do_ops lw m1) as [[] m2| |] eqn:E2; try discriminate.
  cbn [do_ops] in HD. unfold bind in HD. destruct (do_op (OEnd es' eu) m2) as [[] m3| |] eqn:E3; try discriminate.
  assert (m3 = m') by (unfold ret in HD; congruence). subst m3.
  pose proof (begin_time l m bs bu m1 HH E1 Nb) as T1.
  assert (H1 : H (l ++ [OBegin bs bu]) m1).
  { apply (hist_app s inst own l _ m m1 HH); [constructor; [discriminate|constructor]|]. cbn [do_ops]. unfold bind. now rewrite E1. }
  assert (T2 : timestamp_get m2 = Ret (bs, bu) m2).
  { destruct (hist_repr s inst own _ m1 H1) as (req & A0 & A & OK & _ & _ & R & _).
    destruct (steps s inst req lw m1 A m2 OK R F E2) as [R2 _].
    pose proof (allowed_runs s inst lw m1 A m2 req OK R F E2) as RU.
    rewrite (ag_ts _ _ _ _ (rep_agrees s inst req m2 _ OK R2)).
    assert (T0 : h_ts (now A) = (bs, bu)) by (pose proof (ag_ts _ _ _ _ (rep_agrees s inst req m1 A OK R)); congruence).
    rewrite <- T0. f_equal. clear -RU NT. revert A. induction lw as [|o lw IH]; intros A; [reflexivity|].
    apply Forall_cons_iff in RU, NT. destruct RU as [(a & Ha & _) RU], NT as [NO NT]. cbn [run_acts]. rewrite Ha, (IH NT RU).
    assert (D : forall t, a <> RBegin t).
    { intros t ->. destruct (act_begin es o t Ha) as (x & y & -> & _). exact NO. }
    assert (D2 : forall t, a <> REnd t).
    { intros t ->. destruct (act_end es o t Ha) as (x & y & -> & _). exact NO. }
    unfold now. destruct a; cbn [effect]; try reflexivity.
    - unfold put, bump. destruct (in_data e); cbn [bump_data bump_meta with_hd a_cur a_hd]; rewrite fN_same; reflexivity.
    - unfold bump. destruct (in_data e), user; cbn [bump_data bump_meta with_hd a_cur a_hd]; rewrite fN_same; reflexivity.
    - destruct gn; cbn [bump_meta with_hd a_cur a_hd]; [rewrite fN_same; reflexivity|reflexivity].
    - destruct (D _ eq_refl).
    - destruct (D2 _ eq_refl). }
  assert (H2 : H ((l ++ [OBegin bs bu]) ++ lw) m2) by exact (hist_app s inst own _ lw m1 m2 H1 F E2).
  exact (duration _ m2 es' eu m' (bs, bu) H2 T2 E3 Nb Ne LE).
Qed.
End More.
