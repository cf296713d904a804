(** Writes of record members, and histories with such writes: lemmas. *)
From Verif Require Import Bytes M_Set S_Set L_SetMem L_SetLay L_SetCreate L_SetInit L_SetTop L_SetMake L_SetRep L_SetOps
  L_SetTx L_SetBuilt L_SetProp L_SetHist L_SetDesc L_SetMore S_Record L_Record.
Local Open Scope N_scope.

Lemma splice_length {T} (o : nat) (bs l : list T) : (o + length bs <= length l)%nat -> length (splice o bs l) = length l.
Proof. intros H. unfold splice. rewrite !app_length, firstn_length, skipn_length. lia. Qed.
Lemma hd4_splice v o x s bs : (s + length bs <= length v)%nat -> (N.to_nat o + 4 <= s \/ s + length bs <= N.to_nat o)%nat ->
  hd4 v o x -> hd4 (splice s bs v) o x.
Proof. intros H1 H2 H. unfold hd4 in *. now rewrite slice_splice_out. Qed.
Lemma slice_slice {T} (a b c e : nat) (l : list T) : (c + e <= b)%nat -> slice c e (slice a b l) = slice (a + c) e l.
Proof.
  intros H. unfold slice. rewrite skipn_firstn_comm, firstn_firstn, skipn_skipn. f_equal. lia.
Qed.
Lemma slice_length {T} (a b : nat) (l : list T) : (a + b <= length l)%nat -> length (slice a b l) = b.
Proof. intros H. unfold slice. rewrite firstn_length, skipn_length. lia. Qed.
Lemma slice_splice_same {T} (a b o : nat) (bs l : list T) : (o + length bs <= b)%nat -> (a + b <= length l)%nat ->
  slice a b (splice (a + o) bs l) = splice o bs (slice a b l).
Proof.
  intros H1 H2. unfold splice, slice.
  rewrite skipn_app, firstn_length, Nat.min_l by lia. replace (a - (a + o))%nat with 0%nat by lia. cbn [skipn].
  rewrite firstn_app, skipn_length, firstn_length, Nat.min_l by lia.
  rewrite firstn_app.
  replace (skipn a (firstn (a + o) l)) with (firstn o (skipn a l)) by (rewrite firstn_skipn_comm; f_equal; lia).
  rewrite !firstn_firstn. replace (Nat.min b o) with o by lia. replace (Nat.min o b) with o by lia. f_equal.
  replace (b - (a + o - a))%nat with (b - o)%nat by lia. rewrite firstn_all2 by lia. f_equal.
  rewrite skipn_firstn_comm, skipn_skipn. f_equal; [lia|]. f_equal. lia.
Qed.

Section Ops.
Variable E : env.
Hypothesis OK : ok_env E.
Notation es := (v_es E).
Hypothesis LK : linked es.
Variable rest : N -> N.
Notation R := (repr E rest).

(** Where a member is. *)
Record spot (k j i : Z) (x : mdef) (kk : nat) (d : mdef) (rt isz : N) (r : recdef) : Prop := mkSpot {
  sp_at : at_idx es k = Some (kk, RecA d rt isz);
  sp_arr : nth_error es kk = Some (RecA d rt isz);
  sp_k : (0 <= k)%Z /\ kk = Z.to_nat k;
  sp_j : (0 <= j)%Z /\ Z.to_N j < md_count d;
  sp_i : (0 <= i)%Z /\ nth_error (rc_ms r) (Z.to_nat i) = Some x;
  sp_type : nth_error es (N.to_nat rt) = Some (RecT r) /\ rc_inst r = isz;
  sp_size : room (Plain x) = md_data x
}.
Lemma member_spot k j i x : member es k j i = Some x -> exists kk d rt isz r, spot k j i x kk d rt isz r.
Proof.
  unfold member. destruct (at_idx es k) as [[kk [d|r|d rt isz]]|] eqn:HI; try discriminate.
  destruct (Z.leb_spec 0 j) as [J1|]; [|discriminate]. destruct (Z.ltb_spec j (Z.of_N (md_count d))) as [J2|]; [|discriminate].
  destruct (Z.leb_spec 0 i) as [I1|]; [|discriminate]. cbn [andb type_of].
  destruct (nth_error es (N.to_nat rt)) as [[|r|]|] eqn:HR; try discriminate.
  destruct (nth_error (rc_ms r) (Z.to_nat i)) as [y|] eqn:HX; [|discriminate].
  destruct (elem (md_type y)) as [w|] eqn:HE; [|discriminate]. intros [= ->].
  destruct (at_nth E k kk _ HI) as (HA & HK & EK). exists kk, d, rt, isz, r.
  destruct (LK kk d rt isz HA) as (r' & HR' & HZ). assert (r' = r) by congruence. subst r'.
  constructor; auto; [split; lia|]. apply room_member; [|congruence]. exact (m_wf E OK (N.to_nat rt) r HR _ _ HX).
Qed.
Definition at_byte (j i : Z) (isz : N) (r : recdef) : N := 12 + Z.to_N j * isz + 16 + mp (rc_ms r) (Z.to_nat i).
Definition mbytes (A : aset) (kk : nat) (j i : Z) (isz : N) (r : recdef) (x : mdef) : list byte :=
  slice (N.to_nat (at_byte j i isz r)) (N.to_nat (md_data x)) (a_val A (a_cur A) kk).

Section Spot.
Variables (k j i : Z) (x : mdef) (kk : nat) (d : mdef) (rt isz : N) (r : recdef).
Hypothesis SP : spot k j i x kk d rt isz r.
Let Hk := sp_arr _ _ _ _ _ _ _ _ _ SP.
Let Hr := proj1 (sp_type _ _ _ _ _ _ _ _ _ SP).
Let Hz := proj2 (sp_type _ _ _ _ _ _ _ _ _ SP).
Let Hj := proj2 (sp_j _ _ _ _ _ _ _ _ _ SP).
Let Hi := proj1 (sp_i _ _ _ _ _ _ _ _ _ SP).
Let Hx := proj2 (sp_i _ _ _ _ _ _ _ _ _ SP).

Lemma spot_fits : at_byte j i isz r + md_data x <= 12 + (Z.to_N j + 1) * isz /\ at_byte j i isz r + md_data x <= md_data d.
Proof.
  pose proof (mp_small E OK rt isz r Hr Hz _ _ Hx) as M. pose proof (inst_end E OK kk d rt isz Hk _ Hj) as B.
  unfold at_byte, REC_INST in *. lia.
Qed.
Lemma rloc_arr A : rloc E A kk (RecA d rt isz) = LV (a_cur A) kk.
Proof.
  unfold rloc. rewrite (arr_data E OK kk d rt isz Hk). pose proof (arr_wf E OK kk d rt isz Hk) as (_ & T & _). cbn [base].
  rewrite T. change (27 =? 27) with true. now rewrite !orb_true_r.
Qed.
Lemma rd_inst m A : R m A -> intact E A -> reads (inst_at k j) (Some (addr E (LV (a_cur A) kk) + (12 + Z.to_N j * isz))) m.
Proof.
  intros RP IN. pose proof (p_cur E rest m A RP) as HC. destruct (sp_j _ _ _ _ _ _ _ _ _ SP) as [J0 J1].
  destruct (arr_room E OK kk d rt isz Hk) as (_ & AR & S16). pose proof (arr_small E OK kk d rt isz Hk _ HC) as SM.
  pose proof (inst_end E OK kk d rt isz Hk _ Hj) as B.
  destruct (IN (a_cur A) kk d rt isz HC Hk) as (I1 & I2 & _).
  unfold inst_at, metric_get. eapply reads_bind.
  { eapply reads_bind; [exact (mval_get_at E OK rest m A k kk _ RP (sp_at _ _ _ _ _ _ _ _ _ SP))|apply reads_pure]. }
  rewrite rloc_arr. cbv beta iota. unfold array_get_inst.
  eapply reads_bind; [apply (rd_hd E OK rest kk d rt isz Hk m A _ 8 _ RP HC); [lia|exact I2]|].
  destruct (Z.ltb_spec j 0); [lia|]. destruct (Z.leb_spec (Z.of_N (md_count d)) j); [lia|]. cbn [orb].
  eapply reads_bind; [apply (rd_hd E OK rest kk d rt isz Hk m A _ 0 _ RP HC); [lia|exact I1]|].
  rewrite (N.mod_small isz) by lia. unfold W32 in SM. rewrite N.mod_small by lia.
  unfold A_DATA. rewrite <- N.add_assoc. apply reads_pure.
Qed.
Lemma inst_run {T} m A (f : N -> prog T) : R m A -> intact E A ->
  with_inst k j f m = f (addr E (LV (a_cur A) kk) + (12 + Z.to_N j * isz)) m.
Proof.
  intros RP IN. pose proof (rd_inst m A RP IN) as H. apply reads_ret in H. unfold with_inst, bind. now rewrite H.
Qed.
Lemma rd_member m A : R m A -> intact E A ->
  reads (record_metric_get (addr E (LV (a_cur A) kk) + (12 + Z.to_N j * isz)) i)
    (Some (addr E (LV (a_cur A) kk) + at_byte j i isz r, daddr E (N.to_nat rt) r (Z.to_nat i), v_buf E (a_cur A))) m.
Proof.
  intros RP IN. exact (rd_metric_get E OK rest m A RP IN kk d rt isz r (a_cur A) (Z.to_N j) Hk Hr Hz (p_cur E rest m A RP) Hj i x Hi Hx).
Qed.
Lemma mbytes_len m A : R m A -> length (mbytes A kk j i isz r x) = N.to_nat (md_data x).
Proof.
  intros RP. pose proof spot_fits as [_ F]. pose proof (p_cur E rest m A RP) as HC. unfold mbytes. apply slice_length.
  pose proof (content_length E rest m A _ RP (arr_valid E OK kk d rt isz Hk _ HC)) as L. cbn [content] in L.
  rewrite L, (arr_size E kk d rt isz Hk). lia.
Qed.
Lemma rd_mem m A o n : R m A -> N.of_nat o + N.of_nat n <= md_data x ->
  reads (ld n (addr E (LV (a_cur A) kk) + (at_byte j i isz r + N.of_nat o))) (of_le (slice o n (mbytes A kk j i isz r x))) m.
Proof.
  intros RP H. pose proof spot_fits as [_ F]. pose proof (p_cur E rest m A RP) as HC.
  pose proof (rd_part E OK rest m A (LV (a_cur A) kk) (N.to_nat (at_byte j i isz r) + o)%nat n RP (arr_valid E OK kk d rt isz Hk _ HC)) as P.
  rewrite (arr_size E kk d rt isz Hk) in P. specialize (P ltac:(lia)). cbn [content] in P.
  unfold mbytes. rewrite slice_slice by lia. rewrite Nat2N.inj_add, N2Nat.id in P. exact P.
Qed.
Lemma spot_shows m A : R m A -> intact E A -> mshows m k j i x (mbytes A kk j i isz r x).
Proof.
  intros RP IN. pose proof (sp_size _ _ _ _ _ _ _ _ _ SP) as RS. pose proof (mbytes_len m A RP) as ML.
  pose proof (rd_member m A RP IN) as RM. pose proof spot_fits as [_ F]. pose proof (p_cur E rest m A RP) as HC. constructor.
  - rewrite RS. unfold blen. rewrite ML. apply N2Nat.id.
  - intros w _ Hw. rewrite (inst_run m A _ RP IN). apply reads_ret. unfold record_get_w.
    eapply reads_bind; [exact RM|]. cbv beta iota.
    pose proof (rd_mem m A 0 (N.to_nat w) RP ltac:(lia)) as P. change (N.of_nat 0) with 0 in P. rewrite N.add_0_r in P. exact P.
  - intros w y _ Hy Hw. rewrite (inst_run m A _ RP IN). apply reads_ret. unfold record_array_get_w.
    eapply reads_bind; [exact RM|]. cbv beta iota.
    destruct (m_desc E OK rest _ _ Hr m A _ x RP Hx) as [(_ & _ & D3 & _) _].
    eapply reads_bind; [apply (rd_m_field E OK rest m A RP rt r Hr (Z.to_nat i) x VD_COUNT 4 _ Hx); [unfold VD_COUNT; lia|exact D3]|].
    destruct (Z.leb_spec 0 y); [|lia]. destruct (Z.ltb_spec y (Z.of_N (md_count x))); [|lia]. cbn [andb].
    pose proof (rd_mem m A (N.to_nat (w * Z.to_N y)) (N.to_nat w) RP ltac:(rewrite N.mul_add_distr_l, N.mul_1_r in Hw; lia)) as P.
    rewrite !N2Nat.id, N.add_assoc in P. exact P.
  - intros l q Hv Hl. rewrite (inst_run m A _ RP IN). apply reads_ret. unfold record_array_get_str.
    eapply reads_bind; [exact RM|]. cbv beta iota.
    rewrite Hv, app_length in ML. cbn [length] in ML.
    pose proof (R_fits E OK rest m A _ RP (arr_valid E OK kk d rt isz Hk _ HC)) as HF. rewrite (arr_size E kk d rt isz Hk) in HF.
    apply (wp_cstr _ l); [exact Hl|unfold blen; lia| |auto].
    pose proof (get_slice rest m (addr E (LV (a_cur A) kk)) (N.to_nat (md_data d)) (N.to_nat (at_byte j i isz r)) (S (length l)) ltac:(lia)) as GS.
    rewrite N2Nat.id in GS. rewrite GS.
    assert (OB : get m (addr E (LV (a_cur A) kk)) (N.to_nat (md_data d)) = a_val A (a_cur A) kk).
    { rewrite <- (arr_size E kk d rt isz Hk (a_cur A)). exact (rp_obs E rest m A RP _ (arr_valid E OK kk d rt isz Hk _ HC)). }
    rewrite OB. unfold mbytes in Hv.
    assert (SS : slice (N.to_nat (at_byte j i isz r)) (S (length l)) (a_val A (a_cur A) kk) =
                 slice 0 (S (length l)) (slice (N.to_nat (at_byte j i isz r)) (N.to_nat (md_data x)) (a_val A (a_cur A) kk))).
    { rewrite slice_slice by lia. f_equal. lia. }
    rewrite SS, Hv. unfold slice. cbn [skipn].
    replace (S (length l)) with (length (l ++ [0])) by (rewrite app_length; cbn; lia).
    replace (l ++ 0 :: q) with ((l ++ [0]) ++ q) by (rewrite <- app_assoc; reflexivity).
    rewrite firstn_app, Nat.sub_diag, firstn_all. cbn [firstn]. apply app_nil_r.
Qed.

(** Writes. *)
Notation e := (RecA d rt isz).
Lemma spot_put m A off bs (Q : unit -> st -> Prop) : R m A -> off + blen bs <= md_data x ->
  (forall m', R m' (put e kk (at_byte j i isz r + off) bs A) -> Q tt m') ->
  wp (store (addr E (LV (a_cur A) kk) + (at_byte j i isz r + off)) bs ;; dgn_inc (v_buf E (a_cur A))) Q m.
Proof.
  intros RP Ho HQ. pose proof spot_fits as [_ F]. destruct (arr_room E OK kk d rt isz Hk) as (RM & _ & _).
  assert (NT : not_type e) by (intros y; discriminate).
  assert (VL : vloc A kk e = LV (a_cur A) kk) by (unfold vloc; now rewrite (arr_data E OK kk d rt isz Hk)).
  assert (HO : at_byte j i isz r + off + blen bs <= room e) by lia.
  rewrite <- VL. apply wp_bind, wp_store; [exact (val_room E OK rest m A kk e _ bs RP Hk NT HO)|].
  pose proof (setv_ok E OK rest m A kk e _ bs RP Hk NT HO) as R1.
  destruct (setv_cur e kk (at_byte j i isz r + off) bs A) as [C1 _]. unfold dgn_inc. rewrite <- C1.
  apply (data_inc_ok E OK rest _ _ Q R1). intros m' R'. apply HQ. rewrite put_setv. unfold bump.
  change (in_data e) with (data_e e). rewrite (arr_data E OK kk d rt isz Hk). exact R'.
Qed.
Lemma put_val A off bs b kx : a_val (put e kk off bs A) b kx =
  if (b =? a_cur A) && (kx =? kk)%nat then splice (N.to_nat off) bs (a_val A b kx) else a_val A b kx.
Proof.
  rewrite put_setv. unfold bump, setv. change (in_data e) with (data_e e). rewrite (arr_data E OK kk d rt isz Hk).
  unfold bump_data, with_hd. cbn [a_val a_cur]. unfold fN, fn. destruct (N.eqb_spec b (a_cur A)) as [->|]; [|reflexivity].
  cbn [andb]. destruct (Nat.eqb_spec kx kk) as [->|]; reflexivity.
Qed.
Lemma put_cur A off bs : a_cur (put e kk off bs A) = a_cur A.
Proof.
  rewrite put_setv. unfold bump, setv. change (in_data e) with (data_e e). now rewrite (arr_data E OK kk d rt isz Hk).
Qed.
Lemma val_len m A b : R m A -> b < v_ac E -> length (a_val A b kk) = N.to_nat (md_data d).
Proof.
  intros RP HC. pose proof (content_length E rest m A _ RP (arr_valid E OK kk d rt isz Hk _ HC)) as L. cbn [content] in L.
  now rewrite L, (arr_size E kk d rt isz Hk).
Qed.
Lemma spot_intact m A off bs : R m A -> intact E A -> off + blen bs <= md_data x ->
  intact E (put e kk (at_byte j i isz r + off) bs A).
Proof.
  intros RP IN Ho b kx d' rt' isz' Hb Hkx. specialize (IN b kx d' rt' isz' Hb Hkx). rewrite put_val.
  destruct (N.eqb_spec b (a_cur A)) as [->|]; [|exact IN]. destruct (Nat.eqb_spec kx kk) as [->|]; [|exact IN]. cbn [andb].
  assert (QE : RecA d' rt' isz' = RecA d rt isz) by congruence. injection QE as -> -> ->.
  pose proof spot_fits as [F1 F2]. pose proof (val_len m A _ RP Hb) as VL.
  destruct (arr_room E OK kk d rt isz Hk) as (_ & _ & S16).
  assert (LB : at_byte j i isz r >= 28 + Z.to_N j * isz) by (unfold at_byte; lia).
  destruct IN as (I1 & I2 & I3). unfold blen in Ho. split; [|split].
  - apply hd4_splice; [lia|left; lia|exact I1].
  - apply hd4_splice; [lia|left; lia|exact I2].
  - intros y Hy. destruct (I3 y Hy) as (Y1 & Y2 & Y3).
    assert (CS : 12 + y * isz + 16 <= at_byte j i isz r + off \/ at_byte j i isz r + off + N.of_nat (length bs) <= 12 + y * isz).
    { destruct (N.le_gt_cases y (Z.to_N j)) as [L|L].
      - left. assert (y * isz <= Z.to_N j * isz) by (apply N.mul_le_mono_r; exact L). lia.
      - right. assert ((Z.to_N j + 1) * isz <= y * isz) by (apply N.mul_le_mono_r; lia). lia. }
    split; [|split]; (apply hd4_splice; [lia|lia|assumption]).
Qed.
Lemma mbytes_put m A off bs : R m A -> off + blen bs <= md_data x ->
  mbytes (put e kk (at_byte j i isz r + off) bs A) kk j i isz r x = splice (N.to_nat off) bs (mbytes A kk j i isz r x).
Proof.
  intros RP Ho. pose proof spot_fits as [_ F]. pose proof (p_cur E rest m A RP) as HC. unfold mbytes. rewrite put_cur, put_val.
  rewrite N.eqb_refl, Nat.eqb_refl. cbn [andb]. rewrite N2Nat.inj_add. apply slice_splice_same; [unfold blen in Ho; lia|].
  rewrite (val_len m A _ RP HC). lia.
Qed.
Lemma mbytes_other m A off bs k' j' i' x' kk' d' rt' isz' r' : R m A -> off + blen bs <= md_data x ->
  spot k' j' i' x' kk' d' rt' isz' r' -> (k', j', i') <> (k, j, i) ->
  mbytes (put e kk (at_byte j i isz r + off) bs A) kk' j' i' isz' r' x' = mbytes A kk' j' i' isz' r' x'.
Proof.
  intros RP Ho S' NE. pose proof spot_fits as [F1 F2]. pose proof (p_cur E rest m A RP) as HC. unfold mbytes. rewrite put_cur, put_val.
  rewrite N.eqb_refl. destruct (Nat.eqb_spec kk' kk) as [->|]; [|reflexivity]. cbn [andb].
  pose proof (sp_arr _ _ _ _ _ _ _ _ _ S') as Hk'. assert (QE : RecA d' rt' isz' = RecA d rt isz) by congruence.
  injection QE as -> -> ->. destruct (sp_type _ _ _ _ _ _ _ _ _ S') as [Hr' Hz'].
  assert (r' = r) by congruence. subst r'.
  destruct (sp_k _ _ _ _ _ _ _ _ _ S') as [K1 K2]. destruct (sp_k _ _ _ _ _ _ _ _ _ SP) as [K3 K4].
  assert (k' = k) by lia. subst k'.
  destruct (sp_j _ _ _ _ _ _ _ _ _ S') as [J1 J2]. destruct (sp_j _ _ _ _ _ _ _ _ _ SP) as [J3 J4].
  destruct (sp_i _ _ _ _ _ _ _ _ _ S') as [I1 I2].
  pose proof (mp_small E OK rt isz r Hr Hz _ _ I2) as M'. pose proof (mp_small E OK rt isz r Hr Hz _ _ Hx) as M.
  unfold blen in Ho. apply slice_splice_out; [rewrite (val_len m A _ RP HC); lia|].
  assert (CS : at_byte j' i' isz r + md_data x' <= at_byte j i isz r + off \/ at_byte j i isz r + off + N.of_nat (length bs) <= at_byte j' i' isz r).
  { unfold at_byte, REC_INST in *. destruct (Z.lt_trichotomy j' j) as [L|[L|L]].
    - left. assert ((Z.to_N j' + 1) * isz <= Z.to_N j * isz) by (apply N.mul_le_mono_r; lia). lia.
    - subst j'. assert (i' <> i) by congruence. destruct (Z.lt_trichotomy i' i) as [L|[L|L]]; [left|lia|right].
      + pose proof (mp_lt _ _ (Z.to_nat i) _ I2 ltac:(lia)). lia.
      + pose proof (mp_lt _ _ (Z.to_nat i') _ Hx ltac:(lia)). lia.
    - right. assert ((Z.to_N j + 1) * isz <= Z.to_N j' * isz) by (apply N.mul_le_mono_r; lia). lia. }
  lia.
Qed.
End Spot.

(** A write operation. *)
Lemma rop_spot o k j i off bs : rput es o = Some (k, j, i, off, bs) ->
  exists x kk d rt isz r, spot k j i x kk d rt isz r /\ member es k j i = Some x /\ off + blen bs <= md_data x.
Proof.
  intros H.
  assert (G : forall k0 j0 i0 f, in_member es k0 j0 i0 f = Some (k, j, i, off, bs) ->
    exists x kk d rt isz r, spot k j i x kk d rt isz r /\ member es k j i = Some x /\ off + blen bs <= md_data x).
  { intros k0 j0 i0 f. unfold in_member. destruct (member es k0 j0 i0) as [x|] eqn:HM; [|discriminate].
    destruct (f x) as [[o1 b1]|]; [|discriminate]. destruct (N.leb_spec (o1 + blen b1) (room (Plain x))) as [L|]; [|discriminate].
    intros [= -> -> -> -> ->]. destruct (member_spot k j i x HM) as (kk & d & rt & isz & r & SP).
    exists x, kk, d, rt, isz, r. split; [exact SP|]. split; [exact HM|]. now rewrite <- (sp_size _ _ _ _ _ _ _ _ _ SP). }
  destruct o as [o|k0 j0 i0 v|w k0 j0 i0 v|w k0 j0 i0 y v|k0 j0 i0 str]; cbn [rput] in H; [discriminate|..]; exact (G _ _ _ _ H).
Qed.
Lemma rop_ok m A o k j i off bs x kk d rt isz r : R m A -> intact E A -> rput es o = Some (k, j, i, off, bs) ->
  spot k j i x kk d rt isz r -> off + blen bs <= md_data x ->
  exists m', do_rop o m = Ret tt m' /\ R m' (put (RecA d rt isz) kk (at_byte j i isz r + off) bs A).
Proof.
  intros RP IN H SP Ho. destruct (sp_type _ _ _ _ _ _ _ _ _ SP) as [Hr Hz]. destruct (sp_i _ _ _ _ _ _ _ _ _ SP) as [Hi Hx].
  pose proof (rd_member k j i x kk d rt isz r SP m A RP IN) as RM.
  destruct (m_desc E OK rest _ _ Hr m A _ x RP Hx) as [(D1 & _ & D3 & _) _].
  assert (RT : reads (ld 1 (daddr E (N.to_nat rt) r (Z.to_nat i) + VD_TYPE)) (md_type x) m).
  { apply (rd_m_field E OK rest m A RP rt r Hr (Z.to_nat i) x VD_TYPE 1 _ Hx); [unfold VD_TYPE; lia|exact D1]. }
  assert (RC : reads (ld 4 (daddr E (N.to_nat rt) r (Z.to_nat i) + VD_COUNT)) (md_count x) m).
  { apply (rd_m_field E OK rest m A RP rt r Hr (Z.to_nat i) x VD_COUNT 4 _ Hx); [unfold VD_COUNT; lia|exact D3]. }
  assert (G : forall p : prog unit, wp p (fun _ m' => R m' (put (RecA d rt isz) kk (at_byte j i isz r + off) bs A)) m ->
    exists m', p m = Ret tt m' /\ R m' (put (RecA d rt isz) kk (at_byte j i isz r + off) bs A)).
  { intros p HP. unfold wp in HP. destruct (p m) as [[] m'| |]; [|destruct HP..]. eauto. }
  assert (WW : forall o' b', o' + blen b' <= md_data x ->
    wp (store (addr E (LV (a_cur A) kk) + (at_byte j i isz r + o')) b' ;; dgn_inc (v_buf E (a_cur A)))
       (fun _ m' => R m' (put (RecA d rt isz) kk (at_byte j i isz r + o') b' A)) m).
  { intros o' b' H'. apply (spot_put k j i x kk d rt isz r SP m A o' b' _ RP H'). auto. }
  assert (ME : member es k j i = Some x).
  { unfold member. rewrite (sp_at _ _ _ _ _ _ _ _ _ SP). destruct (sp_j _ _ _ _ _ _ _ _ _ SP) as [J1 J2].
    destruct (Z.leb_spec 0 j); [|lia]. destruct (Z.ltb_spec j (Z.of_N (md_count d))); [|lia]. destruct (Z.leb_spec 0 i); [|lia].
    cbn [andb type_of]. rewrite Hr, Hx.
    destruct (elem (md_type x)) eqn:HE; [reflexivity|]. exfalso.
    destruct (rop_spot o k j i off bs H) as (x1 & kk1 & d1 & rt1 & isz1 & r1 & S1 & M1 & _).
    pose proof (sp_at _ _ _ _ _ _ _ _ _ S1) as Q1. rewrite (sp_at _ _ _ _ _ _ _ _ _ SP) in Q1. injection Q1 as <- <- <- <-.
    unfold member in M1. rewrite (sp_at _ _ _ _ _ _ _ _ _ SP) in M1.
    destruct ((0 <=? j)%Z && (j <? Z.of_N (md_count d))%Z && (0 <=? i)%Z); [|discriminate]. cbn [type_of] in M1.
    rewrite Hr, Hx, HE in M1. discriminate. }
  destruct o as [o|k0 j0 i0 v|w k0 j0 i0 v|w k0 j0 i0 y v|k0 j0 i0 str]; cbn [rput] in H; [discriminate|..];
    unfold in_member in H; destruct (member es k0 j0 i0) as [x0|] eqn:HM; try discriminate.
  - destruct (array_type (md_type x0)) eqn:HA; [discriminate|]. destruct (elem (md_type x0)) as [w|] eqn:HE; [|discriminate].
    destruct (_ <=? _) in H; [|discriminate]. injection H as -> -> -> <- <-. assert (x0 = x) by congruence. subst x0.
    cbn [do_rop]. rewrite (inst_run k j i x kk d rt isz r SP m A _ RP IN). apply G. unfold record_metric_set.
    eapply wp_reads; [exact RM|]. cbv beta iota. eapply wp_reads; [exact RT|].
    change (type_is_array (md_type x)) with (array_type (md_type x)). rewrite HA, <- L_SetRep.elem_width, HE.
    pose proof (WW 0 (le (N.to_nat w) v) Ho) as W.
    rewrite N.add_0_r in W |- *. exact W.
  - destruct (is_width w) eqn:HW; [|discriminate]. destruct (_ <=? _) in H; [|discriminate].
    injection H as -> -> -> <- <-. assert (x0 = x) by congruence. subst x0.
    cbn [do_rop]. rewrite (inst_run k j i x kk d rt isz r SP m A _ RP IN). apply G. unfold record_set_w.
    eapply wp_reads; [exact RM|]. cbv beta iota.
    pose proof (WW 0 (le (N.to_nat w) v) Ho) as W.
    rewrite N.add_0_r in W |- *. exact W.
  - destruct (is_width w && (0 <=? y)%Z && (y <? Z.of_N (md_count x0))%Z) eqn:HW; [|discriminate]. destruct (_ <=? _) in H; [|discriminate].
    injection H as -> -> -> <- <-. assert (x0 = x) by congruence. subst x0.
    apply andb_prop in HW. destruct HW as [HW H3]. apply andb_prop in HW. destruct HW as [H1 H2].
    cbn [do_rop]. rewrite (inst_run k j i x kk d rt isz r SP m A _ RP IN). apply G. unfold record_array_set_w.
    eapply wp_reads; [exact RM|]. cbv beta iota. eapply wp_reads; [exact RC|]. rewrite H2, H3. cbn [andb].
    pose proof (WW (w * Z.to_N y) (le (N.to_nat w) v) Ho) as W.
    rewrite N.add_assoc in W. exact W.
  - destruct (_ <=? _) in H; [|discriminate].
    injection H as -> -> -> <- <-. assert (x0 = x) by congruence. subst x0.
    cbn [do_rop]. rewrite (inst_run k j i x kk d rt isz r SP m A _ RP IN). apply G. unfold record_array_set_str.
    eapply wp_reads; [exact RM|]. cbv beta iota. eapply wp_reads; [exact RC|].
    pose proof (WW 0 (strncpy_bytes str (N.to_nat (md_count x))) Ho) as W.
    rewrite N.add_0_r in W |- *. exact W.
Qed.

(** Plain operations. *)
Definition spares (a : act) : Prop := forall k e off bs, a = RPut k e off bs -> is_rec_array e = false /\ nth_error es k = Some e.
Lemma bump_val e A : a_val (bump e A) = a_val A.
Proof. unfold bump. destruct (in_data e); reflexivity. Qed.
Lemma eff_arr a A b k d rt isz : spares a -> nth_error es k = Some (RecA d rt isz) ->
  a_val (effect (v_ac E) a A) b k = a_val A b k \/
  (exists t, a = RBegin t) /\ a_copy A = true /\ b = (a_cur A + 1) mod v_ac E /\ a_val (effect (v_ac E) a A) b k = a_val A (a_cur A) k.
Proof.
  intros HP Hk. destruct a as [| |k' e' off bs|k' e' u|u g p gn|ts|ts|on]; cbn [effect]; try (left; reflexivity).
  - left. destruct (HP _ _ _ _ eq_refl) as [HN HE]. rewrite put_setv, bump_val. unfold setv. destruct (in_data e'); [|reflexivity].
    cbn [a_val]. unfold fN, fn. destruct (N.eqb_spec b (a_cur A)) as [->|]; [|reflexivity].
    destruct (Nat.eqb_spec k k') as [->|]; [|reflexivity]. rewrite Hk in HE. injection HE as <-. discriminate.
  - left. rewrite bump_val. destruct u; reflexivity.
  - left. destruct gn; reflexivity.
  - cbn [a_val]. destruct (a_copy A) eqn:HC; [|now left]. unfold fN. destruct (N.eqb_spec b ((a_cur A + 1) mod v_ac E)) as [->|]; [|now left].
    right. split; [eauto|]. auto.
Qed.
Lemma eff_intact a A : a_cur A < v_ac E -> spares a -> intact E A -> intact E (effect (v_ac E) a A).
Proof.
  intros HC HP IN b k d rt isz Hb Hk. destruct (eff_arr a A b k d rt isz HP Hk) as [->|(_ & _ & _ & ->)]; apply IN; auto.
Qed.
Lemma eff_arr_cur a A k d rt isz : a_cur A < v_ac E -> spares a -> nth_error es k = Some (RecA d rt isz) ->
  (forall t, a = RBegin t -> a_copy A = true \/ v_ac E = 1) ->
  a_val (effect (v_ac E) a A) (a_cur (effect (v_ac E) a A)) k = a_val A (a_cur A) k.
Proof.
  intros HC HP Hk HB.
  destruct (eff_arr a A (a_cur (effect (v_ac E) a A)) k d rt isz HP Hk) as [H|(_ & _ & _ & ->)]; [|reflexivity].
  rewrite H. destruct a as [| |k' e' off bs|k' e' u|u g p gn|ts|ts|on]; cbn [effect] in *; try reflexivity.
  - rewrite put_setv. unfold bump, setv. destruct (in_data e'); reflexivity.
  - unfold bump. destruct (in_data e'), u; reflexivity.
  - destruct gn; reflexivity.
  - cbn [a_cur a_val] in *. destruct (HB ts eq_refl) as [C|C].
    + rewrite C in H. unfold fN in H. rewrite N.eqb_refl in H. now symmetry.
    + rewrite C in *. replace ((a_cur A + 1) mod 1) with (a_cur A); [reflexivity|]. rewrite N.mod_1_r. lia.
Qed.
End Ops.
