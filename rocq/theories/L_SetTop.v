(** Set creation as a whole: what a new metric set contains. *)
From Verif Require Import Bytes M_Set L_SetMem L_SetLay L_SetCreate L_SetInit.
Local Open Scope N_scope.

Definition smeta (E : env) (m : st) : Prop :=
  hstat m (v_c E) (v_ms E) (v_bs E) (v_hsz E) (v_ac E) (v_inst E) (v_sname E) (v_dig E) /\
  desc_all (v_es E) (v_D0 E) m /\
  (forall p e q, v_es E = p ++ e :: q ->
     num m (v_doff E p + VD_OFF) 4 = if data_e e then voff p else v_moff E p) /\
  (forall p r q, v_es E = p ++ RecT r :: q -> rectype_ok m (v_moff E p) r).
Definition bufs_ok (E : env) (m : st) : Prop :=
  forall b, b < v_ac E -> bstat m (v_buf E b) (v_bs E) (v_hsz E).
Definition handle_ok (E : env) (m : st) : Prop :=
  msz m = v_tot E /\ darr m = v_ms E /\ dat m = v_buf E (cur m) /\ cur m < v_ac E.
Definition static (E : env) (m : st) : Prop := smeta E m /\ bufs_ok E m /\ handle_ok E m.

(** The bytes of the meta section that may change after creation. *)
Definition Mutm (E : env) (x : N) : Prop :=
  drange 64 72 x \/ drange 92 104 x \/
  (exists p e q, v_es E = p ++ e :: q /\ drange (v_doff E p) (v_doff E p + 8) x) \/
  (exists p d q, v_es E = p ++ Plain d :: q /\ data_e (Plain d) = false /\
     drange (v_moff E p) (v_moff E p + md_data d) x) \/
  v_ms E <= x.

Lemma rect_meta r : wf_entry (RecT r) -> data_e (RecT r) = false.
Proof. intros (_ & _ & H & _). unfold data_e. cbn [base]. rewrite H. reflexivity. Qed.

Section Top.
Variable E : env.
Hypothesis OK : ok_env E.

Lemma doff_mutm p e q x : v_es E = p ++ e :: q -> v_doff E p + 8 <= x < v_doff E p + mm e -> ~ Mutm E x.
Proof.
  intros H Hx. pose proof (e_doff E OK _ _ _ H) as B. pose proof (e_ms_ge E OK). pose proof (e_D0 E).
  intros [h|[h|[(p' & e' & q' & H' & h)|[(p' & d' & q' & H' & Hd & h)|h]]]]; unfold drange in *; ubody; try lia.
  - pose proof (e_doff E OK _ _ _ H').
    destruct (split2 _ _ _ _ _ _ _ H H') as [(<- & <- & <-)|[[r ->]|[r ->]]]; [lia| |];
      rewrite e_doff_step in *; lia.
  - pose proof (e_moff E OK _ _ _ H'). lia.
Qed.

Lemma smeta_ext m m' : (forall x, ~ Mutm E x -> mb m' x = mb m x) -> smeta E m -> smeta E m'.
Proof.
  intros F (H1 & H2 & H3 & H4). pose proof (e_D0 E) as HD. pose proof (e_ms_ge E OK) as HM.
  assert (Hlow : forall x, x < v_D0 E -> ~ (64 <= x < 72) -> ~ (92 <= x < 104) -> mb m' x = mb m x).
  { intros x Hx N1 N2. apply F. intros [h|[h|[(p & e & q & H & h)|[(p & d & q & H & Hd & h)|h]]]];
      unfold drange in h; try lia.
    - pose proof (e_doff E OK _ _ _ H). lia.
    - pose proof (e_moff E OK _ _ _ H). lia. }
  unfold H_DICT in HD.
  split; [|split; [|split]].
  - eapply hstat_ext; [|exact H1]. intros x Hx. apply Hlow; unfold H_DICT in *; lia.
  - intros p e q H. destruct (H2 p e q H) as [D1 D2]. pose proof (e_doff E OK _ _ _ H) as B. split.
    + rewrite <- D1. apply num_ext. intros k Hk.
      assert (N.of_nat (length p) < v_c E).
      { unfold v_c. rewrite H, app_length. cbn [length]. lia. }
      unfold H_DICT in *. apply Hlow; lia.
    + apply (desc_body_ext m m'); [exact (proj1 (e_wf E OK _ _ _ H))| |exact D2].
      intros x Hx. apply F. apply (doff_mutm p e q x H). change (md_meta (base e)) with (mm e) in Hx.
      unfold v_doff in *. lia.
  - intros p e q H. rewrite <- (H3 p e q H). apply num_ext. intros x Hx. apply F.
    pose proof (e_doff E OK _ _ _ H) as B. unfold VD_OFF in Hx. apply (doff_mutm p e q x H). lia.
  - intros p r q H. pose proof (e_wf E OK _ _ _ H) as W.
    apply (rectype_ext (v_es E) (v_D0 E) (e_h1 E) (e_h2 E OK) m m'); [exact W| |exact (H4 p r q H)].
    intros x Hx. apply F. pose proof (e_moff E OK _ _ _ H) as B.
    assert (MS : mstep (RecT r) = md_data (rc_mdef r)) by (unfold mstep; rewrite (rect_meta r W); reflexivity).
    intros [h|[h|[(p' & e' & q' & H' & h)|[(p' & d' & q' & H' & Hd & h)|h]]]]; unfold drange in h; try lia.
    + pose proof (e_doff E OK _ _ _ H'). lia.
    + pose proof (e_moff E OK _ _ _ H') as B'.
      assert (MS' : mstep (Plain d') = md_data d') by (unfold mstep; rewrite Hd; reflexivity).
      destruct (split2 _ _ _ _ _ _ _ H H') as [(_ & HH & _)|[[s ->]|[s ->]]]; [discriminate| |];
        rewrite e_moff_step in *; lia.
Qed.

Lemma bstat_ext m m' d DS hsz :
  (forall x, d + 20 <= x < d + 24 \/ d + 32 <= x < d + 40 \/ d + 64 <= x < d + 72 -> mb m' x = mb m x) ->
  bstat m d DS hsz -> bstat m' d DS hsz.
Proof.
  intros F (H1 & H2 & H3). unfold bstat. ubody. split; [|split].
  - rewrite (num_ext m m'); [exact H1|]. intros k Hk. apply F. lia.
  - rewrite (num_ext m m'); [exact H2|]. intros k Hk. apply F. lia.
  - rewrite (num_ext m m'); [exact H3|]. intros k Hk. apply F. lia.
Qed.

(** ** Record arrays *)
Definition inst_ok (m : st) (a dh rt : N) : Prop :=
  num m (a + 12) 4 = rt mod W32 /\ num m (a + 8) 4 = a - dh /\ num m a 4 = 2.
Lemma init_insts_ok n : forall j dh ra isz rt m,
  16 <= isz -> ra + 12 + (j + N.of_nat n) * isz <= msz m -> msz m < W32 ->
  wp (init_insts n j dh ra isz rt) (fun _ m' =>
    frame (drange (ra + 12 + j * isz) (ra + 12 + (j + N.of_nat n) * isz)) m m' /\
    forall k, j <= k < j + N.of_nat n -> inst_ok m' (ra + 12 + k * isz) dh rt) m.
Proof.
  induction n as [|n IH]; intros j dh ra isz rt m Hi Hm Hs.
  - apply wp_ret. split; [apply frame_refl|]. intros k Hk. lia.
  - cbn [init_insts]. unfold REC_ARRAY. set (ri := ra + 12 + j * isz).
    assert (R1 : ra + 12 + (j + 1) * isz = ri + isz) by (unfold ri; lia).
    assert (R2 : ri + isz <= ra + 12 + (j + N.of_nat (S n)) * isz).
    { rewrite <- R1. apply N.add_le_mono_l, N.mul_le_mono_r. lia. }
    apply wp_bind, wp_sto; [lia|]. set (m1 := upd m _ _).
    apply wp_bind, wp_sto; [cbn [upd msz m1]; lia|]. set (m2 := upd m1 _ _).
    apply wp_bind, wp_sto; [cbn [upd msz m1 m2]; lia|]. set (m3 := upd m2 _ _).
    assert (F3 : frame (drange ri (ri + 16)) m m3).
    { apply (frame_trans _ _ m1); [apply frame_sto; intros x; unfold drange; lia|].
      apply (frame_trans _ _ m2); apply frame_sto; intros x; unfold drange; lia. }
    assert (I3 : inst_ok m3 ri dh rt).
    { unfold inst_ok. subst m3. rewrite num_sto_same. rewrite !num_sto_other by lia.
      subst m2. rewrite num_sto_same. rewrite !num_sto_other by lia. subst m1. rewrite num_sto_same.
      change (256 ^ N.of_nat 4) with W32. rewrite (N.mod_small (ri - dh)) by lia. auto. }
    assert (S3 : msz m3 = msz m) by apply (frame_msz _ _ _ F3).
    clearbody m3. clear m1 m2.
    specialize (IH (j + 1) dh ra isz rt m3 Hi). replace (j + 1 + N.of_nat n) with (j + N.of_nat (S n)) in IH by lia.
    eapply wp_mono; [apply IH; rewrite S3; assumption|]. clear IH.
    intros [] m4 [F4 I4]. rewrite R1 in F4. split.
    + apply (frame_trans _ _ m3); [eapply frame_weaken; [|exact F3]|eapply frame_weaken; [|exact F4]];
        intros x; unfold drange; lia.
    + intros k Hk. destruct (N.eq_dec k j) as [->|Hne]; [|apply I4; lia].
      fold ri. destruct I3 as (I31 & I32 & I33). unfold inst_ok.
      rewrite !(frame_num _ _ _ _ _ F4) by (intros x; unfold drange; lia). auto.
Qed.

(** A freshly initialised record array at [a] in the buffer at [dh]. *)
Definition recarr_ok (m : st) (a dh : N) (d : mdef) (rt isz : N) : Prop :=
  num m a 4 = isz mod W32 /\ num m (a + 4) 4 = rt mod W32 /\ num m (a + 8) 4 = md_count d /\
  forall k, k < md_count d -> inst_ok m (a + 12 + k * isz) dh rt.
Lemma recarr_ext m m' a dh d rt isz : 16 <= isz ->
  (forall x, a <= x < a + 12 + md_count d * isz -> mb m' x = mb m x) ->
  recarr_ok m a dh d rt isz -> recarr_ok m' a dh d rt isz.
Proof.
  intros Hi F (H1 & H2 & H3 & H4). unfold recarr_ok.
  rewrite !(num_ext m m') by (intros; apply F; lia). split; [exact H1|]. split; [exact H2|]. split; [exact H3|].
  intros k Hk. destruct (H4 k Hk) as (I1 & I2 & I3). unfold inst_ok.
  assert ((k + 1) * isz <= md_count d * isz) by (apply N.mul_le_mono_r; lia).
  rewrite !(num_ext m m') by (intros; apply F; lia). auto.
Qed.

Definition ra_slot (p : list entry) (d : mdef) (b x : N) : Prop :=
  drange (v_buf E b + voff p) (v_buf E b + voff p + md_data d) x.

Lemma ra_in p d rt isz q : v_es E = p ++ RecA d rt isz :: q ->
  16 <= isz /\ md_count d < W32 /\ 12 + md_count d * isz <= md_data d /\ voff p + md_data d <= v_ds E /\ 96 <= voff p /\
  data_e (RecA d rt isz) = true.
Proof.
  intros H. pose proof (e_wf E OK _ _ _ H) as (W0 & W1 & W2 & W3 & W4). cbn [base] in W0.
  assert (Hd : data_e (RecA d rt isz) = true) by (unfold data_e; cbn [base]; rewrite W2; reflexivity).
  destruct (e_voff E OK _ _ _ H Hd) as [V1 V2]. cbn [base] in V2. unfold REC_INST, REC_ARRAY, DATA_HDR in *.
  pose proof (round8_le (12 + md_count d * isz)). destruct W0 as (_ & _ & _ & _ & _ & _ & HC).
  repeat split; try lia; exact Hd.
Qed.

Lemma init_arr_bufs_ok p d rt isz q n : v_es E = p ++ RecA d rt isz :: q ->
  forall i m, static E m -> i + N.of_nat n <= v_ac E ->
  wp (init_arr_bufs n i (v_doff E p) (md_count d) isz rt) (fun _ m' =>
    static E m' /\ frame (fun x => exists b, i <= b < i + N.of_nat n /\ ra_slot p d b x) m m' /\
    forall b, i <= b < i + N.of_nat n -> recarr_ok m' (v_buf E b + voff p) (v_buf E b) d rt isz) m.
Proof.
  intros H. pose proof (ra_in _ _ _ _ _ H) as (R1 & R2 & R3 & R4 & R5 & R6).
  pose proof (e_doff E OK _ _ _ H) as BD. pose proof (e_ms_ge E OK) as HM.
  induction n as [|n IH]; intros i m S0 Hn.
  - apply wp_ret. split; [exact S0|]. split; [apply frame_refl|]. intros b Hb. lia.
  - cbn [init_arr_bufs]. destruct S0 as (SM & SB & SH). destruct SH as (H1 & H2 & H3 & H4).
    pose proof (e_buf E i ltac:(lia)) as B.
    apply wp_bind. apply (e_arr E OK i m); [lia|exact (h_data _ _ _ _ _ _ _ _ _ (proj1 SM))|exact H2|exact H1|].
    apply wp_bind, wp_ld; [unfold VD_OFF; lia|].
    pose proof (proj1 (proj2 (proj2 SM)) _ _ _ H) as HO. rewrite R6 in HO. rewrite HO.
    set (ra := v_buf E i + voff p). pose proof (ok_tot E OK) as HT.
    pose proof (e_bs E OK) as HB.
    apply wp_bind, wp_sto; [unfold ra; lia|]. set (m1 := upd m _ _).
    apply wp_bind, wp_sto; [cbn [upd msz m1]; unfold ra; lia|]. set (m2 := upd m1 _ _).
    apply wp_bind, wp_sto; [cbn [upd msz m1 m2]; unfold ra; lia|]. set (m3 := upd m2 _ _).
    assert (F3 : frame (drange ra (ra + 12)) m m3).
    { apply (frame_trans _ _ m1); [apply frame_sto; intros x; unfold drange; lia|].
      apply (frame_trans _ _ m2); apply frame_sto; intros x; unfold drange; lia. }
    assert (I3 : num m3 ra 4 = isz mod W32 /\ num m3 (ra + 4) 4 = rt mod W32 /\ num m3 (ra + 8) 4 = md_count d).
    { subst m3. rewrite num_sto_same. rewrite !num_sto_other by lia.
      subst m2. rewrite num_sto_same. rewrite !num_sto_other by lia. subst m1. rewrite num_sto_same.
      change (256 ^ N.of_nat 4) with W32. rewrite (N.mod_small (md_count d)) by lia. auto. }
    assert (S3 : msz m3 = msz m) by apply (frame_msz _ _ _ F3).
    clearbody m3. clear m1 m2.
    apply wp_bind. eapply wp_mono; [apply (init_insts_ok (N.to_nat (md_count d)) 0)|].
    { exact R1. } { rewrite S3. unfold ra. rewrite N2Nat.id. lia. } { rewrite S3. lia. }
    rewrite N2Nat.id, !N.add_0_l, N.mul_0_l, N.add_0_r.
    intros [] m4 [F4 I4].
    assert (G4 : frame (ra_slot p d i) m m4).
    { apply (frame_trans _ _ m3); [eapply frame_weaken; [|exact F3]|eapply frame_weaken; [|exact F4]];
        intros x; unfold ra_slot, drange, ra; lia. }
    assert (RA4 : recarr_ok m4 ra (v_buf E i) d rt isz).
    { destruct I3 as (I31 & I32 & I33). unfold recarr_ok.
      rewrite !(frame_num _ _ _ _ _ F4) by (intros x; unfold drange; lia).
      split; [exact I31|]. split; [exact I32|]. split; [exact I33|]. intros k Hk. apply I4. lia. }
    assert (ST : static E m4).
    { destruct G4 as ((E1 & E2 & E3 & E4 & E5) & G4'). split; [|split].
      - apply (smeta_ext m m4); [|exact SM].
        intros x Hx. apply G4'. intros Hy. apply Hx. unfold ra_slot, drange in Hy. do 4 right. lia.
      - intros b Hb. eapply bstat_ext; [|exact (SB b Hb)]. intros x Hx. apply G4'.
        unfold ra_slot, drange. destruct (N.lt_trichotomy b i) as [h|[->|h]].
        + pose proof (e_buf2 E b i h). lia.
        + lia.
        + pose proof (e_buf2 E i b h). lia.
      - unfold handle_ok. rewrite E1, E2, E3, E4. auto. }
    specialize (IH (i + 1) m4 ST). replace (i + 1 + N.of_nat n) with (i + N.of_nat (S n)) in IH by lia.
    eapply wp_mono; [apply IH; lia|]. clear IH. intros [] m5 (S5 & F5 & A5).
    split; [exact S5|]. split.
    + apply (frame_trans _ _ m4).
      * eapply frame_weaken; [|exact G4]. intros x Hx. exists i. split; [lia|exact Hx].
      * eapply frame_weaken; [|exact F5]. intros x (b & Hb & Hx). exists b. split; [lia|exact Hx].
    + intros b Hb. destruct (N.eq_dec b i) as [->|Hne]; [|apply A5; lia].
      fold ra. apply (recarr_ext m4 m5); [exact R1| |exact RA4].
      intros x Hx. apply (proj2 F5). intros (b' & Hb' & Hx'). unfold ra_slot, drange in Hx'.
      pose proof (e_buf2 E i b' ltac:(lia)). unfold ra in Hx. lia.
Qed.

Definition ra_range (pre post : list entry) (n x : N) : Prop :=
  exists p d rt isz q b, post = p ++ RecA d rt isz :: q /\ b < n /\ ra_slot (pre ++ p) d b x.

Lemma init_rec_arrays_ok n post : N.of_nat n <= v_ac E ->
  forall pre m, v_es E = pre ++ post -> static E m ->
  wp (init_rec_arrays post (N.of_nat (length pre)) n) (fun _ m' =>
    static E m' /\ frame (ra_range pre post (N.of_nat n)) m m' /\
    forall p d rt isz q b, post = p ++ RecA d rt isz :: q -> b < N.of_nat n ->
      recarr_ok m' (v_buf E b + voff (pre ++ p)) (v_buf E b) d rt isz) m.
Proof.
  intros Hn. induction post as [|e r IH]; intros pre m H S0.
  - apply wp_ret. split; [exact S0|]. split; [apply frame_refl|]. intros p d rt isz q b Hp. destruct p; discriminate.
  - cbn [init_rec_arrays].
    assert (CONT : forall m1, static E m1 ->
       frame (fun x => exists d rt isz b, e = RecA d rt isz /\ b < N.of_nat n /\ ra_slot pre d b x) m m1 ->
       (forall d rt isz b, e = RecA d rt isz -> b < N.of_nat n ->
          recarr_ok m1 (v_buf E b + voff pre) (v_buf E b) d rt isz) ->
       wp (init_rec_arrays r (N.of_nat (length pre) + 1) n) (fun _ m' =>
         static E m' /\ frame (ra_range pre (e :: r) (N.of_nat n)) m m' /\
         forall p d rt isz q b, e :: r = p ++ RecA d rt isz :: q -> b < N.of_nat n ->
           recarr_ok m' (v_buf E b + voff (pre ++ p)) (v_buf E b) d rt isz) m1).
    { intros m1 S1 F1 R1. specialize (IH (pre ++ [e]) m1). rewrite len_snoc in IH.
      eapply wp_mono; [apply IH; [now rewrite snoc_app|exact S1]|]. clear IH.
      intros [] m2 (S2 & F2 & R2). split; [exact S2|]. split.
      - apply (frame_trans _ _ m1).
        + eapply frame_weaken; [|exact F1]. intros x (d & rt & isz & b & -> & Hb & Hx).
          exists [], d, rt, isz, r, b. rewrite app_nil_r. auto.
        + eapply frame_weaken; [|exact F2]. intros x (p & d & rt & isz & q & b & -> & Hb & Hx).
          exists (e :: p), d, rt, isz, q, b. rewrite snoc_app in Hx. auto.
      - intros p d rt isz q b Hp Hb. destruct p as [|e0 p].
        + injection Hp as He <-. rewrite app_nil_r. subst e.
          pose proof (ra_in _ _ _ _ _ H) as (K1 & K2 & K3 & K4 & K5 & K6).
          apply (recarr_ext m1 m2); [exact K1| |exact (R1 _ _ _ _ eq_refl Hb)].
          intros x Hx. apply (proj2 F2). intros (p & d' & rt' & isz' & q & b' & Hr & Hb' & Hx').
          pose proof (ok_ra E OK _ _ _ _ _ H) as L. rewrite Hr in L. apply Forall_app in L. destruct L as [_ L].
          pose proof (proj1 (proj1 (Forall_cons_iff _ _ _) L)) as L'.
          assert (H' : v_es E = (pre ++ RecA d rt isz :: p) ++ RecA d' rt' isz' :: q).
          { rewrite H, Hr, <- app_assoc. reflexivity. }
          pose proof (ra_in _ _ _ _ _ H') as (_ & _ & _ & _ & _ & K6'). cbv beta in L'. congruence.
        + injection Hp as <- Hp. specialize (R2 p d rt isz q b Hp Hb). now rewrite snoc_app in R2. }
    apply wp_bind.
    destruct (N.eqb_spec (md_type (base e)) V_RECORD_ARRAY) as [Ht|Ht].
    + pose proof (e_wf E OK _ _ _ H) as W. destruct e as [d|rd|d rt isz].
      * exfalso. destruct W as (_ & _ & _ & W & _). contradiction.
      * exfalso. destruct W as (_ & W & _). cbn [base] in Ht. unfold V_RECORD_ARRAY in Ht. lia.
      * pose proof (e_doff E OK _ _ _ H) as BD. pose proof (e_ms_ge E OK) as HM.
        pose proof (e_D0 E) as HD. destruct S0 as (SM & SB & SH).
        destruct (proj1 (proj2 SM) _ _ _ H) as [DI _].
        assert (HI : N.of_nat (length pre) < v_c E).
        { unfold v_c. rewrite H, app_length. cbn [length]. lia. }
        apply wp_bind, wp_ld; [destruct SH as (-> & _); ubody; lia|]. rewrite DI.
        change (doff (v_D0 E) pre) with (v_doff E pre).
        pose proof (init_arr_bufs_ok pre d rt isz r n H 0 m) as IA. rewrite !N.add_0_l in IA.
        eapply wp_mono; [apply IA; [split; [exact SM|split; [exact SB|exact SH]]|exact Hn]|].
        intros [] m1 (S1 & F1 & R1). apply (CONT m1 S1).
        -- eapply frame_weaken; [|exact F1]. intros x (b & Hb & Hx). exists d, rt, isz, b. split; [reflexivity|]. split; [lia|exact Hx].
        -- intros d' rt' isz' b [= <- <- <-] Hb. apply R1. lia.
    + apply wp_ret. apply (CONT m S0); [apply frame_refl|].
      intros d rt isz b -> Hb. exfalso. apply Ht. pose proof (e_wf E OK _ _ _ H) as (_ & W & _). exact W.
Qed.
End Top.
