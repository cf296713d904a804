(** ldms_set_create establishes a fresh set. *)
From Verif Require Import Bytes M_Set L_SetMem L_SetLay L_SetCreate L_SetInit L_SetTop.
Local Open Scope N_scope.

Record fresh (E : env) (uid gid perm : N) (n : N) (m : st) : Prop := mkFresh {
  f_static : static E m;
  f_cur : cur m = v_ac E - 1;
  f_copy : copy m = false;
  f_gn : get m H_GN 8 = le 8 1;
  f_uid : get m H_UID 4 = le 4 uid;
  f_gid : get m H_GID 4 = le 4 gid;
  f_perm : get m H_PERM 4 = le 4 perm;
  f_buf : forall b, b < v_ac E ->
    get m (v_buf E b + D_CURR) 4 = le 4 (v_ac E - 1) /\
    get m (v_buf E b + D_GN) 8 = le 8 1 /\ get m (v_buf E b + D_META_GN) 8 = le 8 1 /\
    get m (v_buf E b + D_FLAGS) 4 = le 4 0 /\
    get m (v_buf E b + D_TS) 4 = le 4 0 /\ get m (v_buf E b + D_TS + 4) 4 = le 4 0 /\
    get m (v_buf E b + D_DUR) 4 = le 4 0 /\ get m (v_buf E b + D_DUR + 4) 4 = le 4 0 /\
    get m (v_buf E b + D_HEAP_GN) 4 = le 4 0;
  f_val : forall p d q b, v_es E = p ++ Plain d :: q -> data_e (Plain d) = true -> b < v_ac E ->
    forall x, v_buf E b + voff p <= x < v_buf E b + voff p + md_data d -> mb m x = 0;
  f_meta : forall p d q, v_es E = p ++ Plain d :: q -> data_e (Plain d) = false ->
    forall x, v_moff E p <= x < v_moff E p + md_data d -> mb m x = 0;
  f_user : forall p e q, v_es E = p ++ e :: q ->
    forall x, v_doff E p <= x < v_doff E p + 8 -> mb m x = 0;
  f_ra : forall p d rt isz q b, v_es E = p ++ RecA d rt isz :: q -> b < n ->
    recarr_ok m (v_buf E b + voff p) (v_buf E b) d rt isz
}.

Definition env_of (inst : list byte) (s : schema) (req : N) : env :=
  let es := map fix_list (s_list s) in
  mkEnv es inst (s_name s) (s_digest s) (acard_of s) (heap_size es req) (meta_size s inst) (s_data s).

Lemma first_desc_ok E m (Q : N -> st -> Prop) : ok_env E -> msz m = v_tot E ->
  hstat m (v_c E) (v_ms E) (v_bs E) (v_hsz E) (v_ac E) (v_inst E) (v_sname E) (v_dig E) ->
  Q (v_D0 E) m -> wp first_desc_at Q m.
Proof.
  intros OK Hm H HQ. pose proof (e_D0 E) as [HD _]. pose proof (e_ms_ge E OK) as HM. ubody.
  unfold first_desc_at, schema_name_at, instance_name_at. ubody.
  pose proof (h_card _ _ _ _ _ _ _ _ _ H) as HC. pose proof (h_il _ _ _ _ _ _ _ _ _ H) as HI. ubody.
  apply wp_bind, wp_bind, wp_bind, wp_ld; [lia|]. rewrite HC. apply wp_ret.
  apply wp_bind, wp_ld; [lia|]. rewrite HI. apply wp_ret.
  replace (140 + 4 * v_c E + 1 + (blen (v_inst E) + 1)) with (140 + 4 * v_c E + 2 + blen (v_inst E)) by lia.
  apply wp_bind, wp_ld; [lia|]. pose proof (h_sl _ _ _ _ _ _ _ _ _ H) as SL. ubody. rewrite SL. apply wp_ret.
  exact HQ.
Qed.

Lemma zero_frame P m m' (R : N -> Prop) : frame P m m' -> (forall x, R x -> ~ P x) ->
  (forall x, R x -> mb m x = 0) -> forall x, R x -> mb m' x = 0.
Proof. intros [_ F] HR H x Hx. rewrite F; auto. Qed.

Lemma num_frame P m m' a n v : frame P m m' -> num m a n = v ->
  (forall x, a <= x < a + N.of_nat n -> ~ P x) -> num m' a n = v.
Proof. intros F H HP. now rewrite (frame_num _ _ _ _ _ F HP). Qed.

Section Make.
Variables (inst : list byte) (s0 : schema) (uid gid perm req : N) (h : himg).
Let E := env_of inst s0 req.
Hypothesis OK : ok_env E.
Hypothesis HU : uid < W32.
Hypothesis HG : gid < W32.
Hypothesis HP : perm < W32.
Hypothesis HH : v_hsz E <> 0 -> length (hi_roots h) = 16%nat /\ blen (hi_base h) <= v_hsz E.
Hypothesis HA : (0 <= s_acard s0)%Z.

Lemma set_create_ok :
  exists m, set_create inst s0 uid gid perm req h false = Some (Ret tt m) /\
            fresh E uid gid perm (Z.to_N (s_acard s0)) m.
Proof.
  unfold set_create. cbn [s_acard s_data s_name s_digest s_meta].
  destruct (Z.ltb_spec (s_acard s0) 0); [lia|].
  pose proof (e_ds8 E OK) as D8. change (v_ds E) with (s_data s0) in D8.
  rewrite (round8_id _ D8), N.eqb_refl. cbn [negb].
  set (es := map fix_list (s_list s0)).
  set (s := mkSch (s_name s0) (s_digest s0) (s_meta s0) (s_data s0) (s_acard s0) es).
  change (meta_size s inst) with (v_ms E). change (acard_of s) with (v_ac E). change (heap_size es req) with (v_hsz E).
  assert (TT : total_size s inst (v_hsz E) = v_tot E) by reflexivity. rewrite TT.
  pose proof (ok_tot E OK) as HT. pose proof (e_ms_ge E OK) as HM. pose proof (e_D0 E) as HD.
  assert (SZ : v_tot E mod 4294967296 <> 0).
  { unfold W32 in HT. rewrite N.mod_small by exact HT. unfold H_DICT in HD. lia. }
  destruct (N.eqb_spec (v_tot E mod 4294967296) 0) as [Q0|_]; [contradiction|].
  pose proof (e_bs E OK) as HB. pose proof (ok_ac E OK) as HAC.
  assert (HAM : v_bs E * 1 <= v_bs E * v_ac E) by (apply N.mul_le_mono_l; lia).
  assert (HAM2 : 1 * v_ac E <= v_bs E * v_ac E) by (apply N.mul_le_mono_r; lia).
  assert (HTT : v_tot E = v_ms E + v_bs E * v_ac E) by reflexivity.
  match goal with |- exists m, Some (?P _) = _ /\ _ =>
    assert (W : wp P (fun _ m => fresh E uid gid perm (Z.to_N (s_acard s0)) m) (blank (v_tot E))) end.
  2:{ destruct (wp_res _ _ _ W) as (u & m & E1 & F1). destruct u. exists m. split; [now rewrite E1|exact F1]. }
  (* header *)
  assert (EC : s_card s = v_c E) by reflexivity.
  apply wp_bind. eapply wp_mono; [apply (write_header_ok s inst (v_hsz E) uid gid perm (v_tot E))|].
  { exact (proj2 (ok_in E OK)). } { exact (proj2 (ok_sn E OK)). } { exact (ok_dg E OK). }
  { rewrite EC. change (D0_of (v_c E) inst (s_name s)) with (v_D0 E). lia. } { exact HT. }
  { change (meta_size s inst) with (v_ms E). lia. } { change (s_data s) with (v_ds E). lia. }
  { change (acard_of s) with (v_ac E). lia. } { exact HU. } { exact HG. } { exact HP. }
  rewrite EC. change (D0_of (v_c E) inst (s_name s)) with (v_D0 E).
  change (meta_size s inst) with (v_ms E). change (s_data s + v_hsz E) with (v_bs E).
  change (acard_of s) with (v_ac E). change (s_name s) with (v_sname E). change (s_digest s) with (v_dig E).
  change inst with (v_inst E) at 1.
  intros [] m1 (H1 & G1 & U1 & GI1 & P1 & F1).
  assert (S1 : msz m1 = v_tot E) by (rewrite (frame_msz _ _ _ F1); reflexivity).
  assert (Z1 : forall x, v_D0 E <= x -> mb m1 x = 0).
  { intros x Hx. rewrite (proj2 F1); [reflexivity|]. unfold drange. lia. }
  clear F1.
  (* buffers *)
  apply wp_bind.
  pose proof (init_bufs_ok (N.to_nat (v_ac E)) 0 (v_ms E) (v_ds E) (v_hsz E) (v_ac E) h m1) as IB.
  cbv zeta in IB. rewrite N2Nat.id, N.add_0_l in IB. fold (v_bs E) in IB.
  change (s_data s) with (v_ds E).
  eapply wp_mono; [apply IB|]; clear IB.
  { apply HB. } { unfold H_DICT in HD. lia. } { rewrite S1, HTT. rewrite (N.mul_comm (v_ac E)). unfold v_bs. lia. }
  { rewrite S1. exact HT. } { lia. } { exact HH. } { intros x Hx. apply Z1. lia. }
  { unfold num. rewrite G1. reflexivity. }
  intros [] m2 (F2 & B2). change (v_ds E + v_hsz E) with (v_bs E) in F2, B2.
  assert (B2' : forall b, b < v_ac E -> bstat m2 (v_buf E b) (v_bs E) (v_hsz E) /\
    get m2 (v_buf E b + D_CURR) 4 = le 4 (v_ac E - 1) /\
    get m2 (v_buf E b + D_GN) 8 = le 8 1 /\ get m2 (v_buf E b + D_META_GN) 8 = le 8 1 /\
    get m2 (v_buf E b + D_FLAGS) 4 = le 4 0 /\
    get m2 (v_buf E b + D_TS) 4 = le 4 0 /\ get m2 (v_buf E b + D_TS + 4) 4 = le 4 0 /\
    get m2 (v_buf E b + D_DUR) 4 = le 4 0 /\ get m2 (v_buf E b + D_DUR + 4) 4 = le 4 0 /\
    get m2 (v_buf E b + D_HEAP_GN) 4 = le 4 0 /\
    forall x, v_buf E b + 96 <= x < v_buf E b + v_ds E -> mb m2 x = 0).
  { intros b Hb. apply (B2 b). lia. }
  clear B2.
  assert (F2' : frame (fun x => v_ms E <= x) m1 m2).
  { eapply frame_weaken; [|exact F2]. intros x Hx. cbv beta in Hx. lia. }
  clear F2.
  assert (S2 : msz m2 = v_tot E) by (rewrite (frame_msz _ _ _ F2'); exact S1).
  assert (Z2 : forall x, v_D0 E <= x < v_ms E -> mb m2 x = 0).
  { intros x Hx. rewrite (proj2 F2') by lia. apply Z1. lia. }
  assert (H2 : hstat m2 (v_c E) (v_ms E) (v_bs E) (v_hsz E) (v_ac E) (v_inst E) (v_sname E) (v_dig E)).
  { eapply hstat_ext; [|exact H1]. intros x Hx. apply (proj2 F2'). unfold H_DICT in *. lia. }
  assert (N2 : forall a n, a + N.of_nat n <= v_ms E -> get m2 a n = get m1 a n).
  { intros a n Ha. apply (frame_get _ _ _ _ _ F2'). intros x Hx. lia. }
  unfold H_DICT in HD.
  assert (G2 : get m2 H_GN 8 = le 8 1 /\ get m2 H_UID 4 = le 4 uid /\ get m2 H_GID 4 = le 4 gid /\ get m2 H_PERM 4 = le 4 perm).
  { rewrite !N2 by (ubody; lia). auto. }
  clear H1 G1 U1 GI1 P1 Z1 F2' N2 S1.
  (* descriptors *)
  apply wp_bind. apply (first_desc_ok E m2 _ OK S2 H2).
  apply wp_bind. change es with (v_es E).
  pose proof (desc_pass_ok (v_es E) (v_D0 E) (ok_wf E OK) (e_h1 E) (e_h2 E OK) (v_es E) [] m2 eq_refl) as DP.
  cbn [length] in DP. change (N.of_nat 0) with 0 in DP. change (doff (v_D0 E) []) with (v_D0 E + 0) in DP.
  change (voff []) with (DATA_HDR + 0) in DP. rewrite !N.add_0_r in DP.
  eapply wp_mono; [apply DP|]; clear DP. { rewrite S2. change (doff (v_D0 E) (v_es E)) with (v_doff E (v_es E)). lia. }
  intros vend m3 (-> & F3 & D3).
  change (doff (v_D0 E) (v_es E)) with (v_doff E (v_es E)).
  cbn [app] in D3. change (N.of_nat (length (v_es E))) with (v_c E) in F3.
  assert (F3' : frame (fun x => drange H_DICT (H_DICT + 4 * v_c E) x \/ drange (v_D0 E) (v_doff E (v_es E)) x) m2 m3).
  { eapply frame_weaken; [|exact F3]. intros x [Hx|Hx]; [now left|right].
    apply dfld_range in Hx. cbn [app] in Hx. unfold drange. change (doff (v_D0 E) []) with (v_D0 E + 0) in Hx.
    unfold v_doff. lia. }
  assert (DE8 : v_doff E (v_es E) mod 8 = 0).
  { unfold v_doff, doff. rewrite N.add_mod, (proj2 HD), sum_mod8 by
      (try (eapply Forall_impl; [|exact (ok_wf E OK)]; intros e He; exact (proj2 (meta_room _ (proj1 He)))); lia).
    reflexivity. }
  rewrite (round8_id _ DE8).
  assert (S3 : msz m3 = v_tot E) by (rewrite (frame_msz _ _ _ F3'); exact S2).
  assert (H3 : hstat m3 (v_c E) (v_ms E) (v_bs E) (v_hsz E) (v_ac E) (v_inst E) (v_sname E) (v_dig E)).
  { eapply hstat_ext; [|exact H2]. intros x Hx. apply (proj2 F3'). unfold drange, H_DICT in *. lia. }
  assert (DA3 : desc_all (v_es E) (v_D0 E) m3).
  { intros p e q Hp. destruct (D3 p e q Hp) as [Q1 Q2]. split; [exact Q1|]. apply desc_split in Q2. apply Q2. }
  assert (O3 : forall p e q, v_es E = p ++ e :: q -> data_e e = true -> num m3 (v_doff E p + VD_OFF) 4 = voff p).
  { intros p e q Hp Hd. destruct (D3 p e q Hp) as [_ Q2]. apply desc_split in Q2. destruct Q2 as [_ Q2].
    rewrite Hd in Q2. rewrite N.mod_small in Q2; [exact Q2|].
    destruct (e_voff E OK _ _ _ Hp Hd). lia. }
  assert (Z3u : forall p e q, v_es E = p ++ e :: q -> forall x, v_doff E p <= x < v_doff E p + 8 -> mb m3 x = 0).
  { intros p e q Hp x Hx. pose proof (e_doff E OK _ _ _ Hp) as BD. rewrite (proj2 F3).
    - apply Z2. lia.
    - intros [Hy|(p' & e' & q' & Hp' & Hy)]; [unfold drange in Hy; ubody; lia|].
      cbn [app] in Hy. change (doff (v_D0 E) p') with (v_doff E p') in Hy.
      destruct (split2 _ _ _ _ _ _ _ Hp Hp') as [(<- & <- & <-)|[[r ->]|[r ->]]]; [lia| |];
        rewrite e_doff_step in *; lia. }
  assert (Z3 : forall x, v_doff E (v_es E) <= x < v_ms E -> mb m3 x = 0).
  { intros x Hx. rewrite (proj2 F3'); [apply Z2; lia|]. unfold drange. ubody. lia. }
  assert (K3 : forall x, v_ms E <= x \/ x < 140 -> mb m3 x = mb m2 x).
  { intros x Hx. apply (proj2 F3'). unfold drange, H_DICT. lia. }
  clear F3 F3' D3 H2.
  (* meta values *)
  apply wp_bind.
  pose proof (meta_pass_ok (v_es E) (v_D0 E) (ok_wf E OK) (e_h1 E) (e_h2 E OK) (proj2 HD) (v_es E) [] m3 eq_refl DA3) as MP.
  cbn [length] in MP. change (N.of_nat 0) with 0 in MP.
  change (moff (v_es E) (v_D0 E) []) with (v_doff E (v_es E) + 0) in MP. rewrite N.add_0_r in MP.
  change (moff (v_es E) (v_D0 E) (v_es E)) with (v_moff E (v_es E)) in MP.
  pose proof (proj1 (ok_ms E OK)) as HMM.
  eapply wp_mono; [apply MP|]; clear MP. { rewrite S3. lia. } { lia. }
  intros [] m4 (DA4 & F4 & M4). cbn [app] in M4.
  assert (A4 : forall x, off_field (v_D0 E) [] (v_es E) x \/ rfld (v_es E) (v_D0 E) [] (v_es E) x -> v_D0 E <= x < v_ms E).
  { intros x [(p & e & q & Hp & Hd & Hx)|(p & r & q & Hp & Hx)]; cbn [app] in Hx.
    - pose proof (e_doff E OK _ _ _ Hp). unfold v_doff in *. lia.
    - pose proof (e_moff E OK _ _ _ Hp). pose proof (e_wf E OK _ _ _ Hp) as WR.
      assert (mstep (RecT r) = md_data (rc_mdef r)) by (unfold mstep; rewrite (rect_meta r WR); reflexivity).
      unfold v_moff in *. lia. }
  assert (S4 : msz m4 = v_tot E) by (rewrite (frame_msz _ _ _ F4); exact S3).
  assert (K4 : forall x, v_ms E <= x \/ x < v_D0 E -> mb m4 x = mb m3 x).
  { intros x Hx. apply (proj2 F4). intros Hy. apply A4 in Hy. lia. }
  assert (K4' : forall x, v_ms E <= x \/ x < 140 -> mb m4 x = mb m2 x).
  { intros x Hx. rewrite K4 by lia. apply K3. exact Hx. }
  assert (SM4 : smeta E m4).
  { split; [|split; [exact DA4|split]].
    - eapply hstat_ext; [|exact H3]. intros x Hx. apply K4. unfold H_DICT in *. lia.
    - intros p e q Hp. destruct (data_e e) eqn:Ed.
      + rewrite <- (O3 p e q Hp Ed). apply num_ext. intros x Hx. apply (proj2 F4). unfold VD_OFF in Hx.
        pose proof (e_doff E OK _ _ _ Hp) as BD.
        intros [(p' & e' & q' & Hp' & Hd & Hy)|(p' & r & q' & Hp' & Hy)]; cbn [app] in Hy.
        * change (doff (v_D0 E) p') with (v_doff E p') in Hy.
          destruct (split2 _ _ _ _ _ _ _ Hp Hp') as [(<- & <- & <-)|[[r ->]|[r ->]]]; [congruence| |].
          -- rewrite e_doff_step in *; lia.
          -- pose proof (e_doff E OK _ _ _ Hp'). rewrite e_doff_step in *; lia.
        * pose proof (e_moff E OK _ _ _ Hp'). unfold v_moff in *. lia.
      + exact (proj1 (M4 p e q Hp Ed)).
    - intros p r q Hp. pose proof (e_wf E OK _ _ _ Hp) as WR.
      exact (proj2 (M4 p (RecT r) q Hp (rect_meta r WR))). }
  assert (B4 : forall b, b < v_ac E -> bstat m4 (v_buf E b) (v_bs E) (v_hsz E)).
  { intros b Hb. eapply bstat_ext; [|exact (proj1 (B2' b Hb))]. intros x Hx. apply K4'.
    pose proof (e_buf E b Hb). lia. }
  assert (Z4u : forall p e q, v_es E = p ++ e :: q -> forall x, v_doff E p <= x < v_doff E p + 8 -> mb m4 x = 0).
  { intros p e q Hp x Hx. pose proof (e_doff E OK _ _ _ Hp) as BD. rewrite (proj2 F4); [exact (Z3u p e q Hp x Hx)|].
    intros [(p' & e' & q' & Hp' & Hd & Hy)|(p' & r & q' & Hp' & Hy)]; cbn [app] in Hy.
    - change (doff (v_D0 E) p') with (v_doff E p') in Hy. pose proof (e_doff E OK _ _ _ Hp').
      destruct (split2 _ _ _ _ _ _ _ Hp Hp') as [(<- & <- & <-)|[[r ->]|[r ->]]]; [lia| |];
        rewrite e_doff_step in *; lia.
    - pose proof (e_moff E OK _ _ _ Hp'). unfold v_moff in *. lia. }
  assert (Z4m : forall p d q, v_es E = p ++ Plain d :: q -> data_e (Plain d) = false ->
    forall x, v_moff E p <= x < v_moff E p + md_data d -> mb m4 x = 0).
  { intros p d q Hp Hd x Hx. pose proof (e_moff E OK _ _ _ Hp) as BM.
    assert (MSd : mstep (Plain d) = md_data d) by (unfold mstep; rewrite Hd; reflexivity).
    rewrite (proj2 F4); [apply Z3; lia|].
    intros [(p' & e' & q' & Hp' & _ & Hy)|(p' & r & q' & Hp' & Hy)]; cbn [app] in Hy.
    - pose proof (e_doff E OK _ _ _ Hp'). unfold v_doff in *. lia.
    - change (moff (v_es E) (v_D0 E) p') with (v_moff E p') in Hy.
      pose proof (e_wf E OK _ _ _ Hp') as WR.
      assert (MSr : mstep (RecT r) = md_data (rc_mdef r)) by (unfold mstep; rewrite (rect_meta r WR); reflexivity).
      destruct (split2 _ _ _ _ _ _ _ Hp Hp') as [(_ & HH' & _)|[[t ->]|[t ->]]]; [discriminate| |];
        rewrite e_moff_step in *; lia. }
  clear F4 M4 A4 Z3 Z3u O3 DA3 DA4 H3 K3 K4 S3 Z2.
  (* the handle *)
  apply wp_bind.
  assert (RS : record_set m4 = Ret tt (mkSt (msz m4) (mb m4) (v_ms E) (v_buf E (v_ac E - 1)) (v_ac E - 1) false)).
  { unfold record_set.
    assert (W : wp (b <- ld 4 H_META_SZ;; n1 <- ld 4 H_ARRAY_CARD;; z <- ld 4 H_DATA_SZ;; ret (b, (n1 - 1, z)))
       (fun r m => r = (v_ms E, (v_ac E - 1, v_bs E)) /\ m = m4) m4).
    { destruct SM4 as (HS & _).
      apply wp_bind, wp_ld; [ubody; lia|]. apply wp_bind, wp_ld; [ubody; lia|]. apply wp_bind, wp_ld; [ubody; lia|].
      apply wp_ret. rewrite (h_meta _ _ _ _ _ _ _ _ _ HS), (h_ac _ _ _ _ _ _ _ _ _ HS), (h_data _ _ _ _ _ _ _ _ _ HS). auto. }
    destruct (wp_res _ _ _ W) as (r & m' & -> & -> & ->). unfold v_buf.
    rewrite (N.mod_small ((v_ac E - 1) * v_bs E)); [reflexivity|].
    pose proof (e_buf E (v_ac E - 1) ltac:(lia)) as BB. unfold v_buf, W32 in *. lia. }
  unfold wp at 1. rewrite RS. clear RS.
  set (m5 := mkSt _ _ _ _ _ _).
  assert (ST5 : static E m5).
  { split; [|split].
    - apply (smeta_ext E OK m4 m5); [reflexivity|exact SM4].
    - exact B4.
    - unfold handle_ok. cbn [m5 msz darr dat cur]. repeat split; [exact S4|lia]. }
  pose proof (init_rec_arrays_ok E OK (Z.to_nat (s_acard s0)) (v_es E)) as IR.
  assert (NA : N.of_nat (Z.to_nat (s_acard s0)) = Z.to_N (s_acard s0)) by lia.
  assert (NL : Z.to_N (s_acard s0) <= v_ac E).
  { change (v_ac E) with (acard_of s0). unfold acard_of. destruct (Z.eqb_spec (s_acard s0) 0); lia. }
  rewrite NA in IR. specialize (IR NL [] m5 eq_refl ST5). cbn [length] in IR. change (N.of_nat 0) with 0 in IR.
  eapply wp_mono; [exact IR|]. clear IR. intros [] m6 (ST6 & F6 & R6). cbn [app] in R6.
  assert (A6 : forall x, ra_range E [] (v_es E) (Z.to_N (s_acard s0)) x ->
     exists p d rt isz q b, v_es E = p ++ RecA d rt isz :: q /\ b < v_ac E /\
       v_buf E b + voff p <= x < v_buf E b + voff p + md_data d).
  { intros x (p & d & rt & isz & q & b & Hp & Hb & Hx). cbn [app] in Hx. exists p, d, rt, isz, q, b.
    split; [exact Hp|]. split; [lia|]. exact Hx. }
  assert (K6 : forall x, x < v_ms E -> mb m6 x = mb m4 x).
  { intros x Hx. rewrite (proj2 F6); [reflexivity|]. intros Hy. apply A6 in Hy.
    destruct Hy as (p & d & rt & isz & q & b & Hp & Hb & Hy). pose proof (e_buf E b Hb). lia. }
  assert (K6b : forall b o n, b < v_ac E -> o + N.of_nat n <= 96 -> get m6 (v_buf E b + o) n = get m2 (v_buf E b + o) n).
  { intros b o n Hb Ho. pose proof (e_buf E b Hb) as BB. apply get_ext. intros x Hx. rewrite (proj2 F6).
    - apply K4'. lia.
    - intros Hy. apply A6 in Hy. destruct Hy as (p & d & rt & isz & q & b' & Hp & Hb' & Hy).
      pose proof (ra_in E OK _ _ _ _ _ Hp) as (_ & _ & _ & RV & RO & _).
      destruct (N.lt_trichotomy b b') as [l|[->|l]].
      + pose proof (e_buf2 E b b' l). lia.
      + lia.
      + pose proof (e_buf2 E b' b l). lia. }
  pose proof F6 as ((E1 & E2 & E3 & E4 & E5) & _).
  constructor.
  - exact ST6.
  - rewrite E4. reflexivity.
  - rewrite E5. reflexivity.
  - rewrite <- (proj1 G2). apply get_ext. intros x Hx. unfold H_GN in Hx. rewrite K6, K4' by lia. reflexivity.
  - rewrite <- (proj1 (proj2 G2)). apply get_ext. intros x Hx. unfold H_UID in Hx. rewrite K6, K4' by lia. reflexivity.
  - rewrite <- (proj1 (proj2 (proj2 G2))). apply get_ext. intros x Hx. unfold H_GID in Hx. rewrite K6, K4' by lia. reflexivity.
  - rewrite <- (proj2 (proj2 (proj2 G2))). apply get_ext. intros x Hx. unfold H_PERM in Hx. rewrite K6, K4' by lia. reflexivity.
  - intros b Hb. destruct (B2' b Hb) as (_ & J1 & J2 & J3 & J4 & J5 & J6 & J7 & J8 & J9 & _).
    rewrite <- !N.add_assoc in *.
    rewrite !K6b by (try exact Hb; ubody; lia). repeat split; assumption.
  - intros p d q b Hp Hd Hb x Hx. destruct (e_voff E OK _ _ _ Hp Hd) as [V1 V2]. cbn [base] in V2.
    pose proof (e_buf E b Hb) as BB. unfold DATA_HDR in V1.
    rewrite (proj2 F6).
    + change (mb m5 x) with (mb m4 x). rewrite K4' by lia. apply (B2' b Hb). lia.
    + intros Hy. apply A6 in Hy. destruct Hy as (p' & d' & rt & isz & q' & b' & Hp' & Hb' & Hy).
      pose proof (ra_in E OK _ _ _ _ _ Hp') as (_ & _ & _ & RV & RO & RD).
      destruct (N.lt_trichotomy b b') as [l|[<-|l]].
      * pose proof (e_buf2 E b b' l). lia.
      * destruct (e_voff E OK _ _ _ Hp' RD) as [V1' _]. unfold DATA_HDR in V1'.
        destruct (split2 _ _ _ _ _ _ _ Hp Hp') as [(_ & Hx' & _)|[[t ->]|[t ->]]]; [discriminate| |].
        -- rewrite sum_app, sum_cons in V1'. unfold dstep at 2 in V1'. rewrite Hd in V1'. cbn [base] in V1'. lia.
        -- rewrite sum_app, sum_cons in V1. unfold dstep at 2 in V1. rewrite RD in V1. cbn [base] in V1. lia.
      * pose proof (e_buf2 E b' b l). lia.
  - intros p d q Hp Hd x Hx. pose proof (e_moff E OK _ _ _ Hp) as BM.
    assert (MSd : mstep (Plain d) = md_data d) by (unfold mstep; rewrite Hd; reflexivity).
    rewrite K6 by lia. exact (Z4m p d q Hp Hd x Hx).
  - intros p e q Hp x Hx. pose proof (e_doff E OK _ _ _ Hp) as BD. rewrite K6 by lia. exact (Z4u p e q Hp x Hx).
  - intros p d rt isz q b Hp Hb. exact (R6 p d rt isz q b Hp Hb).
Qed.
End Make.
