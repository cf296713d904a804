(** Set creation: header, buffers, record arrays, and the whole of it. *)
From Verif Require Import Bytes M_Set L_SetMem L_SetLay L_SetCreate.
Local Open Scope N_scope.

Ltac ubody := unfold H_GN, H_VERSION, H_FLAGS, H_CARD, H_META_SZ, H_DATA_SZ, H_UID, H_GID, H_PERM,
  H_ARRAY_CARD, H_HEAP_SZ, H_DICT, D_TS, D_DUR, D_FLAGS, D_SET_OFF, D_GN, D_SIZE, D_META_GN, D_CURR,
  D_HEAP, D_HEAP_SIZE, D_HEAP_GN, D_HEAP_TREES, DATA_HDR, DIGEST, drange in *.

(** Fixed part of the header: everything but the generation number and the owner. *)
Record hstat (m : st) (c MS DS hsz ac : N) (inst sname digest : list byte) : Prop := mkHstat {
  h_ver : get m H_VERSION 4 = [4; 2; 0; 0];
  h_card : num m H_CARD 4 = c;
  h_meta : num m H_META_SZ 4 = MS;
  h_data : num m H_DATA_SZ 4 = DS;
  h_heap : num m H_HEAP_SZ 4 = hsz;
  h_ac : num m H_ARRAY_CARD 4 = ac;
  h_il : num m (H_DICT + 4 * c) 1 = blen inst + 1;
  h_in : get m (H_DICT + 4 * c + 1) (S (length inst)) = inst ++ [0];
  h_sl : num m (H_DICT + 4 * c + 2 + blen inst) 1 = blen sname + 34;
  h_sn : get m (H_DICT + 4 * c + 3 + blen inst) (S (length sname)) = sname ++ [0];
  h_dg : get m (H_DICT + 4 * c + 4 + blen inst + blen sname) 32 = digest
}.

Lemma hstat_ext m m' c MS DS hsz ac inst sname digest :
  (forall x, 72 <= x < 76 \/ 80 <= x < 92 \/ 104 <= x < 112 \/
     H_DICT + 4 * c <= x < H_DICT + 4 * c + 36 + blen inst + blen sname -> mb m' x = mb m x) ->
  hstat m c MS DS hsz ac inst sname digest -> hstat m' c MS DS hsz ac inst sname digest.
Proof.
  intros H [H1 H2 H3 H4 H5 H6 H7 H8 H9 H10 H11]. ubody.
  constructor; ubody;
    first [rewrite (num_ext m m') by (intros k Hk; apply H; unfold blen in *; lia)
          |rewrite (get_ext m m') by (intros k Hk; apply H; unfold blen in *; lia)]; assumption.
Qed.

Definition D0_of (c : N) (inst sname : list byte) : N :=
  round8 (H_DICT + 4 * c + 2 + blen inst + 1 + (blen sname + 34)).

Lemma write_header_ok s inst hsz uid gid perm sz :
  let c := s_card s in
  blen inst < 255 -> blen (s_name s) < 222 -> length (s_digest s) = 32%nat ->
  D0_of c inst (s_name s) <= sz -> sz < W32 ->
  meta_size s inst < W32 -> s_data s + hsz < W32 -> acard_of s < W32 ->
  uid < W32 -> gid < W32 -> perm < W32 ->
  wp (write_header s inst hsz uid gid perm) (fun _ m =>
    hstat m c (meta_size s inst) (s_data s + hsz) hsz (acard_of s) inst (s_name s) (s_digest s) /\
    get m H_GN 8 = le 8 1 /\ get m H_UID 4 = le 4 uid /\ get m H_GID 4 = le 4 gid /\ get m H_PERM 4 = le 4 perm /\
    frame (drange 64 (D0_of c inst (s_name s))) (blank sz) m) (blank sz).
Proof.
  intros c Hi Hs Hd HD Hz HM HDS HA HU HG HP.
  pose proof (round8_le (H_DICT + 4 * c + 2 + blen inst + 1 + (blen (s_name s) + 34))) as R.
  change (round8 (H_DICT + 4 * c + 2 + blen inst + 1 + (blen (s_name s) + 34)))
    with (D0_of c inst (s_name s)) in R.
  set (D0 := D0_of c inst (s_name s)) in *. clearbody D0.
  unfold write_header. fold c.
  set (MS := meta_size s inst) in *. clearbody MS. set (ac := acard_of s) in *. clearbody ac. clearbody c.
  ubody.
  assert (H0 : msz (blank sz) = sz) by reflexivity.
  assert (F0 : frame (drange 64 D0) (blank sz) (blank sz)) by apply frame_refl.
  set (m0 := blank sz) in *. clearbody m0.
  apply wp_bind, wp_store; [change (blen [4;2;0;0]) with 4; lia|]. set (m1 := upd m0 _ _).
  do 10 (apply wp_bind, wp_sto; [cbn [upd msz m1]; lia|]).
  set (m2 := upd _ 104 _).
  assert (F2 : frame (drange 64 120) m0 m2).
  { subst m2.
    do 10 (eapply frame_trans; [|apply frame_sto; intros x; unfold drange; lia]).
    apply frame_upd. change (blen [4;2;0;0]) with 4. intros x; unfold drange; lia. }
  assert (G2 : get m2 72 4 = [4;2;0;0] /\ num m2 80 4 = c /\ num m2 84 4 = MS /\ num m2 88 4 = s_data s + hsz /\
    num m2 108 4 = hsz /\ num m2 104 4 = ac /\ get m2 64 8 = le 8 1 /\ get m2 92 4 = le 4 uid /\ get m2 96 4 = le 4 gid /\
    get m2 100 4 = le 4 perm).
  { assert (C : c < W32) by lia.
    subst m2. split.
    { rewrite !get_sto_other by lia. subst m1. apply (get_upd_same m0 72 [4;2;0;0]). }
    repeat match goal with |- _ /\ _ => split end;
      try solve [rewrite ?num_sto_other by lia; rewrite num_sto_same; change (256 ^ N.of_nat 4) with W32;
        try reflexivity; apply N.mod_small; lia];
      rewrite ?get_sto_other by lia; apply get_sto_same. }
  assert (S2 : msz m2 = sz) by (rewrite (frame_msz _ _ _ F2); exact H0).
  clearbody m2. clear m1.
  unfold instance_name_at, schema_name_at. ubody.
  destruct G2 as (V2 & C2 & M2 & DD2 & HH2 & A2 & GN2 & U2 & GI2 & P2).
  unfold instance_name_at. ubody.
  apply wp_bind, wp_bind, wp_ld; [lia|]. apply wp_ret. rewrite C2.
  apply wp_bind, wp_sto; [lia|]. set (m3 := upd m2 _ _).
  apply wp_bind, wp_store; [cbn [upd msz m3]; rewrite blen_app, blen_one; lia|]. set (m4 := upd m3 _ _).
  assert (F4 : frame (drange (140 + 4 * c) (140 + 4 * c + 2 + blen inst)) m2 m4).
  { apply (frame_trans _ _ m3); [apply frame_sto|apply frame_upd]; intros x; rewrite ?blen_app, ?blen_one; unfold drange; lia. }
  assert (L4 : num m4 (140 + 4 * c) 1 = blen inst + 1).
  { subst m4. rewrite num_upd_other by lia. subst m3. rewrite num_sto_same. change (256 ^ N.of_nat 1) with 256.
    apply N.mod_small. lia. }
  assert (N4 : get m4 (140 + 4 * c + 1) (S (length inst)) = inst ++ [0]).
  { subst m4. replace (S (length inst)) with (length (inst ++ [0])) by (rewrite app_length; cbn; lia). apply get_upd_same. }
  assert (S4 : msz m4 = sz) by (rewrite (frame_msz _ _ _ F4); exact S2).
  clearbody m4. clear m3.
  apply wp_bind, wp_bind, wp_bind, wp_ld; [lia|]. apply wp_ret.
  rewrite (frame_num _ _ _ _ _ F4) by (intros x; unfold drange; lia). rewrite C2.
  apply wp_bind, wp_ld; [lia|]. apply wp_ret. rewrite L4.
  replace (140 + 4 * c + 1 + (blen inst + 1)) with (140 + 4 * c + 2 + blen inst) by lia.
  assert (DL : blen (s_digest s) = 32) by (unfold blen; rewrite Hd; reflexivity).
  apply wp_bind, wp_store; [rewrite blen_app, blen_one; lia|]. set (m5 := upd m4 _ _).
  apply wp_bind, wp_store; [cbn [upd msz m5]; rewrite DL; lia|]. set (m6 := upd m5 _ _).
  apply wp_sto; [cbn [upd msz m6 m5]; lia|]. set (m7 := upd m6 _ _).
  assert (F7 : frame (drange (140 + 4 * c + 2 + blen inst) (140 + 4 * c + 36 + blen inst + blen (s_name s))) m4 m7).
  { apply (frame_trans _ _ m5); [apply frame_upd; intros x; rewrite ?blen_app, ?blen_one; unfold drange; lia|].
    apply (frame_trans _ _ m6); [apply frame_upd|apply frame_sto]; intros x; rewrite ?DL; unfold drange; lia. }
  assert (K : forall a n, a + N.of_nat n <= 140 + 4 * c -> num m7 a n = num m2 a n).
  { intros a n Ha. rewrite (frame_num _ _ _ _ _ F7) by (intros x; unfold drange; lia).
    apply (frame_num _ _ _ _ _ F4). intros x; unfold drange; lia. }
  assert (KG : forall a n, a + N.of_nat n <= 140 + 4 * c -> get m7 a n = get m2 a n).
  { intros a n Ha. rewrite (frame_get _ _ _ _ _ F7) by (intros x; unfold drange; lia).
    apply (frame_get _ _ _ _ _ F4). intros x; unfold drange; lia. }
  split; [|split; [|split; [|split; [|split]]]].
  2-5: rewrite KG by lia; assumption.
  - constructor; ubody; try (rewrite K by lia; assumption).
    + rewrite (frame_get _ _ _ _ _ F7) by (intros x; unfold drange; lia).
      rewrite (frame_get _ _ _ _ _ F4) by (intros x; unfold drange; lia). assumption.
    + rewrite (frame_num _ _ _ _ _ F7) by (intros x; unfold drange; lia). assumption.
    + rewrite (frame_get _ _ _ _ _ F7) by (intros x; unfold drange, blen; lia). assumption.
    + subst m7. rewrite num_sto_same. change (256 ^ N.of_nat 1) with 256. rewrite N.mod_small by lia. lia.
    + subst m7. rewrite get_sto_other by lia. subst m6.
      rewrite get_upd_other by (unfold blen; lia). subst m5.
      replace (140 + 4 * c + 3 + blen inst) with (140 + 4 * c + 2 + blen inst + 1) by lia.
      replace (S (length (s_name s))) with (length (s_name s ++ [0])) by (rewrite app_length; cbn; lia).
      apply get_upd_same.
    + subst m7. rewrite get_sto_other by lia. subst m6.
      replace (140 + 4 * c + 4 + blen inst + blen (s_name s)) with
        (140 + 4 * c + 2 + blen inst + 1 + blen (s_name s) + 1) by lia.
      rewrite <- Hd. apply get_upd_same.
  - apply (frame_trans _ _ m2); [eapply frame_weaken; [|exact F2]; intros x; unfold drange; lia|].
    apply (frame_trans _ _ m4); [eapply frame_weaken; [|exact F4]; intros x; unfold drange; lia|].
    eapply frame_weaken; [|exact F7]. intros x; unfold drange; lia.
Qed.

(** ** Buffers *)
(** Fixed fields of a data header. *)
Definition bstat (m : st) (d DS hsz : N) : Prop :=
  num m (d + D_SIZE) 8 = DS /\ num m (d + D_SET_OFF) 4 = d /\ num m (d + D_HEAP_SIZE) 8 = hsz.

Lemma init_bufs_ok n : forall i db dsz hsz ac h m,
  let buf j := db + j * (dsz + hsz) in
  96 <= dsz -> 120 <= db ->
  buf (i + N.of_nat n) <= msz m -> msz m < W32 -> ac < W32 ->
  (hsz <> 0 -> length (hi_roots h) = 16%nat /\ blen (hi_base h) <= hsz) ->
  (forall x, buf i <= x -> mb m x = 0) -> num m H_GN 8 = 1 ->
  wp (init_bufs n i db dsz hsz ac h) (fun _ m' =>
    frame (fun x => buf i <= x < buf (i + N.of_nat n)) m m' /\
    (forall j, i <= j < i + N.of_nat n ->
       bstat m' (buf j) (dsz + hsz) hsz /\ get m' (buf j + D_CURR) 4 = le 4 (ac - 1) /\
       get m' (buf j + D_GN) 8 = le 8 1 /\ get m' (buf j + D_META_GN) 8 = le 8 1 /\
       get m' (buf j + D_FLAGS) 4 = le 4 0 /\
       get m' (buf j + D_TS) 4 = le 4 0 /\ get m' (buf j + D_TS + 4) 4 = le 4 0 /\
       get m' (buf j + D_DUR) 4 = le 4 0 /\ get m' (buf j + D_DUR + 4) 4 = le 4 0 /\
       get m' (buf j + D_HEAP_GN) 4 = le 4 0 /\
       forall x, buf j + 96 <= x < buf j + dsz -> mb m' x = 0)) m.
Proof.
  induction n as [|n IH]; intros i db dsz hsz ac h m buf Hd Hdb Hm Hs Ha Hh Hz Hg.
  - apply wp_ret. split; [apply frame_refl|]. intros j Hj. lia.
  - assert (BS : forall j, buf (j + 1) = buf j + (dsz + hsz)) by (intros j; unfold buf; lia).
    assert (BM : forall j k, j <= k -> buf j <= buf k).
    { intros j k Hjk. unfold buf. apply N.add_le_mono_l, N.mul_le_mono_r. exact Hjk. }
    assert (BE : buf (i + 1) <= buf (i + N.of_nat (S n))) by (apply BM; lia).
    assert (B1 : buf (i + 1) = buf i + (dsz + hsz)) by apply BS.
    assert (B0 : db <= buf i) by (unfold buf; lia).
    cbn [init_bufs]. change (db + i * (dsz + hsz)) with (buf i). set (d := buf i) in *. ubody.
    apply wp_bind, wp_sto; [lia|]. set (m1 := upd m _ _).
    apply wp_bind, wp_sto; [cbn [upd msz m1]; lia|]. set (m2 := upd m1 _ _).
    apply wp_bind, wp_ld; [cbn [upd msz m1 m2]; lia|].
    assert (G : num m2 64 8 = 1).
    { subst m2 m1. rewrite !num_sto_other by lia. exact Hg. }
    rewrite G.
    apply wp_bind, wp_sto; [cbn [upd msz m1 m2]; lia|]. set (m3 := upd m2 _ _).
    apply wp_bind, wp_sto; [cbn [upd msz m1 m2 m3]; lia|]. set (m4 := upd m3 _ _).
    apply wp_bind, wp_sto; [cbn [upd msz m1 m2 m3 m4]; lia|]. set (m5 := upd m4 _ _).
    assert (F5 : frame (drange d (d + 56)) m m5).
    { do 5 (eapply frame_trans; [|apply frame_sto; intros x; unfold drange; lia]). apply frame_refl. }
    assert (V5 : num m5 (d + 32) 8 = dsz + hsz /\ get m5 (d + 48) 4 = le 4 (ac - 1) /\ get m5 (d + 24) 8 = le 8 1 /\
                 get m5 (d + 40) 8 = le 8 1 /\ num m5 (d + 20) 4 = d).
    { subst m5 m4 m3 m2 m1. repeat match goal with |- _ /\ _ => split end;
        try solve [rewrite ?get_sto_other by lia; apply get_sto_same];
        rewrite ?num_sto_other by lia; rewrite num_sto_same;
        change (256 ^ N.of_nat 4) with W32; change (256 ^ N.of_nat 8) with 18446744073709551616;
        try (apply N.mod_small; unfold W32 in *; lia). }
    assert (Z5 : forall x, d <= x < d + 20 -> mb m5 x = 0).
    { intros x Hx. subst m5 m4 m3 m2 m1. rewrite !mb_upd_out by (rewrite blen_le; lia). apply Hz. lia. }
    assert (Y5 : forall x, d + 56 <= x -> mb m5 x = 0).
    { intros x Hx. rewrite (proj2 F5) by (unfold drange; lia). apply Hz. lia. }
    assert (S5 : msz m5 = msz m) by apply (frame_msz _ _ _ F5).
    clearbody m5. clear G m1 m2 m3 m4.
    apply wp_bind.
    assert (HP : wp (if hsz =? 0 then ret tt else
        sto 4 (d + 56) (6 + 256 * 64);; sto 8 (d + 64) hsz;; sto 4 (d + 72) 0;;
        store (d + 80) (hi_roots h);; store (d + dsz) (hi_base h))
        (fun _ m6 => frame (fun x => drange (d + 56) (d + 96) x \/ drange (d + dsz) (d + dsz + hsz) x) m5 m6 /\
           num m6 (d + 64) 8 = hsz /\ get m6 (d + 72) 4 = le 4 0) m5).
    { destruct (N.eqb_spec hsz 0) as [E|E].
      - apply wp_ret. split; [apply frame_refl|]. subst hsz.
        assert (ZZ : forall a n, d + 56 <= a -> num m5 a n = 0).
        { intros a k Hk. unfold num, get. generalize (seq 0 k). intros l. induction l as [|y l IHl]; [reflexivity|].
          cbn [map of_le]. rewrite IHl, Y5 by lia. reflexivity. }
        split; [apply ZZ; lia|]. change (le 4 0) with (repeat 0 4).
        apply (list_eq_nth 0); rewrite ?get_length, ?repeat_length; [reflexivity|].
        intros y Hy. rewrite get_nth by exact Hy. rewrite Y5 by lia. symmetry. apply nth_repeat.
      - destruct (Hh E) as [Hr Hb].
        assert (RL : blen (hi_roots h) = 16) by (unfold blen; rewrite Hr; reflexivity).
        apply wp_bind, wp_sto; [lia|]. set (k1 := upd m5 _ _).
        apply wp_bind, wp_sto; [cbn [upd msz k1]; lia|]. set (k2 := upd k1 _ _).
        apply wp_bind, wp_sto; [cbn [upd msz k1 k2]; lia|]. set (k3 := upd k2 _ _).
        apply wp_bind, wp_store; [cbn [upd msz k1 k2 k3]; rewrite RL; lia|]. set (k4 := upd k3 _ _).
        apply wp_store; [cbn [upd msz k1 k2 k3 k4]; lia|].
        split.
        + apply (frame_trans _ _ k1); [apply frame_sto; intros x; unfold drange; lia|].
          apply (frame_trans _ _ k2); [apply frame_sto; intros x; unfold drange; lia|].
          apply (frame_trans _ _ k3); [apply frame_sto; intros x; unfold drange; lia|].
          apply (frame_trans _ _ k4); apply frame_upd; intros x; rewrite ?RL; unfold drange; lia.
        + rewrite (num_upd_other k4), (get_upd_other k4) by lia. subst k4. rewrite num_upd_other, get_upd_other by lia.
          subst k3. rewrite get_sto_same, num_sto_other by lia. subst k2. rewrite num_sto_same.
          split; [|reflexivity]. change (256 ^ N.of_nat 8) with 18446744073709551616.
          apply N.mod_small. unfold W32 in *. lia. }
    eapply wp_mono; [exact HP|]. clear HP. intros [] m6 (F6 & HS6 & HG6).
    specialize (IH (i + 1) db dsz hsz ac h m6). cbv zeta in IH.
    change (db + (i + 1) * (dsz + hsz)) with (buf (i + 1)) in IH.
    replace (i + 1 + N.of_nat n) with (i + N.of_nat (S n)) in IH by lia.
    change (db + (i + N.of_nat (S n)) * (dsz + hsz)) with (buf (i + N.of_nat (S n))) in IH.
    assert (S6 : msz m6 = msz m) by (rewrite (frame_msz _ _ _ F6); exact S5).
    eapply wp_mono; [apply IH|]; clear IH.
    { exact Hd. } { exact Hdb. } { rewrite S6. exact Hm. } { rewrite S6. exact Hs. } { exact Ha. } { exact Hh. }
    { intros x Hx. rewrite (proj2 F6) by (unfold drange; lia). apply Y5. lia. }
    { rewrite (frame_num _ _ _ _ _ F6) by (intros x; unfold drange; lia).
      rewrite (frame_num _ _ _ _ _ F5) by (intros x; unfold drange; lia). exact Hg. }
    intros [] m7 (F7 & R7). split.
    + apply (frame_trans _ _ m5); [eapply frame_weaken; [|exact F5]; intros x; unfold drange; lia|].
      apply (frame_trans _ _ m6); [eapply frame_weaken; [|exact F6]; intros x; unfold drange; lia|].
      eapply frame_weaken; [|exact F7]. intros x; unfold drange; lia.
    + intros j Hj. destruct (N.eq_dec j i) as [->|Hne].
      2:{ specialize (R7 j ltac:(lia)). exact R7. }
      fold d. clear R7.
      assert (K : forall a k, d <= a -> a + N.of_nat k <= d + dsz -> num m7 a k = num m6 a k).
      { intros a k H1 H2. apply (frame_num _ _ _ _ _ F7). intros x Hx. lia. }
      assert (K5 : forall a k, d <= a -> a + N.of_nat k <= d + 56 -> num m6 a k = num m5 a k).
      { intros a k H1 H2. apply (frame_num _ _ _ _ _ F6). intros x Hx. unfold drange. lia. }
      assert (KG : forall a k, d <= a -> a + N.of_nat k <= d + dsz -> get m7 a k = get m6 a k).
      { intros a k H1 H2. apply (frame_get _ _ _ _ _ F7). intros x Hx. lia. }
      assert (KG5 : forall a k, d <= a -> a + N.of_nat k <= d + 56 -> get m6 a k = get m5 a k).
      { intros a k H1 H2. apply (frame_get _ _ _ _ _ F6). intros x Hx. unfold drange. lia. }
      assert (ZZ : forall a, d <= a -> a + 4 <= d + 20 -> get m5 a 4 = le 4 0).
      { intros a H1 H2. change (le 4 0) with (repeat 0 4).
        apply (list_eq_nth 0); rewrite ?get_length, ?repeat_length; [reflexivity|].
        intros y Hy. rewrite get_nth by exact Hy. rewrite Z5 by lia.
        symmetry. apply nth_repeat. }
      destruct V5 as (V51 & V52 & V53 & V54 & V55).
      unfold bstat. ubody. rewrite ?N.add_0_r.
      rewrite !K, !KG by lia. rewrite HS6, HG6. rewrite !K5, !KG5 by lia.
      rewrite V51, V52, V53, V54, V55. rewrite !ZZ by lia.
      repeat match goal with |- _ /\ _ => split end; try reflexivity.
      intros x Hx. rewrite (proj2 F7) by lia. rewrite (proj2 F6) by (unfold drange; lia). apply Y5. lia.
Qed.

(** ** Geometry of a created set *)
Record env := mkEnv {
  v_es : list entry; v_inst : list byte; v_sname : list byte; v_dig : list byte;
  v_ac : N; v_hsz : N; v_ms : N; v_ds : N
}.
Definition v_c (E : env) : N := N.of_nat (length (v_es E)).
Definition v_D0 (E : env) : N := D0_of (v_c E) (v_inst E) (v_sname E).
Definition v_doff (E : env) (p : list entry) : N := doff (v_D0 E) p.
Definition v_moff (E : env) (p : list entry) : N := moff (v_es E) (v_D0 E) p.
Definition v_bs (E : env) : N := v_ds E + v_hsz E.
Definition v_buf (E : env) (b : N) : N := v_ms E + b * v_bs E.
Definition v_tot (E : env) : N := v_ms E + v_bs E * v_ac E.
(** A record array is followed by no data metric. *)
Definition ra_last (es : list entry) : Prop :=
  forall p d rt isz q, es = p ++ RecA d rt isz :: q -> Forall (fun e => data_e e = false) q.
Record ok_env (E : env) : Prop := mkOkEnv {
  ok_wf : Forall wf_entry (v_es E);
  ok_in : is_name (v_inst E) /\ blen (v_inst E) < 255;
  ok_sn : is_name (v_sname E) /\ blen (v_sname E) < 222;
  ok_dg : length (v_dig E) = 32%nat;
  ok_ac : 1 <= v_ac E;
  ok_hsz : v_hsz E mod 8 = 0;
  ok_ms : v_moff E (v_es E) <= v_ms E /\ v_ms E mod 8 = 0;
  ok_ds : v_ds E = DATA_HDR + sum dstep (v_es E);
  ok_tot : v_tot E < W32;
  ok_ra : ra_last (v_es E)
}.

Section Env.
Variable E : env.
Hypothesis OK : ok_env E.

Lemma e_D0 : H_DICT + 4 * v_c E + 36 + blen (v_inst E) + blen (v_sname E) <= v_D0 E /\ v_D0 E mod 8 = 0.
Proof.
  unfold v_D0, D0_of. split; [|apply round8_div].
  pose proof (round8_le (H_DICT + 4 * v_c E + 2 + blen (v_inst E) + 1 + (blen (v_sname E) + 34))). lia.
Qed.
Lemma e_wf p e q : v_es E = p ++ e :: q -> wf_entry e.
Proof. apply wf_in. exact (ok_wf E OK). Qed.
Lemma e_h1 : H_DICT + 4 * N.of_nat (length (v_es E)) <= v_D0 E.
Proof. pose proof e_D0. unfold v_c in *. lia. Qed.
Lemma e_h2 : doff (v_D0 E) (v_es E) < W32.
Proof.
  pose proof (ok_tot E OK). pose proof (proj1 (ok_ms E OK)). unfold v_moff, moff, v_tot in *. lia.
Qed.
Lemma e_doff p e q : v_es E = p ++ e :: q ->
  v_D0 E <= v_doff E p /\ v_doff E p + 28 <= v_doff E p + mm e /\ v_doff E p + mm e <= v_doff E (v_es E).
Proof.
  intros H. exact (doff_bound (v_es E) (v_D0 E) (ok_wf E OK) e_h1 e_h2 p e q H).
Qed.
Lemma e_moff p e q : v_es E = p ++ e :: q ->
  v_doff E (v_es E) <= v_moff E p /\ v_moff E p + mstep e <= v_moff E (v_es E) /\ v_moff E (v_es E) <= v_ms E.
Proof.
  intros H. pose proof (proj1 (ok_ms E OK)) as HM.
  assert (v_moff E (v_es E) = v_moff E p + mstep e + sum mstep q).
  { unfold v_moff, moff. assert (H' : sum mstep (v_es E) = sum mstep (p ++ e :: q)) by (f_equal; exact H).
    rewrite H', sum_app, sum_cons. lia. }
  unfold v_moff, moff, v_doff in *. lia.
Qed.
Lemma e_moff_step p e r : v_moff E (p ++ e :: r) = v_moff E p + mstep e + sum mstep r.
Proof. unfold v_moff, moff. rewrite sum_app, sum_cons. lia. Qed.
Lemma e_doff_step p e r : v_doff E (p ++ e :: r) = v_doff E p + mm e + sum mm r.
Proof. unfold v_doff, doff. rewrite sum_app, sum_cons. lia. Qed.
Lemma vstep_plain e : wf_entry e -> (forall d rt isz, e <> RecA d rt isz) -> vstep e = dstep e.
Proof.
  intros (_ & H) Hn. unfold vstep, dstep, vsz. destruct (data_e e) eqn:Ed; [|reflexivity].
  destruct e as [d|r|d rt isz].
  - cbn [base]. destruct H as (-> & _ & H & _). unfold V_RECORD_ARRAY.
    destruct (N.eqb_spec (md_type d) 27); [contradiction|lia].
  - exfalso. destruct H as (_ & H & _). unfold data_e in Ed. cbn [base] in Ed. rewrite H in Ed. discriminate.
  - exfalso. exact (Hn _ _ _ eq_refl).
Qed.
Lemma e_voff p e q : v_es E = p ++ e :: q -> data_e e = true ->
  voff p = DATA_HDR + sum dstep p /\ voff p + md_data (base e) <= v_ds E.
Proof.
  intros H Hd.
  assert (S1 : sum vstep p = sum dstep p).
  { apply sum_ext. intros x Hx. destruct (in_split x p Hx) as (p1 & p2 & ->).
    apply vstep_plain.
    - apply (e_wf p1 x (p2 ++ e :: q)). rewrite H, <- app_assoc. reflexivity.
    - intros d rt isz ->. assert (E1 : v_es E = p1 ++ RecA d rt isz :: (p2 ++ e :: q)).
      { rewrite H, <- app_assoc. reflexivity. }
      pose proof (ok_ra E OK _ _ _ _ _ E1) as F. apply Forall_app in F. destruct F as [_ F].
      pose proof (proj1 (proj1 (Forall_cons_iff _ _ _) F)). congruence. }
  unfold voff. rewrite S1. split; [reflexivity|].
  rewrite (ok_ds E OK), H, sum_app, sum_cons. unfold dstep at 3. rewrite Hd. lia.
Qed.
Lemma md_data_pos e : wf_entry e -> data_e e = true -> md_data (base e) mod 8 = 0.
Proof.
  intros (_ & H) Hd. destruct e as [d|r|d rt isz]; cbn [base].
  - destruct H as (H & _). apply (value_size_pos _ _ _ H).
  - exfalso. destruct H as (_ & H & _). unfold data_e in Hd. cbn [base] in Hd. rewrite H in Hd. discriminate.
  - destruct H as (_ & _ & -> & _). apply round8_div.
Qed.
Lemma e_ds8 : v_ds E mod 8 = 0.
Proof.
  rewrite (ok_ds E OK). rewrite N.add_mod by lia.
  assert (S0 : sum dstep (v_es E) mod 8 = 0).
  { apply sum_mod8. eapply Forall_impl; [|exact (ok_wf E OK)]. intros e He. cbv beta.
    unfold dstep. destruct (data_e e) eqn:Ed; [|reflexivity]. now apply md_data_pos. }
  rewrite S0. reflexivity.
Qed.
Lemma e_bs : 96 <= v_ds E /\ v_bs E = v_ds E + v_hsz E.
Proof. pose proof (ok_ds E OK) as H. unfold DATA_HDR in H. split; [lia|reflexivity]. Qed.
Lemma e_buf b : b < v_ac E -> v_ms E <= v_buf E b /\ v_buf E b + v_bs E <= v_tot E.
Proof.
  intros H. unfold v_buf, v_tot. split; [lia|].
  assert (b * v_bs E + v_bs E = (b + 1) * v_bs E) by lia.
  assert ((b + 1) * v_bs E <= v_ac E * v_bs E) by (apply N.mul_le_mono_r; lia). lia.
Qed.
Lemma e_buf2 b b' : b < b' -> v_buf E b + v_bs E <= v_buf E b'.
Proof.
  intros H. unfold v_buf. assert ((b + 1) * v_bs E <= b' * v_bs E) by (apply N.mul_le_mono_r; lia). lia.
Qed.
Lemma e_ms_ge : v_D0 E <= v_doff E (v_es E) /\ v_doff E (v_es E) <= v_ms E /\ v_ms E <= v_tot E.
Proof.
  pose proof (proj1 (ok_ms E OK)). unfold v_moff, moff, v_doff, v_tot in *.
  unfold doff in *. lia.
Qed.
Lemma e_arr b m : b < v_ac E -> num m H_DATA_SZ 4 = v_bs E ->
  darr m = v_ms E -> msz m = v_tot E -> forall Q : N -> st -> Prop, Q (v_buf E b) m -> wp (arr_get b) Q m.
Proof.
  intros Hb Hz Hd Hm Q HQ. pose proof (e_buf b Hb). pose proof e_ms_ge. pose proof e_D0.
  unfold arr_get. apply wp_bind, wp_ld; [ubody; lia|]. rewrite Hz. apply wp_bind, wp_fld. apply wp_ret.
  rewrite Hd. rewrite N.mod_small; [exact HQ|].
  pose proof (ok_tot E OK). unfold W32 in *. unfold v_buf in *. lia.
Qed.
End Env.
