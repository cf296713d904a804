(** Layout of a metric set: what set creation writes and where. *)
From Verif Require Import Bytes M_Set L_SetMem.
Local Open Scope N_scope.

Definition W32 : N := 4294967296.
Definition sum {A} (f : A -> N) (l : list A) : N := fold_right (fun e a => f e + a) 0 l.
Lemma sum_app {A} (f : A -> N) a b : sum f (a ++ b) = sum f a + sum f b.
Proof. induction a as [|x a IH]; cbn [sum fold_right app]; [reflexivity|]. unfold sum in *. lia. Qed.
Lemma sum_cons {A} (f : A -> N) x b : sum f (x :: b) = f x + sum f b.
Proof. reflexivity. Qed.
Lemma sum_mod8 {A} (f : A -> N) l : Forall (fun x => f x mod 8 = 0) l -> sum f l mod 8 = 0.
Proof.
  induction 1 as [|x l Hx _ IH]; [reflexivity|]. rewrite sum_cons.
  rewrite N.add_mod, Hx, IH by lia. reflexivity.
Qed.
Lemma sum_ext {A} (f g : A -> N) l : (forall x, In x l -> f x = g x) -> sum f l = sum g l.
Proof.
  induction l as [|x l IH]; intros H; [reflexivity|]. rewrite !sum_cons.
  rewrite (H x) by now left. rewrite IH; [reflexivity|]. intros y Hy. apply H. now right.
Qed.

Definition nulen (d : mdef) : N :=
  blen (md_name d) + 1 + match md_unit d with Some u => blen u + 1 | None => 0 end.
Definition wf_mdef (d : mdef) : Prop :=
  is_name (md_name d) /\ match md_unit d with Some u => is_name u | None => True end /\
  nulen d < 256 /\ md_meta d = metric_meta_size (md_name d) (md_unit d) /\
  md_type d < 256 /\ md_flags d < 256 /\ md_count d < W32.
Definition wf_member (d : mdef) : Prop :=
  wf_mdef d /\ md_flags d = 5 /\ value_size (md_type d) (md_count d) = Some (md_data d).
Definition tsz (d : mdef) : N := md_meta d + 4.
Definition wf_entry (e : entry) : Prop :=
  wf_mdef (base e) /\
  match e with
  | Plain d => value_size (md_type d) (md_count d) = Some (md_data d) /\
               md_type d <> 25 /\ md_type d <> 27 /\ (md_flags d = 1 \/ md_flags d = 2)
  | RecT r => md_type (rc_mdef r) = 25 /\ md_flags (rc_mdef r) = 6 /\ Forall wf_member (rc_ms r) /\
              md_data (rc_mdef r) = REC_TYPE + sum tsz (rc_ms r) /\
              rc_inst r = REC_INST + sum md_data (rc_ms r) /\ rc_type_sz r = sum tsz (rc_ms r)
  | RecA d rt isz => md_type d = 27 /\ md_flags d = 1 /\
              md_data d = round8 (REC_ARRAY + md_count d * isz) /\ REC_INST <= isz
  end.

Lemma meta_room d : wf_mdef d -> VD_NAME + nulen d <= md_meta d /\ md_meta d mod 8 = 0.
Proof.
  intros (_ & _ & _ & H & _). rewrite H. unfold nulen, metric_meta_size, VD_NAME, VALUE_DESC.
  destruct (md_unit d) as [u|].
  - split; [|apply round8_div].
    pose proof (round8_le (28 + blen (md_name d) + 1 + blen u + 1)). lia.
  - split; [|apply round8_div].
    pose proof (round8_le (28 + blen (md_name d) + 1)). lia.
Qed.
Lemma value_size_pos t c z : value_size t c = Some z -> z mod 8 = 0.
Proof.
  unfold value_size. destruct (match width t with Some w => _ | None => _ end); [|discriminate].
  intros [= <-]. apply round8_div.
Qed.

(** ** Descriptors *)
Definition desc_ok (m : st) (a : N) (d : mdef) (off : N) : Prop :=
  num m (a + VD_TYPE) 1 = md_type d /\ num m (a + VD_FLAGS) 1 = md_flags d /\
  num m (a + VD_COUNT) 4 = md_count d /\
  get m (a + VD_NAME) (S (length (md_name d))) = md_name d ++ [0] /\
  match md_unit d with
  | Some u => get m (a + VD_NAME + blen (md_name d) + 1) (S (length u)) = u ++ [0]
  | None => True
  end /\
  num m (a + VD_NULEN) 1 = nulen d /\ num m (a + VD_OFF) 4 = off.
(** Everything but the offset. *)
Definition desc_body (m : st) (a : N) (d : mdef) : Prop :=
  num m (a + VD_TYPE) 1 = md_type d /\ num m (a + VD_FLAGS) 1 = md_flags d /\
  num m (a + VD_COUNT) 4 = md_count d /\
  get m (a + VD_NAME) (S (length (md_name d))) = md_name d ++ [0] /\
  match md_unit d with
  | Some u => get m (a + VD_NAME + blen (md_name d) + 1) (S (length u)) = u ++ [0]
  | None => True
  end /\
  num m (a + VD_NULEN) 1 = nulen d.
Lemma desc_split m a d off : desc_ok m a d off <-> desc_body m a d /\ num m (a + VD_OFF) 4 = off.
Proof. unfold desc_ok, desc_body. tauto. Qed.

Lemma desc_body_ext m m' a d : wf_mdef d ->
  (forall x, a + 12 <= x < a + md_meta d -> mb m' x = mb m x) -> desc_body m a d -> desc_body m' a d.
Proof.
  intros Hw H (H1 & H2 & H3 & H4 & H5 & H6).
  pose proof (meta_room d Hw) as [Hr _]. unfold VD_NAME, nulen in *.
  unfold VD_TYPE, VD_FLAGS, VD_COUNT, VD_NULEN in *. unfold desc_body, VD_TYPE, VD_FLAGS, VD_COUNT, VD_NULEN, VD_NAME.
  assert (E : md_meta d >= 28 + blen (md_name d)) by (destruct (md_unit d); lia).
  rewrite !(num_ext m m') by (intros; apply H; unfold blen in *; lia).
  rewrite (get_ext m m' _ (S (length (md_name d)))) by (intros; apply H; unfold blen in *; lia).
  unfold nulen. repeat split; try assumption.
  destruct (md_unit d) as [u|]; [|exact I].
  rewrite (get_ext m m' _ (S (length u))); [exact H5|]. intros; apply H. unfold blen in *; lia.
Qed.
Lemma desc_ok_ext m m' a d off : wf_mdef d ->
  (forall x, a + 8 <= x < a + md_meta d -> mb m' x = mb m x) -> desc_ok m a d off -> desc_ok m' a d off.
Proof.
  intros Hw H (Hb & Ho)%desc_split. apply desc_split. split.
  - apply (desc_body_ext m m' a d Hw); [|exact Hb]. intros; apply H; lia.
  - pose proof (meta_room d Hw) as [Hr _]. unfold VD_NAME in Hr. unfold VD_OFF in *.
    rewrite <- Ho. apply num_ext. intros; apply H. lia.
Qed.

Definition drange (a b : N) : N -> Prop := fun x => a <= x < b.

Lemma make_mdesc_ok a d voff m : wf_mdef d -> a + md_meta d <= msz m ->
  (is_data (md_flags d) = true -> value_size (md_type d) (md_count d) <> None) ->
  wp (make_mdesc a d voff) (fun v' m' =>
    desc_ok m' a d (if is_data (md_flags d) then voff mod W32 else 0) /\
    v' = (if is_data (md_flags d) then
            voff + match value_size (md_type d) (md_count d) with Some z => z | None => 0 end else voff) /\
    frame (drange (a + 8) (a + md_meta d)) m m') m.
Proof.
  intros Hw Hm Hv. pose proof (meta_room d Hw) as [Hr _].
  destruct Hw as (Hn & Hu & Hl & _ & Ht & Hf & Hc).
  assert (E : 28 + blen (md_name d) <= md_meta d /\
              match md_unit d with Some u => 29 + blen (md_name d) + blen u <= md_meta d | None => True end)
    by (unfold VD_NAME, nulen in Hr; destruct (md_unit d); lia).
  destruct E as [E1 E2].
  set (big := md_meta d) in *. clearbody big.
  unfold make_mdesc.
  unfold VD_TYPE, VD_FLAGS, VD_COUNT, VD_NAME, VD_NULEN, VD_OFF.
  apply wp_bind, wp_sto; [cbn [msz upd]; lia|].
  apply wp_bind, wp_sto; [cbn [msz upd]; lia|].
  apply wp_bind, wp_sto; [cbn [msz upd]; lia|].
  apply wp_bind, wp_store; [cbn [msz upd]; rewrite blen_app, blen_one; lia|].
  set (m1 := upd m (a + 24) _). set (m2 := upd m1 _ _). set (m3 := upd m2 _ _). set (m4 := upd m3 _ _).
  assert (F4 : frame (drange (a + 8) (a + big)) m m4).
  { apply (frame_trans _ _ m1); [apply frame_sto; intros x Hx; unfold drange; lia|].
    apply (frame_trans _ _ m2); [apply frame_sto; intros x Hx; unfold drange; lia|].
    apply (frame_trans _ _ m3); [apply frame_sto; intros x Hx; unfold drange; lia|].
    apply frame_upd. intros x Hx. rewrite blen_app, blen_one in Hx. unfold drange. lia. }
  assert (B4 : num m4 (a + 24) 1 = md_type d /\ num m4 (a + 25) 1 = md_flags d /\
               num m4 (a + 12) 4 = md_count d /\
               get m4 (a + 27) (S (length (md_name d))) = md_name d ++ [0]).
  { subst m4. rewrite !num_upd_other by (rewrite ?blen_app, ?blen_one; lia).
    replace (S (length (md_name d))) with (length (md_name d ++ [0])) by (rewrite app_length; cbn; lia).
    rewrite get_upd_same.
    subst m3. rewrite (num_sto_other m2 (a + 12) 4 _ (a + 24)), (num_sto_other m2 (a + 12) 4 _ (a + 25)) by lia.
    rewrite num_sto_same. subst m2. rewrite (num_sto_other m1 (a + 25) 1 _ (a + 24)) by lia.
    rewrite num_sto_same. subst m1. rewrite num_sto_same.
    change (256 ^ N.of_nat 1) with 256. change (256 ^ N.of_nat 4) with W32.
    rewrite !N.mod_small by assumption. auto. }
  clearbody m4. clear m1 m2 m3.
  (* unit *)
  apply wp_bind.
  assert (HU : wp match md_unit d with
      | Some u => store (a + 27 + blen (md_name d) + 1) (u ++ [0])
      | None => ret tt end
      (fun _ m5 => frame (drange (a + 27 + blen (md_name d) + 1) (a + big)) m4 m5 /\
         match md_unit d with
         | Some u => get m5 (a + 27 + blen (md_name d) + 1) (S (length u)) = u ++ [0]
         | None => True end) m4).
  { destruct (md_unit d) as [u|].
    - apply wp_store; [rewrite (frame_msz _ _ _ F4), blen_app, blen_one; lia|]. split.
      + apply frame_upd. intros x. rewrite blen_app, blen_one. unfold drange. lia.
      + replace (S (length u)) with (length (u ++ [0])) by (rewrite app_length; cbn; lia). apply get_upd_same.
    - apply wp_ret. split; [apply frame_refl|exact I]. }
  eapply wp_mono; [exact HU|]. clear HU. intros [] m5 [F5 HU].
  assert (B5 : num m5 (a + 24) 1 = md_type d /\ num m5 (a + 25) 1 = md_flags d /\
               num m5 (a + 12) 4 = md_count d /\
               get m5 (a + 27) (S (length (md_name d))) = md_name d ++ [0]).
  { rewrite !(frame_num _ _ _ _ _ F5) by (intros x; unfold drange; lia).
    rewrite (frame_get _ _ _ _ _ F5) by (intros x; unfold drange, blen; lia). exact B4. }
  assert (G5 : frame (drange (a + 8) (a + big)) m m5).
  { eapply frame_trans; [exact F4|]. eapply frame_weaken; [|exact F5]. intros x; unfold drange; lia. }
  clear F4 B4 F5. clear m4.
  apply wp_bind, wp_sto; [rewrite (frame_msz _ _ _ G5); lia|].
  set (nl := blen (md_name d) + 1 + match md_unit d with Some u => blen u + 1 | None => 0 end).
  set (m6 := upd m5 _ _).
  assert (F6 : frame (drange (a + 26) (a + 27)) m5 m6).
  { apply frame_sto. intros x; unfold drange; lia. }
  assert (B6 : num m6 (a + 26) 1 = nulen d).
  { subst m6. rewrite num_sto_same. change (256 ^ N.of_nat 1) with 256. apply N.mod_small. exact Hl. }
  clearbody m6.
  assert (FIN : forall z m7, m7 = upd m6 (a + 8) (le 4 z) ->
    desc_ok m7 a d (z mod W32) /\ frame (drange (a + 8) (a + big)) m m7).
  { intros z m7 ->. split.
    - unfold desc_ok, VD_TYPE, VD_FLAGS, VD_COUNT, VD_NAME, VD_NULEN, VD_OFF.
      rewrite num_sto_same. change (256 ^ N.of_nat 4) with W32.
      rewrite !num_sto_other by lia. rewrite B6.
      rewrite get_sto_other by lia.
      rewrite !(frame_num _ _ _ _ _ F6) by (intros x; unfold drange; lia).
      rewrite (frame_get _ _ _ _ _ F6) by (intros x; unfold drange; lia).
      destruct B5 as (-> & -> & -> & ->). repeat split.
      destruct (md_unit d) as [u|]; [|exact I].
      rewrite get_sto_other by lia. rewrite (frame_get _ _ _ _ _ F6) by (intros x; unfold drange; lia). exact HU.
    - eapply frame_trans; [exact G5|]. eapply frame_trans.
      + eapply frame_weaken; [|exact F6]. intros x; unfold drange; lia.
      + apply frame_sto. intros x; unfold drange; lia. }
  assert (SZ : msz m6 = msz m) by (rewrite (frame_msz _ _ _ F6); apply (frame_msz _ _ _ G5)).
  destruct (is_data (md_flags d)) eqn:Ed.
  - apply wp_bind, wp_sto; [rewrite SZ; lia|].
    destruct (value_size (md_type d) (md_count d)) as [z|]; [|now destruct Hv].
    apply wp_ret. destruct (FIN voff _ eq_refl) as [A1 A2]. auto.
  - apply wp_bind, wp_sto; [rewrite SZ; lia|]. apply wp_ret.
    destruct (FIN 0 _ eq_refl) as [A1 A2]. auto.
Qed.
