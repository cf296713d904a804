(** Set creation: the descriptor, meta-value and record-type passes. *)
From Verif Require Import Bytes M_Set L_SetMem L_SetLay.
Local Open Scope N_scope.

Lemma len_snoc {A} (l : list A) x : N.of_nat (length (l ++ [x])) = N.of_nat (length l) + 1.
Proof. rewrite app_length. cbn [length]. lia. Qed.
Lemma snoc_app {A} (l : list A) x r : (l ++ [x]) ++ r = l ++ x :: r.
Proof. now rewrite <- app_assoc. Qed.

(** ** Record types *)
Definition tdoff (n : N) (p : list mdef) : N := REC_TYPE + 4 * n + sum md_meta p.
Definition rec_all (m : st) (rt n : N) (pre post : list mdef) : Prop :=
  forall p d q, post = p ++ d :: q ->
    num m (rt + REC_TYPE + 4 * N.of_nat (length (pre ++ p))) 4 = tdoff n (pre ++ p) /\
    desc_ok m (rt + tdoff n (pre ++ p)) d ((REC_INST + sum md_data (pre ++ p)) mod W32).

Lemma rec_pass_ok rt ms post : forall pre m,
  ms = pre ++ post -> Forall wf_member ms ->
  let n := N.of_nat (length ms) in
  rt + tdoff n ms <= msz m -> tdoff n ms < W32 ->
  wp (rec_pass post rt (N.of_nat (length pre)) (tdoff n pre) (REC_INST + sum md_data pre))
     (fun x m' => x = (tdoff n ms, REC_INST + sum md_data ms) /\
        frame (fun x => drange (rt + 16 + 4 * N.of_nat (length pre)) (rt + 16 + 4 * n) x \/
                        drange (rt + tdoff n pre) (rt + tdoff n ms) x) m m' /\
        rec_all m' rt n pre post) m.
Proof.
  induction post as [|d r IH]; intros pre m E Hw n Hm Hs.
  - rewrite app_nil_r in E. subst pre. apply wp_ret. split; [reflexivity|].
    split; [apply frame_refl|]. intros p d q H. destruct p; discriminate.
  - assert (Hd : wf_member d).
    { rewrite Forall_forall in Hw. apply Hw. rewrite E. apply in_or_app. right. now left. }
    destruct Hd as (Hd & Hf & Hv).
    pose proof (meta_room d Hd) as [Hr _].
    assert (Hn : n = N.of_nat (length pre) + 1 + N.of_nat (length r)).
    { unfold n. rewrite E, app_length. cbn [length]. lia. }
    assert (HT : tdoff n ms = tdoff n pre + md_meta d + sum md_meta r).
    { unfold tdoff. rewrite E, sum_app, sum_cons. lia. }
    assert (HP : 16 + 4 * n <= tdoff n pre) by (unfold tdoff, REC_TYPE; lia).
    assert (ET : tdoff n (pre ++ [d]) = tdoff n pre + md_meta d).
    { unfold tdoff. rewrite sum_app, sum_cons. cbn [sum fold_right]. lia. }
    assert (EI : sum md_data (pre ++ [d]) = sum md_data pre + md_data d).
    { rewrite sum_app, sum_cons. cbn [sum fold_right]. lia. }
    unfold VD_NAME in Hr.
    cbn [rec_pass]. unfold REC_TYPE, VD_USER, VD_NULEN.
    apply wp_bind, wp_sto; [lia|].
    apply wp_bind, wp_sto; [cbn [upd msz]; lia|].
    set (m1 := upd m _ _). set (m2 := upd m1 _ _).
    apply wp_bind. eapply wp_mono; [apply make_mdesc_ok|].
    { exact Hd. } { cbn [upd msz m1 m2]. lia. } { rewrite Hv. discriminate. }
    intros v' m3 (D3 & V3 & F3). rewrite Hf, Hv in V3. cbn [is_data N.odd] in V3. subst v'.
    rewrite Hf in D3. cbn [is_data N.odd] in D3.
    apply wp_bind, wp_ld; [rewrite (frame_msz _ _ _ F3); cbn [upd msz m1 m2]; lia|].
    assert (NL : num m3 (rt + tdoff n pre + 26) 1 = nulen d).
    { destruct D3 as (_ & _ & _ & _ & _ & H & _). exact H. }
    rewrite NL. unfold VALUE_DESC.
    assert (LE : 28 + nulen d <= md_meta d).
    { clear - Hd. destruct Hd as (_ & _ & _ & H & _). rewrite H. unfold nulen, metric_meta_size, VALUE_DESC.
      destruct (md_unit d) as [u|].
      - pose proof (round8_le (28 + blen (md_name d) + 1 + blen u + 1)). lia.
      - pose proof (round8_le (28 + blen (md_name d) + 1)). lia. }
    destruct (N.leb_spec (28 + nulen d) (md_meta d)); [|lia].
    specialize (IH (pre ++ [d]) m3). cbv zeta in IH. fold n in IH. rewrite len_snoc, ET, EI in IH.
    rewrite N.add_assoc in IH.
    eapply wp_mono; [apply IH|].
    { now rewrite snoc_app. } { exact Hw. }
    { rewrite (frame_msz _ _ _ F3). cbn [upd msz m1 m2]. lia. } { exact Hs. }
    intros x m4 (X4 & F4 & R4). split; [exact X4|].
    assert (G3 : frame (fun x => drange (rt + 16 + 4 * N.of_nat (length pre)) (rt + 16 + 4 * n) x \/
                        drange (rt + tdoff n pre) (rt + tdoff n ms) x) m m3).
    { apply (frame_trans _ _ m1); [apply frame_sto; intros y; unfold drange; lia|].
      apply (frame_trans _ _ m2); [apply frame_sto; intros y; unfold drange; lia|].
      eapply frame_weaken; [|exact F3]. intros y; unfold drange; lia. }
    split.
    { eapply frame_trans; [exact G3|]. eapply frame_weaken; [|exact F4]. intros y; unfold drange; lia. }
    intros p d' q Hp. destruct p as [|d0 p].
    + injection Hp as <- <-. rewrite app_nil_r. split.
      * rewrite (frame_num _ _ _ _ _ F4) by (intros y; unfold drange, REC_TYPE; lia).
        rewrite (frame_num _ _ _ _ _ F3) by (intros y; unfold drange, REC_TYPE; lia).
        subst m2. rewrite num_sto_other by (unfold REC_TYPE; lia).
        subst m1. unfold REC_TYPE. rewrite num_sto_same. apply N.mod_small. change (256 ^ N.of_nat 4) with W32. lia.
      * apply (desc_ok_ext m3 m4 _ _ _ Hd); [|exact D3].
        intros y Hy. apply (proj2 F4). unfold drange. lia.
    + injection Hp as <- Hp. specialize (R4 p d' q Hp). rewrite snoc_app in R4. exact R4.
Qed.

Definition rectype_ok (m : st) (rt : N) (r : recdef) : Prop :=
  let n := N.of_nat (length (rc_ms r)) in
  num m rt 4 = 1 /\ num m (rt + 8) 4 = n /\ num m (rt + 12) 4 = rc_inst r mod W32 /\
  rec_all m rt n [] (rc_ms r).

Lemma tsz_sum ms : sum tsz ms = 4 * N.of_nat (length ms) + sum md_meta ms.
Proof.
  induction ms as [|d ms IH]; [reflexivity|]. rewrite !sum_cons, IH. unfold tsz. cbn [length]. lia.
Qed.

Lemma make_rec_type_ok rt r m : wf_entry (RecT r) -> rt + md_data (rc_mdef r) <= msz m ->
  md_data (rc_mdef r) < W32 ->
  wp (make_rec_type rt r) (fun _ m' =>
     rectype_ok m' rt r /\ frame (drange rt (rt + md_data (rc_mdef r))) m m') m.
Proof.
  intros (_ & _ & _ & Hw & Hd & Hi & _) Hm Hs. rewrite tsz_sum in Hd.
  set (n := N.of_nat (length (rc_ms r))) in *.
  assert (HT : md_data (rc_mdef r) = tdoff n (rc_ms r)) by (rewrite Hd; unfold tdoff; lia).
  rewrite HT in *.
  assert (HP : 16 + 4 * n <= tdoff n (rc_ms r)) by (unfold tdoff, REC_TYPE; lia).
  unfold make_rec_type. apply wp_bind, wp_sto; [lia|]. fold n.
  set (m1 := upd m _ _).
  apply wp_bind.
  pose proof (rec_pass_ok rt (rc_ms r) (rc_ms r) [] m1 eq_refl Hw) as RP.
  cbv zeta in RP. fold n in RP. cbn [length] in RP. change (N.of_nat 0) with 0 in RP.
  change (tdoff n []) with (REC_TYPE + 4 * n + 0) in RP. rewrite N.add_0_r in RP.
  change (REC_INST + sum md_data []) with REC_INST in RP.
  eapply wp_mono; [apply RP|]. { cbn [upd msz m1]. lia. } { lia. }
  intros x m2 (X2 & F2 & R2). subst x. cbn [fst snd]. rewrite <- Hi, HT.
  rewrite !N.eqb_refl. cbn [andb].
  apply wp_bind, wp_sto; [rewrite (frame_msz _ _ _ F2); cbn [upd msz m1]; lia|].
  apply wp_sto; [cbn [upd msz]; rewrite (frame_msz _ _ _ F2); cbn [upd msz m1]; lia|].
  set (m3 := upd m2 _ _).
  assert (F4 : frame (drange (rt + 8) (rt + 16)) m2 (upd m3 (rt + 12) (le 4 (rc_inst r)))).
  { apply (frame_trans _ _ m3); apply frame_sto; intros y; unfold drange; lia. }
  split.
  - unfold rectype_ok. fold n. split; [|split; [|split]].
    + rewrite (frame_num _ _ _ _ _ F4) by (intros y; unfold drange; lia).
      rewrite (frame_num _ _ _ _ _ F2) by (intros y; unfold drange, REC_TYPE; lia).
      subst m1. rewrite num_sto_same. reflexivity.
    + rewrite num_sto_other by lia. subst m3. rewrite num_sto_same. apply N.mod_small.
      change (256 ^ N.of_nat 4) with W32. lia.
    + now rewrite num_sto_same.
    + intros p d q Hp. destruct (R2 p d q Hp) as [R21 R22]. cbn [app] in *. split.
      * rewrite (frame_num _ _ _ _ _ F4) by (intros y; unfold drange, REC_TYPE; lia). exact R21.
      * assert (Hdw : wf_mdef d).
        { rewrite Forall_forall in Hw. apply Hw. rewrite Hp. apply in_or_app. right. now left. }
        eapply (desc_ok_ext m2); [exact Hdw| |exact R22].
        intros y Hy. apply (proj2 F4). unfold drange. unfold tdoff, REC_TYPE in Hy. lia.
  - apply (frame_trans _ _ m1); [apply frame_sto; intros y; unfold drange; lia|].
    apply (frame_trans _ _ m2).
    + eapply frame_weaken; [|exact F2]. intros y; unfold drange, REC_TYPE; lia.
    + eapply frame_weaken; [|exact F4]. intros y; unfold drange; lia.
Qed.

(** ** Metrics *)
Definition mm (e : entry) : N := md_meta (base e).
Definition data_e (e : entry) : bool := is_data (md_flags (base e)).
Definition vsz (e : entry) : N :=
  match value_size (md_type (base e)) (md_count (base e)) with Some z => z | None => 0 end.
(** By how much the data offset advances (ldms.c 1478, 1631-1633). *)
Definition vstep (e : entry) : N :=
  if data_e e then
    vsz e + (if md_type (base e) =? V_RECORD_ARRAY then md_count (base e) * md_data (base e) else 0)
  else 0.
Definition mstep (e : entry) : N := if data_e e then 0 else md_data (base e).
Definition dstep (e : entry) : N := if data_e e then md_data (base e) else 0.

Definition voff (p : list entry) : N := DATA_HDR + sum vstep p.

Lemma data_vs e : wf_entry e -> data_e e = true -> value_size (md_type (base e)) (md_count (base e)) <> None.
Proof.
  intros (_ & H) Hd. destruct e as [d|r|d rt isz]; cbn [base] in *.
  - destruct H as (-> & _). discriminate.
  - destruct H as (_ & H & _). unfold data_e in Hd. cbn [base] in Hd. rewrite H in Hd. discriminate.
  - destruct H as (-> & _). cbn. discriminate.
Qed.

Section Passes.
Variables (es : list entry) (D0 : N).
Hypothesis WF : Forall wf_entry es.
Let c := N.of_nat (length es).
Let I0 := H_DICT + 4 * c.
Hypothesis HD0 : I0 <= D0.
Definition doff (p : list entry) : N := D0 + sum mm p.
Hypothesis HDend : doff es < W32.

Lemma wf_in p e q : es = p ++ e :: q -> wf_entry e.
Proof. intros E. rewrite Forall_forall in WF. apply WF. rewrite E. apply in_or_app. right. now left. Qed.

(** The bytes of the descriptors that creation writes: all but the user data. *)
Definition dfld (pre post : list entry) (x : N) : Prop :=
  exists p e q, post = p ++ e :: q /\ doff (pre ++ p) + 8 <= x < doff (pre ++ p) + mm e.
Lemma dfld_cons pre e r x : dfld (pre ++ [e]) r x -> dfld pre (e :: r) x.
Proof. intros (p & e' & q & -> & H). exists (e :: p), e', q. rewrite snoc_app in H. auto. Qed.
Lemma dfld_range pre post x : dfld pre post x -> doff pre <= x < doff (pre ++ post).
Proof.
  intros (p & e & q & -> & H). clear -H. unfold doff in *. rewrite !sum_app, sum_cons in *. lia.
Qed.

Lemma desc_pass_ok post : forall pre m,
  es = pre ++ post -> doff es <= msz m ->
  wp (desc_pass post (N.of_nat (length pre)) (doff pre) (voff pre))
     (fun vend m' => vend = doff es /\
        frame (fun x => drange (H_DICT + 4 * N.of_nat (length pre)) I0 x \/ dfld pre post x) m m' /\
        forall p e q, post = p ++ e :: q ->
          num m' (H_DICT + 4 * N.of_nat (length (pre ++ p))) 4 = doff (pre ++ p) /\
          desc_ok m' (doff (pre ++ p)) (base e) (if data_e e then voff (pre ++ p) mod W32 else 0)) m.
Proof.
  induction post as [|e r IH]; intros pre m E Hm.
  - rewrite app_nil_r in E. subst pre. apply wp_ret. split; [reflexivity|].
    split; [apply frame_refl|]. intros p e q H. destruct p; discriminate.
  - pose proof (wf_in _ _ _ E) as He.
    pose proof (proj1 He) as Hd. pose proof (meta_room (base e) Hd) as [Hr _].
    assert (Hn : c = N.of_nat (length pre) + 1 + N.of_nat (length r)).
    { unfold c. rewrite E, app_length. cbn [length]. lia. }
    assert (HT : doff es = doff pre + mm e + sum mm r).
    { unfold doff. rewrite E, sum_app, sum_cons. lia. }
    assert (ET : doff (pre ++ [e]) = doff pre + mm e).
    { unfold doff. rewrite sum_app, sum_cons. cbn [sum fold_right]. lia. }
    assert (HP : D0 <= doff pre) by (unfold doff; lia).
    assert (EV : voff (pre ++ [e]) = voff pre + vstep e).
    { unfold voff. rewrite sum_app, sum_cons. cbn [sum fold_right]. lia. }
    unfold VD_NAME in Hr. unfold mm in *. fold mm in *.
    change (md_meta (base e)) with (mm e) in *.
    cbn [desc_pass]. subst I0. unfold H_DICT, VD_TYPE in *.
    apply wp_bind, wp_sto; [lia|]. set (m1 := upd m _ _).
    apply wp_bind. eapply wp_mono; [apply make_mdesc_ok|].
    { exact Hd. } { cbn [upd msz m1]. change (md_meta (base e)) with (mm e). lia. }
    { intros H. now apply data_vs. }
    intros v' m2 (D2 & V2 & F2). change (md_meta (base e)) with (mm e) in F2.
    apply wp_bind, wp_ld; [rewrite (frame_msz _ _ _ F2); cbn [upd msz m1]; lia|].
    assert (TY : num m2 (doff pre + 24) 1 = md_type (base e)) by apply D2.
    rewrite TY.
    assert (EV2 : (if md_type (base e) =? V_RECORD_ARRAY then v' + md_count (base e) * md_data (base e) else v')
                  = voff (pre ++ [e])).
    { rewrite EV, V2. unfold vstep, data_e, vsz. destruct (is_data (md_flags (base e))) eqn:Ed.
      - destruct (md_type (base e) =? V_RECORD_ARRAY); lia.
      - assert (md_type (base e) <> 27).
        { intros Ht. destruct He as (_ & He). destruct e as [d|r0|d rt isz]; cbn [base] in *.
          - tauto. - destruct He as (He & _). lia.
          - destruct He as (_ & He & _). rewrite He in Ed. discriminate. }
        unfold V_RECORD_ARRAY. destruct (N.eqb_spec (md_type (base e)) 27); [contradiction|lia]. }
    rewrite EV2. change (md_meta (base e)) with (mm e). rewrite <- ET.
    specialize (IH (pre ++ [e]) m2). rewrite len_snoc in IH.
    eapply wp_mono; [apply IH|].
    { now rewrite snoc_app. } { rewrite (frame_msz _ _ _ F2). exact Hm. }
    intros vend m3 (X3 & F3 & R3). split; [exact X3|].
    assert (G3 : frame (fun x => drange (140 + 4 * (N.of_nat (length pre) + 1)) (140 + 4 * c) x \/
                   drange (doff (pre ++ [e])) (doff es) x) m2 m3).
    { eapply frame_weaken; [|exact F3]. intros x [H|H]; [now left|right].
      apply dfld_range in H. rewrite snoc_app, <- E in H. exact H. }
    rewrite ET in G3. split.
    + apply (frame_trans _ _ m1); [apply frame_sto; intros y; unfold drange; lia|].
      apply (frame_trans _ _ m2).
      * eapply frame_weaken; [|exact F2]. intros y Hy. right. exists [], e, r. rewrite app_nil_r. split; [reflexivity|exact Hy].
      * eapply frame_weaken; [|exact F3]. intros y [Hy|Hy]; [left; unfold drange in *; lia|right; now apply dfld_cons].
    + intros p e' q Hp. destruct p as [|e0 p].
      * injection Hp as <- <-. rewrite app_nil_r. split.
        -- rewrite (frame_num _ _ _ _ _ G3) by (intros y; unfold drange; lia).
           rewrite (frame_num _ _ _ _ _ F2) by (intros y; unfold drange; lia).
           subst m1. rewrite num_sto_same. apply N.mod_small. change (256 ^ N.of_nat 4) with W32. lia.
        -- apply (desc_ok_ext m2 m3 _ _ _ Hd).
           { change (md_meta (base e)) with (mm e). intros y Hy. apply (proj2 G3). unfold drange. lia. }
           exact D2.
      * injection Hp as <- Hp. specialize (R3 p e' q Hp). rewrite snoc_app in R3. exact R3.
Qed.

(** The dictionary and the descriptors, apart from the value offsets. *)
Definition desc_all (m : st) : Prop :=
  forall p e q, es = p ++ e :: q ->
    num m (H_DICT + 4 * N.of_nat (length p)) 4 = doff p /\ desc_body m (doff p) (base e).

Definition moff (p : list entry) : N := doff es + sum mstep p.

Definition off_field (pre post : list entry) (x : N) : Prop :=
  exists p e q, post = p ++ e :: q /\ data_e e = false /\ doff (pre ++ p) + 8 <= x < doff (pre ++ p) + 12.

Lemma doff_bound p e q : es = p ++ e :: q -> D0 <= doff p /\ doff p + 28 <= doff p + mm e /\ doff p + mm e <= doff es.
Proof.
  intros E. pose proof (meta_room _ (proj1 (wf_in _ _ _ E))) as [Hr _].
  change (md_meta (base e)) with (mm e) in Hr. unfold VD_NAME, nulen in Hr.
  assert (doff es = doff p + mm e + sum mm q).
  { unfold doff. rewrite E, sum_app, sum_cons. lia. }
  unfold doff in *. lia.
Qed.
Lemma doff_step p e r : doff (p ++ e :: r) = doff p + mm e + sum mm r.
Proof. unfold doff. rewrite sum_app, sum_cons. lia. Qed.
(** Two positions of the list of metrics. *)
Lemma split2 {A} (l : list A) p e q p' e' q' : l = p ++ e :: q -> l = p' ++ e' :: q' ->
  p = p' /\ e = e' /\ q = q' \/ (exists r, p' = p ++ e :: r) \/ (exists r, p = p' ++ e' :: r).
Proof.
  revert p p'. induction l as [|x l IH]; intros p p' E1 E2; [destruct p; discriminate|].
  destruct p as [|y p], p' as [|y' p']; cbn in *.
  - left. injection E1 as <- <-. injection E2 as <- <-. auto.
  - right. left. injection E1 as <- E1. injection E2 as <- E2. exists p'. reflexivity.
  - right. right. injection E1 as <- E1. injection E2 as <- E2. exists p. reflexivity.
  - injection E1 as <- E1. injection E2 as <- E2.
    destruct (IH p p' E1 E2) as [(-> & -> & ->)|[[r ->]|[r ->]]]; eauto.
Qed.

Lemma desc_all_frame m m' : desc_all m ->
  (forall x, D0 <= x < doff es -> (forall p e q, es = p ++ e :: q -> ~ (doff p + 8 <= x < doff p + 12)) ->
     ~ (forall p e q, es = p ++ e :: q -> ~ (doff p + 12 <= x < doff p + mm e)) -> mb m' x = mb m x) ->
  (forall x, H_DICT <= x < I0 -> mb m' x = mb m x) -> desc_all m'.
Proof.
  intros H Hb Hd p e q E. destruct (H p e q E) as [H1 H2]. split.
  - rewrite <- H1. apply num_ext. intros k Hk. apply Hd. subst I0 c. rewrite E, app_length. cbn [length]. lia.
  - pose proof (doff_bound _ _ _ E) as B.
    apply (desc_body_ext m m'); [exact (proj1 (wf_in _ _ _ E))| |exact H2].
    change (md_meta (base e)) with (mm e). intros x Hx. apply Hb; [lia| |].
    + intros p' e' q' E' Hx'.
      destruct (split2 _ _ _ _ _ _ _ E E') as [(<- & <- & <-)|[[r ->]|[r ->]]]; [lia| |].
      * rewrite doff_step in Hx'. lia.
      * rewrite doff_step in Hx. pose proof (doff_bound _ _ _ E'). lia.
    + intros Hn. apply (Hn p e q E). exact Hx.
Qed.

(** What [meta_pass] establishes for an entry of the meta section. *)
Definition meta_entry (m : st) (p : list entry) (e : entry) : Prop :=
  num m (doff p + VD_OFF) 4 = moff p /\
  match e with RecT r => rectype_ok m (moff p) r | _ => True end.

Lemma rectype_ext m m' rt r : wf_entry (RecT r) ->
  (forall x, rt <= x < rt + md_data (rc_mdef r) -> mb m' x = mb m x) -> rectype_ok m rt r -> rectype_ok m' rt r.
Proof.
  intros (_ & _ & _ & Hw & Hd & _ & _) H (H1 & H2 & H3 & H4). rewrite tsz_sum in Hd.
  set (n := N.of_nat (length (rc_ms r))) in *. unfold REC_TYPE in Hd.
  unfold rectype_ok. fold n.
  rewrite !(num_ext m m') by (intros; apply H; lia).
  split; [exact H1|]. split; [exact H2|]. split; [exact H3|]. intros p d q H0. split.
  - destruct (H4 p d q H0) as [E1 E2]. rewrite <- E1. apply num_ext. intros k Hk. apply H.
    unfold REC_TYPE in Hk. assert (N.of_nat (length ([] ++ p)) < n).
    { subst n. rewrite H0, !app_length. cbn [length]. lia. } lia.
  - destruct (H4 p d q H0) as [E1 E2].
    assert (Hdw : wf_mdef d).
    { rewrite Forall_forall in Hw. apply Hw. rewrite H0. apply in_or_app. right. now left. }
    apply (desc_ok_ext m); [exact Hdw| |exact E2]. intros x Hx. apply H.
    unfold tdoff, REC_TYPE in Hx. cbn [app] in Hx. rewrite Hd, H0, sum_app, sum_cons. lia.
Qed.

Hypothesis D8 : D0 mod 8 = 0.

(** The record types are the only meta values that creation fills in. *)
Definition rfld (pre post : list entry) (x : N) : Prop :=
  exists p r q, post = p ++ RecT r :: q /\ moff (pre ++ p) <= x < moff (pre ++ p) + md_data (rc_mdef r).
Lemma rfld_cons pre e r x : rfld (pre ++ [e]) r x -> rfld pre (e :: r) x.
Proof. intros (p & e' & q & -> & H). exists (e :: p), e', q. rewrite snoc_app in H. auto. Qed.
Lemma rfld_range pre post x : Forall wf_entry post -> rfld pre post x -> moff pre <= x < moff (pre ++ post).
Proof.
  intros W (p & r & q & -> & H). unfold moff in *. rewrite !sum_app, sum_cons in *.
  apply Forall_app in W. destruct W as [_ W]. pose proof (proj1 (proj1 (Forall_cons_iff _ _ _) W)) as (_ & _ & W' & _).
  assert (mstep (RecT r) = md_data (rc_mdef r)).
  { unfold mstep, data_e. cbn [base]. rewrite W'. reflexivity. }
  lia.
Qed.

Lemma meta_pass_ok post : forall pre m,
  es = pre ++ post -> desc_all m -> moff es <= msz m -> moff es < W32 ->
  wp (meta_pass post (N.of_nat (length pre)) (moff pre))
     (fun _ m' => desc_all m' /\
        frame (fun x => off_field pre post x \/ rfld pre post x) m m' /\
        forall p e q, post = p ++ e :: q -> data_e e = false -> meta_entry m' (pre ++ p) e) m.
Proof.
  induction post as [|e r IH]; intros pre m E DA Hm Hs.
  - apply wp_ret. split; [exact DA|]. split; [apply frame_refl|]. intros p e q H. destruct p; discriminate.
  - pose proof (wf_in _ _ _ E) as He. pose proof (proj1 He) as Hd.
    destruct (DA pre e r E) as [DI DB].
    pose proof (doff_bound _ _ _ E) as B.
    assert (DE : doff es <= moff es) by (unfold moff; lia).
    assert (ML : moff es = moff pre + mstep e + sum mstep r).
    { unfold moff. rewrite E at 2. rewrite sum_app, sum_cons. lia. }
    assert (MP : doff es <= moff pre) by (unfold moff; lia).
    assert (EM : moff (pre ++ [e]) = moff pre + mstep e).
    { unfold moff. rewrite sum_app, sum_cons. cbn [sum fold_right]. lia. }
    assert (EI : H_DICT + 4 * N.of_nat (length pre) + 4 <= I0).
    { subst I0 c. rewrite E, app_length. cbn [length]. lia. }
    cbn [meta_pass]. unfold VD_FLAGS, VD_TYPE, VD_COUNT, VD_OFF in *.
    apply wp_bind, wp_ld; [lia|]. rewrite DI.
    apply wp_bind, wp_ld; [lia|].
    destruct DB as (DT & DF & DC & DN & DU & DL). unfold VD_FLAGS, VD_TYPE, VD_COUNT in *.
    rewrite DF. change (is_data (md_flags (base e))) with (data_e e).
    destruct (data_e e) eqn:Ed.
    + assert (EM' : moff (pre ++ [e]) = moff pre) by (rewrite EM; unfold mstep; rewrite Ed; lia).
      specialize (IH (pre ++ [e]) m). rewrite len_snoc, EM' in IH.
      eapply wp_mono; [apply IH|].
      { now rewrite snoc_app. } { exact DA. } { exact Hm. } { exact Hs. }
      intros [] m' (A1 & A2 & A3). split; [exact A1|]. split.
      * eapply frame_weaken; [|exact A2]. intros x [(p & e' & q & -> & H1 & H2)|H]; [left|right; now apply rfld_cons].
        exists (e :: p), e', q. rewrite snoc_app in H2. auto.
      * intros p e' q Hp Hd'. destruct p as [|e0 p].
        -- injection Hp as <- <-. congruence.
        -- injection Hp as <- Hp. specialize (A3 p e' q Hp Hd'). now rewrite snoc_app in A3.
    + apply wp_bind, wp_sto; [lia|]. set (m1 := upd m _ _).
      assert (F1 : frame (drange (doff pre + 8) (doff pre + 12)) m m1).
      { apply frame_sto. intros x; unfold drange; lia. }
      apply wp_bind, wp_ld; [rewrite (frame_msz _ _ _ F1); lia|].
      rewrite (frame_num _ _ _ _ _ F1) by (intros x; unfold drange; lia). rewrite DT.
      assert (O1 : num m1 (doff pre + 8) 4 = moff pre).
      { subst m1. rewrite num_sto_same. apply N.mod_small. change (256 ^ N.of_nat 4) with W32. lia. }
      assert (DA1 : desc_all m1).
      { apply (desc_all_frame m m1 DA).
        - intros x Hx H1 _. apply (proj2 F1). unfold drange. apply (H1 pre e r E).
        - intros x Hx. apply (proj2 F1). unfold drange. lia. }
      assert (CONT : forall m2, frame (fun x => exists r0, e = RecT r0 /\ drange (moff pre) (moff pre + mstep e) x) m1 m2 ->
         (match e with RecT r0 => rectype_ok m2 (moff pre) r0 | _ => True end) ->
         wp (meta_pass r (N.of_nat (length pre) + 1) (moff pre + mstep e))
           (fun _ m' => desc_all m' /\
             frame (fun x => off_field pre (e :: r) x \/ rfld pre (e :: r) x) m m' /\
             forall p e' q, e :: r = p ++ e' :: q -> data_e e' = false -> meta_entry m' (pre ++ p) e') m2).
      { intros m2 F2' RT.
        assert (F2 : frame (drange (moff pre) (moff pre + mstep e)) m1 m2).
        { eapply frame_weaken; [|exact F2']. intros x (r0 & _ & Hx). exact Hx. }
        specialize (IH (pre ++ [e]) m2). rewrite len_snoc, EM in IH.
        eapply wp_mono; [apply IH|].
        { now rewrite snoc_app. }
        { apply (desc_all_frame m1 m2 DA1).
          - intros x Hx _ _. apply (proj2 F2). unfold drange. lia.
          - intros x Hx. apply (proj2 F2). unfold drange. lia. }
        { rewrite (frame_msz _ _ _ F2). exact Hm. } { exact Hs. }
        intros [] m' (A1 & A2' & A3). split; [exact A1|].
        assert (A2 : frame (fun x => off_field (pre ++ [e]) r x \/ drange (moff (pre ++ [e])) (moff es) x) m2 m').
        { eapply frame_weaken; [|exact A2']. intros x [H|H]; [now left|right].
          apply rfld_range in H.
          - rewrite snoc_app, <- E in H. exact H.
          - pose proof WF as W. rewrite E in W. apply Forall_app in W. destruct W as [_ W].
            exact (proj2 (proj1 (Forall_cons_iff _ _ _) W)). }
        rewrite EM in A2. split.
        - eapply frame_trans; [eapply frame_weaken; [|exact F1]|
            eapply frame_trans; [eapply frame_weaken; [|exact F2']|eapply frame_weaken; [|exact A2']]].
          + intros x Hx. left. exists [], e, r. rewrite app_nil_r. unfold drange in Hx. auto.
          + intros x (r0 & -> & Hx). right. exists [], r0, r. rewrite app_nil_r. split; [reflexivity|].
            unfold drange, mstep in Hx. rewrite Ed in Hx. exact Hx.
          + intros x [(p & e' & q & -> & H1 & H2)|H]; [left|right; now apply rfld_cons].
            exists (e :: p), e', q. rewrite snoc_app in H2. auto.
        - intros p e' q Hp Hd'. destruct p as [|e0 p].
          + injection Hp as <- <-. rewrite app_nil_r.
            assert (NP : forall x, x < doff pre + mm e -> ~ off_field (pre ++ [e]) r x).
            { intros x Hx (p & e' & q & _ & _ & H2). rewrite snoc_app, doff_step in H2. lia. }
            unfold meta_entry, VD_OFF. split.
            * rewrite (frame_num _ _ _ _ _ A2).
              -- rewrite (frame_num _ _ _ _ _ F2) by (intros x; unfold drange; lia). exact O1.
              -- intros x Hx [H|H]; [apply (NP x); [lia|exact H]|unfold drange in H; lia].
            * destruct e as [d|r0|d rt isz]; auto.
              apply (rectype_ext m2 m'); [exact He| |exact RT].
              intros x Hx. apply (proj2 A2). intros [(p & e' & q & Hpq & _ & H2)|H].
              -- assert (es = (pre ++ RecT r0 :: p) ++ e' :: q).
                 { rewrite E, Hpq, <- app_assoc. reflexivity. }
                 pose proof (doff_bound _ _ _ H). rewrite snoc_app in H2. lia.
              -- unfold drange, mstep in H. rewrite Ed in H. cbn [base] in H. lia.
          + injection Hp as <- Hp. specialize (A3 p e' q Hp Hd'). now rewrite snoc_app in A3. }
      destruct (N.eqb_spec (md_type (base e)) V_RECORD_TYPE) as [Ht|Ht].
      * destruct e as [d|r0|d rt isz].
        -- exfalso. destruct He as (_ & He). cbn [base] in Ht. unfold V_RECORD_TYPE in Ht. tauto.
        -- assert (MS' : mstep (RecT r0) = md_data (rc_mdef r0)) by (unfold mstep; now rewrite Ed).
           rewrite MS' in *.
           apply wp_bind. eapply wp_mono; [apply make_rec_type_ok|].
           { exact He. } { rewrite (frame_msz _ _ _ F1). lia. } { lia. }
           intros [] m2 (RT & F2). apply (CONT m2); [|exact RT].
           eapply frame_weaken; [|exact F2]. intros x Hx. exists r0. auto.
        -- exfalso. destruct He as (_ & _ & He & _). unfold data_e in Ed. cbn [base] in Ed. rewrite He in Ed. discriminate.
      * assert (PL : exists d, e = Plain d).
        { destruct He as (_ & He). destruct e as [d|r0|d rt isz]; [eauto| |]; exfalso.
          - cbn [base] in Ht. unfold V_RECORD_TYPE in Ht. tauto.
          - destruct He as (_ & He & _). unfold data_e in Ed. cbn [base] in Ed. rewrite He in Ed. discriminate. }
        destruct PL as [d ->].
        apply wp_bind, wp_ld; [rewrite (frame_msz _ _ _ F1); lia|].
        rewrite (frame_num _ _ _ _ _ F1) by (intros x; unfold drange; lia). rewrite DC.
        cbn [base]. rewrite (proj1 (proj2 He)).
        assert (MS' : mstep (Plain d) = md_data d) by (unfold mstep; now rewrite Ed).
        rewrite MS' in *. apply (CONT m1); [apply frame_refl|exact I].
Qed.
End Passes.
