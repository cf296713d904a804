(** Layout and description of a set over its life. *)
From Verif Require Import Bytes M_Set S_Set L_SetMem L_SetLay L_SetCreate L_SetInit L_SetTop L_SetMake L_SetRep L_SetOps L_SetTx L_SetBuilt L_SetProp L_SetHist.
Local Open Scope N_scope.

(** ** Names *)
Definition name_of (e : entry) : list byte := md_name (base e).
Lemma beq_spec a b : reflect (a = b) (beq a b).
Proof. unfold beq. destruct (list_eq_dec N.eq_dec a b); constructor; assumption. Qed.
Lemma has_name_false s name : has_name s name = false -> ~ In name (map name_of (s_list s)).
Proof.
  unfold has_name. intros H I. apply in_map_iff in I. destruct I as (e & <- & I).
  assert (existsb (fun e0 => beq (md_name (base e0)) (name_of e)) (s_list s) = true); [|congruence].
  apply existsb_exists. exists e. split; [exact I|]. destruct (beq_spec (md_name (base e)) (name_of e)); auto.
Qed.
Lemma nodup_snoc s e : NoDup (map name_of (s_list s)) -> has_name s (name_of e) = false ->
  NoDup (map name_of (s_list s ++ [e])).
Proof.
  intros H HN. rewrite map_app. cbn [map]. apply (NoDup_Add (Add_app (name_of e) (map name_of (s_list s)) [])).
  rewrite app_nil_r. split; [exact H|]. now apply has_name_false.
Qed.
Lemma mdef_add_list s e rc s' : mdef_add s e = (rc, s') -> s_list s' = s_list s ++ [e].
Proof. unfold mdef_add. destruct (is_data _); intros H; injection H as <- <-; reflexivity. Qed.
Lemma schema_add_nodup s name unit f t c rc s' : NoDup (map name_of (s_list s)) ->
  schema_add s name unit f t c = Some (rc, s') -> NoDup (map name_of (s_list s')).
Proof.
  intros H HA. unfold schema_add in HA. destruct (has_name s name) eqn:HN; [injection HA as <- <-; exact H|].
  destruct (_ && _); [injection HA as <- <-; exact H|]. destruct (value_size t c); [|discriminate].
  match type of HA with Some ?X = _ => assert (HA' : X = (rc, s')) by congruence end.
  rewrite (mdef_add_list _ _ _ _ HA'). now apply nodup_snoc.
Qed.
Lemma built_nodup s : built s -> NoDup (map name_of (s_list s)).
Proof.
  induction 1.
  - constructor.
  - unfold schema_array_card_set in H0. destruct (Z.ltb_spec n 0); injection H0 as <- <-; assumption.
  - unfold schema_metric_add in H2. destruct (_ || _); [injection H2 as <- <-; exact IHbuilt|]. eapply schema_add_nodup; eauto.
  - unfold schema_meta_add in H2. destruct (_ || _); [injection H2 as <- <-; exact IHbuilt|]. eapply schema_add_nodup; eauto.
  - unfold schema_metric_array_add in H3. destruct (negb _); [injection H3 as <- <-; exact IHbuilt|]. eapply schema_add_nodup; eauto.
  - eapply schema_add_nodup; eauto.
  - eapply schema_add_nodup; eauto.
  - unfold schema_record_add in H1. destruct (has_name s _) eqn:HN; [injection H1 as <- <- <-; exact IHbuilt|].
    destruct (rc_id r); [injection H1 as <- <- <-; exact IHbuilt|].
    destruct (mdef_add s (RecT r)) as [id s1] eqn:HM. injection H1 as <- <- <-. cbn [s_list].
    rewrite (mdef_add_list _ _ _ _ HM). now apply nodup_snoc.
  - unfold schema_record_array_add in H3. destruct (rc_id r); [|injection H3 as <- <-; exact IHbuilt].
    destruct (has_name s name) eqn:HN; [injection H3 as <- <-; exact IHbuilt|].
    rewrite (mdef_add_list _ _ _ _ H3). now apply nodup_snoc.
Qed.
Lemma fix_name e : name_of (fix_list e) = name_of e.
Proof. destruct e as [d|r|d rt isz]; try reflexivity. cbn [fix_list]. destruct (_ && _); reflexivity. Qed.
Lemma metrics_names s : map name_of (metrics s) = map name_of (s_list s).
Proof. unfold metrics. rewrite map_map. apply map_ext. apply fix_name. Qed.

(** ** Sizes *)
Lemma need_fits e : wf_entry e -> need_bytes e <= md_data (base e).
Proof.
  intros W. destruct e as [d|r|d rt isz].
  - rewrite <- (room_md (Plain d) W) by discriminate. exact (round8_le (need_bytes (Plain d))).
  - destruct W as (_ & T1 & T2 & T3 & T4 & T5 & T6). cbn [need_bytes base]. rewrite T4. unfold REC_TYPE.
    apply N.add_le_mono_l. clear -T3. induction T3 as [|d l W _ IH]; [reflexivity|].
    rewrite sum_cons. cbn [fold_right]. unfold tsz at 1. destruct W as ((_ & _ & _ & -> & _) & _). lia.
  - rewrite <- (room_md (RecA d rt isz) W) by discriminate. exact (round8_le (need_bytes (RecA d rt isz))).
Qed.
Lemma desc_fits d : wf_mdef d -> desc_bytes d <= md_meta d.
Proof.
  intros W. pose proof (meta_room d W) as [H _]. unfold desc_bytes. unfold VD_NAME, nulen in H. lia.
Qed.
Lemma mstep4 e : wf_entry e -> mstep e mod 4 = 0.
Proof.
  intros (W0 & W). unfold mstep. destruct (data_e e); [reflexivity|].
  assert (M84 : forall x, x mod 8 = 0 -> x mod 4 = 0).
  { intros x Hx. rewrite (N.div_mod x 8), Hx by lia. replace (8 * (x / 8) + 0) with (0 + (2 * (x / 8)) * 4) by lia.
    now rewrite N.mod_add. }
  destruct e as [d|r|d rt isz]; cbn [base].
  - apply M84. apply (value_size_pos _ _ _ (proj1 W)).
  - destruct W as (_ & _ & T3 & -> & _). unfold REC_TYPE. rewrite tsz_sum.
    assert (S8 : sum md_meta (rc_ms r) mod 8 = 0).
    { apply sum_mod8. eapply Forall_impl; [|exact T3]. intros d Wd. cbv beta. exact (proj2 (meta_room d (proj1 Wd))). }
    pose proof (M84 _ S8) as S4. rewrite N.add_mod by lia. rewrite (N.add_mod (4 * _)) by lia. rewrite S4.
    rewrite (N.mul_comm 4), N.mod_mul by lia. reflexivity.
  - apply M84. destruct W as (_ & _ & -> & _). apply round8_div.
Qed.
Lemma mstep8 e : wf_entry e -> (forall r, e <> RecT r) -> mstep e mod 8 = 0.
Proof.
  intros (W0 & W) Hn. unfold mstep. destruct (data_e e); [reflexivity|].
  destruct e as [d|r|d rt isz]; cbn [base].
  - apply (value_size_pos _ _ _ (proj1 W)).
  - destruct (Hn _ eq_refl).
  - destruct W as (_ & _ & -> & _). apply round8_div.
Qed.
Lemma sum_mod4 {A} (f : A -> N) l : Forall (fun x => f x mod 4 = 0) l -> sum f l mod 4 = 0.
Proof.
  induction 1 as [|x l Hx _ IH]; [reflexivity|]. rewrite sum_cons, N.add_mod, Hx, IH by lia. reflexivity.
Qed.

Section Desc.
Variables (s : schema) (inst : list byte) (own : N * N * N).
Notation es := (metrics s).
Notation n := (buffers s).
Notation H := (history s inst own).
Notation E req := (env_of inst s req).

Lemma doff8 req p : ok_env (E req) -> Forall wf_entry p -> v_doff (E req) p mod 8 = 0.
Proof.
  intros OK F. unfold v_doff, doff. rewrite N.add_mod by lia. rewrite (proj2 (e_D0 (E req))).
  rewrite sum_mod8; [reflexivity|]. eapply Forall_impl; [|exact F]. intros e W. cbv beta. exact (proj2 (meta_room _ (proj1 W))).
Qed.
Lemma moff_doff req p : v_moff (E req) p = v_doff (E req) es + sum mstep p.
Proof. reflexivity. Qed.

Lemma layout l m : H l m ->
  exists meta buf heap, block s m meta buf heap /\
    (forall k e, nth_error es k = Some e ->
       exists a vd, placed m (Z.of_nat k) a vd /\ laid_out s inst m meta buf heap e a vd) /\
    (forall k e a vd k' e' a' vd', nth_error es k = Some e -> placed m (Z.of_nat k) a vd ->
       nth_error es k' = Some e' -> placed m (Z.of_nat k') a' vd' -> k <> k' ->
       apart a (need_bytes e) a' (need_bytes e') /\ apart vd (desc_bytes (base e)) vd' (desc_bytes (base e')) /\
       apart a (need_bytes e) vd' (desc_bytes (base e'))).
Proof.
  intros HH. destruct (hist_repr s inst own l m HH) as (req & A0 & A & OK & _ & _ & R & _).
  set (EE := E req) in *. change (repr EE (mb m) m A) in R. pose proof (rp_static _ _ _ _ R) as ((HS & DA & DO & RT) & BS & Hm & Hd & Hdat & Hc).
  pose proof (p_cur EE _ m A R) as HCA. pose proof (rp_cur _ _ _ _ R) as Hcur.
  pose proof (e_ms_ge EE OK) as MG. pose proof (e_D0 EE) as D0. pose proof (e_bs EE OK) as HB.
  assert (PL : forall k e, nth_error es k = Some e ->
     placed m (Z.of_nat k) (addr EE (vloc A k e)) (v_doff EE (pos EE k))).
  { intros k e Hk. unfold placed. apply reads_ret. exact (mval_set_at EE OK (mb m) m A R k e Hk _ (at_of_nat _ k e Hk)). }
  assert (LOW : forall a, a + 4 <= 140 -> a + N.of_nat 4 <= msz m) by (intros a Ha; rewrite Hm; unfold H_DICT in *; lia).
  (* extents *)
  assert (XD : forall k e, nth_error es k = Some e ->
     names_end s inst <= v_doff EE (pos EE k) /\ v_doff EE (pos EE k) mod 8 = 0 /\
     v_doff EE (pos EE k) + desc_bytes (base e) <= v_doff EE es).
  { intros k e Hk. destruct (split_at EE k e Hk) as [SP _]. pose proof (e_doff EE OK _ _ _ SP) as B.
    pose proof (desc_fits (base e) (proj1 (e_wf EE OK _ _ _ SP))) as DF. change (mm e) with (md_meta (base e)) in B.
    change (v_doff EE (v_es EE)) with (v_doff EE es) in B.
    assert (names_end s inst <= v_D0 EE).
    { unfold names_end. destruct D0 as [D0 _]. unfold H_DICT, v_c in D0.
      change (v_es EE) with es in D0. change (v_inst EE) with inst in D0. change (v_sname EE) with (s_name s) in D0. lia. }
    split; [lia|]. split; [|lia]. apply doff8; [exact OK|].
    unfold pos. pose proof (ok_wf EE OK) as WF. rewrite SP in WF. apply Forall_app in WF. exact (proj1 WF). }
  assert (XV : forall k e, nth_error es k = Some e -> in_data e = true ->
     v_buf EE (a_cur A) + 96 <= addr EE (vloc A k e) /\
     addr EE (vloc A k e) + md_data (base e) <= v_buf EE (a_cur A) + v_ds EE /\ addr EE (vloc A k e) mod 8 = 0).
  { intros k e Hk Hin. destruct (split_at EE k e Hk) as [SP _].
    assert (VA : valid EE (LV (a_cur A) k)) by (split; [exact HCA|eauto]).
    pose proof (bnd_val EE OK (a_cur A) k VA) as B. unfold vloc. change (data_e e) with (in_data e). rewrite Hin.
    cbn [addr size] in B |- *. rewrite (slot_at EE k e Hk), N2Nat.id in B. split; [lia|]. split; [lia|].
    rewrite (proj1 (e_voff EE OK _ _ _ SP Hin)). unfold v_buf.
    assert (B8 : v_bs EE mod 8 = 0).
    { rewrite (proj2 HB), N.add_mod by lia. rewrite (e_ds8 EE OK), (ok_hsz EE OK). reflexivity. }
    assert (S8 : sum dstep (pos EE k) mod 8 = 0).
    { apply sum_mod8. pose proof (ok_wf EE OK) as WF. rewrite SP in WF. apply Forall_app in WF.
      eapply Forall_impl; [|exact (proj1 WF)]. intros x W. cbv beta. unfold dstep. destruct (data_e x) eqn:Dx; [|reflexivity].
      now apply md_data_pos. }
    rewrite N.add_mod by lia. rewrite (N.add_mod (v_ms EE)) by lia. rewrite (proj2 (ok_ms EE OK)).
    rewrite (N.mul_mod (a_cur A)) by lia. rewrite B8, N.mul_0_r. rewrite (N.add_mod DATA_HDR) by lia. rewrite S8. reflexivity. }
  assert (XM : forall k e, nth_error es k = Some e -> in_data e = false ->
     v_doff EE es <= addr EE (vloc A k e) /\ addr EE (vloc A k e) + md_data (base e) <= v_ms EE /\
     addr EE (vloc A k e) mod 4 = 0 /\ (no_rec_type s -> addr EE (vloc A k e) mod 8 = 0)).
  { intros k e Hk Hin. destruct (split_at EE k e Hk) as [SP _]. pose proof (e_moff EE OK _ _ _ SP) as B.
    assert (MS : mstep e = md_data (base e)) by (unfold mstep; change (data_e e) with (in_data e); now rewrite Hin).
    unfold vloc. change (data_e e) with (in_data e). rewrite Hin. cbn [addr]. change (v_doff EE (v_es EE)) with (v_doff EE es) in B.
    assert (WF : Forall wf_entry (pos EE k)).
    { pose proof (ok_wf EE OK) as WF. rewrite SP in WF. apply Forall_app in WF. exact (proj1 WF). }
    pose proof (doff8 req es OK (ok_wf EE OK)) as D8. fold EE in D8.
    split; [lia|]. split; [lia|]. split.
    - unfold EE at 1. rewrite moff_doff. fold EE. rewrite N.add_mod by lia. rewrite sum_mod4.
      + rewrite N.add_0_r, N.mod_mod by lia. rewrite (N.div_mod (v_doff EE es) 8), D8 by lia.
        replace (8 * (v_doff EE es / 8) + 0) with (0 + (2 * (v_doff EE es / 8)) * 4) by lia. now rewrite N.mod_add.
      + eapply Forall_impl; [|exact WF]. intros x W. cbv beta. now apply mstep4.
    - intros NR. unfold EE at 1. rewrite moff_doff. fold EE. rewrite N.add_mod by lia. rewrite D8, sum_mod8; [reflexivity|].
      apply Forall_forall. intros x Ix. rewrite Forall_forall in WF. apply mstep8; [now apply WF|].
      intros r ->. apply (NR r). unfold pos in Ix. change (v_es EE) with es in Ix.
      rewrite <- (firstn_skipn k es). apply in_or_app. now left. }
  assert (NB : forall k e, nth_error es k = Some e -> need_bytes e <= md_data (base e)).
  { intros k e Hk. destruct (split_at EE k e Hk) as [SP _]. exact (need_fits e (e_wf EE OK _ _ _ SP)). }
  pose proof (e_buf EE (a_cur A) HCA) as BU.
  exists (v_ms EE), (v_bs EE), (v_hsz EE). split; [|split].
  - constructor.
    + apply reads_ret, reads_ld; [apply LOW; ubody; lia|exact (h_meta _ _ _ _ _ _ _ _ _ HS)].
    + apply reads_ret, reads_ld; [apply LOW; ubody; lia|exact (h_data _ _ _ _ _ _ _ _ _ HS)].
    + split; [apply reads_ret, reads_ld; [apply LOW; ubody; lia|exact (h_heap _ _ _ _ _ _ _ _ _ HS)]|lia].
    + split; [exact Hc|exact Hdat].
    + rewrite Hm. unfold v_tot. change (v_ac EE) with n. lia.
  - intros k e Hk. exists (addr EE (vloc A k e)), (v_doff EE (pos EE k)). split; [now apply PL|].
    specialize (NB k e Hk). destruct (XD k e Hk) as (D1 & D2 & D3).
    constructor.
    + split; [exact D1|]. split; [exact D2|]. change (v_doff EE (v_es EE)) with (v_doff EE es) in MG. lia.
    + intros Hin. destruct (XV k e Hk Hin) as (V1 & V2 & V3). rewrite Hdat, Hcur. split; [lia|]. split; [lia|exact V3].
    + intros Hin. destruct (XM k e Hk Hin) as (V1 & V2 & V3 & V4). split; [lia|]. split; [lia|]. split; [exact V3|exact V4].
  - assert (VV : forall k e k' e', nth_error es k = Some e -> nth_error es k' = Some e' -> (k < k')%nat ->
       apart (addr EE (vloc A k e)) (need_bytes e) (addr EE (vloc A k' e')) (need_bytes e')).
    { intros k e k' e' Hk Hk' LT. pose proof (NB k e Hk) as N1. pose proof (NB k' e' Hk') as N2. unfold apart.
      destruct (in_data e) eqn:I1, (in_data e') eqn:I2.
      - assert (VA : valid EE (LV (a_cur A) k)) by (split; [exact HCA|eauto]).
        assert (VA' : valid EE (LV (a_cur A) k')) by (split; [exact HCA|eauto]).
        pose proof (disj_val_lt EE OK (a_cur A) k k' VA VA' LT) as DJ. unfold disj in DJ. cbn [size] in DJ.
        rewrite (slot_at EE k e Hk), (slot_at EE k' e' Hk'), !N2Nat.id in DJ. unfold vloc.
        change (data_e e) with (in_data e). change (data_e e') with (in_data e'). rewrite I1, I2. lia.
      - pose proof (XV k e Hk I1). pose proof (XM k' e' Hk' I2). lia.
      - pose proof (XM k e Hk I1). pose proof (XV k' e' Hk' I2). lia.
      - left. unfold vloc. change (data_e e) with (in_data e). change (data_e e') with (in_data e'). rewrite I1, I2. cbn [addr].
        pose proof (nth_len EE k' e' Hk') as NL. destruct (pos_lt EE k k' e LT Hk) as [r Er]; [lia|].
        rewrite Er, e_moff_step. assert (mstep e = md_data (base e)) by (unfold mstep; change (data_e e) with (in_data e); now rewrite I1). lia. }
    assert (DD : forall k e k' e', nth_error es k = Some e -> nth_error es k' = Some e' -> (k < k')%nat ->
       v_doff EE (pos EE k) + desc_bytes (base e) <= v_doff EE (pos EE k')).
    { intros k e k' e' Hk Hk' LT. destruct (split_at EE k e Hk) as [SP _].
      pose proof (desc_fits (base e) (proj1 (e_wf EE OK _ _ _ SP))) as DF.
      pose proof (nth_len EE k' e' Hk') as NL. destruct (pos_lt EE k k' e LT Hk) as [r Er]; [lia|].
      rewrite Er, e_doff_step. change (mm e) with (md_meta (base e)). lia. }
    intros k e a vd k' e' a' vd' Hk P Hk' P' NE.
    pose proof (PL k e Hk) as P1. pose proof (PL k' e' Hk') as P1'. unfold placed in *.
    assert (Q : Some (a, vd) = Some (addr EE (vloc A k e), v_doff EE (pos EE k))) by congruence.
    assert (Q' : Some (a', vd') = Some (addr EE (vloc A k' e'), v_doff EE (pos EE k'))) by congruence.
    injection Q as -> ->. injection Q' as -> ->. split; [|split].
    + destruct (Nat.lt_total k k') as [h|[h|h]]; [now apply VV|contradiction|].
      pose proof (VV k' e' k e Hk' Hk h) as V. unfold apart in *. tauto.
    + unfold apart. destruct (Nat.lt_total k k') as [h|[h|h]]; [left; now apply (DD k e k' e')|contradiction|right; now apply (DD k' e' k e)].
    + unfold apart. right. destruct (XD k' e' Hk') as (_ & _ & D3).
      destruct (in_data e) eqn:I1.
      * pose proof (XV k e Hk I1). change (v_doff EE (v_es EE)) with (v_doff EE es) in MG. lia.
      * pose proof (XM k e Hk I1). lia.
Qed.

(** ** Descriptions *)
Section At.
Variables (req : N) (m : st) (A : aset).
Hypothesis OK : ok_env (E req).
Hypothesis R : repr (E req) (mb m) m A.
Notation EE := (E req).

Lemma rd_cstr a l : is_name l -> a + blen l + 1 <= msz m -> get m a (S (length l)) = l ++ [0] -> reads (cstr a) l m.
Proof. intros H1 H2 H3. apply (wp_cstr a l); auto. Qed.
Lemma d_name k e : nth_error es k = Some e -> reads (cstr (v_doff EE (pos EE k) + VD_NAME)) (md_name (base e)) m.
Proof.
  intros Hk. pose proof (at_body EE (mb m) m A R k e Hk) as (_ & _ & _ & B4 & _). destruct (split_at EE k e Hk) as [SP _].
  pose proof (e_wf EE OK _ _ _ SP) as (W & _). pose proof (meta_room _ W) as [MR _]. pose proof (e_doff EE OK _ _ _ SP) as ED.
  pose proof (e_ms_ge EE OK) as MG. change (mm e) with (md_meta (base e)) in ED. unfold nulen in MR.
  apply rd_cstr; [exact (proj1 W)| |exact B4]. rewrite (p_msz EE (mb m) m A R). lia.
Qed.
Lemma d_unit k e u : nth_error es k = Some e -> md_unit (base e) = Some u ->
  reads (cstr (v_doff EE (pos EE k) + VD_NAME + blen (md_name (base e)) + 1)) u m.
Proof.
  intros Hk Hu. pose proof (at_body EE (mb m) m A R k e Hk) as (_ & _ & _ & _ & B5 & _). destruct (split_at EE k e Hk) as [SP _].
  pose proof (e_wf EE OK _ _ _ SP) as (W & _). pose proof (meta_room _ W) as [MR _]. pose proof (e_doff EE OK _ _ _ SP) as ED.
  pose proof (e_ms_ge EE OK) as MG. change (mm e) with (md_meta (base e)) in ED. unfold nulen in MR. rewrite Hu in MR, B5.
  apply rd_cstr; [|rewrite (p_msz EE (mb m) m A R); lia|exact B5]. destruct W as (_ & W & _). now rewrite Hu in W.
Qed.
Lemma d_nulen k e : nth_error es k = Some e -> reads (ld 1 (v_doff EE (pos EE k) + VD_NULEN)) (nulen (base e)) m.
Proof.
  intros Hk. pose proof (at_body EE (mb m) m A R k e Hk) as (_ & _ & _ & _ & _ & B6).
  pose proof (at_room EE OK (mb m) m A R k e Hk). apply reads_ld; [unfold VD_NULEN; lia|exact B6].
Qed.
Lemma sname_at : reads schema_name_at (H_DICT + 4 * v_c EE + 2 + blen inst) m.
Proof.
  pose proof (p_h EE (mb m) m A R) as HS. pose proof (e_D0 EE) as [D0 _]. pose proof (e_ms_ge EE OK) as MG.
  pose proof (p_msz EE (mb m) m A R) as PM. change (v_inst EE) with inst in *. change (v_sname EE) with (s_name s) in *.
  unfold schema_name_at, instance_name_at.
  eapply reads_bind.
  { eapply reads_bind; [apply reads_ld; [apply (p_low EE OK _ m A R); ubody; lia|exact (h_card _ _ _ _ _ _ _ _ _ HS)]|apply reads_pure]. }
  eapply reads_bind; [apply reads_ld; [rewrite PM; lia|exact (h_il _ _ _ _ _ _ _ _ _ HS)]|].
  change (v_inst EE) with inst.
  replace (H_DICT + 4 * v_c EE + 1 + (blen inst + 1)) with (H_DICT + 4 * v_c EE + 2 + blen inst) by lia. apply reads_pure.
Qed.

Lemma by_name_step name j k e : nth_error es j = Some e ->
  forall v, (if beq (name_of e) name then v = Z.of_nat j else reads (by_name_loop k (N.of_nat (S j)) name) v m) ->
  reads (by_name_loop (S k) (N.of_nat j) name) v m.
Proof.
  intros Hk v Hv. cbn [by_name_loop]. rewrite nat_N_Z.
  eapply reads_bind; [exact (desc_get_some EE OK _ m A R _ j e (at_of_nat _ j e Hk))|]. cbv beta iota.
  eapply reads_bind; [exact (d_name j e Hk)|]. change (md_name (base e)) with (name_of e).
  destruct (beq (name_of e) name); [subst v; apply reads_pure|].
  replace (N.of_nat (S j)) with (N.of_nat j + 1) in Hv by lia. exact Hv.
Qed.
Lemma by_name_miss name k : forall j, (j + k = length es)%nat -> ~ In name (map name_of es) ->
  reads (by_name_loop k (N.of_nat j) name) (-1)%Z m.
Proof.
  induction k as [|k IH]; intros j Hj NI; [apply reads_pure|].
  destruct (nth_error es j) as [e|] eqn:Hk; [|apply nth_error_None in Hk; lia].
  apply (by_name_step name j k e Hk). destruct (beq_spec (name_of e) name) as [<-|_].
  - destruct NI. apply in_map. eapply nth_error_In; eauto.
  - apply IH; [lia|exact NI].
Qed.
Lemma by_name_hit i e k : nth_error es i = Some e -> NoDup (map name_of es) -> forall j, (j + k = length es)%nat -> (j <= i)%nat ->
  reads (by_name_loop k (N.of_nat j) (name_of e)) (Z.of_nat i) m.
Proof.
  intros Hi ND. pose proof (nth_len EE i e Hi) as NL. change (v_es EE) with es in NL.
  induction k as [|k IH]; intros j Hj Hji; [lia|].
  destruct (nth_error es j) as [e'|] eqn:Hk; [|apply nth_error_None in Hk; lia].
  apply (by_name_step (name_of e) j k e' Hk). destruct (beq_spec (name_of e') (name_of e)) as [Q|Q].
  - f_equal. rewrite NoDup_nth_error in ND. apply ND; [rewrite map_length; lia|].
    rewrite (map_nth_error name_of _ _ Hi), (map_nth_error name_of _ _ Hk). now rewrite Q.
  - apply IH; [lia|]. destruct (Nat.eq_dec j i) as [->|]; [|lia]. rewrite Hi in Hk. injection Hk as ->. destruct Q; reflexivity.
Qed.

Lemma descr : NoDup (map name_of es) -> described s inst m.
Proof.
  intros ND. pose proof (p_h EE (mb m) m A R) as HS. pose proof (e_D0 EE) as [D0 _]. pose proof (e_ms_ge EE OK) as MG.
  pose proof (p_msz EE (mb m) m A R) as PM. change (v_inst EE) with inst in *. change (v_sname EE) with (s_name s) in *.
  change (v_dig EE) with (s_digest s) in HS.
  assert (CG : reads card_get (v_c EE) m).
  { apply reads_ld; [apply (p_low EE OK _ m A R); ubody; lia|exact (h_card _ _ _ _ _ _ _ _ _ HS)]. }
  assert (SN : reads (cstr (H_DICT + 4 * v_c EE + 2 + blen inst + 1)) (s_name s) m).
  { replace (H_DICT + 4 * v_c EE + 2 + blen inst + 1) with (H_DICT + 4 * v_c EE + 3 + blen inst) by lia.
    apply rd_cstr; [exact (proj1 (ok_sn EE OK))|rewrite PM; lia|exact (h_sn _ _ _ _ _ _ _ _ _ HS)]. }
  constructor.
  - apply reads_ret. exact CG.
  - apply reads_ret. unfold name_get, instance_name_at. eapply reads_bind; [eapply reads_bind; [exact CG|apply reads_pure]|].
    apply rd_cstr; [exact (proj1 (ok_in EE OK))|rewrite PM; lia|exact (h_in _ _ _ _ _ _ _ _ _ HS)].
  - apply reads_ret. unfold schema_name_get. eapply reads_bind; [exact sname_at|]. exact SN.
  - apply reads_ret. unfold digest_get. eapply reads_bind; [exact sname_at|]. eapply reads_bind; [exact SN|].
    eapply reads_bind; [apply reads_ld; [rewrite PM; lia|exact (h_sl _ _ _ _ _ _ _ _ _ HS)]|].
    unfold DIGEST. destruct (N.leb_spec (blen (s_name s) + 32) (blen (s_name s) + 34)); [|lia].
    apply wp_load; [rewrite PM; lia|]. split; [|reflexivity].
    transitivity (get m (H_DICT + 4 * v_c EE + 4 + blen inst + blen (s_name s)) 32); [f_equal; lia|exact (h_dg _ _ _ _ _ _ _ _ _ HS)].
  - intros i. apply reads_ret. unfold metric_name_get. destruct (at_idx es i) as [[k e]|] eqn:HI.
    + pose proof (proj1 (at_nth EE i k e HI)) as Hk.
      eapply reads_bind; [exact (desc_get_some EE OK _ m A R i k e HI)|]. cbv beta iota.
      eapply reads_bind; [exact (d_name k e Hk)|apply reads_pure].
    + eapply reads_bind; [exact (desc_get_none EE OK _ m A R i HI)|]. apply reads_pure.
  - intros i. apply reads_ret. unfold metric_unit_get. destruct (at_idx es i) as [[k e]|] eqn:HI.
    + pose proof (proj1 (at_nth EE i k e HI)) as Hk.
      eapply reads_bind; [exact (desc_get_some EE OK _ m A R i k e HI)|]. cbv beta iota.
      eapply reads_bind; [exact (d_name k e Hk)|]. eapply reads_bind; [exact (d_nulen k e Hk)|]. unfold nulen.
      destruct (md_unit (base e)) as [u|] eqn:Hu.
      * destruct (Z.eqb_spec (Z.of_N (blen (md_name (base e)) + 1 + (blen u + 1)) - 1) (Z.of_N (blen (md_name (base e))))); [lia|].
        eapply reads_bind; [exact (d_unit k e u Hk Hu)|apply reads_pure].
      * destruct (Z.eqb_spec (Z.of_N (blen (md_name (base e)) + 1 + 0) - 1) (Z.of_N (blen (md_name (base e))))); [|lia].
        apply reads_pure.
    + eapply reads_bind; [exact (desc_get_none EE OK _ m A R i HI)|]. apply reads_pure.
  - intros i. apply reads_ret. unfold metric_flags_get. destruct (at_idx es i) as [[k e]|] eqn:HI.
    + pose proof (proj1 (at_nth EE i k e HI)) as Hk.
      eapply reads_bind; [exact (desc_get_some EE OK _ m A R i k e HI)|]. exact (rd_flags EE OK _ m A R k e Hk).
    + eapply reads_bind; [exact (desc_get_none EE OK _ m A R i HI)|]. apply reads_pure.
  - intros i. apply reads_ret. unfold metric_type_get. destruct (at_idx es i) as [[k e]|] eqn:HI.
    + pose proof (proj1 (at_nth EE i k e HI)) as Hk.
      eapply reads_bind; [exact (mval_get_at EE OK _ m A i k e R HI)|]. exact (rd_type EE OK _ m A R k e Hk).
    + eapply reads_bind; [unfold mval_to_get; eapply reads_bind; [exact (desc_get_none EE OK _ m A R i HI)|apply reads_pure]|].
      apply reads_pure.
  - intros i k e HI. apply reads_ret. unfold metric_is_array, dict_raw. pose proof (proj1 (at_nth EE i k e HI)) as Hk.
    eapply reads_bind; [eapply reads_bind; [exact (desc_get_some EE OK _ m A R i k e HI)|apply reads_pure]|].
    eapply reads_bind; [exact (rd_type EE OK _ m A R k e Hk)|apply reads_pure].
  - intros i k e HI. apply reads_ret. unfold metric_array_get_len, dict_raw. pose proof (proj1 (at_nth EE i k e HI)) as Hk.
    eapply reads_bind; [eapply reads_bind; [exact (desc_get_some EE OK _ m A R i k e HI)|apply reads_pure]|].
    eapply reads_bind; [exact (rd_type EE OK _ m A R k e Hk)|].
    change (array_type (md_type (base e))) with (type_is_array (md_type (base e))).
    destruct (type_is_array _); [exact (rd_count EE OK _ m A R k e Hk)|apply reads_pure].
  - intros k e Hk. apply reads_ret. unfold metric_by_name. eapply reads_bind; [exact CG|]. unfold v_c. rewrite Nat2N.id.
    exact (by_name_hit k e _ Hk ND 0 eq_refl (Nat.le_0_l k)).
  - intros name NI. apply reads_ret. unfold metric_by_name. eapply reads_bind; [exact CG|]. unfold v_c. rewrite Nat2N.id.
    exact (by_name_miss name _ 0 eq_refl NI).
Qed.
End At.

Lemma hist_described l m : H l m -> described s inst m.
Proof.
  intros HH. destruct (hist_repr s inst own l m HH) as (req & A0 & A & OK & _ & _ & R & h & (B & _)).
  apply (descr req m A OK R). rewrite metrics_names. now apply built_nodup.
Qed.
End Desc.
