(** Record arrays of a set and the members of their instances: lemmas. *)
From Verif Require Import Bytes M_Set S_Set L_SetMem L_SetLay L_SetCreate L_SetInit L_SetTop L_SetMake L_SetRep L_SetOps
  L_SetTx L_SetBuilt L_SetProp L_SetHist L_SetDesc L_SetMore S_Record.
Local Open Scope N_scope.

(** ** Record types of arrays *)
Definition linked (l : list entry) : Prop := forall k d rt isz, nth_error l k = Some (RecA d rt isz) ->
  exists r, nth_error l (N.to_nat rt) = Some (RecT r) /\ rc_inst r = isz.
Lemma linked_snoc l e : linked l ->
  (forall d rt isz, e = RecA d rt isz -> exists r, nth_error l (N.to_nat rt) = Some (RecT r) /\ rc_inst r = isz) ->
  linked (l ++ [e]).
Proof.
  intros H He k d rt isz Hk.
  assert (X : exists r, nth_error l (N.to_nat rt) = Some (RecT r) /\ rc_inst r = isz).
  { destruct (Nat.lt_ge_cases k (length l)) as [L|L].
    - rewrite nth_error_app1 in Hk by exact L. exact (H _ _ _ _ Hk).
    - rewrite nth_error_app2 in Hk by exact L. destruct (k - length l)%nat as [|x]; cbn in Hk; [|destruct x; discriminate].
      injection Hk as Hk. exact (He _ _ _ Hk). }
  destruct X as (r & X1 & X2). exists r. split; [|exact X2].
  rewrite nth_error_app1; [exact X1|]. apply nth_error_Some. congruence.
Qed.
Lemma linked_add s name unit f t c rc s' : linked (s_list s) -> schema_add s name unit f t c = Some (rc, s') -> linked (s_list s').
Proof.
  unfold schema_add. intros H. destruct (has_name s name); [intros [= _ <-]; exact H|].
  destruct (_ && _); [intros [= _ <-]; exact H|]. destruct (value_size t c); [|discriminate].
  intros HA. assert (HA' : mdef_add s (Plain (mkMdef name unit t f c (metric_meta_size name unit) n)) = (rc, s')) by congruence.
  rewrite (mdef_add_list _ _ _ _ HA'). apply linked_snoc; [exact H|discriminate].
Qed.
Lemma built_linked s : built s -> linked (s_list s).
Proof.
  induction 1 as [| |s name unit t rc s' _ IH _ _ HA|s name unit t rc s' _ IH _ _ HA|s name unit t n rc s' _ IH _ _ _ HA
    |s name unit t n rc s' _ IH _ _ _ HA|s name unit n rc s' _ IH _ _ HA|s r rc s' r' _ IH _ HA|s name r n rc s' _ IH _ AT _ HA].
  - intros k d rt isz Hk. destruct k; discriminate.
  - unfold schema_array_card_set in H0. destruct (_ <? _)%Z; injection H0 as <- <-; assumption.
  - unfold schema_metric_add in HA. destruct (_ || _); [injection HA as _ <-; exact IH|]. exact (linked_add _ _ _ _ _ _ _ _ IH HA).
  - unfold schema_meta_add in HA. destruct (_ || _); [injection HA as _ <-; exact IH|]. exact (linked_add _ _ _ _ _ _ _ _ IH HA).
  - unfold schema_metric_array_add in HA. destruct (negb _); [injection HA as _ <-; exact IH|]. exact (linked_add _ _ _ _ _ _ _ _ IH HA).
  - exact (linked_add _ _ _ _ _ _ _ _ IH HA).
  - exact (linked_add _ _ _ _ _ _ _ _ IH HA).
  - unfold schema_record_add in HA. destruct (has_name _ _); [injection HA as _ <- _; exact IH|].
    destruct (rc_id r); [injection HA as _ <- _; exact IH|].
    destruct (mdef_add s (RecT r)) as [id s1] eqn:HM. injection HA as _ <- _. cbn [s_list].
    rewrite (mdef_add_list _ _ _ _ HM). apply linked_snoc; [exact IH|discriminate].
  - destruct AT as (id & r0 & Hid & ->). unfold schema_record_array_add in HA. cbn [rc_id rc_inst] in HA.
    destruct (has_name _ _); [injection HA as _ <-; exact IH|].
    rewrite (mdef_add_list _ _ _ _ HA). apply linked_snoc; [exact IH|].
    intros d rt isz [= _ <- <-]. exists r0. rewrite Nat2N.id. auto.
Qed.
Lemma fix_rec e : (forall r, fix_list e = RecT r <-> e = RecT r) /\ (forall d rt z, fix_list e = RecA d rt z <-> e = RecA d rt z).
Proof.
  unfold fix_list. destruct e as [d|r|d rt z]; [destruct (_ && _)| |]; split; intros; split; intros H; try discriminate; exact H.
Qed.
Lemma metrics_linked s : built s -> linked (metrics s).
Proof.
  intros B k d rt isz Hk. unfold metrics in *. rewrite nth_error_map in Hk.
  destruct (nth_error (s_list s) k) as [e|] eqn:He; [|discriminate]. cbn in Hk. injection Hk as Hk.
  apply (proj2 (fix_rec e)) in Hk. subst e. destruct (built_linked s B _ _ _ _ He) as (r & Hr & Hi).
  exists r. split; [|exact Hi]. rewrite nth_error_map, Hr. reflexivity.
Qed.

(** ** Sizes of members *)
Lemma room_member d : wf_member d -> elem (md_type d) <> None -> room (Plain d) = md_data d.
Proof.
  intros (_ & _ & H) He. rewrite L_SetRep.elem_width in He. unfold value_size in H. unfold room, need_bytes.
  rewrite L_SetRep.elem_width. change (array_type (md_type d)) with (type_is_array (md_type d)).
  destruct (width (md_type d)) as [w|]; [injection H as <-; reflexivity|congruence].
Qed.
Definition mp (ms : list mdef) (i : nat) : N := sum md_data (firstn i ms).
Lemma mp_bound ms i d : nth_error ms i = Some d -> mp ms i + md_data d <= sum md_data ms.
Proof.
  intros H. destruct (L_SetRep.nth_split ms i d H) as [HS _]. unfold mp. rewrite HS at 2. rewrite sum_app, sum_cons. lia.
Qed.
Lemma mp_lt ms i i' d : nth_error ms i = Some d -> (i < i')%nat -> mp ms i + md_data d <= mp ms i'.
Proof.
  revert i i'. induction ms as [|x ms IH]; intros i i' H L; [destruct i; discriminate|].
  destruct i' as [|i']; [lia|]. destruct i as [|i].
  - injection H as ->. unfold mp. cbn [firstn]. rewrite sum_cons. unfold sum at 1. cbn. lia.
  - cbn in H. specialize (IH i i' H ltac:(lia)). unfold mp in *. cbn [firstn]. rewrite !sum_cons. lia.
Qed.

(** ** Headers of record arrays *)
Definition hd4 (v : list byte) (o x : N) : Prop := of_le (slice (N.to_nat o) 4 v) = x.
Definition inst_hd (P : N) (v : list byte) (rt o : N) : Prop := hd4 v o 2 /\ hd4 v (o + 8) (P + o) /\ hd4 v (o + 12) rt.
Definition arr_hd (P : N) (v : list byte) (d : mdef) (rt isz : N) : Prop :=
  hd4 v 0 (isz mod W32) /\ hd4 v 8 (md_count d) /\ forall j, j < md_count d -> inst_hd P v (rt mod W32) (12 + j * isz).

Section Rec.
Variable E : env.
Hypothesis OK : ok_env E.
Notation es := (v_es E).
Hypothesis LK : linked es.
Variable rest : N -> N.
Notation R := (repr E rest).

Definition intact (A : aset) : Prop := forall b k d rt isz, b < v_ac E -> nth_error es k = Some (RecA d rt isz) ->
  arr_hd (voff (pos E k)) (a_val A b k) d rt isz.

Section Arr.
Variables (k : nat) (d : mdef) (rt isz : N).
Hypothesis Hk : nth_error es k = Some (RecA d rt isz).
Lemma arr_wf : wf_entry (RecA d rt isz).
Proof using OK Hk. destruct (split_at E k _ Hk) as [HS _]. exact (e_wf E OK _ _ _ HS). Qed.
Lemma arr_room : room (RecA d rt isz) = md_data d /\ 12 + md_count d * isz <= md_data d /\ 16 <= isz.
Proof using OK Hk.
  pose proof arr_wf as W. split; [apply (room_md _ W); discriminate|]. destruct W as (_ & _ & _ & -> & H).
  split; [apply round8_le|exact H].
Qed.
Lemma arr_data : data_e (RecA d rt isz) = true.
Proof using OK Hk. pose proof arr_wf as (_ & _ & F & _). unfold data_e. cbn [base]. rewrite F. reflexivity. Qed.
Lemma arr_valid b : b < v_ac E -> valid E (LV b k).
Proof. intros H. split; [exact H|]. exists (RecA d rt isz). split; [exact Hk|exact arr_data]. Qed.
Lemma arr_size b : size E (LV b k) = N.to_nat (md_data d).
Proof. cbn [size]. now rewrite (slot_at E k _ Hk). Qed.
Lemma arr_small b : b < v_ac E -> addr E (LV b k) + md_data d < W32.
Proof using OK Hk. clear LK rest.
  intros Hb. destruct (bnd_val E OK b k (arr_valid b Hb)) as [_ B]. rewrite arr_size, N2Nat.id in B.
  pose proof (ok_tot E OK) as T. assert (v_buf E b + v_bs E <= v_tot E).
  { unfold v_buf, v_tot. assert ((b + 1) * v_bs E <= v_ac E * v_bs E) by (apply N.mul_le_mono_r; lia). lia. }
  unfold v_bs in *. lia.
Qed.
Lemma inst_end j : j < md_count d -> 12 + j * isz + isz <= md_data d.
Proof using OK Hk. clear LK rest.
  intros H. destruct arr_room as (_ & H1 & _). assert ((j + 1) * isz <= md_count d * isz) by (apply N.mul_le_mono_r; lia). lia.
Qed.
Lemma rd_hd m A b o x : R m A -> b < v_ac E -> o + 4 <= md_data d -> hd4 (a_val A b k) o x ->
  reads (ld 4 (addr E (LV b k) + o)) x m.
Proof.
  intros RP Hb Ho H. unfold hd4 in H. rewrite <- H. rewrite <- (N2Nat.id o) at 1.
  change (a_val A b k) with (content A (LV b k)).
  apply (rd_part E OK rest m A (LV b k) _ 4 RP (arr_valid b Hb)). rewrite arr_size. lia.
Qed.
(** The record type. *)
Lemma arr_type : exists r, nth_error es (N.to_nat rt) = Some (RecT r) /\ rc_inst r = isz.
Proof. exact (LK k d rt isz Hk). Qed.
End Arr.

Section Type_.
Variables (t : nat) (r : recdef).
Hypothesis Ht : nth_error es t = Some (RecT r).
Definition taddr : N := v_moff E (pos E t).
Lemma t_wf : wf_entry (RecT r).
Proof. destruct (split_at E t _ Ht) as [HS _]. exact (e_wf E OK _ _ _ HS). Qed.
Lemma t_ok m A : R m A -> rectype_ok m taddr r.
Proof.
  intros RP. destruct (split_at E t _ Ht) as [HS _]. destruct (rp_static E rest m A RP) as ((_ & _ & _ & H) & _).
  exact (H _ _ _ HS).
Qed.
Lemma t_bound m A : R m A -> taddr + tdoff (N.of_nat (length (rc_ms r))) (rc_ms r) <= msz m.
Proof using OK Ht.
  intros RP. destruct (split_at E t _ Ht) as [HS _]. pose proof (e_moff E OK _ _ _ HS) as (_ & B & C).
  pose proof t_wf as W. pose proof W as (_ & _ & F & _ & D & _). rewrite tsz_sum in D.
  assert (mstep (RecT r) = md_data (rc_mdef r)).
  { unfold mstep. rewrite (rect_meta r W). reflexivity. }
  rewrite (p_msz E rest m A RP). pose proof (e_ms_ge E OK). unfold v_tot in *. unfold taddr, tdoff.
  set (q := v_bs E * v_ac E). lia.
Qed.
Lemma t_n m A : R m A -> reads (ld 4 (taddr + T_N)) (N.of_nat (length (rc_ms r))) m.
Proof using OK Ht.
  intros RP. pose proof (t_bound m A RP) as B. destruct (t_ok m A RP) as (_ & H & _).
  apply reads_ld; [unfold tdoff, REC_TYPE, T_N in *; lia|exact H].
Qed.
Definition daddr (i : nat) : N := taddr + tdoff (N.of_nat (length (rc_ms r))) (firstn i (rc_ms r)).
Lemma m_split i x : nth_error (rc_ms r) i = Some x ->
  rc_ms r = firstn i (rc_ms r) ++ x :: skipn (S i) (rc_ms r) /\ length (firstn i (rc_ms r)) = i /\ (i < length (rc_ms r))%nat.
Proof.
  intros H. destruct (L_SetRep.nth_split _ _ _ H) as [H1 H2]. split; [exact H1|]. split; [exact H2|]. apply nth_error_Some. congruence.
Qed.
Lemma m_wf i x : nth_error (rc_ms r) i = Some x -> wf_member x.
Proof using OK Ht.
  intros H. pose proof t_wf as (_ & _ & _ & F & _). rewrite Forall_forall in F. apply F. exact (nth_error_In _ _ H).
Qed.
Lemma m_dict m A i x : R m A -> nth_error (rc_ms r) i = Some x ->
  reads (ld 4 (taddr + T_DICT + 4 * N.of_nat i)) (tdoff (N.of_nat (length (rc_ms r))) (firstn i (rc_ms r))) m.
Proof using OK Ht.
  intros RP H. destruct (m_split i x H) as (HS & HL & HI). pose proof (t_bound m A RP) as B.
  destruct (t_ok m A RP) as (_ & _ & _ & RA). destruct (RA _ _ _ HS) as [D _]. cbn [app] in D. rewrite HL in D.
  apply reads_ld; [unfold tdoff, REC_TYPE, T_DICT in *; lia|exact D].
Qed.
Lemma m_desc m A i x : R m A -> nth_error (rc_ms r) i = Some x ->
  desc_ok m (daddr i) x ((REC_INST + mp (rc_ms r) i) mod W32) /\ daddr i + md_meta x <= msz m.
Proof using OK Ht.
  intros RP H. destruct (m_split i x H) as (HS & HL & HI). pose proof (t_bound m A RP) as B.
  destruct (t_ok m A RP) as (_ & _ & _ & RA). destruct (RA _ _ _ HS) as [_ D]. cbn [app] in D. split; [exact D|].
  assert (SM : sum md_meta (rc_ms r) = sum md_meta (firstn i (rc_ms r)) + md_meta x + sum md_meta (skipn (S i) (rc_ms r))).
  { rewrite HS at 1. rewrite sum_app, sum_cons. lia. }
  unfold daddr, tdoff in *. lia.
Qed.
End Type_.

(** ** An instance *)
Section Inst.
Variables (m : st) (A : aset).
Hypothesis RP : R m A.
Hypothesis IN : intact A.
Variables (k : nat) (d : mdef) (rt isz : N) (r : recdef) (b j : N).
Hypothesis Hk : nth_error es k = Some (RecA d rt isz).
Hypothesis Hr : nth_error es (N.to_nat rt) = Some (RecT r).
Hypothesis Hz : rc_inst r = isz.
Hypothesis Hb : b < v_ac E.
Hypothesis Hj : j < md_count d.
Let p := addr E (LV b k) + (12 + j * isz).
Let ta := taddr (N.to_nat rt).

Lemma rt_small : rt < 2147483648.
Proof.
  pose proof (nth_len E _ _ Hr) as L. pose proof e_h1 E as H1. pose proof (e_h2 E OK) as H2. pose proof (e_D0 E) as [D0 _].
  pose proof (ok_tot E OK) as T. pose proof (e_ms_ge E OK) as G. pose proof (proj1 (ok_ms E OK)).
  destruct (split_at E _ _ Hr) as [HS _]. pose proof (e_doff E OK _ _ _ HS) as (Q1 & Q2 & Q3).
  change (doff (v_D0 E) es) with (v_doff E es) in H2. unfold H_DICT, v_c, W32 in *. lia.
Qed.
Lemma rd_flag : reads (ld 4 p) R_INST m.
Proof.
  pose proof (inst_end k d rt isz Hk j Hj) as B. destruct (arr_room k d rt isz Hk) as (_ & _ & S16).
  apply (rd_hd k d rt isz Hk m A b (12 + j * isz) 2 RP Hb); [lia|]. apply (IN b k d rt isz Hb Hk). exact Hj.
Qed.
Lemma rd_rt : reads (ld 4 (p + I_TYPE)) rt m.
Proof.
  pose proof (inst_end k d rt isz Hk j Hj) as B. destruct (arr_room k d rt isz Hk) as (_ & _ & S16). pose proof rt_small.
  unfold p. rewrite <- N.add_assoc. rewrite <- (N.mod_small rt W32) by (unfold W32; lia).
  apply (rd_hd k d rt isz Hk m A b _ _ RP Hb); [unfold I_TYPE; lia|].
  destruct (IN b k d rt isz Hb Hk) as (_ & _ & H'). destruct (H' j Hj) as (_ & _ & X). exact X.
Qed.
Lemma rd_doff : reads (ld 4 (p + I_DATA_OFF)) (voff (pos E k) + (12 + j * isz)) m.
Proof.
  pose proof (inst_end k d rt isz Hk j Hj) as B. destruct (arr_room k d rt isz Hk) as (_ & _ & S16).
  unfold p. rewrite <- N.add_assoc.
  apply (rd_hd k d rt isz Hk m A b _ _ RP Hb); [unfold I_DATA_OFF; lia|].
  destruct (IN b k d rt isz Hb Hk) as (_ & _ & H'). destruct (H' j Hj) as (_ & X & _). exact X.
Qed.
Lemma back_ok q n x : q = x + n -> reads (back q n) x m.
Proof. intros ->. unfold back. destruct (N.leb_spec n (x + n)); [|lia]. rewrite N.add_sub. apply reads_pure. Qed.
Lemma rd_rec_type : reads (rec_type p) (Some (ta, v_doff E (pos E (N.to_nat rt)), v_buf E b)) m.
Proof.
  unfold rec_type. eapply reads_bind; [exact rd_rt|]. eapply reads_bind; [exact rd_doff|].
  eapply reads_bind; [apply (back_ok _ _ (v_buf E b)); unfold p; cbn [addr]; lia|].
  destruct (rp_static E rest m A RP) as ((HS & DA & DO & _) & BO & HH).
  destruct (BO b Hb) as (_ & SO & _).
  pose proof (R_fits E OK rest m A (LH FGn b) RP Hb) as HF. cbn [addr size hoff hsize] in HF.
  eapply reads_bind; [apply reads_ld; [unfold D_SET_OFF; lia|exact SO]|].
  eapply reads_bind; [apply (back_ok _ _ 0); lia|]. rewrite !N.add_0_l.
  eapply reads_bind.
  { apply reads_ret. unfold load. pose proof (p_low E OK rest m A RP H_VERSION 4 ltac:(unfold H_VERSION; lia)) as PL.
    destruct (N.leb_spec (H_VERSION + N.of_nat 4) (msz m)); [|lia]. reflexivity. }
  rewrite (h_ver _ _ _ _ _ _ _ _ _ HS). destruct (beq_spec [4; 2; 0; 0] [4; 2; 0; 0]) as [_|X]; [|congruence]. cbn [negb].
  pose proof (at_of_nat es (N.to_nat rt) _ Hr) as HI.
  pose proof (nth_len E _ _ Hr) as HN.
  eapply reads_bind.
  { apply reads_ld; [rewrite (p_msz E rest m A RP); pose proof (e_ms_ge E OK); pose proof (e_D0 E); unfold H_DICT, v_c in *; lia|].
    destruct (split_at E _ _ Hr) as [SP SL]. destruct (DA _ _ _ SP) as [D _]. rewrite SL, N2Nat.id in D. exact D. }
  eapply reads_bind; [exact (rd_type E OK rest m A RP _ _ Hr)|].
  eapply reads_bind; [exact (rd_flags E OK rest m A RP _ _ Hr)|].
  pose proof (t_wf (N.to_nat rt) r Hr) as W. pose proof W as (_ & T25 & F6 & _). cbn [base]. rewrite T25, F6. cbn [N.eqb negb orb].
  change ((V_RECORD_TYPE =? V_RECORD_TYPE)) with true. 
  change (negb (25 =? V_RECORD_TYPE) || (N.land 6 F_RECORD =? 0) || (N.land 6 F_META =? 0)) with false. cbv iota.
  eapply reads_bind; [exact (rd_off E OK rest m A RP _ _ Hr)|]. rewrite (rect_meta r W). apply reads_pure.
Qed.
Lemma rd_mdesc_some (i : Z) x : (0 <= i)%Z -> nth_error (rc_ms r) (Z.to_nat i) = Some x ->
  reads (record_mdesc_get p i) (Some (daddr (N.to_nat rt) r (Z.to_nat i))) m.
Proof.
  intros Hi Hx. destruct (m_split r _ _ Hx) as (_ & _ & HL). unfold record_mdesc_get.
  eapply reads_bind; [exact rd_flag|]. change (R_INST =? R_TYPE) with false. cbv iota.
  eapply reads_bind; [eapply reads_bind; [exact rd_rec_type|apply reads_pure]|]. cbv beta iota.
  eapply reads_bind; [exact (t_n _ _ Hr m A RP)|].
  destruct (Z.ltb_spec i 0); [lia|]. destruct (Z.leb_spec (Z.of_N (N.of_nat (length (rc_ms r)))) i); [lia|]. cbn [orb].
  replace (Z.to_N i) with (N.of_nat (Z.to_nat i)) by lia.
  eapply reads_bind; [exact (m_dict _ _ Hr m A _ x RP Hx)|]. apply reads_pure.
Qed.
Lemma rd_mdesc_none (i : Z) : (i < 0)%Z \/ nth_error (rc_ms r) (Z.to_nat i) = None -> reads (record_mdesc_get p i) None m.
Proof.
  intros Hi. unfold record_mdesc_get.
  eapply reads_bind; [exact rd_flag|]. change (R_INST =? R_TYPE) with false. cbv iota.
  eapply reads_bind; [eapply reads_bind; [exact rd_rec_type|apply reads_pure]|]. cbv beta iota.
  eapply reads_bind; [exact (t_n _ _ Hr m A RP)|].
  destruct (Z.ltb_spec i 0); [apply reads_pure|]. destruct Hi as [Hi|Hi]; [lia|]. apply nth_error_None in Hi.
  destruct (Z.leb_spec (Z.of_N (N.of_nat (length (rc_ms r)))) i); [|lia]. apply reads_pure.
Qed.
Lemma mp_small (i : nat) x : nth_error (rc_ms r) i = Some x -> REC_INST + mp (rc_ms r) i + md_data x <= isz.
Proof using OK Hr Hz. clear - OK Hr Hz.
  intros Hx. pose proof (mp_bound _ _ _ Hx). pose proof (t_wf _ _ Hr) as (_ & _ & _ & _ & _ & HI & _). unfold REC_INST in *. lia.
Qed.
Lemma rd_metric_get (i : Z) x : (0 <= i)%Z -> nth_error (rc_ms r) (Z.to_nat i) = Some x ->
  reads (record_metric_get p i)
    (Some (addr E (LV b k) + (12 + j * isz + 16 + mp (rc_ms r) (Z.to_nat i)), daddr (N.to_nat rt) r (Z.to_nat i), v_buf E b)) m.
Proof.
  intros Hi Hx. unfold record_metric_get. eapply reads_bind; [exact rd_flag|]. change (negb (R_INST =? R_INST)) with false. cbv iota.
  eapply reads_bind; [exact rd_rec_type|]. cbv beta iota.
  eapply reads_bind; [exact (rd_mdesc_some i x Hi Hx)|]. cbv beta iota.
  destruct (m_desc _ _ Hr m A _ x RP Hx) as [(_ & _ & _ & _ & _ & _ & D7) DB]. pose proof (m_wf _ _ Hr _ _ Hx) as (W & _).
  pose proof (meta_room x W) as [MR _]. unfold VD_NAME in MR. pose proof (mp_small _ _ Hx) as MS.
  pose proof (inst_end k d rt isz Hk j Hj) as B. pose proof (arr_small k d rt isz Hk b Hb) as SM.
  rewrite N.mod_small in D7 by (unfold REC_INST in *; lia).
  eapply reads_bind; [apply reads_ld; [unfold VD_OFF; lia|exact D7]|].
  unfold p, REC_INST in *.
  replace (addr E (LV b k) + (12 + j * isz) + (16 + mp (rc_ms r) (Z.to_nat i)))
    with (addr E (LV b k) + (12 + j * isz + 16 + mp (rc_ms r) (Z.to_nat i))) by lia. apply reads_pure.
Qed.
Lemma rd_metric_wild (i : Z) : (i < 0)%Z \/ nth_error (rc_ms r) (Z.to_nat i) = None -> record_metric_get p i m = Wild.
Proof.
  intros Hi. unfold record_metric_get. unfold bind at 1. rewrite (proj1 (reads_ret _ _ _) rd_flag).
  change (negb (R_INST =? R_INST)) with false. cbv iota. unfold bind at 1. rewrite (proj1 (reads_ret _ _ _) rd_rec_type). cbv beta iota.
  unfold bind at 1. rewrite (proj1 (reads_ret _ _ _) (rd_mdesc_none i Hi)). reflexivity.
Qed.
Lemma rd_m_field (i : nat) x o n v : nth_error (rc_ms r) i = Some x -> o + N.of_nat n <= 28 ->
  num m (daddr (N.to_nat rt) r i + o) n = v -> reads (ld n (daddr (N.to_nat rt) r i + o)) v m.
Proof using OK RP Hr. clear - OK RP Hr.
  intros Hx Ho Hv. destruct (m_desc _ _ Hr m A _ x RP Hx) as [_ DB]. pose proof (m_wf _ _ Hr _ _ Hx) as (W & _).
  pose proof (meta_room x W) as [MR _]. assert (1 <= nulen x) by (unfold nulen; lia). unfold VD_NAME in MR.
  apply reads_ld; [lia|exact Hv].
Qed.
Lemma rd_m_name (i : nat) x : nth_error (rc_ms r) i = Some x ->
  reads (cstr (daddr (N.to_nat rt) r i + VD_NAME)) (md_name x) m.
Proof using OK RP Hr. clear - OK RP Hr.
  intros Hx. destruct (m_desc _ _ Hr m A _ x RP Hx) as [(_ & _ & _ & D4 & _) DB]. pose proof (m_wf _ _ Hr _ _ Hx) as (W & _).
  pose proof (meta_room x W) as [MR _]. apply (wp_cstr _ (md_name x)); [exact (proj1 W)| |exact D4|auto].
  unfold nulen in MR. destruct (md_unit x); lia.
Qed.
Lemma rd_m_unit (i : nat) x u : nth_error (rc_ms r) i = Some x -> md_unit x = Some u ->
  reads (cstr (daddr (N.to_nat rt) r i + VD_NAME + blen (md_name x) + 1)) u m.
Proof using OK RP Hr. clear - OK RP Hr.
  intros Hx Hu. destruct (m_desc _ _ Hr m A _ x RP Hx) as [(_ & _ & _ & _ & D5 & _) DB]. pose proof (m_wf _ _ Hr _ _ Hx) as (W & _).
  pose proof (meta_room x W) as [MR _]. unfold nulen in MR. destruct W as (_ & WU & _). rewrite Hu in *.
  apply (wp_cstr _ u); [exact WU|lia|exact D5|auto].
Qed.
Lemma inst_tells : tells m p rt r.
Proof.
  pose proof rt_small as RS.
  assert (NS : N.of_nat (length (rc_ms r)) < 2147483648).
  { pose proof (t_bound _ _ Hr m A RP) as TB. pose proof (p_msz E rest m A RP) as PM. pose proof (ok_tot E OK) as T.
    unfold tdoff, W32 in *. assert (4 * N.of_nat (length (rc_ms r)) < 4294967296) by lia.
    assert (MB : 4 * N.of_nat (length (rc_ms r)) <= sum md_meta (rc_ms r)).
    { pose proof (t_wf _ _ Hr) as (_ & _ & _ & F & _). clear -F. induction F as [|x l (W & _) _ IH]; [cbn; lia|].
      rewrite sum_cons. cbn [length]. pose proof (meta_room x W) as [MR _]. unfold VD_NAME in MR. lia. }
    lia. }
  assert (TI : forall v, v < 2147483648 -> to_int v = Z.of_N v).
  { intros v Hv. unfold to_int. rewrite Z.mod_small by lia. cbv zeta. destruct (Z.ltb_spec (Z.of_N v) 2147483648); lia. }
  constructor.
  - apply reads_ret. unfold record_type_get. eapply reads_bind; [exact rd_flag|]. change (negb (R_INST =? R_INST)) with false. cbv iota.
    eapply reads_bind; [exact rd_rec_type|]. cbv beta iota.
    eapply reads_bind; [exact (rd_type E OK rest m A RP _ _ Hr)|]. pose proof (t_wf _ _ Hr) as (_ & T25 & _). cbn [base]. rewrite T25.
    change (negb (25 =? V_RECORD_TYPE)) with false. cbv iota.
    eapply reads_bind; [exact rd_rt|]. rewrite (TI _ RS). apply reads_pure.
  - apply reads_ret. unfold record_card. eapply reads_bind; [exact rd_flag|].
    change (negb (N.land R_INST R_INST =? 0)) with true. cbv iota.
    eapply reads_bind; [exact rd_rec_type|]. cbv beta iota. eapply reads_bind; [exact (t_n _ _ Hr m A RP)|].
    rewrite (TI _ NS), nat_N_Z. apply reads_pure.
  - intros name. apply reads_ret. unfold record_metric_find. eapply reads_bind; [exact rd_flag|].
    change (R_INST =? R_TYPE) with false. cbv iota.
    eapply reads_bind.
    { eapply reads_bind; [exact rd_rec_type|]. cbv beta iota.
      eapply reads_bind; [exact (rd_type E OK rest m A RP _ _ Hr)|]. pose proof (t_wf _ _ Hr) as (_ & T25 & _). cbn [base]. rewrite T25.
      apply reads_pure. }
    change (25 =? V_RECORD_TYPE) with true. cbv beta iota. eapply reads_bind; [exact (t_n _ _ Hr m A RP)|]. rewrite Nat2N.id.
    assert (G : forall l i, l = skipn i (rc_ms r) ->
      reads (find_loop (length l) (N.of_nat i) ta name) (first_named l (Z.of_nat i) name) m).
    { induction l as [|x l IH]; intros i Hl; [apply reads_pure|].
      assert (Hx : nth_error (rc_ms r) i = Some x).
      { rewrite <- (firstn_skipn i (rc_ms r)), <- Hl.
        assert (i <= length (rc_ms r))%nat.
        { destruct (Nat.le_gt_cases i (length (rc_ms r))) as [L|L]; [exact L|]. rewrite skipn_all2 in Hl by lia. discriminate. }
        rewrite nth_error_app2; rewrite firstn_length, Nat.min_l by lia; [|lia]. now rewrite Nat.sub_diag. }
      cbn [length find_loop first_named].
      eapply reads_bind; [exact (m_dict _ _ Hr m A i x RP Hx)|].
      eapply reads_bind; [exact (rd_m_name i x Hx)|].
      destruct (beq name (md_name x)); [rewrite nat_N_Z; apply reads_pure|].
      replace (N.of_nat i + 1) with (N.of_nat (S i)) by lia. replace (Z.of_nat i + 1)%Z with (Z.of_nat (S i)) by lia.
      apply IH. replace (S i) with (i + 1)%nat by lia. rewrite <- (skipn_skipn 1 i), <- Hl. reflexivity. }
    exact (G (rc_ms r) 0%nat eq_refl).
  - intros i Hi. apply reads_ret. unfold record_metric_name. destruct (nth_error (rc_ms r) (Z.to_nat i)) as [x|] eqn:Hx.
    + eapply reads_bind; [exact (rd_mdesc_some i x Hi Hx)|]. cbv beta iota.
      eapply reads_bind; [exact (rd_m_name _ x Hx)|]. apply reads_pure.
    + eapply reads_bind; [apply (rd_mdesc_none i); auto|]. apply reads_pure.
  - intros i Hi. apply reads_ret. unfold record_metric_unit. destruct (nth_error (rc_ms r) (Z.to_nat i)) as [x|] eqn:Hx.
    + eapply reads_bind; [exact (rd_mdesc_some i x Hi Hx)|]. cbv beta iota.
      eapply reads_bind; [exact (rd_m_name _ x Hx)|].
      destruct (m_desc _ _ Hr m A _ x RP Hx) as [(_ & _ & _ & _ & _ & D6 & _) _].
      eapply reads_bind; [apply (rd_m_field _ x VD_NULEN 1 _ Hx); [unfold VD_NULEN; lia|exact D6]|]. unfold nulen.
      destruct (md_unit x) as [u|] eqn:Hu.
      * destruct (N.ltb_spec (blen (md_name x) + 1) (blen (md_name x) + 1 + (blen u + 1))); [|lia].
        eapply reads_bind; [exact (rd_m_unit _ x u Hx Hu)|]. apply reads_pure.
      * destruct (N.ltb_spec (blen (md_name x) + 1) (blen (md_name x) + 1 + 0)); [lia|]. apply reads_pure.
    + eapply reads_bind; [apply (rd_mdesc_none i); auto|]. apply reads_pure.
  - intros i Hi. apply reads_ret. unfold record_metric_type. destruct (nth_error (rc_ms r) (Z.to_nat i)) as [x|] eqn:Hx.
    + eapply reads_bind; [exact (rd_mdesc_some i x Hi Hx)|]. cbv beta iota.
      destruct (m_desc _ _ Hr m A _ x RP Hx) as [(D1 & _ & D3 & _) _].
      eapply reads_bind; [apply (rd_m_field _ x VD_COUNT 4 _ Hx); [unfold VD_COUNT; lia|exact D3]|].
      eapply reads_bind; [apply (rd_m_field _ x VD_TYPE 1 _ Hx); [unfold VD_TYPE; lia|exact D1]|]. apply reads_pure.
    + eapply reads_bind; [apply (rd_mdesc_none i); auto|]. apply reads_pure.
  - intros i Hi. repeat split; apply reads_ret; (eapply reads_bind; [apply (rd_mdesc_none i); auto|]; apply reads_pure).
Qed.
End Inst.
End Rec.
