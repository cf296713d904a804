(** Schemas built with the API give a well-formed layout. *)
From Verif Require Import Bytes M_Set S_Set L_SetMem L_SetLay L_SetCreate L_SetInit L_SetTop L_SetMake L_SetRep L_SetOps L_SetTx.
Local Open Scope N_scope.

Definition rsz (e : entry) : N := match e with RecT r => rc_type_sz r | _ => 0 end.
Record sch_ok (s : schema) : Prop := mkSchOk {
  so_wf : Forall wf_entry (s_list s);
  so_meta : s_meta s = 144 + 4 * N.of_nat (length (s_list s)) + sum mm (s_list s) + sum mstep (s_list s) + sum rsz (s_list s);
  so_data : s_data s = 96 + sum dstep (s_list s);
  so_ac : (0 <= s_acard s)%Z
}.

Lemma str_name l : is_str l -> is_name l.
Proof. intros H. eapply Forall_impl; [|exact H]. intros b Hb. cbv beta in *. lia. Qed.
Lemma label_wf name unit t f c dsz : label_ok name unit -> t < 256 -> f < 256 -> c < B32 ->
  wf_mdef (mkMdef name unit t f c (metric_meta_size name unit) dsz).
Proof.
  intros (H1 & H2) Ht Hf Hc. unfold wf_mdef, nulen. cbn [md_name md_unit md_type md_flags md_count md_meta].
  split; [now apply str_name|].
  destruct unit as [u|].
  - destruct H2 as (H2 & H3). split; [now apply str_name|]. split; [lia|]. repeat split; assumption.
  - split; [exact I|]. split; [lia|]. repeat split; assumption.
Qed.
Lemma mm_eq e : mm e = md_meta (base e).
Proof. reflexivity. Qed.
Lemma mdef_add_ok s e rc s' : sch_ok s -> wf_entry e -> rsz e = 0 -> mdef_add s e = (rc, s') -> sch_ok s'.
Proof.
  intros [W M D A] We Hr H. unfold mdef_add in H.
  assert (L : N.of_nat (length (s_list s ++ [e])) = N.of_nat (length (s_list s)) + 1) by apply len_snoc.
  assert (S1 : forall f : entry -> N, sum f (s_list s ++ [e]) = sum f (s_list s) + f e).
  { intros f. rewrite sum_app, sum_cons. unfold sum at 2. cbn [fold_right]. lia. }
  assert (SR : mm e = md_meta (base e)) by reflexivity.
  assert (WF' : Forall wf_entry (s_list s ++ [e])) by (apply Forall_app; auto).
  destruct (is_data (md_flags (base e))) eqn:Hd; injection H as <- <-; constructor; cbn [s_list s_meta s_data s_acard];
    try assumption; rewrite ?L, ?S1, ?Hr; unfold mstep, dstep, data_e; rewrite ?Hd; unfold mstep, dstep, data_e in *; lia.
Qed.
Lemma schema_add_ok s name unit f t c rc s' : sch_ok s -> label_ok name unit -> no_record t -> c < B32 -> f = 1 \/ f = 2 ->
  schema_add s name unit f t c = Some (rc, s') -> sch_ok s'.
Proof.
  intros S L (N1 & N2 & N3) Hc Hf H. unfold schema_add in H.
  destruct (has_name s name); [injection H as <- <-; exact S|].
  destruct (_ && _); [injection H as <- <-; exact S|].
  destruct (value_size t c) as [dsz|] eqn:HV; [|discriminate].
  match type of H with Some ?X = _ => assert (H' : X = (rc, s')) by congruence end.
  apply (mdef_add_ok s _ rc s' S) in H'; [exact H'| |reflexivity].
  split; [apply label_wf; auto; destruct Hf; subst; lia|]. cbn. auto.
Qed.
Lemma rec_built_ok r : rec_built r -> wf_entry (RecT r).
Proof.
  induction 1 as [name L|r name unit t c rc r' Hr IH L Ht H].
  - split; [apply label_wf; try exact L; reflexivity|]. cbn. repeat split; auto.
  - unfold record_metric_add in H. destruct (value_size t (c mod 4294967296)) as [dsz|] eqn:HV; [|discriminate].
    injection H as <- <-. destruct IH as (W & T1 & T2 & T3 & T4 & T5 & T6). cbn [base] in W. split.
    + cbn [base rc_mdef]. destruct W as (W1 & W2 & W3 & W4 & W5 & W6 & W7).
      unfold wf_mdef, nulen in *. cbn [md_name md_unit md_type md_flags md_count md_meta]. repeat split; assumption.
    + cbn [rc_mdef md_type md_flags rc_ms md_data rc_inst rc_type_sz]. split; [exact T1|]. split; [exact T2|].
      assert (WM : wf_member (mkMdef name unit t (F_DATA + F_RECORD) (c mod 4294967296) (metric_meta_size name unit) dsz)).
      { split; [|split; [reflexivity|exact HV]]. apply label_wf; auto; [reflexivity|]. apply N.mod_lt. discriminate. }
      split; [apply Forall_app; auto|].
      rewrite !sum_app, !sum_cons. unfold sum at 2 4 6. cbn [fold_right]. unfold tsz at 2 4. cbn [md_meta md_data].
      rewrite T4, T5, T6. repeat split; lia.
Qed.
Lemma built_ok s : built s -> sch_ok s.
Proof.
  induction 1.
  - constructor; try reflexivity; [constructor|cbn; lia].
  - unfold schema_array_card_set in H0. destruct (Z.ltb_spec n 0); injection H0 as <- <-; [exact IHbuilt|].
    destruct IHbuilt as [W M D A]. constructor; assumption.
  - unfold schema_metric_add in H2. destruct (_ || _); [injection H2 as <- <-; exact IHbuilt|].
    eapply schema_add_ok; [| | | | |exact H2]; auto. reflexivity.
  - unfold schema_meta_add in H2. destruct (_ || _); [injection H2 as <- <-; exact IHbuilt|].
    eapply schema_add_ok; [| | | | |exact H2]; auto. reflexivity.
  - unfold schema_metric_array_add in H3. destruct (negb _); [injection H3 as <- <-; exact IHbuilt|].
    eapply schema_add_ok; [| | | | |exact H3]; auto.
  - unfold schema_meta_array_add in H3.
    eapply schema_add_ok; [| | | | |exact H3]; auto.
  - unfold schema_list_add in H2.
    eapply schema_add_ok; [| | | | |exact H2]; auto. repeat split; discriminate.
  - unfold schema_record_add in H1. destruct (has_name s _); [injection H1 as <- <- <-; exact IHbuilt|].
    destruct (rc_id r); [injection H1 as <- <- <-; exact IHbuilt|].
    pose proof (rec_built_ok r H0) as W. pose proof W as (W0 & T1 & T2 & T3 & T4 & T5 & T6).
    destruct (mdef_add s (RecT r)) as [id s1] eqn:HM. injection H1 as <- <- <-.
    destruct IHbuilt as [WF M D A]. unfold mdef_add in HM.
    assert (DF : is_data (md_flags (base (RecT r))) = false) by (cbn [base]; rewrite T2; reflexivity).
    rewrite DF in HM. injection HM as <- <-. constructor; cbn [s_list s_meta s_data s_acard].
    + apply Forall_app; auto.
    + rewrite len_snoc, !sum_app, !sum_cons. unfold sum at 2 4 6. cbn [fold_right].
      assert (MS : mstep (RecT r) = md_data (rc_mdef r)) by (unfold mstep, data_e; rewrite DF; reflexivity).
      rewrite MS. change (mm (RecT r)) with (md_meta (rc_mdef r)). change (rsz (RecT r)) with (rc_type_sz r). lia.
    + rewrite sum_app, sum_cons. unfold sum at 2. cbn [fold_right].
      assert (MS : dstep (RecT r) = 0) by (unfold dstep, data_e; rewrite DF; reflexivity). lia.
    + exact A.
  - unfold schema_record_array_add in H3. destruct (rc_id r) as [id|] eqn:HI; [|injection H3 as <- <-; exact IHbuilt].
    destruct (has_name s name); [injection H3 as <- <-; exact IHbuilt|].
    refine (mdef_add_ok _ _ _ _ IHbuilt _ _ H3); [|reflexivity].
    destruct H1 as (id' & r0 & Hn & ->). cbn [rc_inst] in *.
    assert (W : wf_entry (RecT r0)).
    { pose proof (so_wf s IHbuilt) as F. rewrite Forall_forall in F. apply F. eapply nth_error_In; eauto. }
    destruct W as (W0 & T1 & T2 & T3 & T4 & T5 & T6).
    split; [apply label_wf; auto; reflexivity|]. cbn [md_type md_flags md_data md_count]. repeat split. rewrite T5. lia.
Qed.

(** A list without heap size. *)
Lemma fix_wf e : wf_entry e -> wf_entry (fix_list e).
Proof.
  destruct e as [d|r|d rt isz]; try (intros H; exact H). cbn [fix_list].
  destruct (_ && _) eqn:HB; [|intros H; exact H]. apply andb_true_iff in HB. destruct HB as [HB _]. apply N.eqb_eq in HB.
  intros (W & H1 & H2). split.
  - destruct W as (W1 & W2 & W3 & W4 & W5 & W6 & W7). unfold wf_mdef, nulen in *. cbn [base] in *. cbn [md_name md_unit md_type md_flags md_count md_meta].
    repeat split; try assumption.
  - cbn [md_type md_count md_data md_flags]. split; [|exact H2]. rewrite <- H1. rewrite HB. reflexivity.
Qed.
Lemma fix_same e : mm (fix_list e) = mm e /\ mstep (fix_list e) = mstep e /\ dstep (fix_list e) = dstep e /\
  rsz (fix_list e) = rsz e /\ data_e (fix_list e) = data_e e.
Proof. destruct e as [d|r|d rt isz]; try (repeat split). all: cbn [fix_list]; destruct (_ && _); reflexivity. Qed.
Lemma sum_map (f : entry -> N) l : (forall e, f (fix_list e) = f e) -> sum f (map fix_list l) = sum f l.
Proof.
  intros H. induction l as [|e l IH]; [reflexivity|]. cbn [map]. rewrite !sum_cons, H, IH. reflexivity.
Qed.
Lemma rec_mod8 e : wf_entry e -> (mstep e + rsz e) mod 8 = 0.
Proof.
  intros (W & H). unfold mstep. destruct e as [d|r|d rt isz]; cbn [rsz base].
  - rewrite N.add_0_r. destruct (data_e _); [reflexivity|]. destruct H as (H & _). exact (value_size_pos _ _ _ H).
  - destruct H as (T1 & T2 & T3 & T4 & T5 & T6). unfold data_e. cbn [base]. rewrite T2. change (is_data 6) with false. cbv iota.
    rewrite T4, T6. unfold REC_TYPE.
    assert (S4 : sum tsz (rc_ms r) mod 4 = 0).
    { clear -T3. induction T3 as [|d l Hd _ IH]; [reflexivity|]. rewrite sum_cons.
      assert (tsz d mod 4 = 0).
      { destruct Hd as (Hd & _). pose proof (proj2 (meta_room d Hd)) as M8. unfold tsz.
        pose proof (N.div_mod (md_meta d) 8 ltac:(lia)) as DM. rewrite M8, N.add_0_r in DM. rewrite DM.
        replace (8 * (md_meta d / 8) + 4) with ((2 * (md_meta d / 8) + 1) * 4) by lia. apply N.mod_mul. lia. }
      rewrite N.add_mod, H, IH by lia. reflexivity. }
    pose proof (N.div_mod (sum tsz (rc_ms r)) 4 ltac:(lia)) as DM. rewrite S4, N.add_0_r in DM. rewrite DM.
    replace (16 + 4 * (sum tsz (rc_ms r) / 4) + 4 * (sum tsz (rc_ms r) / 4)) with ((2 + sum tsz (rc_ms r) / 4) * 8) by lia.
    apply N.mod_mul. lia.
  - destruct H as (T1 & T2 & _). unfold data_e. cbn [base]. rewrite T2. reflexivity.
Qed.
Lemma fits_ok s inst req h : built s -> fits s inst req h -> ok_env (env_of inst s req).
Proof.
  intros B [F1 F2 F3 F4 F5 F6]. pose proof (built_ok s B) as [W M D A].
  assert (WF : Forall wf_entry (metrics s)).
  { unfold metrics. apply Forall_map. eapply Forall_impl; [|exact W]. intros e He. now apply fix_wf. }
  assert (LEN : length (metrics s) = length (s_list s)) by apply map_length.
  assert (SM : sum mm (metrics s) = sum mm (s_list s)) by (apply sum_map; intros e; apply (fix_same e)).
  assert (ST : sum mstep (metrics s) = sum mstep (s_list s)) by (apply sum_map; intros e; apply (fix_same e)).
  assert (SD : sum dstep (metrics s) = sum dstep (s_list s)) by (apply sum_map; intros e; apply (fix_same e)).
  assert (SR : sum rsz (metrics s) = sum rsz (s_list s)) by (apply sum_map; intros e; apply (fix_same e)).
  constructor; cbn [env_of v_es v_inst v_sname v_dig v_ac v_hsz v_ms v_ds]; change (map fix_list (s_list s)) with (metrics s).
  - exact WF.
  - destruct F1. split; [now apply str_name|assumption].
  - destruct F2. split; [now apply str_name|assumption].
  - exact F3.
  - unfold acard_of. destruct (Z.eqb_spec (s_acard s) 0); lia.
  - unfold heap_size. replace 512 with (64 * 8) at 1 by reflexivity. rewrite <- N.mul_assoc, (N.mul_comm 64), <- N.mul_assoc.
    rewrite N.mul_comm. apply N.mod_mul. lia.
  - split; [|apply round8_div]. unfold v_moff, moff, doff, v_D0, D0_of, v_c, H_DICT.
    cbn [env_of v_es v_inst v_sname]. change (map fix_list (s_list s)) with (metrics s).
    unfold meta_size, DIGEST. rewrite M, <- SM, <- ST, <- SR, <- LEN.
    set (X := 4 * N.of_nat (length (metrics s))).
    assert (M8 : sum mm (metrics s) mod 8 = 0).
    { apply sum_mod8. eapply Forall_impl; [|exact WF]. intros e (We & _). rewrite mm_eq. exact (proj2 (meta_room _ We)). }
    assert (R8 : (sum mstep (metrics s) + sum rsz (metrics s)) mod 8 = 0).
    { replace (sum mstep (metrics s) + sum rsz (metrics s)) with (sum (fun e => mstep e + rsz e) (metrics s)).
      - apply sum_mod8. eapply Forall_impl; [|exact WF]. intros e He. now apply rec_mod8.
      - clear. induction (metrics s) as [|e l IH]; [reflexivity|]. rewrite !sum_cons, IH. lia. }
    replace (144 + X + sum mm (metrics s) + sum mstep (metrics s) + sum rsz (metrics s) + (blen (s_name s) + 2) + 32 + (blen inst + 2))
      with ((180 + X + blen (s_name s) + blen inst) + (sum mm (metrics s) + (sum mstep (metrics s) + sum rsz (metrics s)))) by lia.
    assert (T8 : (sum mm (metrics s) + (sum mstep (metrics s) + sum rsz (metrics s))) mod 8 = 0).
    { rewrite N.add_mod by lia. rewrite M8, R8. reflexivity. }
    set (T := sum mm (metrics s) + (sum mstep (metrics s) + sum rsz (metrics s))) in *.
    set (U := 180 + X + blen (s_name s) + blen inst) in *.
    assert (RU : round8 (U + T) = round8 U + T).
    { now apply round8_add_mult. }
    rewrite RU.
    assert (H : round8 (140 + X + 2 + blen inst + 1 + (blen (s_name s) + 34)) <= round8 (180 + X + blen (s_name s) + blen inst))
      by (apply round8_mono; lia).
    fold U in H. subst T. lia.
  - rewrite SD. exact D.
  - exact F4.
  - intros p d rt isz q H. unfold metrics in H. apply map_eq_app in H. destruct H as (l1 & l2 & H1 & <- & H2).
    destruct l2 as [|e l2]; [discriminate|]. injection H2 as He Hq.
    assert (HA : is_rec_array e = true).
    { destruct e as [d'|r'|d' rt' isz']; [|discriminate|reflexivity]. cbn [fix_list] in He. destruct (_ && _) in He; discriminate. }
    pose proof (F5 l1 e l2 H1 HA) as F. rewrite <- Hq. apply Forall_map. eapply Forall_impl; [|exact F].
    intros x Hx. cbv beta. rewrite (proj2 (proj2 (proj2 (proj2 (fix_same x))))). exact Hx.
Qed.

(** A new set represents the starting state. *)
Definition start_of (E : env) (own : N * N * N) (m : st) : aset :=
  mkA (v_ac E - 1) false (fun _ => mkAh 0 (0, 0) (0, 0) 1 1)
      (fun b k => get m (addr E (LV b k)) (size E (LV b k))) (fun k => get m (addr E (LM k)) (size E (LM k)))
      (fun _ => 0) 1 (fst (fst own)) (snd (fst own)) (snd own).
Lemma of_le_byte l : Forall is_byte l -> le (length l) (of_le l) = l.
Proof.
  induction 1 as [|b l Hb _ IH]; [reflexivity|]. cbn [length le of_le]. unfold is_byte in Hb.
  rewrite N.mul_comm, N.mod_add, N.mod_small by lia. rewrite N.div_add, N.div_small by lia. cbn [N.add]. now rewrite IH.
Qed.

Lemma le_zero n : le n 0 = repeat 0 n.
Proof. induction n as [|n IH]; [reflexivity|]. cbn [le repeat]. rewrite <- IH. reflexivity. Qed.
Lemma get_zero m a n : (forall x, a <= x < a + N.of_nat n -> mb m x = 0) -> get m a n = repeat 0 n.
Proof.
  intros H. apply (list_eq_nth 0); rewrite ?get_length, ?repeat_length; [reflexivity|].
  intros y Hy. rewrite get_nth by exact Hy. rewrite H by lia. symmetry. apply nth_repeat.
Qed.

Section Fresh.
Variable E : env.
Hypothesis OK : ok_env E.
Variables (own : N * N * N) (n : N) (m : st).
Hypothesis F : fresh E (fst (fst own)) (snd (fst own)) (snd own) n m.
Hypothesis OU : fst (fst own) < B32.
Hypothesis OG : snd (fst own) < B32.
Hypothesis OP : snd own < B32.

Lemma fresh_repr : repr E (mb m) m (start_of E own m).
Proof.
  constructor.
  - exact (f_static _ _ _ _ _ _ F).
  - exact (f_cur _ _ _ _ _ _ F).
  - exact (f_copy _ _ _ _ _ _ F).
  - intros l V. destruct l as [| | | |f b|b k|k|k]; cbn [addr size content start_of a_mgn a_uid a_gid a_perm a_hd a_cur a_val a_mval a_user].
    + exact (f_gn _ _ _ _ _ _ F).
    + exact (f_uid _ _ _ _ _ _ F).
    + exact (f_gid _ _ _ _ _ _ F).
    + exact (f_perm _ _ _ _ _ _ F).
    + cbn [valid] in V. destruct (f_buf _ _ _ _ _ _ F b V) as (J1 & J2 & J3 & J4 & J5 & J6 & J7 & J8 & J9). ubody.
      rewrite <- !N.add_assoc in *. cbn [N.add Pos.add Pos.succ Pos.add_carry] in *.
      destruct f; cbn [hoff hsize hval h_ts h_dur h_flags h_gn h_mgn fst snd]; assumption.
    + reflexivity.
    + reflexivity.
    + destruct V as (e & Hk). destruct (split_at E k e Hk) as [HS _]. rewrite le_zero. apply get_zero.
      exact (f_user _ _ _ _ _ _ F _ _ _ HS).
  - split; [|cbn [start_of a_mgn a_uid a_gid a_perm a_user]; repeat split; try assumption; try reflexivity; intros; reflexivity].
    intros b f Hb Hf. destruct f; cbn; reflexivity.
  - reflexivity.
Qed.
Lemma fresh_starts : starts (v_es E) (v_ac E) own (start_of E own m).
Proof.
  constructor; try reflexivity.
  - destruct own as [[u g] p]. reflexivity.
  - intros b k d Hb Hk Hd. cbn [start_of a_val addr size]. destruct (split_at E k _ Hk) as [HS _].
    rewrite (slot_at E k _ Hk). cbn [base]. rewrite get_zero.
    + f_equal. f_equal. symmetry. apply (room_md (Plain d)); [|discriminate]. exact (e_wf E OK _ _ _ HS).
    + rewrite N2Nat.id. exact (f_val _ _ _ _ _ _ F _ _ _ b HS Hd Hb).
  - intros k d Hk Hd. cbn [start_of a_mval addr size]. destruct (split_at E k _ Hk) as [HS _].
    rewrite (slot_at E k _ Hk). cbn [base]. rewrite get_zero.
    + f_equal. f_equal. symmetry. apply (room_md (Plain d)); [|discriminate]. exact (e_wf E OK _ _ _ HS).
    + rewrite N2Nat.id. exact (f_meta _ _ _ _ _ _ F _ _ _ HS Hd).
Qed.

Lemma run_ok l : forall m A, repr E (mb m) m A ->
  match spec_run (v_es E) (v_ac E) l A with
  | None => True
  | Some None => do_ops l m = Abort
  | Some (Some A') => exists m', do_ops l m = Ret tt m' /\ repr E (mb m') m' A'
  end.
Proof.
  clear -OK. induction l as [|o l IH]; intros m A R; cbn [spec_run do_ops].
  - exists m. auto.
  - destruct (action (v_es E) o) as [a|] eqn:HA; [|exact I].
    pose proof (op_ok E OK (mb m) m A o a R HA) as C. unfold carries in C.
    destruct a; cbn [spec_run].
    1: unfold bind; now rewrite C.
    all: destruct C as (m1 & E1 & R1); specialize (IH m1 _ (repr_any _ _ _ _ R1)); unfold bind; rewrite E1; exact IH.
Qed.
End Fresh.

Lemma create_ok s inst own req h : create_args s inst own req h ->
  exists m, create s inst own req h = Some (Ret tt m) /\
    fresh (env_of inst s req) (fst (fst own)) (snd (fst own)) (snd own) (Z.to_N (s_acard s)) m.
Proof.
  intros (B & FT & HU & HG & HP). pose proof (fits_ok s inst req h B FT) as OK.
  exact (set_create_ok inst s (fst (fst own)) (snd (fst own)) (snd own) req h OK HU HG HP
           (fit_heap _ _ _ _ FT) (so_ac s (built_ok s B))).
Qed.
(** A set that exists: its layout, and the state it represents. *)
Lemma created_repr s inst own m : created s inst own m ->
  exists req h, create_args s inst own req h /\ ok_env (env_of inst s req) /\
    let A := start_of (env_of inst s req) own m in
    repr (env_of inst s req) (mb m) m A /\ starts (metrics s) (buffers s) own A /\
    fresh (env_of inst s req) (fst (fst own)) (snd (fst own)) (snd own) (Z.to_N (s_acard s)) m.
Proof.
  intros (req & h & CA & C). destruct (create_ok s inst own req h CA) as (m' & C' & F).
  assert (m' = m) by congruence. subst m'. clear C C'. pose proof CA as (B & FT & HU & HG & HP).
  pose proof (fits_ok s inst req h B FT) as OK. exists req, h. split; [exact CA|]. split; [exact OK|].
  split; [exact (fresh_repr _ own _ m F HU HG HP)|]. split; [exact (fresh_starts _ OK own _ m F HU HG HP)|exact F].
Qed.
