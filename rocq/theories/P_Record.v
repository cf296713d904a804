(** Members of records in record arrays (C55). *)
From Verif Require Import Bytes M_Set S_Set L_SetMem L_SetLay L_SetCreate L_SetInit L_SetTop L_SetMake L_SetRep L_SetOps
  L_SetTx L_SetBuilt L_SetProp L_SetHist L_SetDesc L_SetMore S_Record L_Record L_RecordOps.
Local Open Scope N_scope.

Section Hist.
Variables (s : schema) (inst : list byte) (own : N * N * N).
Notation es := (metrics s).
Notation E req := (env_of inst s req).
Notation H := (rhistory s inst own).

Lemma fresh_intact req m : ok_env (E req) -> fresh (E req) (fst (fst own)) (snd (fst own)) (snd own) (Z.to_N (s_acard s)) m ->
  (0 < s_acard s)%Z -> intact (E req) (start_of (E req) own m).
Proof.
  intros OK F HA b k d rt isz Hb Hk. destruct (split_at (E req) k _ Hk) as [HS _].
  assert (Hb' : b < Z.to_N (s_acard s)).
  { change (v_ac (E req)) with (acard_of s) in Hb. unfold acard_of in Hb. destruct (Z.eqb_spec (s_acard s) 0); [lia|exact Hb]. }
  destruct (f_ra _ _ _ _ _ _ F _ _ _ _ _ b HS Hb') as (R1 & R2 & R3 & R4).
  pose proof (arr_room (E req) OK k d rt isz Hk) as (_ & AR & S16).
  assert (G : forall o x, o + 4 <= md_data d -> num m (addr (E req) (LV b k) + o) 4 = x -> hd4 (a_val (start_of (E req) own m) b k) o x).
  { intros o x Ho Hx. unfold hd4. cbn [start_of a_val]. rewrite (arr_size (E req) k d rt isz Hk b).
    rewrite <- (get_slice (mb m) m) by lia. rewrite N2Nat.id. exact Hx. }
  split; [|split].
  - apply G; [lia|]. rewrite N.add_0_r. exact R1.
  - apply G; [lia|exact R3].
  - intros j Hj. pose proof (inst_end (E req) OK k d rt isz Hk j Hj) as IE. destruct (R4 j Hj) as (I1 & I2 & I3).
    assert (Q : forall z, addr (E req) (LV b k) + (12 + j * isz + z) = v_buf (E req) b + voff (pos (E req) k) + 12 + j * isz + z)
      by (intros z; cbn [addr]; lia).
    split; [|split]; apply G; try lia.
    + rewrite <- (N.add_0_r (12 + j * isz)), Q, N.add_0_r. exact I3.
    + rewrite Q, I2. lia.
    + rewrite Q. exact I1.
Qed.
Lemma allowed_spares o a : rallowed es (ROp o) -> action es o = Some a -> forall req, spares (E req) a.
Proof.
  intros [_ HR] HA req k e off bs ->. split; [exact (HR _ _ _ _ HA)|]. exact (proj1 (proj2 (act_put es o k e off bs HA))).
Qed.
Lemma rstep req m A o m' : ok_env (E req) -> linked es -> rep s inst req m A -> intact (E req) A -> rallowed es o -> do_rop o m = Ret tt m' ->
  exists A', rep s inst req m' A' /\ intact (E req) A'.
Proof.
  intros OK LK R IN HA HD. pose proof (p_cur (E req) (mb m) m A R) as HC.
  assert (W : (exists o', o = ROp o') \/ rput es o <> None) by (destruct o; [left; eauto|right; exact HA..]).
  destruct W as [[o' ->]|W].
  - destruct (step s inst req m A o' m' OK R (proj1 HA) HD) as (a & Ha & _ & R1 & _). exists (effect (buffers s) a A).
    split; [exact R1|]. exact (eff_intact (E req) a A HC (allowed_spares o' a HA Ha req) IN).
  - destruct (rput es o) as [[[[[k j] i] off] bs]|] eqn:HP; [|congruence].
    destruct (rop_spot (E req) OK LK (mb m) o k j i off bs HP) as (x & kk & d & rt & isz & r & SP & _ & HO).
    destruct (rop_ok (E req) OK LK (mb m) m A o k j i off bs x kk d rt isz r R IN HP SP HO) as (m1 & E1 & R1).
    assert (m1 = m') by congruence. subst m1. eexists. split; [exact (repr_any _ _ _ _ R1)|].
    exact (spot_intact (E req) OK (mb m) k j i x kk d rt isz r SP m A off bs R IN HO).
Qed.
Lemma rhist l m : H l m -> exists req A, ok_env (E req) /\ linked es /\ rep s inst req m A /\ intact (E req) A.
Proof.
  intros (m0 & C & HA & F & HD). destruct (created_repr s inst own m0 C) as (req & h & CA & OK & R & _ & FR).
  pose proof (metrics_linked s (proj1 CA)) as LK. exists req.
  assert (G : forall l m0 A, rep s inst req m0 A -> intact (E req) A -> Forall (rallowed es) l -> do_rops l m0 = Ret tt m ->
    exists A', rep s inst req m A' /\ intact (E req) A').
  { clear - OK LK. induction l as [|o l IH]; intros m0 A R IN F HD.
    - cbn in HD. unfold ret in HD. assert (m0 = m) by congruence. subst m0. eauto.
    - apply Forall_cons_iff in F. destruct F as [Fo F]. cbn [do_rops] in HD. unfold bind in HD.
      destruct (do_rop o m0) as [[] m1| |] eqn:E1; try discriminate.
      destruct (rstep req m0 A o m1 OK LK R IN Fo E1) as (A1 & R1 & I1). exact (IH m1 A1 R1 I1 F HD). }
  destruct (G l m0 _ R (fresh_intact req m0 OK FR HA) F HD) as (A & R' & IN). exists A. auto.
Qed.
Lemma rhist_app l1 l2 m m' : H l1 m -> Forall (rallowed es) l2 -> do_rops l2 m = Ret tt m' -> H (l1 ++ l2) m'.
Proof.
  intros (m0 & C & HA & F & HD) F2 HD2. exists m0. split; [exact C|]. split; [exact HA|]. split; [now apply Forall_app|].
  clear - HD HD2. revert m0 HD. induction l1 as [|o l1 IH]; intros m0 HD.
  - cbn in HD. unfold ret in HD. assert (m0 = m) by congruence. subst. exact HD2.
  - cbn [app do_rops] in *. unfold bind in *. destruct (do_rop o m0) as [[] m1| |]; try discriminate. exact (IH m1 HD).
Qed.

Lemma inst_there req m A k kk d rt isz : ok_env (E req) -> rep s inst req m A -> intact (E req) A -> at_idx es k = Some (kk, RecA d rt isz) ->
  forall j, ((0 <= j < Z.of_N (md_count d))%Z -> inst_at k j m = Ret (Some (addr (E req) (LV (a_cur A) kk) + (12 + Z.to_N j * isz))) m) /\
            (~ (0 <= j < Z.of_N (md_count d))%Z -> inst_at k j m = Ret None m).
Proof.
  intros OK R IN HI.
  destruct (at_nth (E req) k kk _ HI) as (Hk & K0 & KK). change (v_es (E req)) with es in Hk.
  pose proof (p_cur (E req) (mb m) m A R) as HC.
  destruct (arr_room (E req) OK kk d rt isz Hk) as (_ & AR & S16). pose proof (arr_small (E req) OK kk d rt isz Hk _ HC) as SM.
  destruct (IN (a_cur A) kk d rt isz HC Hk) as (I1 & I2 & _).
  assert (RL : rloc (E req) A kk (RecA d rt isz) = LV (a_cur A) kk).
  { unfold rloc. rewrite (arr_data (E req) OK kk d rt isz Hk). pose proof (arr_wf (E req) OK kk d rt isz Hk) as (_ & T & _). cbn [base].
    rewrite T. change (27 =? 27) with true. now rewrite !orb_true_r. }
  assert (MG : reads (metric_get k) (Some (addr (E req) (LV (a_cur A) kk))) m).
  { unfold metric_get. eapply reads_bind; [exact (mval_get_at (E req) OK (mb m) m A k kk _ R HI)|]. rewrite RL. apply reads_pure. }
  intros j. split.
  - intros Hj. apply reads_ret. unfold inst_at. eapply reads_bind; [exact MG|]. cbv beta iota. unfold array_get_inst.
    eapply reads_bind; [apply (rd_hd (E req) OK (mb m) kk d rt isz Hk m A _ 8 _ R HC); [lia|exact I2]|].
    destruct (Z.ltb_spec j 0); [lia|]. destruct (Z.leb_spec (Z.of_N (md_count d)) j); [lia|]. cbn [orb].
    eapply reads_bind; [apply (rd_hd (E req) OK (mb m) kk d rt isz Hk m A _ 0 _ R HC); [lia|exact I1]|].
    pose proof (inst_end (E req) OK kk d rt isz Hk (Z.to_N j) ltac:(lia)) as B.
    rewrite (N.mod_small isz) by lia. unfold W32 in SM. rewrite N.mod_small by lia.
    unfold A_DATA. rewrite <- N.add_assoc. apply reads_pure.
  - intros Hj. apply reads_ret. unfold inst_at. eapply reads_bind; [exact MG|]. cbv beta iota. unfold array_get_inst.
    eapply reads_bind; [apply (rd_hd (E req) OK (mb m) kk d rt isz Hk m A _ 8 _ R HC); [lia|exact I2]|].
    destruct (Z.ltb_spec j 0); [apply reads_pure|]. destruct (Z.leb_spec (Z.of_N (md_count d)) j); [|lia]. apply reads_pure.
Qed.

(** Record arrays have the instances they were declared with, and each tells what the record
    definition said about its members. *)
Theorem rec_access l m k kk d rt isz : H l m -> at_idx es k = Some (kk, RecA d rt isz) ->
  exists r, type_of es (RecA d rt isz) = Some r /\ rc_inst r = isz /\
    forall j, ((0 <= j < Z.of_N (md_count d))%Z -> exists p, inst_at k j m = Ret (Some p) m /\ tells m p rt r) /\
              (~ (0 <= j < Z.of_N (md_count d))%Z -> inst_at k j m = Ret None m).
Proof.
  intros HH HI. destruct (rhist l m HH) as (req & A & OK & LK & R & IN).
  destruct (at_nth (E req) k kk _ HI) as (Hk & K0 & KK). change (v_es (E req)) with es in Hk.
  destruct (LK kk d rt isz Hk) as (r & Hr & Hz). exists r. cbn [type_of]. rewrite Hr. split; [reflexivity|]. split; [exact Hz|].
  pose proof (p_cur (E req) (mb m) m A R) as HC.
  intros j. destruct (inst_there req m A k kk d rt isz OK R IN HI j) as [I1 I2]. split; [|exact I2].
  intros Hj. eexists. split; [exact (I1 Hj)|].
  apply (inst_tells (E req) OK (mb m) m A R IN kk d rt isz r (a_cur A) (Z.to_N j) Hk Hr Hz HC). lia.
Qed.
(** An index that is not a member's is not checked for: every access dereferences NULL. *)
Theorem rec_index_unchecked l m k kk d rt isz r j i : H l m -> at_idx es k = Some (kk, RecA d rt isz) ->
  type_of es (RecA d rt isz) = Some r -> (0 <= j < Z.of_N (md_count d))%Z -> ~ (0 <= i < Z.of_nat (length (rc_ms r)))%Z ->
  forall w v, with_inst k j (fun p => record_get_w w p i) m = Wild /\ with_inst k j (fun p => record_set_w w p i v) m = Wild /\
    with_inst k j (fun p => record_metric_set p i v) m = Wild.
Proof.
  intros HH HI HT Hj Hi w v. destruct (rhist l m HH) as (req & A & OK & LK & R & IN).
  destruct (at_nth (E req) k kk _ HI) as (Hk & K0 & KK). change (v_es (E req)) with es in Hk.
  destruct (LK kk d rt isz Hk) as (r' & Hr & Hz). cbn [type_of] in HT. rewrite Hr in HT. injection HT as ->.
  pose proof (p_cur (E req) (mb m) m A R) as HC.
  destruct (inst_there req m A k kk d rt isz OK R IN HI j) as [I1 _]. specialize (I1 Hj).
  assert (NI : (i < 0)%Z \/ nth_error (rc_ms r) (Z.to_nat i) = None).
  { destruct (Z.ltb_spec i 0); [now left|right]. apply nth_error_None. lia. }
  pose proof (rd_metric_wild (E req) OK (mb m) m A R IN kk d rt isz r (a_cur A) (Z.to_N j) Hk Hr Hz HC ltac:(lia) i NI) as W.
  assert (G : forall (T : Type) (f : N -> prog T) (h : option (N * N * N) -> prog T),
    (forall p, f p = bind (record_metric_get p i) h) -> with_inst k j f m = Wild).
  { intros T f h Hf. unfold with_inst. unfold bind at 1. rewrite I1. cbv beta iota. rewrite Hf. unfold bind. rewrite W. reflexivity. }
  split; [|split]; eapply G; intros p; reflexivity.
Qed.

(** A write changes the bytes of its member and nothing else, and increments the data
    generation number once. *)
Theorem rec_write l m o k j i off bs : H l m -> rput es o = Some (k, j, i, off, bs) ->
  exists m', do_rop o m = Ret tt m' /\ H (l ++ [o]) m' /\
    (forall k' j' i' d', member es k' j' i' = Some d' -> exists v, mshows m k' j' i' d' v /\
       ((k', j', i') = (k, j, i) -> mshows m' k' j' i' d' (splice (N.to_nat off) bs v)) /\
       ((k', j', i') <> (k, j, i) -> mshows m' k' j' i' d' v)) /\
    (forall k' e', nth_error es k' = Some e' -> (forall r, e' <> RecT r) -> Z.of_nat k' <> k ->
       exists v, shows m k' e' v /\ shows m' k' e' v) /\
    (exists g, data_gn_get m = Ret g m /\ data_gn_get m' = Ret ((g + 1) mod B64) m') /\
    (exists g, meta_gn_get m = Ret g m /\ meta_gn_get m' = Ret g m').
Proof.
  intros HH HP. destruct (rhist l m HH) as (req & A & OK & LK & R & IN).
  destruct (rop_spot (E req) OK LK (mb m) o k j i off bs HP) as (x & kk & d & rt & isz & r & SP & _ & HO).
  destruct (rop_ok (E req) OK LK (mb m) m A o k j i off bs x kk d rt isz r R IN HP SP HO) as (m' & E1 & R1).
  pose proof (repr_any _ _ _ _ R1) as R2. pose proof (spot_intact (E req) OK (mb m) k j i x kk d rt isz r SP m A off bs R IN HO) as IN'.
  set (A' := put (RecA d rt isz) kk (at_byte j i isz r + off) bs A) in *.
  assert (HA : rallowed es o) by (destruct o; [discriminate HP|cbn [rallowed]; rewrite HP; discriminate..]).
  exists m'. split; [exact E1|].
  split. { apply (rhist_app l [o] m m' HH); [now constructor|]. cbn [do_rops]. unfold bind. rewrite E1. reflexivity. }
  pose proof (rep_agrees s inst req m A OK R) as G. pose proof (rep_agrees s inst req m' A' OK R2) as G'.
  assert (DA : in_data (RecA d rt isz) = true) by exact (arr_data (E req) OK kk d rt isz (sp_arr _ _ _ _ _ _ _ _ _ _ SP)).
  assert (EFF : A' = effect (buffers s) (RPut kk (RecA d rt isz) (at_byte j i isz r + off) bs) A) by reflexivity.
  split; [|split; [|split]].
  - intros k' j' i' d' HM. destruct (member_spot (E req) OK LK (mb m) k' j' i' d' HM) as (kk' & d0 & rt' & isz' & r' & S').
    exists (mbytes A kk' j' i' isz' r' d'). split; [exact (spot_shows (E req) OK (mb m) k' j' i' d' kk' d0 rt' isz' r' S' m A R IN)|].
    pose proof (spot_shows (E req) OK (mb m') k' j' i' d' kk' d0 rt' isz' r' S' m' A' R2 IN') as SH. split.
    + intros [= -> -> ->]. 
      assert (Q : kk' = kk /\ d0 = d /\ rt' = rt /\ isz' = isz).
      { pose proof (sp_at _ _ _ _ _ _ _ _ _ _ S') as Q1. rewrite (sp_at _ _ _ _ _ _ _ _ _ _ SP) in Q1. injection Q1 as <- <- <- <-. auto. }
      destruct Q as (-> & -> & -> & ->).
      assert (r' = r). { pose proof (proj1 (sp_type _ _ _ _ _ _ _ _ _ _ S')) as Q1. pose proof (proj1 (sp_type _ _ _ _ _ _ _ _ _ _ SP)). congruence. }
      subst r'. assert (d' = x). { pose proof (proj2 (sp_i _ _ _ _ _ _ _ _ _ _ S')). pose proof (proj2 (sp_i _ _ _ _ _ _ _ _ _ _ SP)). congruence. }
      subst d'. unfold A' in SH. rewrite (mbytes_put (E req) OK (mb m) k j i x kk d rt isz r SP m A off bs R HO) in SH. exact SH.
    + intros NE. unfold A' in SH.
      rewrite (mbytes_other (E req) OK (mb m) k j i x kk d rt isz r SP m A off bs k' j' i' d' kk' d0 rt' isz' r' R HO S' NE) in SH. exact SH.
  - intros k' e' Hk' NT NK. exists (view es (buffers s) A k' e'). split; [exact (rep_shows s inst req m A k' e' OK R Hk' NT)|].
    pose proof (rep_shows s inst req m' A' k' e' OK R2 Hk' NT) as SH.
    assert (V : view es (buffers s) A' k' e' = view es (buffers s) A k' e'); [|now rewrite V in SH].
    assert (KN : k' <> kk) by (destruct (sp_k _ _ _ _ _ _ _ _ _ _ SP); lia).
    assert (C1 : a_cur A' = a_cur A) by exact (put_cur (E req) OK k j i x kk d rt isz r SP A _ bs).
    assert (VV : forall b, a_val A' b k' = a_val A b k').
    { intros b. unfold A'. rewrite (put_val (E req) OK k j i x kk d rt isz r SP).
      destruct (Nat.eqb_spec k' kk); [contradiction|]. now rewrite andb_false_r. }
    assert (F1 : h_flags (now A') = h_flags (now A)) by (rewrite EFF; apply eff_cons).
    unfold now in F1. unfold view. rewrite C1, !VV. rewrite C1 in F1. rewrite F1.
    destruct (in_data e'); [reflexivity|]. unfold A'. rewrite put_setv. unfold bump, setv. rewrite DA. reflexivity.
  - exists (h_gn (now A)). split; [exact (ag_gn _ _ _ _ G)|]. rewrite (ag_gn _ _ _ _ G'), EFF, eff_gn. cbn [act_data]. now rewrite DA.
  - exists (a_mgn A). split; [exact (ag_mgn _ _ _ _ G)|]. rewrite (ag_mgn _ _ _ _ G'), EFF, eff_mgn. cbn [act_meta]. now rewrite DA.
Qed.

(** No other operation changes a member, unless it moves to another buffer without copying. *)
Theorem rec_keep l m o m' : H l m -> rallowed es (ROp o) -> do_op o m = Ret tt m' -> ~ switches s m (ROp o) ->
  H (l ++ [ROp o]) m' /\
  forall k j i d, member es k j i = Some d -> exists v, mshows m k j i d v /\ mshows m' k j i d v.
Proof.
  intros HH HA HD HS. destruct (rhist l m HH) as (req & A & OK & LK & R & IN). pose proof (p_cur (E req) (mb m) m A R) as HC.
  destruct (step s inst req m A o m' OK R (proj1 HA) HD) as (a & Ha & _ & R1 & _).
  pose proof (allowed_spares o a HA Ha req) as SPA. pose proof (eff_intact (E req) a A HC SPA IN) as IN'.
  split. { apply (rhist_app l [ROp o] m m' HH); [constructor; [exact HA|constructor]|]. cbn [do_rops do_rop]. unfold bind. rewrite HD. reflexivity. }
  intros k j i d HM. destruct (member_spot (E req) OK LK (mb m) k j i d HM) as (kk & d0 & rt & isz & r & SP).
  exists (mbytes A kk j i isz r d). split; [exact (spot_shows (E req) OK (mb m) k j i d kk d0 rt isz r SP m A R IN)|].
  pose proof (spot_shows (E req) OK (mb m') k j i d kk d0 rt isz r SP m' _ R1 IN') as SH.
  assert (V : mbytes (effect (v_ac (E req)) a A) kk j i isz r d = mbytes A kk j i isz r d).
  { unfold mbytes. f_equal. apply (eff_arr_cur (E req) (mb m) a A kk d0 rt isz HC SPA (sp_arr _ _ _ _ _ _ _ _ _ _ SP)).
    intros t ->. destruct (act_begin es o t Ha) as (ss & uu & -> & _). cbn [switches] in HS.
    rewrite (rp_copy (E req) (mb m) m A R) in HS. destruct (a_copy A); [now left|right].
    change (v_ac (E req)) with (buffers s). destruct (N.eq_dec (buffers s) 1); [assumption|]. destruct HS. auto. }
  change (buffers s) with (v_ac (E req)) in SH. rewrite V in SH. exact SH.
Qed.

(** Equal data generation numbers mean equal members, if no operation in between moves to
    another buffer without copying and there are fewer than 2^64 of them. *)
Lemma rgn_step req m A o m' : ok_env (E req) -> linked es -> rep s inst req m A -> intact (E req) A ->
  rallowed es o -> do_rop o m = Ret tt m' -> ~ switches s m o ->
  exists A' c, rep s inst req m' A' /\ intact (E req) A' /\ h_gn (now A') = (h_gn (now A) + c) mod B64 /\ c <= 1 /\
    (c = 0 -> forall kk d rt isz, nth_error es kk = Some (RecA d rt isz) -> a_val A' (a_cur A') kk = a_val A (a_cur A) kk).
Proof.
  intros OK LK R IN HA HD HS. pose proof (p_cur (E req) (mb m) m A R) as HC.
  assert (LT : h_gn (now A) < B64) by exact (proj1 (rp_small _ _ _ _ R) (a_cur A) FGn HC ltac:(discriminate)).
  assert (W : (exists o', o = ROp o') \/ rput es o <> None) by (destruct o; [left; eauto|right; exact HA..]).
  destruct W as [[o' ->]|W].
  - destruct (step s inst req m A o' m' OK R (proj1 HA) HD) as (a & Ha & _ & R1 & _).
    pose proof (allowed_spares o' a HA Ha req) as SPA. exists (effect (buffers s) a A), (if act_data a then 1 else 0).
    split; [exact R1|]. split; [exact (eff_intact (E req) a A HC SPA IN)|].
    split; [rewrite eff_gn; destruct (act_data a); [reflexivity|]; rewrite N.add_0_r, N.mod_small; [reflexivity|exact LT]|].
    split; [destruct (act_data a); lia|]. intros _ kk d rt isz Hk.
    apply (eff_arr_cur (E req) (mb m) a A kk d rt isz HC SPA Hk).
    intros t ->. destruct (act_begin es o' t Ha) as (ss & uu & -> & _). cbn [switches] in HS.
    rewrite (rp_copy (E req) (mb m) m A R) in HS. destruct (a_copy A); [now left|right].
    change (v_ac (E req)) with (buffers s). destruct (N.eq_dec (buffers s) 1); [assumption|]. destruct HS. auto.
  - destruct (rput es o) as [[[[[k j] i] off] bs]|] eqn:HP; [|congruence].
    destruct (rop_spot (E req) OK LK (mb m) o k j i off bs HP) as (x & kk & d & rt & isz & r & SP & _ & HO).
    destruct (rop_ok (E req) OK LK (mb m) m A o k j i off bs x kk d rt isz r R IN HP SP HO) as (m1 & E1 & R1).
    assert (m1 = m') by congruence. subst m1. eexists. exists 1. split; [exact (repr_any _ _ _ _ R1)|].
    split; [exact (spot_intact (E req) OK (mb m) k j i x kk d rt isz r SP m A off bs R IN HO)|].
    split; [|split; lia]. 
    change (put (RecA d rt isz) kk (at_byte j i isz r + off) bs A) with (effect (buffers s) (RPut kk (RecA d rt isz) (at_byte j i isz r + off) bs) A).
    assert (DA : in_data (RecA d rt isz) = true) by exact (arr_data (E req) OK kk d rt isz (sp_arr _ _ _ _ _ _ _ _ _ _ SP)).
    rewrite eff_gn. cbn [act_data]. now rewrite DA.
Qed.
Theorem rec_gn_equal_partial l m l2 m' g : H l m -> Forall (rallowed es) l2 -> do_rops l2 m = Ret tt m' ->
  N.of_nat (length l2) < B64 -> never_switches s l2 m -> data_gn_get m = Ret g m -> data_gn_get m' = Ret g m' ->
  forall k j i d, member es k j i = Some d -> exists v, mshows m k j i d v /\ mshows m' k j i d v.
Proof.
  intros HH F HD HL NS G G' k j i d HM. destruct (rhist l m HH) as (req & A & OK & LK & R & IN).
  assert (X : exists A' c, rep s inst req m' A' /\ intact (E req) A' /\ h_gn (now A') = (h_gn (now A) + c) mod B64 /\
    c <= N.of_nat (length l2) /\
    (c = 0 -> forall kk d rt isz, nth_error es kk = Some (RecA d rt isz) -> a_val A' (a_cur A') kk = a_val A (a_cur A) kk)).
  { clear HL G G' HM HH. revert m A R IN F HD NS. induction l2 as [|o l2 IH]; intros m A R IN F HD NS.
    - cbn in HD. unfold ret in HD. assert (m = m') by congruence. subst m'. exists A, 0. split; [exact R|]. split; [exact IN|].
      pose proof (p_cur (E req) (mb m) m A R) as HC.
      assert (LT : h_gn (now A) < B64) by exact (proj1 (rp_small _ _ _ _ R) (a_cur A) FGn HC ltac:(discriminate)).
      rewrite N.add_0_r, N.mod_small by exact LT. split; [reflexivity|]. split; [lia|reflexivity].
    - apply Forall_cons_iff in F. destruct F as [Fo F]. cbn [do_rops] in HD. unfold bind in HD. cbn [never_switches] in NS. destruct NS as [N1 N2].
      destruct (do_rop o m) as [[] m1| |] eqn:E1; try discriminate.
      destruct (rgn_step req m A o m1 OK LK R IN Fo E1 N1) as (A1 & c & R1 & I1 & G1 & C1 & K).
      destruct (IH m1 A1 R1 I1 F HD N2) as (A2 & c' & R2 & I2 & G2 & C2 & K2). exists A2, (c + c').
      split; [exact R2|]. split; [exact I2|]. split.
      { rewrite G2, G1. rewrite N.add_mod_idemp_l by discriminate. now rewrite N.add_assoc. }
      split; [cbn [length]; lia|]. intros Z0 kk d0 rt isz Hk. 
      rewrite (K2 ltac:(lia) kk d0 rt isz Hk). exact (K ltac:(lia) kk d0 rt isz Hk). }
  destruct X as (A' & c & R' & IN' & Gc & Cc & K).
  assert (Q : (g + c) mod B64 = g).
  { pose proof (ag_gn _ _ _ _ (rep_agrees s inst req m A OK R)) as X1. pose proof (ag_gn _ _ _ _ (rep_agrees s inst req m' A' OK R')) as X2.
    assert (h_gn (now A) = g) by congruence. assert (h_gn (now A') = g) by congruence. congruence. }
  assert (GB : g < B64) by (rewrite <- Q; apply N.mod_lt; discriminate).
  assert (C0 : c = 0).
  { clear - Q GB Cc HL. destruct (N.lt_ge_cases (g + c) B64) as [L|L]; [rewrite N.mod_small in Q by exact L; lia|].
    assert (D : (g + c) mod B64 = g + c - B64); [|lia]. symmetry. apply (N.mod_unique _ _ 1); lia. }
  destruct (member_spot (E req) OK LK (mb m) k j i d HM) as (kk & d0 & rt & isz & r & SP).
  exists (mbytes A kk j i isz r d). split; [exact (spot_shows (E req) OK (mb m) k j i d kk d0 rt isz r SP m A R IN)|].
  pose proof (spot_shows (E req) OK (mb m') k j i d kk d0 rt isz r SP m' A' R' IN') as SH.
  unfold mbytes in *. rewrite (K C0 kk d0 rt isz (sp_arr _ _ _ _ _ _ _ _ _ _ SP)) in SH. exact SH.
Qed.
End Hist.

(** ** A concrete set: records "r" of "x", a u64 in "ms", and "yz", u16[3]; two buffers; an
    array "a" of two such records. *)
From Verif Require Import P_Set.
Definition radd (x : sres recdef) (d : recdef) : recdef := match x with Some (_, r) => r | None => d end.
Definition rx_r1 : recdef := radd (record_metric_add (record_create [114]) [120] (Some [109; 115]) 8 1) (record_create []).
Definition rx_r : recdef := radd (record_metric_add rx_r1 [121; 122] None 15 3) rx_r1.
Definition rx_s0 : schema := snd (fst (schema_record_add ex_s1 rx_r)).
Definition rx_ra : recdef := snd (schema_record_add ex_s1 rx_r).
Definition rx_s : schema := snd (schema_record_array_add rx_s0 [97] rx_ra 2).
Lemma rx_rbuilt : rec_built rx_r.
Proof.
  apply (rb_add rx_r1 [121; 122] None 15 3 1%Z); [|label|reflexivity|vm_compute; reflexivity].
  apply (rb_add (record_create [114]) [120] (Some [109; 115]) 8 1 0%Z); [apply rb_new; label|label|reflexivity|vm_compute; reflexivity].
Qed.
Lemma ex1_built : built ex_s1.
Proof. apply (b_card ex_s0 2 0%Z); [apply b_new|reflexivity]. Qed.
Lemma rx_built : built rx_s.
Proof.
  apply (b_record_array rx_s0 [97] rx_ra 2 1%Z); [|label| |reflexivity|vm_compute; reflexivity].
  - eapply (b_record ex_s1 rx_r); [exact ex1_built|exact rx_rbuilt|vm_compute; reflexivity].
  - exists 0%nat, rx_r. split; vm_compute; reflexivity.
Qed.
Lemma rx_args : create_args rx_s ex_inst ex_own 0 ex_h.
Proof.
  split; [exact rx_built|]. split; [|repeat split; reflexivity]. constructor.
  - split; [repeat constructor; lia|reflexivity].
  - split; [repeat constructor; lia|reflexivity].
  - reflexivity.
  - vm_compute. reflexivity.
  - intros p e q HE HR. vm_compute in HE. destruct p as [|p0 [|p1 [|p2 p]]]; cbn in HE; try discriminate HE.
    + injection HE as <- <-. discriminate HR.
    + injection HE as _ <- <-. constructor.
  - intros Q. vm_compute in Q. destruct Q; reflexivity.
Qed.
Definition rrun (s : schema) (l : list rop) : option st :=
  match create s ex_inst ex_own 0 ex_h with
  | Some (Ret _ m0) => match do_rops l m0 with Ret _ m => Some m | _ => None end
  | _ => None
  end.
Definition rkeeps (s : schema) (l : list rop) : bool :=
  forallb (fun o => match o with
    | ROp o => match action (metrics s) o with None => false | Some (RPut _ e _ _) => negb (is_rec_array e) | Some _ => true end
    | _ => match rput (metrics s) o with Some _ => true | None => false end
    end) l.
Lemma rkeeps_ok s l : rkeeps s l = true -> Forall (rallowed (metrics s)) l.
Proof.
  intros HK. unfold rkeeps in HK. rewrite forallb_forall in HK. apply Forall_forall. intros o Ho. specialize (HK o Ho).
  destruct o as [o|k j i v|w k j i v|w k j i x v|k j i str]; cbn [rallowed];
    [|destruct (rput (metrics s) _); [discriminate|discriminate HK]..].
  unfold allowed. destruct (action (metrics s) o) as [a|]; [|discriminate HK]. split; [discriminate|].
  intros k e off bs [= ->]. now apply negb_true_iff in HK.
Qed.
(** Given what a run shows, the run exists. *)
Lemma rrun_shows {T} s (f : st -> T) l v : create_args s ex_inst ex_own 0 ex_h -> (0 <? s_acard s)%Z = true -> rkeeps s l = true ->
  option_map f (rrun s l) = Some v -> exists m, rhistory s ex_inst ex_own l m /\ f m = v.
Proof.
  intros CA HP HK HV. destruct (rrun s l) as [m|] eqn:HR; [|discriminate]. cbn in HV. exists m. split; [|congruence].
  unfold rrun in HR. destruct (create s ex_inst ex_own 0 ex_h) as [[[] m0| |]|] eqn:HC; try discriminate.
  destruct (do_rops l m0) as [[] m1| |] eqn:HD; try discriminate. assert (m1 = m) by congruence. subst m1.
  exists m0. split; [exists 0, ex_h; split; [exact CA|exact HC]|]. split; [lia|]. split; [exact (rkeeps_ok s l HK)|exact HD].
Qed.
Definition rx_x (j : Z) (m : st) : option N := res (with_inst 1 j (fun p => record_get_w 8 p 0) m).
Definition rx_y (j x : Z) (m : st) : option N := res (with_inst 1 j (fun p => record_array_get_w 2 p 1 x) m).
Definition rx_all (m : st) := (map (fun j => (rx_x j m, map (fun x => rx_y j x m) [0; 1; 2]%Z)) [0; 1]%Z, res (data_gn_get m)).
Definition rx_l : list rop := [RVal 1 0 0 7; RArrW 2 1 1 1 2 513; RStr 1 0 1 [65; 66]].

Example rec_access_ex : option_map (fun m => (map (fun j => res (inst_at 1 j m)) [-1; 0; 1; 2]%Z,
    map (fun n => res (with_inst 1 1 (fun p => record_metric_find p n) m)) [[120]; [121; 122]; [121]],
    res (with_inst 1 1 (fun p => record_metric_unit p 0) m))) (rrun rx_s rx_l) =
  Some ([Some None; Some (Some 716); Some (Some 748); Some None], [Some 0%Z; Some 1%Z; Some (-2)%Z], Some (Some [109; 115])) /\
  rkeeps rx_s rx_l = true /\ s_acard rx_s = 2%Z.
Proof. split; [|split]; vm_compute; reflexivity. Qed.
Example rec_write_ex : option_map rx_all (rrun rx_s rx_l) =
    Some ([(Some 7, [Some 16961; Some 0; Some 0]); (Some 0, [Some 0; Some 0; Some 513])], Some 4) /\
  map (rput (metrics rx_s)) [RVal 1 0 0 7; RArrW 2 1 1 1 2 513; RStr 1 0 1 [65; 66]; RVal 1 2 0 7; RArrW 2 1 1 1 3 0; RVal 1 0 2 0] =
    [Some (1%Z, 0%Z, 0%Z, 0, [7; 0; 0; 0; 0; 0; 0; 0]); Some (1%Z, 1%Z, 1%Z, 4, [1; 2]); Some (1%Z, 0%Z, 1%Z, 0, [65; 66; 0]); None; None; None].
Proof. split; vm_compute; reflexivity. Qed.
(** With copying, a transaction keeps the members. *)
Definition rx_q : list rop := [ROp (OGid 7); ROp (OBegin 5 0)].
Example rec_keep_ex : option_map (fun m => (fst (rx_all m), copy m)) (rrun rx_s (ROp (OCopy true) :: rx_l)) =
    Some ([(Some 7, [Some 16961; Some 0; Some 0]); (Some 0, [Some 0; Some 0; Some 513])], true) /\
  option_map rx_all (rrun rx_s (ROp (OCopy true) :: rx_l ++ rx_q)) = option_map rx_all (rrun rx_s (ROp (OCopy true) :: rx_l)) /\
  rkeeps rx_s (ROp (OCopy true) :: rx_l ++ rx_q) = true.
Proof. split; [|split]; vm_compute; reflexivity. Qed.
Example rec_index_ex : option_map (fun m => (res (with_inst 1 0 (fun p => record_card p) m),
    match with_inst 1 0 (fun p => record_get_w 8 p 2) m with Wild => true | _ => false end)) (rrun rx_s []) = Some (Some 2%Z, true).
Proof. vm_compute. reflexivity. Qed.
(** ldms_record_metric_array_set puts the value in each of the elements. *)
Example rec_array_set_ex : option_map (fun m => match with_inst 1 1 (fun p => record_metric_array_set p 1 9 1 2) m with
    | Ret _ m' => Some (rx_all m') | _ => None end) (rrun rx_s []) =
  Some (Some ([(Some 0, [Some 0; Some 0; Some 0]); (Some 0, [Some 0; Some 9; Some 9])], Some 2)).
Proof. vm_compute. reflexivity. Qed.

(** ** What does not hold *)
Lemma ro_inst_at k j : ro (inst_at k j).
Proof. unfold inst_at, metric_get, array_get_inst. repeat first [apply ro_get|progress ro]. Qed.
Lemma ro_rget k j i w : ro (with_inst k j (fun p => record_get_w w p i)).
Proof.
  unfold with_inst. apply ro_bind; [apply ro_inst_at|]. intros p. unfold record_get_w, record_metric_get, record_mdesc_get, rec_type, back. ro.
Qed.
(** A transaction that begins without copying changes the members, but not the data
    generation number. *)
Theorem rec_gn_equal_refuted : exists s inst own l m m' g k j i v v',
  rhistory s inst own l m /\ do_rops [ROp (OBegin 3 0)] m = Ret tt m' /\
  data_gn_get m = Ret g m /\ data_gn_get m' = Ret g m' /\ member (metrics s) k j i <> None /\
  with_inst k j (fun p => record_get_w 8 p i) m = Ret v m /\ with_inst k j (fun p => record_get_w 8 p i) m' = Ret v' m' /\ v <> v'.
Proof.
  destruct (rrun_shows rx_s (fun m => (res (data_gn_get m), rx_x 0 m,
      match do_rops [ROp (OBegin 3 0)] m with Ret _ m' => Some (res (data_gn_get m'), rx_x 0 m') | _ => None end))
      rx_l (Some 4, Some 7, Some (Some 4, Some 0))) as (m & HH & O); [exact rx_args|vm_compute; reflexivity..|].
  assert (O1 : res (data_gn_get m) = Some 4) by congruence.
  assert (O2 : rx_x 0 m = Some 7) by congruence.
  assert (O3 : match do_rops [ROp (OBegin 3 0)] m with Ret _ m' => Some (res (data_gn_get m'), rx_x 0 m') | _ => None end
               = Some (Some 4, Some 0)) by congruence. clear O.
  destruct (do_rops [ROp (OBegin 3 0)] m) as [[] m'| |] eqn:HD; try discriminate.
  assert (O4 : res (data_gn_get m') = Some 4) by congruence. assert (O5 : rx_x 0 m' = Some 0) by congruence.
  exists rx_s, ex_inst, ex_own, rx_l, m, m', 4, 1%Z, 0%Z, 0%Z, 7, 0. split; [exact HH|]. split; [exact HD|].
  split; [exact (ro_ret _ _ _ ro_gn O1)|]. split; [exact (ro_ret _ _ _ ro_gn O4)|].
  split; [vm_compute; discriminate|]. split; [exact (ro_ret _ _ _ (ro_rget _ _ _ _) O2)|].
  split; [exact (ro_ret _ _ _ (ro_rget _ _ _ _) O5)|discriminate].
Qed.
Print Assumptions rec_gn_equal_refuted.
(** In a set of two buffers whose last transaction is complete, what an open transaction
    writes to a member is seen before its end. *)
Theorem rec_tx_isolated_refuted : exists s inst own l m m' k j i v v',
  rhistory s inst own l m /\ 2 <= buffers s /\ is_consistent m = Ret true m /\
  do_rops [ROp (OBegin 5 0); RVal k j i v'] m = Ret tt m' /\ is_consistent m' = Ret false m' /\
  with_inst k j (fun p => record_get_w 8 p i) m = Ret v m /\ with_inst k j (fun p => record_get_w 8 p i) m' = Ret v' m' /\ v <> v'.
Proof.
  destruct (rrun_shows rx_s (fun m => (res (is_consistent m), rx_x 0 m,
      match do_rops [ROp (OBegin 5 0); RVal 1 0 0 8] m with Ret _ m' => Some (res (is_consistent m'), rx_x 0 m') | _ => None end))
      (ROp (OCopy true) :: rx_l ++ [ROp (OBegin 3 0); ROp (OEnd 4 0)]) (Some true, Some 7, Some (Some false, Some 8)))
    as (m & HH & O); [exact rx_args|vm_compute; reflexivity..|].
  assert (O1 : res (is_consistent m) = Some true) by congruence.
  assert (O2 : rx_x 0 m = Some 7) by congruence.
  assert (O3 : match do_rops [ROp (OBegin 5 0); RVal 1 0 0 8] m with Ret _ m' => Some (res (is_consistent m'), rx_x 0 m') | _ => None end
               = Some (Some false, Some 8)) by congruence. clear O.
  destruct (do_rops [ROp (OBegin 5 0); RVal 1 0 0 8] m) as [[] m'| |] eqn:HD; try discriminate.
  assert (O4 : res (is_consistent m') = Some false) by congruence. assert (O5 : rx_x 0 m' = Some 8) by congruence.
  exists rx_s, ex_inst, ex_own, (ROp (OCopy true) :: rx_l ++ [ROp (OBegin 3 0); ROp (OEnd 4 0)]), m, m', 1%Z, 0%Z, 0%Z, 7, 8.
  split; [exact HH|]. split; [vm_compute; discriminate|]. split; [exact (ro_ret _ _ _ ro_cons O1)|]. split; [exact HD|].
  split; [exact (ro_ret _ _ _ ro_cons O4)|]. split; [exact (ro_ret _ _ _ (ro_rget _ _ _ _) O2)|].
  split; [exact (ro_ret _ _ _ (ro_rget _ _ _ _) O5)|discriminate].
Qed.
Print Assumptions rec_tx_isolated_refuted.
(** Members are not aligned: a u64 at an address that is 4 modulo 8. *)
Theorem rec_align_refuted : exists s inst own l m k j i d a vd data,
  rhistory s inst own l m /\ member (metrics s) k j i = Some d /\ md_type d = 8 /\
  with_inst k j (fun p => record_metric_get p i) m = Ret (Some (a, vd, data)) m /\ a mod 8 = 4.
Proof.
  destruct (rrun_shows rx_s (fun m => res (with_inst 1 0 (fun p => record_metric_get p 0) m)) [] (Some (Some (732, 280, 608))))
    as (m & HH & O); [exact rx_args|vm_compute; reflexivity..|].
  destruct (member (metrics rx_s) 1 0 0) as [d|] eqn:HM; [|vm_compute in HM; discriminate].
  exists rx_s, ex_inst, ex_own, [], m, 1%Z, 0%Z, 0%Z, d, 732, 280, 608. split; [exact HH|]. split; [exact HM|].
  split; [vm_compute in HM; injection HM as <-; reflexivity|]. split; [|reflexivity].
  apply ro_ret; [|exact O]. unfold with_inst. apply ro_bind; [apply ro_inst_at|]. intros p.
  unfold record_metric_get, record_mdesc_get, rec_type, back. ro.
Qed.
Print Assumptions rec_align_refuted.
(** A schema whose number of buffers is set to 0 makes a set of one buffer, whose record
    arrays have no instances. *)
Definition rz_s0 : schema := snd (schema_array_card_set ex_s0 0).
Definition rz_s1 : schema := snd (fst (schema_record_add rz_s0 rx_r)).
Definition rz_s : schema := snd (schema_record_array_add rz_s1 [97] (snd (schema_record_add rz_s0 rx_r)) 2).
Lemma rz_built : built rz_s.
Proof.
  apply (b_record_array rz_s1 [97] (snd (schema_record_add rz_s0 rx_r)) 2 1%Z); [|label| |reflexivity|vm_compute; reflexivity].
  - eapply (b_record rz_s0 rx_r); [apply (b_card ex_s0 0 0%Z); [apply b_new|reflexivity]|exact rx_rbuilt|vm_compute; reflexivity].
  - exists 0%nat, rx_r. split; vm_compute; reflexivity.
Qed.
Lemma rz_args : create_args rz_s ex_inst ex_own 0 ex_h.
Proof.
  split; [exact rz_built|]. split; [|repeat split; reflexivity]. constructor.
  - split; [repeat constructor; lia|reflexivity].
  - split; [repeat constructor; lia|reflexivity].
  - reflexivity.
  - vm_compute. reflexivity.
  - intros p e q HE HR. vm_compute in HE. destruct p as [|p0 [|p1 [|p2 p]]]; cbn in HE; try discriminate HE.
    + injection HE as <- <-. discriminate HR.
    + injection HE as _ <- <-. constructor.
  - intros Q. vm_compute in Q. destruct Q; reflexivity.
Qed.
Theorem rec_no_instances_refuted : exists s inst own m k kk d rt isz,
  created s inst own m /\ buffers s = 1 /\ at_idx (metrics s) k = Some (kk, RecA d rt isz) /\ md_count d = 2 /\
  inst_at k 0 m = Ret None m.
Proof.
  destruct (made_shows rz_s ex_inst (fun m => res (inst_at 1 0 m)) (Some None)) as (m & HC & O); [vm_compute; reflexivity|].
  destruct (at_idx (metrics rz_s) 1) as [[kk e]|] eqn:HI; [|vm_compute in HI; discriminate].
  assert (HE : e = RecA (mkMdef [97] None 27 1 2 32 80) 0 32) by (vm_compute in HI; injection HI as _ <-; reflexivity). subst e.
  exists rz_s, ex_inst, ex_own, m, 1%Z, kk, (mkMdef [97] None 27 1 2 32 80), 0, 32.
  split; [exists 0, ex_h; split; [exact rz_args|exact HC]|]. split; [vm_compute; reflexivity|]. split; [exact HI|]. split; [reflexivity|].
  exact (ro_ret _ _ _ (ro_inst_at _ _) O).
Qed.
Print Assumptions rec_no_instances_refuted.
(** A member added to a record after an array of it was declared lies over the beginning of
    the next instance: writing it in instance 0 takes instance 1 away. *)
Definition rl_s : schema := match attached_metric_add rx_s 0 [119] None 8 1 with Some s => s | None => ex_s0 end.
Theorem rec_late_member_refuted : exists s s' inst own m m', built s /\ attached_metric_add s 0 [119] None 8 1 = Some s' /\
  create s' inst own 0 ex_h = Some (Ret tt m) /\
  with_inst 1 1 (fun p => record_get_w 8 p 0) m = Ret 0 m /\
  with_inst 1 0 (fun p => record_set_w 8 p 2 5) m = Ret tt m' /\
  with_inst 1 1 (fun p => record_get_w 8 p 0) m' = Abort.
Proof.
  destruct (made_shows rl_s ex_inst (fun m => (rx_x 1 m, match with_inst 1 0 (fun p => record_set_w 8 p 2 5) m with
     | Ret _ m' => match with_inst 1 1 (fun p => record_get_w 8 p 0) m' with Abort => true | _ => false end | _ => false end)) (Some 0, true))
    as (m & HC & O); [vm_compute; reflexivity|].
  assert (O1 : rx_x 1 m = Some 0) by congruence.
  assert (O2 : match with_inst 1 0 (fun p => record_set_w 8 p 2 5) m with
     | Ret _ m' => match with_inst 1 1 (fun p => record_get_w 8 p 0) m' with Abort => true | _ => false end | _ => false end = true) by congruence.
  destruct (with_inst 1 0 (fun p => record_set_w 8 p 2 5) m) as [[] m'| |] eqn:HD; [|discriminate O2..].
  exists rx_s, rl_s, ex_inst, ex_own, m, m'. split; [exact rx_built|]. split; [vm_compute; reflexivity|]. split; [exact HC|].
  split; [exact (ro_ret _ _ _ (ro_rget _ _ _ _) O1)|]. split; [exact HD|].
  destruct (with_inst 1 1 (fun p => record_get_w 8 p 0) m'); [discriminate O2|reflexivity|discriminate O2].
Qed.
Print Assumptions rec_late_member_refuted.
Print Assumptions rec_access.
Print Assumptions rec_index_unchecked.
Print Assumptions rec_write.
Print Assumptions rec_keep.
Print Assumptions rec_gn_equal_partial.
