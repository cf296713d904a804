(** Transactions, and what the accessors return. *)
From Verif Require Import Bytes M_Set S_Set L_SetMem L_SetLay L_SetCreate L_SetInit L_SetTop L_SetMake L_SetRep L_SetOps.
Local Open Scope N_scope.

Lemma memcpy_ok dst src n m (Q : unit -> st -> Prop) : src + n <= msz m -> dst + n <= msz m ->
  (forall m', frame (fun x => dst <= x < dst + n) m m' ->
     (forall o k, o + N.of_nat k <= n -> get m' (dst + o) k = get m (src + o) k) -> Q tt m') ->
  wp (memcpy dst src n) Q m.
Proof.
  intros H1 H2 HQ. unfold memcpy. apply wp_bind, wp_load; [lia|].
  assert (BL : blen (get m src (N.to_nat n)) = n) by (rewrite blen_get; lia).
  apply wp_store; [lia|]. apply HQ.
  - apply frame_upd. intros x Hx. lia.
  - intros o k Hk. apply (list_eq_nth 0); rewrite !get_length; [reflexivity|]. intros j Hj.
    rewrite !get_nth by assumption. rewrite mb_upd_in by lia.
    rewrite get_nth by lia. f_equal. lia.
Qed.

Section Tx1.
Variable E : env.
Hypothesis OK : ok_env E.
Notation es := (v_es E).
Variable rest : N -> N.
Notation R := (repr E rest).

Lemma rd_arr m A b : R m A -> b < v_ac E -> reads (arr_get b) (v_buf E b) m.
Proof.
  intros RP Hb. pose proof (R_handle E rest m A RP) as (H1 & H2 & _).
  apply (e_arr E OK b m Hb); auto. exact (h_data _ _ _ _ _ _ _ _ _ (p_h E rest m A RP)).
Qed.
Lemma rd_ac m A : R m A -> reads (ld 4 H_ARRAY_CARD) (v_ac E) m.
Proof.
  intros RP. apply reads_ld; [apply (p_low E OK rest m A RP); ubody; lia|]. exact (h_ac _ _ _ _ _ _ _ _ _ (p_h E rest m A RP)).
Qed.
Lemma st_arr m b : static E m -> b < v_ac E -> reads (arr_get b) (v_buf E b) m.
Proof.
  intros (S1 & S2 & H1 & H2 & _) Hb. apply (e_arr E OK b m Hb); auto. exact (h_data _ _ _ _ _ _ _ _ _ (proj1 S1)).
Qed.

(** Every buffer is told the new index. *)
Lemma set_curr_ok c n : forall i m, i + N.of_nat n = v_ac E -> static E m ->
  wp (set_curr_idx n i c) (fun _ m' => static E m' /\ hdl m m' /\
    (forall b, i <= b < v_ac E -> get m' (addr E (LH FCurr b)) 4 = le 4 c) /\
    forall l, valid E l -> (forall b, i <= b -> l <> LH FCurr b) -> get m' (addr E l) (size E l) = get m (addr E l) (size E l)) m.
Proof.
  induction n as [|n IH]; intros i m Hi S0; cbn [set_curr_idx].
  - apply wp_ret. split; [exact S0|]. split; [apply hdl_refl|]. split; [intros b Hb; lia|auto].
  - apply (wp_reads _ _ _ _ _ (st_arr m i S0 ltac:(lia))).
    assert (V : valid E (LH FCurr i)) by (cbn; lia).
    pose proof (addr_msz E OK _ m (proj2 (proj2 S0)) V) as HF. cbn [addr size hoff hsize] in HF.
    apply wp_bind, wp_sto; [exact HF|]. set (m1 := upd m _ _).
    assert (F1 : frame (fun x => addr E (LH FCurr i) <= x < addr E (LH FCurr i) + N.of_nat (size E (LH FCurr i))) m m1).
    { apply frame_sto. intros x Hx. exact Hx. }
    assert (S1 : static E m1) by exact (static_loc E OK _ m m1 V F1 S0).
    apply (wp_mono _ _ _ _ (IH (i + 1) m1 ltac:(lia) S1)). intros _ m' (S2 & HH & G1 & G2).
    split; [exact S2|]. split; [exact (hdl_trans _ _ _ (proj1 F1) HH)|]. split.
    + intros b Hb. destruct (N.eq_dec b i) as [->|Hne]; [|apply G1; lia].
      change 4%nat with (size E (LH FCurr i)). rewrite G2; [|exact V|intros b Hb' Q; injection Q; lia].
      cbn [addr size hoff hsize]. unfold m1. rewrite <- (le_length 4 c) at 2. apply get_upd_same.
    + intros l Vl Hl. rewrite G2; [|exact Vl|intros b Hb; apply Hl; lia].
      apply (frame_get _ m m1 _ _ F1). intros x Hx Hy.
      pose proof (disjoint E OK l (LH FCurr i) Vl V (Hl i ltac:(lia))) as D. unfold disj in D. lia.
Qed.

(** The state after the switch of buffers. *)
Definition switched (A : aset) : aset :=
  let c := a_cur A in let c' := (c + 1) mod (v_ac E) in
  mkA c' (a_copy A) (fN (a_hd A) c' (a_hd A c)) (if a_copy A then fN (a_val A) c' (a_val A c) else a_val A)
      (a_mval A) (a_user A) (a_mgn A) (a_uid A) (a_gid A) (a_perm A).
Lemma switched_small A : a_cur A < v_ac E -> small E A -> small E (switched A).
Proof.
  intros HC (S1 & S2). split; [|exact S2]. intros b f Hb Hf. cbn. unfold fN. destruct (b =? _); auto.
Qed.
Lemma hdr_copy (m m' : st) len c c' : 96 <= len ->
  (forall o k, o + N.of_nat k <= len -> get m' (v_buf E c' + o) k = get m (v_buf E c + o) k) ->
  forall f, get m' (addr E (LH f c')) (hsize f) = get m (addr E (LH f c)) (hsize f).
Proof. intros Hl H f. cbn [addr]. apply H. destruct f; cbn; lia. Qed.

Lemma switch_ok m A (Q : unit -> st -> Prop) : R m A ->
  (forall m', repr E (mb m') m' (switched A) -> Q tt m') ->
  wp (n <- ld 4 H_ARRAY_CARD ;;
      if n =? 1 then ret tt else
      if n =? 0 then wild else
      c <- fld cur ;;
      prev <- arr_get c ;;
      let c' := (c + 1) mod n in
      dh <- arr_get c' ;;
      so <- ld 4 (dh + D_SET_OFF) ;;
      cp <- fld copy ;;
      sz <- ld 8 (dh + D_SIZE) ;;
      g1 <- ld 4 (dh + D_HEAP_GN) ;;
      g2 <- ld 4 (prev + D_HEAP_GN) ;;
      (if cp then memcpy dh prev sz
       else if negb (g1 =? g2) then memcpy dh prev sz
       else memcpy dh prev DATA_HDR) ;;
      sto 4 (dh + D_SET_OFF) so ;;
      set_cur c' dh ;;
      set_curr_idx (N.to_nat n) 0 c') Q m.
Proof.
  intros RP HQ. apply (wp_reads _ _ _ _ _ (rd_ac m A RP)).
  pose proof (p_cur E rest m A RP) as HC. pose proof (rp_small E rest m A RP) as SM.
  destruct (N.eqb_spec (v_ac E) 1) as [E1|N1].
  { apply wp_ret, HQ. assert (C0 : (a_cur A + 1) mod v_ac E = a_cur A).
    { rewrite E1 in *. rewrite N.mod_1_r. lia. }
    apply (repr_any E rest). apply (repr_eq E rest m A _ RP); [exact C0|reflexivity| |exact (switched_small A HC SM)].
    intros l V. unfold switched. rewrite C0.
    destruct l as [| | | |f b|b k|k|k]; try reflexivity; cbn; unfold fN.
    - destruct (N.eqb_spec b (a_cur A)) as [->|]; reflexivity.
    - destruct (a_copy A); [|reflexivity]. unfold fN. destruct (N.eqb_spec b (a_cur A)) as [->|]; reflexivity. }
  destruct (N.eqb_spec (v_ac E) 0) as [E0|_]; [lia|].
  apply (wp_reads _ (a_cur A)).
  { rewrite <- (rp_cur E rest m A RP). apply reads_fld. }
  apply (wp_reads _ _ _ _ _ (rd_arr m A (a_cur A) RP HC)). set (c := a_cur A) in *. cbv zeta.
  set (c' := (c + 1) mod v_ac E).
  assert (HC' : c' < v_ac E) by (apply N.mod_lt; lia).
  assert (NE : c' <> c).
  { unfold c'. destruct (N.eq_dec (c + 1) (v_ac E)) as [Q1|Q1].
    - rewrite Q1, N.mod_same by lia. lia.
    - rewrite N.mod_small by lia. lia. }
  apply (wp_reads _ _ _ _ _ (rd_arr m A c' RP HC')).
  pose proof (rp_static E rest m A RP) as ST. pose proof ST as (SME & SB & SH). pose proof SH as (Z1 & Z2 & Z3 & Z4).
  destruct (SB c' HC') as (B1 & B2 & B3). destruct (SB c HC) as (P1 & P2 & P3).
  pose proof (e_buf E c' HC') as BB'. pose proof (e_buf E c HC) as BB. pose proof (e_bs E OK) as HBS.
  assert (SEP : v_buf E c + v_bs E <= v_buf E c' \/ v_buf E c' + v_bs E <= v_buf E c).
  { destruct (N.lt_total c c') as [h|[h|h]]; [left; exact (e_buf2 E c c' h)|congruence|right; exact (e_buf2 E c' c h)]. }
  apply (wp_reads _ (v_buf E c')); [apply reads_ld; [unfold D_SET_OFF; lia|exact B2]|].
  apply (wp_reads _ (a_copy A)); [rewrite <- (rp_copy E rest m A RP); apply reads_fld|].
  apply (wp_reads _ (v_bs E)); [apply reads_ld; [unfold D_SIZE; lia|exact B1]|].
  assert (HG : forall b, b < v_ac E -> reads (ld 4 (v_buf E b + D_HEAP_GN)) 0 m).
  { intros b Hb. exact (rd_field E OK rest m A (LH FHgn b) 4 0 RP Hb eq_refl eq_refl ltac:(reflexivity)). }
  apply (wp_reads _ _ _ _ _ (HG c' HC')). apply (wp_reads _ _ _ _ _ (HG c HC)). cbn [N.eqb negb].
  set (len := if a_copy A then v_bs E else DATA_HDR).
  assert (HL : 96 <= len <= v_bs E) by (unfold len, DATA_HDR; destruct (a_copy A); lia).
  apply wp_bind.
  replace (if a_copy A then memcpy (v_buf E c') (v_buf E c) (v_bs E) else memcpy (v_buf E c') (v_buf E c) DATA_HDR)
    with (memcpy (v_buf E c') (v_buf E c) len) by (unfold len; destruct (a_copy A); reflexivity).
  apply memcpy_ok; [lia|lia|]. intros m1 F1 G1.
  pose proof (frame_msz _ _ _ F1) as M1.
  apply wp_bind, wp_sto; [unfold D_SET_OFF; lia|]. set (m2 := upd m1 _ _).
  assert (F2 : frame (fun x => v_buf E c' <= x < v_buf E c' + len) m m2).
  { apply (frame_trans _ _ m1); [exact F1|]. apply frame_sto. intros x Hx. unfold D_SET_OFF in Hx. cbv beta. lia. }
  assert (G2 : forall o k, o + N.of_nat k <= len -> o + N.of_nat k <= 20 \/ 24 <= o ->
     get m2 (v_buf E c' + o) k = get m (v_buf E c + o) k).
  { intros o k H1 H2. unfold m2. rewrite get_sto_other by (unfold D_SET_OFF; lia). now apply G1. }
  apply wp_bind. unfold set_cur, wp at 1. set (m3 := mkSt _ _ _ _ _ _).
  assert (MB3 : forall a n, get m3 a n = get m2 a n) by reflexivity.
  destruct F2 as ((J1 & J2 & J3 & J4 & J5) & F2).
  assert (S3 : static E m3).
  { split; [|split].
    - apply (smeta_ext E OK m m3); [|exact SME]. intros x Hx. apply (F2 x). intros Hy. apply Hx. do 4 right. lia.
    - intros b Hb. destruct (N.eq_dec b c') as [->|Hne].
      + split; [|split].
        * transitivity (num m (v_buf E c + D_SIZE) 8); [|exact P1]. unfold num. f_equal. apply G2; unfold D_SIZE; lia.
        * transitivity (num m2 (v_buf E c' + D_SET_OFF) 4); [reflexivity|]. unfold m2. rewrite num_sto_same.
          apply N.mod_small. pose proof (ok_tot E OK) as HT. unfold W32 in HT. change (256 ^ N.of_nat 4) with 4294967296. lia.
        * transitivity (num m (v_buf E c + D_HEAP_SIZE) 8); [|exact P3]. unfold num. f_equal. apply G2; unfold D_HEAP_SIZE; lia.
      + eapply bstat_ext; [|exact (SB b Hb)]. intros x Hx. apply (F2 x). intros Hy.
        pose proof (e_bs E OK). destruct (N.lt_total b c') as [h|[h|h]]; [|contradiction|].
        * pose proof (e_buf2 E b c' h). lia.
        * pose proof (e_buf2 E c' b h). lia.
    - split; [exact (eq_trans J1 Z1)|]. split; [exact (eq_trans J2 Z2)|]. split; [reflexivity|exact HC']. }
  assert (KEEP : forall l, valid E l -> (forall f, l <> LH f c') -> (a_copy A = true -> forall k, l <> LV c' k) ->
     get m3 (addr E l) (size E l) = content A l).
  { intros l V N2 N3. rewrite MB3, <- (rp_obs E rest m A RP l V). apply get_ext. intros x Hx. apply F2. intros Hy.
    pose proof (e_ms_ge E OK) as HM. pose proof (e_D0 E) as HD0. unfold H_DICT in HD0.
    destruct l as [| | | |f b|b k|k|k].
    1-4: cbn in Hx; ubody; lia.
    - assert (b <> c') by (intros ->; exact (N2 f eq_refl)). pose proof (bnd_hdr E f b).
      destruct (N.lt_total b c') as [h|[h|h]]; [pose proof (e_buf2 E b c' h)|contradiction|pose proof (e_buf2 E c' b h)]; lia.
    - pose proof (bnd_val E OK b k V). destruct (N.eq_dec b c') as [->|Hne].
      + destruct (a_copy A) eqn:CP; [exact (N3 eq_refl k eq_refl)|]. unfold len, DATA_HDR in Hy. lia.
      + destruct (N.lt_total b c') as [h|[h|h]]; [pose proof (e_buf2 E b c' h)|contradiction|pose proof (e_buf2 E c' b h)]; lia.
    - pose proof (bnd_meta E OK k V). lia.
    - pose proof (bnd_user E OK k V). lia. }
  assert (HDR : forall f, get m3 (addr E (LH f c')) (hsize f) = content A (LH f c)).
  { intros f. rewrite <- (rp_obs E rest m A RP (LH f c) HC). rewrite MB3. cbn [addr size]. apply G2; destruct f; cbn; lia. }
  pose proof (set_curr_ok c' (N.to_nat (v_ac E)) 0 m3 ltac:(lia) S3) as SC.
  apply (wp_mono _ _ _ _ SC). intros [] m4 (S4 & (K1 & K2 & K3 & K4 & K5) & C1 & C2). apply HQ.
  constructor.
  - exact S4.
  - rewrite K4. reflexivity.
  - rewrite K5. exact (eq_trans J5 (rp_copy E rest m A RP)).
  - intros l V. destruct l as [| | | |f b|b k|k|k].
    1-4: rewrite C2; [|exact V|intros; discriminate]; rewrite KEEP; [reflexivity|exact V|intros; discriminate|intros; discriminate].
    + destruct f; try (rewrite C2; [|exact V|intros; discriminate];
        (cbn [content switched a_hd a_cur]; unfold fN; fold c c'; destruct (N.eqb_spec b c') as [->|Hne];
         [exact (HDR _)|rewrite KEEP; [reflexivity|exact V|intros f0 Q0; injection Q0; congruence|intros; discriminate]])).
      apply C1. split; [lia|exact V].
    + rewrite C2; [|exact V|intros; discriminate]. cbn [content switched a_val]. fold c c'.
      destruct (a_copy A) eqn:CP.
      * unfold fN. destruct (N.eqb_spec b c') as [->|Hne].
        -- assert (V' : valid E (LV c k)) by (split; [exact HC|exact (proj2 V)]).
           change (a_val A c k) with (content A (LV c k)). rewrite <- (rp_obs E rest m A RP (LV c k) V').
           rewrite MB3. pose proof (bnd_val E OK c' k V) as BV. cbn [addr size] in *. apply G2; unfold len; lia.
        -- rewrite KEEP; [reflexivity|exact V|intros; discriminate|intros _ k' Q0; injection Q0; congruence].
      * rewrite KEEP; [reflexivity|exact V|intros; discriminate|congruence].
    + rewrite C2; [|exact V|intros; discriminate]; rewrite KEEP; [reflexivity|exact V|intros; discriminate|intros; discriminate].
    + rewrite C2; [|exact V|intros; discriminate]; rewrite KEEP; [reflexivity|exact V|intros; discriminate|intros; discriminate].
  - exact (switched_small A HC SM).
  - reflexivity.
Qed.

Lemma wp_assoc {T} (p : prog T) (f : T -> prog unit) (k : prog unit) (Q : unit -> st -> Prop) m :
  wp (bind p f) (fun _ m' => wp k Q m') m -> wp (bind p (fun n => bind (f n) (fun _ => k))) Q m.
Proof. unfold wp, bind. destruct (p m) as [a m1| |]; auto. destruct (f a m1); auto. Qed.

(** Writing a field of a header. *)
Definition setf (f : hf) (v : N) (h : ahdr) : ahdr :=
  match f with
  | FTs0 => mkAh (h_flags h) (v, snd (h_ts h)) (h_dur h) (h_gn h) (h_mgn h)
  | FTs1 => mkAh (h_flags h) (fst (h_ts h), v) (h_dur h) (h_gn h) (h_mgn h)
  | FDur0 => mkAh (h_flags h) (h_ts h) (v, snd (h_dur h)) (h_gn h) (h_mgn h)
  | FDur1 => mkAh (h_flags h) (h_ts h) (fst (h_dur h), v) (h_gn h) (h_mgn h)
  | FFlags => mkAh v (h_ts h) (h_dur h) (h_gn h) (h_mgn h)
  | FGn => mkAh (h_flags h) (h_ts h) (h_dur h) v (h_mgn h)
  | FMgn => mkAh (h_flags h) (h_ts h) (h_dur h) (h_gn h) v
  | _ => h
  end.
Definition plain_f (f : hf) : Prop := f <> FCurr /\ f <> FHgn.
Lemma hval_same f v h c : plain_f f -> hval (setf f v h) c f = v.
Proof. intros [H1 H2]. destruct f; try reflexivity; congruence. Qed.
Lemma hval_diff f g v h c : f <> g -> hval (setf f v h) c g = hval h c g.
Proof. intros H. destruct f, g; try reflexivity; congruence. Qed.
Lemma wp_hdr m A f b v (Q : unit -> st -> Prop) : R m A -> b < v_ac E -> plain_f f ->
  (forall m', R m' (with_hd A b (setf f (v mod 256 ^ N.of_nat (hsize f)))) -> Q tt m') ->
  wp (sto (hsize f) (v_buf E b + hoff f) v) Q m.
Proof.
  intros RP Hb Hf HQ. destruct (rp_small E rest m A RP) as (S1 & S2).
  assert (V : valid E (LH f b)) by exact Hb.
  apply (wp_field E OK rest m A (with_hd A b (setf f (v mod 256 ^ N.of_nat (hsize f)))) (LH f b) (hsize f) v Q RP V); try reflexivity; [| | |exact HQ].
  - split; [|exact S2]. intros b' g Hb' Hg. cbn [a_hd with_hd]. unfold fN. destruct (N.eqb_spec b' b) as [->|]; [|now apply S1].
    assert (D : f = g \/ f <> g) by (destruct f, g; (left; reflexivity) || (right; discriminate)).
    destruct D as [<-|D]; [rewrite (hval_same f _ _ _ Hf); apply N.mod_lt, N.pow_nonzero; discriminate|].
    rewrite hval_diff by exact D. now apply S1.
  - cbn [content with_hd a_hd]. unfold fN. rewrite N.eqb_refl, (hval_same f _ _ _ Hf). apply le_mod.
  - intros l' V' N. destruct l' as [| | | |g b'|b' k|k|k]; try reflexivity. cbn [content with_hd a_hd a_cur]. unfold fN.
    destruct (N.eqb_spec b' b) as [->|]; [|reflexivity]. rewrite hval_diff; [reflexivity|congruence].
Qed.
Lemma pf_ts0 : plain_f FTs0. Proof. split; discriminate. Qed.
Lemma pf_ts1 : plain_f FTs1. Proof. split; discriminate. Qed.
Lemma pf_d0 : plain_f FDur0. Proof. split; discriminate. Qed.
Lemma pf_d1 : plain_f FDur1. Proof. split; discriminate. Qed.
Lemma pf_fl : plain_f FFlags. Proof. split; discriminate. Qed.

End Tx1.

Section Tx.
Variable E : env.
Hypothesis OK : ok_env E.
Variable rest : N -> N.
Notation es := (v_es E).
Notation R := (repr E rest).
Lemma begin_ok m A s u a : R m A -> action es (OBegin s u) = Some a -> carries E rest (OBegin s u) a m A.
Proof.
  intros RP H. injection H as <-. cbn [carries do_op].
  cut (wp (transaction_begin s u) (fun _ m' => repr E (mb m') m' (effect (v_ac E) (RBegin (s, u)) A)) m).
  { intros W. destruct (wp_res _ _ _ W) as ([] & m' & E1 & E2). eauto. }
  unfold transaction_begin.
  apply wp_assoc. apply (switch_ok E OK rest m A _ RP). intros m1 R1.
  set (rest1 := mb m1) in *. clearbody rest1. set (A1 := switched E A) in *. pose proof (p_cur E rest1 m1 A1 R1) as HC.
  apply (wp_reads _ _ _ _ _ (rd_dat E rest1 m1 A1 R1)). set (c := a_cur A1) in *.
  apply wp_bind. apply (wp_hdr E OK rest1 m1 A1 FFlags c T_BEGIN _ R1 HC pf_fl). intros m2 R2.
  apply wp_bind. change (v_buf E c + D_TS) with (v_buf E c + hoff FTs0).
  apply (wp_hdr E OK rest1 m2 _ FTs0 c s _ R2 HC pf_ts0). intros m3 R3.
  replace (v_buf E c + hoff FTs0 + 4) with (v_buf E c + hoff FTs1) by (cbn [hoff]; lia).
  apply (wp_hdr E OK rest1 m3 _ FTs1 c u _ R3 HC pf_ts1). intros m4 R4.
  apply (repr_any E rest1). refine (repr_same E rest1 m4 _ _ R4 _ _ _ _); try reflexivity.
  - intros l. destruct l as [| | | |f b|b k|k|k]; try reflexivity.
    cbn [effect content with_hd a_hd a_cur]. unfold c, A1, switched. cbn [a_cur a_hd]. unfold fN.
    destruct (N.eqb_spec b ((a_cur A + 1) mod v_ac E)) as [->|]; [|reflexivity]. rewrite !N.eqb_refl.
    destruct f; try reflexivity.
  - destruct (rp_small E rest1 m4 _ R4) as (S1 & S2). split; [|exact S2]. intros b f Hb Hf. specialize (S1 b f Hb Hf).
    cbn [effect content with_hd a_hd a_cur] in *. unfold c, A1, switched in S1. cbn [a_cur a_hd] in S1. unfold fN in *.
    destruct (N.eqb_spec b ((a_cur A + 1) mod v_ac E)) as [->|]; [|exact S1]. rewrite !N.eqb_refl in S1.
    destruct f; exact S1.
Qed.

Local Ltac Zify.zify_post_hook ::= Z.div_mod_to_equations.
Lemma sub32_w32 a b : sub32 a b = w32 (Z.of_N a - Z.of_N b).
Proof. unfold sub32, w32. lia. Qed.
Lemma add32_w32 a b : (a + b) mod 4294967296 = w32 (Z.of_N a + Z.of_N b).
Proof. unfold w32. lia. Qed.
Local Ltac Zify.zify_post_hook ::= idtac.
Lemma w32_small z : w32 z < B32.
Proof. unfold w32, B32. pose proof (Z.mod_pos_bound z 4294967296 ltac:(lia)). lia. Qed.
Lemma tv_diff_small t1 t0 : fst (tv_diff t1 t0) < B32 /\ snd (tv_diff t1 t0) < B32.
Proof. unfold tv_diff. destruct (_ <? _); split; apply w32_small. Qed.

Lemma end_ok m A s u a : R m A -> action es (OEnd s u) = Some a -> carries E rest (OEnd s u) a m A.
Proof.
  intros RP H. injection H as <-. apply carries_wp; [discriminate|]. cbn [do_op]. unfold transaction_end.
  pose proof (p_cur E rest m A RP) as HC. pose proof (rp_small E rest m A RP) as (S1 & S2).
  apply (wp_reads _ (a_cur A)); [rewrite <- (rp_cur E rest m A RP); apply reads_fld|].
  apply (wp_reads _ _ _ _ _ (rd_arr E OK rest m A (a_cur A) RP HC)). set (c := a_cur A) in *. set (h := a_hd A c).
  change (v_buf E c + D_TS) with (v_buf E c + hoff FTs0). change (v_buf E c + D_DUR) with (v_buf E c + hoff FDur0).
  replace (v_buf E c + hoff FTs0 + 4) with (v_buf E c + hoff FTs1) by (cbn [hoff]; lia).
  replace (v_buf E c + hoff FDur0 + 4) with (v_buf E c + hoff FDur1) by (cbn [hoff]; lia).
  apply (wp_reads _ (fst (h_ts h))); [exact (rd_field E OK rest m A (LH FTs0 c) 4 _ RP HC eq_refl eq_refl (S1 c FTs0 HC ltac:(discriminate)))|].
  apply (wp_reads _ (snd (h_ts h))); [exact (rd_field E OK rest m A (LH FTs1 c) 4 _ RP HC eq_refl eq_refl (S1 c FTs1 HC ltac:(discriminate)))|].
  cbv zeta. set (dd := tv_diff (s, u) (h_ts h)). destruct (tv_diff_small (s, u) (h_ts h)) as [D1 D2]. fold dd in D1, D2.
  apply wp_bind.
  apply (wp_mono _ (fun _ m' => R m' (with_hd (with_hd A c (setf FDur0 (fst dd))) c (setf FDur1 (snd dd))))).
  { assert (TWO : forall x y, x = fst dd -> y = snd dd ->
      wp (sto 4 (v_buf E c + hoff FDur0) x ;; sto 4 (v_buf E c + hoff FDur1) y)
         (fun _ m' => R m' (with_hd (with_hd A c (setf FDur0 (fst dd))) c (setf FDur1 (snd dd)))) m).
    { intros x y -> ->. apply wp_bind. apply (wp_hdr E OK rest m A FDur0 c (fst dd) _ RP HC pf_d0). intros m1 R1.
      rewrite N.mod_small in R1 by exact D1.
      apply (wp_hdr E OK rest m1 _ FDur1 c (snd dd) _ R1 HC pf_d1). intros m2 R2. rewrite N.mod_small in R2 by exact D2. exact R2. }
    rewrite !sub32_w32, add32_w32. rewrite N.leb_antisym.
    destruct (w32 (Z.of_N u - Z.of_N (snd (h_ts h))) <? 2147483648) eqn:HB; cbn [negb];
      apply TWO; unfold dd, tv_diff; cbn [fst snd]; rewrite HB; reflexivity. }
  intros [] m2 R2.
  apply wp_bind. apply (wp_hdr E OK rest m2 _ FTs0 c s _ R2 HC pf_ts0). intros m3 R3.
  apply wp_bind. apply (wp_hdr E OK rest m3 _ FTs1 c u _ R3 HC pf_ts1). intros m4 R4.
  apply wp_bind. change (v_buf E c + D_FLAGS) with (v_buf E c + hoff FFlags).
  apply (wp_hdr E OK rest m4 _ FFlags c T_END _ R4 HC pf_fl). intros m5 R5.
  set (A5 := with_hd _ _ (setf FFlags _)) in R5.
  set (B5 := with_hd A (a_cur A) (fun h => mkAh 2 (tv32 (s, u)) (tv_diff (s, u) (h_ts h)) (h_gn h) (h_mgn h))).
  assert (R6 : R m5 B5).
  { refine (repr_same E rest m5 A5 B5 R5 eq_refl eq_refl _ _).
    - intros l. destruct l as [| | | |f b|b k|k|k]; try reflexivity.
      unfold A5, B5. cbn [content with_hd a_hd a_cur]. fold c. unfold fN.
      destruct (N.eqb_spec b c) as [->|]; [|reflexivity]. rewrite !N.eqb_refl. destruct f; reflexivity.
    - destruct (rp_small E rest m5 _ R5) as (T1 & T2). split; [|exact T2]. intros b f Hb Hf. specialize (T1 b f Hb Hf).
      unfold A5, B5 in *. cbn [with_hd a_hd a_cur] in *. fold c. unfold fN in *.
      destruct (N.eqb_spec b c) as [->|]; [|exact T1]. rewrite !N.eqb_refl in T1. destruct f; exact T1. }
  apply (wp_reads _ _ _ _ _ (rd_dat E rest m5 B5 R6)). exact (data_inc_ok E OK rest m5 B5 _ R6 (fun m' H => H)).
Qed.

(** Every operation. *)
Theorem op_ok m A o a : R m A -> action es o = Some a -> carries E rest o a m A.
Proof.
  intros RP H. destruct o.
  - now apply set_ok.
  - now apply set_w_ok.
  - now apply arr_val_ok.
  - now apply arr_w_ok.
  - now apply arr_ok.
  - now apply str_ok.
  - now apply user_ok.
  - now apply modify_ok.
  - now apply auth_ok.
  - apply ids_ok; eauto.
  - apply ids_ok; eauto.
  - apply ids_ok; eauto.
  - now apply begin_ok.
  - now apply end_ok.
  - now apply copy_ok.
Qed.

(** Accessors. *)
Lemma get_slice m a n o k : (o + k <= n)%nat -> get m (a + N.of_nat o) k = slice o k (get m a n).
Proof.
  intros H. replace n with (o + (k + (n - o - k)))%nat by lia. rewrite get_app, get_app. unfold slice.
  rewrite skipn_app, get_length, Nat.sub_diag, skipn_all2 by (rewrite get_length; lia). cbn [app skipn].
  rewrite firstn_app, get_length, Nat.sub_diag, firstn_all2 by (rewrite get_length; lia). cbn [firstn]. now rewrite app_nil_r.
Qed.
Definition rloc (A : aset) (k : nat) (e : entry) : loc :=
  if data_e e then
    if (h_flags (now A) =? 2) || (md_type (base e) =? 23) || (md_type (base e) =? 27)
    then LV (a_cur A) k else LV ((a_cur A + (v_ac E - 1)) mod v_ac E) k
  else LM k.
Lemma rloc_view A k e : content A (rloc A k e) = view es (v_ac E) A k e.
Proof.
  unfold rloc, view, now. change (data_e e) with (in_data e). destruct (in_data e); [|reflexivity].
  destruct (_ || _); reflexivity.
Qed.
Lemma rloc_valid m A k e : R m A -> nth_error es k = Some e -> not_type e -> valid E (rloc A k e).
Proof.
  intros RP Hk Hn. unfold rloc. destruct (data_e e) eqn:Hd.
  - pose proof (p_cur E rest m A RP). destruct (_ || _); (split; [|eauto]); [assumption|apply N.mod_lt; lia].
  - pose proof (vloc_valid E OK rest m A k e RP Hk Hn) as V. unfold vloc in V. now rewrite Hd in V.
Qed.
Lemma rloc_size A k e : nth_error es k = Some e -> not_type e -> size E (rloc A k e) = N.to_nat (room e).
Proof.
  intros Hk Hn. rewrite <- (vloc_size E OK A k e Hk Hn). unfold rloc, vloc.
  destruct (data_e e); [|reflexivity]. destruct (_ || _); reflexivity.
Qed.
Lemma mval_get_at m A i k e : R m A -> at_idx es i = Some (k, e) ->
  reads (mval_to_get i) (Some (addr E (rloc A k e), v_doff E (pos E k))) m.
Proof.
  intros RP HI. pose proof (proj1 (at_nth E i k e HI)) as Hk. pose proof (p_cur E rest m A RP) as HC. unfold mval_to_get.
  eapply reads_bind; [exact (desc_get_some E OK rest m A RP i k e HI)|].
  eapply reads_bind; [exact (rd_flags E OK rest m A RP k e Hk)|]. eapply reads_bind; [exact (rd_off E OK rest m A RP k e Hk)|].
  eapply reads_bind; [exact (rd_dat E rest m A RP)|].
  change (is_data (md_flags (base e))) with (data_e e). unfold rloc. destruct (data_e e); [|apply reads_pure].
  eapply reads_bind.
  { exact (rd_field E OK rest m A (LH FFlags (a_cur A)) 4 _ RP HC eq_refl eq_refl (proj1 (rp_small E rest m A RP) _ FFlags HC ltac:(discriminate))). }
  eapply reads_bind; [exact (rd_type E OK rest m A RP k e Hk)|].
  cbn [hval]. change (a_hd A (a_cur A)) with (now A). unfold T_END, V_LIST, V_RECORD_ARRAY.
  destruct (h_flags (now A) =? 2); [apply reads_pure|]. destruct (md_type (base e) =? 23); [apply reads_pure|].
  destruct (md_type (base e) =? 27); [apply reads_pure|]. cbn [negb andb orb].
  eapply reads_bind; [exact (rd_ac E OK rest m A RP)|].
  eapply reads_bind; [rewrite <- (rp_cur E rest m A RP) in *; apply reads_fld|].
  eapply reads_bind; [apply (rd_arr E OK rest m A _ RP); apply N.mod_lt; lia|]. rewrite (rp_cur E rest m A RP). apply reads_pure.
Qed.
Lemma rd_part m A l o n : R m A -> valid E l -> (o + n <= size E l)%nat ->
  reads (ld n (addr E l + N.of_nat o)) (of_le (slice o n (content A l))) m.
Proof.
  intros RP V H. pose proof (R_fits E OK rest m A l RP V). apply reads_ld; [lia|].
  unfold num. rewrite (get_slice m _ (size E l)) by exact H. now rewrite (rp_obs E rest m A RP l V).
Qed.
Lemma hd_get m A f n v : R m A -> f <> FCurr -> hsize f = n -> v = hval (now A) 0 f ->
  reads (ld n (v_buf E (a_cur A) + hoff f)) v m.
Proof.
  intros RP Hf <- ->. pose proof (p_cur E rest m A RP) as HC.
  apply (rd_field E OK rest m A (LH f (a_cur A)) (hsize f) _ RP HC eq_refl).
  - cbn [content]. destruct f; try reflexivity. congruence.
  - exact (proj1 (rp_small E rest m A RP) _ f HC Hf).
Qed.
Theorem repr_agrees m A : R m A -> agrees es (v_ac E) m A.
Proof.
  intros RP. destruct (rp_small E rest m A RP) as (S1 & S2 & S3 & S4 & S5 & S6). constructor.
  - intros i k e w HI Hn Hw Ho. apply reads_ret. pose proof (proj1 (at_nth E i k e HI)) as Hk. unfold metric_get_w.
    eapply reads_bind; [exact (mval_get_at m A i k e RP HI)|]. cbv beta iota.
    rewrite <- rloc_view, <- (N.add_0_r (addr E _)). change 0 with (N.of_nat 0) at 1.
    apply (rd_part m A _ 0 _ RP (rloc_valid m A k e RP Hk Hn)). rewrite (rloc_size A k e Hk Hn). lia.
  - intros i k e w j HI Hn Hw Hj Hj2 Ho. apply reads_ret. pose proof (proj1 (at_nth E i k e HI)) as Hk. unfold metric_array_get_w.
    eapply reads_bind; [exact (mval_get_at m A i k e RP HI)|]. cbv beta iota.
    eapply reads_bind; [exact (rd_count E OK rest m A RP k e Hk)|].
    rewrite Z.mod_small by lia. destruct (Z.ltb_spec j (Z.of_N (md_count (base e)))); [|lia]. destruct (Z.ltb_spec j 0); [lia|].
    rewrite <- rloc_view. rewrite <- (N2Nat.id (w * Z.to_N j)) at 1.
    apply (rd_part m A _ _ _ RP (rloc_valid m A k e RP Hk Hn)). rewrite (rloc_size A k e Hk Hn).
    rewrite N.mul_add_distr_l, N.mul_1_r in Ho. lia.
  - intros i k e l r HI Hn Hv Hl. apply reads_ret. pose proof (proj1 (at_nth E i k e HI)) as Hk. unfold metric_array_get_str.
    eapply reads_bind; [exact (mval_get_at m A i k e RP HI)|]. cbv beta iota.
    pose proof (rloc_valid m A k e RP Hk Hn) as V. rewrite <- rloc_view in Hv.
    pose proof (content_length E rest m A _ RP V) as CL. rewrite Hv, app_length in CL. cbn [length] in CL.
    pose proof (R_fits E OK rest m A _ RP V) as HF.
    apply (wp_cstr _ l); [exact Hl|unfold blen; lia| |auto].
    rewrite <- (N.add_0_r (addr E _)). change 0 with (N.of_nat 0) at 1. rewrite (get_slice m _ (size E (rloc A k e))) by lia.
    rewrite (rp_obs E rest m A RP _ V), Hv. unfold slice. cbn [skipn].
    replace (S (length l)) with (length (l ++ [0])) by (rewrite app_length; cbn; lia).
    replace (l ++ 0 :: r) with ((l ++ [0]) ++ r) by (rewrite <- app_assoc; reflexivity).
    rewrite firstn_app, Nat.sub_diag, firstn_all. cbn [firstn]. apply app_nil_r.
  - intros i k e HI. apply reads_ret. pose proof (proj1 (at_nth E i k e HI)) as Hk. unfold user_data_get.
    eapply reads_bind; [exact (desc_get_some E OK rest m A RP i k e HI)|]. cbv beta iota. unfold VD_USER. rewrite N.add_0_r.
    apply (rd_field E OK rest m A (LU k) 8 _ RP (ex_intro _ e Hk) eq_refl eq_refl). apply S6.
  - apply reads_ret. eapply reads_bind; [exact (rd_dat E rest m A RP)|]. exact (hd_get m A FGn 8 _ RP ltac:(discriminate) eq_refl eq_refl).
  - apply reads_ret. exact (rd_field E OK rest m A LGn 8 _ RP I eq_refl eq_refl S2).
  - apply reads_ret. eapply reads_bind; [exact (rd_dat E rest m A RP)|].
    eapply reads_bind; [exact (hd_get m A FTs0 4 _ RP ltac:(discriminate) eq_refl eq_refl)|].
    replace (v_buf E (a_cur A) + D_TS + 4) with (v_buf E (a_cur A) + hoff FTs1) by (unfold D_TS; cbn [hoff]; lia).
    eapply reads_bind; [exact (hd_get m A FTs1 4 _ RP ltac:(discriminate) eq_refl eq_refl)|].
    cbn [hval]. rewrite <- surjective_pairing. apply reads_pure.
  - apply reads_ret. eapply reads_bind; [exact (rd_dat E rest m A RP)|].
    eapply reads_bind; [exact (hd_get m A FDur0 4 _ RP ltac:(discriminate) eq_refl eq_refl)|].
    replace (v_buf E (a_cur A) + D_DUR + 4) with (v_buf E (a_cur A) + hoff FDur1) by (unfold D_DUR; cbn [hoff]; lia).
    eapply reads_bind; [exact (hd_get m A FDur1 4 _ RP ltac:(discriminate) eq_refl eq_refl)|].
    cbn [hval]. rewrite <- surjective_pairing. apply reads_pure.
  - apply reads_ret. eapply reads_bind; [exact (rd_dat E rest m A RP)|].
    eapply reads_bind; [exact (hd_get m A FFlags 4 _ RP ltac:(discriminate) eq_refl eq_refl)|]. apply reads_pure.
  - apply reads_ret. exact (rd_field E OK rest m A LUid 4 _ RP I eq_refl eq_refl S3).
  - apply reads_ret. exact (rd_field E OK rest m A LGid 4 _ RP I eq_refl eq_refl S4).
  - apply reads_ret. exact (rd_field E OK rest m A LPerm 4 _ RP I eq_refl eq_refl S5).
Qed.
End Tx.
