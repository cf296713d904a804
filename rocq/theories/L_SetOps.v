(** The operations on a set carry out the abstract ones. *)
From Verif Require Import Bytes M_Set S_Set L_SetMem L_SetLay L_SetCreate L_SetInit L_SetTop L_SetMake L_SetRep.
Local Open Scope N_scope.

Lemma abort_bind {A B} (p : prog A) (k : A -> prog B) m : wp p (fun a m' => k a m' = Abort) m -> bind p k m = Abort.
Proof. unfold wp, bind. destruct (p m); tauto. Qed.
Definition reads {A} (p : prog A) (v : A) (m : st) : Prop := wp p (fun r m' => r = v /\ m' = m) m.
Lemma reads_ret {A} (p : prog A) v m : reads p v m <-> p m = Ret v m.
Proof.
  unfold reads, wp. destruct (p m) as [a m'| |]; split; try tauto; try discriminate.
  - intros [-> ->]. reflexivity.
  - intros [= -> ->]. auto.
Qed.
Lemma wp_reads {A B} (p : prog A) v (k : A -> prog B) (Q : B -> st -> Prop) m :
  reads p v m -> wp (k v) Q m -> wp (bind p k) Q m.
Proof. rewrite reads_ret. intros H HQ. unfold wp, bind in *. rewrite H. exact HQ. Qed.
Lemma abort_reads {A B} (p : prog A) v (k : A -> prog B) m : reads p v m -> k v m = Abort -> bind p k m = Abort.
Proof. rewrite reads_ret. intros H HQ. unfold bind. now rewrite H. Qed.
Lemma reads_bind {A B} (p : prog A) v (k : A -> prog B) w m : reads p v m -> reads (k v) w m -> reads (bind p k) w m.
Proof. unfold reads at 2 3. apply wp_reads. Qed.
Lemma reads_pure {A} (v : A) m : reads (ret v) v m.
Proof. apply wp_ret. auto. Qed.
Lemma reads_ld n a m v : a + N.of_nat n <= msz m -> num m a n = v -> reads (ld n a) v m.
Proof. intros H1 H2. apply wp_ld; auto. Qed.
Lemma reads_fld {A} (f : st -> A) m : reads (fld f) (f m) m.
Proof. apply wp_fld. auto. Qed.

Section Ops.
Variable E : env.
Hypothesis OK : ok_env E.
Notation es := (v_es E).
Variable rest : N -> N.
Notation R := (repr E rest).

Lemma at_nth i k e : at_idx es i = Some (k, e) -> nth_error es k = Some e /\ (0 <= i)%Z /\ k = Z.to_nat i.
Proof.
  unfold at_idx. destruct (Z.leb_spec 0 i); [|discriminate].
  destruct (nth_error es (Z.to_nat i)) as [e'|] eqn:H1; [|discriminate]. intros [= <- <-]. auto.
Qed.
Lemma at_none i : at_idx es i = None -> (i < 0)%Z \/ (Z.of_N (v_c E) <= i)%Z.
Proof.
  unfold at_idx, v_c. destruct (Z.leb_spec 0 i); [|auto].
  destruct (nth_error es (Z.to_nat i)) as [e'|] eqn:H1; [discriminate|]. intros _. right.
  apply nth_error_None in H1. lia.
Qed.

Section State.
Variables (m : st) (A : aset).
Hypothesis RP : R m A.
Let ST := rp_static E rest m A RP.

Lemma p_msz : msz m = v_tot E. Proof. apply ST. Qed.
Lemma p_h : hstat m (v_c E) (v_ms E) (v_bs E) (v_hsz E) (v_ac E) (v_inst E) (v_sname E) (v_dig E).
Proof. apply ST. Qed.
Lemma p_low a n : a + N.of_nat n <= 140 -> a + N.of_nat n <= msz m.
Proof. rewrite p_msz. pose proof (e_ms_ge E OK). pose proof (e_D0 E). unfold H_DICT in *. lia. Qed.
Lemma p_cur : a_cur A < v_ac E.
Proof. rewrite <- (rp_cur E rest m A RP). apply ST. Qed.
Lemma p_dat : dat m = v_buf E (a_cur A).
Proof. rewrite <- (rp_cur E rest m A RP). apply ST. Qed.

Lemma desc_get_some i k e : at_idx es i = Some (k, e) -> reads (desc_get i) (Some (v_doff E (pos E k))) m.
Proof.
  intros H. destruct (at_nth i k e H) as (Hk & Hi & Ek). destruct (split_at E k e Hk) as [HS HL].
  pose proof (nth_len E k e Hk) as HN. unfold desc_get.
  eapply reads_bind; [apply reads_ld; [apply p_low; ubody; lia|exact (h_card _ _ _ _ _ _ _ _ _ p_h)]|].
  destruct (Z.leb_spec 0 i); [|lia]. destruct (Z.ltb_spec i (Z.of_N (v_c E))); [|unfold v_c in *; lia]. cbn [andb].
  eapply reads_bind; [apply reads_ld; [|]|apply reads_pure].
  - rewrite p_msz. pose proof (e_ms_ge E OK). pose proof (e_D0 E). unfold H_DICT, v_c in *. lia.
  - destruct ST as ((_ & DA & _) & _). destruct (DA _ _ _ HS) as [D _]. rewrite HL in D.
    replace (Z.to_N i) with (N.of_nat k) by lia. exact D.
Qed.
Lemma desc_get_none i : at_idx es i = None -> reads (desc_get i) None m.
Proof.
  intros H. apply at_none in H. unfold desc_get.
  eapply reads_bind; [apply reads_ld; [apply p_low; ubody; lia|exact (h_card _ _ _ _ _ _ _ _ _ p_h)]|].
  destruct (Z.leb_spec 0 i), (Z.ltb_spec i (Z.of_N (v_c E))); cbn [andb]; try apply reads_pure. lia.
Qed.

Section At.
Variables (k : nat) (e : entry).
Hypothesis Hk : nth_error es k = Some e.
Let vd := v_doff E (pos E k).
Let HS := proj1 (split_at E k e Hk).

Lemma at_room : vd + 28 <= msz m.
Proof. rewrite p_msz. pose proof (e_doff E OK _ _ _ HS). pose proof (e_ms_ge E OK). unfold vd. lia. Qed.
Lemma at_body : desc_body m vd (base e).
Proof. destruct ST as ((_ & DA & _) & _). destruct (DA _ _ _ HS) as [_ D]. exact D. Qed.
Lemma rd_flags : reads (ld 1 (vd + VD_FLAGS)) (md_flags (base e)) m.
Proof. pose proof at_room. apply reads_ld; [unfold VD_FLAGS; lia|apply at_body]. Qed.
Lemma rd_type : reads (ld 1 (vd + VD_TYPE)) (md_type (base e)) m.
Proof. pose proof at_room. apply reads_ld; [unfold VD_TYPE; lia|apply at_body]. Qed.
Lemma rd_count : reads (ld 4 (vd + VD_COUNT)) (md_count (base e)) m.
Proof. pose proof at_room. apply reads_ld; [unfold VD_COUNT; lia|apply at_body]. Qed.
Lemma rd_off : reads (ld 4 (vd + VD_OFF)) (if data_e e then voff (pos E k) else v_moff E (pos E k)) m.
Proof.
  pose proof at_room. apply reads_ld; [unfold VD_OFF; lia|].
  destruct ST as ((_ & _ & DO & _) & _). exact (DO _ _ _ HS).
Qed.
Lemma rd_dat : reads (fld dat) (v_buf E (a_cur A)) m.
Proof. rewrite <- p_dat. apply reads_fld. Qed.

(** Where the value to write is. *)
Definition vloc : loc := if data_e e then LV (a_cur A) k else LM k.
Lemma mval_set_at i : at_idx es i = Some (k, e) -> reads (mval_to_set i) (Some (addr E vloc, vd)) m.
Proof.
  intros H. unfold mval_to_set.
  eapply reads_bind; [exact (desc_get_some i k e H)|]. fold vd.
  eapply reads_bind; [exact rd_flags|]. eapply reads_bind; [exact rd_off|]. eapply reads_bind; [exact rd_dat|].
  change (is_data (md_flags (base e))) with (data_e e). unfold vloc. destruct (data_e e); apply reads_pure.
Qed.
End At.
Lemma mval_set_none i : at_idx es i = None -> reads (mval_to_set i) None m.
Proof. intros H. unfold mval_to_set. eapply reads_bind; [exact (desc_get_none i H)|]. apply reads_pure. Qed.
End State.

(** Generation numbers. *)
Lemma small_bump e A : small E A -> small E (bump e A).
Proof.
  intros (H1 & H2 & H3). unfold bump. destruct (in_data e).
  - split; [|split; [exact H2|exact H3]]. intros b f Hb Hf. cbn. unfold fN. destruct (N.eqb_spec b (a_cur A)) as [->|].
    + specialize (H1 (a_cur A) f Hb Hf). destruct f; try exact H1. cbn [hval h_gn]. apply N.mod_lt. discriminate.
    + exact (H1 b f Hb Hf).
  - unfold bump_meta. split; [|split; [|exact H3]].
    + intros b f Hb Hf. cbn. unfold fN. destruct (N.eqb_spec b (a_cur A)) as [->|].
      * specialize (H1 (a_cur A) f Hb Hf). destruct f; try exact H1. cbn [hval h_mgn]. apply N.mod_lt. discriminate.
      * exact (H1 b f Hb Hf).
    + cbn. apply N.mod_lt. discriminate.
Qed.

Lemma bump_data_ok m A : R m A -> forall g, g = h_gn (now A) ->
  num m (v_buf E (a_cur A) + D_GN) 8 = g /\ R (upd m (v_buf E (a_cur A) + D_GN) (le 8 (g + 1))) (bump_data A).
Proof.
  intros RP g ->. pose proof (p_cur m A RP) as HC. pose proof (rp_small E rest m A RP) as SM.
  assert (V : valid E (LH FGn (a_cur A))) by exact HC.
  split.
  - apply (repr_num E rest m A (LH FGn (a_cur A)) _ 8 RP V eq_refl); [reflexivity|].
    exact (proj1 SM (a_cur A) FGn HC ltac:(discriminate)).
  - apply (repr_set E OK rest m A (bump_data A) (LH FGn (a_cur A)) _ 8 RP V eq_refl); try reflexivity.
    + pose proof (small_bump (Plain (mkMdef [] None 0 1 0 0 0)) A SM) as S1. exact S1.
    + cbn. unfold fN. rewrite N.eqb_refl. cbn [h_gn]. unfold now. apply (le_mod 8 (h_gn (a_hd A (a_cur A)) + 1)).
    + intros l' V' N. destruct l' as [| | | |f b|b k|k|k]; try reflexivity. cbn. unfold fN.
      destruct (N.eqb_spec b (a_cur A)) as [->|]; [|reflexivity]. destruct f; try reflexivity. now destruct N.
Qed.

Lemma R_static m A : R m A -> static E m. Proof. apply rp_static. Qed.
Lemma R_handle m A : R m A -> handle_ok E m. Proof. intros H. exact (proj2 (proj2 (rp_static E rest m A H))). Qed.
Lemma R_fits m A l : R m A -> valid E l -> addr E l + N.of_nat (size E l) <= msz m.
Proof. intros H V. exact (addr_msz E OK l m (R_handle m A H) V). Qed.

Lemma wp_field m A A' l n v (Q : unit -> st -> Prop) : R m A -> valid E l -> size E l = n ->
  a_cur A' = a_cur A -> a_copy A' = a_copy A -> small E A' -> content A' l = le n v ->
  (forall l', valid E l' -> l' <> l -> content A' l' = content A l') ->
  (forall m', R m' A' -> Q tt m') -> wp (sto n (addr E l) v) Q m.
Proof.
  intros RP V Hn HC HP HS Hl Ho HQ. apply wp_sto.
  - rewrite <- Hn. exact (R_fits m A l RP V).
  - apply HQ. exact (repr_set E OK rest m A A' l v n RP V Hn HC HP HS Hl Ho).
Qed.
Lemma rd_field m A l n v : R m A -> valid E l -> size E l = n -> content A l = le n v -> v < 256 ^ N.of_nat n ->
  reads (ld n (addr E l)) v m.
Proof.
  intros RP V Hn Hc Hv. apply reads_ld.
  - rewrite <- Hn. exact (R_fits m A l RP V).
  - exact (repr_num E rest m A l v n RP V Hn Hc Hv).
Qed.

Definition set_mgn (g : N) (A : aset) : aset :=
  mkA (a_cur A) (a_copy A) (a_hd A) (a_val A) (a_mval A) (a_user A) g (a_uid A) (a_gid A) (a_perm A).

Lemma data_inc_ok m A (Q : unit -> st -> Prop) : R m A -> (forall m', R m' (bump_data A) -> Q tt m') ->
  wp (g <- ld 8 (v_buf E (a_cur A) + D_GN) ;; sto 8 (v_buf E (a_cur A) + D_GN) (g + 1)) Q m.
Proof.
  intros RP HQ. destruct (bump_data_ok m A RP _ eq_refl) as [Hn HR].
  assert (V : valid E (LH FGn (a_cur A))) by exact (p_cur m A RP).
  pose proof (R_fits m A _ RP V) as HF. cbn [addr size hoff hsize] in HF. change (N.of_nat 8) with 8 in HF.
  apply (wp_reads _ (h_gn (now A))); [apply reads_ld; [exact HF|exact Hn]|].
  apply wp_sto; [exact HF|]. apply HQ, HR.
Qed.
Lemma meta_inc_core m A (K : N -> prog unit) (Q : unit -> st -> Prop) : R m A ->
  (forall m1 g, g = (a_mgn A + 1) mod B64 -> R m1 (set_mgn g A) -> wp (K g) Q m1) ->
  wp (g <- ld 8 H_GN ;; sto 8 H_GN (g + 1) ;; g' <- ld 8 H_GN ;; K g') Q m.
Proof.
  intros RP HQ. pose proof (rp_small E rest m A RP) as SM. pose proof SM as (S1 & S2 & S3).
  apply (wp_reads _ (a_mgn A)); [exact (rd_field m A LGn 8 _ RP I eq_refl eq_refl S2)|].
  set (g := (a_mgn A + 1) mod B64).
  assert (Hg : g < B64) by (apply N.mod_lt; discriminate).
  assert (SM1 : small E (set_mgn g A)) by (split; [exact S1|]; split; [exact Hg|exact S3]).
  apply wp_bind. apply (wp_field m A (set_mgn g A) LGn 8 _ _ RP I eq_refl eq_refl eq_refl SM1).
  { cbn. exact (le_mod 8 (a_mgn A + 1)). }
  { intros l' V' N. destruct l'; try reflexivity. now destruct N. }
  intros m1 R1.
  apply (wp_reads _ g); [exact (rd_field m1 _ LGn 8 _ R1 I eq_refl eq_refl Hg)|].
  exact (HQ m1 g eq_refl R1).
Qed.
Lemma meta_hdr_ok m A m1 g (Q : unit -> st -> Prop) : R m A -> g = (a_mgn A + 1) mod B64 -> R m1 (set_mgn g A) ->
  (forall m', R m' (bump_meta A) -> Q tt m') -> wp (sto 8 (v_buf E (a_cur A) + D_META_GN) g) Q m1.
Proof.
  intros RP -> R1 HQ. pose proof (rp_small E rest m A RP) as SM.
  assert (V : valid E (LH FMgn (a_cur A))) by exact (p_cur m A RP).
  apply (wp_field m1 _ (bump_meta A) (LH FMgn (a_cur A)) 8 _ _ R1 V eq_refl eq_refl eq_refl); [| | |exact HQ].
  - exact (small_bump (Plain (mkMdef [] None 0 0 0 0 0)) A SM).
  - cbn. unfold fN. now rewrite N.eqb_refl.
  - intros l' V' N. destruct l' as [| | | |f b|b k|k|k]; try reflexivity. cbn. unfold fN.
    destruct (N.eqb_spec b (a_cur A)) as [->|]; [|reflexivity]. destruct f; try reflexivity. now destruct N.
Qed.
Lemma gn_inc_ok m A k e (Q : unit -> st -> Prop) : R m A -> nth_error es k = Some e ->
  (forall m', R m' (bump e A) -> Q tt m') -> wp (gn_inc (v_doff E (pos E k))) Q m.
Proof.
  intros RP Hk HQ. unfold gn_inc.
  apply (wp_reads _ (md_flags (base e))); [exact (rd_flags m A RP k e Hk)|].
  change (is_data (md_flags (base e))) with (in_data e). unfold bump in HQ. destruct (in_data e).
  - apply (wp_reads _ _ _ _ _ (rd_dat m A RP)). exact (data_inc_ok m A Q RP HQ).
  - apply (wp_reads _ _ _ _ _ (rd_dat m A RP)). apply (meta_inc_core m A _ Q RP).
    intros m1 g Hg R1. exact (meta_hdr_ok m A m1 g Q RP Hg R1 HQ).
Qed.

(** Values. *)
Definition setv (e : entry) (k : nat) (off : N) (bs : list byte) (A : aset) : aset :=
  if in_data e then
    mkA (a_cur A) (a_copy A) (a_hd A)
      (fN (a_val A) (a_cur A) (fn (a_val A (a_cur A)) k (splice (N.to_nat off) bs (a_val A (a_cur A) k))))
      (a_mval A) (a_user A) (a_mgn A) (a_uid A) (a_gid A) (a_perm A)
  else
    mkA (a_cur A) (a_copy A) (a_hd A) (a_val A)
      (fn (a_mval A) k (splice (N.to_nat off) bs (a_mval A k)))
      (a_user A) (a_mgn A) (a_uid A) (a_gid A) (a_perm A).
Lemma put_setv e k off bs A : put e k off bs A = bump e (setv e k off bs A).
Proof. reflexivity. Qed.
Lemma setv_cur e k off bs A : a_cur (setv e k off bs A) = a_cur A /\ a_copy (setv e k off bs A) = a_copy A.
Proof. unfold setv. destruct (in_data e); auto. Qed.
Lemma setv_small e k off bs A : small E A -> small E (setv e k off bs A).
Proof. unfold setv. destruct (in_data e); intros H; exact H. Qed.
Lemma setv_content e k off bs A : content (setv e k off bs A) (vloc A k e) = splice (N.to_nat off) bs (content A (vloc A k e)).
Proof.
  unfold setv, vloc. change (data_e e) with (in_data e). destruct (in_data e); cbn; unfold fN, fn.
  - now rewrite N.eqb_refl, Nat.eqb_refl.
  - now rewrite Nat.eqb_refl.
Qed.
Lemma setv_other e k off bs A l : l <> vloc A k e -> content (setv e k off bs A) l = content A l.
Proof.
  unfold setv, vloc. change (data_e e) with (in_data e). intros N. destruct (in_data e);
    destruct l as [| | | |f b|b k'|k'|k']; try reflexivity; cbn; unfold fN, fn.
  - destruct (N.eqb_spec b (a_cur A)) as [->|]; [|reflexivity]. destruct (Nat.eqb_spec k' k) as [->|]; [|reflexivity].
    now destruct N.
  - destruct (Nat.eqb_spec k' k) as [->|]; [|reflexivity]. now destruct N.
Qed.
Definition not_type (e : entry) : Prop := forall r, e <> RecT r.
Lemma vloc_valid m A k e : R m A -> nth_error es k = Some e -> not_type e -> valid E (vloc A k e).
Proof.
  intros RP Hk Hn. unfold vloc. destruct (data_e e) eqn:Hd.
  - split; [exact (p_cur m A RP)|]. eauto.
  - destruct e as [d|r|d rt isz]; [exists d; auto|now destruct (Hn r)|].
    destruct (split_at E k _ Hk) as [HS _]. destruct (ra_in E OK _ _ _ _ _ HS) as (_ & _ & _ & _ & _ & H). congruence.
Qed.
Lemma vloc_size A k e : nth_error es k = Some e -> not_type e -> size E (vloc A k e) = N.to_nat (room e).
Proof.
  intros Hk Hn. destruct (split_at E k _ Hk) as [HS _].
  rewrite (room_md e (e_wf E OK _ _ _ HS) Hn). unfold vloc.
  destruct (data_e e); cbn [size]; now rewrite (slot_at E k e Hk).
Qed.
Lemma setv_ok m A k e off bs : R m A -> nth_error es k = Some e -> not_type e -> off + blen bs <= room e ->
  R (upd m (addr E (vloc A k e) + off) bs) (setv e k off bs A).
Proof.
  intros RP Hk Hn Ho. rewrite <- (N2Nat.id off) at 1.
  destruct (setv_cur e k off bs A) as [H1 H2].
  apply (repr_write E OK rest m A (setv e k off bs A) (vloc A k e)); auto.
  - exact (vloc_valid m A k e RP Hk Hn).
  - rewrite (vloc_size A k e Hk Hn). unfold blen in Ho. lia.
  - apply setv_small, (rp_small E rest m A RP).
  - apply setv_content.
  - intros l' _ N. now apply setv_other.
Qed.
Lemma val_room m A k e off bs : R m A -> nth_error es k = Some e -> not_type e -> off + blen bs <= room e ->
  addr E (vloc A k e) + off + blen bs <= msz m.
Proof.
  intros RP Hk Hn Ho. pose proof (R_fits m A _ RP (vloc_valid m A k e RP Hk Hn)) as H.
  rewrite (vloc_size A k e Hk Hn), N2Nat.id in H. lia.
Qed.
Lemma put_ok m A k e off bs (Q : unit -> st -> Prop) : R m A -> nth_error es k = Some e -> not_type e ->
  off + blen bs <= room e -> (forall m', R m' (put e k off bs A) -> Q tt m') ->
  wp (store (addr E (vloc A k e) + off) bs ;; gn_inc (v_doff E (pos E k))) Q m.
Proof.
  intros RP Hk Hn Ho HQ. apply wp_bind, wp_store; [exact (val_room m A k e off bs RP Hk Hn Ho)|].
  apply (gn_inc_ok _ _ k e Q (setv_ok m A k e off bs RP Hk Hn Ho) Hk). exact HQ.
Qed.
Lemma a_put_inv k e off bs a : a_put k e off bs = Some a -> a = RPut k e off bs /\ not_type e /\ off + blen bs <= room e.
Proof.
  intros H.
  assert (H' : (if off + blen bs <=? room e then Some (RPut k e off bs) else None) = Some a /\ not_type e).
  { unfold a_put in H. destruct e as [d|r|d rt isz]; [|discriminate|]; (split; [exact H|intros r'; discriminate]). }
  destruct H' as [H1 H2]. destruct (N.leb_spec (off + blen bs) (room e)); [|discriminate].
  injection H1 as H1. split; [symmetry; exact H1|]. auto.
Qed.

(** What an operation does. *)
Definition carries (o : op) (a : act) (m : st) (A : aset) : Prop :=
  match a with
  | RAbort => do_op o m = Abort
  | RBegin _ => exists m', do_op o m = Ret tt m' /\ repr E (mb m') m' (effect (v_ac E) a A)
  | _ => exists m', do_op o m = Ret tt m' /\ R m' (effect (v_ac E) a A)
  end.
Lemma carries_wp o a m A : a <> RAbort -> wp (do_op o) (fun _ m' => R m' (effect (v_ac E) a A)) m -> carries o a m A.
Proof.
  intros Ha H. destruct (wp_res _ _ _ H) as ([] & m' & E1 & E2). unfold carries. destruct a; try (now destruct Ha); eauto using repr_any.
Qed.

Ltac at_case i k e HI := destruct (at_idx es i) as [[k e]|] eqn:HI.

Lemma set_w_ok m A w i v a : R m A -> action es (OSetW w i v) = Some a -> carries (OSetW w i v) a m A.
Proof.
  intros RP H. cbn [action] in H. at_case i k e HI.
  - destruct (is_width w); [|discriminate]. apply a_put_inv in H. destruct H as (-> & Hn & Ho).
    apply carries_wp; [discriminate|]. cbn [do_op]. unfold metric_set_w. pose proof (proj1 (at_nth i k e HI)) as Hk.
    apply (wp_reads _ _ _ _ _ (mval_set_at m A RP k e Hk i HI)). rewrite <- (N.add_0_r (addr E _)).
    apply (put_ok m A k e 0 _ _ RP Hk Hn Ho). auto.
  - injection H as <-. cbn. apply (abort_reads _ _ _ _ (mval_set_none m A RP i HI)). reflexivity.
Qed.
Lemma set_ok m A i v a : R m A -> action es (OSet i v) = Some a -> carries (OSet i v) a m A.
Proof.
  intros RP H. cbn [action] in H. at_case i k e HI.
  - pose proof (proj1 (at_nth i k e HI)) as Hk. rewrite elem_width, array_type_eq in H.
    destruct (type_is_array (md_type (base e))) eqn:HT; [|destruct (width (md_type (base e))) as [w|] eqn:HW].
    + injection H as <-. cbn [carries do_op]. unfold metric_set.
      apply (abort_reads _ _ _ _ (mval_set_at m A RP k e Hk i HI)). apply (abort_reads _ _ _ _ (rd_type m A RP k e Hk)).
      now rewrite HT.
    + apply a_put_inv in H. destruct H as (-> & Hn & Ho). apply carries_wp; [discriminate|]. cbn [do_op]. unfold metric_set.
      apply (wp_reads _ _ _ _ _ (mval_set_at m A RP k e Hk i HI)). apply (wp_reads _ _ _ _ _ (rd_type m A RP k e Hk)).
      rewrite HT, HW. rewrite <- (N.add_0_r (addr E _)). apply (put_ok m A k e 0 _ _ RP Hk Hn Ho). auto.
    + injection H as <-. cbn [carries do_op]. unfold metric_set.
      apply (abort_reads _ _ _ _ (mval_set_at m A RP k e Hk i HI)). apply (abort_reads _ _ _ _ (rd_type m A RP k e Hk)).
      now rewrite HT, HW.
  - injection H as <-. cbn. apply (abort_reads _ _ _ _ (mval_set_none m A RP i HI)). reflexivity.
Qed.
Lemma arr_val_ok m A i j v a : R m A -> action es (OArrVal i j v) = Some a -> carries (OArrVal i j v) a m A.
Proof.
  intros RP H. cbn [action] in H. at_case i k e HI.
  - pose proof (proj1 (at_nth i k e HI)) as Hk. rewrite elem_width, array_type_eq in H.
    destruct ((j <? 0)%Z || (Z.of_N (md_count (base e)) <=? j)%Z) eqn:HJ.
    { injection H as <-. cbn [carries do_op]. unfold metric_array_set_val.
      apply (abort_reads _ _ _ _ (mval_set_at m A RP k e Hk i HI)). apply (abort_reads _ _ _ _ (rd_count m A RP k e Hk)).
      now rewrite HJ. }
    destruct (type_is_array (md_type (base e))) eqn:HT; [destruct (width (md_type (base e))) as [w|] eqn:HW|].
    + apply a_put_inv in H. destruct H as (-> & Hn & Ho). apply carries_wp; [discriminate|]. cbn [do_op]. unfold metric_array_set_val.
      apply (wp_reads _ _ _ _ _ (mval_set_at m A RP k e Hk i HI)). apply (wp_reads _ _ _ _ _ (rd_count m A RP k e Hk)).
      rewrite HJ. apply (wp_reads _ _ _ _ _ (rd_type m A RP k e Hk)).
      rewrite HT, HW. apply (put_ok m A k e _ _ _ RP Hk Hn Ho). auto.
    + injection H as <-. cbn [carries do_op]. unfold metric_array_set_val.
      apply (abort_reads _ _ _ _ (mval_set_at m A RP k e Hk i HI)). apply (abort_reads _ _ _ _ (rd_count m A RP k e Hk)).
      rewrite HJ. apply (abort_reads _ _ _ _ (rd_type m A RP k e Hk)). now rewrite HT, HW.
    + injection H as <-. cbn [carries do_op]. unfold metric_array_set_val.
      apply (abort_reads _ _ _ _ (mval_set_at m A RP k e Hk i HI)). apply (abort_reads _ _ _ _ (rd_count m A RP k e Hk)).
      rewrite HJ. apply (abort_reads _ _ _ _ (rd_type m A RP k e Hk)). now rewrite HT.
  - injection H as <-. cbn. apply (abort_reads _ _ _ _ (mval_set_none m A RP i HI)). reflexivity.
Qed.
Lemma arr_w_ok m A w i j v a : R m A -> action es (OArrW w i j v) = Some a -> carries (OArrW w i j v) a m A.
Proof.
  intros RP H. cbn [action] in H. at_case i k e HI.
  - pose proof (proj1 (at_nth i k e HI)) as Hk.
    assert (AB : (j mod 4294967296 <? Z.of_N (md_count (base e)))%Z = false -> carries (OArrW w i j v) RAbort m A).
    { intros HJ. cbn [carries do_op]. unfold metric_array_set_w.
      apply (abort_reads _ _ _ _ (mval_set_at m A RP k e Hk i HI)). apply (abort_reads _ _ _ _ (rd_count m A RP k e Hk)).
      now rewrite HJ. }
    destruct (Z.ltb_spec j 0) as [Hj|Hj].
    { destruct (Z.leb_spec (-2147483648) j), (Z.leb_spec (Z.of_N (md_count (base e))) 2147483648); try discriminate.
      cbn [andb] in H. injection H as <-. apply AB. apply Z.ltb_ge.
      replace (j mod 4294967296)%Z with (j + 4294967296)%Z; [lia|].
      apply (Zmod_unique _ _ (-1)); lia. }
    destruct (Z.leb_spec 2147483648 j); [discriminate|].
    assert (EJ : (j mod 4294967296)%Z = j) by (apply Z.mod_small; lia).
    destruct (Z.leb_spec (Z.of_N (md_count (base e))) j).
    { injection H as <-. apply AB. apply Z.ltb_ge. lia. }
    destruct (is_width w); [|discriminate]. apply a_put_inv in H. destruct H as (-> & Hn & Ho).
    apply carries_wp; [discriminate|]. cbn [do_op]. unfold metric_array_set_w.
    apply (wp_reads _ _ _ _ _ (mval_set_at m A RP k e Hk i HI)). apply (wp_reads _ _ _ _ _ (rd_count m A RP k e Hk)).
    rewrite EJ. destruct (Z.ltb_spec j (Z.of_N (md_count (base e)))); [|lia]. destruct (Z.ltb_spec j 0); [lia|].
    apply (put_ok m A k e _ _ _ RP Hk Hn Ho). auto.
  - injection H as <-. cbn. apply (abort_reads _ _ _ _ (mval_set_none m A RP i HI)). reflexivity.
Qed.
Lemma str_ok m A i str a : R m A -> action es (OStr i str) = Some a -> carries (OStr i str) a m A.
Proof.
  intros RP H. cbn [action] in H. at_case i k e HI.
  - pose proof (proj1 (at_nth i k e HI)) as Hk. apply a_put_inv in H. destruct H as (-> & Hn & Ho).
    apply carries_wp; [discriminate|]. cbn [do_op]. unfold metric_array_set_str.
    apply (wp_reads _ _ _ _ _ (mval_set_at m A RP k e Hk i HI)). apply (wp_reads _ _ _ _ _ (rd_count m A RP k e Hk)).
    rewrite <- (N.add_0_r (addr E _)). apply (put_ok m A k e _ _ _ RP Hk Hn Ho). auto.
  - injection H as <-. cbn. apply (abort_reads _ _ _ _ (mval_set_none m A RP i HI)). reflexivity.
Qed.
Lemma user_ok m A i u a : R m A -> action es (OUser i u) = Some a -> carries (OUser i u) a m A.
Proof.
  intros RP H. cbn [action] in H. at_case i k e HI.
  - pose proof (proj1 (at_nth i k e HI)) as Hk. injection H as <-. apply carries_wp; [discriminate|].
    cbn [do_op effect]. unfold user_data_set. apply (wp_reads _ _ _ _ _ (desc_get_some m A RP i k e HI)).
    set (A1 := mkA _ _ _ _ _ _ _ _ _ _). apply wp_bind. rewrite N.add_0_r.
    assert (V : valid E (LU k)) by (exists e; exact Hk).
    apply (wp_field m A A1 (LU k) 8 u _ RP V eq_refl eq_refl eq_refl).
    + destruct (rp_small E rest m A RP) as (S1 & S2 & S3 & S4 & S5 & S6). repeat (split; [assumption|]).
      intros k'. cbn. unfold fn. destruct (k' =? k)%nat; [apply N.mod_lt; discriminate|apply S6].
    + cbn. unfold fn. rewrite Nat.eqb_refl. exact (le_mod 8 u).
    + intros l' V' N. destruct l' as [| | | |f b|b k'|k'|k']; try reflexivity. cbn. unfold fn.
      destruct (Nat.eqb_spec k' k) as [->|]; [now destruct N|reflexivity].
    + intros m1 R1. apply (gn_inc_ok m1 A1 k e _ R1 Hk). auto.
  - injection H as <-. cbn. exists m. split; [|exact RP]. unfold user_data_set.
    unfold bind. rewrite (proj1 (reads_ret _ _ _) (desc_get_none m A RP i HI)). reflexivity.
Qed.
Lemma modify_ok m A i a : R m A -> action es (OModify i) = Some a -> carries (OModify i) a m A.
Proof.
  intros RP H. cbn [action] in H. at_case i k e HI; [|discriminate].
  pose proof (proj1 (at_nth i k e HI)) as Hk. injection H as <-. apply carries_wp; [discriminate|].
  cbn [do_op effect]. unfold metric_modify, dict_raw.
  apply wp_bind. apply (wp_reads _ _ _ _ _ (desc_get_some m A RP i k e HI)). apply wp_ret.
  apply (gn_inc_ok m A k e _ RP Hk). auto.
Qed.
Definition set_auth (u g p : N) (A : aset) : aset :=
  mkA (a_cur A) (a_copy A) (a_hd A) (a_val A) (a_mval A) (a_user A) (a_mgn A) u g p.
Lemma small_auth u g p A : small E A -> u < B32 -> g < B32 -> p < B32 -> small E (set_auth u g p A).
Proof. intros (S1 & S2 & S3 & S4 & S5 & S6) H1 H2 H3. repeat (split; [assumption|]). exact S6. Qed.
Lemma mod_b32 v : v mod B32 < B32. Proof. apply N.mod_lt. discriminate. Qed.
Lemma uid_ok m A v (Q : unit -> st -> Prop) : R m A ->
  (forall m', R m' (set_auth (v mod B32) (a_gid A) (a_perm A) A) -> Q tt m') -> wp (uid_set v) Q m.
Proof.
  intros RP HQ. pose proof (rp_small E rest m A RP) as SM. pose proof SM as (S1 & S2 & S3 & S4 & S5 & S6).
  apply (wp_field m A (set_auth (v mod B32) (a_gid A) (a_perm A) A) LUid 4 v _ RP I eq_refl eq_refl eq_refl (small_auth (v mod B32) _ _ A SM (mod_b32 v) S4 S5)); [| |exact HQ].
  - exact (le_mod 4 v).
  - intros l' V' N. destruct l'; try reflexivity. now destruct N.
Qed.
Lemma gid_ok m A v (Q : unit -> st -> Prop) : R m A ->
  (forall m', R m' (set_auth (a_uid A) (v mod B32) (a_perm A) A) -> Q tt m') -> wp (gid_set v) Q m.
Proof.
  intros RP HQ. pose proof (rp_small E rest m A RP) as SM. pose proof SM as (S1 & S2 & S3 & S4 & S5 & S6).
  apply (wp_field m A (set_auth (a_uid A) (v mod B32) (a_perm A) A) LGid 4 v _ RP I eq_refl eq_refl eq_refl (small_auth _ (v mod B32) _ A SM S3 (mod_b32 v) S5)); [| |exact HQ].
  - exact (le_mod 4 v).
  - intros l' V' N. destruct l'; try reflexivity. now destruct N.
Qed.
Lemma perm_ok m A v (Q : unit -> st -> Prop) : R m A ->
  (forall m', R m' (set_auth (a_uid A) (a_gid A) (v mod B32) A) -> Q tt m') -> wp (perm_set v) Q m.
Proof.
  intros RP HQ. pose proof (rp_small E rest m A RP) as SM. pose proof SM as (S1 & S2 & S3 & S4 & S5 & S6).
  apply (wp_field m A (set_auth (a_uid A) (a_gid A) (v mod B32) A) LPerm 4 v _ RP I eq_refl eq_refl eq_refl (small_auth _ _ (v mod B32) A SM S3 S4 (mod_b32 v))); [| |exact HQ].
  - exact (le_mod 4 v).
  - intros l' V' N. destruct l'; try reflexivity. now destruct N.
Qed.
Lemma auth_ok m A u g p fu fg fp a : R m A -> action es (OAuth u g p fu fg fp) = Some a -> carries (OAuth u g p fu fg fp) a m A.
Proof.
  intros RP H. cbn [action] in H. injection H as <-. apply carries_wp; [discriminate|]. cbn [do_op effect].
  set (u' := match (if fu then Some u else None) with Some v => v mod B32 | None => a_uid A end).
  set (g' := match (if fg then Some g else None) with Some v => v mod B32 | None => a_gid A end).
  set (p' := match (if fp then Some p else None) with Some v => v mod B32 | None => a_perm A end).
  change (mkA _ _ _ _ _ _ _ _ _ _) with (set_auth u' g' p' A). unfold config_auth.
  apply wp_bind. apply (wp_mono _ (fun _ m' => R m' (set_auth u' (a_gid A) (a_perm A) A))).
  { unfold u'. destruct fu; [apply (uid_ok m A u _ RP); auto|]. apply wp_ret. destruct A; exact RP. }
  intros [] m1 R1.
  apply wp_bind. apply (wp_mono _ (fun _ m' => R m' (set_auth u' g' (a_perm A) A))).
  { unfold g'. destruct fg; [apply (gid_ok m1 _ g _ R1); auto|]. apply wp_ret. exact R1. }
  intros [] m2 R2.
  apply wp_bind. apply (wp_mono _ (fun _ m' => R m' (set_auth u' g' p' A))).
  { unfold p'. destruct fp; [apply (perm_ok m2 _ p _ R2); auto|]. apply wp_ret. exact R2. }
  intros [] m3 R3. set (A3 := set_auth u' g' p' A) in *.
  apply (meta_inc_core m3 A3 _ _ R3). intros m4 x Hx R4.
  apply (wp_reads _ _ _ _ _ (rd_dat m4 _ R4)). apply (meta_hdr_ok m3 A3 m4 x _ R3 Hx R4). auto.
Qed.
Lemma ids_ok m A o a : R m A -> (exists v, o = OUid v \/ o = OGid v \/ o = OPerm v) -> action es o = Some a -> carries o a m A.
Proof.
  intros RP (v & [->|[->| ->]]) H; cbn [action] in H; injection H as <-; (apply carries_wp; [discriminate|]); cbn [do_op effect].
  - apply (uid_ok m A v _ RP). auto.
  - apply (gid_ok m A v _ RP). auto.
  - apply (perm_ok m A v _ RP). auto.
Qed.
Lemma static_handle m m' : mb m' = mb m -> static E m -> handle_ok E m' -> static E m'.
Proof.
  intros Hm (SM & SB & SH) H'. split; [|split; [|exact H']].
  - apply (smeta_ext E OK m m'); [|exact SM]. intros x _. now rewrite Hm.
  - intros b Hb. eapply bstat_ext; [|exact (SB b Hb)]. intros x _. now rewrite Hm.
Qed.
Lemma copy_ok m A on a : R m A -> action es (OCopy on) = Some a -> carries (OCopy on) a m A.
Proof.
  intros RP H. cbn [action] in H. injection H as <-. cbn [carries do_op effect]. eexists. split; [reflexivity|].
  destruct RP as [R1 R2 R3 R4 R5]. constructor; try assumption; try reflexivity.
  - apply (static_handle m); [reflexivity|exact R1|]. exact (proj2 (proj2 R1)).
Qed.

(** The element-wise copy. *)
Lemma splice_splice {T} o (a b l : list T) : (o + length a + length b <= length l)%nat ->
  splice (o + length a) b (splice o a l) = splice o (a ++ b) l.
Proof.
  intros H. unfold splice. rewrite app_length.
  rewrite !app_assoc. assert (L : length (firstn o l ++ a) = (o + length a)%nat) by (rewrite app_length, firstn_length; lia).
  rewrite firstn_app, L, Nat.sub_diag, firstn_O, app_nil_r. rewrite (firstn_all2 (n := o + length a)) by lia.
  f_equal. rewrite skipn_app, L. rewrite skipn_all2 by lia. cbn [app].
  rewrite skipn_skipn. f_equal. lia.
Qed.
Lemma setv_setv m A k e off a b : R m A -> nth_error es k = Some e -> not_type e ->
  off + blen a + blen b <= room e ->
  forall m', R m' (setv e k (off + blen a) b (setv e k off a A)) -> R m' (setv e k off (a ++ b) A).
Proof.
  intros RP Hk Hn Ho m' H. pose proof (setv_cur e k off a A) as [C1 C2].
  pose proof (setv_cur e k (off + blen a) b (setv e k off a A)) as [C3 C4].
  pose proof (setv_cur e k off (a ++ b) A) as [C5 C6].
  assert (VL : vloc (setv e k off a A) k e = vloc A k e) by (unfold vloc; now rewrite C1).
  apply (repr_eq E rest m' _ _ H); try congruence.
  - intros l V. destruct (loc_eq l (vloc A k e)) as [->|N].
    + rewrite setv_content. rewrite <- VL at 2. rewrite setv_content, VL, setv_content.
      rewrite N2Nat.inj_add. unfold blen at 1. rewrite Nat2N.id. symmetry. apply splice_splice.
      rewrite (content_length E rest m A _ RP (vloc_valid m A k e RP Hk Hn)), (vloc_size A k e Hk Hn). unfold blen in Ho. lia.
    + rewrite !setv_other; auto. now rewrite VL.
  - apply setv_small, (rp_small E rest m A RP).
Qed.
Lemma concat_le w (l : list N) : length (concat (map (le w) l)) = (w * length l)%nat.
Proof. induction l as [|x l IH]; cbn [map concat length]; [lia|]. rewrite app_length, le_length, IH. lia. Qed.
Lemma slice_cons {T} (l : list T) i n x : nth_error l i = Some x -> slice i (S n) l = x :: slice (S i) n l.
Proof.
  intros H. destruct (nth_split l i x H) as [HS HL]. unfold slice.
  assert (SK : skipn i l = x :: skipn (S i) l).
  { rewrite HS at 1. rewrite skipn_app, HL, Nat.sub_diag. rewrite skipn_all2 by lia. reflexivity. }
  rewrite SK. reflexivity.
Qed.
Lemma loop_ok k e w c src stop n : nth_error es k = Some e -> not_type e ->
  c < 2147483648 -> stop < B64 ->
  forall i fuel A m, i + N.of_nat n = N.max i (N.min stop c) -> i < 2147483648 -> (n < fuel)%nat ->
  (N.to_nat i + n <= length src)%nat -> w * (i + N.of_nat n) <= room e -> R m A ->
  wp (array_set_loop fuel (Z.of_N i) (Z.of_N stop) c w (addr E (vloc A k e)) src)
     (fun _ m' => R m' (setv e k (w * i) (concat (map (le (N.to_nat w)) (slice (N.to_nat i) n src))) A)) m.
Proof.
  intros Hk Hn Hc Hstop. unfold B64 in Hstop.
  induction n as [|n IH]; intros i fuel A m Hi Hb Hf Hs Hr RP; (destruct fuel as [|fuel]; [lia|]); cbn [array_set_loop].
  - rewrite !Z.mod_small by lia.
    destruct (Z.ltb_spec (Z.of_N i) (Z.of_N stop)), (Z.ltb_spec (Z.of_N i) (Z.of_N c)); cbn [andb]; try lia;
      (apply wp_ret; unfold slice; cbn [firstn map concat];
       destruct (setv_cur e k (w * i) [] A) as [C1 C2];
       apply (repr_eq E rest m A _ RP C1 C2); [|apply setv_small, (rp_small E rest m A RP)];
       intros l V; destruct (loc_eq l (vloc A k e)) as [->|N]; [|now apply setv_other];
       rewrite setv_content; unfold splice; cbn [length app]; rewrite Nat.add_0_r; apply firstn_skipn).
  - rewrite !Z.mod_small by lia.
    destruct (Z.ltb_spec (Z.of_N i) (Z.of_N stop)); [|lia]. destruct (Z.ltb_spec (Z.of_N i) (Z.of_N c)); [|lia]. cbn [andb].
    destruct (Z.ltb_spec (Z.of_N i) 0); [lia|].
    replace (Z.to_nat (Z.of_N i)) with (N.to_nat i) by lia. rewrite N2Z.id.
    destruct (nth_error src (N.to_nat i)) as [v|] eqn:Hv; [|apply nth_error_None in Hv; lia].
    assert (W1 : w * i + w * (N.of_nat (S n)) <= room e) by (rewrite <- N.mul_add_distr_l; exact Hr).
    assert (W2 : w * N.of_nat (S n) = w + w * N.of_nat n) by (rewrite Nat2N.inj_succ, N.mul_succ_r; lia).
    assert (LW : blen (le (N.to_nat w) v) = w) by (rewrite blen_le; lia).
    assert (Ho : w * i + blen (le (N.to_nat w) v) <= room e) by (rewrite LW; lia).
    apply wp_bind. unfold sto. apply wp_store; [exact (val_room m A k e _ _ RP Hk Hn Ho)|].
    pose proof (setv_ok m A k e _ _ RP Hk Hn Ho) as R1.
    destruct (Z.eqb_spec (Z.of_N i) 2147483647) as [Q|_]; [lia|].
    set (A1 := setv e k (w * i) (le (N.to_nat w) v) A) in *.
    assert (VL : vloc A1 k e = vloc A k e) by (unfold vloc, A1; now rewrite (proj1 (setv_cur e k _ _ A))).
    replace (Z.of_N i + 1)%Z with (Z.of_N (i + 1)) by lia.
    pose proof (IH (i + 1) fuel A1 _ ltac:(lia) ltac:(lia) ltac:(lia) ltac:(lia)
             ltac:(replace (i + 1 + N.of_nat n) with (i + N.of_nat (S n)) by lia; exact Hr) R1) as IH'.
    rewrite VL in IH'. apply (wp_mono _ _ _ _ IH'). intros _ m' R2. rewrite (slice_cons src _ n v Hv). cbn [map concat].
    replace (N.to_nat (i + 1)) with (S (N.to_nat i)) in R2 by lia.
    apply (setv_setv m A k e (w * i) _ _ RP Hk Hn).
    + rewrite LW. unfold blen. rewrite concat_le.
      assert (length (slice (S (N.to_nat i)) n src) <= n)%nat by (unfold slice; rewrite firstn_length; lia).
      assert (N.of_nat (N.to_nat w * length (slice (S (N.to_nat i)) n src)) <= w * N.of_nat n).
      { rewrite Nat2N.inj_mul, N2Nat.id. apply N.mul_le_mono_l. lia. }
      lia.
    + rewrite LW. replace (w * i + w) with (w * (i + 1)) by lia. exact R2.
Qed.
Lemma repr_same m A A' : R m A -> a_cur A' = a_cur A -> a_copy A' = a_copy A ->
  (forall l, content A' l = content A l) -> small E A' -> R m A'.
Proof. intros H1 H2 H3 H4. apply (repr_eq E rest m A A' H1 H2 H3). auto. Qed.
Lemma arr_ok m A i src start count a : R m A -> action es (OArr i src start count) = Some a -> carries (OArr i src start count) a m A.
Proof.
  intros RP H. cbn [action] in H. at_case i k e HI; [|discriminate].
  pose proof (proj1 (at_nth i k e HI)) as Hk. rewrite elem_width, array_type_eq in H.
  destruct (type_is_array (md_type (base e))) eqn:HT.
  - destruct (width (md_type (base e))) as [w|] eqn:HW; [|discriminate].
    set (c := md_count (base e)) in *. set (stop := N.min (start + count) c) in *.
    destruct (N.ltb_spec start 2147483648) as [H1|]; [|discriminate].
    destruct (N.ltb_spec (start + count) B64) as [H2|]; [|discriminate].
    destruct (N.ltb_spec c 2147483648) as [H3|]; [|discriminate].
    destruct (Nat.leb_spec (N.to_nat stop) (length src)) as [H4|]; [|discriminate].
    cbn [andb] in H. apply a_put_inv in H. destruct H as (-> & Hn & Ho). apply carries_wp; [discriminate|].
    cbn [do_op effect]. unfold metric_array_set.
    apply wp_bind. unfold dict_raw. apply (wp_reads _ _ _ _ _ (desc_get_some m A RP i k e HI)). apply wp_ret.
    apply (wp_reads _ _ _ _ _ (mval_set_at m A RP k e Hk i HI)).
    apply (wp_reads _ _ _ _ _ (rd_type m A RP k e Hk)). apply (wp_reads _ _ _ _ _ (rd_count m A RP k e Hk)). fold c.
    rewrite HT, HW. unfold B64 in H2.
    replace (to_int start) with (Z.of_N start).
    2:{ unfold to_int. rewrite Z.mod_small by lia. destruct (Z.ltb_spec (Z.of_N start) 2147483648); lia. }
    rewrite (N.mod_small (start + count)) by lia.
    destruct (N.leb_spec stop start) as [HS|HS].
    + (* nothing to write *)
      replace (stop - start) with 0 in * by lia. cbn [N.to_nat array_set_loop].
      rewrite !Z.mod_small by lia.
      replace ((Z.of_N start <? Z.of_N (start + count))%Z && (Z.of_N start <? Z.of_N c)%Z) with false.
      2:{ symmetry. unfold stop in HS. apply andb_false_iff. rewrite !Z.ltb_ge. lia. }
      apply wp_bind, wp_ret. rewrite put_setv.
      apply (gn_inc_ok m (setv e k 0 [] A) k e); [|exact Hk|auto].
      destruct (setv_cur e k 0 [] A) as [C1 C2]. apply (repr_same m A _ RP C1 C2); [|apply setv_small, (rp_small E rest m A RP)].
      intros l. destruct (loc_eq l (vloc A k e)) as [->|N]; [|now apply setv_other].
      rewrite setv_content. reflexivity.
    + apply wp_bind.
      assert (LS : length (slice (N.to_nat start) (N.to_nat (stop - start)) src) = N.to_nat (stop - start)).
      { unfold slice. rewrite firstn_length, skipn_length. lia. }
      assert (WW : w * start + w * (stop - start) <= room e).
      { unfold blen in Ho. rewrite concat_le, LS in Ho. lia. }
      assert (HL : start + N.of_nat (N.to_nat (stop - start)) = stop) by lia.
      assert (HR : w * (start + N.of_nat (N.to_nat (stop - start))) <= room e).
      { rewrite N2Nat.id, N.mul_add_distr_l. exact WW. }
      eapply wp_mono; [apply (loop_ok k e w c src (start + count) (N.to_nat (stop - start)) Hk Hn H3 H2 start); try lia; exact RP|].
      intros [] m' R1. cbv beta in R1. apply (gn_inc_ok m' _ k e _ R1 Hk). auto.
  - injection H as <-. cbn [carries do_op]. unfold metric_array_set.
    apply (abort_reads _ (v_doff E (pos E k))).
    { unfold dict_raw. eapply reads_bind; [exact (desc_get_some m A RP i k e HI)|]. apply reads_pure. }
    apply (abort_reads _ _ _ _ (mval_set_at m A RP k e Hk i HI)).
    apply (abort_reads _ _ _ _ (rd_type m A RP k e Hk)). apply (abort_reads _ _ _ _ (rd_count m A RP k e Hk)).
    now rewrite HT.
Qed.
End Ops.
