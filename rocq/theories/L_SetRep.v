(** The representation of an abstract set in memory. *)
From Verif Require Import Bytes M_Set S_Set L_SetMem L_SetLay L_SetCreate L_SetInit L_SetTop L_SetMake.
Local Open Scope N_scope.

(** ** Types and sizes *)
Lemma elem_width t : elem t = width t.
Proof.
  destruct (N.ltb_spec t 23) as [H|H].
  - assert (C : forallb (fun k => match elem (N.of_nat k), width (N.of_nat k) with
        | Some a, Some b => a =? b | None, None => true | _, _ => false end) (seq 0 23) = true) by reflexivity.
    rewrite forallb_forall in C. specialize (C (N.to_nat t)). rewrite N2Nat.id in C.
    destruct (elem t), (width t); try reflexivity.
    + f_equal. apply N.eqb_eq, C, in_seq. lia.
    + assert (false = true) by (apply C, in_seq; lia). discriminate.
    + assert (false = true) by (apply C, in_seq; lia). discriminate.
  - unfold elem. rewrite nth_overflow by (cbn [length]; lia). unfold width, V_CHAR_ARRAY, V_D64_ARRAY.
    replace ((12 <=? t) && (t <=? 22)) with false by (destruct (N.leb_spec t 22); [lia|]; now rewrite andb_false_r).
    repeat match goal with |- context [?a =? ?b] => replace (a =? b) with false by (symmetry; apply N.eqb_neq; lia) end.
    reflexivity.
Qed.
Lemma array_type_eq t : array_type t = type_is_array t.
Proof. reflexivity. Qed.
Lemma room_md e : wf_entry e -> (forall r, e <> RecT r) -> room e = md_data (base e).
Proof.
  intros (W & H) Hr. destruct e as [d|r|d rt isz]; cbn [base].
  - destruct H as (H & N25 & N27 & _). unfold value_size in H. unfold room, need_bytes.
    rewrite elem_width. change (array_type (md_type d)) with (type_is_array (md_type d)).
    destruct (width (md_type d)) as [w|]; [injection H as <-; reflexivity|].
    destruct (N.eqb_spec (md_type d) 26) as [->|N26]; [cbn in H; injection H as <-; reflexivity|].
    destruct (md_type d =? 23); [injection H as <-; reflexivity|].
    destruct (md_type d =? 24); [injection H as <-; reflexivity|].
    destruct (N.eqb_spec (md_type d) 25); [contradiction|].
    destruct (N.eqb_spec (md_type d) 27); [contradiction|]. discriminate.
  - exfalso. exact (Hr r eq_refl).
  - destruct H as (_ & _ & -> & _). reflexivity.
Qed.

Lemma nth_split {A} (l : list A) k e : nth_error l k = Some e ->
  l = firstn k l ++ e :: skipn (S k) l /\ length (firstn k l) = k.
Proof.
  revert k. induction l as [|x l IH]; intros k H; [destruct k; discriminate|].
  destruct k as [|k]; [injection H as <-; auto|]. cbn [nth_error] in H.
  destruct (IH k H) as [E L]. cbn [firstn skipn app length]. rewrite L. split; [|reflexivity].
  f_equal. exact E.
Qed.
Lemma nth_mid {A} (p : list A) e q : nth_error (p ++ e :: q) (length p) = Some e /\ firstn (length p) (p ++ e :: q) = p.
Proof.
  split.
  - rewrite nth_error_app2 by lia. now rewrite Nat.sub_diag.
  - rewrite firstn_app, Nat.sub_diag, firstn_all. cbn. apply app_nil_r.
Qed.

(** ** Locations *)
Inductive hf := FTs0 | FTs1 | FDur0 | FDur1 | FFlags | FGn | FMgn | FCurr | FHgn.
Inductive loc := LGn | LUid | LGid | LPerm | LH (f : hf) (b : N) | LV (b : N) (k : nat) | LM (k : nat) | LU (k : nat).
Definition loc_eq (a b : loc) : {a = b} + {a <> b}.
Proof. decide equality; try apply N.eq_dec; try apply Nat.eq_dec. decide equality. Defined.

Definition hoff (f : hf) : N :=
  match f with FTs0 => 0 | FTs1 => 4 | FDur0 => 8 | FDur1 => 12 | FFlags => 16 | FGn => 24 | FMgn => 40 | FCurr => 48 | FHgn => 72 end.
Definition hsize (f : hf) : nat := match f with FGn | FMgn => 8 | _ => 4 end.

Section Rep.
Variable E : env.
Hypothesis OK : ok_env E.
Let es := v_es E.
Definition pos (k : nat) : list entry := firstn k (v_es E).
Definition slot (k : nat) : N := match nth_error (v_es E) k with Some e => md_data (base e) | None => 0 end.

Definition addr (l : loc) : N :=
  match l with
  | LGn => H_GN | LUid => H_UID | LGid => H_GID | LPerm => H_PERM
  | LH f b => v_buf E b + hoff f
  | LV b k => v_buf E b + voff (pos k)
  | LM k => v_moff E (pos k)
  | LU k => v_doff E (pos k)
  end.
Definition size (l : loc) : nat :=
  match l with
  | LGn => 8 | LUid | LGid | LPerm => 4
  | LH f b => hsize f
  | LV b k => N.to_nat (slot k)
  | LM k => N.to_nat (slot k)
  | LU k => 8
  end%nat.
Definition valid (l : loc) : Prop :=
  match l with
  | LGn | LUid | LGid | LPerm => True
  | LH f b => b < v_ac E
  | LV b k => b < v_ac E /\ exists e, nth_error (v_es E) k = Some e /\ data_e e = true
  | LM k => exists d, nth_error (v_es E) k = Some (Plain d) /\ data_e (Plain d) = false
  | LU k => exists e, nth_error (v_es E) k = Some e
  end.

Lemma split_at k e : nth_error (v_es E) k = Some e -> v_es E = pos k ++ e :: skipn (S k) (v_es E) /\ length (pos k) = k.
Proof. apply nth_split. Qed.
Lemma slot_at k e : nth_error (v_es E) k = Some e -> slot k = md_data (base e).
Proof. unfold slot. now intros ->. Qed.

Lemma bnd_low l : In l [LGn; LUid; LGid; LPerm] -> 64 <= addr l /\ addr l + N.of_nat (size l) <= 104.
Proof. intros [<-|[<-|[<-|[<-|[]]]]]; cbn; ubody; lia. Qed.
Lemma bnd_hdr f b : v_buf E b <= addr (LH f b) /\ addr (LH f b) + N.of_nat (size (LH f b)) <= v_buf E b + 96.
Proof. destruct f; cbn; lia. Qed.
Lemma bnd_val b k : valid (LV b k) -> v_buf E b + 96 <= addr (LV b k) /\
  addr (LV b k) + N.of_nat (size (LV b k)) <= v_buf E b + v_ds E.
Proof.
  intros (Hb & e & Hk & Hd). destruct (split_at k e Hk) as [HS _]. destruct (e_voff E OK _ _ _ HS Hd) as [V1 V2].
  cbn [addr size]. rewrite (slot_at k e Hk), N2Nat.id. unfold DATA_HDR in V1. lia.
Qed.
Lemma bnd_meta k : valid (LM k) -> v_doff E (v_es E) <= addr (LM k) /\ addr (LM k) + N.of_nat (size (LM k)) <= v_ms E.
Proof.
  intros (d & Hk & Hd). destruct (split_at k _ Hk) as [HS _]. pose proof (e_moff E OK _ _ _ HS) as B.
  cbn [addr size]. rewrite (slot_at k _ Hk), N2Nat.id. cbn [base].
  assert (mstep (Plain d) = md_data d) by (unfold mstep; rewrite Hd; reflexivity). lia.
Qed.
Lemma bnd_user k : valid (LU k) -> v_D0 E <= addr (LU k) /\ addr (LU k) + N.of_nat (size (LU k)) <= v_doff E (v_es E).
Proof.
  intros (e & Hk). destruct (split_at k _ Hk) as [HS _]. pose proof (e_doff E OK _ _ _ HS) as B. cbn [addr size]. lia.
Qed.

Lemma pos_lt k k' e : (k < k')%nat -> nth_error (v_es E) k = Some e -> (k' <= length (v_es E))%nat ->
  exists r, pos k' = pos k ++ e :: r.
Proof.
  intros H Hk Hl. destruct (split_at k e Hk) as [HS HL]. unfold pos at 1. rewrite HS.
  exists (firstn (k' - S k) (skipn (S k) (v_es E))).
  rewrite firstn_app, HL. rewrite firstn_all2 by lia. f_equal.
  replace (k' - k)%nat with (S (k' - S k)) by lia. reflexivity.
Qed.
Lemma nth_len k e : nth_error (v_es E) k = Some e -> (k < length (v_es E))%nat.
Proof. intros H. apply nth_error_Some. congruence. Qed.

Definition disj (a b : loc) : Prop :=
  addr a + N.of_nat (size a) <= addr b \/ addr b + N.of_nat (size b) <= addr a.
Lemma disj_sym a b : disj a b -> disj b a.
Proof. unfold disj. tauto. Qed.

Lemma disj_val_lt b k k' : valid (LV b k) -> valid (LV b k') -> (k < k')%nat -> disj (LV b k) (LV b k').
Proof.
  intros (Hb & e & Hk & Hd) (_ & e' & Hk' & Hd') H. left. cbn [addr size].
  rewrite (slot_at k e Hk), N2Nat.id.
  destruct (split_at k e Hk) as [HS _]. destruct (split_at k' e' Hk') as [HS' _].
  destruct (e_voff E OK _ _ _ HS Hd) as [V1 _]. destruct (e_voff E OK _ _ _ HS' Hd') as [V1' _].
  pose proof (nth_len _ _ Hk'). destruct (pos_lt k k' e H Hk) as [r Er]; [lia|].
  rewrite V1, V1', Er, sum_app, sum_cons. unfold dstep at 3. rewrite Hd. lia.
Qed.
Lemma disj_meta_lt k k' : valid (LM k) -> valid (LM k') -> (k < k')%nat -> disj (LM k) (LM k').
Proof.
  intros (d & Hk & Hd) (d' & Hk' & Hd') H. left. cbn [addr size].
  rewrite (slot_at k _ Hk), N2Nat.id. cbn [base].
  pose proof (nth_len _ _ Hk'). destruct (pos_lt k k' _ H Hk) as [r Er]; [lia|].
  rewrite Er, e_moff_step. unfold mstep at 1. rewrite Hd. cbn [base]. lia.
Qed.
Lemma disj_user_lt k k' : valid (LU k) -> valid (LU k') -> (k < k')%nat -> disj (LU k) (LU k').
Proof.
  intros (e & Hk) (e' & Hk') H. left. cbn [addr size].
  pose proof (nth_len _ _ Hk'). destruct (pos_lt k k' _ H Hk) as [r Er]; [lia|].
  rewrite Er, e_doff_step. destruct (split_at k _ Hk) as [HS _]. pose proof (e_doff E OK _ _ _ HS). lia.
Qed.

(** Address class: low header, user data, meta values, or buffer [b]. *)
Lemma in_buf l b : (exists f, l = LH f b) \/ (exists k, l = LV b k) -> valid l ->
  v_buf E b <= addr l /\ addr l + N.of_nat (size l) <= v_buf E b + v_bs E.
Proof.
  pose proof (e_bs E OK) as HB. intros [[f ->]|[k ->]] V.
  - pose proof (bnd_hdr f b). lia.
  - pose proof (bnd_val b k V). lia.
Qed.

Lemma disjoint l l' : valid l -> valid l' -> l <> l' -> disj l l'.
Proof.
  intros V V' N. pose proof (e_ms_ge E OK) as HM. pose proof (e_D0 E) as HD. pose proof (e_bs E OK) as HB.
  unfold H_DICT in HD.
  assert (LOW : forall a b, In a [LGn; LUid; LGid; LPerm] -> 140 <= addr b -> disj a b).
  { intros a b Ha Hb. left. pose proof (bnd_low a Ha). lia. }
  assert (GE : forall a, valid a -> ~ In a [LGn; LUid; LGid; LPerm] -> 140 <= addr a).
  { intros a Va Na. destruct a as [| | | |f b|b k|k|k]; try (exfalso; apply Na; cbn; tauto).
    - pose proof (e_buf E b Va). pose proof (bnd_hdr f b). lia.
    - pose proof (e_buf E b (proj1 Va)). pose proof (bnd_val b k Va). lia.
    - pose proof (bnd_meta k Va). lia.
    - pose proof (bnd_user k Va). lia. }
  assert (DB : forall b b' a a', b <> b' -> b < v_ac E -> b' < v_ac E ->
     v_buf E b <= addr a /\ addr a + N.of_nat (size a) <= v_buf E b + v_bs E ->
     v_buf E b' <= addr a' /\ addr a' + N.of_nat (size a') <= v_buf E b' + v_bs E -> disj a a').
  { intros b b' a a' Hne Hb Hb' Ha Ha'. unfold disj.
    destruct (N.lt_total b b') as [h|[h|h]]; [|contradiction|].
    - pose proof (e_buf2 E b b' h). lia.
    - pose proof (e_buf2 E b' b h). lia. }
  destruct (In_dec loc_eq l [LGn; LUid; LGid; LPerm]) as [I1|I1];
  destruct (In_dec loc_eq l' [LGn; LUid; LGid; LPerm]) as [I2|I2].
  - clear LOW GE DB. unfold disj.
    destruct I1 as [<-|[<-|[<-|[<-|[]]]]]; destruct I2 as [<-|[<-|[<-|[<-|[]]]]];
      try congruence; cbn; ubody; lia.
  - apply LOW; auto.
  - apply disj_sym, LOW; auto.
  - destruct l as [| | | |f b|b k|k|k]; try (exfalso; apply I1; cbn; tauto);
    destruct l' as [| | | |f' b'|b' k'|k'|k']; try (exfalso; apply I2; cbn; tauto); clear I1 I2 LOW GE.
    + destruct (N.eq_dec b b') as [<-|Hne].
      * assert (f <> f') by congruence. unfold disj. destruct f, f'; try congruence; cbn; lia.
      * apply (DB b b'); auto; apply in_buf; eauto.
    + destruct (N.eq_dec b b') as [<-|Hne].
      * left. pose proof (bnd_hdr f b). pose proof (bnd_val b k' V'). lia.
      * apply (DB b b'); auto; try apply in_buf; eauto. exact (proj1 V').
    + right. pose proof (bnd_meta k' V'). pose proof (bnd_hdr f b). pose proof (e_buf E b V). lia.
    + right. pose proof (bnd_user k' V'). pose proof (bnd_hdr f b). pose proof (e_buf E b V). lia.
    + destruct (N.eq_dec b b') as [<-|Hne].
      * right. pose proof (bnd_hdr f' b). pose proof (bnd_val b k V). lia.
      * apply (DB b b'); auto; try apply in_buf; eauto. exact (proj1 V).
    + destruct (N.eq_dec b b') as [<-|Hne].
      * assert (k <> k') by congruence. destruct (Nat.lt_total k k') as [h|[h|h]]; [|contradiction|].
        -- now apply disj_val_lt.
        -- now apply disj_sym, disj_val_lt.
      * apply (DB b b'); auto; try apply in_buf; eauto. exact (proj1 V). exact (proj1 V').
    + right. pose proof (bnd_meta k' V'). pose proof (bnd_val b k V). pose proof (e_buf E b (proj1 V)). lia.
    + right. pose proof (bnd_user k' V'). pose proof (bnd_val b k V). pose proof (e_buf E b (proj1 V)). lia.
    + left. pose proof (bnd_meta k V). pose proof (bnd_hdr f' b'). pose proof (e_buf E b' V'). lia.
    + left. pose proof (bnd_meta k V). pose proof (bnd_val b' k' V'). pose proof (e_buf E b' (proj1 V')). lia.
    + assert (k <> k') by congruence. destruct (Nat.lt_total k k') as [h|[h|h]]; [|contradiction|].
      * now apply disj_meta_lt.
      * now apply disj_sym, disj_meta_lt.
    + right. pose proof (bnd_meta k V). pose proof (bnd_user k' V'). lia.
    + left. pose proof (bnd_user k V). pose proof (bnd_hdr f' b'). pose proof (e_buf E b' V'). lia.
    + left. pose proof (bnd_user k V). pose proof (bnd_val b' k' V'). pose proof (e_buf E b' (proj1 V')). lia.
    + left. pose proof (bnd_user k V). pose proof (bnd_meta k' V'). lia.
    + assert (k <> k') by congruence. destruct (Nat.lt_total k k') as [h|[h|h]]; [|contradiction|].
      * now apply disj_user_lt.
      * now apply disj_sym, disj_user_lt.
Qed.

(** The fixed parts survive a change confined to one location. *)
Lemma static_loc l m m' : valid l -> frame (fun x => addr l <= x < addr l + N.of_nat (size l)) m m' ->
  static E m -> static E m'.
Proof.
  intros V ((E1 & E2 & E3 & E4 & E5) & F) (SM & SB & SH). split; [|split].
  - apply (smeta_ext E OK m m'); [|exact SM]. intros x Hx. apply F. intros Hy. apply Hx.
    destruct l as [| | | |f b|b k|k|k]; cbn [valid] in V.
    1-4: unfold Mutm, drange; cbn in Hy; ubody; lia.
    + do 4 right. pose proof (e_buf E b V). pose proof (bnd_hdr f b). lia.
    + do 4 right. pose proof (e_buf E b (proj1 V)). pose proof (bnd_val b k V). lia.
    + do 3 right. left. destruct V as (d & Hk & Hd). destruct (split_at k _ Hk) as [HS _].
      exists (pos k), d, (skipn (S k) (v_es E)). split; [exact HS|]. split; [exact Hd|].
      cbn [addr size] in Hy. rewrite (slot_at k _ Hk), N2Nat.id in Hy. exact Hy.
    + do 2 right. left. destruct V as (e & Hk). destruct (split_at k _ Hk) as [HS _].
      exists (pos k), e, (skipn (S k) (v_es E)). split; [exact HS|]. exact Hy.
  - intros b Hb. eapply bstat_ext; [|exact (SB b Hb)]. intros x Hx. apply F. intros Hy.
    pose proof (e_buf E b Hb) as BB. pose proof (e_ms_ge E OK) as HM. pose proof (e_D0 E) as HD. unfold H_DICT in HD.
    pose proof (e_bs E OK) as HBS.
    destruct l as [| | | |f b'|b' k|k|k]; cbn [valid] in V.
    1-4: cbn in Hy; ubody; lia.
    + destruct (N.lt_total b b') as [h|[<-|h]].
      * pose proof (e_buf2 E b b' h). pose proof (bnd_hdr f b'). lia.
      * clear BB. destruct f; cbn in Hy; lia.
      * pose proof (e_buf2 E b' b h). pose proof (bnd_hdr f b'). lia.
    + pose proof (bnd_val b' k V). destruct (N.lt_total b b') as [h|[<-|h]].
      * pose proof (e_buf2 E b b' h). lia.
      * lia.
      * pose proof (e_buf2 E b' b h). lia.
    + pose proof (bnd_meta k V). lia.
    + pose proof (bnd_user k V). lia.
  - unfold handle_ok in *. rewrite E1, E2, E3, E4. exact SH.
Qed.

Lemma addr_msz l m : handle_ok E m -> valid l -> addr l + N.of_nat (size l) <= msz m.
Proof.
  intros (-> & _) V. pose proof (e_ms_ge E OK) as HM. pose proof (e_D0 E) as HD. unfold H_DICT in HD.
  pose proof (e_bs E OK) as HB.
  destruct l as [| | | |f b|b k|k|k].
  1-4: cbn; ubody; lia.
  - pose proof (e_buf E b V). pose proof (bnd_hdr f b). lia.
  - pose proof (e_buf E b (proj1 V)). pose proof (bnd_val b k V). lia.
  - pose proof (bnd_meta k V). lia.
  - pose proof (bnd_user k V). lia.
Qed.
(** ** The relation *)
(** [rest]: the bytes outside every location. *)
Variable rest : N -> N.
Definition outside (x : N) : Prop := forall l, valid l -> ~ addr l <= x < addr l + N.of_nat (size l).
Definition hval (h : ahdr) (c : N) (f : hf) : N :=
  match f with
  | FTs0 => fst (h_ts h) | FTs1 => snd (h_ts h) | FDur0 => fst (h_dur h) | FDur1 => snd (h_dur h)
  | FFlags => h_flags h | FGn => h_gn h | FMgn => h_mgn h | FCurr => c | FHgn => 0
  end.
Definition content (A : aset) (l : loc) : list byte :=
  match l with
  | LGn => le 8 (a_mgn A) | LUid => le 4 (a_uid A) | LGid => le 4 (a_gid A) | LPerm => le 4 (a_perm A)
  | LH f b => le (hsize f) (hval (a_hd A b) (a_cur A) f)
  | LV b k => a_val A b k
  | LM k => a_mval A k
  | LU k => le 8 (a_user A k)
  end.
Definition small (A : aset) : Prop :=
  (forall b f, b < v_ac E -> f <> FCurr -> hval (a_hd A b) 0 f < 256 ^ N.of_nat (hsize f)) /\
  a_mgn A < B64 /\ a_uid A < B32 /\ a_gid A < B32 /\ a_perm A < B32 /\ forall k, a_user A k < B64.
Record repr (m : st) (A : aset) : Prop := mkRepr {
  rp_static : static E m;
  rp_cur : cur m = a_cur A;
  rp_copy : copy m = a_copy A;
  rp_obs : forall l, valid l -> get m (addr l) (size l) = content A l;
  rp_small : small A;
  rp_rest : forall x, outside x -> mb m x = rest x
}.

Lemma repr_eq m A A' : repr m A -> a_cur A' = a_cur A -> a_copy A' = a_copy A ->
  (forall l, valid l -> content A' l = content A l) -> small A' -> repr m A'.
Proof.
  intros [R1 R2 R3 R4 R5 R6] H1 H2 H3 H4. constructor; auto; try congruence.
  intros l V. rewrite R4, H3; auto.
Qed.
(** Writing into a location. *)
Lemma repr_write m A A' l off bs : repr m A -> valid l -> (off + length bs <= size l)%nat ->
  a_cur A' = a_cur A -> a_copy A' = a_copy A -> small A' ->
  content A' l = splice off bs (content A l) ->
  (forall l', valid l' -> l' <> l -> content A' l' = content A l') ->
  repr (upd m (addr l + N.of_nat off) bs) A'.
Proof.
  intros R V Ho HC HP HS Hl Ho'. constructor.
  - apply (static_loc l m); [exact V| |exact (rp_static m A R)]. apply frame_upd. intros x Hx. unfold blen in Hx. lia.
  - cbn [upd cur]. rewrite HC. exact (rp_cur m A R).
  - cbn [upd copy]. rewrite HP. exact (rp_copy m A R).
  - intros l' V'. destruct (loc_eq l' l) as [->|N].
    + rewrite get_upd_splice by exact Ho. rewrite (rp_obs m A R l V). now rewrite Hl.
    + rewrite (Ho' l' V' N), <- (rp_obs m A R l' V'). apply get_upd_other.
      pose proof (disjoint l' l V' V N) as D. unfold disj in D. unfold blen. lia.
  - exact HS.
  - intros x Hx. rewrite mb_upd_out; [exact (rp_rest m A R x Hx)|]. specialize (Hx l V). unfold blen. lia.
Qed.
Lemma splice_whole {A} (bs l : list A) : length bs = length l -> splice 0 bs l = bs.
Proof.
  intros H. unfold splice. cbn [firstn app plus]. rewrite H, skipn_all. apply app_nil_r.
Qed.
Lemma content_length m A l : repr m A -> valid l -> length (content A l) = size l.
Proof. intros R V. rewrite <- (rp_obs m A R l V). apply get_length. Qed.
Lemma repr_set m A A' l v n : repr m A -> valid l -> size l = n ->
  a_cur A' = a_cur A -> a_copy A' = a_copy A -> small A' ->
  content A' l = le n v ->
  (forall l', valid l' -> l' <> l -> content A' l' = content A l') ->
  repr (upd m (addr l) (le n v)) A'.
Proof.
  intros R V Hn HC HP HS Hl Ho. rewrite <- (N.add_0_r (addr l)). change 0 with (N.of_nat 0).
  apply (repr_write m A A' l 0); auto.
  - rewrite le_length. lia.
  - rewrite Hl. symmetry. apply splice_whole. rewrite le_length, (content_length m A l R V). congruence.
Qed.
(** Reading a number. *)
Lemma repr_num m A l v n : repr m A -> valid l -> size l = n -> content A l = le n v -> v < 256 ^ N.of_nat n ->
  num m (addr l) n = v.
Proof.
  intros R V Hn Hc Hv. unfold num. rewrite <- Hn, (rp_obs m A R l V), Hc, of_le_le. now apply N.mod_small.
Qed.
End Rep.
Lemma repr_any E rest m A : repr E rest m A -> repr E (mb m) m A.
Proof. intros [R1 R2 R3 R4 R5 R6]. constructor; auto. Qed.
