(** Memory lemmas for the byte model of metric sets. *)
From Verif Require Import Bytes M_Set.
Local Open Scope N_scope.

Definition num (m : st) (a : N) (n : nat) : N := of_le (get m a n).
Definition wp {A} (p : prog A) (Q : A -> st -> Prop) (m : st) : Prop :=
  match p m with Ret a m' => Q a m' | _ => False end.

Lemma blen_le n v : blen (le n v) = N.of_nat n.
Proof. unfold blen. f_equal. revert v. induction n; intros v; cbn; auto. Qed.
Lemma le_length n v : length (le n v) = n.
Proof. revert v. induction n; intros v; cbn; auto. Qed.
Lemma blen_app a b : blen (a ++ b) = blen a + blen b.
Proof. unfold blen. rewrite app_length. lia. Qed.
Lemma blen_one (x : N) : blen [x] = 1.
Proof. reflexivity. Qed.
Lemma le_bytes n v : Forall is_byte (le n v).
Proof. revert v. induction n; intros v; cbn; constructor; auto. apply N.mod_lt. lia. Qed.

Lemma of_le_le n v : of_le (le n v) = v mod 256 ^ N.of_nat n.
Proof.
  revert v. induction n as [|n IH]; intros v.
  - cbn. now rewrite N.mod_1_r.
  - cbn [le of_le]. rewrite IH.
    replace (N.of_nat (S n)) with (N.succ (N.of_nat n)) by lia.
    rewrite N.pow_succ_r', N.mod_mul_r; try lia.
Qed.

Lemma get_length m a n : length (get m a n) = n.
Proof. unfold get. now rewrite map_length, seq_length. Qed.
Lemma blen_get m a n : blen (get m a n) = N.of_nat n.
Proof. unfold blen. now rewrite get_length. Qed.
Lemma get_nth m a n k d : (k < n)%nat -> nth k (get m a n) d = mb m (a + N.of_nat k).
Proof.
  intros H. unfold get. rewrite nth_indep with (d' := mb m (a + N.of_nat 0)) by (rewrite map_length, seq_length; lia).
  rewrite (map_nth (fun k => mb m (a + N.of_nat k))), seq_nth by lia. reflexivity.
Qed.
Lemma get_ext m m' a n : (forall k, a <= k < a + N.of_nat n -> mb m' k = mb m k) -> get m' a n = get m a n.
Proof.
  intros H. unfold get. apply map_ext_in. intros k Hk%in_seq. apply H. lia.
Qed.
Lemma num_ext m m' a n : (forall k, a <= k < a + N.of_nat n -> mb m' k = mb m k) -> num m' a n = num m a n.
Proof. intros H. unfold num. now rewrite (get_ext m m'). Qed.

Lemma list_eq_nth {A} (d : A) l l' : length l = length l' ->
  (forall k, (k < length l)%nat -> nth k l d = nth k l' d) -> l = l'.
Proof. intros H1 H2. apply (nth_ext l l' d d H1). intros k Hk. now apply H2. Qed.

Lemma mb_upd_out m a bs x : x < a \/ a + blen bs <= x -> mb (upd m a bs) x = mb m x.
Proof.
  intros H. cbn [upd mb]. destruct (N.leb_spec a x), (N.ltb_spec x (a + blen bs)); cbn; auto; lia.
Qed.
Lemma mb_upd_in m a bs x : a <= x < a + blen bs -> mb (upd m a bs) x = nth (N.to_nat (x - a)) bs 0.
Proof.
  intros H. cbn [upd mb]. destruct (N.leb_spec a x), (N.ltb_spec x (a + blen bs)); cbn; auto; lia.
Qed.
Lemma get_upd_other m a bs x n : x + N.of_nat n <= a \/ a + blen bs <= x ->
  get (upd m a bs) x n = get m x n.
Proof. intros H. apply get_ext. intros k Hk. apply mb_upd_out. lia. Qed.
Lemma get_upd_same m a bs : get (upd m a bs) a (length bs) = bs.
Proof.
  apply (list_eq_nth 0); rewrite get_length; [reflexivity|]. intros k Hk.
  rewrite get_nth by assumption. rewrite mb_upd_in by (unfold blen; lia). f_equal. lia.
Qed.
Lemma num_upd_other m a bs x n : x + N.of_nat n <= a \/ a + blen bs <= x ->
  num (upd m a bs) x n = num m x n.
Proof. intros H. unfold num. now rewrite get_upd_other. Qed.
Lemma num_sto_other m a k v x n : x + N.of_nat n <= a \/ a + N.of_nat k <= x ->
  num (upd m a (le k v)) x n = num m x n.
Proof. intros H. apply num_upd_other. rewrite blen_le. assumption. Qed.
Lemma get_sto_same m a n v : get (upd m a (le n v)) a n = le n v.
Proof. pose proof (get_upd_same m a (le n v)) as H. rewrite le_length in H. exact H. Qed.
Lemma num_sto_same m a n v : num (upd m a (le n v)) a n = v mod 256 ^ N.of_nat n.
Proof. unfold num. rewrite <- of_le_le. f_equal. rewrite <- (le_length n v) at 2. apply get_upd_same. Qed.
Lemma get_sto_other m a k v x n : x + N.of_nat n <= a \/ a + N.of_nat k <= x ->
  get (upd m a (le k v)) x n = get m x n.
Proof. intros H. apply get_upd_other. rewrite blen_le. assumption. Qed.
(** A write inside a region replaces a sub-range of its contents. *)
Lemma get_upd_splice m a o bs n : (o + length bs <= n)%nat ->
  get (upd m (a + N.of_nat o) bs) a n = splice o bs (get m a n).
Proof.
  intros H. apply (list_eq_nth 0).
  - rewrite splice_length by (rewrite get_length; lia). now rewrite !get_length.
  - rewrite get_length. intros k Hk. rewrite get_nth by assumption. unfold splice.
    destruct (Nat.ltb_spec k o) as [h|h].
    + rewrite app_nth1 by (rewrite firstn_length, get_length; lia).
      rewrite mb_upd_out by lia. rewrite <- (get_nth m a n k 0) by lia.
      rewrite <- (firstn_skipn o (get m a n)) at 1. rewrite app_nth1; auto.
      rewrite firstn_length, get_length; lia.
    + rewrite app_nth2 by (rewrite firstn_length, get_length; lia).
      rewrite firstn_length, get_length. replace (Nat.min o n) with o by lia.
      destruct (Nat.ltb_spec k (o + length bs)) as [h2|h2].
      * rewrite app_nth1 by lia. rewrite mb_upd_in by (unfold blen; lia). f_equal. lia.
      * rewrite app_nth2 by lia. rewrite mb_upd_out by (unfold blen; lia).
        rewrite <- (get_nth m a n k 0) by lia.
        rewrite <- (firstn_skipn (o + length bs) (get m a n)) at 1.
        rewrite app_nth2 by (rewrite firstn_length, get_length; lia).
        rewrite firstn_length, get_length. f_equal. lia.
Qed.

Lemma get_app m a i j : get m a (i + j) = get m a i ++ get m (a + N.of_nat i) j.
Proof.
  unfold get. rewrite seq_app, map_app. f_equal. cbn [Nat.add].

  apply (list_eq_nth 0); rewrite ?map_length, ?seq_length; auto.
  intros k Hk.
  rewrite nth_indep with (d' := mb m (a + N.of_nat 0)) by (rewrite map_length, seq_length; lia).
  rewrite (map_nth (fun k => mb m (a + N.of_nat k))), seq_nth by lia.
  rewrite nth_indep with (d' := mb m (a + N.of_nat i + N.of_nat 0)) by (rewrite map_length, seq_length; lia).
  rewrite (map_nth (fun k => mb m (a + N.of_nat i + N.of_nat k))), seq_nth by lia.
  f_equal. lia.
Qed.

(** Strings. *)
Definition is_name (l : list byte) : Prop := Forall (fun b => b <> 0) l.
Lemma cstr_from_ok m l : is_name l -> forall fuel a, (length l < fuel)%nat ->
  get m a (S (length l)) = l ++ [0] -> cstr_from fuel m a = Some l.
Proof.
  induction 1 as [|b l Hb Hl IH]; intros fuel a Hf Hg.
  - destruct fuel as [|f]; [cbn in Hf; lia|]. cbn [cstr_from].
    cbn in Hg. injection Hg as Hg. replace (a + 0) with a in Hg by lia. rewrite Hg. reflexivity.
  - destruct fuel as [|f]; [cbn in Hf; lia|]. cbn [cstr_from].
    replace (S (length (b :: l))) with (1 + S (length l))%nat in Hg by reflexivity.
    rewrite get_app in Hg. change (N.of_nat 1) with 1 in Hg.
    set (g := get m (a + 1) (S (length l))) in *. cbn [get map seq app] in Hg.
    replace (a + N.of_nat 0) with a in Hg by lia. injection Hg as H1 H2.
    rewrite H1. destruct (N.eqb_spec b 0); [contradiction|].
    rewrite (IH f (a + 1)); [reflexivity|cbn in Hf; lia|exact H2].
Qed.

(** Program logic. *)
Lemma wp_ret {A} (a : A) (Q : _ -> st -> Prop) m : Q a m -> wp (ret a) Q m.
Proof. auto. Qed.
Lemma wp_bind {A B} (p : prog A) (k : A -> prog B) (Q : _ -> st -> Prop) m :
  wp p (fun a m' => wp (k a) Q m') m -> wp (bind p k) Q m.
Proof. unfold wp, bind. destruct (p m); auto. Qed.
Lemma wp_mono {A} (p : prog A) (Q R : A -> st -> Prop) m :
  wp p Q m -> (forall a m', Q a m' -> R a m') -> wp p R m.
Proof. unfold wp. destruct (p m); auto. Qed.
Lemma wp_fld {A} (f : st -> A) (Q : _ -> st -> Prop) m : Q (f m) m -> wp (fld f) Q m.
Proof. auto. Qed.
Lemma wp_load a n (Q : _ -> st -> Prop) m : a + N.of_nat n <= msz m -> Q (get m a n) m -> wp (load a n) Q m.
Proof. intros H HQ. unfold wp, load. destruct (N.leb_spec (a + N.of_nat n) (msz m)); [assumption|lia]. Qed.
Lemma wp_ld n a (Q : _ -> st -> Prop) m : a + N.of_nat n <= msz m -> Q (num m a n) m -> wp (ld n a) Q m.
Proof. intros H HQ. apply wp_bind, wp_load; [assumption|]. exact HQ. Qed.
Lemma wp_store a bs (Q : _ -> st -> Prop) m : a + blen bs <= msz m -> Q tt (upd m a bs) -> wp (store a bs) Q m.
Proof. intros H HQ. unfold wp, store. destruct (N.leb_spec (a + blen bs) (msz m)); [assumption|lia]. Qed.
Lemma wp_sto n a v (Q : _ -> st -> Prop) m : a + N.of_nat n <= msz m -> Q tt (upd m a (le n v)) -> wp (sto n a v) Q m.
Proof. intros H HQ. apply wp_store; [rewrite blen_le|]; assumption. Qed.
Lemma wp_cstr a l (Q : _ -> st -> Prop) m : is_name l -> a + blen l + 1 <= msz m ->
  get m a (S (length l)) = l ++ [0] -> Q l m -> wp (cstr a) Q m.
Proof.
  intros Hn Hs Hg HQ. unfold wp, cstr. rewrite (cstr_from_ok m l Hn); auto. unfold blen in Hs. lia.
Qed.
Lemma wp_res {A} (p : prog A) (Q : _ -> st -> Prop) m : wp p Q m -> exists a m', p m = Ret a m' /\ Q a m'.
Proof. unfold wp. destruct (p m); try contradiction. eauto. Qed.

(** Changes confined to a set of addresses. *)
Definition hdl (m m' : st) : Prop :=
  msz m' = msz m /\ darr m' = darr m /\ dat m' = dat m /\ cur m' = cur m /\ copy m' = copy m.
Definition frame (P : N -> Prop) (m m' : st) : Prop :=
  hdl m m' /\ forall x, ~ P x -> mb m' x = mb m x.
Lemma hdl_refl m : hdl m m.
Proof. repeat split. Qed.
Lemma hdl_trans a b c : hdl a b -> hdl b c -> hdl a c.
Proof. unfold hdl. intuition congruence. Qed.
Lemma frame_refl P m : frame P m m.
Proof. split; [apply hdl_refl|auto]. Qed.
Lemma frame_trans P a b c : frame P a b -> frame P b c -> frame P a c.
Proof.
  intros [H1 H2] [H3 H4]. split; [eapply hdl_trans; eauto|]. intros x Hx. rewrite H4, H2; auto.
Qed.
Lemma frame_weaken (P R : N -> Prop) a b : (forall x, P x -> R x) -> frame P a b -> frame R a b.
Proof. intros H [H1 H2]. split; auto. Qed.
Lemma frame_upd (P : N -> Prop) m a bs : (forall x, a <= x < a + blen bs -> P x) -> frame P m (upd m a bs).
Proof.
  intros H. split; [repeat split|]. intros x Hx. apply mb_upd_out.
  destruct (N.ltb_spec x a), (N.leb_spec (a + blen bs) x); auto. exfalso. apply Hx, H. lia.
Qed.
Lemma frame_sto (P : N -> Prop) m a n v : (forall x, a <= x < a + N.of_nat n -> P x) -> frame P m (upd m a (le n v)).
Proof. intros H. apply frame_upd. rewrite blen_le. exact H. Qed.
Lemma frame_num P m m' a n : frame P m m' -> (forall x, a <= x < a + N.of_nat n -> ~ P x) ->
  num m' a n = num m a n.
Proof. intros [_ H] HP. apply num_ext. intros k Hk. apply H, HP. assumption. Qed.
Lemma frame_get P m m' a n : frame P m m' -> (forall x, a <= x < a + N.of_nat n -> ~ P x) ->
  get m' a n = get m a n.
Proof. intros [_ H] HP. apply get_ext. intros k Hk. apply H, HP. assumption. Qed.
Lemma frame_msz P m m' : frame P m m' -> msz m' = msz m.
Proof. intros [[H _] _]. exact H. Qed.

Lemma round8_le v : v <= round8 v.
Proof. unfold round8. pose proof (N.div_mod (v + 7) 8 ltac:(lia)). pose proof (N.mod_lt (v + 7) 8 ltac:(lia)). lia. Qed.
Lemma round8_lt v : round8 v < v + 8.
Proof. unfold round8. pose proof (N.div_mod (v + 7) 8 ltac:(lia)). lia. Qed.
Lemma round8_div v : (round8 v) mod 8 = 0.
Proof. unfold round8. rewrite N.mul_comm. apply N.mod_mul. lia. Qed.
Lemma round8_id v : v mod 8 = 0 -> round8 v = v.
Proof.
  intros H. pose proof (round8_le v). pose proof (round8_lt v). pose proof (round8_div v).
  pose proof (N.div_mod v 8 ltac:(lia)). pose proof (N.div_mod (round8 v) 8 ltac:(lia)). lia.
Qed.
Lemma round8_mono a b : a <= b -> round8 a <= round8 b.
Proof.
  intros H. unfold round8. apply N.mul_le_mono_l. apply N.div_le_mono; lia.
Qed.
Lemma round8_le_to a b : a <= b -> b mod 8 = 0 -> round8 a <= b.
Proof. intros H1 H2. rewrite <- (round8_id b H2). now apply round8_mono. Qed.
Lemma round8_add_mult v k : k mod 8 = 0 -> round8 (v + k) = round8 v + k.
Proof.
  intros H. unfold round8. pose proof (N.div_mod k 8 ltac:(lia)) as E. rewrite H in E.
  replace (v + k + 7) with ((v + 7) + (k / 8) * 8) by lia. rewrite N.div_add by lia. lia.
Qed.
Lemma le_mod n v : le n (v mod 256 ^ N.of_nat n) = le n v.
Proof.
  revert v. induction n as [|n IH]; intros v; [reflexivity|]. cbn [le].
  replace (N.of_nat (S n)) with (N.succ (N.of_nat n)) by lia. rewrite N.pow_succ_r'.
  rewrite N.mod_mul_r by (try apply N.pow_nonzero; lia).
  assert (P : 256 ^ N.of_nat n <> 0) by (apply N.pow_nonzero; lia).
  f_equal.
  - rewrite (N.mul_comm 256), N.mod_add by lia. apply N.mod_mod. lia.
  - rewrite (N.mul_comm 256), N.div_add by lia. rewrite N.div_small by (apply N.mod_lt; lia). cbn [N.add].
    apply IH.
Qed.
