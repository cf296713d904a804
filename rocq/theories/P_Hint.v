(** Theorems on update hints. *)
From Coq Require Import String Ascii.
From Verif Require Import S_Hint L_Json.
Import M_Json.
From Coq Require Import List ZArith Lia.
Import ListNotations.
Local Open Scope Z_scope.

(** ** Reading what was printed *)
Definition nocol (t : text) : Prop := Forall (fun c => is c COL = false) t.
Lemma until_col : forall t r, nocol t -> until (t ++ COL :: r) = (t, r).
Proof. induction t as [|c t IH]; intros r N; [reflexivity|]. inversion N as [|x y H1 H2]; subst. cbn. rewrite H1, (IH r H2). reflexivity. Qed.
Lemma until_end : forall t, nocol t -> until t = (t, []).
Proof. induction t as [|c t IH]; intros N; [reflexivity|]. inversion N as [|x y H1 H2]; subst. cbn. rewrite H1, (IH H2). reflexivity. Qed.
Lemma skip_nocol : forall t r, nocol t -> t <> [] -> skip (t ++ r) = t ++ r.
Proof. intros [|c t] r N E; [congruence|]. inversion N as [|x y H1 H2]; subst. cbn. rewrite H1. reflexivity. Qed.
Lemma strtok_col : forall t r, nocol t -> t <> [] -> strtok (t ++ COL :: r) = Some (t, r).
Proof. intros t r N E. unfold strtok. rewrite skip_nocol by assumption. destruct (t ++ COL :: r) eqn:X; [apply app_eq_nil in X; destruct X; congruence|]. rewrite <- X, until_col by exact N. reflexivity. Qed.
Lemma strtok_end : forall t, nocol t -> t <> [] -> strtok t = Some (t, []).
Proof. intros t N E. unfold strtok. replace (skip t) with t. 2:{ rewrite <- (app_nil_r t) at 2. rewrite skip_nocol by assumption. symmetry; apply app_nil_r. } destruct t; [congruence|]. rewrite until_end by exact N. reflexivity. Qed.
Lemma digit_facts : forall c, digit c = true -> is c COL = false /\ space c = false /\ is c "x"%char = false /\ is c "X"%char = false.
Proof. intros c D. destruct c as [[] [] [] [] [] [] [] []]; try discriminate D; repeat split; reflexivity. Qed.
Lemma print_nocol : forall z, nocol (print_ld z) /\ print_ld z <> [].
Proof.
  intros z. destruct (print_ld_ok z) as (s & d & P & S & (D1 & D2) & _). rewrite P. split.
  - apply Forall_app. split; [destruct S as [->| ->]; [constructor|repeat constructor]|]. eapply Forall_impl; [|exact D2]. intros c H. apply digit_facts, H.
  - intros X. apply app_eq_nil in X. tauto.
Qed.
Lemma magnitude_digits : forall d, Forall (fun c => digit c = true) d -> magnitude d = match d with c :: _ => if is c "0"%char then radix 8 0 d else radix 10 0 d | [] => 0 end.
Proof.
  intros [|a [|b [|c r]]] F; try reflexivity. cbn [magnitude]. inversion F as [|x y F1 F2]; subst. inversion F2 as [|x y F3 F4]; subst.
  destruct (digit_facts b F3) as (_ & _ & -> & ->). rewrite Bool.andb_false_r. reflexivity.
Qed.
Lemma strtol_print : forall z, I64MIN <= z <= I64MAX -> strtol (print_ld z) = z.
Proof.
  intros z B. destruct (print_ld_ok z) as (s & d & P & S & D & T). specialize (T B). rewrite <- T at 2. clear T B. rewrite P. clear P z.
  destruct D as (NE & D). destruct d as [|c d]; [congruence|]. inversion D as [|x y D1 D2]; subst.
  destruct (digit_facts c D1) as (_ & SP & _). destruct (begins_digit c D1) as (_ & SG). unfold strtol, strtoll0.
  destruct S as [->| ->].
  - cbn [app trim]. rewrite SP. cbn [opt]. rewrite SG. rewrite magnitude_digits by exact D. reflexivity.
  - change (trim (str "-" ++ c :: d)) with ("-"%char :: c :: d). change (str "-" ++ c :: d) with ("-"%char :: c :: d). cbn [opt]. change (sign "-"%char) with true. cbv iota.
    rewrite magnitude_digits by exact D. reflexivity.
Qed.
(** The hint that was set is the hint that is got *)
Theorem hint_round_trip : forall i o, I64MIN <= i <= I64MAX -> NONE <= o <= I64MAX -> hint_get (Some (hint_text (i, o))) = Some (i, o).
Proof.
  intros i o I O. unfold hint_get, hint_text; cbn [fst snd]. destruct (print_nocol i) as (N1 & E1), (print_nocol o) as (N2 & E2). destruct (Z.eqb_spec o NONE) as [->|NN].
  - rewrite strtok_col by assumption. rewrite (strtol_print i I). reflexivity.
  - rewrite strtok_col by assumption. rewrite strtok_end by assumption. rewrite (strtol_print i I), (strtol_print o O). reflexivity.
Qed.
Print Assumptions hint_round_trip.
Example hint_round_trip_ex : hint_text (1000000, -250) = str "1000000:-250" /\ hint_text (1000000, NONE) = str "1000000:" /\
  hint_get (Some (str "0x10:010")) = Some (16, 8).
Proof. repeat split. Qed.
(** A value without a number makes the daemon fail *)
Theorem hint_get_refuted : exists v, hint_get (Some v) = None.
Proof. exists (str ":"). reflexivity. Qed.
Print Assumptions hint_get_refuted.

(** ** Directory messages.  After a message the set of the producer has the hint that came
    with it.  Partial: hints with an offset. *)
Lemma set_info_text : forall old i o, I64MIN <= i <= I64MAX -> NONE <= o <= I64MAX ->
  set_info old (Some (hint_text (i, o))) = Some (if i <=? o then old else (i, if o =? NONE then snd old else o)).
Proof.
  intros old i o I O. unfold set_info, hint_text; cbn [fst snd]. destruct (print_nocol i) as (N1 & E1), (print_nocol o) as (N2 & E2). destruct (Z.eqb_spec o NONE) as [->|NN].
  - rewrite strtok_col by assumption. change (strtok []) with (@None (text * text)). rewrite (strtol_print i I). cbv iota zeta. destruct (i <=? NONE); reflexivity.
  - rewrite strtok_col by assumption. rewrite strtok_end by assumption. rewrite (strtol_print i I), (strtol_print o O). cbv zeta. destruct (Z.eqb_spec o NONE); [congruence|]. destruct (i <=? o); reflexivity.
Qed.
Theorem hint_message_partial : forall old i o, sound (i, o) -> o <> NONE -> set_info old (Some (hint_text (i, o))) = Some (i, o).
Proof.
  intros old i o (I & O) N. cbn in I, O. rewrite set_info_text by (unfold NONE, I64MIN, I64MAX in *; lia).
  destruct (Z.leb_spec i o); [lia|]. destruct (Z.eqb_spec o NONE); [congruence|reflexivity].
Qed.
Print Assumptions hint_message_partial.
Example hint_message_ex : sound (1000000, 100000) /\ set_info (5, 3) (Some (str "1000000:100000")) = Some (1000000, 100000).
Proof. split; [unfold sound; cbn; unfold NONE, I64MIN, I64MAX; lia|reflexivity]. Qed.
(** A hint without offset, as an updater without offset publishes it: the offset of the hint
    before stays, which need not fit the interval ... *)
Theorem hint_message_refuted : exists old h g, sound old /\ sound h /\ set_info old (Some (hint_text h)) = Some g /\ ~ same g (wanted (Some h)) /\ ~ sound g.
Proof.
  exists (10, 8), (5, NONE), (5, 8). split; [unfold sound; cbn; unfold NONE, I64MIN, I64MAX; lia|]. split; [unfold sound; cbn; unfold NONE, I64MIN, I64MAX; lia|].
  split; [reflexivity|]. split; [intros (_ & H); specialize (H ltac:(discriminate)); discriminate H|]. intros (_ & H). cbn in H. lia.
Qed.
Print Assumptions hint_message_refuted.
(** ... and of a new set it is 0, so that asynchronous sets become synchronous *)
Theorem hint_async : forall i, 0 < i <= I64MAX -> set_info fresh (Some (hint_text (i, NONE))) = Some (i, 0).
Proof. intros i I. rewrite set_info_text by (unfold NONE, I64MIN, I64MAX in *; lia). destruct (Z.leb_spec i NONE); [unfold NONE, I64MIN in *; lia|]. reflexivity. Qed.
Print Assumptions hint_async.
Theorem hint_async_refuted : exists h g, sound h /\ set_info fresh (Some (hint_text h)) = Some g /\ ~ same g (wanted (Some h)).
Proof. exists (1000000, NONE), (1000000, 0). split; [unfold sound; cbn; unfold NONE, I64MIN, I64MAX; lia|]. split; [reflexivity|]. intros (_ & H). specialize (H ltac:(discriminate)). discriminate H. Qed.
Print Assumptions hint_async_refuted.
(** A hint that was taken back stays *)
Theorem hint_removed_refuted : exists old g, sound old /\ set_info old None = Some g /\ ~ same g (wanted None).
Proof. exists (1000000, 0), (1000000, 0). split; [unfold sound; cbn; unfold NONE, I64MIN, I64MAX; lia|]. split; [reflexivity|]. intros (H & _). discriminate H. Qed.
Print Assumptions hint_removed_refuted.
(** A peer can make the daemon fail *)
Theorem hint_message_crash_refuted : exists old v, set_info old (Some v) = None.
Proof. exists fresh, []. reflexivity. Qed.
Print Assumptions hint_message_crash_refuted.
(** Exactly the texts without a character other than ":" do so *)
Theorem hint_crash_iff : forall old v, set_info old (Some v) = None <-> Forall (fun c => c = COL) v.
Proof.
  intros old v. unfold set_info, strtok. assert (G : skip v = [] <-> Forall (fun c => c = COL) v).
  { induction v as [|c v IH]; cbn; [split; auto|]. destruct (is c COL) eqn:E.
    - apply is_true in E. rewrite IH. split; [intros F; constructor; auto|intros F; inversion F; auto].
    - split; [intros X; inversion X|]. intros F. exfalso. apply is_false in E. apply E. inversion F; assumption. }
  rewrite <- G. destruct (skip v) as [|c t]; [split; reflexivity|]. split; [|intros X; inversion X]. destruct (until (c :: t)) as [a r]. cbv zeta.
  intros X. match type of X with (if ?b then _ else _) = _ => destruct b end; discriminate X.
Qed.
Print Assumptions hint_crash_iff.

(** ** Levels of aggregators.  Each level updates a set its skew later than the level below,
    as long as the sum of the skews fits into the interval. *)
Theorem hint_levels_partial : forall n skew i o, sound (i, o) -> o <> NONE -> 0 <= skew -> o + Z.of_nat n * skew < i + skew ->
  levels n skew (i, o) = Some (Some (i, o + Z.of_nat n * skew)).
Proof.
  induction n as [|n IH]; intros skew i o S N K L; [cbn; do 3 f_equal; lia|]. rewrite Nat2Z.inj_succ in *. cbn [levels].
  assert (B : Z.succ (Z.of_nat n) * skew = Z.of_nat n * skew + skew) by lia. rewrite B in *. pose proof (Z.mul_nonneg_nonneg (Z.of_nat n) skew ltac:(lia) K) as NN.
  rewrite IH by (try assumption; lia). destruct S as (I & O); cbn in I, O. unfold aggregate. rewrite hint_message_partial; [|split; cbn; lia|lia].
  cbn [fst]. destruct (Z.eqb_spec i 0); [lia|]. unfold task_sched; cbn [fst snd]. destruct (Z.eqb_spec (o + Z.of_nat n * skew) NONE); [unfold NONE in *; lia|]. do 3 f_equal. lia.
Qed.
Print Assumptions hint_levels_partial.
Example hint_levels_ex : sound (1000000, 0) /\ levels 3 100000 (1000000, 0) = Some (Some (1000000, 300000)).
Proof. split; [unfold sound; cbn; unfold NONE, I64MIN, I64MAX; lia|]. apply hint_levels_partial; unfold sound, NONE, I64MIN, I64MAX; cbn; lia. Qed.
(** With the default skew a set sampled ten times a second is not updated by the second level *)
Theorem hint_levels_refuted : exists n i o, sound (i, o) /\ levels n 100000 (i, o) = Some None.
Proof. exists 2%nat, 100000, 0. split; [unfold sound; cbn; unfold NONE, I64MIN, I64MAX; lia|]. vm_compute. reflexivity. Qed.
Print Assumptions hint_levels_refuted.
(** Nor is any set beyond that level *)
Theorem hint_levels_end : forall n skew i o, sound (i, o) -> o <> NONE -> 0 <= skew -> i <= o + Z.of_nat n * skew -> o + Z.of_nat n * skew < i + skew -> o + Z.of_nat n * skew <= I64MAX ->
  forall m, (n < m)%nat -> levels m skew (i, o) = Some None.
Proof.
  intros n skew i o S N K L1 L2 L3. assert (E : levels (1 + n) skew (i, o) = Some None).
  { cbn [levels Nat.add]. rewrite hint_levels_partial by assumption. destruct S as (I & O); cbn in I, O. unfold aggregate.
    rewrite set_info_text by (unfold NONE, I64MIN, I64MAX in *; lia). destruct (Z.leb_spec i (o + Z.of_nat n * skew)); [reflexivity|lia]. }
  intros m L. replace m with ((m - (1 + n)) + (1 + n))%nat by lia. generalize (m - (1 + n))%nat. induction n0 as [|k IH]; [exact E|]. cbn [levels Nat.add] in *. rewrite IH. reflexivity.
Qed.
Print Assumptions hint_levels_end.
