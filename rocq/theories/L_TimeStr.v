(** Lemmas about doubles that are integers, and about strtod. *)
From Verif Require Import M_TimeStr S_TimeStr.
From Coq Require Import Lia.
Local Open Scope Z_scope.

(** ** Integers below 2^53 are exact *)
Definition B53 : Z := 9007199254740992.
(** [x] is the number [p]. *)
Definition holds (x : double) (p : Z) : Prop :=
  match x with
  | S754_zero false => p = 0
  | S754_finite false m e => exists K, 0 <= K /\ 0 <= K + e /\ Z.pos m * 2 ^ (K + e) = p * 2 ^ K
  | _ => False
  end.
Lemma digits2_lo m : 2 ^ (Z.pos (digits2_pos m) - 1) <= Z.pos m.
Proof.
  induction m as [m IH|m IH|]; cbn [digits2_pos]; [| |cbn; lia];
  (replace (Z.pos (Pos.succ (digits2_pos m)) - 1) with (Z.succ (Z.pos (digits2_pos m) - 1)) by lia; rewrite Z.pow_succ_r by lia; lia).
Qed.
Lemma digits2_hi m : Z.pos m < 2 ^ Z.pos (digits2_pos m).
Proof.
  induction m as [m IH|m IH|]; cbn [digits2_pos]; [| |cbn; lia];
  (replace (Z.pos (Pos.succ (digits2_pos m))) with (Z.succ (Z.pos (digits2_pos m))) by lia; rewrite Z.pow_succ_r by lia; lia).
Qed.
Lemma digits2_le m d : 0 <= d -> Z.pos m < 2 ^ d -> Z.pos (digits2_pos m) <= d.
Proof.
  intros D H. pose proof (digits2_lo m) as L. destruct (Z.le_gt_cases (Z.pos (digits2_pos m)) d); [assumption|].
  assert (2 ^ d <= 2 ^ (Z.pos (digits2_pos m) - 1)) by (apply Z.pow_le_mono_r; lia). lia.
Qed.
Lemma digits2_ge m d : 2 ^ d <= Z.pos m -> d < Z.pos (digits2_pos m).
Proof.
  intros H. pose proof (digits2_hi m) as L. apply (Z.pow_lt_mono_r_iff 2); lia.
Qed.
Lemma digits2_at m d : 0 < d -> 2 ^ (d - 1) <= Z.pos m < 2 ^ d -> Z.pos (digits2_pos m) = d.
Proof. intros D [L H]. pose proof (digits2_le m d ltac:(lia) H). pose proof (digits2_ge m (d - 1) L). lia. Qed.
(** Shifting out zeros *)
Lemma shr_zero r : 0 < r -> shr_1 {| shr_m := 2 * r; shr_r := false; shr_s := false |} = {| shr_m := r; shr_r := false; shr_s := false |}.
Proof. intros H. destruct r as [|r|r]; try lia. reflexivity. Qed.
Lemma shr_zeros n r : 0 < r -> SpecFloat.iter_pos shr_1 n {| shr_m := r * 2 ^ Z.pos n; shr_r := false; shr_s := false |} =
  {| shr_m := r; shr_r := false; shr_s := false |}.
Proof.
  revert r. induction n as [n IH|n IH|]; intros r Hr; cbn [SpecFloat.iter_pos].
  - assert (Q : 0 < 2 ^ Z.pos n) by (apply Z.pow_pos_nonneg; lia).
    replace (r * 2 ^ Z.pos n~1) with (2 * (r * 2 ^ Z.pos n * 2 ^ Z.pos n)).
    2: { rewrite (Pos2Z.inj_xI n). replace (2 * Z.pos n + 1) with (1 + (Z.pos n + Z.pos n)) by lia. rewrite !Z.pow_add_r by lia. ring. }
    rewrite shr_zero by nia. rewrite (IH (r * 2 ^ Z.pos n)) by nia. apply IH, Hr.
  - assert (Q : 0 < 2 ^ Z.pos n) by (apply Z.pow_pos_nonneg; lia).
    replace (r * 2 ^ Z.pos n~0) with (r * 2 ^ Z.pos n * 2 ^ Z.pos n).
    2: { rewrite (Pos2Z.inj_xO n). replace (2 * Z.pos n) with (Z.pos n + Z.pos n) by lia. rewrite !Z.pow_add_r by lia. ring. }
    rewrite (IH (r * 2 ^ Z.pos n)) by nia. apply IH, Hr.
  - change (2 ^ 1) with 2. rewrite Z.mul_comm. apply shr_zero, Hr.
Qed.
Lemma round_exact m e p : 0 < p < B53 -> holds (S754_finite false m e) p ->
  holds (binary_round_aux 53 1024 false (Z.pos m) e loc_Exact) p.
Proof.
  intros Hp (K & HK & HKe & HV).
  set (d := Z.pos (digits2_pos (Z.to_pos p))).
  assert (DL : 2 ^ (d - 1) <= p) by (pose proof (digits2_lo (Z.to_pos p)); rewrite Z2Pos.id in * by lia; exact H).
  assert (DH : p < 2 ^ d) by (pose proof (digits2_hi (Z.to_pos p)); rewrite Z2Pos.id in * by lia; exact H).
  assert (D53 : 1 <= d <= 53).
  { split; [unfold d; lia|]. apply digits2_le; [lia|]. rewrite Z2Pos.id by lia. exact (proj2 Hp). }
  (* the number of digits of m *)
  assert (DM : Z.pos (digits2_pos m) + e = d).
  { assert (PK : 0 < 2 ^ K) by (apply Z.pow_pos_nonneg; lia).
    pose proof (digits2_lo m) as ML. pose proof (digits2_hi m) as MH. set (dm := Z.pos (digits2_pos m)) in *.
    assert (X1 : 2 ^ (dm - 1 + (K + e)) < 2 ^ (d + K)).
    { rewrite Z.pow_add_r by lia. rewrite (Z.pow_add_r 2 d K) by lia. 
      assert (2 ^ (dm - 1) * 2 ^ (K + e) <= Z.pos m * 2 ^ (K + e)) by (apply Z.mul_le_mono_nonneg_r; [apply Z.pow_nonneg; lia|exact ML]).
      assert (p * 2 ^ K < 2 ^ d * 2 ^ K) by (apply Z.mul_lt_mono_pos_r; assumption). lia. }
    assert (X2 : 2 ^ (d - 1 + K) < 2 ^ (dm + (K + e))).
    { rewrite Z.pow_add_r by lia. rewrite (Z.pow_add_r 2 dm (K + e)) by lia.
      assert (2 ^ (d - 1) * 2 ^ K <= p * 2 ^ K) by (apply Z.mul_le_mono_nonneg_r; lia).
      assert (Z.pos m * 2 ^ (K + e) < 2 ^ dm * 2 ^ (K + e)) by (apply Z.mul_lt_mono_pos_r; [apply Z.pow_pos_nonneg; lia|exact MH]). lia. }
    apply Z.pow_lt_mono_r_iff in X1, X2; lia. }
  assert (FX : fexp 53 1024 d = d - 53) by (unfold fexp, emin; lia).
  assert (FIN : forall q f, f <= 970 -> holds (S754_finite false q f) p -> fexp 53 1024 (Z.pos (digits2_pos q) + f) <= f ->
    holds (let '(mrs'', e'') := shr_fexp 53 1024 (Z.pos q) f loc_Exact in
      match shr_m mrs'' with 0 => S754_zero false | Z.pos m => if e'' <=? 1024 - 53 then S754_finite false m e'' else S754_infinity false | Z.neg _ => S754_nan end) p).
  { intros q f F V S. unfold shr_fexp. cbn [Zdigits2]. unfold shr.
    destruct (fexp 53 1024 (Z.pos (digits2_pos q) + f) - f) as [|x|x] eqn:E; [| lia |];
    (cbn [shr_record_of_loc shr_m]; destruct (Z.leb_spec f (1024 - 53)); [exact V|lia]). }
  unfold binary_round_aux. unfold shr_fexp at 1. cbn [Zdigits2 shr_record_of_loc]. rewrite DM, FX. unfold shr at 1.
  destruct (d - 53 - e) as [|n|n] eqn:EN.
  - cbn [shr_m loc_of_shr_record round_nearest_even]. apply FIN; [lia|exists K; auto|rewrite DM, FX; lia].
  - (* the low bits are zero *)
    assert (E0 : e < 0) by lia.
    assert (MP : Z.pos m = p * 2 ^ (- e)).
    { assert (P : 0 < 2 ^ (K + e)) by (apply Z.pow_pos_nonneg; lia). apply (Z.mul_reg_r _ _ (2 ^ (K + e))); [lia|].
      rewrite HV. rewrite <- Z.mul_assoc, <- Z.pow_add_r by lia. f_equal. f_equal. lia. }
    assert (MS : Z.pos m = p * 2 ^ (53 - d) * 2 ^ Z.pos n).
    { rewrite MP, <- Z.mul_assoc, <- Z.pow_add_r by lia. f_equal. f_equal. lia. }
    assert (PQ : 0 < p * 2 ^ (53 - d)) by (apply Z.mul_pos_pos; [lia|apply Z.pow_pos_nonneg; lia]).
    rewrite MS, (shr_zeros _ _ PQ).
    destruct (p * 2 ^ (53 - d)) as [|q|q] eqn:EQ; try lia.
    cbn [shr_m loc_of_shr_record round_nearest_even].
    assert (HQ : holds (S754_finite false q (e + Z.pos n)) p).
    { exists (53 - d). split; [lia|]. split; [lia|]. replace (53 - d + (e + Z.pos n)) with 0 by lia. rewrite Z.pow_0_r. lia. }
    apply FIN; [lia|exact HQ|].
    assert (DQ : Z.pos (digits2_pos q) = 53).
    { apply digits2_at; [lia|]. rewrite <- EQ. split.
      - replace (53 - 1) with (d - 1 + (53 - d)) by lia. rewrite Z.pow_add_r by lia. apply Z.mul_le_mono_nonneg_r; [apply Z.pow_nonneg; lia|exact DL].
      - replace 53 with (d + (53 - d)) at 2 by lia. rewrite Z.pow_add_r by lia. apply Z.mul_lt_mono_pos_r; [apply Z.pow_pos_nonneg; lia|exact DH]. }
    rewrite DQ. unfold fexp, emin. lia.
  - cbn [shr_m loc_of_shr_record round_nearest_even]. apply FIN; [lia|exists K; auto|rewrite DM, FX; lia].
Qed.
Lemma of_int_holds n : Z.of_N n < B53 -> holds (of_int n) (Z.of_N n).
Proof.
  intros H. unfold of_int. destruct n as [|p]; [reflexivity|]. cbn [Z.of_N binary_normalize] in *. unfold binary_round, shl_align.
  destruct (fexp 53 1024 (Z.pos (digits2_pos p) + 0) - 0) as [|d|d] eqn:E;
    [apply round_exact; [lia|exists 0; split; [lia|]; split; [lia|reflexivity]]..|].
  apply round_exact; [lia|]. exists (Z.pos d). split; [lia|].
  replace (Z.pos d + fexp 53 1024 (Z.pos (digits2_pos p) + 0)) with 0 by lia. split; [lia|].
  rewrite shift_pos_correct. rewrite Z.pow_0_r, Z.mul_1_r. rewrite Z.pow_pos_fold. ring.
Qed.
Lemma mul_holds x y p q : holds x p -> holds y q -> 0 <= p -> 0 <= q -> p * q < B53 -> holds (mul x y) (p * q).
Proof.
  intros HX HY P0 Q0 L. unfold mul, SFmul. destruct x as [[]| | |[] mx ex]; cbn [holds] in HX; try contradiction;
  destruct y as [[]| | |[] my ey]; cbn [holds] in HY; try contradiction.
  - subst. reflexivity.
  - subst. reflexivity.
  - subst. cbn. lia.
  - destruct HX as (K1 & A1 & A2 & A3), HY as (K2 & B1 & B2 & B3).
    assert (V : holds (S754_finite false (mx * my) (ex + ey)) (p * q)).
    { exists (K1 + K2). split; [lia|]. split; [lia|]. replace (K1 + K2 + (ex + ey)) with (K1 + ex + (K2 + ey)) by lia.
      rewrite (Z.pow_add_r 2 (K1 + ex)) by lia.
      rewrite Pos2Z.inj_mul. transitivity ((Z.pos mx * 2 ^ (K1 + ex)) * (Z.pos my * 2 ^ (K2 + ey))); [ring|]. rewrite A3, B3.
      rewrite Z.pow_add_r by lia. ring. }
    cbn [xorb]. apply round_exact; [|exact V]. split; [|exact L].
    assert (0 < p * 2 ^ K1) by (rewrite <- A3; apply Z.mul_pos_pos; [lia|apply Z.pow_pos_nonneg; lia]).
    assert (0 < q * 2 ^ K2) by (rewrite <- B3; apply Z.mul_pos_pos; [lia|apply Z.pow_pos_nonneg; lia]).
    assert (0 < 2 ^ K1) by (apply Z.pow_pos_nonneg; lia). assert (0 < 2 ^ K2) by (apply Z.pow_pos_nonneg; lia). nia.
Qed.
Lemma to_long_holds x p : holds x p -> 0 <= p < B53 -> to_long x = Some p.
Proof.
  intros H P. destruct x as [[]| | |[] m e]; cbn [holds] in H; try contradiction; [now subst|].
  destruct H as (K & A1 & A2 & A3). cbn [to_long].
  assert (V : (if 0 <=? e then Z.pos m * 2 ^ e else Z.pos m / 2 ^ (- e)) = p).
  { destruct (Z.leb_spec 0 e).
    - assert (Q : 0 < 2 ^ K) by (apply Z.pow_pos_nonneg; lia). apply (Z.mul_reg_r _ _ (2 ^ K)); [lia|]. rewrite <- A3.
      rewrite Z.pow_add_r by lia. ring.
    - assert (Q : 0 < 2 ^ (K + e)) by (apply Z.pow_pos_nonneg; lia).
      assert (M : Z.pos m = p * 2 ^ (- e)).
      { apply (Z.mul_reg_r _ _ (2 ^ (K + e))); [lia|]. rewrite A3. rewrite <- Z.mul_assoc, <- Z.pow_add_r by lia. f_equal. f_equal. lia. }
      rewrite M. apply Z.div_mul. assert (0 < 2 ^ (- e)) by (apply Z.pow_pos_nonneg; lia). lia. }
  rewrite V. unfold B53 in P. destruct (Z.leb_spec (-9223372036854775808) p); [|lia]. destruct (Z.leb_spec p 9223372036854775807); [reflexivity|lia].
Qed.

(** ** Texts *)
Local Open Scope N_scope.
Definition stops (r : text) : Prop := match r with [] => True | c :: _ => isdigit c = false /\ c <> 46 /\ c <> 101 /\ c <> 69 /\ c <> 120 /\ c <> 88 end.
Lemma take_digits ds r : Forall (fun c => isdigit c = true) ds -> match r with [] => True | c :: _ => isdigit c = false end ->
  take_while isdigit (ds ++ r) = ds /\ skip_while isdigit (ds ++ r) = r.
Proof.
  intros F S. induction F as [|c ds Hc F IH]; cbn.
  - destruct r as [|c r]; [auto|]. cbn. now rewrite S.
  - rewrite Hc. destruct IH as [-> ->]. auto.
Qed.
Lemma digit_range c : isdigit c = true -> 48 <= c <= 57.
Proof. unfold isdigit. intros H. apply andb_true_iff in H. destruct H as [H1 H2]. apply N.leb_le in H1, H2. auto. Qed.
Lemma exponent_none r : stops r -> exponent r = (0%Z, r).
Proof.
  intros S. destruct r as [|c r]; [reflexivity|]. destruct S as (_ & _ & S1 & S2 & _). cbn.
  destruct (N.eqb_spec c 101); [congruence|]. destruct (N.eqb_spec c 69); [congruence|]. reflexivity.
Qed.
Definition dec (fp : text) : text := match fp with [] => [] | _ => 46 :: fp end.
Lemma strtod_number ip fp r : is_number ip -> Forall (fun c => isdigit c = true) fp -> stops r ->
  strtod (ip ++ dec fp ++ r) = Num (nearest (digits (ip ++ fp)) (- Z.of_nat (length fp))) r.
Proof.
  intros [NE F] FF S. unfold strtod. destruct ip as [|c ip]; [congruence|].
  pose proof (digit_range c ltac:(now inversion F)) as HC.
  assert (SK : skip_while isspace ((c :: ip) ++ dec fp ++ r) = (c :: ip) ++ dec fp ++ r).
  { cbn [app skip_while]. assert (HS : isspace c = false).
    { unfold isspace. destruct (N.leb_spec c 13); [lia|]. rewrite andb_false_r. apply N.eqb_neq. lia. }
    now rewrite HS. }
  rewrite SK. cbn [app]. cbv iota.
  destruct (N.eqb_spec c 43); [lia|]. destruct (N.eqb_spec c 45); [lia|].
  assert (TL : tolower c = c) by (unfold tolower; destruct (N.leb_spec 65 c); [lia|reflexivity]).
  cbn [map]. rewrite TL. cbn [starts].
  destruct (N.eqb_spec c 105); [lia|]. destruct (N.eqb_spec c 110); [lia|]. cbn [andb].
  assert (HX : (c =? 48) && starts (map tolower (ip ++ dec fp ++ r)) [120] = false).
  { rewrite andb_comm. destruct ip as [|c2 ip].
    - cbn [app]. destruct fp as [|c3 fp]; cbn [dec app].
      + destruct r as [|c2 r]; [reflexivity|]. cbn [map starts]. destruct S as (_ & _ & _ & _ & S1 & S2).
        assert (Q : tolower c2 <> 120). { unfold tolower. destruct (N.leb_spec 65 c2), (N.leb_spec c2 90); cbn [andb]; try lia. }
        destruct (N.eqb_spec (tolower c2) 120); [congruence|reflexivity].
      + reflexivity.
    - cbn [app map starts]. pose proof (digit_range c2 ltac:(inversion F as [|? ? ? F2]; now inversion F2)) as HC2.
      assert (Q : tolower c2 = c2) by (unfold tolower; destruct (N.leb_spec 65 c2); [lia|reflexivity]). rewrite Q.
      destruct (N.eqb_spec c2 120); [lia|reflexivity]. }
  cbn [starts] in HX. 
  match goal with |- context[(c =? 48) && ?X && ?Y] => replace ((c =? 48) && X && Y) with false by (rewrite HX; reflexivity) end.
  assert (TD : take_while isdigit (c :: ip ++ dec fp ++ r) = c :: ip /\ skip_while isdigit (c :: ip ++ dec fp ++ r) = dec fp ++ r).
  { apply (take_digits (c :: ip) (dec fp ++ r) F). destruct fp; cbn [dec app]; [destruct r; [exact I|apply S]|reflexivity]. }
  destruct TD as [-> ->]. destruct fp as [|x fp].
  - cbn [dec app length]. rewrite app_nil_r.
    assert (R : match r with c0 :: r0 => if (c0 =? 46) && true then (take_while isdigit r0, skip_while isdigit r0) else ([], r) | [] => ([], r) end = ([], r)).
    { destruct r as [|c0 r]; [reflexivity|]. destruct S as (_ & S & _). destruct (N.eqb_spec c0 46); [congruence|reflexivity]. }
    rewrite R, app_nil_r, (exponent_none r S). reflexivity.
  - cbn [dec app]. rewrite N.eqb_refl. cbn [andb].
    destruct (take_digits (x :: fp) r FF ltac:(destruct r; [exact I|apply S])) as [T1 T2]. cbn [app] in T1, T2. rewrite T1, T2, (exponent_none r S).
    cbn [app]. reflexivity.
Qed.
