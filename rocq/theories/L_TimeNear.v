(** Bounds on rounding, without reals. *)
From Verif Require Import M_TimeStr S_TimeStr L_TimeStr.
From Coq Require Import Lia QArith Qpower Lqa.
Local Open Scope Q_scope.

Definition p2 (e : Z) : Q := Qpower (2 # 1) e.
Definition eps : Q := 1 # 4503599627370496.
Lemma p2_pos e : 0 < p2 e.
Proof.
  unfold p2. destruct e as [|p|p]; cbn; [reflexivity| |].
  - rewrite <- Qpower_decomp_pos || idtac. pose proof (Qpower_pos_positive (2 # 1) p ltac:(discriminate)) as H.
    destruct (Qlt_le_dec 0 (Qpower_positive (2 # 1) p)) as [L|L]; [exact L|].
    assert (E : Qpower_positive (2 # 1) p == 0) by lra. exfalso. exact (Qpower_not_0_positive (2 # 1) p ltac:(discriminate) E).
  - apply Qinv_lt_0_compat. pose proof (Qpower_pos_positive (2 # 1) p ltac:(discriminate)) as H.
    destruct (Qlt_le_dec 0 (Qpower_positive (2 # 1) p)) as [L|L]; [exact L|].
    assert (E : Qpower_positive (2 # 1) p == 0) by lra. exfalso. exact (Qpower_not_0_positive (2 # 1) p ltac:(discriminate) E).
Qed.
Lemma p2_add a b : p2 (a + b) == p2 a * p2 b.
Proof. unfold p2. apply Qpower_plus. discriminate. Qed.
Lemma p2_Z n : (0 <= n)%Z -> p2 n == inject_Z (2 ^ n).
Proof. intros H. unfold p2. symmetry. apply (Zpower_Qpower 2 n H). Qed.
Lemma p2_le a b : (a <= b)%Z -> p2 a <= p2 b.
Proof.
  intros H. replace b with (a + (b - a))%Z by lia. rewrite p2_add, (p2_Z (b - a)) by lia.
  assert (1 <= inject_Z (2 ^ (b - a))).
  { change 1 with (inject_Z 1). rewrite <- Zle_Qle. pose proof (Z.pow_pos_nonneg 2 (b - a)). lia. }
  pose proof (p2_pos a). nra.
Qed.
Lemma p2_lt_inv a b : p2 a < p2 b -> (a < b)%Z.
Proof. intros H. destruct (Z.lt_ge_cases a b) as [L|L]; [exact L|]. pose proof (p2_le b a L). lra. Qed.
Definition val (m e : Z) : Q := inject_Z m * p2 e.
Lemma val_shift m e n : (0 <= n)%Z -> val (m * 2 ^ n) e == val m (e + n).
Proof. intros H. unfold val. rewrite p2_add, (p2_Z n H), inject_Z_mult. ring. Qed.
Lemma val_le m m' e : (m <= m')%Z -> val m e <= val m' e.
Proof. intros H. unfold val. apply Qmult_le_compat_r; [now rewrite <- Zle_Qle|]. pose proof (p2_pos e). lra. Qed.
Lemma val_lt m m' e : (m < m')%Z -> val m e < val m' e.
Proof. intros H. unfold val. apply Qmult_lt_compat_r; [apply p2_pos|now rewrite <- Zlt_Qlt]. Qed.
Lemma val_p2 n e : (0 <= n)%Z -> val (2 ^ n) e == p2 (n + e).
Proof. intros H. unfold val. rewrite p2_add, (p2_Z n H). reflexivity. Qed.
Lemma val_digits_lo m e : p2 (Z.pos (digits2_pos m) + e - 1) <= val (Z.pos m) e.
Proof.
  replace (Z.pos (digits2_pos m) + e - 1)%Z with (Z.pos (digits2_pos m) - 1 + e)%Z by lia. rewrite <- val_p2 by lia.
  apply val_le, digits2_lo.
Qed.
Lemma val_digits_hi m e : val (Z.pos m) e < p2 (Z.pos (digits2_pos m) + e).
Proof. rewrite <- val_p2 by lia. apply val_lt, digits2_hi. Qed.

(** ** Rounding *)
Lemma shr_half r : (0 <= shr_m r)%Z -> shr_m (shr_1 r) = (shr_m r / 2)%Z.
Proof.
  destruct r as [m r s]. cbn [shr_m]. intros H. unfold shr_1. destruct m as [|[p|p|]|p]; try lia; cbn [shr_m]; try reflexivity.
  - rewrite (Pos2Z.inj_xI p). rewrite Z.mul_comm, Z.div_add_l by lia. cbn. lia.
  - rewrite (Pos2Z.inj_xO p). rewrite Z.mul_comm, Z.div_mul by lia. reflexivity.
Qed.
Lemma shr_floor n r : (0 <= shr_m r)%Z -> shr_m (SpecFloat.iter_pos shr_1 n r) = (shr_m r / 2 ^ Z.pos n)%Z.
Proof.
  revert r. induction n as [n IH|n IH|]; intros r H; cbn [SpecFloat.iter_pos].
  - assert (Q : (0 < 2 ^ Z.pos n)%Z) by (apply Z.pow_pos_nonneg; lia).
    assert (H1 : (0 <= shr_m (shr_1 r))%Z) by (rewrite shr_half by exact H; apply Z.div_pos; lia).
    rewrite IH, IH, shr_half; auto; [|rewrite IH by exact H1; apply Z.div_pos; lia].
    rewrite !Z.div_div by lia. f_equal. rewrite (Pos2Z.inj_xI n).
    replace (2 * Z.pos n + 1)%Z with (1 + (Z.pos n + Z.pos n))%Z by lia. rewrite !Z.pow_add_r by lia. ring.
  - assert (Q : (0 < 2 ^ Z.pos n)%Z) by (apply Z.pow_pos_nonneg; lia).
    rewrite IH, IH; auto; [|rewrite IH by exact H; apply Z.div_pos; lia].
    rewrite !Z.div_div by lia. f_equal. rewrite (Pos2Z.inj_xO n).
    replace (2 * Z.pos n)%Z with (Z.pos n + Z.pos n)%Z by lia. rewrite !Z.pow_add_r by lia. ring.
  - rewrite shr_half by exact H. reflexivity.
Qed.
Lemma rne_bound m l : (m <= round_nearest_even m l <= m + 1)%Z.
Proof. unfold round_nearest_even. destruct l as [|[]]; try destruct (Z.even m); lia. Qed.
(** The last part of the rounding changes only the form. *)
Lemma settle m2 e1 : (0 < m2 <= 2 ^ 53)%Z -> (-1060 <= e1 <= 960)%Z -> exists m' e',
  (let '(mrs'', e'') := shr_fexp 53 1024 m2 e1 loc_Exact in
   match shr_m mrs'' with 0%Z => S754_zero false
   | Z.pos m => if (e'' <=? 1024 - 53)%Z then S754_finite false m e'' else S754_infinity false | Z.neg _ => S754_nan end) = S754_finite false m' e' /\
  val (Z.pos m') e' == val m2 e1.
Proof.
  intros H E. destruct m2 as [|m|m]; try lia. unfold shr_fexp. cbn [Zdigits2].
  assert (FX : (fexp 53 1024 (Z.pos (digits2_pos m) + e1) = Z.max (Z.pos (digits2_pos m) + e1 - 53) (-1074))%Z) by reflexivity.
  unfold shr. destruct (fexp 53 1024 (Z.pos (digits2_pos m) + e1) - e1)%Z as [|n|n] eqn:EN.
  - cbn [shr_record_of_loc shr_m]. exists m, e1. destruct (Z.leb_spec e1 (1024 - 53)); [split; reflexivity|lia].
  - assert (M : Z.pos m = (2 ^ 53)%Z).
    { assert (53 < Z.pos (digits2_pos m))%Z by lia. pose proof (digits2_lo m) as L.
      assert (2 ^ 53 <= 2 ^ (Z.pos (digits2_pos m) - 1))%Z by (apply Z.pow_le_mono_r; lia). lia. }
    assert (D : Z.pos (digits2_pos m) = 54%Z) by (apply digits2_at; [lia|rewrite M; split; [apply Z.le_refl|reflexivity]]).
    assert (n = 1%positive) by lia. subst n.
    change (2 ^ 53)%Z with (2 ^ 52 * 2 ^ Z.pos 1)%Z in M. cbn [shr_record_of_loc]. rewrite M, shr_zeros by reflexivity. cbn [shr_m].
    destruct (Z.leb_spec (e1 + 1) (1024 - 53)); [|lia]. exists 4503599627370496%positive, (e1 + 1)%Z. split; [reflexivity|].
    change (Z.pos 4503599627370496) with (2 ^ 52)%Z. rewrite <- val_shift by lia. reflexivity.
  - cbn [shr_record_of_loc shr_m]. exists m, e1. destruct (Z.leb_spec e1 (1024 - 53)); [split; reflexivity|lia].
Qed.
Lemma round_near m e l X : val (Z.pos m) e <= X -> X <= val (Z.pos m + 1) e -> (l = loc_Exact -> X == val (Z.pos m) e) ->
  (l <> loc_Exact -> (53 <= Z.pos (digits2_pos m))%Z) -> (-1000 <= Z.pos (digits2_pos m) + e <= 900)%Z ->
  exists m' e', binary_round_aux 53 1024 false (Z.pos m) e l = S754_finite false m' e' /\
    X * (1 - eps) <= val (Z.pos m') e' /\ val (Z.pos m') e' <= X * (1 + eps).
Proof.
  intros XL XH XE LI D. unfold binary_round_aux. unfold shr_fexp at 1. cbn [Zdigits2].
  assert (FX : (fexp 53 1024 (Z.pos (digits2_pos m) + e) = Z.pos (digits2_pos m) + e - 53)%Z) by (unfold fexp, emin; lia). rewrite FX.
  assert (XP : 0 < X). { pose proof (val_digits_lo m e). pose proof (p2_pos (Z.pos (digits2_pos m) + e - 1)). lra. }
  (* an exact integer or one of two neighbours *)
  assert (NB : forall m1 e1 m2 k, (2 ^ 52 <= m1)%Z -> (m1 < 2 ^ 53)%Z -> (-1060 <= e1 <= 960)%Z -> val m1 e1 <= X -> X <= val (m1 + 1) e1 ->
    m2 = round_nearest_even m1 k -> exists m' e',
    (let '(mrs'', e'') := shr_fexp 53 1024 m2 e1 loc_Exact in
     match shr_m mrs'' with 0%Z => S754_zero false
     | Z.pos m => if (e'' <=? 1024 - 53)%Z then S754_finite false m e'' else S754_infinity false | Z.neg _ => S754_nan end) = S754_finite false m' e' /\
    X * (1 - eps) <= val (Z.pos m') e' /\ val (Z.pos m') e' <= X * (1 + eps)).
  { intros m1 e1 m2 k L H E1 V1 V2 ->. pose proof (rne_bound m1 k) as RB. destruct (settle (round_nearest_even m1 k) e1) as (m' & e' & Q & V); [lia|exact E1|].
    exists m', e'. split; [exact Q|]. rewrite V.
    pose proof (val_le m1 _ e1 (proj1 RB)) as A1. pose proof (val_le _ (m1 + 1) e1 (proj2 RB)) as A2.
    assert (V3 : val (m1 + 1) e1 == val m1 e1 + p2 e1) by (unfold val; rewrite inject_Z_plus; ring).
    assert (V4 : p2 e1 <= eps * val m1 e1).
    { pose proof (val_le _ _ e1 L) as A. unfold val in A at 1. pose proof (p2_pos e1). change (inject_Z (2 ^ 52)) with (4503599627370496 # 1) in A. unfold eps. lra. }
    unfold eps in *. split; lra. }
  unfold shr at 1. destruct (Z.pos (digits2_pos m) + e - 53 - e)%Z as [|n|n] eqn:EN.
  - (* 53 digits *)
    assert (D53 : Z.pos (digits2_pos m) = 53%Z) by lia.
    assert (SM : shr_m (shr_record_of_loc (Z.pos m) l) = Z.pos m) by (destruct l as [|[]]; reflexivity). rewrite SM.
    apply (NB (Z.pos m) e _ (loc_of_shr_record (shr_record_of_loc (Z.pos m) l))); auto; [| |lia].
    + pose proof (digits2_lo m) as A. rewrite D53 in A. exact A.
    + pose proof (digits2_hi m) as A. rewrite D53 in A. exact A.
  - (* more *)
    set (m1 := (Z.pos m / 2 ^ Z.pos n)%Z).
    assert (P : (0 < 2 ^ Z.pos n)%Z) by (apply Z.pow_pos_nonneg; lia).
    assert (SM : shr_m (SpecFloat.iter_pos shr_1 n (shr_record_of_loc (Z.pos m) l)) = m1).
    { rewrite shr_floor by (destruct l as [|[]]; cbn; lia). destruct l as [|[]]; reflexivity. }
    rewrite SM. pose proof (Z.div_mod (Z.pos m) (2 ^ Z.pos n) ltac:(lia)) as DM. fold m1 in DM.
    pose proof (Z.mod_pos_bound (Z.pos m) (2 ^ Z.pos n) P) as MB.
    apply (NB m1 (e + Z.pos n)%Z _ (loc_of_shr_record (SpecFloat.iter_pos shr_1 n (shr_record_of_loc (Z.pos m) l)))); [| |lia| | |reflexivity].
    + unfold m1. apply Z.div_le_lower_bound; [exact P|]. rewrite <- Z.pow_add_r by lia. pose proof (digits2_lo m) as A.
      replace (Z.pos n + 52)%Z with (Z.pos (digits2_pos m) - 1)%Z by lia. exact A.
    + unfold m1. apply Z.div_lt_upper_bound; [exact P|]. rewrite <- Z.pow_add_r by lia. pose proof (digits2_hi m) as A.
      replace (Z.pos n + 53)%Z with (Z.pos (digits2_pos m))%Z by lia. exact A.
    + rewrite <- val_shift by lia. pose proof (val_le (m1 * 2 ^ Z.pos n) (Z.pos m) e ltac:(lia)). lra.
    + rewrite <- val_shift by lia. pose proof (val_le (Z.pos m + 1) ((m1 + 1) * 2 ^ Z.pos n) e ltac:(lia)). lra.
  - (* fewer, so exact *)
    destruct l as [|c]; [|specialize (LI ltac:(discriminate)); lia]. cbn [shr_record_of_loc shr_m loc_of_shr_record round_nearest_even].
    pose proof (digits2_hi m) as A. assert (2 ^ Z.pos (digits2_pos m) <= 2 ^ 53)%Z by (apply Z.pow_le_mono_r; lia).
    destruct (settle (Z.pos m) e) as (m' & e' & Q & V); [lia|lia|]. exists m', e'. split; [exact Q|]. rewrite V. specialize (XE eq_refl).
    unfold eps. split; lra.
Qed.

(** ** Numbers near a rational *)
Definition near (x : double) (q d : Q) : Prop :=
  exists m e, x = S754_finite false m e /\ q * (1 - d) <= val (Z.pos m) e /\ val (Z.pos m) e <= q * (1 + d).
Lemma val_mul a b c d : val (a * b) (c + d) == val a c * val b d.
Proof. unfold val. rewrite p2_add, inject_Z_mult. ring. Qed.
Lemma val_range m e a b : p2 a <= val (Z.pos m) e -> val (Z.pos m) e <= p2 b -> (a < Z.pos (digits2_pos m) + e <= b + 1)%Z.
Proof.
  intros A B. pose proof (val_digits_lo m e). pose proof (val_digits_hi m e). split.
  - apply p2_lt_inv. lra.
  - assert (Z.pos (digits2_pos m) + e - 1 < b + 1)%Z; [|lia]. apply p2_lt_inv.
    assert (p2 (b + 1) == 2 * p2 b) by (rewrite p2_add; change (p2 1) with (2 # 1); ring). pose proof (p2_pos b). lra.
Qed.
Lemma near_mul x q d mc ec F : near x q d -> val (Z.pos mc) ec == F -> 1 <= F -> F <= p2 40 -> p2 (-997) <= q -> q <= p2 800 -> 0 <= d -> d <= 1 # 4 ->
  near (mul x (S754_finite false mc ec)) (q * F) (d + 2 * eps).
Proof.
  intros (m & e & -> & L & H) VF F1 F2 Q1 Q2 D0 D1. unfold mul, SFmul. cbn [xorb].
  pose proof (p2_pos (-997)) as PP. set (X := val (Z.pos m) e) in *.
  assert (EX : val (Z.pos (m * mc)) (e + ec) == X * F) by (rewrite Pos2Z.inj_mul, val_mul, VF; reflexivity).
  assert (XP : 0 < X) by nra.
  assert (R1 : p2 (-998) <= X * F).
  { assert (p2 (-997) == 2 * p2 (-998)) by (change (-997)%Z with (-998 + 1)%Z; rewrite p2_add; change (p2 1) with (2 # 1); ring).
    assert (X <= X * F) by nra. assert (q * (3 # 4) <= X) by nra. lra. }
  assert (R2 : X * F <= p2 841).
  { change 841%Z with (801 + 40)%Z. rewrite p2_add. assert (X <= p2 801).
    { change 801%Z with (800 + 1)%Z. rewrite p2_add. change (p2 1) with (2 # 1). nra. }
    nra. }
  assert (RG : (-1000 <= Z.pos (digits2_pos (m * mc)) + (e + ec) <= 900)%Z).
  { pose proof (val_range (m * mc) (e + ec) (-998) 841 ltac:(lra) ltac:(lra)). lia. }
  destruct (round_near (m * mc) (e + ec) loc_Exact (X * F)) as (m' & e' & E & A & B).
  - lra.
  - rewrite <- EX. apply val_le. lia.
  - intros _. lra.
  - congruence.
  - exact RG.
  - exists m', e'. split; [exact E|].
    assert (QF : 0 < q * F) by nra.
    assert (L' : q * F * (1 - d) <= X * F) by nra. assert (H' : X * F <= q * F * (1 + d)) by nra.
    assert (QD : q * F * d <= q * F * (1 # 4)) by nra. assert (QD0 : 0 <= q * F * d) by nra.
    unfold eps in *. split; lra.
Qed.
Lemma nearest_near p k : (1 <= k <= 300)%Z -> (Z.pos p <= 2 ^ 48 * 10 ^ k)%Z ->
  near (nearest (Npos p) (- k)) (inject_Z (Z.pos p) / inject_Z (10 ^ k)) eps.
Proof.
  intros K PB. unfold nearest. destruct (Z.leb_spec 0 (- k)); [lia|]. rewrite Z.opp_involutive.
  assert (TP : (0 < 10 ^ k)%Z) by (apply Z.pow_pos_nonneg; lia).
  set (t := Z.to_pos (10 ^ k)). assert (ET : Z.pos t = (10 ^ k)%Z) by (apply Z2Pos.id; exact TP). rewrite <- ET in *.
  assert (TB : (Z.pos t < 2 ^ 997)%Z).
  { rewrite ET. apply Z.le_lt_trans with (10 ^ 300)%Z; [apply Z.pow_le_mono_r; lia|]. vm_compute. reflexivity. }
  pose proof (digits2_lo p) as P1. pose proof (digits2_hi p) as P2. pose proof (digits2_lo t) as T1. pose proof (digits2_hi t) as T2.
  pose proof (digits2_le t 997 ltac:(lia) TB) as D2.
  set (d1 := Z.pos (digits2_pos p)) in *. set (d2 := Z.pos (digits2_pos t)) in *.
  assert (D12 : (d1 - d2 <= 48)%Z).
  { assert (A : (2 ^ (d1 - 1) < 2 ^ (48 + d2))%Z) by (rewrite (Z.pow_add_r 2 48 d2) by lia; nia).
    apply Z.pow_lt_mono_r_iff in A; lia. }
  unfold SFdiv, SFdiv_core_binary. cbn [Zdigits2 xorb]. fold d1 d2.
  replace (fexp 53 1024 (d1 + 0 - (d2 + 0))) with (d1 - d2 - 53)%Z by (unfold fexp, emin; lia).
  rewrite Z.sub_diag. rewrite Z.min_l by lia. set (e' := (d1 - d2 - 53)%Z). set (s := (0 - e')%Z).
  assert (S0 : (0 < s)%Z) by lia. destruct s as [|sp|sp] eqn:ES; try lia.
  assert (SH : Z.shiftl (Z.pos p) (Z.pos sp) = (Z.pos p * 2 ^ Z.pos sp)%Z) by (apply Z.shiftl_mul_pow2; lia). rewrite SH.
  assert (M' : (0 < Z.pos p * 2 ^ Z.pos sp)%Z) by (apply Z.mul_pos_pos; [lia|apply Z.pow_pos_nonneg; lia]).
  destruct (Z.div_eucl (Z.pos p * 2 ^ Z.pos sp) (Z.pos t)) as [q r] eqn:DE.
  pose proof (Z_div_mod (Z.pos p * 2 ^ Z.pos sp) (Z.pos t) ltac:(lia)) as DM. rewrite DE in DM. destruct DM as [DM RB].
  assert (QL : (2 ^ (d1 - 1 + Z.pos sp - d2) <= q)%Z).
  { assert (A : (2 ^ (d1 - 1 + Z.pos sp - d2) * Z.pos t <= Z.pos p * 2 ^ Z.pos sp)%Z).
    { apply Z.le_trans with (2 ^ (d1 - 1 + Z.pos sp - d2) * 2 ^ d2)%Z; [apply Z.mul_le_mono_nonneg_l; [apply Z.pow_nonneg|]; lia|].
      rewrite <- Z.pow_add_r by lia. replace (d1 - 1 + Z.pos sp - d2 + d2)%Z with (d1 - 1 + Z.pos sp)%Z by lia.
      rewrite Z.pow_add_r by lia. apply Z.mul_le_mono_nonneg_r; [apply Z.pow_nonneg; lia|exact P1]. }
    assert (2 ^ (d1 - 1 + Z.pos sp - d2) < q + 1)%Z; [|lia]. apply (Z.mul_lt_mono_pos_r (Z.pos t)); lia. }
  assert (QP : (2 ^ 52 <= q)%Z) by (apply Z.le_trans with (2 := QL); apply Z.pow_le_mono_r; lia).
  destruct q as [|q|q]; try lia.
  assert (VE : forall a, val a e' == inject_Z a / inject_Z (2 ^ Z.pos sp)).
  { intros a. unfold val. assert (A : p2 e' * inject_Z (2 ^ Z.pos sp) == 1).
    { rewrite <- p2_Z by lia. rewrite <- p2_add. replace (e' + Z.pos sp)%Z with 0%Z by lia. reflexivity. }
    assert (B : ~ inject_Z (2 ^ Z.pos sp) == 0) by (intros B; rewrite B in A; lra).
    field_simplify_eq; [|exact B]. rewrite <- Qmult_assoc, A. ring. }
  assert (TQ : 0 < inject_Z (Z.pos t)) by reflexivity.
  assert (SQ : 0 < inject_Z (2 ^ Z.pos sp)) by (change 0 with (inject_Z 0); rewrite <- Zlt_Qlt; apply Z.pow_pos_nonneg; lia).
  assert (LE : forall a, (a * Z.pos t <= Z.pos p * 2 ^ Z.pos sp)%Z -> val a e' <= inject_Z (Z.pos p) / inject_Z (Z.pos t)).
  { intros a A. rewrite VE. apply Qle_shift_div_l; [exact TQ|]. unfold Qdiv. rewrite <- Qmult_assoc, (Qmult_comm (/ _)), Qmult_assoc.
    apply Qle_shift_div_r; [exact SQ|]. rewrite <- !inject_Z_mult, <- Zle_Qle. exact A. }
  assert (GE : forall a, (Z.pos p * 2 ^ Z.pos sp <= a * Z.pos t)%Z -> inject_Z (Z.pos p) / inject_Z (Z.pos t) <= val a e').
  { intros a A. rewrite VE. apply Qle_shift_div_r; [exact TQ|]. unfold Qdiv. rewrite <- Qmult_assoc, (Qmult_comm (/ _)), Qmult_assoc.
    apply Qle_shift_div_l; [exact SQ|]. rewrite <- !inject_Z_mult, <- Zle_Qle. exact A. }
  destruct (round_near q e' (new_location (Z.pos t) r) (inject_Z (Z.pos p) / inject_Z (Z.pos t))) as (m' & ee & E & A & B).
  - apply LE. lia.
  - apply GE. lia.
  - intros NL. assert (r = 0%Z).
    { unfold new_location, new_location_even, new_location_odd in NL. destruct (Z.eq_dec r 0) as [|N]; [assumption|].
      assert (Zeq_bool r 0 = false) as Z0 by (destruct (Zeq_bool r 0) eqn:Z0; [apply Zeq_bool_eq in Z0; contradiction|reflexivity]).
      destruct (Z.even (Z.pos t)); rewrite Z0 in NL; discriminate NL. }
    apply Qle_antisym; [apply GE|apply LE]; lia.
  - intros _. pose proof (digits2_ge q 52 QP). lia.
  - assert (DQ1 : (d1 - 1 + Z.pos sp - d2 < Z.pos (digits2_pos q))%Z) by (apply digits2_ge; exact QL).
    assert (DQ2 : (Z.pos (digits2_pos q) <= d1 + Z.pos sp - d2 + 1)%Z).
    { apply digits2_le; [lia|]. apply (Z.mul_lt_mono_pos_r (Z.pos t)); [lia|].
      apply Z.le_lt_trans with (Z.pos p * 2 ^ Z.pos sp)%Z; [lia|].
      apply Z.lt_le_trans with (2 ^ d1 * 2 ^ Z.pos sp)%Z; [apply Z.mul_lt_mono_pos_r; [apply Z.pow_pos_nonneg; lia|exact P2]|].
      apply Z.le_trans with (2 ^ (d1 + Z.pos sp - d2 + 1) * 2 ^ (d2 - 1))%Z.
      - rewrite <- !Z.pow_add_r by lia. apply Z.pow_le_mono_r; lia.
      - apply Z.mul_le_mono_nonneg_l; [apply Z.pow_nonneg; lia|exact T1]. }
    lia.
  - exists m', ee. auto.
Qed.
(** Conversion to long *)
Lemma near_long x E d : near x (inject_Z E) d -> (1 <= E < 2 ^ 48)%Z -> 0 <= d -> d <= 1 # 281474976710656 ->
  to_long x = Some E \/ to_long x = Some (E - 1)%Z.
Proof.
  intros (m & e & -> & L & H) EB D0 D1. cbn [to_long].
  assert (E1 : inject_Z E * d < 1).
  { assert (inject_Z E <= inject_Z (2 ^ 48 - 1)) as A by (rewrite <- Zle_Qle; lia). change (inject_Z (2 ^ 48 - 1)) with (281474976710655 # 1) in A.
    assert (0 <= inject_Z E) as B by (change 0 with (inject_Z 0); rewrite <- Zle_Qle; lia). nra. }
  set (n := (if (0 <=? e)%Z then Z.pos m * 2 ^ e else Z.pos m / 2 ^ (- e))%Z).
  assert (N : inject_Z n <= val (Z.pos m) e /\ val (Z.pos m) e < inject_Z (n + 1)).
  { unfold n. destruct (Z.leb_spec 0 e) as [P|P].
    - assert (V : val (Z.pos m) e == inject_Z (Z.pos m * 2 ^ e)) by (unfold val; rewrite (p2_Z e P), inject_Z_mult; reflexivity).
      rewrite V. split; [lra|]. rewrite <- Zlt_Qlt. lia.
    - assert (TP : (0 < 2 ^ (- e))%Z) by (apply Z.pow_pos_nonneg; lia).
      assert (V : forall a, val (a * 2 ^ (- e)) e == inject_Z a).
      { intros a. rewrite val_shift by lia. replace (e + - e)%Z with 0%Z by lia. unfold val. change (p2 0) with 1. ring. }
      pose proof (Z.div_mod (Z.pos m) (2 ^ (- e)) ltac:(lia)) as DM. pose proof (Z.mod_pos_bound (Z.pos m) (2 ^ (- e)) TP) as MB.
      split.
      + rewrite <- V. apply val_le. lia.
      + rewrite <- V. apply val_lt. lia. }
  assert (NE : n = E \/ n = (E - 1)%Z).
  { destruct N as [N1 N2]. assert (A : inject_Z n < inject_Z (E + 1)) by (rewrite inject_Z_plus; change (inject_Z 1) with 1; lra).
    assert (B : inject_Z (E - 1) < inject_Z (n + 1)).
    { unfold Z.sub. rewrite inject_Z_plus. change (inject_Z (- (1))) with (- (1)). lra. }
    rewrite <- Zlt_Qlt in A, B. lia. }
  destruct (Z.leb_spec (-9223372036854775808) n); [|lia]. destruct (Z.leb_spec n 9223372036854775807); [|lia]. cbn [andb].
  destruct NE as [->| ->]; auto.
Qed.
