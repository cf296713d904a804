(** C56: times in configuration texts. *)
From Verif Require Import M_TimeStr S_TimeStr L_TimeStr L_TimeNear.
From Coq Require Import Lia QArith Lqa.
Local Open Scope N_scope.

(** ** The unit *)
(** Multiplications that follow from the unit *)
Definition factor (u : text) : list double :=
  if match u with [] => true | _ => false end || eqs u [117; 115] || starts u [109; 105; 99; 114; 111] then []
  else if eqs u [109; 115] || starts u [109; 105; 108; 108; 105] then [of_int 1000]
  else match u with
       | c :: _ => if c =? 115 then [c1000000] else if c =? 109 then [c1000000; c60] else if c =? 104 then [c1000000; c60; c60]
                   else [c1000000; c60; c60; of_int 24]
       | [] => [] end.
Definition known (u : text) : Prop := match u with [] => True | c :: _ => c = 115 \/ c = 109 \/ c = 104 \/ c = 100 \/ u = [117; 115] end.
Lemma spaces_skip k u : match u with [] => True | c :: _ => c <> 32 end -> skip_while (fun c => c =? 32) (repeat 32 k ++ u) = u.
Proof.
  intros H. induction k as [|k IH]; cbn; [|exact IH]. destruct u as [|c u]; [reflexivity|]. cbn. destruct (N.eqb_spec c 32); [contradiction|reflexivity].
Qed.
Lemma str_read ip fp k u : is_number ip -> Forall (fun c => isdigit c = true) fp -> known u ->
  time_str2us (time ip fp k u) = conv (fold_left mul (factor u) (nearest (digits (ip ++ fp)) (- Z.of_nat (length fp)))).
Proof.
  intros I F K. unfold time_str2us, time. change (match fp with [] => [] | _ => 46 :: fp end) with (dec fp).
  assert (U : match u with [] => True | c :: _ => c <> 32 end) by (destruct u as [|c u]; [exact Logic.I|]; cbn in K; destruct K as [K|[K|[K|[K|K]]]]; try lia; injection K; lia).
  rewrite strtod_number; auto.
  2: { destruct k as [|k]; cbn; [|repeat split; lia]. destruct u as [|c u]; [exact Logic.I|]. cbn in K.
       assert (c = 115 \/ c = 109 \/ c = 104 \/ c = 100 \/ c = 117) as C by (destruct K as [K|[K|[K|[K|K]]]]; auto; injection K; lia).
       destruct C as [->|[->|[->|[->| ->]]]]; repeat split; lia. }
  rewrite spaces_skip by exact U. unfold factor.
  destruct (match u with [] => true | _ => false end || eqs u [117; 115] || starts u [109; 105; 99; 114; 111]) eqn:B1; [reflexivity|].
  destruct (eqs u [109; 115] || starts u [109; 105; 108; 108; 105]); [reflexivity|].
  destruct u as [|c u]; [discriminate B1|]. cbn in K.
  destruct (N.eqb_spec c 115); [reflexivity|]. destruct (N.eqb_spec c 109); [reflexivity|]. destruct (N.eqb_spec c 104); [reflexivity|].
  destruct (N.eqb_spec c 100); [reflexivity|].
  destruct K as [K|[K|[K|[K|K]]]]; try contradiction. injection K as -> ->. discriminate B1.
Qed.
Lemma units_known u f : In (u, f) units_us -> known u /\ exists fs, factor u = map of_int fs /\ fold_left N.mul fs 1%N = f /\ (forall x, In x fs -> 1 <= x <= 1000000000) /\ (length fs <= 4)%nat.
Proof.
  assert (R : forall l, (forallb (fun x => (1 <=? x) && (x <=? 1000000000)) l && (length l <=? 4)%nat = true) -> (forall x, In x l -> 1 <= x <= 1000000000) /\ (length l <= 4)%nat).
  { intros l H. apply andb_prop in H. destruct H as [H1 H2]. split; [|apply Nat.leb_le; exact H2].
    intros x HI. pose proof (proj1 (forallb_forall _ _) H1 x HI) as HX. apply andb_prop in HX. destruct HX as [X1 X2]. apply N.leb_le in X1. apply N.leb_le in X2. lia. }
  assert (D : forall fs, (factor u = map of_int fs /\ fold_left N.mul fs 1%N = f) /\ (forallb (fun x => (1 <=? x) && (x <=? 1000000000)) fs && (length fs <=? 4)%nat = true) ->
    exists fs, factor u = map of_int fs /\ fold_left N.mul fs 1%N = f /\ (forall x, In x fs -> 1 <= x <= 1000000000) /\ (length fs <= 4)%nat).
  { intros fs [[A B] C]. destruct (R fs C) as [R1 R2]. exists fs. auto. }
  unfold units_us. cbn [In]. intros H.
  repeat match type of H with _ \/ _ => destruct H as [H|H] end; try contradiction; injection H as <- <-; (split; [cbn; tauto|]);
  first [apply (D []); split; [split|]; vm_compute; reflexivity | apply (D [1000]); split; [split|]; vm_compute; reflexivity
        | apply (D [1000000]); split; [split|]; vm_compute; reflexivity | apply (D [1000000; 60]); split; [split|]; vm_compute; reflexivity
        | apply (D [1000000; 60; 60]); split; [split|]; vm_compute; reflexivity | apply (D [1000000; 60; 60; 24]); split; [split|]; vm_compute; reflexivity].
Qed.

(** ** Whole numbers are exact *)
Lemma fold_holds fs : forall x p, holds x (Z.of_N p) -> (forall y, In y fs -> 1 <= y <= 1000000000) -> (Z.of_N (p * fold_left N.mul fs 1%N) < B53)%Z ->
  holds (fold_left mul (map of_int fs) x) (Z.of_N (p * fold_left N.mul fs 1%N)).
Proof.
  assert (FM : forall fs a, fold_left N.mul fs a = a * fold_left N.mul fs 1%N).
  { clear. induction fs as [|y fs IH]; intros a; [cbn; lia|]. cbn [fold_left]. rewrite (IH (a * y)), (IH (1 * y)). lia. }
  assert (PO : forall fs, (forall y, In y fs -> 1 <= y <= 1000000000) -> 1 <= fold_left N.mul fs 1%N).
  { clear -FM. induction fs as [|y fs IH]; intros H; [cbn; lia|]. cbn [fold_left]. rewrite FM. pose proof (H y (or_introl eq_refl)).
    pose proof (IH ltac:(intros z Hz; apply H; right; exact Hz)). nia. }
  induction fs as [|y fs IH]; intros x p HX R B.
  - cbn in *. now rewrite N.mul_1_r.
  - cbn [map fold_left] in *. rewrite (FM fs (1 * y)) in *. pose proof (R y (or_introl eq_refl)) as RY.
    pose proof (PO fs ltac:(intros z Hz; apply R; right; exact Hz)) as P1.
    replace (p * (1 * y * fold_left N.mul fs 1%N)) with (p * y * fold_left N.mul fs 1%N) in * by lia.
    apply IH; [|intros z Hz; apply R; right; exact Hz|exact B].
    rewrite N2Z.inj_mul. apply mul_holds; [exact HX|apply of_int_holds; unfold B53; lia|lia|lia|]. rewrite !N2Z.inj_mul in B. nia.
Qed.
Lemma nearest_holds m : (Z.of_N m < B53)%Z -> holds (nearest m 0) (Z.of_N m).
Proof.
  intros H. destruct m as [|p]; [reflexivity|]. unfold nearest. change (0 <=? 0)%Z with true. cbv iota. change (10 ^ Z.to_N 0) with 1.
  rewrite N.mul_1_r. apply of_int_holds. exact H.
Qed.
(** A whole number of any of the units, with any number of spaces before the unit, is read as
    exactly so many microseconds, if they are less than 2^53. *)
Theorem time_whole : forall ds k u f, is_number ds -> In (u, f) units_us -> digits ds * f < 9007199254740992 ->
  time_str2us (time ds [] k u) = TVal (Z.of_N (digits ds * f)).
Proof.
  intros ds k u f I U B. destruct (units_known u f U) as (K & fs & EF & EP & R & _). rewrite str_read; auto.
  rewrite EF, app_nil_r. change (- Z.of_nat (length (@nil N)))%Z with 0%Z. subst f.
  assert (F1 : 1 <= fold_left N.mul fs 1%N).
  { unfold units_us in U. cbn [In] in U. repeat match type of U with _ \/ _ => destruct U as [U|U] end; try contradiction; injection U as _ <-; lia. }
  pose proof (fold_holds fs (nearest (digits ds) 0) (digits ds)) as H. unfold conv. rewrite (to_long_holds _ (Z.of_N (digits ds * fold_left N.mul fs 1%N))); [reflexivity| |].
  - apply H; [|exact R|unfold B53; lia]. apply nearest_holds. unfold B53. nia.
  - unfold B53. lia.
Qed.
(** ** Decimals may lose a microsecond *)
Lemma const_near y : 1 <= y <= 1000000000 -> exists mc ec, of_int y = S754_finite false mc ec /\ val (Z.pos mc) ec == inject_Z (Z.of_N y).
Proof.
  intros R. pose proof (of_int_holds y ltac:(unfold B53; lia)) as H. destruct (of_int y) as [[]| | |[] m e]; cbn [holds] in H; try contradiction; [lia|].
  exists m, e. split; [reflexivity|]. destruct H as (K & K0 & KE & E).
  assert (V : (val (Z.pos m) e * p2 K == inject_Z (Z.of_N y) * p2 K)%Q).
  { rewrite (p2_Z K K0) at 2. rewrite <- inject_Z_mult, <- E, inject_Z_mult, <- (p2_Z (K + e)) by exact KE. unfold val. rewrite (Z.add_comm K e), p2_add. ring. }
  apply Qmult_inj_r in V; [exact V|]. intros Z0. apply (Qlt_not_eq _ _ (p2_pos K)). symmetry. exact Z0.
Qed.
Lemma fold_near fs : forall x q n, (forall y, In y fs -> 1 <= y <= 1000000000) -> (n + length fs <= 4)%nat ->
  near x q (inject_Z (Z.of_nat (2 * n + 1)) * eps)%Q -> (p2 (-997) <= q)%Q -> (q * inject_Z (Z.of_N (fold_left N.mul fs 1%N)) <= p2 48)%Q ->
  near (fold_left mul (map of_int fs) x) (q * inject_Z (Z.of_N (fold_left N.mul fs 1%N)))%Q (inject_Z 9 * eps)%Q.
Proof.
  assert (FM : forall fs a, fold_left N.mul fs a = a * fold_left N.mul fs 1%N).
  { clear. induction fs as [|y fs IH]; intros a; [cbn; lia|]. cbn [fold_left]. rewrite (IH (a * y)), (IH (1 * y)). lia. }
  assert (PO : forall fs, (forall y, In y fs -> 1 <= y <= 1000000000) -> 1 <= fold_left N.mul fs 1%N).
  { clear -FM. induction fs as [|y fs IH]; intros H; [cbn; lia|]. cbn [fold_left]. rewrite FM. pose proof (H y (or_introl eq_refl)).
    pose proof (IH ltac:(intros z Hz; apply H; right; exact Hz)). nia. }
  induction fs as [|y fs IH]; intros x q n R L NX Q1 Q2.
  - cbn [map fold_left] in *. destruct NX as (m & e & -> & A & B). exists m, e. split; [reflexivity|].
    assert (C : (inject_Z (Z.of_nat (2 * n + 1)) <= inject_Z 9)%Q) by (rewrite <- Zle_Qle; cbn in L; lia).
    pose proof (p2_pos (-997)) as PP. set (c := inject_Z (Z.of_nat (2 * n + 1))) in *. change (inject_Z (Z.of_N 1)) with 1%Q.
    assert (CE : (q * (c * eps) <= q * (inject_Z 9 * eps))%Q).
    { rewrite (Qmult_comm q), (Qmult_comm q (inject_Z 9 * eps)). apply Qmult_le_compat_r; [|lra]. apply Qmult_le_compat_r; [exact C|discriminate]. }
    split; lra.
  - cbn [map fold_left length] in *. rewrite (FM fs (1 * y)) in *. pose proof (R y (or_introl eq_refl)) as RY. rewrite N.mul_1_l in *.
    pose proof (PO fs ltac:(intros z Hz; apply R; right; exact Hz)) as P1.
    set (G := fold_left N.mul fs 1%N) in *. rewrite N2Z.inj_mul, inject_Z_mult in *.
    assert (Y1 : (1 <= inject_Z (Z.of_N y))%Q) by (change 1%Q with (inject_Z 1); rewrite <- Zle_Qle; lia).
    assert (G1 : (1 <= inject_Z (Z.of_N G))%Q) by (change 1%Q with (inject_Z 1); rewrite <- Zle_Qle; lia).
    pose proof (p2_pos (-997)) as PP.
    destruct (const_near y RY) as (mc & ec & -> & VC).
    assert (HN : near (mul x (S754_finite false mc ec)) (q * inject_Z (Z.of_N y)) (inject_Z (Z.of_nat (2 * n + 1)) * eps + 2 * eps)%Q).
    { apply near_mul; auto.
      - rewrite (p2_Z 40) by lia. rewrite <- Zle_Qle. change (2 ^ 40)%Z with 1099511627776%Z. lia.
      - assert (QY : (q <= q * (inject_Z (Z.of_N y) * inject_Z (Z.of_N G)))%Q).
        { assert (YG : (1 <= inject_Z (Z.of_N y) * inject_Z (Z.of_N G))%Q) by (clear -Y1 G1; nra). assert (Q0 : (0 <= q)%Q) by (clear -Q1 PP; lra). clear -YG Q0. nra. }
        pose proof (p2_le 48 800 ltac:(lia)). lra.
      - apply Qmult_le_0_compat; [|discriminate]. change 0%Q with (inject_Z 0). rewrite <- Zle_Qle. lia.
      - assert (C : (inject_Z (Z.of_nat (2 * n + 1)) <= inject_Z 9)%Q) by (rewrite <- Zle_Qle; lia).
        change (inject_Z 9) with (9 # 1)%Q in C. unfold eps. lra. }
    pose proof (IH (mul x (S754_finite false mc ec)) (q * inject_Z (Z.of_N y))%Q (S n) ltac:(intros z Hz; apply R; right; exact Hz) ltac:(lia)) as H.
    destruct H as (m & e & EQ & A & B).
    + destruct HN as (m & e & EQ & A & B). exists m, e. split; [exact EQ|].
      assert (C : (inject_Z (Z.of_nat (2 * S n + 1)) == inject_Z (Z.of_nat (2 * n + 1)) + 2)%Q).
      { change 2%Q with (inject_Z 2). rewrite <- inject_Z_plus. f_equiv. lia. }
      rewrite C. split; lra.
    + clear -Q1 PP Y1. nra.
    + rewrite <- Qmult_assoc. exact Q2.
    + exists m, e. split; [exact EQ|]. rewrite Qmult_assoc. auto.
Qed.

Lemma near_eq x q q' d : near x q d -> q == q' -> near x q' d.
Proof. intros (m & e & -> & A & B) E. exists m, e. split; [reflexivity|]. rewrite <- E. auto. Qed.
(** The common part: a decimal number multiplied by constants and converted *)
Lemma scaled ip fp fs f E : fold_left N.mul fs 1%N = f -> (forall x, In x fs -> 1 <= x <= 1000000000) -> (length fs <= 4)%nat -> 1 <= f ->
  denotes ip fp f E -> E < 281474976710656 -> (length fp <= 300)%nat ->
  let r := to_long (fold_left mul (map of_int fs) (nearest (digits (ip ++ fp)) (- Z.of_nat (length fp)))) in
  r = Some (Z.of_N E) \/ (1 <= E /\ r = Some (Z.of_N E - 1)%Z).
Proof.
  intros EF R L4 F1 D EB FL r. unfold r. clear r. unfold denotes in D.
  destruct (digits (ip ++ fp)) as [|p] eqn:ED.
  - left. assert (E = 0) by (rewrite N.mul_0_l in D; symmetry in D; apply N.eq_mul_0 in D; destruct D as [D|D]; [exact D|apply N.pow_nonzero in D; [contradiction|lia]]). subst E.
    apply to_long_holds; [|unfold B53; lia].
    change (Z.of_N 0) with (Z.of_N (0 * fold_left N.mul fs 1%N)). apply fold_holds; [reflexivity|exact R|cbn; unfold B53; lia].
  - destruct fp as [|c fp].
    + left. cbn [length N.of_nat] in D. rewrite N.pow_0_r, N.mul_1_r in D. subst f E. change (- Z.of_nat (length (@nil N)))%Z with 0%Z.
      apply to_long_holds; [|unfold B53; lia]. apply fold_holds; [|exact R|unfold B53; lia]. apply nearest_holds. unfold B53. nia.
    + assert (E0 : 1 <= E) by (destruct E; lia).
      set (k := Z.of_nat (length (c :: fp))) in *. assert (KB : (1 <= k <= 300)%Z) by (unfold k; cbn [length] in *; lia).
      assert (DZ : (Z.pos p * Z.of_N f = Z.of_N E * 10 ^ k)%Z).
      { assert (A : Z.of_N (N.pos p * f) = Z.of_N (E * 10 ^ N.of_nat (length (c :: fp)))) by (now rewrite D).
        rewrite !N2Z.inj_mul, N2Z.inj_pow, nat_N_Z in A. exact A. }
      assert (TP : (0 < 10 ^ k)%Z) by (apply Z.pow_pos_nonneg; lia).
      pose proof (nearest_near p k KB ltac:(nia)) as NN.
      assert (TQ : (0 < inject_Z (10 ^ k))%Q) by (change 0%Q with (inject_Z 0); rewrite <- Zlt_Qlt; exact TP).
      assert (QE : (inject_Z (Z.pos p) / inject_Z (10 ^ k) * inject_Z (Z.of_N (fold_left N.mul fs 1%N)) == inject_Z (Z.of_N E))%Q).
      { rewrite EF. field_simplify_eq; [|intros Z0; apply (Qlt_not_eq _ _ TQ); symmetry; exact Z0]. rewrite <- !inject_Z_mult. f_equiv. lia. }
      assert (G : near (fold_left mul (map of_int fs) (nearest (N.pos p) (- k))) (inject_Z (Z.of_N E)) (inject_Z 9 * eps)%Q).
      { eapply near_eq; [|exact QE]. apply fold_near with (n := 0%nat); [exact R|lia| | |].
        - exact NN.
        - apply Qle_shift_div_l; [exact TQ|]. apply Qle_trans with (p2 (-997) * inject_Z (2 ^ 997))%Q.
          + rewrite !(Qmult_comm (p2 (-997))). apply Qmult_le_compat_r; [|pose proof (p2_pos (-997)); lra]. rewrite <- Zle_Qle.
            apply Z.le_trans with (10 ^ 300)%Z; [apply Z.pow_le_mono_r; lia|]. vm_compute. discriminate.
          + rewrite <- (p2_Z 997) by lia. rewrite <- p2_add. change (p2 (-997 + 997)) with 1%Q. change 1%Q with (inject_Z 1). rewrite <- Zle_Qle. lia.
        - rewrite QE, (p2_Z 48) by lia. rewrite <- Zle_Qle. change (2 ^ 48)%Z with 281474976710656%Z. lia. }
      destruct (near_long _ _ _ G) as [A|A]; [change (2 ^ 48)%Z with 281474976710656%Z; lia|vm_compute; discriminate|vm_compute; discriminate| |].
      * left. exact A.
      * right. auto.
Qed.
(** A time with decimals that is a whole number of microseconds, less than 2^48, is read as that
    number or one less, never anything else.  (Not proved: that it is exactly that number, which
    is false.) *)
Theorem time_near_partial : forall ip fp k u f E, is_number ip -> Forall (fun c => isdigit c = true) fp -> In (u, f) units_us ->
  denotes ip fp f E -> E < 281474976710656 -> (length fp <= 300)%nat ->
  time_str2us (time ip fp k u) = TVal (Z.of_N E) \/ (1 <= E /\ time_str2us (time ip fp k u) = TVal (Z.of_N E - 1)).
Proof.
  intros ip fp k u f E I F U D EB FL. destruct (units_known u f U) as (K & fs & EF & EP & R & L4). rewrite str_read by auto. rewrite EF.
  assert (F1 : 1 <= f).
  { unfold units_us in U. cbn [In] in U. repeat match type of U with _ \/ _ => destruct U as [U|U] end; try contradiction; injection U as _ <-; lia. }
  unfold conv. destruct (scaled ip fp fs f E EP R L4 F1 D EB FL) as [H|[E1 H]]; rewrite H; auto.
Qed.
(** "1.001s" is 1001000 microseconds but read as 1000999. *)
Definition w_frac_ip : text := [49].
Definition w_frac_fp : text := [48; 48; 49].
Theorem time_frac_refuted : exists ip fp k u f E, is_number ip /\ Forall (fun c => isdigit c = true) fp /\ In (u, f) units_us /\ denotes ip fp f E /\
  E < 281474976710656 /\ time_str2us (time ip fp k u) = TVal (Z.of_N E - 1).
Proof.
  exists w_frac_ip, w_frac_fp, 0%nat, [115], 1000000, 1001000. split; [split; [discriminate|repeat constructor]|]. split; [repeat constructor|].
  split; [cbn; tauto|]. split; [vm_compute; reflexivity|]. split; [reflexivity|vm_compute; reflexivity].
Qed.

(** ** What is refused *)
Lemma eqs_eq a : forall b, eqs a b = true <-> a = b.
Proof.
  induction a as [|x a IH]; intros [|y b]; cbn; try (split; [discriminate|discriminate]); [tauto|].
  rewrite andb_true_iff, N.eqb_eq, IH. split; [intros [-> ->]; reflexivity|intros H; injection H as -> ->; auto].
Qed.
(** A number followed by something that does not begin a unit is refused. *)
Theorem time_unknown_unit : forall ip fp k c u, is_number ip -> Forall (fun c => isdigit c = true) fp ->
  isdigit c = false -> ~ In c [46; 32; 101; 69; 120; 88] -> ~ In c [115; 109; 104; 100] -> c :: u <> [117; 115] ->
  time_str2us (time ip fp k (c :: u)) = TErr.
Proof.
  intros ip fp k c u I F C1 C2 C3 C4. cbn [In] in C2, C3. unfold time_str2us, time. change (match fp with [] => [] | _ => 46 :: fp end) with (dec fp).
  rewrite strtod_number; auto.
  2: { destruct k as [|k]; cbn; [|repeat split; lia]. repeat split; auto; intros ->; apply C2; tauto. }
  rewrite spaces_skip by (intros ->; apply C2; tauto).
  assert (E1 : eqs (c :: u) [117; 115] = false).
  { destruct (eqs (c :: u) [117; 115]) eqn:Q; [|reflexivity]. apply eqs_eq in Q. contradiction. }
  assert (M : (c =? 109) = false) by (apply N.eqb_neq; intros ->; apply C3; tauto).
  rewrite E1. cbn [starts eqs]. rewrite M. cbn [orb andb].
  destruct (N.eqb_spec c 115) as [->|]; [exfalso; apply C3; tauto|]. destruct (N.eqb_spec c 104) as [->|]; [exfalso; apply C3; tauto|].
  destruct (N.eqb_spec c 100) as [->|]; [exfalso; apply C3; tauto|]. reflexivity.
Qed.
(** A text that does not begin with a number is refused. *)
Theorem time_no_number : forall c r, isspace c = false -> isdigit c = false -> ~ In c [43; 45; 46; 105; 73; 110; 78] -> time_str2us (c :: r) = TErr.
Proof.
  intros c r S D C. cbn [In] in C. unfold time_str2us, strtod. cbn [skip_while]. rewrite S.
  destruct (N.eqb_spec c 43) as [->|]; [exfalso; apply C; tauto|]. destruct (N.eqb_spec c 45) as [->|]; [exfalso; apply C; tauto|].
  cbn [map starts take_while skip_while skipn]. rewrite D.
  assert (L1 : (tolower c =? 105) = false).
  { apply N.eqb_neq. unfold tolower. destruct (N.leb_spec 65 c); destruct (N.leb_spec c 90); cbn [andb]; intros E; apply C; lia. }
  assert (L2 : (tolower c =? 110) = false).
  { apply N.eqb_neq. unfold tolower. destruct (N.leb_spec 65 c); destruct (N.leb_spec c 90); cbn [andb]; intros E; apply C; lia. }
  assert (L3 : (tolower c =? 48) = false).
  { apply N.eqb_neq. unfold isdigit in D. unfold tolower. destruct (N.leb_spec 48 c); destruct (N.leb_spec c 57); cbn [andb] in D; try discriminate D;
    destruct (N.leb_spec 65 c); destruct (N.leb_spec c 90); cbn [andb]; lia. }
  rewrite L1, L2, L3. cbn [andb]. destruct (N.eqb_spec c 46) as [->|]; [exfalso; apply C; tauto|]. reflexivity.
Qed.
Theorem time_empty : time_str2us [] = TErr. Proof. reflexivity. Qed.
Example time_unknown_unit_ex : time_str2us (time [53] [] 1 [119; 101; 101; 107; 115]) = TErr /\ time_str2us [49; 117; 115; 101; 99] = TErr.   (* 5 weeks, 1usec *)
Proof. split; vm_compute; reflexivity. Qed.
(** "5msec" is not refused but read as 5 minutes. *)
Theorem time_unit_refuted : exists ds u, is_number ds /\ u = [109; 115; 101; 99] /\ digits ds = 5 /\ time_str2us (time ds [] 0 u) = TVal (5 * 60000000).
Proof. exists [53], [109; 115; 101; 99]. split; [split; [discriminate|repeat constructor]|]. split; [reflexivity|]. split; vm_compute; reflexivity. Qed.
(** Texts outside the range of long have no defined result: "1e30", "inf". *)
Theorem time_range_refuted : exists s1 s2, s1 = [49; 101; 51; 48] /\ s2 = [105; 110; 102] /\ time_str2us s1 = TUndef /\ time_str2us s2 = TUndef.
Proof. exists [49; 101; 51; 48], [105; 110; 102]. split; [reflexivity|]. split; [reflexivity|]. split; vm_compute; reflexivity. Qed.
(** 90 minutes, 2 days with spaces, 250 ms, 1.5 hours *)
Example time_ex : time_str2us (time [57; 48] [] 0 [109]) = TVal 5400000000 /\ time_str2us (time [50] [] 3 [100; 97; 121; 115]) = TVal 172800000000 /\
  time_str2us (time [50; 53; 48] [] 0 [109; 115]) = TVal 250000 /\ time_str2us (time [49] [53] 0 [104]) = TVal 5400000000 /\
  is_number [50; 53; 48] /\ In ([109; 115], 1000) units_us /\ digits [50; 53; 48] * 1000 < 9007199254740992 /\ denotes [49] [53] 3600000000 5400000000.
Proof. split; [|split; [|split; [|split; [|split; [|split; [|split]]]]]]; try (vm_compute; reflexivity); [split; [discriminate|repeat constructor]|cbn; tauto]. Qed.

(** ** ldmsd_timespec_from_str *)
Lemma num_take ds u : Forall (fun c => isdigit c = true) ds -> match u with [] => True | c :: _ => isdigit c = false /\ c <> 46 end ->
  take_while (fun c => isdigit c || (c =? 46)) (ds ++ u) = ds /\ skip_while (fun c => isdigit c || (c =? 46)) (ds ++ u) = u.
Proof.
  intros F S. induction F as [|c ds Hc F IH]; cbn.
  - destruct u as [|c u]; [auto|]. cbn. destruct S as [-> S]. cbn. destruct (N.eqb_spec c 46); [contradiction|auto].
  - rewrite Hc. cbn. destruct IH as [-> ->]. auto.
Qed.
Lemma num_take_dec ip fp u : Forall (fun c => isdigit c = true) ip -> Forall (fun c => isdigit c = true) fp -> match u with [] => True | c :: _ => isdigit c = false /\ c <> 46 end ->
  take_while (fun c => isdigit c || (c =? 46)) (ip ++ dec fp ++ u) = ip ++ dec fp /\ skip_while (fun c => isdigit c || (c =? 46)) (ip ++ dec fp ++ u) = u.
Proof.
  intros F1 F2 S. induction F1 as [|c ip Hc F IH].
  - cbn [app]. unfold dec. destruct fp as [|d fp]; [apply (num_take [] u (Forall_nil _) S)|].
    change ((46 :: d :: fp) ++ u) with (46 :: ((d :: fp) ++ u)). destruct (num_take (d :: fp) u F2 S) as [A B].
    set (w := (d :: fp) ++ u) in *. cbn [take_while skip_while]. change (isdigit 46 || (46 =? 46)) with true. cbv iota. rewrite A, B. auto.
  - cbn [app take_while skip_while]. rewrite Hc. cbn [orb]. destruct IH as [-> ->]. auto.
Qed.
Lemma split_ns n : (0 <= n)%Z -> normal (mkTs (Z.quot n 1000000000) (Z.rem n 1000000000)) /\ ns (mkTs (Z.quot n 1000000000) (Z.rem n 1000000000)) = n.
Proof.
  intros H. unfold normal, ns. cbn [ts_sec ts_nsec]. pose proof (Z.quot_rem' n 1000000000). pose proof (Z.rem_bound_pos n 1000000000 H ltac:(lia)). lia.
Qed.
Definition ts_of (x : double) : sres := match to_long x with Some n => SVal (mkTs (Z.quot n 1000000000) (Z.rem n 1000000000)) | None => SUndef end.
Definition fs_ns (u0 : text) : list N := if eqs u0 [115] then [1000000000] else if eqs u0 [109; 115] then [1000000] else if eqs u0 [110; 115] then [] else [1000].
Lemma tspec_read ip fp u u0 f : is_number ip -> Forall (fun c => isdigit c = true) fp -> map tolower u = u0 -> In (u0, f) units_ns ->
  timespec_from_str (time ip fp 0 u) = ts_of (fold_left mul (map of_int (fs_ns u0)) (nearest (digits (ip ++ fp)) (- Z.of_nat (length fp)))) /\
  fold_left N.mul (fs_ns u0) 1%N = f.
Proof.
  intros I F MU U. unfold timespec_from_str, time. cbn [repeat]. rewrite app_nil_l. change (match fp with [] => [] | _ => 46 :: fp end) with (dec fp).
  assert (S : match u with [] => True | c :: _ => isdigit c = false /\ c <> 46 end).
  { destruct u as [|c u]; [exact Logic.I|]. destruct u0 as [|c0 u0]; [discriminate MU|]. cbn in MU. injection MU as EC EU.
    assert (C0 : c0 = 115 \/ c0 = 109 \/ c0 = 117 \/ c0 = 110).
    { unfold units_ns in U. cbn [In] in U. repeat match type of U with _ \/ _ => destruct U as [U|U] end; try contradiction; injection U; intros; subst; auto; discriminate. }
    unfold tolower in EC. unfold isdigit. destruct (N.leb_spec 65 c); destruct (N.leb_spec c 90); destruct (N.leb_spec 48 c); destruct (N.leb_spec c 57); cbn [andb] in *; split; auto; lia. }
  destruct (num_take_dec ip fp u (proj2 I) F S) as [T K]. cbv zeta. rewrite T, K.
  assert (SD : strtod (ip ++ dec fp) = Num (nearest (digits (ip ++ fp)) (- Z.of_nat (length fp))) []).
  { rewrite <- (app_nil_r (dec fp)) at 1. apply strtod_number; auto. exact Logic.I. }
  rewrite SD.
  assert (EU : map tolower (match u with [] => [117; 115] | c :: l => c :: l end) = match u0 with [] => [117; 115] | _ => u0 end) by (destruct u; subst u0; reflexivity).
  unfold eqcase. rewrite EU.
  unfold units_ns in U. cbn [In] in U. repeat match type of U with _ \/ _ => destruct U as [U|U] end; try contradiction; injection U as EU0 <-; rewrite <- EU0;
  (split; [reflexivity|vm_compute; reflexivity]).
Qed.
(** A number with a unit, in any case of letters and without space, is read as a normalised
    timespec: exact for whole numbers, at most a nanosecond less for decimals. *)
Theorem tspec_whole : forall ds u f, is_number ds -> In (map tolower u, f) units_ns -> digits ds * f < 9007199254740992 ->
  exists t, timespec_from_str (time ds [] 0 u) = SVal t /\ normal t /\ ns t = Z.of_N (digits ds * f).
Proof.
  intros ds u f I U B. destruct (tspec_read ds [] u _ f I (Forall_nil _) eq_refl U) as [-> EP].
  rewrite app_nil_r. change (- Z.of_nat (length (@nil N)))%Z with 0%Z.
  assert (R : forall y, In y (fs_ns (map tolower u)) -> 1 <= y <= 1000000000).
  { unfold fs_ns. destruct (eqs _ [115]); [|destruct (eqs _ [109; 115]); [|destruct (eqs _ [110; 115])]]; cbn [In]; intros y Y; intuition lia. }
  assert (F1 : 1 <= f).
  { unfold units_ns in U. cbn [In] in U. repeat match type of U with _ \/ _ => destruct U as [U|U] end; try contradiction; injection U as _ <-; lia. }
  unfold ts_of. rewrite (to_long_holds _ (Z.of_N (digits ds * f))).
  - exists (mkTs (Z.quot (Z.of_N (digits ds * f)) 1000000000) (Z.rem (Z.of_N (digits ds * f)) 1000000000)). split; [reflexivity|]. apply split_ns. lia.
  - rewrite <- EP. apply fold_holds; [|exact R|rewrite EP; unfold B53; lia]. apply nearest_holds. unfold B53. nia.
  - unfold B53. lia.
Qed.
Theorem tspec_near_partial : forall ip fp u f E, is_number ip -> Forall (fun c => isdigit c = true) fp -> In (map tolower u, f) units_ns ->
  denotes ip fp f E -> E < 281474976710656 -> (length fp <= 300)%nat ->
  exists t, timespec_from_str (time ip fp 0 u) = SVal t /\ normal t /\ (ns t = Z.of_N E \/ ns t = Z.of_N E - 1)%Z.
Proof.
  intros ip fp u f E I F U D EB FL. destruct (tspec_read ip fp u _ f I F eq_refl U) as [-> EP].
  assert (R : (forall y, In y (fs_ns (map tolower u)) -> 1 <= y <= 1000000000) /\ (length (fs_ns (map tolower u)) <= 4)%nat).
  { unfold fs_ns. destruct (eqs _ [115]); [|destruct (eqs _ [109; 115]); [|destruct (eqs _ [110; 115])]]; cbn [In length]; (split; [intros y Y; intuition lia|lia]). }
  assert (F1 : 1 <= f).
  { unfold units_ns in U. cbn [In] in U. repeat match type of U with _ \/ _ => destruct U as [U|U] end; try contradiction; injection U as _ <-; lia. }
  unfold ts_of. destruct (scaled ip fp _ f E EP (proj1 R) (proj2 R) F1 D EB FL) as [H|[E1 H]]; rewrite H.
  - eexists. split; [reflexivity|]. destruct (split_ns (Z.of_N E) ltac:(lia)) as [A B]. rewrite B. auto.
  - eexists. split; [reflexivity|]. destruct (split_ns (Z.of_N E - 1) ltac:(lia)) as [A B]. rewrite B. auto.
Qed.
(** Any other unit is EINVAL. *)
Theorem tspec_unknown_unit : forall ip fp u, is_number ip -> Forall (fun c => isdigit c = true) fp -> (forall f, ~ In (map tolower u, f) units_ns) ->
  match u with [] => True | c :: _ => isdigit c = false /\ c <> 46 end -> timespec_from_str (time ip fp 0 u) = SErr.
Proof.
  intros ip fp u I F U S. unfold timespec_from_str, time. cbn [repeat]. rewrite app_nil_l. change (match fp with [] => [] | _ => 46 :: fp end) with (dec fp).
  destruct (num_take_dec ip fp u (proj2 I) F S) as [T K]. cbv zeta. rewrite T, K. destruct u as [|c u]; [exfalso; apply (U 1000); cbn; tauto|].
  unfold eqcase. set (w := map tolower (c :: u)) in *.
  assert (N : forall t f, In (map tolower t, f) units_ns -> eqs w (map tolower t) = false).
  { intros t f HI. destruct (eqs w (map tolower t)) eqn:E; [|reflexivity]. apply eqs_eq in E. exfalso. apply (U f). rewrite E. exact HI. }
  rewrite (N [115] 1000000000), (N [109; 115] 1000000), (N [117; 115] 1000), (N [110; 115] 1) by (cbn; tauto). reflexivity.
Qed.
Theorem tspec_frac_refuted : exists ip fp u f E t, is_number ip /\ Forall (fun c => isdigit c = true) fp /\ In (map tolower u, f) units_ns /\ denotes ip fp f E /\
  E < 281474976710656 /\ timespec_from_str (time ip fp 0 u) = SVal t /\ ns t = (Z.of_N E - 1)%Z.
Proof.
  exists w_frac_ip, w_frac_fp, [115], 1000000000, 1001000000, (mkTs 1 999999). split; [split; [discriminate|repeat constructor]|]. split; [repeat constructor|].
  split; [cbn; tauto|]. split; [vm_compute; reflexivity|]. split; [reflexivity|]. split; vm_compute; reflexivity.
Qed.
(** Texts that are no times are accepted, "s" (as 0) and "1.2.3s" (as 1.2 s); a space before the
    unit, which the other function takes, is refused. *)
Theorem tspec_malformed_refuted : exists s1 s2 t1 t2, s1 = [115] /\ s2 = [49; 46; 50; 46; 51; 115] /\ timespec_from_str s1 = SVal t1 /\ ns t1 = 0%Z /\
  timespec_from_str s2 = SVal t2 /\ ns t2 = 1200000000%Z /\ time_str2us s1 = TErr /\ time_str2us s2 = TErr.
Proof.
  exists [115], [49; 46; 50; 46; 51; 115], (mkTs 0 0), (mkTs 1 200000000). split; [reflexivity|]. split; [reflexivity|].
  split; [|split; [|split; [|split; [|split]]]]; vm_compute; reflexivity.
Qed.
Theorem tspec_space_refuted : exists ds u, is_number ds /\ timespec_from_str (time ds [] 1 u) = SErr /\ time_str2us (time ds [] 1 u) = TVal 1000000 /\
  timespec_from_str (time ds [] 0 u) = SVal (mkTs 1 0).
Proof. exists [49], [115]. split; [split; [discriminate|repeat constructor]|]. split; [|split]; vm_compute; reflexivity. Qed.
(** A text without unit is microseconds in both; too large a number has no defined result. *)
Theorem tspec_range_refuted : exists ds, is_number ds /\ timespec_from_str (time ds [] 0 [115]) = SUndef.
Proof. exists (repeat 57 14). split; [split; [discriminate|repeat constructor]|]. vm_compute. reflexivity. Qed.
Example tspec_ex : timespec_from_str (time [50] [] 0 [77; 83]) = SVal (mkTs 0 2000000) /\ In (map tolower [77; 83], 1000000) units_ns /\
  timespec_from_str (time [55] [] 0 []) = SVal (mkTs 0 7000) /\ timespec_from_str (time [49] [53] 0 [115]) = SVal (mkTs 1 500000000) /\
  denotes [49] [53] 1000000000 1500000000 /\ timespec_from_str (time [53] [] 0 [109; 105; 110]) = SErr.
Proof. split; [|split; [|split; [|split; [|split]]]]; try (vm_compute; reflexivity). cbn. tauto. Qed.

(** ** Arithmetic of timespecs *)
Theorem tspec_add : forall a b, normal a -> normal b -> normal (ts_add a b) /\ ns (ts_add a b) = (ns a + ns b)%Z.
Proof. intros [s1 n1] [s2 n2]. unfold normal, ns, ts_add. cbn [ts_sec ts_nsec]. intros A B. destruct (Z.ltb_spec (n1 + n2) 1000000000); cbn [ts_sec ts_nsec]; lia. Qed.
Theorem tspec_diff : forall a b, normal a -> normal b -> normal (ts_diff a b) /\ ns (ts_diff a b) = (ns b - ns a)%Z.
Proof. intros [s1 n1] [s2 n2]. unfold normal, ns, ts_diff. cbn [ts_sec ts_nsec]. intros A B. destruct (Z.ltb_spec (n2 - n1) 0); cbn [ts_sec ts_nsec]; lia. Qed.
Theorem tspec_cmp : forall a b, normal a -> normal b -> ts_cmp a b = Z.sgn (ns a - ns b).
Proof.
  intros [s1 n1] [s2 n2]. unfold normal, ns, ts_cmp. cbn [ts_sec ts_nsec]. intros A B.
  destruct (Z.ltb_spec s1 s2); [symmetry; apply Z.sgn_neg; lia|]. destruct (Z.ltb_spec s2 s1); [symmetry; apply Z.sgn_pos; lia|]. assert (s1 = s2) by lia. subst s2.
  destruct (Z.ltb_spec n1 n2); [symmetry; apply Z.sgn_neg; lia|]. destruct (Z.ltb_spec n2 n1); [symmetry; apply Z.sgn_pos; lia|]. symmetry. apply Z.sgn_null. lia.
Qed.
Example tspec_arith_ex : ts_add (mkTs 1 999999999) (mkTs 2 2) = mkTs 4 1 /\ ts_diff (mkTs 1 999999999) (mkTs 3 0) = mkTs 1 1 /\ ts_cmp (mkTs 1 5) (mkTs 1 6) = (-1)%Z.
Proof. split; [|split]; reflexivity. Qed.

Print Assumptions time_whole.
Print Assumptions time_near_partial.
Print Assumptions time_frac_refuted.
Print Assumptions time_unknown_unit.
Print Assumptions time_no_number.
Print Assumptions time_empty.
Print Assumptions time_unit_refuted.
Print Assumptions time_range_refuted.
Print Assumptions tspec_whole.
Print Assumptions tspec_near_partial.
Print Assumptions tspec_unknown_unit.
Print Assumptions tspec_frac_refuted.
Print Assumptions tspec_malformed_refuted.
Print Assumptions tspec_space_refuted.
Print Assumptions tspec_range_refuted.
Print Assumptions tspec_add.
Print Assumptions tspec_diff.
Print Assumptions tspec_cmp.
