(** The rollover of CSV files (C60) *)
From Verif Require Import M_CsvRoll S_CsvRoll.
From Coq Require Import Lia.
Open Scope Z_scope.

Lemma int_ok x : INT_MIN <= x <= INT_MAX -> int x = Some x.
Proof. unfold int. intros H. destruct (INT_MIN <=? x) eqn:A, (x <=? INT_MAX) eqn:B; try reflexivity; lia. Qed.
Lemma int_some x y : int x = Some y -> y = x.
Proof. unfold int. destruct (_ && _); congruence. Qed.
Lemma sec_range t : 0 <= t mod DAY < DAY. Proof. apply Z.mod_pos_bound. reflexivity. Qed.
Lemma config_ok a c : config a = Some c -> rtype c <> -1 -> 1 <= rtype c <= 5 /\ 0 <= rover c /\ 0 <= ragain c /\ (rtype c = 5 -> rover c <= ragain c /\ 10 <= ragain c).
Proof.
  unfold config. destruct (a_again a) as [g|], (a_over a) as [r|], (a_type a) as [m|]; cbn [rtype rover ragain];
  repeat match goal with |- context [if ?b then _ else _] => destruct b eqn:? end; try discriminate; intros [= <-]; cbn [rtype rover ragain]; unfold MIN_ROLL_1 in *; try congruence; intros _;
  repeat match goal with H : (_ || _) = false |- _ => apply orb_false_iff in H as [? ?] | H : (_ && _) = false |- _ => apply andb_false_iff in H end; lia.
Qed.

(** The thread sleeps at least 10 seconds *)
Theorem csv_sleep_min a c t s : config a = Some c -> rtype c <> -1 -> tsleep c t = Some s -> 10 <= s.
Proof.
  intros C R H. destruct (config_ok _ _ C R) as (R1 & R2 & R3 & R5). unfold tsleep, MIN_ROLL_1, ROLL_LIMIT_INTERVAL in H. pose proof (sec_range t) as SR. set (sec := t mod DAY) in *. clearbody sec.
  destruct (rtype c =? 1) eqn:T1. { destruct (rover c <? 10) eqn:E; injection H as <-; lia. }
  destruct (rtype c =? 2) eqn:T2.
  { destruct (int (DAY - sec + rover c)) as [x|] eqn:E; cbn [bind] in H; [|discriminate]. apply int_some in E. destruct (x <? 10) eqn:L; [apply int_some in H | injection H as <-]; unfold DAY in *; lia. }
  destruct (rtype c =? 5) eqn:T5; [|injection H as <-; lia].
  apply Z.eqb_eq in T5. destruct (R5 T5) as [A1 A2].
  destruct (if sec <? rover c then _ else _) as [x|] eqn:E in H; cbn [bind] in H; [|discriminate].
  assert (X : 0 < x).
  { destruct (sec <? rover c) eqn:L; [injection E as <-; lia|].
    destruct (int _) as [p|] eqn:P in E; cbn [bind] in E; [|discriminate]. destruct (int (p + _)) as [q|] eqn:Q in E; cbn [bind] in E; [|discriminate]. injection E as <-.
    apply int_some in P, Q. subst p q. pose proof (Z.mod_pos_bound (sec - rover c) (ragain c) ltac:(lia)). pose proof (Z.div_mod (sec - rover c) (ragain c) ltac:(lia)). nia. }
  destruct (x <? 10) eqn:L; [apply int_some in H | injection H as <-]; lia.
Qed.
Example csv_sleep_min_ex : exists c, config (mkA (Some 5) (Some 0) (Some 3600)) = Some c /\ rtype c <> -1 /\ tsleep c 3595 = Some 3605.
Proof. eexists. split; [reflexivity|]. split; [discriminate | reflexivity]. Qed.

(** Type 1: after each roll comes a pause of the configured length *)
Theorem csv_interval_partial a c t ds l : config a = Some c -> rtype c = 1 -> delays 0 ds -> rolls c t ds = Some l -> every (Z.max (rover c) 10) (t :: l).
Proof.
  intros C T D. assert (TS : forall t, tsleep c t = Some (Z.max (rover c) 10)).
  { intros u. unfold tsleep, MIN_ROLL_1. rewrite T. cbn. destruct (rover c <? 10) eqn:E; f_equal; lia. }
  revert t l D. induction ds as [|d r IH]; intros t l D; cbn [rolls]; [intros [= <-]; exact I|].
  rewrite TS. cbn [bind]. destruct (rolls c _ r) as [k|] eqn:E; cbn [bind]; [|discriminate]. intros [= <-]. split; [reflexivity|].
  assert (d = 0) by (pose proof (D d (or_introl eq_refl)); lia). subst d. rewrite Z.add_0_r in E. exact (IH _ _ (fun x X => D x (or_intror X)) E).
Qed.
Example csv_interval_ex : rolls (mkF 1 100 0) 7 [0; 0; 0] = Some [107; 207; 307]. Proof. reflexivity. Qed.

(** Type 2 from a roll on: every day at that time, if no roll goes on past midnight *)
Lemma tsleep2 c t : rtype c = 2 -> 0 <= rover c < DAY -> exists s, tsleep c t = Some s /\ (t + s) mod DAY = rover c.
Proof.
  intros T R. unfold tsleep. rewrite T. cbn [Z.eqb Pos.eqb]. pose proof (sec_range t) as SR. pose proof (Z.div_mod t DAY ltac:(discriminate)) as DM.
  set (sec := t mod DAY) in *. rewrite int_ok by (unfold INT_MIN, INT_MAX, DAY in *; lia). cbn [bind]. destruct (_ <? MIN_ROLL_1).
  - rewrite int_ok by (unfold INT_MIN, INT_MAX, DAY in *; lia). eexists. split; [reflexivity|]. symmetry. apply (Z.mod_unique_pos _ _ (t / DAY + 2)); unfold DAY in *; lia.
  - eexists. split; [reflexivity|]. symmetry. apply (Z.mod_unique_pos _ _ (t / DAY + 1)); unfold DAY in *; lia.
Qed.
Theorem csv_daily_partial a c t ds : config a = Some c -> rtype c = 2 -> rover c < DAY -> delays (DAY - 10) ds -> (forall d, In d ds -> rover c + d < DAY) ->
  exists l, rolls c t ds = Some l /\ at_phase DAY (rover c) l /\ every DAY l.
Proof.
  intros C T R D N. destruct (config_ok _ _ C) as (_ & R2 & _); [congruence|].
  assert (NX : forall x d, x mod DAY = rover c -> 0 <= d <= DAY - 10 -> rover c + d < DAY -> tsleep c (x + d) = Some (DAY - d)).
  { intros x d X1 X2 X3. unfold tsleep. rewrite T. cbn [Z.eqb Pos.eqb].
    assert (S : (x + d) mod DAY = rover c + d).
    { pose proof (Z.div_mod x DAY ltac:(discriminate)). symmetry. apply (Z.mod_unique_pos _ _ (x / DAY)); lia. }
    rewrite S, int_ok by (unfold INT_MIN, INT_MAX, DAY in *; lia). cbn [bind].
    replace (DAY - (rover c + d) + rover c <? MIN_ROLL_1) with false by (unfold MIN_ROLL_1; symmetry; apply Z.ltb_ge; lia). f_equal. lia. }
  assert (G : forall ds x, x mod DAY = rover c -> delays (DAY - 10) ds -> (forall d, In d ds -> rover c + d < DAY) -> forall d, 0 <= d <= DAY - 10 -> rover c + d < DAY ->
    exists l, rolls c (x + d) ds = Some l /\ at_phase DAY (rover c) l /\ every DAY (x :: l)).
  { clear ds D N. induction ds as [|e r IH]; intros x X D N d D1 D2; cbn [rolls].
    - exists []. split; [reflexivity|]. split; [intros y [] | exact I].
    - rewrite (NX x d X D1 D2). cbn [bind]. replace (x + d + (DAY - d)) with (x + DAY) by lia.
      assert (X2 : (x + DAY) mod DAY = rover c) by (rewrite <- X; replace (x + DAY) with (x + 1 * DAY) by lia; apply Z.mod_add; discriminate).
      destruct (IH (x + DAY) X2 (fun y Y => D y (or_intror Y)) (fun y Y => N y (or_intror Y)) e (D e (or_introl eq_refl)) (N e (or_introl eq_refl))) as (l & L1 & L2 & L3).
      rewrite L1. cbn [bind]. eexists. split; [reflexivity|]. split; [intros y [<-|Y]; auto | split; [reflexivity | exact L3]]. }
  destruct ds as [|d r]; [exists []; split; [reflexivity|]; split; [intros y [] | exact I]|].
  destruct (tsleep2 c t T (conj R2 R)) as (s & S1 & S2). cbn [rolls]. rewrite S1. cbn [bind].
  destruct (G r (t + s) S2 (fun y Y => D y (or_intror Y)) (fun y Y => N y (or_intror Y)) d (D d (or_introl eq_refl)) (N d (or_introl eq_refl))) as (l & L1 & L2 & L3).
  rewrite L1. cbn [bind]. eexists. split; [reflexivity|]. split; [intros y [<-|Y]; auto | exact L3].
Qed.
Example csv_daily_ex : rolls (mkF 2 7200 0) 10000 [0; 3; 100] = Some [93600; 180000; 266400]. Proof. reflexivity. Qed.
(** In the last second of the day a roll that takes a second makes the next day go without *)
Theorem csv_daily_refuted : exists c t ds l x, config (mkA (Some 2) (Some 86399) None) = Some c /\ delays 1 ds /\ rolls c t ds = Some l /\
  daily (rover c) x /\ (exists u v, In u l /\ In v l /\ u < x < v) /\ ~ In x l.
Proof.
  exists (mkF 2 86399 0), 0, [1; 1], [172799; 345599], 259199. split; [reflexivity|]. split; [intros d [<-|[<-|[]]]; lia|]. split; [reflexivity|]. split; [reflexivity|].
  split; [exists 172799, 345599; cbn; lia | cbn; lia].
Qed.
(** The first roll is not on the day of the start, although its time is still to come *)
Theorem csv_first_roll_refuted : exists c t l x, config (mkA (Some 2) (Some 7200) None) = Some c /\ rolls c t [0] = Some l /\
  daily (rover c) x /\ t + 10 <= x /\ (forall y, In y l -> x < y).
Proof. exists (mkF 2 7200 0), 3600, [93600], 7200. split; [reflexivity|]. split; [reflexivity|]. split; [reflexivity|]. split; [lia|]. intros y [<-|[]]; lia. Qed.
(** ... and with a time beyond the day it is every other day *)
Theorem csv_beyond_day_refuted : exists c l, config (mkA (Some 2) (Some 90000) None) = Some c /\ rolls c 0 [0; 0; 0] = Some l /\ ~ every DAY l.
Proof. exists (mkF 2 90000 0), [176400; 349200; 522000]. split; [reflexivity|]. split; [reflexivity|]. cbn. unfold DAY. lia. Qed.

(** Type 5 when the period divides the day: all rolls at their times, none left out *)
Lemma tsleep5 c t : rtype c = 5 -> 0 <= rover c < ragain c -> 10 <= ragain c -> (ragain c | DAY) ->
  exists s0, 0 < s0 <= ragain c /\ (t + s0) mod ragain c = rover c /\ tsleep c t = Some (if s0 <? 10 then s0 + ragain c else s0).
Proof.
  intros T R A [k K]. unfold tsleep. rewrite T. cbn [Z.eqb Pos.eqb]. pose proof (sec_range t) as SR. pose proof (Z.div_mod t DAY ltac:(discriminate)) as DM.
  set (sec := t mod DAY) in *. assert (KP : 1 <= k) by (unfold DAY in *; nia). assert (AD : ragain c <= DAY) by nia.
  destruct (sec <? rover c) eqn:L.
  - exists (rover c - sec). split; [lia|]. split; [symmetry; apply (Z.mod_unique_pos _ _ (k * (t / DAY))); [lia | rewrite DM at 1; nia]|].
    cbn [bind]. unfold MIN_ROLL_1. destruct (_ <? 10); [|reflexivity]. apply int_ok. unfold INT_MIN, INT_MAX, DAY in *; lia.
  - pose proof (Z.mod_pos_bound (sec - rover c) (ragain c) ltac:(lia)) as MB. pose proof (Z.div_mod (sec - rover c) (ragain c) ltac:(lia)) as M2.
    set (z := (sec - rover c) / ragain c) in *. set (m := (sec - rover c) mod ragain c) in *. clearbody z m sec.
    exists ((z + 1) * ragain c + rover c - sec). split; [nia|]. split; [symmetry; apply (Z.mod_unique_pos _ _ (k * (t / DAY) + z + 1)); [lia | rewrite DM at 1; nia]|].
    assert (B : 0 <= (z + 1) * ragain c <= 2 * DAY) by nia.
    rewrite (int_ok ((z + 1) * ragain c)) by (unfold INT_MIN, INT_MAX, DAY in *; lia). cbn [bind].
    rewrite int_ok by (unfold INT_MIN, INT_MAX, DAY in *; lia). cbn [bind]. unfold MIN_ROLL_1. destruct (_ <? 10); [|reflexivity]. apply int_ok. unfold INT_MIN, INT_MAX, DAY in *; lia.
Qed.
Theorem csv_again_partial a c t ds : config a = Some c -> rtype c = 5 -> rover c < ragain c -> (ragain c | DAY) -> delays (ragain c - 10) ds ->
  exists l, rolls c t ds = Some l /\ at_phase (ragain c) (rover c) l /\ every (ragain c) l /\ (forall x r, l = x :: r -> t < x < t + ragain c + 10).
Proof.
  intros C T R DV D. destruct (config_ok _ _ C) as (_ & R2 & _ & R5); [congruence|]. destruct (R5 T) as [_ A].
  assert (G : forall ds x, x mod ragain c = rover c -> delays (ragain c - 10) ds -> forall d, 0 <= d <= ragain c - 10 ->
    exists l, rolls c (x + d) ds = Some l /\ at_phase (ragain c) (rover c) l /\ every (ragain c) (x :: l)).
  { clear ds D. induction ds as [|e r IH]; intros x X D d D1; cbn [rolls].
    - exists []. split; [reflexivity|]. split; [intros y [] | exact I].
    - destruct (tsleep5 c (x + d) T (conj R2 R) A DV) as (s0 & S1 & S2 & S3).
      assert (E : s0 = ragain c - d).
      { pose proof (Z.div_mod x (ragain c) ltac:(lia)) as M1. pose proof (Z.div_mod (x + d + s0) (ragain c) ltac:(lia)) as M2. rewrite X in M1. rewrite S2 in M2.
        set (u := x / ragain c) in *. set (v := (x + d + s0) / ragain c) in *. clearbody u v. assert (v = u + 1) by nia. subst v. nia. }
      rewrite S3. replace (s0 <? 10) with false by (symmetry; apply Z.ltb_ge; lia). cbn [bind]. replace (x + d + s0) with (x + ragain c) by lia.
      assert (X2 : (x + ragain c) mod ragain c = rover c) by (rewrite <- X; replace (x + ragain c) with (x + 1 * ragain c) by lia; apply Z.mod_add; lia).
      destruct (IH (x + ragain c) X2 (fun y Y => D y (or_intror Y)) e (D e (or_introl eq_refl))) as (l & L1 & L2 & L3).
      rewrite L1. cbn [bind]. eexists. split; [reflexivity|]. split; [intros y [<-|Y]; auto | split; [reflexivity | exact L3]]. }
  destruct ds as [|d r]; [exists []; split; [reflexivity|]; split; [intros y [] | split; [exact I | discriminate]]|].
  destruct (tsleep5 c t T (conj R2 R) A DV) as (s0 & S1 & S2 & S3). cbn [rolls]. rewrite S3. cbn [bind].
  set (s := if s0 <? 10 then s0 + ragain c else s0).
  assert (SS : (t + s) mod ragain c = rover c /\ 0 < s < ragain c + 10).
  { unfold s. destruct (s0 <? 10) eqn:E; [|split; [exact S2 | lia]]. split; [|lia]. rewrite <- S2. replace (t + (s0 + ragain c)) with (t + s0 + 1 * ragain c) by lia. apply Z.mod_add; lia. }
  destruct SS as [SS1 SS2]. destruct (G r (t + s) SS1 (fun y Y => D y (or_intror Y)) d (D d (or_introl eq_refl))) as (l & L1 & L2 & L3).
  rewrite L1. cbn [bind]. eexists. split; [reflexivity|]. split; [intros y [<-|Y]; auto | split; [exact L3|]]. intros x q [= <- _]. lia.
Qed.
Example csv_again_ex : (3600 | DAY) /\ rolls (mkF 5 100 3600) 80000 [0; 5; 3590; 0; 1] = Some [82900; 86500; 90100; 93700; 97300].
Proof. split; [exists 24; reflexivity | reflexivity]. Qed.
(** When it does not, the roll at the time of day is left out *)
Theorem csv_again_refuted : exists c t l x, config (mkA (Some 5) (Some 0) (Some 50000)) = Some c /\ rolls c t [0; 0] = Some l /\
  daily (rover c) x /\ (exists u v, In u l /\ In v l /\ u < x < v) /\ ~ In x l.
Proof.
  exists (mkF 5 0 50000), 0, [50000; 100000], 86400. split; [reflexivity|]. split; [reflexivity|]. split; [reflexivity|]. split; [exists 50000, 100000; cbn; lia | cbn; lia].
Qed.
(** Large values are accepted, and then the time to sleep is not defined *)
Theorem csv_overflow_refuted : exists a c t, config a = Some c /\ rtype c = 5 /\ rover c < ragain c /\ tsleep c t = None.
Proof. exists (mkA (Some 5) (Some 1) (Some 2147483647)), (mkF 5 1 2147483647), 1. repeat split; reflexivity. Qed.

(** * Counters *)
Record inv (c : conf) (h : file) : Prop := { i_sc : 0 <= store_count h <= in_file h; i_bytes : rtype c = 4 -> 0 < byte_count h -> 0 < in_file h }.
Lemma step_inv c b h o : inv c h -> inv c (step c b h o).
Proof.
  intros [A B]. destruct o as [n|ok]; cbn [step].
  - unfold store. destruct (if (btype b =? 3) && _ then _ else _) as [lf fl]. split; cbn [store_count in_file byte_count]; [lia | intros; lia].
  - unfold roll. destruct ((rtype c =? 1) || (rtype c =? 2) || (rtype c =? 5)) eqn:T.
    + destruct (_ && negb _); [split; assumption|]. assert (N : rtype c <> 4) by (intros X; rewrite X in T; discriminate T).
      destruct ok; split; cbn [snd store_count in_file byte_count]; try lia; intros; congruence.
    + destruct (rtype c =? 3) eqn:T3.
      * destruct (_ <? _); [split; assumption|]. assert (N : rtype c <> 4) by lia. destruct ok; split; cbn [snd store_count in_file byte_count]; try lia; intros; congruence.
      * destruct (rtype c =? 4) eqn:T4.
        -- destruct (_ <? _); [split; assumption|]. destruct ok; split; cbn [snd store_count in_file byte_count]; lia.
        -- destruct ok; split; cbn [snd store_count in_file byte_count]; lia.
Qed.
Lemma run_inv c b l : inv c (run c b l).
Proof.
  unfold run. assert (G : forall l h, inv c h -> inv c (fold_left (step c b) l h)); [|apply G; split; cbn; lia].
  clear l. induction l as [|o r IH]; intros h I; cbn; [exact I | apply IH, step_inv, I].
Qed.
(** Without rollempty no file without records is rolled; one that is rolled by records has enough of them *)
Theorem csv_not_empty a c b l ok : config a = Some c -> rtype c <> -1 -> (timed c -> rollempty b = false) ->
  fst (roll c b ok (run c b l)) = true -> 0 < in_file (run c b l) /\ (rtype c = 3 -> Z.max (rover c) 3 <= in_file (run c b l)).
Proof.
  intros C R RE H. destruct (config_ok _ _ C R) as (R1 & _). destruct (run_inv c b l) as [A B]. set (h := run c b l) in *. clearbody h. unfold roll in H.
  destruct ((rtype c =? 1) || (rtype c =? 2) || (rtype c =? 5)) eqn:T.
  - assert (TM : timed c). { unfold timed. repeat rewrite orb_true_iff in T. rewrite !Z.eqb_eq in T. tauto. } rewrite (RE TM), andb_true_r in H.
    destruct (store_count h =? 0) eqn:E; [discriminate H|]. split; [lia|]. intros X; rewrite X in T; discriminate T.
  - apply orb_false_iff in T as [T T5]. apply orb_false_iff in T as [T1 T2]. destruct (rtype c =? 3) eqn:T3.
    + unfold MIN_ROLL_RECORDS in H. destruct (_ <? _) eqn:E; [discriminate H|]. split; intros; lia.
    + destruct (rtype c =? 4) eqn:T4; [|lia]. unfold MIN_ROLL_BYTES in H. destruct (_ <? _) eqn:E; [discriminate H|]. split; [apply B; lia | lia].
Qed.
Example csv_not_empty_ex : map (fun ok => fst (roll (mkF 1 60 0) (mkB false 3 5) ok (run (mkF 1 60 0) (mkB false 3 5) [Store 9; Roll true]))) [true] = [false] /\
  fst (roll (mkF 1 60 0) (mkB false 3 5) true (run (mkF 1 60 0) (mkB false 3 5) [Store 9; Roll true; Store 8])) = true.
Proof. split; reflexivity. Qed.

(** Fewer than N lines are in the buffer, when files are rolled by volume or not at all *)
Theorem csv_lines_buffered_partial c b l : btype b = 3 -> 0 < bsz b -> (forall ok, In (Roll ok) l -> rtype c = 3 \/ rtype c = 4) ->
  0 <= unflushed (run c b l) < bsz b.
Proof.
  intros BT BS. unfold run.
  assert (G : forall l h, 0 <= unflushed h < bsz b -> unflushed h <= store_count h - lastflush h -> 0 <= store_count h -> (forall ok, In (Roll ok) l -> rtype c = 3 \/ rtype c = 4) ->
     0 <= unflushed (fold_left (step c b) l h) < bsz b); [|apply G; cbn; lia].
  clear l. induction l as [|o r IH]; intros h U1 U2 U3 NT; cbn [fold_left]; [exact U1|].
  assert (K : 0 <= unflushed (step c b h o) < bsz b /\ unflushed (step c b h o) <= store_count (step c b h o) - lastflush (step c b h o) /\ 0 <= store_count (step c b h o)).
  { destruct o as [n|ok]; cbn [step].
    - unfold store. rewrite BT. cbn [Z.eqb Pos.eqb andb]. replace (bsz b =? 0) with false by (symmetry; apply Z.eqb_neq; lia).
      destruct (bsz b <=? store_count h + 1 - lastflush h) eqn:E; cbn [unflushed store_count lastflush orb]; lia.
    - unfold roll. destruct (NT ok (or_introl eq_refl)) as [X|X]; rewrite X; cbn [Z.eqb Pos.eqb orb];
      (destruct (_ <? _); [cbn [snd]; lia|]); destruct ok; cbn [snd unflushed store_count lastflush]; lia. }
  destruct K as (K1 & K2 & K3). apply IH; auto. intros ok X. exact (NT ok (or_intror X)).
Qed.
Example csv_lines_buffered_ex : map (fun k => unflushed (run (mkF 3 4 0) (mkB true 3 3) (repeat (Store 9) k ++ [Roll true] ++ repeat (Store 9) 2))) [2; 3; 4; 5]%nat = [1; 2; 2; 2].
Proof. reflexivity. Qed.
(** When they are rolled by time the buffer grows without bound: the count of lines starts anew, and that of the last flush does not *)
Theorem csv_lines_unbounded_refuted : exists c b, btype b = 3 /\ bsz b = 2 /\ (exists a, config a = Some c) /\ timed c /\
  forall m, exists l, unflushed (run c b l) = Z.of_nat (2 * m).
Proof.
  set (c := mkF 1 60 0). set (b := mkB true 3 2). exists c, b. split; [reflexivity|]. split; [reflexivity|]. split; [exists (mkA (Some 1) (Some 60) None); reflexivity|]. split; [left; reflexivity|].
  assert (A : forall m k, fold_left (step c b) (repeat (Store 1) (2 * m)) (mkH (2 * k) (2 * k) (2 * k) 0 (2 * k)) = mkH (2 * (k + Z.of_nat m)) (2 * (k + Z.of_nat m)) (2 * (k + Z.of_nat m)) 0 (2 * (k + Z.of_nat m))).
  { induction m as [|m IH]; intros k; [cbn; rewrite Z.add_0_r; reflexivity|]. replace (2 * S m)%nat with (S (S (2 * m))) by lia. cbn [repeat fold_left].
    replace (step c b (step c b (mkH (2 * k) (2 * k) (2 * k) 0 (2 * k)) (Store 1)) (Store 1)) with (mkH (2 * (k + 1)) (2 * (k + 1)) (2 * (k + 1)) 0 (2 * (k + 1))).
    - rewrite IH. f_equal; lia.
    - cbn [step]. unfold store at 2. cbn [store_count byte_count lastflush unflushed in_file b btype bsz Z.eqb Pos.eqb andb orb].
      replace (2 <=? 2 * k + 1 - 2 * k) with false by (symmetry; apply Z.leb_gt; lia). unfold store. cbn [store_count byte_count lastflush unflushed in_file b btype bsz Z.eqb Pos.eqb andb orb].
      replace (2 <=? 2 * k + 1 + 1 - 2 * k) with true by (symmetry; apply Z.leb_le; lia). cbn [orb]. f_equal; lia. }
  assert (B : forall n s bc lf f, s + Z.of_nat n < lf + 2 -> unflushed (fold_left (step c b) (repeat (Store 1) n) (mkH s bc lf s f)) = s + Z.of_nat n).
  { induction n as [|n IH]; intros s bc lf f H; [cbn; lia|]. cbn [repeat fold_left step]. unfold store. cbn [store_count byte_count lastflush unflushed in_file b btype bsz Z.eqb Pos.eqb andb orb].
    replace (2 <=? s + 1 - lf) with false by (symmetry; apply Z.leb_gt; lia). cbn [orb]. rewrite IH; lia. }
  intros m. exists (repeat (Store 1) (2 * m) ++ Roll true :: repeat (Store 1) (2 * m)). unfold run. rewrite fold_left_app. change new_file with (mkH (2 * 0) (2 * 0) (2 * 0) 0 (2 * 0)).
  rewrite A. cbn [fold_left]. set (q := 0 + Z.of_nat m). replace (step c b (mkH (2 * q) (2 * q) (2 * q) 0 (2 * q)) (Roll true)) with (mkH 0 (2 * q) (2 * q) 0 0).
  - rewrite B; unfold q; lia.
  - cbn [step roll c rtype Z.eqb Pos.eqb orb b rollempty negb]. unfold roll. cbn [rtype Z.eqb Pos.eqb orb store_count rollempty negb]. rewrite andb_false_r. reflexivity.
Qed.

Print Assumptions csv_sleep_min.
Print Assumptions csv_interval_partial.
Print Assumptions csv_daily_partial.
Print Assumptions csv_daily_refuted.
Print Assumptions csv_first_roll_refuted.
Print Assumptions csv_beyond_day_refuted.
Print Assumptions csv_again_partial.
Print Assumptions csv_again_refuted.
Print Assumptions csv_overflow_refuted.
Print Assumptions csv_not_empty.
Print Assumptions csv_lines_buffered_partial.
Print Assumptions csv_lines_unbounded_refuted.
