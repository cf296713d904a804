(** C31: periodic timers.  C47: schedules of samplers, tasks and updaters. *)
From Verif Require Import S_Timer.
From Coq Require Import Lia ZifyBool.
Local Open Scope Z_scope.

Lemma i64_ok z : -9223372036854775808 <= z < 9223372036854775808 -> i64 z = Some z.
Proof. intros H. unfold i64. destruct (Z.leb_spec (-9223372036854775808) z), (Z.ltb_spec z 9223372036854775808); cbn; (reflexivity || lia). Qed.
Lemma ceil_spec n p : 0 < p -> 0 <= n -> n <= (n + (p - 1)) / p * p < n + p.
Proof.
  intros Hp Hn. pose proof (Z.div_mod (n + (p - 1)) p ltac:(lia)). pose proof (Z.mod_pos_bound (n + (p - 1)) p Hp). nia.
Qed.
Lemma next_value now period phase : 0 < period -> 0 <= now -> 0 <= phase -> now + period + phase < 18446744073709551616 ->
  next_periodic now period phase = Some ((now + (period - 1)) / period * period + phase).
Proof.
  intros Hp Hn Hq HB. unfold next_periodic, round_up, bind. destruct (Z.eqb_spec period 0); [lia|]. pose proof (ceil_spec now period Hp Hn).
  unfold u64. rewrite (Z.mod_small (period - 1)) by lia. rewrite (Z.mod_small (now + (period - 1))) by lia.
  rewrite (Z.mod_small (_ * _)) by lia. rewrite Z.mod_small by lia. reflexivity.
Qed.
Lemma next_unique now period phase d : 0 < period -> in_phase period phase d -> now < d <= now + period -> next_instant now period phase d.
Proof.
  intros Hp [k ->] H. split; [exists k; reflexivity|]. split; [lia|]. intros e [j ->] He.
  destruct (Z.lt_ge_cases j k); [|nia]. nia.
Qed.
Lemma ceil_mod n p : 0 < p -> 0 <= n -> (n + (p - 1)) / p * p = if n mod p =? 0 then n else n - n mod p + p.
Proof.
  intros Hp Hn. pose proof (Z.div_mod n p ltac:(lia)) as DM. pose proof (Z.mod_pos_bound n p Hp) as MB. destruct (Z.eqb_spec (n mod p) 0) as [E|E].
  - replace ((n + (p - 1)) / p) with (n / p); [nia|]. apply (Z.div_unique _ _ _ (p - 1)); nia.
  - replace ((n + (p - 1)) / p) with (n / p + 1); [nia|]. apply (Z.div_unique _ _ _ (n mod p - 1)); nia.
Qed.

(** ** Periodic timers *)

(** The next deadline of a periodic timer is an instant of its schedule that is not
    in the past (period positive, phase less than the period, times below 2^64). *)
Theorem periodic_phase now period phase : 0 <= phase < period -> 0 <= now -> now + period + phase < 18446744073709551616 ->
  exists d, next_periodic now period phase = Some d /\ in_phase period phase d /\ now <= d < now + 2 * period.
Proof.
  intros Hp Hn HB. rewrite next_value by lia. eexists. split; [reflexivity|]. split; [eexists; reflexivity|].
  pose proof (ceil_spec now period ltac:(lia) Hn). lia.
Qed.
(** It is the first instant in the future exactly when the clock is at a multiple of
    the period and the phase is positive, or when the phase is over in the current
    period and the clock is not at a multiple of the period. *)
Theorem periodic_next_partial now period phase d : 0 <= phase < period -> 0 <= now -> now + period + phase < 18446744073709551616 ->
  next_periodic now period phase = Some d ->
  (next_instant now period phase d <-> (now mod period = 0 /\ 0 < phase) \/ (0 < now mod period /\ phase <= now mod period)).
Proof.
  intros Hp Hn HB E. rewrite next_value in E by lia. injection E as <-. rewrite (ceil_mod now period ltac:(lia) Hn).
  pose proof (Z.div_mod now period ltac:(lia)) as DM. pose proof (Z.mod_pos_bound now period ltac:(lia)) as MB. split.
  - intros (_ & HF & HE). destruct (Z.eqb_spec (now mod period) 0) as [E0|E0]; [left; lia|]. right. split; [lia|].
    destruct (Z.le_gt_cases phase (now mod period)) as [|HG]; [assumption|].
    assert (now - now mod period + period + phase <= now - now mod period + phase); [|lia].
    apply HE; [|lia]. exists (now / period). lia.
  - intros H. apply next_unique; [lia| |].
    + destruct (Z.eqb_spec (now mod period) 0); [exists (now / period); lia|exists (now / period + 1); nia].
    + destruct (Z.eqb_spec (now mod period) 0); lia.
Qed.
(** A timer with phase that fires less late than the rest of its period is set to
    its next instant. *)
Theorem periodic_after_fire_partial period phase k late : 0 < phase < period -> 0 <= k -> 0 <= late -> late < period - phase ->
  k * period + phase + late + 2 * period < 18446744073709551616 ->
  next_periodic (k * period + phase + late) period phase = Some ((k + 1) * period + phase).
Proof.
  intros Hp Hk Hl HL HB. assert (0 <= k * period) by nia. rewrite next_value by lia. f_equal. rewrite ceil_mod by lia.
  assert ((k * period + phase + late) mod period = phase + late) as ->.
  { symmetry. apply (Z.mod_unique _ _ k); lia. }
  destruct (Z.eqb_spec (phase + late) 0); lia.
Qed.
(** Not in the future: at a multiple of the period, without phase. *)
Theorem periodic_future_refuted : exists now period phase, 0 <= phase < period /\ next_periodic now period phase = Some now.
Proof. exists 5000000, 1000000, 0. split; [lia|reflexivity]. Qed.
(** ... so a timer that fires on time fires twice. *)
Theorem periodic_twice_always : forall period k, 0 < period -> 0 <= k -> (k + 1) * period < 18446744073709551616 ->
  next_periodic (k * period) period 0 = Some (k * period).
Proof.
  intros period k Hp Hk HB. rewrite next_value by nia. f_equal. rewrite ceil_mod by nia. rewrite Z.mod_mul by lia. cbn [Z.eqb]. lia.
Qed.
(** Not the earliest: with a phase that is still to come in this period. *)
Theorem periodic_earliest_refuted : exists now period phase d e, 0 <= phase < period /\ next_periodic now period phase = Some d /\
  in_phase period phase e /\ now < e < d.
Proof. exists 5100000, 1000000, 500000, 6500000, 5500000. split; [lia|]. split; [reflexivity|]. split; [exists 5; reflexivity|lia]. Qed.
(** A period of zero stops the daemon. *)
Theorem periodic_zero_refuted : exists now phase, next_periodic now 0 phase = None.
Proof. exists 5, 0. reflexivity. Qed.
Example periodic_ex : next_periodic 5600000 1000000 500000 = Some 6500000 /\ next_periodic 5000000 1000000 500000 = Some 5500000 /\
  next_periodic 5000001 1000000 0 = Some 6000000.
Proof. repeat split; reflexivity. Qed.

(** ** Samplers *)

(** A sampler with an interval of at least 10 and an offset of either sign of at most
    half the interval is accepted; the interval without offset is not checked. *)
Theorem sampler_zero_refuted : exists p q now, sampler_args 0 None = Some (p, q) /\ next_periodic now p q = None.
Proof. exists 0, 0, 5. split; reflexivity. Qed.
(** With a negative offset the deadline set in the last part of the interval is not in
    the future: the sampler runs again and again until the interval is over. *)
Theorem sampler_negative_always interval off k late : 10 <= interval < 4611686018427387904 -> 0 < off -> off * 2 <= interval -> 0 < k ->
  0 <= late < off -> k * interval + interval < 9223372036854775808 ->
  exists p q, sampler_args interval (Some (- off)) = Some (p, q) /\
    next_periodic (k * interval - off + late) p q = Some (k * interval - off).
Proof.
  intros Hi Ho H2 Hk Hl HB. exists interval, (18446744073709551616 - off). unfold sampler_args.
  assert ((10 <=? interval) && (Z.abs (- off) * 2 <=? interval) = true)%bool as -> by lia.
  assert (u64 interval = interval) as -> by (unfold u64; apply Z.mod_small; lia).
  assert (u64 (- off) = 18446744073709551616 - off) as -> by (unfold u64; symmetry; apply (Z.mod_unique _ _ (-1)); lia).
  split; [reflexivity|]. unfold next_periodic, round_up, bind. destruct (Z.eqb_spec interval 0); [lia|]. unfold u64.
  assert (interval <= k * interval) by nia.
  rewrite (Z.mod_small (interval - 1)), (Z.mod_small (k * interval - off + late + (interval - 1))) by lia. f_equal. rewrite (ceil_mod (k * interval - off + late) interval) by lia.
  assert ((k * interval - off + late) mod interval = interval - off + late) as -> by (symmetry; apply (Z.mod_unique _ _ (k - 1)); lia).
  destruct (Z.eqb_spec (interval - off + late) 0); [lia|]. rewrite (Z.mod_small (k * interval - off + late - (interval - off + late) + interval)) by lia.
  symmetry. apply (Z.mod_unique _ _ 1); lia.
Qed.
Theorem sampler_negative_refuted : exists interval off now p q d, sampler_args interval (Some off) = Some (p, q) /\
  next_periodic now p q = Some d /\ d < now /\ interval = 1000000 /\ off = -100000.
Proof. exists 1000000, (-100000), 6950000, 1000000, 18446744073709451616, 6900000. repeat split. Qed.
Example sampler_negative_ex : sampler_args 1000000 (Some (-100000)) = Some (1000000, 18446744073709451616) /\
  next_periodic 6900000 1000000 18446744073709451616 = Some 6900000 /\ next_periodic 6999999 1000000 18446744073709451616 = Some 6900000 /\
  next_periodic 7000001 1000000 18446744073709451616 = Some 7900000.
Proof. repeat split; reflexivity. Qed.
(** With an offset of zero or more, the schedule is that of the interval and offset. *)
Theorem sampler_partial interval off now : 10 <= interval -> 0 <= off -> off * 2 <= interval -> 0 <= now ->
  now + 2 * interval < 9223372036854775808 ->
  exists p q d, sampler_args interval (Some off) = Some (p, q) /\ next_periodic now p q = Some d /\
    in_phase interval off d /\ now <= d < now + 2 * interval.
Proof.
  intros Hi Ho H2 Hn HB. exists interval, off. unfold sampler_args. assert ((10 <=? interval) && (Z.abs off * 2 <=? interval) = true)%bool as -> by lia.
  unfold u64. rewrite !Z.mod_small by lia. destruct (periodic_phase now interval off ltac:(lia) Hn ltac:(lia)) as (d & H). exists d. split; [reflexivity|exact H].
Qed.
Example sampler_ex : sampler_args 1000000 (Some 100000) = Some (1000000, 100000) /\ sampler_args 1000000 (Some 600000) = None /\
  next_periodic 5200000 1000000 100000 = Some 6100000.
Proof. repeat split; reflexivity. Qed.

(** ** The poll *)

(** The poll never ends before the earliest deadline, and at most a millisecond
    after, for deadlines less than 24 days ahead. *)
Theorem poll_partial now deadline : 0 <= now < deadline -> deadline - now <= 2147483647000 ->
  exists t, poll_wait now deadline = Some t /\ waits t = Some t /\ deadline <= now + t * 1000 < deadline + 1000.
Proof.
  intros Hn HB. unfold poll_wait. destruct (Z.leb_spec deadline now); [lia|]. set (d := deadline - now) in *.
  pose proof (Z.div_mod d 1000000 ltac:(lia)) as DM. pose proof (Z.mod_pos_bound d 1000000 ltac:(lia)) as MB.
  pose proof (Z.div_mod (d mod 1000000 + 999) 1000 ltac:(lia)) as DM2. pose proof (Z.mod_pos_bound (d mod 1000000 + 999) 1000 ltac:(lia)) as MB2.
  set (t := d / 1000000 * 1000 + (d mod 1000000 + 999) / 1000) in *.
  assert (0 <= t < 2147483648) by lia. rewrite (Z.mod_small t) by lia. destruct (Z.ltb_spec t 2147483648); [|lia].
  exists t. split; [reflexivity|]. split; [unfold waits; destruct (Z.ltb_spec t 0); [lia|reflexivity]|]. lia.
Qed.
Theorem poll_due now deadline : deadline <= now <-> poll_wait now deadline = None.
Proof. unfold poll_wait. destruct (Z.leb_spec deadline now); split; intros; (reflexivity || lia || discriminate). Qed.
(** A deadline 25 days ahead is waited for forever. *)
Theorem poll_refuted : exists now deadline t, now < deadline /\ deadline = now + 25 * 86400 * 1000000 /\
  poll_wait now deadline = Some t /\ waits t = None.
Proof. exists 0, (25 * 86400 * 1000000), (-2134967296). repeat split; vm_compute; congruence. Qed.
Example poll_ex : poll_wait 5000000 5600001 = Some 601 /\ poll_wait 5000000 5000000 = None.
Proof. split; reflexivity. Qed.

(** ** Synchronous tasks *)

Lemma resched_value e s o : 0 < s < 2305843009213693952 -> 0 <= e -> - s <= o < 2305843009213693952 ->
  resched_sync e s o = Some (let a := s - e mod s + o in if a <=? 0 then a + s else a).
Proof.
  intros Hs He Ho. unfold resched_sync, bind. destruct (Z.eqb_spec s 0); [lia|]. rewrite Z.rem_mod_nonneg by lia.
  pose proof (Z.mod_pos_bound e s ltac:(lia)). rewrite !i64_ok by lia. cbv zeta. destruct (Z.leb_spec (s - e mod s + o) 0); reflexivity.
Qed.
(** A synchronous task is next run at an instant of its schedule in the future, the
    first one exactly when the offset does not exceed the time since the last
    multiple of the interval. *)
Theorem sync_task_partial e s o : 0 < s < 2305843009213693952 -> 0 <= e -> - s <= o < 2305843009213693952 ->
  exists a, resched_sync e s o = Some a /\ in_phase s o (e + a) /\ 0 < a /\
    (next_instant e s o (e + a) <-> o <= e mod s).
Proof.
  intros Hs He Ho. rewrite resched_value by lia. eexists. split; [reflexivity|]. cbv zeta.
  pose proof (Z.div_mod e s ltac:(lia)) as DM. pose proof (Z.mod_pos_bound e s ltac:(lia)) as MB.
  set (a := if s - e mod s + o <=? 0 then s - e mod s + o + s else s - e mod s + o).
  assert (HP : in_phase s o (e + a)).
  { unfold a. destruct (Z.leb_spec (s - e mod s + o) 0); [exists (e / s + 2)|exists (e / s + 1)]; nia. }
  split; [exact HP|]. split; [unfold a; destruct (Z.leb_spec (s - e mod s + o) 0); lia|]. split.
  - intros (_ & HF & HE). destruct (Z.le_gt_cases o (e mod s)) as [|HG]; [assumption|].
    assert (e + a <= e + (o - e mod s)); [|unfold a in *; destruct (Z.leb_spec (s - e mod s + o) 0); lia].
    apply HE; [|lia]. exists (e / s). lia.
  - intros HO. apply next_unique; [lia|exact HP|]. unfold a. destruct (Z.leb_spec (s - e mod s + o) 0); lia.
Qed.
(** It may skip an instant. *)
Theorem sync_task_refuted : exists e s o a x, 0 < o /\ 2 * o <= s /\ resched_sync e s o = Some a /\ in_phase s o x /\ e < x < e + a.
Proof. exists 5100000, 1000000, 500000, 1400000, 5500000. split; [lia|]. split; [lia|]. split; [reflexivity|]. split; [exists 5; reflexivity|lia]. Qed.
(** A set's update hint may have an offset below minus its interval: then the next run
    is set into the past, or to a malformed time. *)
Theorem sync_task_hint_refuted : exists e i o skew, let (s, f) := hint_args i o skew in
  exists a, resched_sync e s f = Some a /\ a < 0.
Proof. exists 5900000, 1000000, (-3000000), 100000. exists (-1800000). split; [reflexivity|lia]. Qed.
(** The event set for it expires that much after it is added. *)
Theorem task_deadline_exact now a : 0 <= now -> 0 <= a -> task_deadline now a = now + a.
Proof.
  intros Hn Ha. unfold task_deadline. rewrite Z.quot_div_nonneg, Z.rem_mod_nonneg by lia.
  pose proof (Z.div_mod now 1000000 ltac:(lia)). pose proof (Z.div_mod a 1000000 ltac:(lia)).
  destruct (Z.leb_spec 1000000 (now mod 1000000 + a mod 1000000)); lia.
Qed.
Example sync_task_ex : resched_sync 5600000 1000000 500000 = Some 900000 /\ resched_sync 5600000 1000000 (-500000) = Some 900000 /\
  resched_sync 5600000 1000000 0 = Some 400000 /\ task_deadline 5600000 900000 = 6500000.
Proof. repeat split; reflexivity. Qed.

(** An updater that is accepted has a synchronous task with its own interval and
    offset, whatever the skew. *)
Theorem updtr_schedule i o skew e : 0 < i < 2305843009213693952 -> 0 <= e ->
  (Z.abs o * 2 <= i -> exists s f a, updtr_args i o skew = Some (s, f) /\ resched_sync e s f = Some a /\ in_phase i o (e + a) /\ 0 < a <= 2 * i) /\
  (i < Z.abs o * 2 -> updtr_args i o skew = None).
Proof.
  intros Hi He. unfold updtr_args. destruct (Z.leb_spec i 0); [lia|]. split.
  - intros Ho. destruct (Z.ltb_spec i (Z.abs o * 2)); [lia|]. exists i, o.
    destruct (sync_task_partial e i o Hi He ltac:(lia)) as (a & E & H1 & H2 & _). exists a. replace (o - skew + skew) with o by lia.
    split; [reflexivity|]. split; [exact E|]. split; [exact H1|]. split; [exact H2|].
    rewrite resched_value in E by lia. injection E as <-. cbv zeta. pose proof (Z.mod_pos_bound e i ltac:(lia)).
    destruct (Z.leb_spec (i - e mod i + o) 0); lia.
  - intros Ho. destruct (Z.ltb_spec i (Z.abs o * 2)); [reflexivity|lia].
Qed.
Example updtr_schedule_ex : updtr_args 1000000 250000 100000 = Some (1000000, 250000) /\ updtr_args 1000000 600000 100000 = None /\
  resched_sync 5600000 1000000 250000 = Some 650000.
Proof. repeat split; reflexivity. Qed.

(** ** Which sets share an update task *)

Lemma int_of_small z : -2147483648 <= z < 2147483648 -> int_of z = z.
Proof.
  intros H. unfold int_of. destruct (Z.leb_spec 0 z).
  - rewrite Z.mod_small by lia. destruct (Z.ltb_spec z 2147483648); lia.
  - replace (z mod 4294967296) with (z + 4294967296) by (apply (Z.mod_unique z 4294967296 (-1)); lia).
    destruct (Z.ltb_spec (z + 4294967296) 2147483648); lia.
Qed.
(** For intervals and offsets less than 35 minutes (2^31 microseconds) apart, the
    comparison is the order of schedules; only equal schedules share a task. *)
Theorem schedule_order_partial a b : -2147483648 <= fst a - fst b < 2147483648 ->
  (forall x y, snd a = Some x -> snd b = Some y -> -2147483648 <= x - y < 2147483648) ->
  (schedule_cmp a b < 0 <-> sched_lt a b) /\ (0 < schedule_cmp a b <-> sched_lt b a) /\ (schedule_cmp a b = 0 <-> a = b).
Proof.
  intros H1 H2. destruct a as [i o], b as [j p]. cbn [fst snd] in *. unfold schedule_cmp, sched_lt. cbn [fst snd]. rewrite int_of_small by exact H1.
  destruct (Z.eqb_spec (i - j) 0) as [E|E]; cbn [negb].
  - assert (i = j) as -> by lia. destruct o as [x|], p as [y|].
    + specialize (H2 x y eq_refl eq_refl). rewrite int_of_small by exact H2. destruct (Z.eqb_spec x y) as [->|Hx].
      * split; [lia|split; [lia|]]. split; reflexivity.
      * split; [lia|split; [lia|]]. split; [lia|]. intros Q. injection Q. lia.
    + split; [lia|split; [lia|]]. split; [lia|discriminate].
    + split; [lia|split; [lia|]]. split; [lia|discriminate].
    + split; [lia|split; [lia|]]. split; reflexivity.
  - split; [lia|split; [lia|]]. split; [lia|]. intros Q. injection Q as Hi _. lia.
Qed.
(** Sets with intervals 2^32 microseconds (72 minutes) apart share a task. *)
Theorem schedule_shared_refuted : exists a b, fst a = 1000000 /\ fst b = 4295967296 /\ schedule_cmp a b = 0.
Proof. exists (1000000, None), (4295967296, None). repeat split. Qed.
(** Intervals of 1 second, 30 minutes and one hour are in a cycle: the tree of tasks
    is not sorted. *)
Theorem schedule_cycle_refuted : exists a b c, schedule_cmp a b < 0 /\ schedule_cmp b c < 0 /\ schedule_cmp c a < 0 /\
  fst a = 1000000 /\ fst b = 1800000000 /\ fst c = 3600000000.
Proof. exists (1000000, None), (1800000000, None), (3600000000, None). repeat split. Qed.
Example schedule_ex : schedule_cmp (1000000, None) (1000000, Some 5) = -1 /\ schedule_cmp (2000000, Some 5) (1000000, Some 7) = 1000000 /\
  schedule_cmp (1000000, Some 5) (1000000, Some 5) = 0.
Proof. repeat split; reflexivity. Qed.

Print Assumptions periodic_phase.
Print Assumptions periodic_next_partial.
Print Assumptions periodic_after_fire_partial.
Print Assumptions periodic_future_refuted.
Print Assumptions periodic_twice_always.
Print Assumptions periodic_earliest_refuted.
Print Assumptions periodic_zero_refuted.
Print Assumptions sampler_zero_refuted.
Print Assumptions sampler_negative_always.
Print Assumptions sampler_negative_refuted.
Print Assumptions sampler_partial.
Print Assumptions poll_partial.
Print Assumptions poll_due.
Print Assumptions poll_refuted.
Print Assumptions sync_task_partial.
Print Assumptions sync_task_refuted.
Print Assumptions sync_task_hint_refuted.
Print Assumptions task_deadline_exact.
Print Assumptions updtr_schedule.
Print Assumptions schedule_order_partial.
Print Assumptions schedule_shared_refuted.
Print Assumptions schedule_cycle_refuted.
