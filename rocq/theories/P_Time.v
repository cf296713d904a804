(** C37: arithmetic on times. *)
From Verif Require Import S_Time.
From Coq Require Import Lia ZifyBool.
Local Open Scope Z_scope.

Lemma i64_some z : -9223372036854775808 <= z < 9223372036854775808 -> i64 z = Some z.
Proof. intros H. unfold i64. destruct (Z.leb_spec (-9223372036854775808) z), (Z.ltb_spec z 9223372036854775808); cbn; (reflexivity || lia). Qed.
Lemma u32_small z : 0 <= z < 4294967296 -> u32 z = z.
Proof. intros. now apply Z.mod_small. Qed.
Lemma u32_neg z : -4294967296 <= z < 0 -> u32 z = z + 4294967296.
Proof. intros. unfold u32. symmetry. apply (Z.mod_unique z 4294967296 (-1)); lia. Qed.

(** ** Differences of metric-set timestamps *)

(** Exact when the first time is not before the second. *)
Theorem time_difference a b : utime a -> utime b -> us b <= us a -> difftimestamp a b = us a - us b.
Proof.
  intros [HA1 HA2] [HB1 HB2] H. unfold us in *. unfold difftimestamp. destruct (Z.ltb_spec (frac a) (frac b)) as [HL|HL].
  - rewrite (u32_small (1000000 + frac a)), (u32_small (_ - frac b)), (u32_small (sec a - 1)), u32_small by lia.
    destruct (Z.ltb_spec (sec a - 1) (sec a - 1 - sec b)); lia.
  - rewrite !u32_small by lia. destruct (Z.ltb_spec (sec a) (sec a - sec b)); lia.
Qed.
(** Zero when the first time is before the second by a second or more, or within a
    second if the first has seconds other than zero. *)
Theorem time_difference_before_partial a b : utime a -> utime b -> us a < us b -> sec a <> 0 \/ frac b <= frac a -> difftimestamp a b = 0.
Proof.
  intros [HA1 HA2] [HB1 HB2] H HC. unfold us in *. unfold difftimestamp. destruct (Z.ltb_spec (frac a) (frac b)) as [HL|HL].
  - rewrite (u32_small (1000000 + frac a)), (u32_small (_ - frac b)), (u32_small (sec a - 1)) by lia. rewrite u32_neg by lia.
    destruct (Z.ltb_spec (sec a - 1) (sec a - 1 - sec b + 4294967296)); lia.
  - rewrite (u32_small (frac a - frac b)), u32_neg by lia. destruct (Z.ltb_spec (sec a) (sec a - sec b + 4294967296)); lia.
Qed.
(** Not in the remaining case: 136 years instead of minus one microsecond. *)
Theorem time_difference_refuted : exists a b, utime a /\ utime b /\ us b = us a + 1 /\ difftimestamp a b = 4294967295999999.
Proof. exists (mkT 0 0), (mkT 0 1). repeat split; vm_compute; congruence. Qed.
Example time_difference_ex : difftimestamp (mkT 101 250000) (mkT 100 750000) = 500000 /\ difftimestamp (mkT 100 0) (mkT 100 1) = 0.
Proof. split; reflexivity. Qed.

(** ** Nanosecond times *)

(** The difference is the exact difference of instants, with its fraction in range,
    also if it is negative. *)
Theorem timespec_difference a b : ntime a -> ntime b ->
  exists d, ts_diff a b = Some d /\ ns d = ns b - ns a /\ 0 <= frac d < 1000000000.
Proof.
  intros [HA1 HA2] [HB1 HB2]. unfold ts_diff, bind, ns. rewrite !i64_some by lia.
  destruct (Z.ltb_spec (frac b - frac a) 0); eexists; (split; [reflexivity|]); cbn [sec frac]; lia.
Qed.
Theorem timespec_sum a b : ntime a -> ntime b ->
  exists s, ts_add a b = Some s /\ ns s = ns a + ns b /\ 0 <= frac s < 1000000000.
Proof.
  intros [HA1 HA2] [HB1 HB2]. unfold ts_add, bind, ns. rewrite (i64_some (sec a + sec b)), (i64_some (frac a + frac b)) by lia.
  destruct (Z.ltb_spec (frac a + frac b) 1000000000); [|rewrite i64_some by lia]; eexists; (split; [reflexivity|]); cbn [sec frac]; lia.
Qed.
(** The comparison is that of the instants. *)
Theorem timespec_order a b : ntime a -> ntime b -> ts_cmp a b = match ns a ?= ns b with Lt => -1 | Eq => 0 | Gt => 1 end.
Proof.
  intros [HA1 HA2] [HB1 HB2]. unfold ts_cmp, ns.
  destruct (Z.compare_spec (sec a * 1000000000 + frac a) (sec b * 1000000000 + frac b)), (Z.ltb_spec (sec a) (sec b)), (Z.ltb_spec (sec b) (sec a)),
    (Z.ltb_spec (frac a) (frac b)), (Z.ltb_spec (frac b) (frac a)); (reflexivity || lia).
Qed.
(** A store is flushed exactly when its flush interval is over. *)
Theorem flush_due l i n : ntime l -> ntime i -> ntime n -> -4611686018427387904 <= sec l + sec i < 4611686018427387903 -> 0 < ns i ->
  flush_now l i n = Some (ns l + ns i <=? ns n).
Proof.
  intros HL HI HN HR HP. unfold flush_now. assert ((sec i =? 0) && (frac i =? 0) = false)%bool as ->.
  { unfold ns in HP. destruct (Z.eqb_spec (sec i) 0), (Z.eqb_spec (frac i) 0); cbn; (reflexivity || lia). }
  destruct (timespec_sum l i HL HI) as (s & E & Hs & Hf). rewrite E. cbn [bind]. f_equal.
  assert (ntime s). { split; [|exact Hf]. destruct HL, HI. unfold ns in Hs. lia. }
  rewrite timespec_order by assumption. rewrite Hs. destruct (Z.compare_spec (ns n) (ns l + ns i)), (Z.leb_spec (ns l + ns i) (ns n)); (reflexivity || lia).
Qed.
Theorem flush_never l n : flush_now l (mkT 0 0) n = Some false.
Proof. reflexivity. Qed.
Example timespec_ex : ts_diff (mkT 10 900000000) (mkT 12 100000000) = Some (mkT 1 200000000) /\
  ts_diff (mkT 12 100000000) (mkT 10 900000000) = Some (mkT (-2) 800000000) /\
  ts_add (mkT 10 900000000) (mkT 12 100000000) = Some (mkT 23 0) /\ ts_cmp (mkT 10 5) (mkT 10 4) = 1 /\
  flush_now (mkT 10 900000000) (mkT 0 200000000) (mkT 11 99999999) = Some false /\
  flush_now (mkT 10 900000000) (mkT 0 200000000) (mkT 11 100000000) = Some true.
Proof. repeat split; reflexivity. Qed.

(** Microseconds between two clock readings: the exact difference, rounded towards
    zero. *)
Theorem microseconds a b : clock a -> clock b -> diff_us a b = Some (Z.quot (ns b - ns a) 1000).
Proof.
  intros [HA1 HA2] [HB1 HB2]. unfold diff_us, bind, ns. rewrite (i64_some (sec b - sec a)), (i64_some (_ * _)), (i64_some (frac b - frac a)), i64_some by lia.
  do 2 f_equal. lia.
Qed.
(** The thread statistics: the same for a later second reading, and 0 for no first
    reading. *)
Theorem thread_microseconds a b : clock a -> clock b -> sec a <> 0 -> ns a <= ns b -> thr_diff_us a b = Some ((ns b - ns a) / 1000).
Proof.
  intros [HA1 HA2] [HB1 HB2] H0 HL. unfold thr_diff_us, bind. destruct (Z.eqb_spec (sec a) 0); [contradiction|].
  rewrite (i64_some (sec b - sec a)), (i64_some (_ * _)), (i64_some (frac b - frac a)) by lia. do 2 f_equal. unfold ns, u64 in *.
  rewrite <- Zplus_mod. rewrite Z.mod_small; lia.
Qed.
Theorem thread_microseconds_first b : thr_diff_us (mkT 0 0) b = Some 0.
Proof. reflexivity. Qed.
(** If the clock was set back, not: a huge time instead of minus one microsecond. *)
Theorem thread_microseconds_refuted : exists a b, clock a /\ clock b /\ ns b = ns a - 1000 /\ thr_diff_us a b = Some 18446744073709550.
Proof. exists (mkT 1 1000), (mkT 1 0). repeat split; vm_compute; congruence. Qed.
Example microseconds_ex : diff_us (mkT 5 1500) (mkT 6 0) = Some 999998 /\ diff_us (mkT 6 0) (mkT 5 1500) = Some (-999998) /\
  thr_diff_us (mkT 5 1500) (mkT 6 0) = Some 999998.
Proof. repeat split; reflexivity. Qed.

(** ** The event workers *)

(** The difference in seconds ignores the nanoseconds: two times of the same second
    have difference zero, and otherwise it is off by one billionth of the seconds
    and by the fractions. *)
Theorem event_difference_partial a b : ntime a -> ntime b ->
  ev_diff a b = Some (ns a - ns b - (frac a - frac b) + (sec a - sec b)).
Proof. intros [HA1 HA2] [HB1 HB2]. unfold ev_diff, bind, ns. rewrite i64_some by lia. f_equal. lia. Qed.
Theorem event_difference_refuted : exists a b, ntime a /\ ntime b /\ ns a - ns b = 999999999 /\ ev_diff a b = Some 0.
Proof. exists (mkT 7 999999999), (mkT 7 0). repeat split; vm_compute; congruence. Qed.
(** A time computed from the clock can be out of range, and is then ordered wrongly. *)
Theorem event_schedule_refuted : exists now t u, ntime now /\ ntime u /\ sched_to now 0 999999999 = Some t /\
  ns t = ns now + 999999999 /\ ns u < ns t /\ ts_cmp u t = 1.
Proof. exists (mkT 7 500000000), (mkT 7 1499999999), (mkT 8 0). repeat split; vm_compute; congruence. Qed.
(** With no nanoseconds it is exact. *)
Theorem event_schedule_partial now s : ntime now -> -4611686018427387904 <= s < 4611686018427387904 ->
  exists t, sched_to now s 0 = Some t /\ ns t = ns now + s * 1000000000 /\ 0 <= frac t < 1000000000.
Proof.
  intros [H1 H2] HS. unfold sched_to, bind, ns. rewrite !i64_some by lia. eexists. split; [reflexivity|]. cbn [sec frac]. lia.
Qed.
Example event_schedule_ex : sched_to (mkT 7 5) 10 0 = Some (mkT 17 5) /\ ev_diff (mkT 9 0) (mkT 7 0) = Some 2000000002.
Proof. split; reflexivity. Qed.

Print Assumptions time_difference.
Print Assumptions time_difference_before_partial.
Print Assumptions time_difference_refuted.
Print Assumptions timespec_difference.
Print Assumptions timespec_sum.
Print Assumptions timespec_order.
Print Assumptions flush_due.
Print Assumptions flush_never.
Print Assumptions microseconds.
Print Assumptions thread_microseconds.
Print Assumptions thread_microseconds_first.
Print Assumptions thread_microseconds_refuted.
Print Assumptions event_difference_partial.
Print Assumptions event_difference_refuted.
Print Assumptions event_schedule_refuted.
Print Assumptions event_schedule_partial.
