(** Model of the arithmetic on times: seconds with a fraction.

    Signed 64-bit arithmetic that overflows is undefined: [None]. *)
From Verif Require Export Base.
From Coq Require Export ZArith.
Local Open Scope Z_scope.

Record time := mkT { sec : Z; frac : Z }.
Definition u32 (z : Z) : Z := z mod 4294967296.
Definition u64 (z : Z) : Z := z mod 18446744073709551616.
Definition i64 (z : Z) : option Z := if (-9223372036854775808 <=? z) && (z <? 9223372036854775808) then Some z else None.

(** ldms/src/core/ldms.c:3503-3521 ldms_difftimestamp, on a pair of 32-bit seconds
    and microseconds.  The double ds + 1.0e-6*dms is given as a whole number of
    microseconds, before the rounding of the double.  -1.0 for a NULL argument is
    left out. *)
Definition difftimestamp (after before : time) : Z :=
  let '(dms, s2) := if frac after <? frac before then (u32 (u32 (1000000 + frac after) - frac before), u32 (sec after - 1))
                    else (u32 (frac after - frac before), sec after) in
  let ds := u32 (s2 - sec before) in
  if s2 <? ds then 0 else ds * 1000000 + dms.

(** ldmsd/ldmsd_strgp.c:104-114 ldmsd_timespec_diff *)
Definition bind {A B} (x : option A) (f : A -> option B) : option B := match x with Some a => f a | None => None end.
Definition ts_diff (start stop : time) : option time :=
  bind (i64 (frac stop - frac start)) (fun d =>
  bind (i64 (sec stop - sec start)) (fun s =>
  if d <? 0 then bind (i64 (s - 1)) (fun s' => bind (i64 (d + 1000000000)) (fun d' => Some (mkT s' d')))
  else Some (mkT s d))).
(** ldmsd_strgp.c:116-127 ldmsd_timespec_cmp; lib/src/ovis_ev/evw.c:32-44 ev_time_cmp
    (the same text) *)
Definition ts_cmp (a b : time) : Z :=
  if sec a <? sec b then -1 else if sec b <? sec a then 1 else
  if frac a <? frac b then -1 else if frac b <? frac a then 1 else 0.
(** ldmsd_strgp.c:129-138 ldmsd_timespec_add *)
Definition ts_add (a b : time) : option time :=
  bind (i64 (sec a + sec b)) (fun s =>
  bind (i64 (frac a + frac b)) (fun d =>
  if d <? 1000000000 then Some (mkT s d)
  else bind (i64 (s + 1)) (fun s' => Some (mkT s' (d - 1000000000))))).
(** ldmsd_strgp.c:218-226 strgp_update_fn: whether the store is flushed now *)
Definition flush_now (last interval now : time) : option bool :=
  if (sec interval =? 0) && (frac interval =? 0) then Some false
  else bind (ts_add last interval) (fun expiry => Some (0 <=? ts_cmp now expiry)).

(** zap/zap.h:962-969 zap_timespec_diff_us, ldms.h:3856-3863 ldms_timespec_diff_us
    (the same text) *)
Definition diff_us (start stop : time) : option Z :=
  bind (i64 (sec stop - sec start)) (fun s =>
  bind (i64 (s * 1000000000)) (fun secs_ns =>
  bind (i64 (frac stop - frac start)) (fun nsecs =>
  bind (i64 (secs_ns + nsecs)) (fun x => Some (Z.quot x 1000))))).
(** lib/src/ovis_event/ovis_event.c:636-650 __timespec_diff_us *)
Definition thr_diff_us (start stop : time) : option Z :=
  if sec start =? 0 then Some 0 else
  bind (i64 (sec stop - sec start)) (fun s =>
  bind (i64 (s * 1000000000)) (fun secs_ns =>
  bind (i64 (frac stop - frac start)) (fun nsecs =>
  Some (u64 (u64 secs_ns + u64 nsecs) / 1000)))).

(** lib/src/ovis_ev/evw.c:22-30 ev_time_diff: the double is given as a whole number
    of nanoseconds, before rounding.  Both fractions are taken from tv_sec. *)
Definition ev_diff (a b : time) : option Z :=
  bind (i64 (sec a - sec b)) (fun d => Some (d * 1000000000 + sec a - sec b)).
(** evw.c:123-128 ev_sched_to; [now]: the clock *)
Definition sched_to (now : time) (secs nsecs : Z) : option time :=
  bind (i64 (sec now + secs)) (fun s => bind (i64 (frac now + nsecs)) (fun d => Some (mkT s d))).
