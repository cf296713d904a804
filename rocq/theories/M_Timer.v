(** Model of the arithmetic of timers: lib/src/ovis_event/ovis_event.c and
    ldms/src/ldmsd/ldmsd.c.

    A struct timeval is a number of microseconds; the fields are given by [tv_sec],
    [tv_usec].  [None]: division by zero or overflow of signed arithmetic. *)
From Verif Require Export M_Time.
Local Open Scope Z_scope.

(** ovis_event.c:62 ROUND, on uint64_t *)
Definition round_up (x p : Z) : option Z := if p =? 0 then None else Some (u64 (u64 (x + u64 (p - 1)) / p * p)).
(** ovis_event.c:382-391 ovis_event_heap_process and 501-507
    __ovis_event_next_wakeup: the deadline, in microseconds, of a periodic timer
    computed at the time [now].  The fields tv_sec = us / USEC, tv_usec = us % USEC. *)
Definition next_periodic (now period phase : Z) : option Z :=
  bind (round_up now period) (fun us => Some (u64 (us + phase))).
(** ovis_event.c:374-377, 407-416, 498-500: the deadline of a timeout (timeradd) *)
Definition next_timeout (now timeout : Z) : Z := now + timeout.
(** ovis_event.c:354-363 ovis_event_heap_process: at the time [now], either the
    timer with the earliest deadline is due, or the poll is told to wait so many
    milliseconds: a long, converted to an int *)
Definition poll_wait (now deadline : Z) : option Z :=
  if deadline <=? now then None
  else let d := deadline - now in
       let t := d / 1000000 * 1000 + (d mod 1000000 + 999) / 1000 in
       let r := t mod 4294967296 in Some (if r <? 2147483648 then r else r - 4294967296).
(** epoll_wait(2): how long it waits at most, in milliseconds; [None]: forever *)
Definition waits (t : Z) : option Z := if t <? 0 then None else Some t.

(** ldmsd.c:1137-1194 ldmsd_start_sampler: the checks on interval and offset (in
    microseconds, read from strings by ovis_time_str2us), and the period and phase of
    the timer: long values stored in uint64_t fields *)
Definition sampler_args (interval : Z) (offset : option Z) : option (Z * Z) :=
  match offset with
  | None => Some (u64 interval, 0)
  | Some o => if (10 <=? interval) && (Z.abs o * 2 <=? interval) then Some (u64 interval, u64 o) else None
  end.

(** ldmsd.c:809-830 resched_task of a synchronous task: the interval to the next run
    (long); C's % truncates *)
Definition resched_sync (epoch_us sched_us offset_us : Z) : option Z :=
  if sched_us =? 0 then None else
  bind (i64 (sched_us - Z.rem epoch_us sched_us)) (fun a =>
  bind (i64 (a + offset_us)) (fun adj =>
  if adj <=? 0 then i64 (adj + sched_us) else Some adj)).
(** ldmsd.c:827-828: the timeout of the event, and the time at which it expires when
    the event is added at [now]; the quotient and remainder truncate, timeradd
    carries once *)
Definition task_deadline (now adj : Z) : Z :=
  let s := now / 1000000 + Z.quot adj 1000000 in
  let u := now mod 1000000 + Z.rem adj 1000000 in
  if 1000000 <=? u then (s + 1) * 1000000 + (u - 1000000) else s * 1000000 + u.

(** ldmsd_updtr.c:920-937 ldmsd_updtr_new_with_auth, 150-168 updtr_task_init and
    185-187: the interval and offset of the update task, from those configured;
    [skew]: LDMSD_UPDTR_OFFSET_INCR.  [None]: rejected.  An updater without offset is
    not synchronous. *)
Definition updtr_args (interval : Z) (offset : Z) (skew : Z) : option (Z * Z) :=
  if interval <=? 0 then None else if interval <? Z.abs offset * 2 then None
  else Some (interval, offset - skew + skew).
(** ldmsd_updtr.c:808-845 ldmsd_updtr_tasks_update with updtr_task_init: the same for
    a set that carries an update hint: not checked *)
Definition hint_args (interval : Z) (offset : Z) (skew : Z) : Z * Z := (interval, offset + skew).

(** ldmsd_updtr.c:1503-1523 ldmsd_updtr_schedule_cmp: differences of long converted
    to int; [None] offset: LDMSD_UPDT_HINT_OFFSET_NONE *)
Definition int_of (z : Z) : Z := let r := z mod 4294967296 in if r <? 2147483648 then r else r - 4294967296.
Definition sched := (Z * option Z)%type.
Definition schedule_cmp (a b : sched) : Z :=
  let diff := int_of (fst a - fst b) in
  if negb (diff =? 0) then diff else
  match snd a, snd b with
  | None, None => 0
  | None, Some _ => -1
  | Some _, None => 1
  | Some x, Some y => if x =? y then 0 else int_of (x - y)
  end.
