(** Model of the periodic tasks of the daemon, ldms/src/ldmsd/ldmsd.c:809-956 with
    the part of ovis_event.c:339-404 that calls them.

    Each step is one critical section under task->lock, or one of the scheduler
    threads taking a due event.  What the task's function does between is other
    steps.  [None]: a scheduler that is NULL is used. *)
From Verif Require Export Base.
From Coq Require Export List ZArith.
Export ListNotations.

(** ldmsd.h:135-139 *)
Inductive tstate := Stopped | Started | Running.
(** A scheduler thread working on the event of this task: it has taken it from the
    heap and not yet locked the task, or it is in the function of the task, with the
    next state computed before *)
Inductive phase := Taken | Inside (next : tstate).
(** struct ldmsd_task: state, LDMSD_TASK_F_STOP in flags, os and thread_id ([None]:
    os is NULL; thread_id is then not used), whether the event is in the heap of the
    scheduler; the scheduler threads at work (by thread number); and the
    contribution of this task to ev_count. *)
Record task := mkTask { st : tstate; fstop : bool; os : option nat; armed : option nat; work : list (nat * phase); users : Z }.
(** ldmsd.c:875-881 ldmsd_task_init *)
Definition task_new : task := mkTask Stopped false None None [] 0.

Fixpoint drop (w : nat) (l : list (nat * phase)) : list (nat * phase) :=
  match l with [] => [] | (v, p) :: l => if Nat.eqb v w then l else (v, p) :: drop w l end.
Fixpoint at_work (w : nat) (l : list (nat * phase)) : option phase :=
  match l with [] => None | (v, p) :: l => if Nat.eqb v w then Some p else at_work w l end.

Inductive tstep :=
| Start (w : nat) (ok : bool)  (** ldmsd_task_start by anyone; [w]: the thread chosen, [ok]: the event could be added *)
| Stop                         (** ldmsd_task_stop *)
| Resched (ok : bool)          (** ldmsd_task_resched, with flags that do not include F_STOP *)
| Join                         (** ldmsd_task_join returns *)
| Take (w : nat)               (** scheduler thread [w] takes the due event *)
| Enter (w : nat) (ok : bool)  (** it enters task_cb_fn and calls the function *)
| Leave (w : nat).             (** the function returned, the rest of task_cb_fn *)

(** What a step answers: nothing, EBUSY, or not possible now (the caller waits) *)
Inductive tans := Done | Busy | Blocked.

(** ldmsd.c:902-918 ldmsd_task_resched.  ovis_scheduler_event_del with the event in
    no heap does nothing. *)
Definition resched (ok : bool) (t : task) : option (tans * task) :=
  match st t with
  | Stopped => Some (Done, t)
  | _ => match os t with
         | None => None
         | Some w => Some (Done, mkTask (st t) false (os t) (if ok then Some w else None) (work t) (users t))
         end
  end.
(** ldmsd.c:883-900 ldmsd_task_stop *)
Definition stop (t : task) : option (tans * task) :=
  match st t with
  | Stopped => Some (Done, t)
  | Started => match os t with
               | None => None
               | Some _ => Some (Done, mkTask Stopped (fstop t) None None (work t) (users t - 1))
               end
  | Running => Some (Done, mkTask Running true (os t) (armed t) (work t) (users t))
  end.
(** ldmsd.c:920-948 ldmsd_task_start.  OVIS_EVENT_INIT makes the event be in no heap
    as far as the scheduler can tell. *)
Definition start (w : nat) (ok : bool) (t : task) : option (tans * task) :=
  match st t with
  | Stopped => Some (Done, mkTask (if ok then Started else Stopped) false (Some w) (if ok then Some w else None) (work t) (users t + 1))
  | _ => Some (Busy, t)
  end.
(** ldmsd.c:847-855 task_cb_fn up to the call of the function *)
Definition enter (w : nat) (ok : bool) (t : task) : option (tans * task) :=
  match at_work w (work t) with
  | Some Taken =>
    match os t with
    | Some v => Some (Done, mkTask Running (fstop t) (os t) (if ok then Some v else None) ((w, Inside (if ok then Started else Stopped)) :: drop w (work t)) (users t))
    | None => Some (Done, mkTask Running (fstop t) None (armed t) ((w, Inside Stopped) :: drop w (work t)) (users t))
    end
  | _ => Some (Blocked, t)
  end.
(** ldmsd.c:857-872 the rest of task_cb_fn *)
Definition leave (w : nat) (t : task) : option (tans * task) :=
  match at_work w (work t) with
  | Some (Inside next) =>
    let s := if fstop t then Stopped else next in
    let l := drop w (work t) in
    match s with
    | Stopped => Some (Done, mkTask Stopped false None (match os t with Some _ => None | None => armed t end) l (users t - 1))
    | _ => Some (Done, mkTask s (fstop t) (os t) (armed t) l (users t))
    end
  | _ => Some (Blocked, t)
  end.
(** ovis_event.c:348-399: a scheduler thread that is not in a callback takes the due
    event; the event stays in the heap with its next deadline *)
Definition take (w : nat) (t : task) : option (tans * task) :=
  match armed t, at_work w (work t) with
  | Some v, None => if Nat.eqb v w then Some (Done, mkTask (st t) (fstop t) (os t) (armed t) ((w, Taken) :: work t) (users t)) else Some (Blocked, t)
  | _, _ => Some (Blocked, t)
  end.
(** ldmsd.c:950-956 ldmsd_task_join: returns when the task is stopped *)
Definition join (t : task) : option (tans * task) :=
  match st t with Stopped => Some (Done, t) | _ => Some (Blocked, t) end.

Definition tstep_do (s : tstep) (t : task) : option (tans * task) :=
  match s with
  | Start w ok => start w ok t
  | Stop => stop t
  | Resched ok => resched ok t
  | Join => join t
  | Take w => take w t
  | Enter w ok => enter w ok t
  | Leave w => leave w t
  end.
