(** Model of the tasks of an updater, ldms/src/ldmsd/ldmsd_updtr.c:96-213, 572-650, 698-893,
    1001-1160, with what the producer does with the hints of its sets, ldmsd_prdcr.c:176-216,
    254-296, 336-452, 1350-1375, for one updater and the sets of one producer.

    Each step is what one thread does under the lock of the updater (or, for the end of a
    task, of the task).  Simplified: a scheduler thread that has taken a due event is already
    in the task (the gap between is C48); starting a stopped task succeeds; memory does not
    run out and the set information can be written; the key comparison of the two trees is
    exact (see C47 for where ldmsd_updtr_schedule_cmp is not). *)
From Coq Require Export List ZArith Bool.
Export ListNotations.
Local Open Scope Z_scope.

(** ldmsd.h:281-284 struct ldmsd_updtr_schedule: interval and offset; LDMSD_UPDT_HINT_OFFSET_NONE, ldmsd.h:101 *)
Definition hint := (Z * Z)%type.
Definition NONE : Z := -9223372036854775808.
Definition hint_eqb (a b : hint) : bool := (fst a =? fst b) && (snd a =? snd b).
(** 150-169 updtr_task_init: the schedule for a hint; the sum is not taken modulo 2^64 *)
Definition sched (skew : Z) (h : hint) : hint := (fst h, if snd h =? NONE then NONE else snd h + skew).

(** The updater as configured: the hint of its default task, auto_interval, push, and its
    matches, each as the sets (by name) that it selects *)
Record conf := mkConf { dflt : hint; auto : bool; push : bool; matches : list (nat -> bool); skew : Z }.
(** ldmsd_task: not scheduled, scheduled, in its function ([true]: LDMSD_TASK_F_STOP is set) *)
Inductive tstate := Idle | Sched | Busy (stop : bool).
(** A set of the producer: its name, its hint, the schedule it is said to be updated with
    (updt_interval, updt_offset; [None]: zeros of calloc) *)
Record pset := mkP { p_name : nat; p_hint : hint; p_told : option hint }.
(** state RUNNING of the updater; its default task; the task tree; the producer being
    connected with its transport in use; its sets *)
Record state := mkSt { up : bool; dtask : tstate; tasks : list (hint * tstate); conn : bool; sets : list pset }.
Definition init : state := mkSt false Idle [] true [].

(** 837 updtr_update_task_start: ldmsd_task_start, whose EBUSY is not looked at *)
Definition kick (t : tstate) : tstate := match t with Idle => Sched | t => t end.
(** 119-126 updtr_task_find *)
Fixpoint find_task (h : hint) (l : list (hint * tstate)) : option tstate :=
  match l with [] => None | (k, t) :: r => if hint_eqb k h then Some t else find_task h r end.
Fixpoint set_task (h : hint) (t : tstate) (l : list (hint * tstate)) : list (hint * tstate) :=
  match l with [] => [] | (k, u) :: r => if hint_eqb k h then (k, t) :: r else (k, u) :: set_task h t r end.
(** ldmsd_updtr_schedule_cmp < 0 where it is exact: by interval, then offset, none first *)
Definition before (a b : hint) : bool := (fst a <? fst b) || ((fst a =? fst b) && (snd a <? snd b)).
(** 172-182 updtr_task_new: rbt_ins *)
Fixpoint ins_task (h : hint) (t : tstate) (l : list (hint * tstate)) : list (hint * tstate) :=
  match l with [] => [(h, t)] | (k, u) :: r => if before h k then (h, t) :: l else (k, u) :: ins_task h t r end.

Definition find_set (i : nat) (l : list pset) : option pset := find (fun p => Nat.eqb (p_name p) i) l.
Definition put_set (p : pset) (l : list pset) : list pset := map (fun q => if Nat.eqb (p_name q) (p_name p) then p else q) l.
(** 269-281, 866-876: the updater has no match or one that selects the set *)
Definition eligible (c : conf) (i : nat) : bool := match matches c with [] => true | l => existsb (fun m => m i) l end.

(** 806-845 ldmsd_updtr_tasks_update for a set: the task tree, and the schedule it is told *)
Definition tasks_update (c : conf) (p : pset) (l : list (hint * tstate)) : list (hint * tstate) * pset :=
  let told h := mkP (p_name p) (p_hint p) (Some (sched (skew c) h)) in
  if negb (auto c) then (l, told (dflt c))
  else if fst (p_hint p) =? 0 then (l, told (dflt c))
  else if hint_eqb (dflt c) (p_hint p) then (l, told (dflt c))
  else match find_task (p_hint p) l with
       | Some t => (set_task (p_hint p) (kick t) l, told (p_hint p))
       | None => (ins_task (p_hint p) Sched l, told (p_hint p))
       end.
(** ldmsd_prdcr.c:254-296 ldmsd_prd_set_updtr_task_update, for this updater, which has this producer *)
Definition announce (c : conf) (p : pset) (s : state) : state :=
  if up s && negb (push c) && eligible c (p_name p)
  then let '(l, q) := tasks_update c p (tasks s) in mkSt (up s) (dtask s) l (conn s) (put_set q (sets s))
  else s.
(** 847-890 updtr_tasks_create: all sets in the order of their names *)
Fixpoint tasks_create (c : conf) (todo : list pset) (l : list (hint * tstate)) : list (hint * tstate) * list pset :=
  match todo with
  | [] => (l, [])
  | p :: r =>
      let '(l, q) := if eligible c (p_name p) then tasks_update c p l else (l, p) in
      let '(l, r) := tasks_create c r l in (l, q :: r)
  end.

(** 572-665 schedule_prdcr_updates: the sets that a task with this hint goes through, for one
    match.  With automatic intervals these are the list for the hint in the hint tree
    (ldmsd_prdcr.c:176-216: it has no sets with interval 0; their order is not modelled);
    what is done with each of them is C53. *)
Definition selects (m : option (nat -> bool)) (i : nat) : bool := match m with None => true | Some m => m i end.
Definition walk (c : conf) (h : hint) (s : state) (m : option (nat -> bool)) : list nat :=
  if conn s
  then map p_name (filter (fun p => (if auto c then negb (fst (p_hint p) =? 0) && hint_eqb (p_hint p) h else true) && selects m (p_name p)) (sets s))
  else [].
(** 698-720 schedule_updates *)
Definition visits (c : conf) (h : hint) (s : state) : list nat :=
  match matches c with [] => walk c h s None | l => flat_map (fun m => walk c h s (Some m)) l end.

Inductive op :=
| Add (i : nat) (h : hint)  (** a directory message adds a set (_add_cb; [h]: the hint as read, C54) *)
| Upd (i : nat) (h : hint)  (** a directory message about a set that is there *)
| Del (i : nat)             (** the set is gone *)
| Lost                      (** the transport of the producer is disconnected *)
| Gone                      (** the event for it: prdcr_reset_sets *)
| Conn                      (** connected again *)
| Begin (h : hint)          (** the task of the tree with this hint is due: its function up to the unlock *)
| End (h : hint)            (** the rest of task_cb_fn, ldmsd.c:857-872 *)
| BeginD | EndD             (** the same of the default task *)
| Cleanup                   (** the tree management task, 754-773: once an hour *)
| UStart                    (** ldmsd_updtr_start *)
| UStop.                    (** ldmsd_updtr_stop: it waits for tasks that are in their function *)

(** What a step shows: the sets that a task with a hint went through *)
Inductive out := Nothing | Went (h : hint) (l : list nat).
(** [None]: a freed task is used *)
Definition res := option (state * out).
Definition ok (s : state) : res := Some (s, Nothing).

(** ldmsd.c:857-872: the state after the function *)
Definition ended (t : tstate) : tstate := match t with Busy true => Idle | Busy false => Sched | t => t end.
Definition with_sets (l : list pset) (s : state) : state := mkSt (up s) (dtask s) (tasks s) (conn s) l.
Definition with_tasks (l : list (hint * tstate)) (s : state) : state := mkSt (up s) (dtask s) l (conn s) (sets s).

Definition step (c : conf) (s : state) (o : op) : res :=
  match o with
  | Add i h => (* ldmsd_prdcr.c:336-389 *)
      match find_set i (sets s) with
      | Some _ => ok s
      | None => let p := mkP i h None in ok (announce c p (with_sets (p :: sets s) s))
      end
  | Upd i h => (* ldmsd_prdcr.c:425-462 *)
      match find_set i (sets s) with
      | None => ok s
      | Some p =>
          let q := mkP i h (p_told p) in
          let s1 := with_sets (put_set q (sets s)) s in
          ok (if hint_eqb (p_hint p) h then s1 else announce c q s1)
      end
  | Del i => ok (with_sets (filter (fun p => negb (Nat.eqb (p_name p) i)) (sets s)) s)
  | Lost => ok (mkSt (up s) (dtask s) (tasks s) false (sets s))
  | Gone => if conn s then ok s else ok (with_sets [] s)
  | Conn => match sets s with [] => ok (mkSt (up s) (dtask s) (tasks s) true []) | _ => ok s end
  | Begin h => (* 739-752, 698-720 *)
      match find_task h (tasks s) with
      | Some Sched =>
          let v := if up s then visits c h s else [] in
          Some (with_tasks (set_task h (Busy (up s && (length v =? 0)%nat)) (tasks s)) s, Went h v)
      | _ => ok s
      end
  | End h => match find_task h (tasks s) with Some t => ok (with_tasks (set_task h (ended t) (tasks s)) s) | None => ok s end
  | BeginD => match dtask s with
              | Sched => Some (mkSt (up s) (Busy false) (tasks s) (conn s) (sets s), Went (dflt c) (if up s then visits c (dflt c) s else []))
              | _ => ok s
              end
  | EndD => ok (mkSt (up s) (ended (dtask s)) (tasks s) (conn s) (sets s))
  | Cleanup => (* 754-773 with 136-147: updtr_task_next ends at the first other hint, so only
                  the first task is looked at.  If it has F_STOP set, it is joined, removed
                  and freed, and LIST_FOREACH then reads its list entry. *)
      if up s && auto c then match tasks s with (_, Busy true) :: _ => None | _ => ok s end else ok s
  | UStart => (* 1001-1036 *)
      if up s then ok s
      else
        let '(l, ps) := if negb (push c) || auto c then tasks_create c (sets s) (tasks s) else (tasks s, sets s) in
        ok (mkSt true (kick (dtask s)) l (conn s) ps)
  | UStop => (* 1118-1165 *) if up s then ok (mkSt false Idle [] (conn s) (sets s)) else ok s
  end.

Fixpoint run (c : conf) (s : state) (l : list op) : option (state * list out) :=
  match l with
  | [] => Some (s, [])
  | o :: r => match step c s o with
              | None => None
              | Some (s, x) => match run c s r with Some (s, xs) => Some (s, x :: xs) | None => None end
              end
  end.
