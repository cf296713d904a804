(** Model of the event workers, lib/src/ovis_ev/ev.c and evw.c.

    Any number of threads call the functions of ev.c; each worker has a thread that
    runs worker_proc.  A step is one critical section under the lock of a worker, or
    one atomic operation outside of the locks.  [None]: the code accesses an event
    that is freed, uses a field that was never set, or removes from a tree (inserts
    into a list) an event that is not there (is there). *)
From Verif Require Export Base.
From Coq Require Export List ZArith.
Export ListNotations.

(** struct timespec: seconds and nanoseconds *)
Notation ts := (Z * Z)%type (only parsing).
(** evw.c:32-44 ev_time_cmp *)
Definition time_cmp (a b : ts) : Z :=
  if (fst a <? fst b)%Z then (-1)%Z else if (fst b <? fst a)%Z then 1%Z
  else if (snd a <? snd b)%Z then (-1)%Z else if (snd b <? snd a)%Z then 1%Z else 0%Z.
(** evw.c:21-30 ev_time_diff, in units of 10^-9 seconds; the rounding of double is
    not modelled.  It reads tv_sec where tv_nsec is meant. *)
Definition time_diff (a b : ts) : Z := ((fst a - fst b) * 1000000000 + fst a - fst b)%Z.
(** evw.c:123-128 ev_sched_to at the time [now] *)
Definition sched_to (now : ts) (secs nsecs : Z) : ts := (fst now + secs, snd now + nsecs)%Z.

(** ev_priv.h:16-27 struct ev__s; [None]: not set since malloc.  [flushed] is
    e_status = EV_FLUSH. *)
Record ev := mkEv { alive : bool; refs : nat; posted : bool; flushed : option bool; eto : option ts; edst : option nat }.
Definition dead : ev := mkEv false 0 false None None None.

(** Where the worker's thread is: before worker_proc, in sem_timedwait, between the
    removal of an event and the call of its actor, in the actor *)
Inductive place := InList | InTree (now : ts).
Inductive phase := Starting | Asleep | Popped (e : nat) (p : place) | Acting (e : nat) (p : place).
Inductive wstate := Stopped | Running | Flushing.
(** ev_priv.h:35-51 struct ev_worker_s.  The tree of the events with timeouts is
    given by its sorted list (the tree itself is M_Rbt); its key is the e_to of the
    event. *)
Record wk := mkWk { wst : wstate; semw : ts; sem : nat; queue : list nat; qlen : Z; tree : list (ts * nat); ph : phase }.
(** evw.c:162-203 ev_worker_new *)
Definition wk_new : wk := mkWk Stopped (0, 0)%Z 0 [] 0 [] Starting.

(** [claims]: calls of ev_post that have set e_posted and not yet locked the worker
    (event, worker, whether there is a timeout).  [cancels]: calls of ev_cancel that
    have passed the first test.  [held] is not in the code: the references that the
    users of the library have. *)
Record sys := mkSys { evs : nat -> ev; wks : nat -> wk; clk : ts; claims : list (nat * nat * bool); cancels : list nat; held : nat -> nat }.
Definition set_ev (s : sys) (e : nat) (x : ev) : sys := mkSys (fupd (evs s) e x) (wks s) (clk s) (claims s) (cancels s) (held s).
Definition set_wk (s : sys) (w : nat) (x : wk) : sys := mkSys (evs s) (fupd (wks s) w x) (clk s) (claims s) (cancels s) (held s).
Definition set_held (s : sys) (e n : nat) : sys := mkSys (evs s) (wks s) (clk s) (claims s) (cancels s) (fupd (held s) e n).

(** What can be observed: results of ev_post and ev_cancel, calls of actors *)
Inductive out :=
| OPosted (e w : nat) (to : option ts)   (** ev_post put the event in *)
| OBusy (e : nat)                        (** ev_post: EBUSY *)
| ODelivered (w e : nat) (flush : bool) (now : ts) (p : place)
| OCancel (e : nat) (rc : Z)
| OMoved (e w : nat)                     (** ev_cancel has put it in the list *)
| OFlush (w : nat).                      (** ev_flush was called *)

Inductive label :=
| New (e : nat)                          (** ev_new returns [e] *)
| Get (e : nat) | Put (e : nat)          (** ev_get, ev_put of a user *)
| Claim (e w : nat) (to : option ts)     (** ev_post: up to the lock *)
| Insert (e w : nat)                     (** ev_post: the rest *)
| Cancel1 (e : nat) | Cancel2 (e : nat)  (** ev_cancel: the first test, the rest *)
| Flush (w : nat)
| Start (w : nat) | Wake (w : nat) | Deliver (w : nat) | Return (w : nat) (** the worker's thread *)
| Tick (t : ts).

Section Build.
(** Compiled with NDEBUG: what is inside assert is not done. *)
Variable ndebug : bool.

(** ev.c:84-95 ev_new *)
Definition do_new (e : nat) (s : sys) : option (sys * list out) :=
  if alive (evs s e) then Some (s, []) else
  Some (set_held (set_ev s e (mkEv true 1 false None None None)) e 1, []).
(** ev.c:106-111 ev_get: the increment is inside the assert *)
Definition get_ref (e : nat) (s : sys) : option sys :=
  let x := evs s e in
  if alive x then
    if ndebug then Some s
    else if (refs x =? 0)%nat then None
    else Some (set_ev s e (mkEv (alive x) (S (refs x)) (posted x) (flushed x) (eto x) (edst x)))
  else None.
(** ev.c:97-104 ev_put *)
Definition put_ref (e : nat) (s : sys) : option sys :=
  let x := evs s e in
  if alive x then
    match refs x with
    | O => None
    | 1%nat => Some (set_ev s e dead)
    | S n => Some (set_ev s e (mkEv true n (posted x) (flushed x) (eto x) (edst x)))
    end
  else None.
Definition do_get (e : nat) (s : sys) : option (sys * list out) :=
  match get_ref e s with Some s' => Some (set_held s' e (S (held s e)), []) | None => None end.
Definition do_put (e : nat) (s : sys) : option (sys * list out) :=
  match put_ref e s with Some s' => Some (set_held s' e (held s e - 1), []) | None => None end.

(** ev.c:125-147 ev_post before the lock: the compare and swap of e_posted, e_status,
    e_to, e_src, e_dst.  Without a timeout e_to is 0. *)
Definition do_claim (e w : nat) (to : option ts) (s : sys) : option (sys * list out) :=
  let x := evs s e in
  if alive x then
    if posted x then Some (s, [OBusy e])
    else
      let x' := mkEv true (refs x) true (Some false) (Some (match to with Some t => t | None => (0, 0)%Z end)) (Some w) in
      Some (mkSys (fupd (evs s) e x') (wks s) (clk s) ((e, w, match to with Some _ => true | None => false end) :: claims s) (cancels s) (held s), [])
  else None.
(** rbt_ins: among equal keys the new one is last *)
Fixpoint ins (t : ts) (e : nat) (l : list (ts * nat)) : list (ts * nat) :=
  match l with
  | [] => [(t, e)]
  | (t', e') :: r => if (time_cmp t t' <? 0)%Z then (t, e) :: l else (t', e') :: ins t e r
  end.
(** the call of ev_post that continues *)
Fixpoint take_claim (e w : nat) (l : list (nat * nat * bool)) : option (bool * list (nat * nat * bool)) :=
  match l with
  | [] => None
  | (e', w', b) :: r =>
    if (e =? e')%nat && (w =? w')%nat then Some (b, r)
    else match take_claim e w r with Some (b', r') => Some (b', (e', w', b) :: r') | None => None end
  end.
(** ev.c:149-169 ev_post from the lock on, the call of sem_post included *)
Definition do_insert (e w : nat) (s : sys) : option (sys * list out) :=
  match take_claim e w (claims s) with
  | None => Some (s, [])
  | Some (timed, cl) =>
    let s := mkSys (evs s) (wks s) (clk s) cl (cancels s) (held s) in
    let x := evs s e in
    let k := wks s w in
    if alive x then
      match wst k with
      | Flushing => Some (set_ev s e (mkEv true (refs x) false (flushed x) (eto x) (edst x)), [OBusy e])
      | _ =>
        match get_ref e s, eto x with
        | Some s, Some t =>
          let n := if (time_cmp t (semw k) <=? 0)%Z then S (sem k) else sem k in
          if (timed : bool)
          then Some (set_wk s w (mkWk (wst k) (semw k) n (queue k) (qlen k) (ins t e (tree k)) (ph k)), [OPosted e w (Some t)])
          else Some (set_wk s w (mkWk (wst k) (semw k) n (queue k ++ [e]) (qlen k + 1) (tree k) (ph k)), [OPosted e w None])
        | _, _ => None
        end
      end
    else None
  end.

(** ev.c:172-179 ev_cancel: the test without the lock *)
Definition do_cancel1 (e : nat) (s : sys) : option (sys * list out) :=
  let x := evs s e in
  if alive x then
    match posted x, flushed x with
    | false, None => None
    | false, Some true => Some (s, [OCancel e 0])
    | _, _ => Some (mkSys (evs s) (wks s) (clk s) (claims s) (e :: cancels s) (held s), [])
    end
  else None.
(** rbt_del *)
Fixpoint del (e : nat) (l : list (ts * nat)) : option (list (ts * nat)) :=
  match l with
  | [] => None
  | (t, e') :: r => if (e =? e')%nat then Some r else match del e r with Some r' => Some ((t, e') :: r') | None => None end
  end.
Fixpoint take_cancel (e : nat) (l : list nat) : option (list nat) :=
  match l with
  | [] => None
  | e' :: r => if (e =? e')%nat then Some r else match take_cancel e r with Some r' => Some (e' :: r') | None => None end
  end.
(** ev.c:180-205 ev_cancel from the lock on *)
Definition do_cancel2 (e : nat) (s : sys) : option (sys * list out) :=
  match take_cancel e (cancels s) with
  | None => Some (s, [])
  | Some c =>
    let x := evs s e in
    match alive x, edst x, eto x with
    | true, Some w, Some t =>
      let k := wks s w in
      let x' := mkEv true (refs x) (posted x) (Some true) (eto x) (edst x) in
      let s := mkSys (fupd (evs s) e x') (wks s) (clk s) (claims s) c (held s) in
      if (time_diff t (clk s) <? 1000000000)%Z then Some (s, [OCancel e EBUSY])
      else match del e (tree k) with
           | None => None
           | Some l => if existsb (Nat.eqb e) (queue k) then None
                       else Some (set_wk s w (mkWk (wst k) (semw k) (S (sem k)) (queue k ++ [e]) (qlen k + 1) l (ph k)), [OMoved e w; OCancel e 0])
           end
    | _, _, _ => None
    end
  end.
(** evw.c:154-160 ev_flush *)
Definition do_flush (w : nat) (s : sys) : option (sys * list out) :=
  let k := wks s w in
  Some (set_wk s w (mkWk Flushing (semw k) (S (sem k)) (queue k) (qlen k) (tree k) (ph k)), [OFlush w]).

(** evw.c:133-136 the beginning of worker_proc *)
Definition do_start (w : nat) (s : sys) : option (sys * list out) :=
  let k := wks s w in
  match ph k with
  | Starting => Some (set_wk s w (mkWk Running (sched_to (clk s) 0 0) (sem k) (queue k) (qlen k) (tree k) Asleep), [])
  | _ => Some (s, [])
  end.
(** evw.c:141-149: the end of a round; [e]: the first event that is not due *)
Definition go_asleep (k : wk) (now : ts) (e : option ts) : wk :=
  mkWk (match wst k with Flushing => Running | x => x end)
    (match e with Some t => t | None => sched_to now 10 0 end) (sem k) (queue k) (qlen k) (tree k) Asleep.
(** evw.c:85-121 process_to_events up to where the lock is dropped, or to the end of
    the round; [now] was read at its beginning *)
Definition to_events (w : nat) (now : ts) (s : sys) : option (sys * list out) :=
  let k := wks s w in
  match tree k with
  | [] => Some (set_wk s w (go_asleep k (clk s) None), [])
  | (t, e) :: r =>
    let x := evs s e in
    if alive x then
      match wst k with
      | Flushing =>
        Some (set_wk (set_ev s e (mkEv true (refs x) false (Some true) (eto x) (edst x))) w
                (mkWk (wst k) (semw k) (sem k) (queue k) (qlen k) r (Popped e (InTree now))), [])
      | _ =>
        if (time_cmp t now >? 0)%Z then Some (set_wk s w (go_asleep k (clk s) (Some t)), [])
        else Some (set_wk (set_ev s e (mkEv true (refs x) false (flushed x) (eto x) (edst x))) w
                (mkWk (wst k) (semw k) (sem k) (queue k) (qlen k) r (Popped e (InTree now))), [])
      end
    else None
  end.
(** evw.c:51-65 process_immediate_events likewise *)
Definition immediate (w : nat) (s : sys) : option (sys * list out) :=
  let k := wks s w in
  match queue k with
  | [] => to_events w (clk s) s
  | e :: r =>
    let x := evs s e in
    if alive x then
      let f := match wst k with Flushing => Some true | _ => flushed x end in
      Some (set_wk (set_ev s e (mkEv true (refs x) false f (eto x) (edst x))) w
              (mkWk (wst k) (semw k) (sem k) r (qlen k - 1) (tree k) (Popped e InList)), [])
    else None
  end.
(** evw.c:136-139, 150: sem_timedwait returns, because of a post or at its time; then
    a round begins.  (Interrupted by a signal it returns as well: not modelled.) *)
Definition do_wake (w : nat) (s : sys) : option (sys * list out) :=
  let k := wks s w in
  match ph k with
  | Asleep =>
    match sem k with
    | S n => immediate w (set_wk s w (mkWk (wst k) (semw k) n (queue k) (qlen k) (tree k) (ph k)))
    | O => if (time_cmp (semw k) (clk s) <=? 0)%Z then immediate w s else Some (s, [])
    end
  | _ => Some (s, [])
  end.
(** evw.c:66-72, 107-113: the actor is called, with the status that is now in the event *)
Definition do_deliver (w : nat) (s : sys) : option (sys * list out) :=
  let k := wks s w in
  match ph k with
  | Popped e p =>
    let x := evs s e in
    match alive x, flushed x with
    | true, Some f =>
      Some (set_wk s w (mkWk (wst k) (semw k) (sem k) (queue k) (qlen k) (tree k) (Acting e p)), [ODelivered w e f (clk s) p])
    | _, _ => None
    end
  | _ => Some (s, [])
  end.
(** evw.c:73-76, 114-116: the actor returns, ev_put, the round goes on *)
Definition do_return (w : nat) (s : sys) : option (sys * list out) :=
  match ph (wks s w) with
  | Acting e p =>
    match put_ref e s with
    | None => None
    | Some s => match p with InList => immediate w s | InTree now => to_events w now s end
    end
  | _ => Some (s, [])
  end.
(** CLOCK_REALTIME is not set back *)
Definition do_tick (t : ts) (s : sys) : option (sys * list out) :=
  if (time_cmp (clk s) t <=? 0)%Z then Some (mkSys (evs s) (wks s) t (claims s) (cancels s) (held s), []) else Some (s, []).

Definition step (l : label) (s : sys) : option (sys * list out) :=
  match l with
  | New e => do_new e s
  | Get e => do_get e s
  | Put e => do_put e s
  | Claim e w to => do_claim e w to s
  | Insert e w => do_insert e w s
  | Cancel1 e => do_cancel1 e s
  | Cancel2 e => do_cancel2 e s
  | Flush w => do_flush w s
  | Start w => do_start w s
  | Wake w => do_wake w s
  | Deliver w => do_deliver w s
  | Return w => do_return w s
  | Tick t => do_tick t s
  end.
Fixpoint run (ls : list label) (s : sys) : option (sys * list out) :=
  match ls with
  | [] => Some (s, [])
  | l :: ls =>
    match step l s with
    | None => None
    | Some (s1, o1) => match run ls s1 with None => None | Some (s2, o2) => Some (s2, o1 ++ o2) end
    end
  end.
End Build.
(** no events; workers just made, their threads not yet running *)
Definition sys_new (now : ts) : sys := mkSys (fun _ => dead) (fun _ => wk_new) now [] [] (fun _ => 0%nat).

(** ev.c:113-123, evw.c:277-286 ev_posted, ev_canceled, ev_pending *)
Definition ev_posted (e : nat) (s : sys) : bool := posted (evs s e).
Definition ev_pending (w : nat) (s : sys) : Z := (Z.of_nat (length (tree (wks s w))) + qlen (wks s w))%Z.

(** evw.c:239-275 ev_dispatch and the choice of the actor, evw.c:66-71: the table is
    a list of actors, 0 for NULL; allocation does not fail *)
Definition dispatch (tbl : list nat) (id fn : nat) : list nat :=
  let tbl := match tbl with
             | [] => repeat 0%nat (if (id <? 100)%nat then 100%nat else (2 * id)%nat)
             | _ => if (id <? length tbl)%nat then tbl else tbl ++ repeat 0%nat (2 * id - length tbl)
             end in
  firstn id tbl ++ fn :: skipn (S id) tbl.
Definition actor (tbl : list nat) (dflt id : nat) : nat :=
  let a := if (id <? length tbl)%nat then nth id tbl 0%nat else 0%nat in
  if (a =? 0)%nat then dflt else a.
