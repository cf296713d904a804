(** Model of a set of a producer: its states and references,
    ldms/src/ldmsd/ldmsd_prdcr.c:101-236, 298-460, 519-553, ldms/src/ldmsd/ldmsd_updtr.c:214-664,
    ldms/src/ldmsd/ldmsd.c:1050-1107.

    One set of a producer from the directory entry that makes it on.  Each step is a
    critical section; what a thread still does with the set after it is a token: a lookup
    or an update whose callback is to come, a thread behind an unlock that still uses the
    set, a holder of information on it.  Left out: push, storage policies, statistics,
    the generation number, allocation failures.  ldms_xprt_lookup and ldms_xprt_update
    call back exactly once if they return 0 (updates: once without MORE) and not at all
    otherwise. *)
From Coq Require Export List Bool Arith.
Export ListNotations.

(** ldmsd.h:303-309; DELETED is never set *)
Inductive sstate := SStart | SLookup | SReady | SUpdating.
(** [has]: the metric set is known (prd_set->set); [ref]: ref_count; [tree], [hint]: in the
    tree of the producer, in a list of the hint tree; [lk], [up]: lookups and updates with a
    callback to come; [infos]: holders of ldmsd_set_info; [uses]: threads in
    ldmsd_prd_set_updtr_task_update from _add_cb or prdcr_dir_cb_upd; [finds]: threads in
    ldmsd_set_info_get between ldmsd_prdcr_unlock and ldmsd_prdcr_set_ref_get *)
Record pset := mkS { st : sstate; has : bool; ref : nat; tree : bool; hint : bool; lk : nat; up : nat; infos : nat; uses : nat; finds : nat; freed : bool }.

Definition set_st (x : sstate) (p : pset) : pset := mkS x (has p) (ref p) (tree p) (hint p) (lk p) (up p) (infos p) (uses p) (finds p) (freed p).
Definition set_ref (x : nat) (p : pset) : pset := mkS (st p) (has p) x (tree p) (hint p) (lk p) (up p) (infos p) (uses p) (finds p) (freed p).
Definition set_lk (x : nat) (p : pset) : pset := mkS (st p) (has p) (ref p) (tree p) (hint p) x (up p) (infos p) (uses p) (finds p) (freed p).
Definition set_up (x : nat) (p : pset) : pset := mkS (st p) (has p) (ref p) (tree p) (hint p) (lk p) x (infos p) (uses p) (finds p) (freed p).
Definition set_infos (x : nat) (p : pset) : pset := mkS (st p) (has p) (ref p) (tree p) (hint p) (lk p) (up p) x (uses p) (finds p) (freed p).
Definition set_uses (x : nat) (p : pset) : pset := mkS (st p) (has p) (ref p) (tree p) (hint p) (lk p) (up p) (infos p) x (finds p) (freed p).
Definition set_finds (x : nat) (p : pset) : pset := mkS (st p) (has p) (ref p) (tree p) (hint p) (lk p) (up p) (infos p) (uses p) x (freed p).
Definition set_has (x : bool) (p : pset) : pset := mkS (st p) x (ref p) (tree p) (hint p) (lk p) (up p) (infos p) (uses p) (finds p) (freed p).
Definition set_hint (x : bool) (p : pset) : pset := mkS (st p) (has p) (ref p) (tree p) x (lk p) (up p) (infos p) (uses p) (finds p) (freed p).
Definition set_tree (x : bool) (p : pset) : pset := mkS (st p) (has p) (ref p) x (hint p) (lk p) (up p) (infos p) (uses p) (finds p) (freed p).
Definition set_freed (x : bool) (p : pset) : pset := mkS (st p) (has p) (ref p) (tree p) (hint p) (lk p) (up p) (infos p) (uses p) (finds p) x.

(** [Crash]: freed memory is used or an assertion fails; [Blocked]: the step is not possible now *)
Inductive res := Ok (p : pset) | Blocked | Crash.
Definition bind (r : res) (f : pset -> res) : res := match r with Ok p => f p | r => r end.
(** Access to the memory of the set *)
Definition touch (p : pset) : res := if freed p then Crash else Ok p.
(** ldmsd_prdcr.c:155-166 *)
Definition ref_get (p : pset) : res := if freed p then Crash else match ref p with O => Crash | S n => Ok (set_ref (S (S n)) p) end.
Definition ref_put (p : pset) : res :=
  if freed p then Crash else match ref p with O => Crash | S O => Ok (set_freed true (set_ref 0 p)) | S n => Ok (set_ref n p) end.
(** 176-216 prdcr_hint_tree_update.  The tree itself is keyed as C47 describes; here the
    list of the set's own hint is found. *)
Definition hint_remove (p : pset) : res := if hint p then ref_put (set_hint false p) else Ok p.
Definition hint_add (h : bool) (p : pset) : res := if h then ref_get (set_hint true p) else Ok p.
(** 336-394 _add_cb for a name that is not there: [h]: the hint has an interval.  At its
    end the producer is unlocked and the set used. *)
Definition new (h : bool) : pset := mkS SStart false (if h then 3 else 2) true h 0 0 0 1 0 false.

Inductive step :=
| Use                          (** ldmsd_prd_set_updtr_task_update of the set, producer unlocked *)
| DirUpd (h changed : bool)    (** prdcr_dir_cb_upd: the hint has an interval now; the hint changed *)
| Sched (ok : bool)            (** schedule_prdcr_updates reaches the set; [ok]: the call, or all calls for members, return 0 *)
| MSched (ok : bool)           (** the set is a member of a group in schedule_set_updates *)
| MLookup (ok : bool)          (** ... of a group in __setgrp_members_lookup *)
| LookupDone (ok members : bool)   (** __ldmsd_prdset_lookup_cb; [members]: lookups of the members return 0 *)
| UpdateDone (ok more : bool)      (** updtr_update_cb; [more]: LDMS_UPD_F_MORE *)
| Reset                        (** prdcr_reset_set: disconnected, directory delete, remote delete *)
| InfoFind                     (** ldmsd_set_info_get up to the unlock *)
| InfoRef                      (** ... the rest *)
| InfoPut.                     (** ldmsd_set_info_delete *)

(** ldmsd_updtr.c:320-412 schedule_set_updates without push; [g]: the set is a group *)
Definition set_updates (g ok : bool) (p : pset) : res :=
  bind (ref_get (set_st SUpdating p)) (fun p =>
    if ok then if g then Ok (set_st SReady p) else Ok (set_up (S (up p)) p)
    else ref_put p).
(** 611-637, 481-493: the lookup with its reference *)
Definition lookup (ok : bool) (p : pset) : res :=
  bind (ref_get p) (fun p =>
    let p := set_st SLookup p in
    if ok then Ok (set_lk (S (lk p)) p) else ref_put (set_st SStart p)).
Definition do (g : bool) (s : step) (p : pset) : res :=
  match s with
  | Use => match uses p with O => Blocked | S n => touch (set_uses n p) end
  | DirUpd h ch => (* 421-460 *)
      if tree p then bind (touch p) (fun p => bind (hint_remove p) (fun p => bind (hint_add h p) (fun p => Ok (if ch then set_uses (S (uses p)) p else p))))
      else Blocked
  | Sched ok => (* 570-664; a set that is ready for less than a second is passed over: Blocked *)
      if tree p then bind (touch p) (fun p =>
        match st p with
        | SReady => set_updates g ok p
        | SStart => if has p then Crash else lookup ok p
        | SLookup | SUpdating => Ok p
        end)
      else Blocked
  | MSched ok => (* 351-381: the lookup takes no reference and the state stays *)
      if tree p then bind (touch p) (fun p =>
        match st p with
        | SReady => set_updates g ok p
        | SStart => Ok (if ok then set_lk (S (lk p)) p else p)
        | SLookup | SUpdating => Ok p
        end)
      else Blocked
  | MLookup ok => (* 432-508 *)
      if tree p then bind (touch p) (fun p => match st p with SStart => lookup ok p | _ => Ok p end) else Blocked
  | LookupDone ok members => (* 510-568 *)
      match lk p with
      | O => Blocked
      | S n => bind (touch (set_lk n p)) (fun p =>
          if ok then if has p then Crash
                     else let p := set_has true p in
                          if g && negb members then ref_put p else ref_put (set_st SReady p)
          else ref_put (set_st SStart p))
      end
  | UpdateDone ok more => (* 214-289 *)
      match up p with
      | O => Blocked
      | S n => bind (touch p) (fun p =>
          let p := if ok && negb more then set_st SReady p else p in
          if more then Ok p else ref_put (set_up n p))
      end
  | Reset => (* 218-225, 169-173 *)
      if tree p then bind (touch p) (fun p => bind (hint_remove p) (fun p => bind (ref_put (set_tree false p)) (fun p => bind (touch p) (fun p => ref_put (set_st SStart p)))))
      else Blocked
  | InfoFind => if tree p then bind (touch p) (fun p => Ok (set_finds (S (finds p)) p)) else Blocked
  | InfoRef => match finds p with O => Blocked | S n => bind (ref_get (set_finds n p)) (fun p => Ok (set_infos (S (infos p)) p)) end
  | InfoPut => match infos p with O => Blocked | S n => ref_put (set_infos n p) end
  end.
(** Steps that are not possible are passed over *)
Fixpoint run (g : bool) (l : list step) (p : pset) : option pset :=
  match l with
  | [] => Some p
  | s :: l => match do g s p with Ok p => run g l p | Blocked => run g l p | Crash => None end
  end.
