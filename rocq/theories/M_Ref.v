(** Model of lib/src/ovis_ref/ref.h: reference counts, without and with tracking.

    The count is an int changed by __sync builtins (atomic, wrapping).  [None]: the
    freed object is touched. *)
From Verif Require Export Base.
From Coq Require Export List ZArith.
Export ListNotations.
Local Open Scope Z_scope.

Definition i32 (z : Z) : Z := let r := z mod 4294967296 in if r <? 2147483648 then r else r - 4294967296.

(** ** Without tracking *)

(** struct ref_s: the count; [dying]: the threads that saw zero and are about to
    call free_fn; [frees]: the calls of free_fn so far. *)
Record obj := mkO { count : Z; dying : list nat; frees : nat }.
(** ref.h:108-131 _ref_init *)
Definition ref_init : obj := mkO 1 [] 0.
(** The atomic steps of thread [t] *)
Inductive step :=
| SGet (t : nat)       (** the fetch-and-add of _ref_get *)
| SPut (t : nat)       (** the sub-and-fetch of _ref_put *)
| SFree (t : nat)      (** the call of free_fn in _ref_put *)
| SPass (t u : nat).   (** thread [t] hands a reference to thread [u]: the object is not touched *)
Definition remove1 (t : nat) (l : list nat) : list nat :=
  let fix go l := match l with [] => [] | x :: l => if Nat.eqb x t then l else x :: go l end in go l.
(** ref.h:70-74 and 106-110 (the branches without _REF_TRACK_) *)
Definition do_step (s : step) (o : obj) : option obj :=
  match s with
  | SGet _ => match frees o with O => Some (mkO (i32 (count o + 1)) (dying o) O) | _ => None end
  | SPut t =>
    match frees o with
    | O => let c := i32 (count o - 1) in Some (mkO c (if c =? 0 then t :: dying o else dying o) O)
    | _ => None
    end
  | SFree t => Some (mkO (count o) (remove1 t (dying o)) (S (frees o)))
  | SPass _ _ => Some o
  end.

(** ** With tracking (_REF_TRACK_): each reference has a name *)

(** r->ref_count, the list of names with their counts (newest first), the lock, and
    the calls of free_fn.  Counts are unbounded here. *)
Record tobj := mkTO { total : Z; insts : list (nat * Z); tlock : bool; tfrees : nat }.
Inductive tout := TRet (o : tobj) | TAbort | TWild.
(** ref.h:118-131 _ref_init *)
Definition t_init (n : nat) : tobj := mkTO 1 [(n, 1)] false 0.
Fixpoint bump (n : nat) (d : Z) (l : list (nat * Z)) : list (nat * Z) :=
  match l with [] => [] | (m, c) :: l => if Nat.eqb m n then (m, c + d) :: l else (m, c) :: bump n d l end.
Fixpoint count_of (n : nat) (l : list (nat * Z)) : option Z :=
  match l with [] => None | (m, c) :: l => if Nat.eqb m n then Some c else count_of n l end.
(** ref.h:38-69 _ref_put: the whole body is one step, it runs under r->lock, which
    is still held when free_fn is called *)
Definition t_put (n : nat) (o : tobj) : tout :=
  match tfrees o with
  | O =>
    if total o =? 0 then TAbort else
    if tlock o then TWild else
    match count_of n (insts o) with
    | None => TAbort
    | Some c =>
      if c =? 0 then TAbort else
      let k := total o - 1 in
      let l := bump n (-1) (insts o) in
      if k =? 0 then TRet (mkTO k l true 1) else TRet (mkTO k l false 0)
    end
  | _ => TWild
  end.
(** ref.h:80-107 _ref_get *)
Definition t_get (n : nat) (o : tobj) : tout :=
  match tfrees o with
  | O =>
    if tlock o then TWild else
    if total o =? 0 then TAbort else
    match count_of n (insts o) with
    | Some c => TRet (mkTO (total o + 1) (bump n 1 (insts o)) false 0)
    | None => TRet (mkTO (total o + 1) ((n, 1) :: insts o) false 0)
    end
  | _ => TWild
  end.
