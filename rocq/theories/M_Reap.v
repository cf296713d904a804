(** Model of the thread that reclaims deleted sets, ldms/src/core/ldms.c:3787-3944
    delete_proc, with __ldms_set_delete (875-919) and the destruction of a set whose
    last reference is dropped (868-873).

    The tree of deleted sets, __del_tree, is keyed by the address of the time of
    deletion inside the set, that is by the address of the set (912, id_comparator);
    it is given by its list in increasing order.  The clock is read for each set; here
    it is the same for all sets of one pass. *)
From Verif Require Export Base.
From Coq Require Export List ZArith.
Export ListNotations.
Local Open Scope Z_scope.

(** A deleted set: address, del_time, references, and for each peer that looked it up
    or has it pushed, in the order of the collection, whether it is connected *)
Record dset := mkD { addr : Z; del_time : Z; refs : Z; lookers : list bool; pushers : list bool }.

(** ldms.c:3792-3794: the grace period, from the environment variable
    LDMS_DELETE_TIMEOUT *)
Definition grace (env : option Z) : Z :=
  let t := match env with Some t => t | None => 60 end in if t <=? 15 then 15 else t.

(** ldms.c:910-915: rbt_ins by address *)
Fixpoint insert (d : dset) (l : list dset) : list dset :=
  match l with [] => [d] | e :: l => if addr d <? addr e then d :: e :: l else e :: insert d l end.
(** ldms.c:875-919 __ldms_set_delete at time [now]: the set goes to the tree, then the
    creation reference is dropped, which may be the last *)
Definition delete (now : Z) (d : dset) (l : list dset) : list dset :=
  let e := mkD (addr d) now (refs d - 1) (lookers d) (pushers d) in
  if refs e =? 0 then l else insert e l.
Definition remove (a : Z) (l : list dset) : list dset := filter (fun e => negb (addr e =? a)) l.
(** ref_put by a holder of the set at [a]: ldms.c:868-873 at the last one *)
Definition put (a : Z) (l : list dset) : list dset :=
  flat_map (fun e => if addr e =? a then (if refs e - 1 =? 0 then [] else [mkD (addr e) (del_time e) (refs e - 1) (lookers e) (pushers e)]) else [e]) l.

(** ldms.c:3826-3837: the loop over the peers that looked the set up: whether one is
    connected *)
Fixpoint look_loop (fuel : nat) (l : list bool) : option bool :=
  match fuel with
  | O => None
  | S f => match l with [] => Some false | c :: l' => if c then Some true else look_loop f l' end
  end.
(** ldms.c:3838-3848: the loop over the peers it is pushed to; it does not advance *)
Fixpoint push_loop (fuel : nat) (l : list bool) : option bool :=
  match fuel with
  | O => None
  | S f => match l with [] => Some false | c :: _ => if c then Some true else push_loop f l end
  end.
(** ldms.c:3809-3939: one pass, from the highest address down ([up]: the tree in
    decreasing order).  The result: the addresses destroyed, with their references.
    [None]: fuel exhausted. *)
Fixpoint pass (fuel : nat) (timeout now : Z) (up : list dset) : option (list dset) :=
  match up with
  | [] => Some []
  | d :: up =>
    if now - del_time d <? timeout then Some []
    else match look_loop fuel (lookers d) with
         | None => None
         | Some true => pass fuel timeout now up
         | Some false =>
           match push_loop fuel (pushers d) with
           | None => None
           | Some true => pass fuel timeout now up
           | Some false => match pass fuel timeout now up with Some r => Some (d :: r) | None => None end
           end
         end
  end.
Definition reap (fuel : nat) (timeout now : Z) (l : list dset) : option (list dset) :=
  match pass fuel timeout now (rev l) with
  | Some r => Some (filter (fun e => negb (existsb (fun d => addr d =? addr e) r)) l)
  | None => None
  end.
