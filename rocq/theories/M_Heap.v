(** Model of the two array heaps:
    - lib/src/coll/heap.c            (ovis_heap, "c/2" parent in float_up)
    - lib/src/ovis_event/ovis_event.c (ovis_event_heap, "(idx-1)/2" parent)

    A node/event is an identifier (its address).  The slot array is a function
    from slot number to identifier; slots at or above [sz] are garbage.  The
    field [idx] of each node (node->idx, ev->priv.idx) and its key are kept per
    identifier.  The comparator is modelled by integer keys: comp(a,b) is the
    sign of key a - key b (heap.c), timercmp(<) is the order of time values
    (ovis_event.c).  Integers are unbounded: [sz] is an int bounded by the
    allocation.  Locking is not modelled: callers hold the mutex. *)
From Verif Require Import Base.

Record heap := mkH {
  arr : nat -> nat;      (* heap->heap[], h->ev[]           heap.c:60, ovis_event_priv.h *)
  idx : nat -> Z;        (* node->idx, ev->priv.idx; -1 = not in the heap *)
  key : nat -> Z;        (* what the comparator looks at *)
  sz  : nat;             (* heap->sz, h->heap_len *)
  cap : nat              (* heap->alloc_sz, h->alloc_len *)
}.

(** heap.c:63-72 ovis_heap_create; ovis_event.c:97-105 ovis_event_heap_create.
    Keys of nodes not yet inserted are irrelevant. *)
Definition create (c : nat) : heap :=
  mkH (fun _ => O) (fun _ => (-1)%Z) (fun _ => 0%Z) O c.

(** The store of a node into a slot together with the update of its index
    field: heap.c:119-120, 123-124, 150-151, 159-160; ovis_event.c:129-130,
    133-134, 158-159, 164-165. *)
Definition put (h : heap) (i : nat) (n : nat) : heap :=
  mkH (fupd (arr h) i n) (fupd (idx h) n (Z.of_nat i)) (key h) (sz h) (cap h).

Definition set_key (h : heap) (n : nat) (k : Z) : heap :=
  mkH (arr h) (idx h) (fupd (key h) n k) (sz h) (cap h).
Definition set_idx (h : heap) (n : nat) (i : Z) : heap :=
  mkH (arr h) (fupd (idx h) n i) (key h) (sz h) (cap h).
Definition set_sz (h : heap) (s : nat) : heap :=
  mkH (arr h) (idx h) (key h) s (cap h).

(** Strict "precedes": comp(a,b) < 0; ovis_event_lt (ovis_event.c:114-117). *)
Definition lt (h : heap) (a b : nat) : bool := Z.ltb (key h a) (key h b).

(** The float loop, parameterised by the parent formula:
    heap.c:108-125 with p = c/2; ovis_event.c:120-135 with pidx = (idx-1)/2.
    [fuel] bounds the iterations; the slot strictly decreases, so [fuel = i]
    suffices and the exhausted case is never reached (L_Heap.v). *)
Fixpoint float_loop (par : nat -> nat) (fuel : nat) (ev : nat) (h : heap) (i : nat) : heap :=
  if Nat.eqb i 0 then put h i ev
  else match fuel with
  | O => h
  | S f =>
    let p := par i in
    if negb (lt h ev (arr h p)) then put h i ev
    else float_loop par f ev (put h i (arr h p)) p
  end.

(** The sink loop: heap.c:127-161; ovis_event.c:138-166.  Ties between the
    children choose the right child, as in both sources. *)
Fixpoint sink_loop (fuel : nat) (ev : nat) (h : heap) (i : nat) : heap :=
  let l := 2 * i + 1 in
  let r := l + 1 in
  if negb (Nat.ltb l (sz h)) then put h i ev
  else match fuel with
  | O => h
  | S f =>
    let x := if negb (Nat.ltb r (sz h)) then l
             else if lt h (arr h l) (arr h r) then l else r in
    if lt h (arr h x) ev then sink_loop f ev (put h i (arr h x)) x
    else put h i ev
  end.

(** * lib/src/coll/heap.c *)
Definition o_par (c : nat) : nat := c / 2.                       (* heap.c:115 *)

(** heap.c:108-125.  [node->idx] is the start slot. *)
Definition o_float (h : heap) (n : nat) : heap :=
  let i := Z.to_nat (idx h n) in float_loop o_par i n h i.
(** heap.c:127-161 *)
Definition o_sink (h : heap) (n : nat) : heap :=
  let i := Z.to_nat (idx h n) in sink_loop (sz h) n h i.
(** heap.c:84-93 ovis_heap_insert; the caller has set the node's key to [k]. *)
Definition o_insert (h0 : heap) (n : nat) (k : Z) : Z * heap :=
  let h := set_key h0 n k in
  if Nat.eqb (sz h) (cap h) then (ENOMEM, h)
  else (0%Z, o_float (set_sz (put h (sz h) n) (S (sz h))) n).
(** heap.c:95-106 ovis_heap_pop *)
Definition o_pop (h : heap) : option nat * heap :=
  match sz h with
  | O => (None, h)
  | S m =>
    let n := arr h 0 in
    let h1 := put (set_sz h m) 0 (arr h m) in
    let h2 := o_sink h1 (arr h1 0) in
    (Some n, set_idx h2 n (-1)%Z)
  end.
(** heap.c:176-182 ovis_heap_update; the caller has changed the key to [k]. *)
Definition o_fix (h : heap) (n : nat) : heap :=
  let old := idx h n in
  let h1 := o_float h n in
  if Z.eqb (idx h1 n) old then o_sink h1 n else h1.
Definition o_update (h : heap) (n : nat) (k : Z) : heap := o_fix (set_key h n k) n.
(** heap.c:163-174 ovis_heap_remove.  [node->idx] is re-read after the
    replacement, as in the source (it is unchanged unless the node replaces
    itself). *)
Definition o_remove (h : heap) (n : nat) : heap :=
  let i := Z.to_nat (idx h n) in
  let m := Nat.pred (sz h) in
  let h1 := put (set_sz h m) i (arr h m) in
  let h2 := o_fix h1 (arr h1 (Z.to_nat (idx h1 n))) in
  set_idx h2 n (-1)%Z.
(** heap.c:184-189 ovis_heap_top *)
Definition o_top (h : heap) : option nat :=
  match sz h with O => None | S _ => Some (arr h 0) end.

(** * lib/src/ovis_event/ovis_event.c *)
Definition e_par (i : nat) : nat := (i - 1) / 2.                 (* ovis_event.c:125 *)

(** ovis_event.c:120-135 *)
Definition e_float (h : heap) (i : nat) : heap := float_loop e_par i (arr h i) h i.
(** ovis_event.c:138-166 *)
Definition e_sink (h : heap) (i : nat) : heap := sink_loop (sz h) (arr h i) h i.
(** ovis_event.c:169-177; the event's wake-up time is [k].  The slot store at
    174 does not touch priv.idx (the float does). *)
Definition e_insert (h0 : heap) (n : nat) (k : Z) : Z * heap :=
  let h := set_key h0 n k in
  if Nat.eqb (sz h) (cap h) then (ENOMEM, h)
  else (0%Z, e_float (mkH (fupd (arr h) (sz h) n) (idx h) (key h) (S (sz h)) (cap h)) (sz h)).
(** ovis_event.c:180-189 *)
Definition e_remove (h : heap) (n : nat) : heap :=
  if Z.leb 0 (idx h n) then
    let i := Z.to_nat (idx h n) in
    let m := Nat.pred (sz h) in
    let h1 := put (set_sz h m) i (arr h m) in
    let h2 := e_sink h1 (Z.to_nat (idx h1 n)) in
    set_idx h2 n (-1)%Z
  else h.
(** ovis_event.c:192-199 *)
Definition e_fix (h : heap) (i : nat) : heap :=
  let ev := arr h i in
  let h1 := e_float h i in
  if Z.eqb (idx h1 ev) (Z.of_nat i) then e_sink h1 i else h1.
(** A timer update: ovis_event.c:378-379, 388-390, 412-413 set the wake-up time
    of [n] to [k] and call ovis_event_heap_update(heap, ev->priv.idx). *)
Definition e_update (h : heap) (n : nat) (k : Z) : heap :=
  e_fix (set_key h n k) (Z.to_nat (idx h n)).
(** ovis_event.c:202-207 (callers check for a non-empty heap with top) *)
Definition e_pop (h : heap) : option nat * heap :=
  match sz h with
  | O => (None, h)
  | S _ => (Some (arr h 0), e_remove h (arr h 0))
  end.
(** ovis_event.c:210-215 *)
Definition e_top (h : heap) : option nat :=
  match sz h with O => None | S _ => Some (arr h 0) end.
