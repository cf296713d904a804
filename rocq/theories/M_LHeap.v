(** Model of the relocatable heap inside a metric set, ldms/src/core/ldms_heap.c. *)
From Verif Require Export M_Rrbt.
Local Open Scope N_scope.

(** struct mm_free, ldms_heap.c:69-74: the node of the address tree (24 bytes and an
    8 byte key), then the node of the size tree; struct mm_alloc, 76-78: the count
    of an allocated chunk, which lies over the first 4 bytes of the address node. *)
Definition MM_FREE : N := 64.
Definition SIZE_NODE : N := 32.
Definition MM_ALLOC : N := 4.
Definition W32 : N := 4294967296.
(** ldms_heap.h:65 *)
Definition HEAP_MIN : N := 512.
(** struct ldms_heap_base, ldms_heap.h:86-91: the chunks start after the signature *)
Definition START : N := 8.

(** struct ldms_heap, ldms_heap.h:67-74, and the memory the heap lies in.  The
    chunks begin at 8 plus multiples of 64 from the base and every tree node is at
    the beginning or at 32 of a chunk, so the memory is made of cells of 32 bytes,
    each the size of a node; None where the caller gave no memory. *)
Record hp := mkHp { grain_bits : N; grain : N; hsize : N; hgn : N; sroot : N; aroot : N; mem : N -> option node }.

(** Programs: None when memory is accessed that the caller did not give, when an
    assert fails, or when a loop exceeds its fuel. *)
Definition hprog (A : Type) := hp -> option (A * hp).
Definition hret {A} (a : A) : hprog A := fun h => Some (a, h).
Definition hbind {A B} (m : hprog A) (k : A -> hprog B) : hprog B :=
  fun h => match m h with None => None | Some (a, h') => k a h' end.
Notation "x <-- m ;; k" := (hbind m (fun x => k)) (at level 61, m at next level, right associativity).
Notation "m ;;- k" := (hbind m (fun _ => k)) (at level 61, right associativity).
Definition hassert (b : bool) : hprog unit := fun h => if b then Some (tt, h) else None.
(** An operation of rrbt.c on the size tree, on the address tree *)
Definition on_size {A} (m : prog A) : hprog A := fun h =>
  match m (mkSt (sroot h) 0 (mem h)) with
  | Some (a, s) => Some (a, mkHp (grain_bits h) (grain h) (hsize h) (hgn h) (root s) (aroot h) (heap s))
  | None => None
  end.
Definition on_addr {A} (m : prog A) : hprog A := fun h =>
  match m (mkSt (aroot h) 0 (mem h)) with
  | Some (a, s) => Some (a, mkHp (grain_bits h) (grain h) (hsize h) (hgn h) (sroot h) (root s) (heap s))
  | None => None
  end.
(** A member key_u64[0] of a node; rrbn_init (rrbt.c:171-174) stores only this *)
Definition key_of (a : N) : hprog N := on_size (get_key a).
Definition set_key (a k : N) : hprog unit :=
  on_size (store a (fun n => mkN (left n) (right n) (parent n) (col n) k)).
(** The first 64 bits of a node: the colour is the lowest bit, then left
    (rrbt.h:75-76, bit fields on a little endian machine); the count of struct
    mm_alloc is the low half. *)
Definition word0 (n : node) : N := 2 * left n + match col n with Red => 0 | Black => 1 end.
Definition with_word0 (n : node) (w : N) : node :=
  mkN (w / 2) (right n) (parent n) (if N.odd w then Black else Red) (key n).
Definition get_count (a : N) : hprog N := on_size (n <- load a ;; ret (word0 n mod W32)).
Definition set_count (a c : N) : hprog unit :=
  on_size (store a (fun n => with_word0 n (word0 n - word0 n mod W32 + c mod W32))).
Definition inc_gn : hprog unit := fun h =>
  Some (tt, mkHp (grain_bits h) (grain h) (hsize h) ((hgn h + 1) mod W32) (sroot h) (aroot h) (mem h)).

(** Arithmetic of uint64_t *)
Definition add64 (a b : N) : N := (a + b) mod W64.
Definition sub64 (a b : N) : N := (a + (W64 - b mod W64)) mod W64.
Definition shl64 (a b : N) : N := N.shiftl a b mod W64.
(** ldms_heap.c:105 MMR_ROUNDUP *)
Definition roundup (s r : N) : N := N.land (add64 s (r - 1)) (W64 - 1 - (r - 1)).

(** ldms_heap.c:80-102 compare_size, compare_addr *)
Definition cmp64 (a b : N) : Z := if b <? a then 1%Z else if a <? b then (-1)%Z else 0%Z.

(** ldms_heap.c:166-169 ldms_heap_grain_size *)
Definition grain_size (g : N) : N := if MM_FREE <? g then g else MM_FREE.
(** ldms_heap.c:400-403 ldms_heap_size *)
Definition heap_size (s : N) : N := roundup s HEAP_MIN.
(** ldms_heap.c:227-235 ldms_heap_alloc_size *)
Definition alloc_size (g sz : N) : N :=
  let sz := add64 sz MM_ALLOC in
  let sz := if sz <? MM_FREE then MM_FREE else sz in
  roundup sz (grain_size g).

Section Base.
(** the member base of struct ldms_heap_instance, ldms_heap.h:78 *)
Variable base : N.
(** the fuel of the loops in rrbt.c *)
Variable fuel : nat.

(** ldms_heap.c:121-129 ldms_heap_off *)
Definition heap_off (p : N) : hprog N := fun h =>
  if p =? 0 then Some (0, h)
  else let off := sub64 p base in if off <? hsize h then Some (off, h) else None.
(** ldms_heap.c:131-137 ldms_heap_ptr *)
Definition heap_ptr (off : N) : hprog N := fun h =>
  if off =? 0 then Some (0, h) else if off <? hsize h then Some (add64 base off, h) else None.

(** ldms_heap.c:182-184: the loop computing the grain, a field of 24 bits, and the
    grain bits, a field of 8 bits *)
Fixpoint grain_loop (f : nat) (want g bits : N) : option (N * N) :=
  match f with
  | O => None
  | S f => if g <? want then grain_loop f want (2 * g mod 16777216) ((bits + 1) mod 256) else Some (g, bits)
  end.

(** ldms_heap.c:171-211 ldms_heap_init of a struct of any content, in memory of any
    content.  The signature (line 194) lies before the cells and is not modelled.
    [hgrain] is a parameter [size_t]. *)
Definition heap_init (size hgrain : N) : hprog unit := fun h =>
  if size =? 0 then Some (tt, mkHp (grain_bits h) (grain h) 0 (hgn h) (sroot h) (aroot h) (mem h)) else
  let size := roundup size HEAP_MIN in
  match grain_loop 64 (grain_size hgrain) 1 0 with
  | None => None
  | Some (g, bits) =>
    let h := mkHp bits g size 0 0 0 (mem h) in
    let pfx := add64 base START in
    (hassert (N.land pfx 7 =? 0) ;;-
     let count := size / g in
     set_key (add64 pfx SIZE_NODE) count ;;-
     on_size (rrbt_ins base cmp64 fuel (add64 pfx SIZE_NODE)) ;;-
     let count := sub64 pfx base in
     set_key pfx count ;;-
     on_addr (rrbt_ins base cmp64 fuel pfx)) h
  end.

(** ldms_heap.c:237-306 ldms_heap_alloc.  The mutex is not modelled: the function
    is one step. *)
Definition heap_alloc (size : N) : hprog N := fun h =>
  let size := alloc_size (grain h) size in
  let count := N.shiftr size (grain_bits h) in
  (rbn <-- on_size (rrbt_find_lub base cmp64 fuel count) ;;
   if rbn =? 0 then hret 0 else
   let p := sub64 rbn SIZE_NODE in
   on_size (rrbt_del base fuel (add64 p SIZE_NODE)) ;;-
   on_addr (rrbt_del base fuel p) ;;-
   k <-- key_of (add64 p SIZE_NODE) ;;
   let remainder := sub64 k count in
   (if remainder =? 0 then hret tt
    else let n := add64 p (shl64 count (grain_bits h)) in
         offset <-- heap_off n ;;
         set_key (add64 n SIZE_NODE) remainder ;;-
         set_key n offset ;;-
         on_size (rrbt_ins base cmp64 fuel (add64 n SIZE_NODE)) ;;-
         on_addr (rrbt_ins base cmp64 fuel n)) ;;-
   set_count p count ;;-
   inc_gn ;;-
   hret (add64 p MM_ALLOC)) h.

(** ldms_heap.c:347-361: coalesce with the chunk before; the value is the chunk *)
Definition join_left (p offset bits : N) : hprog N :=
  rbn <-- on_addr (rrbt_find_glb base cmp64 fuel offset) ;;
  if rbn =? 0 then hret p else
  let q := rbn in
  qa <-- key_of q ;; qs <-- key_of (add64 q SIZE_NODE) ;;
  let e := add64 qa (shl64 qs bits) in
  pa <-- key_of p ;;
  if e =? pa then
    on_size (rrbt_del base fuel (add64 q SIZE_NODE)) ;;-
    on_addr (rrbt_del base fuel q) ;;-
    qs <-- key_of (add64 q SIZE_NODE) ;; ps <-- key_of (add64 p SIZE_NODE) ;;
    set_key (add64 q SIZE_NODE) (add64 qs ps) ;;-
    hret q
  else hret p.
(** ldms_heap.c:362-375: coalesce with the chunk after *)
Definition join_right (p offset bits : N) : hprog unit :=
  rbn <-- on_addr (rrbt_find_lub base cmp64 fuel offset) ;;
  if rbn =? 0 then hret tt else
  let q := rbn in
  pa <-- key_of p ;; ps <-- key_of (add64 p SIZE_NODE) ;;
  let e := add64 pa (shl64 ps bits) in
  qa <-- key_of q ;;
  if e =? qa then
    on_size (rrbt_del base fuel (add64 q SIZE_NODE)) ;;-
    on_addr (rrbt_del base fuel q) ;;-
    ps <-- key_of (add64 p SIZE_NODE) ;; qs <-- key_of (add64 q SIZE_NODE) ;;
    set_key (add64 p SIZE_NODE) (add64 ps qs)
  else hret tt.
(** ldms_heap.c:308-398 ldms_heap_free, without the debug blocks.  The mutex is not
    modelled.  rrbn_init of a node with its own key (377-378) changes nothing. *)
Definition heap_free (d : N) : hprog unit := fun h =>
  let bits := grain_bits h in
  let p := sub64 d MM_ALLOC in
  (offset <-- heap_off p ;;
   count <-- get_count p ;;
   set_key (add64 p SIZE_NODE) count ;;-
   set_key p offset ;;-
   p <-- join_left p offset bits ;;
   offset <-- heap_off p ;;
   join_right p offset bits ;;-
   heap_off p ;;-
   on_size (rrbt_ins base cmp64 fuel (add64 p SIZE_NODE)) ;;-
   on_addr (rrbt_ins base cmp64 fuel p) ;;-
   inc_gn) h.

(** ldms_heap.c:107-119 heap_stat, 139-154 ldms_heap_get_info: the members
    free_chunks, free_bytes, smallest and largest.  The sizes are read when the
    traversal is over instead of during it: the tree is not changed in between. *)
Record info := mkInfo { free_chunks : N; free_bytes : N; smallest : N; largest : N }.
Definition heap_stat (i : info) (sz : N) : info :=
  mkInfo (add64 (free_chunks i) 1) (add64 (free_bytes i) sz) (if sz <? smallest i then sz else smallest i)
    (if largest i <? sz then sz else largest i).
Fixpoint sizes_of (l : list N) : hprog (list N) :=
  match l with
  | [] => hret []
  | a :: l => k <-- key_of (add64 a SIZE_NODE) ;; ks <-- sizes_of l ;; hret (k :: ks)
  end.
Definition heap_get_info : hprog info := fun h =>
  let i := mkInfo 0 0 (add64 (hsize h) 1) 0 in
  (r <-- on_addr (rrbt_traverse base fuel (fun _ => 0%Z)) ;;
   ks <-- sizes_of (map fst (snd r)) ;;
   hret (fold_left heap_stat ks i)) h.
End Base.
