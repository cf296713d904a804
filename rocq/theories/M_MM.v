(** Model of the allocator of pinned memory, lib/src/mmalloc/mmalloc.c. *)
From Verif Require Export M_Rbt.
Local Open Scope N_scope.

(** struct mm_prefix, mmalloc.c:69-74: the node of the address tree and that of the
    size tree (left, right, parent, colour and key, 40 bytes each), then [count] and
    [pfx].  The key of a node is a pointer, to [count] or to [pfx] of the same
    prefix.  The model keeps what it points to: [count] is the key of the size node
    and [pfx] the key of the address node.  So rbn_init (rbt.c:163-166), which only
    stores the pointer, does nothing here. *)
Definition PREFIX : N := 96.
Definition SIZE_NODE : N := 40.
Definition W64 : N := 18446744073709551616.
Definition W32 : N := 4294967296.
Definition W31 : N := 2147483648.

(** struct mm_region, mmalloc.c:76-84, and the memory it lies in: a cell for each
    address of a node, None where nothing is mapped.  Cells of chunks of at least
    96 bytes do not overlap. *)
Record mm := mkMM { gbits : N; grain : N; msize : N; start : N; locked : bool;
  sroot : N; scard : Z; aroot : N; acard : Z; mem : N -> option node }.

(** Programs: None when memory is accessed that is not mapped, when an assert fails,
    when a loop exceeds its fuel, or when a thread waits for itself. *)
Definition mprog (A : Type) := mm -> option (A * mm).
Definition mret {A} (a : A) : mprog A := fun h => Some (a, h).
Definition mbind {A B} (m : mprog A) (k : A -> mprog B) : mprog B :=
  fun h => match m h with None => None | Some (a, h') => k a h' end.
Notation "x <-- m ;; k" := (mbind m (fun x => k)) (at level 61, m at next level, right associativity).
Notation "m ;;- k" := (mbind m (fun _ => k)) (at level 61, right associativity).
(** An operation of rbt.c on the size tree, on the address tree *)
Definition put_size (h : mm) (s : st) : mm :=
  mkMM (gbits h) (grain h) (msize h) (start h) (locked h) (root s) (card s) (aroot h) (acard h) (heap s).
Definition put_addr (h : mm) (s : st) : mm :=
  mkMM (gbits h) (grain h) (msize h) (start h) (locked h) (sroot h) (scard h) (root s) (card s) (heap s).
Definition on_size {A} (m : prog A) : mprog A := fun h =>
  match m (mkSt (sroot h) (scard h) (mem h)) with Some (a, s) => Some (a, put_size h s) | None => None end.
Definition on_addr {A} (m : prog A) : mprog A := fun h =>
  match m (mkSt (aroot h) (acard h) (mem h)) with Some (a, s) => Some (a, put_addr h s) | None => None end.
(** The members count and pfx of a prefix, by the address of their node *)
Definition key_of (a : N) : mprog N := on_size (get_key a).
Definition set_key (a k : N) : mprog unit :=
  on_size (store a (fun n => mkN (left n) (right n) (parent n) (col n) k)).
(** pthread_mutex_lock and unlock of the region's mutex, which is of the default
    kind (mmalloc.c:129): a thread that holds it waits for ever. *)
Definition set_lock (b : bool) (h : mm) : mm :=
  mkMM (gbits h) (grain h) (msize h) (start h) b (sroot h) (scard h) (aroot h) (acard h) (mem h).
Definition lock : mprog unit := fun h => if locked h then None else Some (tt, set_lock true h).
Definition unlock : mprog unit := fun h => Some (tt, set_lock false h).

(** Arithmetic of size_t *)
Definition add64 (a b : N) : N := (a + b) mod W64.
Definition sub64 (a b : N) : N := (a + (W64 - b mod W64)) mod W64.
Definition shl64 (a b : N) : N := N.shiftl a b mod W64.
(** mmalloc.c:103 MMR_ROUNDUP *)
Definition roundup (s r : N) : N := N.land (add64 s (r - 1)) (W64 - 1 - (r - 1)).

(** mmalloc.c:86-89 compare_count: the cast is of the key alone, the difference is
    of type size_t and is cut down to an int *)
Definition compare_count (a b : N) : Z :=
  let d := (a + (W64 - b mod W64)) mod W32 in
  if d <? W31 then Z.of_N d else (Z.of_N d - Z.of_N W32)%Z.
(** mmalloc.c:91-100 compare_addr *)
Definition compare_addr (a b : N) : Z := if b <? a then 1%Z else if a <? b then (-1)%Z else 0%Z.

(** mmalloc.c:115-122 get_pow2; the loop does not end for more than 2^63 *)
Fixpoint pow2_loop (f : nat) (n p bits : N) : option (N * N) :=
  match f with
  | O => None
  | S f => if p <? n then pow2_loop f n (2 * p mod W64) (bits + 1) else Some (p, bits)
  end.
Definition get_pow2 (n : N) : option (N * N) := pow2_loop 65 n 1 0.

Section Fuel.
(** the fuel of the loops in rbt.c *)
Variable fuel : nat.

(** mmalloc.c:124-166 mm_init, when mmap returns [at_], in memory of any content.
    The failures of calloc and of mmap are not modelled, nor is the environment
    variable that turns mm_free off. *)
Definition mm_init (at_ : N) (m : N -> option node) (size hgrain : N) : option mm :=
  let size := roundup size 4096 in
  match get_pow2 hgrain with
  | None => None
  | Some (g, bits) =>
    let h := mkMM bits g size at_ false 0 0 0 0 m in
    let pfx := at_ in
    match (set_key (add64 pfx SIZE_NODE) (size / g) ;;-
           set_key pfx pfx ;;-
           on_size (rbt_ins compare_count fuel (add64 pfx SIZE_NODE)) ;;-
           on_addr (rbt_ins compare_addr fuel pfx)) h with
    | Some (_, h') => Some h'
    | None => None
    end
  end.

(** mmalloc.c:216-226, 433-443: a new chunk of [c] grains into both trees *)
Definition add_chunk (n c : N) : mprog unit :=
  set_key (add64 n SIZE_NODE) c ;;-
  set_key n n ;;-
  on_size (rbt_ins compare_count fuel (add64 n SIZE_NODE)) ;;-
  on_addr (rbt_ins compare_addr fuel n).
(** mmalloc.c:196-197, 309-310, 340-341, 412-413: a chunk out of both trees *)
Definition del_chunk (n : N) : mprog unit :=
  on_size (rbt_del fuel (add64 n SIZE_NODE)) ;;-
  on_addr (rbt_del fuel n).

(** mmalloc.c:170-268 mm_alloc, without the debug blocks *)
Definition mm_alloc (size : N) : mprog N := fun h =>
  let bits := gbits h in
  let size := roundup (add64 size PREFIX) (grain h) in
  let count := N.shiftr size bits in
  (lock ;;-
   rbn <-- on_size (rbt_find_lub compare_count fuel count) ;;
   if rbn =? 0 then unlock ;;- mret 0 else
   let p := sub64 rbn SIZE_NODE in
   del_chunk p ;;-
   k <-- key_of (add64 p SIZE_NODE) ;;
   let remainder := sub64 k count in
   (if remainder =? 0 then mret tt else add_chunk (add64 p (shl64 count bits)) remainder) ;;-
   set_key (add64 p SIZE_NODE) count ;;-
   set_key p p ;;-
   unlock ;;-
   mret (add64 p PREFIX)) h.

(** mmalloc.c:298-329: coalesce with the chunk before; the value is the chunk *)
Definition join_left (p bits : N) : mprog N :=
  pp <-- key_of p ;;
  rbn <-- on_addr (rbt_find_glb compare_addr fuel pp) ;;
  if rbn =? 0 then mret p else
  let q := rbn in
  qc <-- key_of (add64 q SIZE_NODE) ;;
  if add64 q (shl64 qc bits) =? p then
    del_chunk q ;;-
    qc <-- key_of (add64 q SIZE_NODE) ;; pc <-- key_of (add64 p SIZE_NODE) ;;
    set_key (add64 q SIZE_NODE) (add64 qc pc) ;;-
    mret q
  else mret p.
(** mmalloc.c:331-345: coalesce with the chunk after *)
Definition join_right (p bits : N) : mprog unit :=
  pp <-- key_of p ;;
  rbn <-- on_addr (rbt_find_lub compare_addr fuel pp) ;;
  if rbn =? 0 then mret tt else
  let q := rbn in
  pc <-- key_of (add64 p SIZE_NODE) ;;
  if add64 p (shl64 pc bits) =? q then
    del_chunk q ;;-
    pc <-- key_of (add64 p SIZE_NODE) ;; qc <-- key_of (add64 q SIZE_NODE) ;;
    set_key (add64 p SIZE_NODE) (add64 pc qc)
  else mret tt.
(** mmalloc.c:270-375 mm_free, without the debug blocks *)
Definition mm_free (d : N) : mprog unit := fun h =>
  if d =? 0 then Some (tt, h) else
  let bits := gbits h in
  let p := sub64 d PREFIX in
  (lock ;;-
   p <-- join_left p bits ;;
   join_right p bits ;;-
   set_key p p ;;-
   on_size (rbt_ins compare_count fuel (add64 p SIZE_NODE)) ;;-
   on_addr (rbt_ins compare_addr fuel p) ;;-
   unlock) h.

(** memcpy of [len] bytes; cells are copied as a whole *)
Definition copy (dst src len : N) : mprog unit := fun h =>
  if dst =? 0 then None else
  Some (tt, mkMM (gbits h) (grain h) (msize h) (start h) (locked h) (sroot h) (scard h) (aroot h) (acard h)
    (fun a => if (dst <=? a) && (a <? dst + len) then mem h (src + (a - dst)) else mem h a)).
(** mmalloc.c:403-458: the attempt to resize in place; true if it is done *)
Definition resize (p newcount bits : N) : mprog bool :=
  pp <-- key_of p ;;
  rbn <-- on_addr (rbt_find_lub compare_addr fuel pp) ;;
  if rbn =? 0 then mret false else
  let q := rbn in
  pc <-- key_of (add64 p SIZE_NODE) ;;
  if add64 p (shl64 pc bits) =? q then
    qc <-- key_of (add64 q SIZE_NODE) ;;
    if newcount <=? add64 pc qc then
      del_chunk q ;;-
      pc <-- key_of (add64 p SIZE_NODE) ;; qc <-- key_of (add64 q SIZE_NODE) ;;
      let remainder := sub64 (add64 pc qc) newcount in
      (if remainder =? 0 then mret tt else add_chunk (add64 p (shl64 newcount bits)) remainder) ;;-
      set_key (add64 p SIZE_NODE) newcount ;;-
      mret true
    else mret false
  else mret false.
(** mmalloc.c:377-482 mm_realloc, without the debug blocks *)
Definition mm_realloc (ptr newsize : N) : mprog N := fun h =>
  let bits := gbits h in
  let newsize := roundup newsize (grain h) in
  let newcount := N.shiftr newsize bits in
  let p := sub64 ptr PREFIX in
  (lock ;;-
   done <-- resize p newcount bits ;;
   if (done : bool) then unlock ;;- mret (add64 p PREFIX)
   else
     newbuf <-- mm_alloc newsize ;;
     pc <-- key_of (add64 p SIZE_NODE) ;;
     copy newbuf ptr (shl64 pc bits) ;;-
     unlock ;;-
     (if newbuf =? 0 then mret tt else mm_free ptr) ;;-
     mret (add64 (sub64 newbuf PREFIX) PREFIX)) h.

(** mmalloc.c:484-511 heap_stat, mm_stats: chunks, bytes, smallest and largest.  The
    counts are read when the traversal is over instead of during it: the tree is not
    changed in between. *)
Record stat := mkStat { chunks : N; bytes : N; smallest : N; largest : N }.
Definition heap_stat (i : stat) (sz : N) : stat :=
  mkStat (add64 (chunks i) 1) (add64 (bytes i) sz) (if sz <? smallest i then sz else smallest i)
    (if largest i <? sz then sz else largest i).
Fixpoint counts_of (l : list N) : mprog (list N) :=
  match l with
  | [] => mret []
  | a :: l => k <-- key_of (add64 a SIZE_NODE) ;; ks <-- counts_of l ;; mret (k :: ks)
  end.
Definition mm_stats : mprog stat := fun h =>
  let i := mkStat 0 0 (add64 (msize h) 1) 0 in
  (lock ;;-
   r <-- on_addr (rbt_traverse fuel (fun _ => 0%Z)) ;;
   ks <-- counts_of (map fst (snd r)) ;;
   unlock ;;-
   mret (fold_left heap_stat ks i)) h.
End Fuel.
