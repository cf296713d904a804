(** Model of list metrics, ldms/src/core/ldms.c: the lists live in the heap of the
    set, whose model is M_LHeap. *)
From Verif Require Export M_LHeap.
From Verif Require M_Set.
Local Open Scope N_scope.

(** What the functions work on: the base of the heap, the heap with its memory, the
    list metrics in the data section of the set (struct ldms_list,
    ldms_core.h:210-214: head, tail, count) by an index, and the generation number of
    the data. *)
Record lst := mkL { lbase : N; hst : hp; tops : N -> N * N * N; dgn : N }.
(** None: memory is accessed that is not the heap's, an assert fails, or a loop
    exceeds its fuel. *)
Definition lprog (A : Type) := lst -> option (A * lst).
Definition lret {A} (a : A) : lprog A := fun s => Some (a, s).
Definition lfail {A} : lprog A := fun _ => None.
Definition lbind {A B} (m : lprog A) (k : A -> lprog B) : lprog B :=
  fun s => match m s with None => None | Some (a, s') => k a s' end.
Notation "x <~ m ;; k" := (lbind m (fun x => k)) (at level 61, m at next level, right associativity).
Notation "m ;;~ k" := (lbind m (fun _ => k)) (at level 61, right associativity).
Definition with_heap (s : lst) (h : hp) : lst := mkL (lbase s) h (tops s) (dgn s).
Definition on_heap {A} (m : N -> hprog A) : lprog A := fun s =>
  match m (lbase s) (hst s) with Some (a, h) => Some (a, with_heap s h) | None => None end.

(** ** The memory as words
    A cell of M_LHeap has four words of 64 bits; the first is that in which the count
    of an allocated chunk is the low half. *)
Definition word (n : node) (j : N) : N :=
  if j =? 0 then word0 n else if j =? 1 then right n else if j =? 2 then parent n else key n.
Definition set_word (n : node) (j w : N) : node :=
  if j =? 0 then with_word0 n w
  else if j =? 1 then mkN (left n) w (parent n) (col n) (key n)
  else if j =? 2 then mkN (left n) (right n) w (col n) (key n)
  else mkN (left n) (right n) (parent n) (col n) w.
(** The offset [o] from the base: its cell, its word in the cell, its half of the word *)
Definition cell (o : N) : N := 8 + 32 * ((o - 8) / 32).
Definition wordno (o : N) : N := (o - 8) mod 32 / 8.
Definition high (o : N) : bool := (o - 8) mod 8 =? 4.
Definition half (w : N) (hi : bool) : N := if hi then w / W32 mod W32 else w mod W32.
Definition set_half (w : N) (hi : bool) (v : N) : N := if hi then w mod W32 + W32 * v else w / W32 * W32 + v.
(** Reading and writing a uint32_t at a pointer into the heap *)
Definition valid_off (base p : N) : option N :=
  if (p =? 0) || (p <? base + 8) || negb ((p - base) mod 4 =? 0) then None else Some (p - base).
Definition ld32 (p : N) : lprog N := fun s =>
  match valid_off (lbase s) p with
  | None => None
  | Some o => match mem (hst s) (lbase s + cell o) with
              | None => None
              | Some n => Some (half (word n (wordno o)) (high o), s)
              end
  end.
Definition put_mem (h : hp) (m : N -> option node) : hp := mkHp (grain_bits h) (grain h) (hsize h) (hgn h) (sroot h) (aroot h) m.
Definition st32 (p v : N) : lprog unit := fun s =>
  match valid_off (lbase s) p with
  | None => None
  | Some o => match mem (hst s) (lbase s + cell o) with
              | None => None
              | Some n =>
                let n' := set_word n (wordno o) (set_half (word n (wordno o)) (high o) (v mod W32)) in
                Some (tt, with_heap s (put_mem (hst s) (upd (mem (hst s)) (lbase s + cell o) n')))
              end
  end.
(** Writing [len] bytes at the pointer [p], both multiples of 8 from the base: the
    word at the offset k from p becomes [f k].  The memory of the heap is contiguous:
    it is enough that the first and the last word are there. *)
Definition fill_cell (o len : N) (f : N -> N) (c : N) (n : node) : node :=
  fold_left (fun n j => let x := c + 8 * j in if (o <=? x) && (x <? o + len) then set_word n j (f (x - o) mod W64) else n) [0; 1; 2; 3] n.
Definition fill (p len : N) (f : N -> N) : lprog unit := fun s =>
  if len =? 0 then Some (tt, s) else
  match valid_off (lbase s) p with
  | None => None
  | Some o =>
    match mem (hst s) (lbase s + cell o), mem (hst s) (lbase s + cell (o + len - 8)) with
    | Some _, Some _ =>
      Some (tt, with_heap s (put_mem (hst s) (fun a =>
        match mem (hst s) a with
        | Some n => if (lbase s <=? a) && (a =? lbase s + cell (a - lbase s)) then Some (fill_cell o len f (a - lbase s) n) else Some n
        | None => None
        end)))
    | _, _ => None
    end
  end.
Definition add32 (a b : N) : N := (a + b) mod W32.

(** ** List heads
    A list is a metric of the set, or the value, at [v], of an entry in the heap. *)
Inductive lhead := HTop (i : N) | HVal (v : N).
Inductive lfield := FHead | FTail | FCount.
Definition lh_get (l : lhead) (k : lfield) : lprog N :=
  match l with
  | HTop i => fun s => let '(h, t, c) := tops s i in Some (match k with FHead => h | FTail => t | FCount => c end, s)
  | HVal v => ld32 (v + match k with FHead => 0 | FTail => 4 | FCount => 8 end)
  end.
Definition lh_set (l : lhead) (k : lfield) (x : N) : lprog unit :=
  match l with
  | HTop i => fun s =>
    let '(h, t, c) := tops s i in
    let y := match k with FHead => (x, t, c) | FTail => (h, x, c) | FCount => (h, t, x) end in
    Some (tt, mkL (lbase s) (hst s) (fun j => if j =? i then y else tops s j) (dgn s))
  | HVal v => st32 (v + match k with FHead => 0 | FTail => 4 | FCount => 8 end) x
  end.

(** struct ldms_list_entry, ldms_core.h:216-222: next, prev, then type and count in
    8 and 24 bits, then the value *)
Definition ENTRY : N := 12.
Definition le_next (le : N) : N := le.
Definition le_prev (le : N) : N := le + 4.
Definition le_tc (le : N) : N := le + 8.

Section Fuel.
(** the fuel of the loops in rrbt.c *)
Variable fuel : nat.

Definition h_off (p : N) : lprog N := on_heap (fun b => heap_off b p).
Definition h_ptr (o : N) : lprog N := on_heap (fun b => heap_ptr b o).

(** ldms.c:3285-3304 __list_append *)
Definition list_append (lh : lhead) (le : N) : lprog unit :=
  off <~ h_off le ;;
  let le_off := off mod W32 in
  head <~ lh_get lh FHead ;;
  (if head =? 0 then
     st32 (le_prev le) 0 ;;~
     lh_set lh FHead le_off ;;~
     lh_set lh FCount 1
   else
     tail <~ lh_get lh FTail ;;
     prev <~ h_ptr tail ;;
     st32 (le_next prev) le_off ;;~
     tail <~ lh_get lh FTail ;;
     st32 (le_prev le) tail ;;~
     c <~ lh_get lh FCount ;;
     lh_set lh FCount (add32 c 1)) ;;~
  lh_set lh FTail le_off ;;~
  st32 (le_next le) 0.

(** ldms_private.h:62-64 LDMS_GN_INCREMENT of the data, 64 bits *)
Definition bump_dgn : lprog unit := fun s => Some (tt, mkL (lbase s) (hst s) (tops s) ((dgn s + 1) mod W64)).

(** ldms.c:3306-3324 ldms_list_append_item; 0 for NULL.  The count is a size_t, cut
    to 32 bits for the computation of the size (1315) and to 24 bits in the entry. *)
Definition append_item (lh : lhead) (typ count : N) : lprog N :=
  match M_Set.value_size typ (count mod W32) with
  | None => lfail
  | Some value_sz =>
    let count := if M_Set.type_is_array typ then count else 1 in
    le <~ on_heap (fun b => heap_alloc b fuel (value_sz + ENTRY)) ;;
    if le =? 0 then lret 0 else
    fill (le + ENTRY) value_sz (fun _ => 0) ;;~
    st32 (le_tc le) (typ mod 256 + 256 * (count mod 16777216)) ;;~
    list_append lh le ;;~
    bump_dgn ;;~
    lret (le + ENTRY)
  end.

(** ldms.c:3326-3329 ldms_list_len *)
Definition list_len (lh : lhead) : lprog N := lh_get lh FCount.
(** What ldms_list_first, _last and _next give: the value, its type and its count *)
Definition entry_at (off : N) : lprog (option (N * N * N)) :=
  le <~ h_ptr off ;; tc <~ ld32 (le_tc le) ;; lret (Some (le + ENTRY, tc mod 256, tc / 256)).
(** ldms.c:3331-3344 ldms_list_first *)
Definition list_first (lh : lhead) : lprog (option (N * N * N)) :=
  head <~ lh_get lh FHead ;; if head =? 0 then lret None else entry_at head.
(** ldms.c:3346-3359 ldms_list_last *)
Definition list_last (lh : lhead) : lprog (option (N * N * N)) :=
  head <~ lh_get lh FHead ;; if head =? 0 then lret None else tail <~ lh_get lh FTail ;; entry_at tail.
(** ldms.c:3361-3374 ldms_list_next *)
Definition list_next (v : N) : lprog (option (N * N * N)) :=
  next <~ ld32 (le_next (v - ENTRY)) ;; if next =? 0 then lret None else entry_at next.
(** The loop every reader writes: for (v = first; v; v = next(v)) *)
Fixpoint walk (f : nat) (x : option (N * N * N)) : lprog (list (N * N * N)) :=
  match f with
  | O => lfail
  | S f => match x with
           | None => lret []
           | Some (v, t, c) => y <~ list_next v ;; r <~ walk f y ;; lret ((v, t, c) :: r)
           end
  end.
Definition list_walk (f : nat) (lh : lhead) : lprog (list (N * N * N)) := x <~ list_first lh ;; walk f x.

(** ldms.c:3376-3397 ldms_list_remove_item and 3399-3406 ldms_list_purge; they call
    each other for lists in lists *)
Fixpoint remove_item (f : nat) (lh : lhead) (v : N) : lprog unit :=
  match f with
  | O => lfail
  | S f =>
    let le := v - ENTRY in
    pv <~ ld32 (le_prev le) ;;
    prev <~ h_ptr pv ;;
    nx <~ ld32 (le_next le) ;;
    next <~ h_ptr nx ;;
    nx <~ ld32 (le_next le) ;;
    (if negb (prev =? 0) then st32 (le_next prev) nx else lh_set lh FHead nx) ;;~
    pv <~ ld32 (le_prev le) ;;
    (if negb (next =? 0) then st32 (le_prev next) pv else lh_set lh FTail pv) ;;~
    tc <~ ld32 (le_tc le) ;;
    (if tc mod 256 =? M_Set.V_LIST then purge f (HVal v) else lret tt) ;;~
    on_heap (fun b => heap_free b fuel le) ;;~
    c <~ lh_get lh FCount ;;
    lh_set lh FCount (add32 c (W32 - 1))
  end
with purge (f : nat) (lh : lhead) : lprog unit :=
  match f with
  | O => lfail
  | S f =>
    m <~ list_first lh ;;
    match m with
    | None => lret tt
    | Some (v, _, _) => remove_item f lh v ;;~ purge f lh
    end
  end.

(** ** Records *)
(** The offset of the heap's base in the data section *)
Variable hoff : N.
(** ldms.c:3955-3992 ldms_record_alloc for a record type of instance size [inst_sz]
    at the index [mid]; 0 for NULL.  struct ldms_record_inst, ldms_core.h:295-300:
    flags, padding, set_data_off, rec_type, 4 bytes each. *)
Definition record_alloc (inst_sz mid : N) : lprog N :=
  le <~ on_heap (fun b => heap_alloc b fuel (inst_sz + ENTRY)) ;;
  if le =? 0 then lret 0 else
  st32 (le_prev le) 0 ;;~
  st32 (le_next le) 0 ;;~
  st32 (le_tc le) (26 + 256 * 1) ;;~
  let v := le + ENTRY in
  st32 v 2 ;;~
  st32 (v + 12) mid ;;~
  fun s => (st32 (v + 8) (hoff + (v - lbase s)) ;;~ lret v) s.
(** ldms.c:4354-4369 ldms_list_append_record.  The data section is found from
    set_data_off; a record that is not of this data section is not modelled. *)
Definition append_record (lh : lhead) (v : N) : lprog Z :=
  flags <~ ld32 v ;;
  if negb (flags =? 2) then lret EINVAL else
  let le := v - ENTRY in
  pv <~ ld32 (le_prev le) ;;
  nx <~ ld32 (le_next le) ;;
  if negb (pv =? 0) || negb (nx =? 0) then lret EBUSY else
  off <~ ld32 (v + 8) ;;
  fun s => (if off =? (hoff + (v - lbase s)) mod W32
            then list_append lh le ;;~ on_heap (fun _ => inc_gn) ;;~ lret 0%Z
            else lfail) s.
End Fuel.
