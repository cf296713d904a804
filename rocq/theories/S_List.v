(** What list metrics should do: sequences of typed values, lists in lists. *)
From Verif Require Export M_List S_LHeap.
Local Open Scope N_scope.

(** A list: a metric of the set, or the value of the entry [e].  Entries are named by
    their offset from the base of the heap. *)
Inductive loc := Top (i : N) | Sub (e : N).
Definition loc_eqb (l l' : loc) : bool :=
  match l, l' with Top i, Top j => i =? j | Sub e, Sub f => e =? f | _, _ => false end.
Definition LIST : N := 23.
(** The entries that exist; the sequence of each list; of each entry the type, the
    number of elements, the size of the value in bytes, whether it was made by
    ldms_record_alloc, and its value in words of 64 bits; the generation number. *)
Record abs := mkAbs { ents : list N; seq : loc -> list N; typ : N -> N; cnt : N -> N; siz : N -> N; isrec : N -> bool; cont : N -> N -> N; gen : N }.
Definition has (a : abs) (l : loc) : Prop := match l with Top _ => True | Sub e => In e (ents a) /\ typ a e = LIST end.
Definition detached (a : abs) (e : N) : Prop := forall l, has a l -> ~ In e (seq a l).
(** The bytes in use: the entry has 12 bytes before its value. *)
Definition allocs (a : abs) : list (N * N) := map (fun e => (e, siz a e + 12)) (ents a).

Definition set1 {A} (f : N -> A) (e : N) (x : A) : N -> A := fun y => if y =? e then x else f y.
Definition setl (f : loc -> list N) (l : loc) (x : list N) : loc -> list N := fun y => if loc_eqb y l then x else f y.

(** The entries that are in a list, in lists in it, and so on *)
Inductive inside (a : abs) : loc -> N -> Prop :=
| in_here l e : In e (seq a l) -> inside a l e
| in_below l e x : In e (seq a l) -> typ a e = LIST -> inside a (Sub e) x -> inside a l x.

(** ** Calls *)
Inductive op :=
| AppendItem (l : loc) (t c : N)
| Remove (l : loc) (e : N)
| Purge (l : loc)
| RecAlloc (inst_sz mid : N)
| AppendRec (l : loc) (e : N)
| Write (e lo len : N) (f : N -> N)       (** the user writes bytes of a value *)
| Move (base : N) (o : N -> option node). (** the set is copied to other memory *)
Inductive res := RNull | RPtr (e : N) | RCode (z : Z) | RUnit.

Definition head_of (base : N) (l : loc) : lhead := match l with Top i => HTop i | Sub e => HVal (base + e + 12) end.
Definition value_ptr (base e : N) : N := base + e + 12.
Definition ptr_res (base p : N) : res := if p =? 0 then RNull else RPtr (p - base - 12).
Definition call (fuel lf : nat) (hoff : N) (o : op) (s : lst) : option (res * lst) :=
  match o with
  | AppendItem l t c => (p <~ append_item fuel (head_of (lbase s) l) t c ;; lret (ptr_res (lbase s) p)) s
  | Remove l e => (remove_item fuel lf (head_of (lbase s) l) (value_ptr (lbase s) e) ;;~ lret RUnit) s
  | Purge l => (purge fuel lf (head_of (lbase s) l) ;;~ lret RUnit) s
  | RecAlloc z m => (p <~ record_alloc fuel hoff z m ;; lret (ptr_res (lbase s) p)) s
  | AppendRec l e => (z <~ append_record hoff (head_of (lbase s) l) (value_ptr (lbase s) e) ;; lret (RCode z)) s
  | Write e lo len f => (fill (value_ptr (lbase s) e + lo) len f ;;~ lret RUnit) s
  | Move base o => Some (RUnit, mkL base (moved (lbase s) base o (hst s)) (tops s) (dgn s))
  end.

(** ** What a caller may do *)
Definition legal (size : N) (a : abs) (o : op) : Prop :=
  match o with
  | AppendItem l t c => has a l /\ t < 256 /\ M_Set.value_size t (c mod W32) <> None
  | Remove l e => has a l /\ In e (seq a l)
  | Purge l => has a l
  | RecAlloc z m => 16 <= z /\ z mod 8 = 0 /\ z < 4294967296
  | AppendRec l e => has a l /\ In e (ents a) /\
      ((isrec a e = true /\ detached a e) \/
       (isrec a e = true /\ exists l', has a l' /\ In e (seq a l') /\ (2 <= length (seq a l'))%nat) \/
       (typ a e <> LIST /\ 8 <= siz a e /\ cont a e 0 mod 4294967296 <> 2))
  | Write e lo len f => In e (ents a) /\ typ a e <> LIST /\ lo mod 8 = 0 /\ len mod 8 = 0 /\ lo + len <= siz a e /\
      (isrec a e = true -> 16 <= lo)
  | Move base o => base + up512 size + 8 <= W64
  end.

(** ** What the call does *)
(** No room in the heap for a value of [sz] bytes *)
Definition full (size hgrain : N) (a : abs) (sz : N) : Prop :=
  forall i, ~ vacant (grains size hgrain) (gsz hgrain) (allocs a) i (need (gsz hgrain) (sz + 12)).
Definition does (size hgrain hoff : N) (a : abs) (o : op) (r : res) (s' : lst) (a' : abs) : Prop :=
  match o, r with
  | AppendItem l t c, RNull => exists z, M_Set.value_size t (c mod W32) = Some z /\ full size hgrain a z /\ a' = a
  | AppendItem l t c, RPtr e => exists z, M_Set.value_size t (c mod W32) = Some z /\ ~ In e (ents a) /\ e <> 0 /\ (* the number of values is cut to 24 bits *)
      a' = mkAbs (e :: ents a) (setl (setl (seq a) (Sub e) []) l (seq a l ++ [e])) (set1 (typ a) e t)
             (set1 (cnt a) e (if M_Set.type_is_array t then c mod 16777216 else 1)) (set1 (siz a) e z) (set1 (isrec a) e false)
             (set1 (cont a) e (fun _ => 0)) ((gen a + 1) mod W64)
  | Remove l e, RUnit => exists E, NoDup E /\
      (forall x, In x E <-> In x (ents a) /\ x <> e /\ ~ (typ a e = LIST /\ inside a (Sub e) x)) /\
      a' = mkAbs E (setl (seq a) l (remove N.eq_dec e (seq a l))) (typ a) (cnt a) (siz a) (isrec a) (cont a) (gen a)
  | Purge l, RUnit => exists E, NoDup E /\ (forall x, In x E <-> In x (ents a) /\ ~ inside a l x) /\
      a' = mkAbs E (setl (seq a) l []) (typ a) (cnt a) (siz a) (isrec a) (cont a) (gen a)
  | RecAlloc z m, RNull => full size hgrain a z /\ a' = a
  | RecAlloc z m, RPtr e => exists w, ~ In e (ents a) /\ e <> 0 /\ (* the value is what the memory happens to hold, but for 16 bytes *)
      (forall k, 8 * k + 8 <= z -> ld32 (value_ptr (lbase s') e + 8 * k) s' = Some (w k mod W32, s') /\ ld32 (value_ptr (lbase s') e + 8 * k + 4) s' = Some (w k / W32, s')) /\
      w 0 mod W32 = 2 /\ w 1 = (hoff + e + 12) mod W32 + W32 * (m mod W32) /\
      a' = mkAbs (e :: ents a) (seq a) (set1 (typ a) e 26) (set1 (cnt a) e 1) (set1 (siz a) e z) (set1 (isrec a) e true)
             (set1 (cont a) e w) (gen a)
  | AppendRec l e, RCode z =>
      (z = 0%Z /\ isrec a e = true /\ detached a e /\ a' = mkAbs (ents a) (setl (seq a) l (seq a l ++ [e])) (typ a) (cnt a) (siz a) (isrec a) (cont a) (gen a)) \/
      (z = EBUSY /\ isrec a e = true /\ ~ detached a e /\ a' = a) \/
      (z = EINVAL /\ isrec a e = false /\ a' = a)
  | Write e lo len f, RUnit =>
      a' = mkAbs (ents a) (seq a) (typ a) (cnt a) (siz a) (isrec a)
             (set1 (cont a) e (fun k => if (lo <=? 8 * k) && (8 * k <? lo + len) then f (8 * k - lo) mod W64 else cont a e k)) (gen a)
  | Move _ _, RUnit => a' = a
  | _, _ => False
  end.

(** A new set: the heap just made, all lists empty *)
Definition blank_abs (g : N) : abs := mkAbs [] (fun _ => []) (fun _ => 0) (fun _ => 0) (fun _ => 0) (fun _ => false) (fun _ _ => 0) g.
Inductive hist (fuel lf : nat) (size hgrain hoff : N) : lst -> abs -> Prop :=
| hi_new base h h' g : good_init base size hgrain (mem h) -> heap_init base fuel size hgrain h = Some (tt, h') ->
    hist fuel lf size hgrain hoff (mkL base h' (fun _ => (0, 0, 0)) g) (blank_abs g)
| hi_call s a o r s' a' : hist fuel lf size hgrain hoff s a -> legal size a o -> call fuel lf hoff o s = Some (r, s') ->
    does size hgrain hoff a o r s' a' -> hist fuel lf size hgrain hoff s' a'.
