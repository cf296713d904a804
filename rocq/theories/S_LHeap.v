(** What the heap inside a metric set should do for its user. *)
From Verif Require Export M_LHeap S_Rbt.
Local Open Scope N_scope.

(** ** Geometry *)
(** sizes in multiples of 512 bytes, the grain a power of two of at least 64 *)
Definition up512 (size : N) : N := 512 * ((size + 511) / 512).
Definition gsz (hgrain : N) : N := 2 ^ N.log2_up (N.max 64 hgrain).
(** Grains in a heap *)
Definition grains (size hgrain : N) : N := up512 size / gsz hgrain.
(** Grains used by an allocation of [sz] bytes: 4 bytes hold its size *)
Definition need (g sz : N) : N := (sz + 4 + (g - 1)) / g.

(** What the caller of ldms_heap_init must give: an aligned base; a grain of at most
    2^23 bytes; a heap of at least one and less than 2^32 grains; and memory for 8
    bytes more than the size of the heap. *)
Record good_init (base size hgrain : N) (m : N -> option node) : Prop := mkGood {
  gi_align : base mod 8 = 0;
  gi_grain : hgrain <= 8388608;
  gi_size : 0 < size;
  gi_wrap : base + up512 size + 8 <= W64;
  gi_half : up512 size + 8 <= W63;
  gi_one : gsz hgrain <= up512 size;
  gi_many : up512 size / gsz hgrain < W32;
  gi_mem : forall k, 32 * k < up512 size -> m (base + 8 + 32 * k) <> None }.

(** ** Users of the heap *)
(** A live allocation: the offset of the pointer from the base, and the size asked
    for.  The 4 bytes before it belong to the heap. *)
Notation live_t := (list (N * N)) (only parsing).

(** Two allocations, their prefixes included, do not share a byte. *)
Definition apart (a b : N * N) : Prop :=
  fst a + snd a <= fst b - 4 \/ fst b + snd b <= fst a - 4.

(** Memory after a user has written anything to the bytes of an allocation: the
    grains from offset d - 4 on, but not the 4 bytes before the pointer. *)
Definition in_block (base g : N) (e : N * N) (a : N) : bool :=
  (base + (fst e - 4) <=? a) && (a <? base + (fst e - 4) + need g (snd e) * g).
Definition scribble (base g : N) (e : N * N) (f : N -> node) (m : N -> option node) : N -> option node :=
  fun a =>
    if in_block base g e a then
      if a =? base + (fst e - 4) then
        match m a with
        | Some n => Some (with_word0 (f a) (word0 (f a) - word0 (f a) mod W32 + word0 n mod W32))
        | None => None
        end
      else match m a with Some _ => Some (f a) | None => None end
    else m a.
Definition set_mem (h : hp) (m : N -> option node) : hp :=
  mkHp (grain_bits h) (grain h) (hsize h) (hgn h) (sroot h) (aroot h) m.
(** The heap after its memory has been copied to another base; [o] is what the rest
    of the memory holds there. *)
Definition moved (base base' : N) (o : N -> option node) (h : hp) : hp :=
  set_mem h (fun a => if (base' <=? a) && (a <? base' + (hsize h + 8)) then mem h (base + (a - base')) else o a).

(** The states in which a heap can be: at a base, with the allocations in use, when
    its users only free what they own and only write to what they own. *)
Inductive reach (fuel : nat) (size hgrain : N) : N -> hp -> live_t -> Prop :=
| re_init base h h' : good_init base size hgrain (mem h) ->
    heap_init base fuel size hgrain h = Some (tt, h') -> reach fuel size hgrain base h' []
| re_alloc base h A sz r h' : reach fuel size hgrain base h A -> sz + 4 + gsz hgrain <= W64 ->
    heap_alloc base fuel sz h = Some (r, h') -> r <> 0 -> reach fuel size hgrain base h' ((r - base, sz) :: A)
| re_free base h A1 d sz A2 h' : reach fuel size hgrain base h (A1 ++ (d, sz) :: A2) ->
    heap_free base fuel (base + d) h = Some (tt, h') -> reach fuel size hgrain base h' (A1 ++ A2)
| re_write base h A e f : reach fuel size hgrain base h A -> In e A ->
    reach fuel size hgrain base (set_mem h (scribble base (gsz hgrain) e f (mem h))) A
| re_move base h A base' o : reach fuel size hgrain base h A -> base' + up512 size + 8 <= W64 ->
    reach fuel size hgrain base' (moved base base' o h) A.

(** Grains [i, i+n) are inside a heap of [T] grains and in no live allocation. *)
Definition vacant (T g : N) (A : live_t) (i n : N) : Prop :=
  i + n <= T /\ forall d sz, In (d, sz) A -> 12 + (i + n) * g <= d \/ d + need g sz * g <= 12 + i * g.
(** A maximal run of vacant grains *)
Definition gap (T g : N) (A : live_t) (i n : N) : Prop :=
  1 <= n /\ vacant T g A i n /\ (i = 0 \/ ~ vacant T g A (i - 1) 1) /\ (i + n = T \/ ~ vacant T g A (i + n) 1).

(** The memory of the live allocations is the same: every byte of their grains,
    the prefix included. *)
Definition undisturbed (base g : N) (A : live_t) (m m' : N -> option node) : Prop :=
  forall e a, In e A -> in_block base g e a = true -> m' a = m a.
