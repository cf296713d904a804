(** What the allocator of pinned memory should do for its user. *)
From Verif Require Export M_MM S_Rbt.
Local Open Scope N_scope.

(** ** Geometry *)
(** The region is made of whole pages, the grain is a power of two *)
Definition pages (size : N) : N := 4096 * ((size + 4095) / 4096).
Definition gsz (hgrain : N) : N := 2 ^ N.log2_up hgrain.
Definition grains (size hgrain : N) : N := pages size / gsz hgrain.
(** Grains used by a block of [sz] bytes: 96 bytes are the allocator's. *)
Definition need (g sz : N) : N := (sz + 96 + (g - 1)) / g.
(** Bytes of the whole grains that [sz] bytes lie in *)
Definition whole (g sz : N) : N := (sz + (g - 1)) / g * g.

(** What is asked of the caller of mm_init and of mmap: a grain of more than 64
    bytes, a region of at least one and less than 2^31 grains; memory for the whole
    region.  A cell is at most 56 bytes. *)
Record good_init (at_ size hgrain : N) (m : N -> option node) : Prop := mkGood {
  gi_at : 0 < at_;
  gi_grain : 64 < hgrain;
  gi_wrap : at_ + pages size <= W64;
  gi_one : gsz hgrain <= pages size;
  gi_many : grains size hgrain < W31;
  gi_mem : forall a, at_ <= a -> a + 56 <= at_ + pages size -> m a <> None }.

(** ** Users of the allocator *)
(** A live block: the offset of the pointer from the start of the region, and the
    size in bytes.  The 96 bytes before it belong to the allocator. *)
Notation live_t := (list (N * N)) (only parsing).
(** Two blocks, their prefixes included, do not share a byte. *)
Definition apart (a b : N * N) : Prop :=
  fst a + snd a <= fst b - 96 \/ fst b + snd b <= fst a - 96.
(** The cells of the grains of a block, its prefix included *)
Definition in_block (at_ g : N) (e : N * N) (a : N) : bool :=
  (at_ + (fst e - 96) <=? a) && (a <? at_ + (fst e - 96) + need g (snd e) * g).
(** Memory after a user has written anything behind a pointer they own, up to the
    last byte of its grains *)
Definition scribble (at_ g : N) (e : N * N) (f : N -> node) (m : N -> option node) : N -> option node :=
  fun a => if in_block at_ g e a && (at_ + fst e <=? a) then match m a with Some _ => Some (f a) | None => None end else m a.
Definition set_mem (h : mm) (m : N -> option node) : mm :=
  mkMM (gbits h) (grain h) (msize h) (start h) (locked h) (sroot h) (scard h) (aroot h) (acard h) m.

(** The states in which a region can be, with the blocks in use, when its users only
    free what they own and only write to what they own. *)
Inductive reach (fuel : nat) (at_ size hgrain : N) : mm -> live_t -> Prop :=
| re_init m h : good_init at_ size hgrain m -> mm_init fuel at_ m size hgrain = Some h -> reach fuel at_ size hgrain h []
| re_alloc h A sz r h' : reach fuel at_ size hgrain h A ->
    sz + 96 + gsz hgrain <= W64 -> need (gsz hgrain) sz < W31 ->
    mm_alloc fuel sz h = Some (r, h') -> r <> 0 -> reach fuel at_ size hgrain h' ((r - at_, sz) :: A)
| re_free h A1 d sz A2 h' : reach fuel at_ size hgrain h (A1 ++ (d, sz) :: A2) ->
    mm_free fuel (at_ + d) h = Some (tt, h') -> reach fuel at_ size hgrain h' (A1 ++ A2)
| re_resize h A1 d sz A2 newsize r h' : reach fuel at_ size hgrain h (A1 ++ (d, sz) :: A2) ->
    1 <= newsize -> newsize + gsz hgrain <= W64 ->
    mm_realloc fuel (at_ + d) newsize h = Some (r, h') ->
    reach fuel at_ size hgrain h' (A1 ++ (r - at_, whole (gsz hgrain) newsize - 96) :: A2)
| re_write h A e f : reach fuel at_ size hgrain h A -> In e A ->
    reach fuel at_ size hgrain (set_mem h (scribble at_ (gsz hgrain) e f (mem h))) A.

(** Grains [i, i+n) are inside a region of [T] grains and in no live block. *)
Definition vacant (T g : N) (A : live_t) (i n : N) : Prop :=
  i + n <= T /\ forall d sz, In (d, sz) A -> 96 + (i + n) * g <= d \/ d + need g sz * g <= 96 + i * g.
(** A maximal run of vacant grains *)
Definition gap (T g : N) (A : live_t) (i n : N) : Prop :=
  1 <= n /\ vacant T g A i n /\ (i = 0 \/ ~ vacant T g A (i - 1) 1) /\ (i + n = T \/ ~ vacant T g A (i + n) 1).

(** The memory of the live blocks is the same: every byte of their grains, the
    prefix included. *)
Definition undisturbed (at_ g : N) (A : live_t) (m m' : N -> option node) : Prop :=
  forall e a, In e A -> in_block at_ g e a = true -> m' a = m a.
