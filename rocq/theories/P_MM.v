(** Theorems about the allocator of pinned memory (C11, C12). *)
From Verif Require Import L_MMTop.
From Verif Require Export S_MM.
From Coq Require Import List Lia ZifyBool ZifyN ZifyNat.
Import ListNotations.
Local Open Scope N_scope.

(** A loop that walks a tree needs fuel for its depth; [enough n fuel] is
    2 log2 (n+1) < fuel (S_Rbt.v). *)
Definition fuel_for (size hgrain : N) (fuel : nat) : Prop := enough (S (N.to_nat (grains size hgrain))) fuel.

(** ** C11: blocks are in bounds, large enough, disjoint and undisturbed.
    These theorems are about grains of more than 64 bytes; it is false for the
    smaller ones, see below. *)

(** A region can be made of any memory, whatever it holds. *)
Theorem mm_init_defined_partial at_ size hgrain fuel m : good_init at_ size hgrain m -> fuel_for size hgrain fuel ->
  exists h, mm_init fuel at_ m size hgrain = Some h /\ reach fuel at_ size hgrain h [].
Proof. intros HG Hf. destruct (mm_init_ok _ _ _ _ _ HG Hf) as (h & E & _). exists h. split; [exact E|]. now apply (re_init _ _ _ _ m). Qed.
Print Assumptions mm_init_defined_partial.

(** In every state the live blocks, with the bytes asked for, are inside the region
    and do not share a byte, the 96 byte prefixes included. *)
Theorem mm_live_disjoint_partial fuel at_ size hgrain h A : reach fuel at_ size hgrain h A -> fuel_for size hgrain fuel ->
  ForallOrdPairs apart A /\
  Forall (fun e => 96 <= fst e /\ (fst e - 96) mod gsz hgrain = 0 /\ fst e + snd e <= pages size /\ at_ + pages size <= W64) A.
Proof.
  intros H Hf. split; [exact (live_apart _ _ _ _ Hf _ _ H)|]. eapply Forall_impl; [|exact (live_bounds _ _ _ _ Hf _ _ H)].
  cbv beta. intros e (H1 & H2 & H3 & H4 & H5). repeat split; try assumption. lia.
Qed.
Print Assumptions mm_live_disjoint_partial.

(** An allocation never fails in any other way than by returning NULL, then changes
    nothing; it leaves the bytes of the live blocks alone; what it returns is a
    live block of the next state, to which the theorem above applies. *)
Theorem mm_alloc_safe_partial fuel at_ size hgrain h A sz : reach fuel at_ size hgrain h A -> fuel_for size hgrain fuel ->
  sz + 96 + gsz hgrain <= W64 -> need (gsz hgrain) sz < W31 ->
  exists r h', mm_alloc fuel sz h = Some (r, h') /\ (r = 0 -> h' = h) /\
    (r <> 0 -> at_ < r /\ reach fuel at_ size hgrain h' ((r - at_, sz) :: A) /\
       Forall (apart (r - at_, sz)) A /\ undisturbed at_ (gsz hgrain) A (mem h) (mem h')).
Proof.
  intros H Hf Hs Hn. destruct (alloc_top _ _ _ _ Hf _ _ _ H Hs Hn) as (r & h' & E & _ & H0 & H1). exists r, h'. split; [exact E|]. split; [exact H0|].
  intros Hr. destruct (H1 Hr) as (i & n & Er & _ & _ & _ & HU). pose proof (re_alloc _ _ _ _ _ _ _ _ _ H Hs Hn E Hr) as HR.
  split; [lia|]. split; [exact HR|]. split; [|exact HU]. pose proof (live_apart _ _ _ _ Hf _ _ HR) as HA. inversion HA; assumption.
Qed.
Print Assumptions mm_alloc_safe_partial.

(** Freeing any live block, in any order, is defined and leaves the bytes of the
    others alone. *)
Theorem mm_free_safe_partial fuel at_ size hgrain h A1 d sz A2 : reach fuel at_ size hgrain h (A1 ++ (d, sz) :: A2) -> fuel_for size hgrain fuel ->
  exists h', mm_free fuel (at_ + d) h = Some (tt, h') /\ reach fuel at_ size hgrain h' (A1 ++ A2) /\
    undisturbed at_ (gsz hgrain) (A1 ++ A2) (mem h) (mem h').
Proof.
  intros H Hf. destruct (free_top _ _ _ _ Hf _ _ _ _ _ H) as (h' & E & HU). exists h'. split; [exact E|]. split; [|exact HU]. exact (re_free _ _ _ _ _ _ _ _ _ _ H E).
Qed.
Print Assumptions mm_free_safe_partial.

(** NULL is returned exactly when there is no run of vacant grains that is long
    enough; else the block is at the beginning of a smallest sufficient gap. *)
Theorem mm_alloc_best_fit_partial fuel at_ size hgrain h A sz : reach fuel at_ size hgrain h A -> fuel_for size hgrain fuel ->
  sz + 96 + gsz hgrain <= W64 -> need (gsz hgrain) sz < W31 ->
  exists r h', mm_alloc fuel sz h = Some (r, h') /\
    (r = 0 <-> forall i, ~ vacant (grains size hgrain) (gsz hgrain) A i (need (gsz hgrain) sz)) /\
    (r <> 0 -> exists i n, r = at_ + (96 + i * gsz hgrain) /\ gap (grains size hgrain) (gsz hgrain) A i n /\ need (gsz hgrain) sz <= n /\
       forall j m, gap (grains size hgrain) (gsz hgrain) A j m -> need (gsz hgrain) sz <= m -> n <= m).
Proof.
  intros H Hf Hs Hn. destruct (alloc_top _ _ _ _ Hf _ _ _ H Hs Hn) as (r & h' & E & HN & _ & H1). exists r, h'. split; [exact E|]. split; [exact HN|].
  intros Hr. destruct (H1 Hr) as (i & n & Er & G1 & G2 & G3 & _). exists i, n. auto.
Qed.
Print Assumptions mm_alloc_best_fit_partial.

(** When all is freed, one block of the whole region can be allocated again, whatever
    happened before. *)
Theorem mm_all_freed_partial fuel at_ size hgrain h sz : reach fuel at_ size hgrain h [] -> fuel_for size hgrain fuel ->
  need (gsz hgrain) sz <= grains size hgrain -> sz + 96 + gsz hgrain <= W64 -> exists h', mm_alloc fuel sz h = Some (at_ + 96, h').
Proof.
  intros H Hf Hn Hs. destruct (reach_inv _ _ _ _ Hf _ _ H) as ((_ & _ & _ & _ & _ & F & _) & _).
  destruct (mm_alloc_best_fit_partial _ _ _ _ _ _ sz H Hf Hs ltac:(lia)) as (r & h' & E & HN & H1). exists h'. rewrite E. f_equal. f_equal.
  assert (Hr : r <> 0).
  { intros ->. apply (proj1 HN eq_refl 0). split; [lia|]. intros d s []. }
  destruct (H1 Hr) as (i & n & -> & (G1 & G2 & G3 & _) & _). destruct G3 as [->|G3]; [lia|]. elim G3. destruct (N.eq_dec i 0) as [->|Hi].
  - destruct G2 as [G2 _]. split; [cbn in *; lia|]. intros d s [].
  - destruct G2 as [G2 _]. split; [lia|]. intros d s [].
Qed.
Print Assumptions mm_all_freed_partial.

(** mm_stats reports the gaps: their number, the grains in them, the smallest and the
    largest (size + 1 and 0 if there is none).  The free grains and those of the live
    blocks add up to the region. *)
Theorem mm_stats_exact_partial fuel at_ size hgrain h A : reach fuel at_ size hgrain h A -> fuel_for size hgrain fuel ->
  exists R, NoDup R /\ (forall i n, In (i, n) R <-> gap (grains size hgrain) (gsz hgrain) A i n) /\
    mm_stats fuel h = Some (mkStat (N.of_nat (length R)) (fold_right N.add 0 (map snd R))
      (fold_left N.min (map snd R) (pages size + 1)) (fold_left N.max (map snd R) 0), h) /\
    fold_right N.add 0 (map snd R) + fold_right N.add 0 (map (fun e => need (gsz hgrain) (snd e)) A) = grains size hgrain.
Proof. intros H Hf. exact (stats_top _ _ _ _ Hf _ _ H). Qed.
Print Assumptions mm_stats_exact_partial.

(** ** C12: resizing *)

(** When the gap behind the block is large enough, and there is one, the block is
    resized where it is.  It keeps the contents that fit, the other blocks keep
    theirs, and the state is one the theorems above apply to: with a live block that
    has the whole grains of the requested size less the 96 bytes of the prefix.
    So it has the requested size if [newsize + 96 <= whole newsize]. *)
Theorem mm_realloc_in_place_partial fuel at_ size hgrain h A1 d sz A2 newsize i m :
  reach fuel at_ size hgrain h (A1 ++ (d, sz) :: A2) -> fuel_for size hgrain fuel -> 1 <= newsize -> newsize + gsz hgrain <= W64 ->
  d = 96 + i * gsz hgrain ->
  gap (grains size hgrain) (gsz hgrain) (A1 ++ (d, sz) :: A2) (i + need (gsz hgrain) sz) m ->
  whole (gsz hgrain) newsize / gsz hgrain <= need (gsz hgrain) sz + m ->
  exists h', mm_realloc fuel (at_ + d) newsize h = Some (at_ + d, h') /\
    reach fuel at_ size hgrain h' (A1 ++ (d, whole (gsz hgrain) newsize - 96) :: A2) /\
    undisturbed at_ (gsz hgrain) (A1 ++ A2) (mem h) (mem h') /\
    (forall a, at_ + d <= a -> in_block at_ (gsz hgrain) (d, sz) a = true ->
       in_block at_ (gsz hgrain) (d, whole (gsz hgrain) newsize - 96) a = true -> mem h' a = mem h a).
Proof.
  intros HR Hf Hn Hs Ed HG Hm. destruct (resize_top _ _ _ _ Hf _ _ _ _ _ newsize HR Hn Hs) as (j & Ej & H).
  assert (i = j).
  { destruct (reach_inv _ _ _ _ Hf _ _ HR) as ((_ & F2 & _) & _). pose proof (gsz_qq _ F2). pose proof (qq_pos hgrain). apply (N.mul_cancel_r i j (gsz hgrain)); lia. }
  subst j. destruct H as [(_ & H)|(m' & h' & E & _ & _ & HU & HC)]; [specialize (H _ HG); lia|].
  exists h'. split; [exact E|]. split; [|split; [exact HU|intros a H1 H2 H3; now apply HC]].
  pose proof (re_resize _ _ _ _ _ _ _ _ _ _ _ _ HR Hn Hs E) as HR'. replace (at_ + d - at_) with d in HR' by lia. exact HR'.
Qed.
Print Assumptions mm_realloc_in_place_partial.

(** The other way round: in all other states the caller never returns.  The lock is
    taken, then mm_alloc waits for it.  So a block can not be moved, and neither can
    it be made smaller unless the grains behind it are vacant. *)
Theorem mm_realloc_hangs_always fuel at_ size hgrain h A1 d sz A2 newsize i :
  reach fuel at_ size hgrain h (A1 ++ (d, sz) :: A2) -> fuel_for size hgrain fuel -> 1 <= newsize -> newsize + gsz hgrain <= W64 ->
  d = 96 + i * gsz hgrain ->
  (forall m, gap (grains size hgrain) (gsz hgrain) (A1 ++ (d, sz) :: A2) (i + need (gsz hgrain) sz) m ->
     need (gsz hgrain) sz + m < whole (gsz hgrain) newsize / gsz hgrain) ->
  mm_realloc fuel (at_ + d) newsize h = None.
Proof.
  intros HR Hf Hn Hs Ed HG. destruct (resize_top _ _ _ _ Hf _ _ _ _ _ newsize HR Hn Hs) as (j & Ej & H).
  assert (i = j).
  { destruct (reach_inv _ _ _ _ Hf _ _ HR) as ((_ & F2 & _) & _). pose proof (gsz_qq _ F2). pose proof (qq_pos hgrain). apply (N.mul_cancel_r i j (gsz hgrain)); lia. }
  subst j. destruct H as [(E & _)|(m' & h' & E & HG' & Hm & _)]; [exact E|]. specialize (HG _ HG'). lia.
Qed.
Print Assumptions mm_realloc_hangs_always.

(** ** A case meeting the hypotheses *)
Definition blank : node := mkN 77 3 9 Red 5.
Definition plenty : N -> option node := fun _ => Some blank.
(** exactly the memory of a region; a node has 40 bytes *)
Definition tight (at_ size : N) : N -> option node := fun a => if (at_ <=? a) && (a + 40 <=? at_ + size) then Some blank else None.
Definition run {A} (at_ : N) (m : N -> option node) (size hgrain : N) (p : mprog A) : option A :=
  match mm_init 40 at_ m size hgrain with
  | Some h => match p h with Some (x, _) => Some x | None => None end
  | None => None
  end.
Lemma ex_good : good_init 65536 16000 1000 (tight 65536 16384).
Proof.
  constructor; try (vm_compute; congruence). change (pages 16000) with 16384. intros a H1 H2. unfold tight.
  rewrite (proj2 (N.leb_le _ _) H1). assert (H3 : a + 40 <= 65536 + 16384) by lia. rewrite (proj2 (N.leb_le _ _) H3). discriminate.
Qed.
Lemma ex_fuel : fuel_for 16000 1000 40.
Proof. unfold fuel_for, enough. change (grains 16000 1000) with 16. vm_compute. lia. Qed.
(** 16 grains of 1024 bytes; three blocks, the middle one freed, another of its size
    comes to its place; what is too large is refused; the last is resized. *)
Example ex_run : run 65536 (tight 65536 16384) 16000 1000
  (a <-- mm_alloc 40 1500 ;; b <-- mm_alloc 40 900 ;; c <-- mm_alloc 40 929 ;;
   mm_free 40 b ;;- d <-- mm_alloc 40 1 ;; e <-- mm_alloc 40 11169 ;;
   i <-- mm_stats 40 ;;
   f <-- mm_realloc 40 c 5000 ;; j <-- mm_stats 40 ;;
   mm_free 40 d ;;- mm_free 40 f ;;- mm_free 40 a ;;- k <-- mm_stats 40 ;; mret ([a; b; c; d; e; f], [i; j; k])) =
  Some ([65632; 67680; 68704; 67680; 0; 68704], [mkStat 1 11 11 11; mkStat 1 8 8 8; mkStat 1 16 16 16]).
Proof. vm_compute. reflexivity. Qed.
Example ex_reach : exists h, reach 40 65536 16000 1000 h [(96, 1500)] /\ fuel_for 16000 1000 40 /\
  gap (grains 16000 1000) (gsz 1000) [(96, 1500)] 2 14 /\ whole (gsz 1000) 5000 / gsz 1000 <= need (gsz 1000) 1500 + 14 /\
  5000 + 96 <= whole (gsz 1000) 5000.
Proof.
  destruct (mm_init_defined_partial _ _ _ 40 _ ex_good ex_fuel) as (h & _ & H).
  assert (N1 : need (gsz 1000) 1500 <= grains 16000 1000) by (vm_compute; discriminate).
  assert (N2 : 1500 + 96 + gsz 1000 <= W64) by (vm_compute; discriminate).
  assert (N3 : need (gsz 1000) 1500 < W31) by (vm_compute; reflexivity).
  assert (N4 : 65536 + 96 <> 0) by discriminate.
  destruct (mm_all_freed_partial _ _ _ _ _ 1500 H ex_fuel N1 N2) as (h1 & E1).
  assert (H1 := re_alloc _ _ _ _ _ _ _ _ _ H N2 N3 E1 N4). replace (65536 + 96 - 65536) with 96 in H1 by reflexivity.
  exists h1. split; [exact H1|]. split; [exact ex_fuel|]. change (gsz 1000) with 1024. change (grains 16000 1000) with 16. split; [|split; vm_compute; discriminate].
  split; [lia|]. split; [|split].
  - split; [lia|]. intros d sz [E|[]]. injection E as <- <-. right. vm_compute. discriminate.
  - right. intros [_ H2]. specialize (H2 96 1500 (or_introl eq_refl)). vm_compute in H2. destruct H2 as [H2|H2]; now apply H2.
  - now left.
Qed.

(** ** What is false of C11 *)
(** With a grain of 64 bytes a vacant grain is smaller than the node that is kept in
    it.  At the end of the region the node is outside the memory ... *)
Theorem mm_small_grain_in_region_refuted : exists at_ sz, sz + 96 <= 4096 /\
  run at_ (tight at_ 4096) 4096 64 (mm_alloc 40 sz) = None.
Proof. exists 65536, 3936. split; [discriminate|]. vm_compute. reflexivity. Qed.
(** ... and elsewhere it overlaps the block behind it: [b] is live, [p] is the node of
    a free chunk, the 96 bytes at [p] and the prefix of [b] share bytes. *)
Theorem mm_small_grain_disjoint_refuted : exists at_ a b c p,
  run at_ plenty 4096 64 (a <-- mm_alloc 40 96 ;; b <-- mm_alloc 40 1 ;; mm_free 40 a ;;- c <-- mm_alloc 40 1 ;;
    i <-- mm_stats 40 ;; p <-- key_of (c - 96 + 128) ;; n <-- key_of (c - 96 + 128 + 40) ;; mret (a, b, c, smallest i, p, n)) = Some (a, b, c, 1, p, 1) /\
  p < b - 96 /\ b - 96 < p + 96.
Proof. exists 65536, 65632, 65824, 65632, 65664. vm_compute. auto. Qed.

(** Sizes near 2^64 wrap around (alloc_safe excludes them): a huge request is given
    one grain, or a block of no grain that remains in the trees. *)
Theorem mm_alloc_huge_refuted : exists at_,
  run at_ (tight at_ 16384) 16384 1024 (mm_alloc 40 (W64 - 1)) = Some (at_ + 96) /\
  run at_ (tight at_ 16384) 16384 1024 (a <-- mm_alloc 40 (W64 - 96) ;; b <-- mm_alloc 40 (W64 - 96) ;; mret (a, b)) = Some (at_ + 96, at_ + 96).
Proof. exists 65536. vm_compute. split; reflexivity. Qed.
(** Requests of 2^31 grains and more are compared modulo 2^32 (alloc_safe excludes
    them): instead of NULL they get a node outside the memory. *)
Theorem mm_alloc_many_grains_refuted : exists at_ sz, sz + 96 + 1024 <= W64 /\ pages 16384 < sz /\
  run at_ (tight at_ 16384) 16384 1024 (mm_alloc 40 sz) = None.
Proof. exists 65536, (4294967296 * 1024 - 96). vm_compute. split; [discriminate|]. split; reflexivity. Qed.
(** The documented alignment on the grain: a block is 96 bytes off. *)
Theorem mm_alloc_aligned_refuted : exists at_ r, at_ mod 4096 = 0 /\
  run at_ (tight at_ 16384) 16384 1024 (mm_alloc 40 100) = Some r /\ r mod 1024 <> 0.
Proof. exists 65536, 65632. vm_compute. split; [reflexivity|]. split; [reflexivity|discriminate]. Qed.
(** A grain of more than 2^63: the loop that computes the power does not end. *)
Lemma pow2_stuck f n bits : 0 < n -> pow2_loop f n 0 bits = None.
Proof. intros H. revert bits. induction f as [|f IH]; intros bits; [reflexivity|]. cbn [pow2_loop]. rewrite (proj2 (N.ltb_lt _ _) H). change (2 * 0 mod W64) with 0. apply IH. Qed.
Theorem mm_init_ends_refuted : exists hgrain, forall f, pow2_loop f hgrain 1 0 = None.
Proof.
  exists (W64 - 1). change (W64 - 1) with 18446744073709551615. intros f.
  do 64 (destruct f as [|f]; [reflexivity|]; cbn [pow2_loop];
    match goal with |- context [?a <? 18446744073709551615] => let v := eval vm_compute in (a <? 18446744073709551615) in change (a <? 18446744073709551615) with v; cbv iota end;
    match goal with |- context [2 * ?a mod W64] => let v := eval vm_compute in (2 * a mod W64) in change (2 * a mod W64) with v end;
    match goal with |- context [pow2_loop _ _ _ (?b + 1)] => let v := eval vm_compute in (b + 1) in change (b + 1) with v end).
  now apply pow2_stuck.
Qed.

(** ** What is false of C12 *)
(** The prefix is not counted: a block resized to 4096 bytes ends before its 4096th
    byte, the prefix of the next block is there. *)
Theorem mm_realloc_large_enough_refuted : exists at_ p b newsize,
  run at_ (tight at_ 16384) 16384 1024 (a <-- mm_alloc 40 100 ;; p <-- mm_realloc 40 a newsize ;; b <-- mm_alloc 40 100 ;; mret (p, b)) = Some (p, b) /\
  p < b /\ b - 96 < p + newsize.
Proof. exists 65536, 65632, 69728, 4096. vm_compute. auto. Qed.
(** A block that can not grow where it is, though there is room elsewhere; a block
    that should shrink; one at the end of the region: the thread waits for itself. *)
Theorem mm_realloc_returns_refuted : exists at_,
  run at_ (tight at_ 16384) 16384 1024 (a <-- mm_alloc 40 100 ;; b <-- mm_alloc 40 100 ;; mm_realloc 40 a 2000) = None /\
  run at_ (tight at_ 16384) 16384 1024 (a <-- mm_alloc 40 4000 ;; b <-- mm_alloc 40 100 ;; mm_realloc 40 a 100) = None /\
  run at_ (tight at_ 16384) 16384 1024 (a <-- mm_alloc 40 16288 ;; mm_realloc 40 a 100) = None /\
  run at_ (tight at_ 16384) 16384 1024 (a <-- mm_alloc 40 100 ;; b <-- mm_alloc 40 100 ;; mm_alloc 40 2000) = Some (at_ + 2048 + 96).
Proof. exists 65536. vm_compute. repeat split; reflexivity. Qed.
(** Resizing to nothing puts the block among the free ones, as one of no grains, and
    returns it: the 15 grains that were free are lost. *)
Theorem mm_realloc_zero_refuted : exists at_ a,
  run at_ (tight at_ 16384) 16384 1024 (a <-- mm_alloc 40 100 ;; p <-- mm_realloc 40 a 0 ;; b <-- mm_alloc 40 1 ;; i <-- mm_stats 40 ;; mret (a, p, b, i)) =
    Some (a, a, 0, mkStat 1 0 0 0).
Proof. exists 65536, 65632. vm_compute. reflexivity. Qed.
