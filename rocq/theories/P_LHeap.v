(** Theorems about the heap inside a metric set (C09, C10). *)
From Verif Require Import L_LHeapTop L_RrbtTop S_Rrbt.
From Verif Require Export S_LHeap.
From Coq Require Import Lia ZifyBool ZifyN ZifyNat.
Local Open Scope N_scope.

(** A loop that walks a tree needs fuel for its depth; [enough n fuel] is
    2 log2 (n+1) < fuel (S_Rbt.v). *)
Definition fuel_for (size hgrain : N) (fuel : nat) : Prop := enough (S (N.to_nat (grains size hgrain))) fuel.

(** ** C09: allocations are in bounds, aligned, disjoint and undisturbed *)

(** A heap can be made over any memory, whatever it holds. *)
Theorem heap_init_defined base size hgrain fuel h : good_init base size hgrain (mem h) -> fuel_for size hgrain fuel ->
  exists h', heap_init base fuel size hgrain h = Some (tt, h') /\ reach fuel size hgrain base h' [].
Proof.
  intros HG Hf. destruct (heap_init_ok _ _ _ _ _ HG Hf) as (h' & E & _). exists h'. split; [exact E|]. now apply (re_init _ _ _ _ h).
Qed.
Print Assumptions heap_init_defined.

(** In every state the live allocations are inside the heap, do not share a byte -
    the 4 byte prefixes included - and start 12 bytes after the base plus a multiple
    of the grain. *)
Theorem heap_live_disjoint fuel size hgrain base h A : reach fuel size hgrain base h A -> fuel_for size hgrain fuel ->
  ForallOrdPairs apart A /\
  Forall (fun e => 12 <= fst e /\ (fst e - 12) mod gsz hgrain = 0 /\ fst e + snd e <= 8 + grains size hgrain * gsz hgrain /\
    base + fst e + snd e <= W64) A.
Proof. intros H Hf. split; [exact (live_apart _ _ _ _ _ (reach_inv _ _ _ Hf _ _ _ H))|exact (live_bounds _ _ _ _ _ (reach_inv _ _ _ Hf _ _ _ H))]. Qed.
Print Assumptions heap_live_disjoint.

(** An allocation never fails in any other way than by returning NULL, then changes
    nothing; it leaves the bytes of the live allocations alone; what it returns is a
    live allocation of the next state, to which the theorem above applies. *)
Theorem heap_alloc_safe fuel size hgrain base h A sz : reach fuel size hgrain base h A -> fuel_for size hgrain fuel -> sz + 4 + gsz hgrain <= W64 ->
  exists r h', heap_alloc base fuel sz h = Some (r, h') /\ (r = 0 -> h' = h) /\
    (r <> 0 -> base < r /\ reach fuel size hgrain base h' ((r - base, sz) :: A) /\
       Forall (apart (r - base, sz)) A /\ undisturbed base (gsz hgrain) A (mem h) (mem h')).
Proof.
  intros H Hf Hs. destruct (alloc_top _ _ _ Hf _ _ _ _ (reach_inv _ _ _ Hf _ _ _ H) Hs) as (r & h' & E & _ & H0 & H1). exists r, h'. split; [exact E|]. split; [exact H0|].
  intros Hr. destruct (H1 Hr) as (i & n & Er & _ & _ & _ & HU & _). pose proof (re_alloc _ _ _ _ _ _ _ _ _ H Hs E Hr) as HR.
  split; [lia|]. split; [exact HR|]. split; [|exact HU]. pose proof (live_apart _ _ _ _ _ (reach_inv _ _ _ Hf _ _ _ HR)) as HA. inversion HA; assumption.
Qed.
Print Assumptions heap_alloc_safe.

(** Freeing any live allocation, in any order, is defined and leaves the bytes of
    the others alone. *)
Theorem heap_free_safe fuel size hgrain base h A1 d sz A2 : reach fuel size hgrain base h (A1 ++ (d, sz) :: A2) -> fuel_for size hgrain fuel ->
  exists h', heap_free base fuel (base + d) h = Some (tt, h') /\ reach fuel size hgrain base h' (A1 ++ A2) /\
    undisturbed base (gsz hgrain) (A1 ++ A2) (mem h) (mem h').
Proof.
  intros H Hf. destruct (free_top _ _ _ Hf _ _ _ _ _ _ (reach_inv _ _ _ Hf _ _ _ H)) as (h' & E & HU & _). exists h'. split; [exact E|]. split; [|exact HU]. exact (re_free _ _ _ _ _ _ _ _ _ _ H E).
Qed.
Print Assumptions heap_free_safe.

(** ** C10: no memory is lost *)

(** NULL is returned exactly when there is no run of vacant grains that is long
    enough; else the block is at the beginning of a smallest sufficient gap. *)
Theorem heap_alloc_best_fit fuel size hgrain base h A sz : reach fuel size hgrain base h A -> fuel_for size hgrain fuel -> sz + 4 + gsz hgrain <= W64 ->
  exists r h', heap_alloc base fuel sz h = Some (r, h') /\
    (r = 0 <-> forall i, ~ vacant (grains size hgrain) (gsz hgrain) A i (need (gsz hgrain) sz)) /\
    (r <> 0 -> exists i n, r = base + (12 + i * gsz hgrain) /\ gap (grains size hgrain) (gsz hgrain) A i n /\ need (gsz hgrain) sz <= n /\
       forall j m, gap (grains size hgrain) (gsz hgrain) A j m -> need (gsz hgrain) sz <= m -> n <= m).
Proof.
  intros H Hf Hs. destruct (alloc_top _ _ _ Hf _ _ _ _ (reach_inv _ _ _ Hf _ _ _ H) Hs) as (r & h' & E & HN & _ & H1). exists r, h'. split; [exact E|]. split; [exact HN|].
  intros Hr. destruct (H1 Hr) as (i & n & Er & G1 & G2 & G3 & _). exists i, n. auto.
Qed.
Print Assumptions heap_alloc_best_fit.

(** When all is freed, one block of the whole heap can be allocated again, whatever
    happened before. *)
Theorem heap_all_freed fuel size hgrain base h sz : reach fuel size hgrain base h [] -> fuel_for size hgrain fuel ->
  need (gsz hgrain) sz <= grains size hgrain -> sz + 4 + gsz hgrain <= W64 -> exists h', heap_alloc base fuel sz h = Some (base + 12, h').
Proof.
  intros H Hf Hn Hs. destruct (heap_alloc_best_fit _ _ _ _ _ _ _ H Hf Hs) as (r & h' & E & HN & H1). exists h'. rewrite E. f_equal. f_equal.
  assert (Hr : r <> 0).
  { intros ->. apply (proj1 HN eq_refl 0). split; [lia|]. intros d s []. }
  destruct (H1 Hr) as (i & n & -> & (G1 & G2 & G3 & _) & _). destruct G3 as [->|G3]; [lia|]. elim G3. destruct (N.eq_dec i 0) as [->|Hi].
  - destruct G2 as [G2 _]. split; [cbn in *; lia|]. intros d s [].
  - destruct G2 as [G2 _]. split; [lia|]. intros d s [].
Qed.
Print Assumptions heap_all_freed.

(** ldms_heap_get_info reports the gaps: their number, the grains in them, the
    smallest and the largest (size + 1 and 0 if there is none).  The free grains and
    those of the live allocations add up to the heap. *)
Theorem heap_info_exact fuel size hgrain base h A : reach fuel size hgrain base h A -> fuel_for size hgrain fuel ->
  exists R, NoDup R /\ (forall i n, In (i, n) R <-> gap (grains size hgrain) (gsz hgrain) A i n) /\
    heap_get_info base fuel h = Some (mkInfo (N.of_nat (length R)) (fold_right N.add 0 (map snd R))
      (fold_left N.min (map snd R) (up512 size + 1)) (fold_left N.max (map snd R) 0), h) /\
    fold_right N.add 0 (map snd R) + fold_right N.add 0 (map (fun e => need (gsz hgrain) (snd e)) A) = grains size hgrain.
Proof. intros H Hf. exact (info_top _ _ _ Hf _ _ _ (reach_inv _ _ _ Hf _ _ _ H)). Qed.
Print Assumptions heap_info_exact.

(** ** A case meeting the hypotheses *)
Definition blank : node := mkN 77 3 9 Red 5.
Definition raw (m : N -> option node) : hp := mkHp 3 5 7 9 11 13 m.
Definition plenty : N -> option node := fun _ => Some blank.
Lemma ex_good : good_init 4096 1000 64 (mem (raw plenty)).
Proof. constructor; try (cbv; congruence). Qed.
Lemma ex_fuel : fuel_for 1000 64 40.
Proof. unfold fuel_for, enough. change (grains 1000 64) with 16. vm_compute. lia. Qed.
(** 16 grains; three allocations, the middle one freed, another of its size comes
    to its place; what is too large is refused. *)
Definition ex_run : hprog (list N * info) :=
  heap_init 4096 40 1000 64 ;;-
  a <-- heap_alloc 4096 40 100 ;; b <-- heap_alloc 4096 40 60 ;; c <-- heap_alloc 4096 40 61 ;;
  heap_free 4096 40 b ;;- d <-- heap_alloc 4096 40 1 ;; e <-- heap_alloc 4096 40 800 ;; f <-- heap_alloc 4096 40 700 ;;
  heap_free 4096 40 c ;;- heap_free 4096 40 a ;;-
  i <-- heap_get_info 4096 40 ;; hret ([a; b; c; d; e; f], i).
Example ex_run_ok : match ex_run (raw plenty) with Some (x, _) => Some x | None => None end =
  Some ([4108; 4236; 4300; 4236; 0; 4428], mkInfo 2 4 2 2).
Proof. vm_compute. reflexivity. Qed.
Example ex_reach : exists h, reach 40 1000 64 8192 h [(140, 60); (12, 100)] /\ fuel_for 1000 64 40.
Proof.
  destruct (heap_init_defined _ _ _ 40 _ ex_good ex_fuel) as (h & _ & H).
  assert (N1 : need (gsz 64) 100 <= grains 1000 64) by (vm_compute; discriminate).
  assert (N2 : 100 + 4 + gsz 64 <= W64) by (vm_compute; discriminate). assert (N3 : 60 + 4 + gsz 64 <= W64) by (vm_compute; discriminate).
  assert (N4 : 4096 + 12 <> 0) by discriminate. assert (N5 : 8192 + up512 1000 + 8 <= W64) by (vm_compute; discriminate).
  destruct (heap_all_freed _ _ _ _ _ 100 H ex_fuel N1 N2) as (h1 & E1).
  assert (H1 := re_alloc _ _ _ _ _ _ _ _ _ H N2 E1 N4). replace (4096 + 12 - 4096) with 12 in H1 by reflexivity.
  destruct (heap_alloc_best_fit _ _ _ _ _ _ 60 H1 ex_fuel N3) as (r & h2 & E2 & HN & HG).
  assert (Hr : r <> 0).
  { intros ->. apply (proj1 HN eq_refl 2). split; [vm_compute; discriminate|]. intros d sz [E|[]]. injection E as <- <-. right. vm_compute. discriminate. }
  assert (H2 := re_alloc _ _ _ _ _ _ _ _ _ H1 N3 E2 Hr).
  assert (Er : r - 4096 = 140).
  { destruct (HG Hr) as (i & n & -> & (Hn & (V1 & V2) & G2 & _) & _). specialize (V2 12 100 (or_introl eq_refl)).
    change (gsz 64) with 64 in *. change (need 64 100) with 2 in *. change (grains 1000 64) with 16 in *.
    assert (Hi : 2 <= i) by lia. destruct (N.eq_dec i 2) as [->|Hne]; [reflexivity|]. destruct G2 as [->|G2]; [lia|]. elim G2.
    split; [lia|]. intros d sz [E|[]]. injection E as <- <-. right. change (need 64 100) with 2. lia. }
  rewrite Er in H2. eexists. split; [|exact ex_fuel]. eapply (re_move _ _ _ _ _ _ 8192 (fun _ => None)); [exact H2|exact N5].
Qed.

(** ** What is false *)
(** The memory of a heap is what its creator says it is: [size] bytes.  But the
    chunks start 8 bytes after the base, so the last grain ends 8 bytes after the
    memory.  In a metric set the next element of the set array begins there. *)
Definition tight (base size : N) : N -> option node := fun a => if (base <=? a) && (a + 32 <=? base + size) then Some blank else None.
(** An allocation in a heap with the memory it was said to have accesses memory
    outside, a multiple of 512 and 64 byte grains notwithstanding. *)
Theorem heap_stays_in_its_memory_refuted : exists base size fuel h,
  (forall a, base <= a -> a + 32 <= base + size -> mem h a <> None) /\
  (heap_init base fuel size 32 ;;- heap_alloc base fuel 444) h = None /\
  match (heap_init base fuel size 32 ;;- heap_alloc base fuel 4) h with Some (r, _) => r = base + 12 | None => False end.
Proof.
  exists 4096, 512, 40%nat, (raw (tight 4096 512)). split; [|split; vm_compute; reflexivity].
  intros a H1 H2. cbn [mem raw]. unfold tight. rewrite (proj2 (N.leb_le _ _) H1), (proj2 (N.leb_le _ _) H2). discriminate.
Qed.
(** And the user is given bytes that are not in the memory of the heap. *)
Theorem heap_block_in_its_memory_refuted : exists base size sz fuel h,
  match (heap_init base fuel size 32 ;;- heap_alloc base fuel sz) h with Some (r, _) => r <> 0 /\ base + size < r + sz | None => False end.
Proof. exists 4096, 512, 508, 40%nat, (raw plenty). vm_compute. split; [discriminate|reflexivity]. Qed.

(** Sizes near 2^64 wrap around (alloc_safe excludes them): a huge request is given
    one grain, or a block of no grain whose prefix destroys a node of the free tree,
    so that the next allocation aborts the program. *)
Theorem heap_alloc_huge_refuted : exists base size fuel h,
  match (heap_init base fuel size 64 ;;- heap_alloc base fuel (W64 - 1)) h with Some (r, _) => r = base + 12 | None => False end /\
  match (heap_init base fuel size 64 ;;- heap_alloc base fuel (W64 - 5)) h with Some (r, _) => r = base + 12 | None => False end /\
  (heap_init base fuel size 64 ;;- heap_alloc base fuel (W64 - 5) ;;- heap_alloc base fuel 8) h = None.
Proof. exists 4096, 1024, 40%nat, (raw plenty). vm_compute. split; [reflexivity|]. split; reflexivity. Qed.

(** The loop computing the grain does not end for more than 2^23 bytes (good_init
    excludes them): the field of 24 bits never gets there. *)
Lemma grain_stuck want f bits : 0 < want -> grain_loop f want 0 bits = None.
Proof. intros H. revert bits. induction f as [|f IH]; intros bits; [reflexivity|]. cbn [grain_loop]. rewrite (proj2 (N.ltb_lt _ _) H). change (2 * 0 mod 16777216) with 0. apply IH. Qed.
Theorem heap_init_ends_refuted : exists hgrain, forall f, grain_loop f (grain_size hgrain) 1 0 = None.
Proof.
  exists 8388609. intros f. change (grain_size 8388609) with 8388609.
  do 24 (destruct f as [|f]; [reflexivity|]; cbn [grain_loop];
    match goal with |- context [?a <? 8388609] => let v := eval vm_compute in (a <? 8388609) in change (a <? 8388609) with v; cbv iota end;
    match goal with |- context [2 * ?a mod 16777216] => let v := eval vm_compute in (2 * a mod 16777216) in change (2 * a mod 16777216) with v end;
    match goal with |- context [(?b + 1) mod 256] => let v := eval vm_compute in ((b + 1) mod 256) in change ((b + 1) mod 256) with v end).
  now apply grain_stuck.
Qed.

(** A heap of 2^32 grains (good_init excludes it) loses memory: the count of a chunk
    has 32 bits.  One allocation of all of it, freed, and the heap is empty. *)
Theorem heap_no_leak_large_refuted : exists base size sz fuel h,
  match (heap_init base fuel size 64 ;;- a <-- heap_alloc base fuel sz ;; heap_free base fuel a ;;- b <-- heap_alloc base fuel sz ;;
         c <-- heap_alloc base fuel 61 ;; hret (a, b, c)) h with
  | Some (x, _) => x = (base + 12, 0, 0)
  | None => False
  end.
Proof. exists 4096, 274877906944, 274877906940, 40%nat, (raw plenty). vm_compute. reflexivity. Qed.
