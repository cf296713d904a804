(** Property theorems for C01, C02 and C03 (red/black tree). *)
From Verif Require Import L_RbtTop.
From Coq Require Import Sorting.Sorted Permutation.
Local Open Scope N_scope.

(** * C01 *)

(** Every history of legal inserts and deletes, on any comparator that is a total
    preorder, any initial memory and any rubbish in the inserted nodes: no
    operation fails (no NULL or unmapped access, no assertion, no endless loop);
    the tree holds exactly the nodes it should, in order, equal keys in insertion
    order; the walk from the minimum by successor sees just them; the cardinality
    is their number. *)
Theorem rbt_multiset :
  forall cmp h os L fuel, preorder cmp -> history cmp [] os L -> enough (length os) fuel ->
  exists s, run cmp fuel os (rbt_init h) = Some (tt, s) /\
    holds s L /\ sorted cmp L /\
    (forall m, (length L < m)%nat -> rbt_foreach m fuel s = Some (map fst L, s)) /\
    rbt_card s = Z.of_nat (length L) /\ (rbt_empty s = true <-> L = []).
Proof.
  intros cmp h os L fuel Hpre HH Hf.
  destruct (run_ok cmp fuel Hpre [] os L HH (rbt_init h) (holds_init h) ltac:(constructor) Hf) as (s & E1 & E2 & E3 & E4).
  exists s. split; [exact E1|]. split; [exact E2|]. split; [exact E3|]. split; [|split; [exact (proj2 (proj2 E2))|exact (holds_empty s L E2)]].
  intros m Hm. apply holds_foreach; [exact E2|eapply enough_le; [exact E4|exact Hf]|exact Hm].
Qed.
Print Assumptions rbt_multiset.

(** The single operations, on any red/black tree in memory: what an insert does,
    and that it leaves all other memory alone. *)
Theorem rbt_ins_correct :
  forall cmp s L x nx fuel, holds s L -> x <> 0 -> heap s x = Some nx -> ~ In x (map fst L) -> enough (length L) fuel ->
  exists s' L1 L2, rbt_ins cmp fuel x s = Some (tt, s') /\ L = L1 ++ L2 /\ holds s' (L1 ++ (x, key nx) :: L2) /\
    (forall b, b <> x -> ~ In b (map fst L) -> heap s' b = heap s b) /\
    (preorder cmp -> sorted cmp L ->
       Forall (fun e => (cmp (snd e) (key nx) <= 0)%Z) L1 /\ Forall (fun e => (0 < cmp (snd e) (key nx))%Z) L2).
Proof. exact holds_ins. Qed.
Print Assumptions rbt_ins_correct.

Theorem rbt_del_correct :
  forall s L1 n k L2 fuel, holds s (L1 ++ (n, k) :: L2) -> enough (length (L1 ++ (n, k) :: L2)) fuel ->
  exists s', rbt_del fuel n s = Some (tt, s') /\ holds s' (L1 ++ L2) /\
    (forall b, ~ In b (map fst (L1 ++ (n, k) :: L2)) -> heap s' b = heap s b).
Proof. exact holds_del. Qed.
Print Assumptions rbt_del_correct.

(** With a comparator that is no order at all (keys changed while in the tree, a
    difference truncated to an int) the order is lost but nothing else: the tree
    still holds exactly the inserted nodes, balanced, and no access goes astray. *)
Theorem rbt_any_comparator :
  forall cmp h os L fuel, history cmp [] os L -> enough (length os) fuel ->
  exists s M, run cmp fuel os (rbt_init h) = Some (tt, s) /\ holds s M /\ Permutation M L.
Proof.
  intros cmp h os L fuel HH Hf. exact (run_any cmp fuel [] os L HH (rbt_init h) [] (holds_init h) (Permutation_refl _) Hf).
Qed.
Print Assumptions rbt_any_comparator.

(** * C02 *)
(** No node is reached by a path of more than 2*log2(n+1) nodes; every node of the
    tree is reached by some path. *)
Theorem rbt_balanced :
  forall cmp h os L fuel, history cmp [] os L -> enough (length os) fuel ->
  exists s, run cmp fuel os (rbt_init h) = Some (tt, s) /\
    (forall x d, depth (heap s) (root s) x d -> (S d <= 2 * Nat.log2 (S (length L)))%nat) /\
    (forall x, In x (map fst L) -> exists d, depth (heap s) (root s) x d).
Proof.
  intros cmp h os L fuel HH Hf.
  destruct (run_any cmp fuel [] os L HH (rbt_init h) [] (holds_init h) (Permutation_refl _) Hf) as (s & M & E1 & E2 & E3).
  exists s. split; [exact E1|]. rewrite <- (Permutation_length E3). split.
  - intros x d. exact (holds_depth s M x d E2).
  - intros x Hx. rewrite <- (perm_in _ _ _ E3) in Hx. destruct (holds_Z _ _ E2) as (t & b & (HR & HP & _) & <- & _).
    cbn [crep] in HR. rewrite HR. exact (rep_depth _ _ _ _ HP Hx).
Qed.
Print Assumptions rbt_balanced.

(** * C03 *)
(** On any sorted red/black tree; "enough" is the logarithmic bound, so this also
    says that each query looks at logarithmically many nodes. *)
Theorem rbt_find_exact :
  forall cmp s L k fuel, preorder cmp -> holds s L -> sorted cmp L -> enough (length L) fuel ->
  exists r, rbt_find cmp fuel k s = Some (r, s) /\
    ((r = 0 /\ forall e, In e L -> cmp (snd e) k <> 0%Z) \/ exists kr, In (r, kr) L /\ cmp kr k = 0%Z).
Proof. exact holds_find. Qed.
Print Assumptions rbt_find_exact.

Theorem rbt_find_glb_exact :
  forall cmp s L k fuel, preorder cmp -> holds s L -> sorted cmp L -> enough (length L) fuel ->
  exists r, rbt_find_glb cmp fuel k s = Some (r, s) /\ is_glb cmp L k r.
Proof. exact holds_glb. Qed.
Print Assumptions rbt_find_glb_exact.

Theorem rbt_find_lub_exact :
  forall cmp s L k fuel, preorder cmp -> holds s L -> sorted cmp L -> enough (length L) fuel ->
  exists r, rbt_find_lub cmp fuel k s = Some (r, s) /\ is_lub cmp L k r.
Proof. exact holds_lub. Qed.
Print Assumptions rbt_find_lub_exact.

Theorem rbt_min_max_exact :
  forall s L fuel, holds s L -> enough (length L) fuel ->
  rbt_min fuel s = Some (hd 0 (map fst L), s) /\ rbt_max fuel s = Some (last (map fst L) 0, s).
Proof. intros s L fuel H Hf. split; [exact (holds_min s L fuel H Hf)|exact (holds_max s L fuel H Hf)]. Qed.
Print Assumptions rbt_min_max_exact.

Theorem rbn_succ_pred_exact :
  forall s L1 n k L2 fuel, holds s (L1 ++ (n, k) :: L2) -> enough (length (L1 ++ (n, k) :: L2)) fuel ->
  rbn_succ fuel n s = Some (hd 0 (map fst L2), s) /\ rbn_pred fuel n s = Some (last (map fst L1) 0, s).
Proof. intros s L1 n k L2 fuel H Hf. split; [exact (holds_succ s L1 n k L2 fuel H Hf)|exact (holds_pred s L1 n k L2 fuel H Hf)]. Qed.
Print Assumptions rbn_succ_pred_exact.

(** The traversal calls the function on the nodes in order, with their depth; it
    stops after the first call returning non-zero and returns that; otherwise it
    returns 0 after visiting all. *)
Theorem rbt_traverse_exact :
  forall s L f fuel, holds s L -> enough (length L) fuel ->
  exists rc log, rbt_traverse fuel f s = Some ((rc, log), s) /\
    (exists rest, map fst L = map fst log ++ rest /\ (rc = 0%Z -> rest = [])) /\
    (forall x d, In (x, d) log -> depth (heap s) (root s) x (N.to_nat d)) /\
    (forall p q, log = p ++ q -> p <> [] -> q <> [] -> f p = 0%Z) /\
    (log <> [] -> f log = rc) /\ (log = [] -> rc = 0%Z).
Proof. exact holds_traverse. Qed.
Print Assumptions rbt_traverse_exact.

(** * A concrete case *)
Definition int_cmp (a b : N) : Z := (Z.of_N a - Z.of_N b)%Z.
Example int_cmp_pre : preorder int_cmp.
Proof. unfold int_cmp. split; intros; lia. Qed.
Definition rubbish (k : N) : node := mkN 77 78 79 Red k.
(** Twelve inserts with some equal keys, then deletes of a node with two children,
    of a leaf, of the root, and re-insertion of a deleted node *)
Definition demo : list op :=
  map (fun xk => OIns (fst xk) (rubbish (snd xk)))
    [(1, 50); (2, 20); (3, 70); (4, 10); (5, 30); (6, 60); (7, 80); (8, 30); (9, 25); (10, 5); (11, 30); (12, 65)]
  ++ [ODel 1; ODel 10; ODel 2; ODel 3; OIns 1 (rubbish 30); ODel 7; ODel 6].
Definition demo_result : list (N * N) := [(4, 10); (9, 25); (5, 30); (8, 30); (11, 30); (1, 30); (12, 65)].
Example demo_history : history int_cmp [] demo demo_result.
Proof.
  unfold demo, demo_result. cbn [map app fst snd].
  repeat (apply hi_cons; [cbv; intuition discriminate|];
          match goal with |- history _ ?L _ _ => let L' := eval vm_compute in L in change L with L' end).
  apply hi_nil.
Qed.
Example demo_run :
  match run int_cmp 10 demo (rbt_init (fun _ => None)) with
  | Some (_, s) => rbt_foreach 20 10 s = Some ([4; 9; 5; 8; 11; 1; 12], s) /\ rbt_card s = 7%Z /\
                   rbt_find int_cmp 10 26 s = Some (0, s) /\ rbt_find_glb int_cmp 10 26 s = Some (9, s) /\
                   rbt_find_lub int_cmp 10 26 s = Some (5, s) /\ rbt_find_lub int_cmp 10 66 s = Some (0, s)
  | None => False
  end.
Proof. vm_compute. repeat split. Qed.
Example demo_enough : enough (length demo) 10.
Proof. vm_compute. lia. Qed.

(** * C44: the neighbour helpers *)
(** [rbt_greatest_lt_or_eq n] is to be the largest node not above [n] and NULL only
    for the minimum; [rbt_least_gt_or_eq] the mirror image.  Neither is: with keys
    1 2 3 the first gives 2 for the minimum 1 (a greater node), and NULL for 3,
    which is not the minimum; the second 2 for 3. *)
Definition three : list op := map (fun k => OIns k (rubbish k)) [2; 1; 3].
Theorem rbt_neighbour_refuted :
  exists s L, run int_cmp 10 three (rbt_init (fun _ => None)) = Some (tt, s) /\ holds s L /\ sorted int_cmp L /\
    (exists n k g kg, In (n, k) L /\ In (g, kg) L /\ rbt_greatest_lt_or_eq n s = Some (g, s) /\ (0 < int_cmp kg k)%Z) /\
    (exists n k e, In (n, k) L /\ In e L /\ fst e <> n /\ (int_cmp (snd e) k < 0)%Z /\ rbt_greatest_lt_or_eq n s = Some (0, s)) /\
    (exists n k g kg, In (n, k) L /\ In (g, kg) L /\ rbt_least_gt_or_eq n s = Some (g, s) /\ (int_cmp kg k < 0)%Z).
Proof.
  assert (HH : history int_cmp [] three [(1, 1); (2, 2); (3, 3)]).
  { unfold three. cbn [map]. repeat (apply hi_cons; [cbv; intuition discriminate|];
          match goal with |- history _ ?L _ _ => let L' := eval vm_compute in L in change L with L' end). apply hi_nil. }
  destruct (rbt_multiset int_cmp (fun _ => None) three _ 10 int_cmp_pre HH) as (s & E1 & E2 & E3 & _); [vm_compute; lia|].
  exists s, [(1, 1); (2, 2); (3, 3)]. split; [exact E1|]. split; [exact E2|]. split; [exact E3|]. clear HH E2 E3.
  vm_compute in E1. injection E1 as <-. split; [|split].
  - exists 1, 1, 2, 2. cbn [In]. repeat split; auto.
  - exists 3, 3, (1, 1). cbn [In]. repeat split; auto. discriminate.
  - exists 3, 3, 2, 2. cbn [In]. repeat split; auto.
Qed.
Print Assumptions rbt_neighbour_refuted.
(** What holds: a node with a left child gets a node not above it, one with a right
    child a node not below it. *)
Theorem rbt_neighbour_partial :
  forall cmp s L n k nd, sorted cmp L -> holds s L -> In (n, k) L -> heap s n = Some nd ->
  (left nd <> 0 -> exists g kg, rbt_greatest_lt_or_eq n s = Some (g, s) /\ In (g, kg) L /\ (cmp kg k <= 0)%Z) /\
  (right nd <> 0 -> exists g kg, rbt_least_gt_or_eq n s = Some (g, s) /\ In (g, kg) L /\ (cmp k kg <= 0)%Z).
Proof.
  intros cmp s L n k nd HS H Hin En. apply in_split in Hin as (L1 & L2 & ->).
  destruct (sorted_app _ _ _ _ HS) as (_ & _ & S3 & S4). cbn [snd] in *.
  destruct (holds_Z _ _ H) as (t & b & HZ & EL & _). destruct (inorder_focus _ _ _ _ _ EL) as (C & c & l & r & -> & -> & ->).
  apply Z_plug in HZ. pose proof (Z_focus _ _ _ _ _ _ _ _ HZ) as [Hn En']. rewrite En in En'. injection En' as ->. cbn [left right].
  assert (Hb : (n =? 0) = false) by now apply N.eqb_neq.
  split; intros Hc.
  - destruct l as [|c2 l2 a2 k2 r2]; [now cbn in Hc|]. exists a2, k2. split; [|split].
    + unfold rbt_greatest_lt_or_eq, get_left, load, bind, ret. cbn [rootp] in *. rewrite Hb, En. cbn [left]. now rewrite (proj2 (N.eqb_neq a2 0)).
    + apply in_or_app. left. apply in_or_app. right. cbn [inorder]. apply in_elt.
    + rewrite Forall_forall in S3. apply (S3 (a2, k2)). apply in_or_app. right. cbn [inorder]. apply in_elt.
  - destruct r as [|c2 l2 a2 k2 r2]; [now cbn in Hc|]. exists a2, k2. split; [|split].
    + unfold rbt_least_gt_or_eq, get_right, load, bind, ret. cbn [rootp] in *. rewrite Hb, En. cbn [right]. now rewrite (proj2 (N.eqb_neq a2 0)).
    + apply in_or_app. right. right. apply in_or_app. left. cbn [inorder]. apply in_elt.
    + rewrite Forall_forall in S4. apply (S4 (a2, k2)). apply in_or_app. left. cbn [inorder]. apply in_elt.
Qed.
Print Assumptions rbt_neighbour_partial.
