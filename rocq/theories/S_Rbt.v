(** What a red/black tree should be and do. *)
From Verif Require Export M_Rbt.
From Coq Require Import Sorting.Sorted.
Local Open Scope N_scope.

(** [tree_at h p q L b c]: in memory [h], pointer [p] is the root of a tree whose
    nodes all point back to their parents ([q] is p's parent), with nodes and keys
    [L] from left to right; the colours are those of a red/black tree: no red node
    has a red child and every path down to a leaf has [b] black nodes; [c] is the
    colour of the root. *)
Inductive tree_at (h : N -> option node) : N -> N -> list (N * N) -> nat -> color -> Prop :=
| ta_leaf q : tree_at h 0 q [] 0 Black
| ta_red p q l r k L1 L2 b : p <> 0 -> h p = Some (mkN l r q Red k) ->
    tree_at h l p L1 b Black -> tree_at h r p L2 b Black ->
    tree_at h p q (L1 ++ (p, k) :: L2) b Red
| ta_black p q l r k L1 L2 b c1 c2 : p <> 0 -> h p = Some (mkN l r q Black k) ->
    tree_at h l p L1 b c1 -> tree_at h r p L2 b c2 ->
    tree_at h p q (L1 ++ (p, k) :: L2) (S b) Black.

(** The whole state is a red/black tree holding [L]. *)
Definition holds (s : st) (L : list (N * N)) : Prop :=
  (exists b, tree_at (heap s) (root s) 0 L b Black) /\ NoDup (map fst L) /\ card s = Z.of_nat (length L).

(** A comparator a tree can be used with: the sign is a total preorder. *)
Record preorder (cmp : N -> N -> Z) : Prop := mkPre {
  pre_anti : forall a b, (0 < cmp a b)%Z <-> (cmp b a < 0)%Z;
  pre_trans : forall a b c, (cmp a b <= 0)%Z -> (cmp b c <= 0)%Z -> (cmp a c <= 0)%Z }.

Definition sorted (cmp : N -> N -> Z) (L : list (N * N)) : Prop :=
  StronglySorted (fun x y => (cmp (snd x) (snd y) <= 0)%Z) L.

(** A node on a path of [d] steps down from [p]. *)
Inductive depth (h : N -> option node) : N -> N -> nat -> Prop :=
| dp_here p : p <> 0 -> depth h p p 0
| dp_left p n x d : p <> 0 -> h p = Some n -> depth h (left n) x d -> depth h p x (S d)
| dp_right p n x d : p <> 0 -> h p = Some n -> depth h (right n) x d -> depth h p x (S d).

(** [g] is a greatest node of [L] not above [k], or NULL when there is none *)
Definition is_glb (cmp : N -> N -> Z) (L : list (N * N)) (k : N) (g : N) : Prop :=
  (g = 0 /\ forall e, In e L -> (0 < cmp (snd e) k)%Z) \/
  (exists kg, In (g, kg) L /\ (cmp kg k <= 0)%Z /\ forall e, In e L -> (cmp (snd e) k <= 0)%Z -> (cmp (snd e) kg <= 0)%Z).
(** [g] is a least node of [L] not below [k], or NULL when there is none *)
Definition is_lub (cmp : N -> N -> Z) (L : list (N * N)) (k : N) (g : N) : Prop :=
  (g = 0 /\ forall e, In e L -> (cmp (snd e) k < 0)%Z) \/
  (exists kg, In (g, kg) L /\ (0 <= cmp kg k)%Z /\ forall e, In e L -> (0 <= cmp (snd e) k)%Z -> (cmp kg (snd e) <= 0)%Z).

(** Loop steps that suffice for every operation on a tree of [n] nodes *)
Definition enough (n fuel : nat) : Prop := (2 * Nat.log2 (S n) < fuel)%nat.

(** Histories: the caller inserts node memory of arbitrary content (only the key
    is set), or removes a node. *)
Inductive op := OIns (x : N) (nd : node) | ODel (x : N).
Definition do_op (cmp : N -> N -> Z) (fuel : nat) (o : op) : prog unit :=
  match o with
  | OIns x nd => (fun s => Some (tt, mkSt (root s) (card s) (upd (heap s) x nd))) ;;; rbt_ins cmp fuel x
  | ODel x => rbt_del fuel x
  end.
Fixpoint run (cmp : N -> N -> Z) (fuel : nat) (os : list op) : prog unit :=
  match os with [] => ret tt | o :: os => do_op cmp fuel o ;;; run cmp fuel os end.

(** What the list of nodes should be: insertion after everything not greater *)
Fixpoint place (cmp : N -> N -> Z) (e : N * N) (L : list (N * N)) : list (N * N) :=
  match L with
  | [] => [e]
  | y :: L' => if (0 <? cmp (snd y) (snd e))%Z then e :: L else y :: place cmp e L'
  end.
Definition want (cmp : N -> N -> Z) (o : op) (L : list (N * N)) : list (N * N) :=
  match o with
  | OIns x nd => place cmp (x, key nd) L
  | ODel x => filter (fun e => negb (fst e =? x)) L
  end.
(** The caller's side: insert only non-NULL nodes that are not in the tree, remove
    only nodes that are. *)
Definition legal (o : op) (L : list (N * N)) : Prop :=
  match o with OIns x _ => x <> 0 /\ ~ In x (map fst L) | ODel x => In x (map fst L) end.
Inductive history (cmp : N -> N -> Z) : list (N * N) -> list op -> list (N * N) -> Prop :=
| hi_nil L : history cmp L [] L
| hi_cons L o os L' : legal o L -> history cmp (want cmp o L) os L' -> history cmp L (o :: os) L'.
