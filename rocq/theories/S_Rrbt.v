(** What a relocatable red/black tree should be and do. *)
From Verif Require Export M_Rrbt S_Rbt.
Local Open Scope N_scope.

(** A region of [size] bytes at [base]: it does not wrap around and its offsets fit
    the 63 bits of the field left. *)
Definition region (base size : N) : Prop := base + size <= W64 /\ size <= W63.

(** The region at [base] holds a red/black tree of the nodes [L] (offset and key),
    all inside the region and none at offset 0. *)
Definition rholds (base size : N) (s : st) (L : list (N * N)) : Prop :=
  (exists b, tree_at (fun o => heap s (base + o)) (root s) 0 L b Black) /\ NoDup (map fst L) /\
  Forall (fun e => fst e < size) L.

(** Where the node at an offset is; offset 0 stands for no node. *)
Definition addr (base o : N) : N := if o =? 0 then 0 else base + o.

(** Histories: insert a node of arbitrary content at an offset, remove the node at
    an offset, or copy the region to a new base.  [g] is what all memory outside
    the new region holds afterwards: anything. *)
Inductive rop := RIns (o : N) (nd : node) | RDel (o : N) | RMove (base' : N) (g : N -> option node).
Definition move (base size base' : N) (g : N -> option node) (s : st) : st :=
  mkSt (root s) (card s) (fun a => if (base' <=? a) && (a <? base' + size) then heap s (base + (a - base')) else g a).
Definition rdo (cmp : N -> N -> Z) (fuel : nat) (size : N) (op : rop) (bs : N * st) : option (N * st) :=
  let '(base, s) := bs in
  match op with
  | RIns o nd =>
    match rrbt_ins base cmp fuel (base + o) (mkSt (root s) (card s) (upd (heap s) (base + o) nd)) with
    | Some (_, s') => Some (base, s') | None => None end
  | RDel o => match rrbt_del base fuel (base + o) s with Some (_, s') => Some (base, s') | None => None end
  | RMove base' g => Some (base', move base size base' g s)
  end.
Fixpoint rrun (cmp : N -> N -> Z) (fuel : nat) (size : N) (ops : list rop) (bs : N * st) : option (N * st) :=
  match ops with
  | [] => Some bs
  | op :: ops => match rdo cmp fuel size op bs with Some bs' => rrun cmp fuel size ops bs' | None => None end
  end.
Definition rwant (cmp : N -> N -> Z) (op : rop) (L : list (N * N)) : list (N * N) :=
  match op with
  | RIns o nd => place cmp (o, key nd) L
  | RDel o => filter (fun e => negb (fst e =? o)) L
  | RMove _ _ => L
  end.
Definition rlegal (size : N) (op : rop) (L : list (N * N)) : Prop :=
  match op with
  | RIns o _ => 0 < o < size /\ ~ In o (map fst L)
  | RDel o => In o (map fst L)
  | RMove base' _ => region base' size
  end.
Inductive rhistory (cmp : N -> N -> Z) (size : N) : list (N * N) -> list rop -> list (N * N) -> Prop :=
| rh_nil L : rhistory cmp size L [] L
| rh_cons L op ops L' : rlegal size op L -> rhistory cmp size (rwant cmp op L) ops L' -> rhistory cmp size L (op :: ops) L'.

(** Two memories are copies of each other on the offsets [T] at two bases: same
    root offset, same contents. *)
Definition copies (T : N -> Prop) (b1 : N) (s1 : st) (b2 : N) (s2 : st) : Prop :=
  root s1 = root s2 /\ forall o, T o -> heap s1 (b1 + o) = heap s2 (b2 + o).
(** The offsets reachable stay in [T] (of anything, tree or not). *)
Definition closed (T : N -> Prop) (base : N) (s : st) : Prop :=
  let T0 o := o = 0 \/ T o in
  T0 (root s) /\ forall o n, T o -> heap s (base + o) = Some n -> T0 (left n) /\ T0 (right n) /\ T0 (parent n).
(** Two pointers to the same place relative to two bases, or both NULL *)
Definition same (b1 b2 p1 p2 : N) : Prop := (p1 = 0 /\ p2 = 0) \/ exists o, 0 < o /\ p1 = b1 + o /\ p2 = b2 + o.

(** Any use of the tree: the calls of rrbt.h, on the node at an offset *)
Inductive call :=
| CIns (o : N) | CDel (o : N) | CFind (k : N) | CGlb (k : N) | CLub (k : N) | CMin | CMax
| CSucc (o : N) | CPred (o : N) | CVerify | CGle (o : N) | CLge (o : N).
Definition on_node (T : N -> Prop) (c : call) : Prop :=
  match c with CIns o | CDel o | CSucc o | CPred o | CGle o | CLge o => T o | _ => True end.
Definition nothing (m : prog unit) : prog N := m ;;; ret 0.
Definition do_call (base : N) (cmp : N -> N -> Z) (fuel : nat) (c : call) : prog N :=
  match c with
  | CIns o => nothing (rrbt_ins base cmp fuel (base + o))
  | CDel o => nothing (rrbt_del base fuel (base + o))
  | CFind k => rrbt_find base cmp fuel k
  | CGlb k => rrbt_find_glb base cmp fuel k
  | CLub k => rrbt_find_lub base cmp fuel k
  | CMin => rrbt_min base fuel
  | CMax => rrbt_max base fuel
  | CSucc o => rrbn_succ base fuel (base + o)
  | CPred o => rrbn_pred base fuel (base + o)
  | CVerify => nothing (rrbt_verify base fuel)
  | CGle o => rrbt_greatest_lt_or_eq base (base + o)
  | CLge o => rrbt_least_gt_or_eq base (base + o)
  end.
Fixpoint do_calls (base : N) (cmp : N -> N -> Z) (fuel : nat) (cs : list call) : prog (list N) :=
  match cs with
  | [] => ret []
  | c :: cs => r <- do_call base cmp fuel c ;; l <- do_calls base cmp fuel cs ;; ret (r :: l)
  end.
