(** What holds of a set of a producer. *)
From Verif Require Export M_PrdSet.

Fixpoint along (g : bool) (Q : pset -> step -> Prop) (l : list step) (p : pset) : Prop :=
  match l with
  | [] => True
  | s :: l => Q p s /\ match do g s p with Ok p => along g Q l p | Blocked => along g Q l p | Crash => True end
  end.
(** Who may still use the set: the tree (twice), the hint tree, callbacks, holders *)
Definition holders (p : pset) : nat := (if tree p then 2 else 0) + (if hint p then 1 else 0) + lk p + up p + infos p.
(** No thread uses the set without holding it *)
Definition quiet (p : pset) : Prop := uses p = 0 /\ finds p = 0.
(** The orders of steps the code is safe in: the set is not taken away from a thread that
    uses it without reference, and no member of a group is looked up by an update *)
Definition calm (p : pset) (s : step) : Prop :=
  match s with Reset => quiet p | MSched true => st p <> SStart | _ => True end.
