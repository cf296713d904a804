(** What is said about groups: a set of names *)
From Verif Require Import M_Group.
Local Open Scope Z_scope.

(** Names that the API takes: with the 16 characters of the prefix and the NUL at most 512 *)
Definition fits (n : text) : Prop := Z.of_nat (List.length n) <= 495.
(** Members after some commands: what was added last and not removed *)
Fixpoint is_member (l : list gop) (n : text) (before : Prop) : Prop :=
  match l with
  | [] => before
  | GAdd m :: r => is_member r n (before \/ (m = n /\ fits m))
  | GRm m :: r => is_member r n (before /\ ~ (m = n /\ fits m))
  end.
