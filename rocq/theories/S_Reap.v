(** What the thread that reclaims deleted sets should do. *)
From Verif Require Export M_Reap.
From Coq Require Export Sorted.
Local Open Scope Z_scope.

Definition tree (l : list dset) : Prop := StronglySorted (fun a b => addr a < addr b) l.
(** Its grace period is over and no peer is connected *)
Definition expired (timeout now : Z) (d : dset) : Prop := timeout <= now - del_time d.
Definition apart (d : dset) : Prop := ~ In true (lookers d) /\ ~ In true (pushers d).
Definition enough (fuel : nat) (l : list dset) : Prop := forall d, In d l -> (length (lookers d) < fuel /\ 2 <= fuel)%nat.
