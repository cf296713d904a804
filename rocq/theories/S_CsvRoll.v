(** What is said about the rollover of CSV files *)
From Verif Require Import M_CsvRoll.
Open Scope Z_scope.

(** Instants that follow each other at a distance, and all are so many seconds after a multiple of the period *)
Fixpoint every (d : Z) (l : list Z) : Prop := match l with x :: (y :: _) as r => y = x + d /\ every d r | _ => True end.
Definition at_phase (period phase : Z) (l : list Z) : Prop := forall x, In x l -> x mod period = phase.
(** The documented time of type 2, and the first one of type 5 each day: [rollover] seconds after midnight *)
Definition daily (over x : Z) : Prop := x mod DAY = over.
(** Rolled by time *)
Definition timed (c : conf) : Prop := rtype c = 1 \/ rtype c = 2 \/ rtype c = 5.
Definition delays (m : Z) (ds : list Z) : Prop := forall d, In d ds -> 0 <= d <= m.
