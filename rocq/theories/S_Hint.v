(** What update hints mean. *)
From Verif Require Export M_Hint.
Local Open Scope Z_scope.

(** A schedule: a positive interval, an offset below it or none *)
Definition sound (h : hint) : Prop := 0 < fst h <= I64MAX /\ NONE <= snd h < fst h.
(** Two hints say the same: offsets count only if there is an interval *)
Definition same (a b : hint) : Prop := fst a = fst b /\ (fst a <> 0 -> snd a = snd b).
(** What a set announced with a hint, or without one, asks for *)
Definition wanted (v : option hint) : hint := match v with Some h => h | None => (0, NONE) end.
