(** What timers should do. *)
From Verif Require Export M_Timer.
Local Open Scope Z_scope.

(** [d] is an instant of the schedule with this period and phase *)
Definition in_phase (period phase d : Z) : Prop := exists k, d = k * period + phase.
(** [d] is the first instant of the schedule after [now] *)
Definition next_instant (now period phase d : Z) : Prop :=
  in_phase period phase d /\ now < d /\ forall e, in_phase period phase e -> now < e -> d <= e.
(** The order of schedules: by interval, then those without offset, then by offset *)
Definition sched_lt (a b : sched) : Prop :=
  fst a < fst b \/ fst a = fst b /\
  match snd a, snd b with None, Some _ => True | Some x, Some y => x < y | _, None => False end.
