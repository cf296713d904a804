(** What is said about storage policies, apart from the model's steps *)
From Verif Require Import M_Strgp.

(** Indices that are those of these names *)
Definition named (ms : list nat) (idx names : list nat) : Prop := map (nth_error ms) idx = map Some names.
(** All sets that the policy selects have the metrics [M], the store opens, and the metrics
    asked for are among them *)
Definition smooth_op (M : list nat) (o : op) : Prop :=
  match o with
  | Start ok => ok = true
  | Ready _ ms b ok => ok = true /\ (b = true -> ms = M)
  | MetricAdd m => In m M
  | _ => True
  end.
Definition smooth (M : list nat) (l : list op) : Prop := forall o, In o l -> smooth_op M o.
(** No metrics are asked for: the policy is for all of them *)
Definition no_list (l : list op) : Prop := forall m, ~ In (MetricAdd m) l /\ ~ In (MetricDel m) l.
(** How many sets the policy stores *)
Definition stored_sets (s : state) : nat := length (filter p_ref (sets s)).
(** No thread can go on, and some have not finished *)
Definition deadlock (c : conc) : Prop := (forall t, go t c = None) /\ exists t a r, nth_error (todo c) t = Some (a :: r).
