(** What tasks should do. *)
From Verif Require Export M_Task.

(** Runs: the answers and the state *)
Fixpoint trun (l : list tstep) (t : task) : option (list tans * task) :=
  match l with
  | [] => Some ([], t)
  | s :: l => match tstep_do s t with
              | Some (a, t') => match trun l t' with Some (r, t'') => Some (a :: r, t'') | None => None end
              | None => None
              end
  end.
(** How often the function of the task was called in a run *)
Fixpoint calls (l : list tstep) (r : list tans) : nat :=
  match l, r with
  | Enter _ _ :: l, Done :: r => S (calls l r)
  | _ :: l, _ :: r => calls l r
  | _, _ => O
  end.

(** Runs in which nothing comes between the scheduler taking a due event and the
    task being locked, and in which events can be added: *)
Inductive mstep := MStart (w : nat) | MStop | MResched | MJoin | MRun (w : nat) | MLeave (w : nat).
Definition expand1 (m : mstep) : list tstep :=
  match m with
  | MStart w => [Start w true] | MStop => [Stop] | MResched => [Resched true] | MJoin => [Join]
  | MRun w => [Take w; Enter w true] | MLeave w => [Leave w]
  end.
Definition expand (l : list mstep) : list tstep := flat_map expand1 l.
(** Nobody starts or reschedules the task *)
Definition leaves_alone (l : list mstep) : Prop := forall m, In m l -> match m with MStart _ | MResched => False | _ => True end.
