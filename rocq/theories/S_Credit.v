(** What send credits and the rate limit should do, independent of how
    M_Credit.v computes it. *)
From Verif Require Export M_Credit.
Local Open Scope N_scope.

Inductive exec {S E : Type} (step : S -> E -> S -> Prop) : S -> list E -> S -> Prop :=
| ex_nil s : exec step s [] s
| ex_snoc s es s' e s'' : exec step s es s' -> step s' e s'' -> exec step s (es ++ [e]) s''.

(** Totals read off the observable trace. *)
Fixpoint sent (es : list event) : N :=
  match es with [] => 0 | Sent _ n :: r => n + sent r | _ :: r => sent r end.
Fixpoint returned (es : list event) : N :=
  match es with [] => 0 | Returned _ n :: r => n + returned r | _ :: r => returned r end.
Fixpoint lost (es : list event) : N :=
  match es with [] => 0 | PublishFailed _ n :: r => n + lost r | _ :: r => lost r end.

(** Bytes of credit in the hands of threads inside a send or release call. *)
Definition held1 (t : tstate) : N :=
  match t with Hold n _ => n | Rel n => n | _ => 0 end.
Definition held (l : list tstate) : N := fold_right (fun t a => held1 t + a) 0 l.

Definition quiescent (s : cstate) : Prop := forall t, In t (threads s) -> t = Idle.

(** Bytes admitted in one second. *)
Fixpoint admitted (sec : N) (es : list revent) : N :=
  match es with
  | [] => 0
  | Admitted s n :: es' => (if N.eqb s sec then n else 0) + admitted sec es'
  | _ :: es' => admitted sec es'
  end.

(** Non-overlapping calls in the order they are made: an acquire of [n] bytes,
    or the release of [n] bytes admitted earlier, each with its clock reading. *)
Inductive rcall := Acq (t n : N) | Relr (t n : N).
Definition rtime (c : rcall) := match c with Acq t _ | Relr t _ => t end.

Fixpoint run_calls (R : N) (s : qstate) (cs : list rcall) : list (rcall * bool) * qstate :=
  match cs with
  | [] => ([], s)
  | Acq t n :: cs' =>
      let (r, s') := q_acquire R s t n in
      let (o, s'') := run_calls R s' cs' in
      ((Acq t n, match r with Some _ => true | None => false end) :: o, s'')
  | Relr t n :: cs' =>
      let (o, s'') := run_calls R (q_release s t n) cs' in ((Relr t n, true) :: o, s'')
  end.

Fixpoint nondecreasing (t0 : N) (cs : list rcall) : Prop :=
  match cs with [] => True | c :: cs' => t0 <= rtime c /\ nondecreasing (rtime c) cs' end.

(** Bytes admitted at second [sec] and bytes given back at second [sec]. *)
Fixpoint adm (sec : N) (o : list (rcall * bool)) : N :=
  match o with
  | [] => 0
  | (Acq t n, true) :: o' => (if N.eqb t sec then n else 0) + adm sec o'
  | _ :: o' => adm sec o'
  end.
Fixpoint giv (sec : N) (o : list (rcall * bool)) : N :=
  match o with
  | [] => 0
  | (Relr t n, _) :: o' => (if N.eqb t sec then n else 0) + giv sec o'
  | _ :: o' => giv sec o'
  end.
