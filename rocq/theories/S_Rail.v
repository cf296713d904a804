(** What is expected of the life cycle of a rail, in terms of the calls of the
    application, the events of the endpoints, and what the application sees. *)
From Verif Require Export M_Rail.

(** The rules of the transports, of the threads and of the application.  An endpoint
    that was started reports one of CONNECTED, REJECTED, ERROR; once connected it
    reports data and then DISCONNECTED, one event after the other.  The application
    uses the rail while it has its reference. *)
Definition legal (s : sys) (l : label) : Prop :=
  match l with
  | Connect _ => has_ref s = true /\ passive (rl s) = false
  | Close | Put => has_ref s = true
  | Event i e =>
      (i < n_eps (rl s))%nat /\ at_pc s i = Idle /\
      match e with
      | XConnected | XRejected | XError => tp s i = TTrying
      | XDisconnected | XData => tp s i = TUp
      end
  | Call i => exists a rm, at_pc s i = Calling a rm
  | End i => exists rm, at_pc s i = Ending rm
  | Find => in_tree (rl s) = true
  | Make _ _ _ => (0 < found s)%nat
  | Accept i _ => made s i = true
  end.
Fixpoint legal_run (s : sys) (ls : list label) : Prop :=
  match ls with
  | [] => True
  | l :: ls => legal s l /\ match step s l with Ok s' _ => legal_run s' ls | Crash _ => True end
  end.

(** ** On histories *)
Definition ev (i : nat) (e : xev) (h : list item) : Prop := In (Did (Event i e)) h.
Definition some_ev (e : xev) (h : list item) : Prop := exists i, ev i e h.
Definition final (e : xev) : Prop := match e with XRejected | XError | XDisconnected => True | _ => False end.
(** the terminal events of the application *)
Definition terminal (o : item) : bool := match o with Saw (OApp (XRejected | XError | XDisconnected)) => true | _ => false end.
Definition told (o : item) : bool := match o with Saw (OApp XConnected) => true | _ => false end.
Definition closes (i : nat) (o : item) : bool := match o with Saw (OClose j) => (i =? j)%nat | _ => false end.
Definition number (p : item -> bool) (h : list item) : nat := length (filter p h).

(** All endpoints were connected at one time, and nothing had gone wrong and the
    application had not closed the rail until then. *)
Definition clean (h : list item) : Prop :=
  ~ In (Did Close) h /\ ~ some_ev XRejected h /\ ~ some_ev XError h /\ ~ some_ev XDisconnected h.
Definition joined (n : nat) (h : list item) : Prop :=
  exists g1 g2, h = g1 ++ g2 /\ clean g1 /\ forall i, (i < n)%nat -> ev i XConnected g1.
(** The first call of connect did not start all the endpoints. *)
Definition failed_start (n : nat) (h : list item) : Prop :=
  exists a o b, h = a ++ Did (Connect o) :: b /\ (forall o', ~ In (Did (Connect o')) a) /\ exists i, (i < n)%nat /\ o i <> Starts.
(** The fate of the rail is decided *)
Definition settled (n : nat) (h : list item) : Prop :=
  In (Did Close) h \/ failed_start n h \/ some_ev XRejected h \/ some_ev XError h \/ joined n h.
(** ... when the last endpoint to finish did *)
Definition settled_last (n : nat) (h : list item) : Prop :=
  exists g1 i e g2, h = g1 ++ Did (Event i e) :: g2 /\ final e /\ (forall j f, final f -> ~ ev j f g2) /\ settled n (g1 ++ [Did (Event i e)]).
(** Since the last rejected endpoint, no endpoint had an error and the application
    has not closed the rail. *)
Definition rejected_last (h : list item) : Prop :=
  exists g1 i g2, h = g1 ++ Did (Event i XRejected) :: g2 /\ ~ In (Did Close) g2 /\ ~ some_ev XError g2.
(** Which terminal event tells about the endpoints' fates *)
Definition verdict (h : list item) (t : xev) : Prop :=
  (rejected_last h /\ t = XRejected) \/
  (~ rejected_last h /\ some_ev XError h /\ t = XError) \/
  (~ rejected_last h /\ ~ some_ev XError h /\ some_ev XRejected h /\ t = XRejected) \/
  (~ some_ev XError h /\ ~ some_ev XRejected h /\ t = XDisconnected).

(** Every endpoint that was started has finished, every callback has returned *)
Definition finished (s : sys) : Prop := forall i, (tp s i = TNone \/ tp s i = TDone) /\ at_pc s i = Idle /\ made s i = false.
Definition quiet (s : sys) : Prop := forall i, at_pc s i = Idle.
(** A rail of either kind *)
Definition born (p : bool) (n : nat) : sys := if p then passive_sys n else active_sys n.
(** An endpoint has been connected and not disconnected *)
Definition up (i : nat) (h : list item) : Prop := ev i XConnected h /\ ~ ev i XDisconnected h.
(** The terminal event that is expected when the last endpoint finished *)
Definition last_verdict (h : list item) (t : xev) : Prop :=
  exists g1 i e g2, h = g1 ++ Did (Event i e) :: g2 /\ final e /\ (forall j f, final f -> ~ ev j f g2) /\ verdict (g1 ++ [Did (Event i e)]) t.
