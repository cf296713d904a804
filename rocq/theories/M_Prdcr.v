(** Model of the connection of a producer, ldms/src/ldmsd/ldmsd_prdcr.c:601-818, 855-926, 992-1085.

    Each step is one critical section under the producer's lock (or the scheduler calling
    or leaving the task function).  The endpoints behave as C26 states: a connecting
    endpoint gets either CONNECTED and later DISCONNECTED, or one terminal event.  The
    task is M_Task.v with nothing between a scheduler taking the event and locking the
    task, and with events that can be added.  Access checks, permissions, the sets
    (M_PrdSet.v), logging and the stream subscriptions are left out; allocations succeed. *)
From Verif Require Export Base.
From Coq Require Export List ZArith Bool.
Export ListNotations.

(** ldmsd.h: enum ldmsd_prdcr_state *)
Inductive cstate := CStopped | CDisc | CConnecting | CConn | CStopping.
(** LDMSD_PRDCR_TYPE_ACTIVE (or BRIDGE), _PASSIVE *)
Inductive kind := Active | Passive.
(** ldmsd.c:809-956: the task; [TRunning b]: with LDMSD_TASK_F_STOP *)
Inductive task := TStopped | TStarted | TRunning (stop : bool).
(** The thread in prdcr_task_cb: none, before the lock, in prdcr_connect of a passive
    producer without the lock, behind the last unlock *)
Inductive tpc := PNone | PCalled | PGap (i : nat) | PReturn.
(** The endpoints: of a passive producer [EPeer] is a connection the peer made that the
    producer does not know yet *)
Inductive ep := EPeer | EConnecting | EUp | EGone.
(** [joiners]: threads in ldmsd_task_join of __ldmsd_prdcr_stop; [finals]: behind it *)
Record prdcr := mkP { cs : cstate; xp : option nat; tk : task; pc : tpc; eps : list ep; joiners : nat; finals : nat }.
(** 855-926 ldmsd_prdcr_new_with_auth *)
Definition new : prdcr := mkP CStopped None TStopped PNone [] 0 0.

Inductive step :=
| UStart                       (** __ldmsd_prdcr_start *)
| UStop                        (** __ldmsd_prdcr_stop up to the unlock before the join *)
| UJoin                        (** ... its ldmsd_task_join returns *)
| UFinal                       (** ... the rest *)
| TFire                        (** the scheduler calls prdcr_task_cb *)
| TRun (ok : bool)             (** prdcr_task_cb with the lock; [ok]: ldms_xprt_rail_new and ldms_xprt_connect succeed *)
| TAccept                      (** prdcr_connect of a passive producer: the call of prdcr_connect_cb *)
| TLeave                       (** task_cb_fn after the function *)
| EConnected (i : nat)         (** prdcr_connect_cb with LDMS_XPRT_EVENT_CONNECTED *)
| ETerm (i : nat)              (** ... with DISCONNECTED, ERROR or REJECTED *)
| EPeerIn.                     (** a peer connects (passive) *)
(** The answer of a command: 0 or EBUSY; nothing; not possible now *)
Inductive ans := AZero | ABusy | ANone | ABlocked.
(** [Crash]: an assertion fails, NULL or freed memory is used *)
Inductive res := Ok (a : ans) (p : prdcr) | Crash.

(** ldmsd.c:883-900, 920-948 *)
Definition task_stop (t : task) : task := match t with TStopped | TStarted => TStopped | TRunning _ => TRunning true end.
Definition task_start (t : task) : task := match t with TStopped => TStarted | t => t end.
Fixpoint upd (l : list ep) (i : nat) (e : ep) : list ep :=
  match l, i with [], _ => [] | _ :: l, O => e :: l | x :: l, S i => x :: upd l i e end.
(** ldms_xprt_by_remote_sin: a connection of the peer, if there is one *)
Fixpoint peer (n : nat) (l : list ep) : option nat :=
  match l with [] => None | EPeer :: _ => Some n | _ :: l => peer (S n) l end.
(** 606-631 __agg_routine, CONNECTED.  If ldms_xprt_dir fails the endpoint is closed, which
    is followed by its terminal event. *)
Definition connected (p : prdcr) : prdcr := mkP CConn (xp p) (task_stop (tk p)) (pc p) (eps p) (joiners p) (finals p).
(** 669-745 prdcr_connect_cb from reset_prdcr on *)
Definition reset (p : prdcr) : res :=
  match cs p with
  | CStopping => Ok ANone (mkP CStopped None (tk p) (pc p) (eps p) (joiners p) (finals p))
  | CDisc | CConnecting | CConn => Ok ANone (mkP CDisc None (task_start (tk p)) (pc p) (eps p) (joiners p) (finals p))
  | CStopped => Crash
  end.
(** 751-796 prdcr_connect *)
Definition connect (k : kind) (ok : bool) (p : prdcr) : res :=
  match xp p with
  | Some _ => Crash
  | None =>
      match k with
      | Active =>
          if ok then Ok ANone (mkP CConnecting (Some (length (eps p))) (tk p) PReturn (eps p ++ [EConnecting]) (joiners p) (finals p))
          else Ok ANone (mkP CDisc None (tk p) PReturn (eps p) (joiners p) (finals p))
      | Passive =>
          match peer 0 (eps p) with
          | Some i => Ok ANone (mkP (cs p) (Some i) (tk p) (PGap i) (upd (eps p) i EUp) (joiners p) (finals p))
          | None => Ok ANone (mkP (cs p) None (tk p) PReturn (eps p) (joiners p) (finals p))
          end
      end
  end.
Definition do (k : kind) (s : step) (p : prdcr) : res :=
  match s with
  | UStart => (* 992-1014 *)
      match cs p with
      | CStopped => Ok AZero (mkP CDisc (xp p) (task_start (tk p)) (pc p) (eps p) (joiners p) (finals p))
      | _ => Ok ABusy p
      end
  | UStop => (* 1037-1062 *)
      match cs p with
      | CStopped => Ok AZero p
      | CStopping => Ok ABusy p
      | _ => Ok AZero (mkP CStopping (xp p) (task_stop (tk p)) (pc p) (eps p) (S (joiners p)) (finals p))
      end
  | UJoin => (* 1063 *)
      match joiners p, tk p with
      | S n, TStopped => Ok ANone (mkP (cs p) (xp p) (tk p) (pc p) (eps p) n (S (finals p)))
      | _, _ => Ok ABlocked p
      end
  | UFinal => (* 1064-1070 *)
      match finals p with
      | S n => Ok ANone (mkP (match xp p with None => CStopped | Some _ => cs p end) (xp p) (tk p) (pc p) (eps p) (joiners p) n)
      | O => Ok ABlocked p
      end
  | TFire =>
      match tk p, pc p with
      | TStarted, PNone => Ok ANone (mkP (cs p) (xp p) (TRunning false) PCalled (eps p) (joiners p) (finals p))
      | _, _ => Ok ABlocked p
      end
  | TRun ok => (* 798-818 *)
      match pc p with
      | PCalled =>
          match cs p with
          | CStopped | CStopping | CConn => Ok ANone (mkP (cs p) (xp p) (task_stop (tk p)) PReturn (eps p) (joiners p) (finals p))
          | CDisc => connect k ok p
          | CConnecting => Ok ANone (mkP (cs p) (xp p) (tk p) PReturn (eps p) (joiners p) (finals p))
          end
      | _ => Ok ABlocked p
      end
  | TAccept => (* 783-791: the endpoint, or the NULL, of the time before the lock *)
      match pc p with
      | PGap i =>
          match nth_error (eps p) i with
          | Some EGone => Crash
          | _ => Ok ANone (let q := connected p in mkP (cs q) (xp q) (tk q) PReturn (eps q) (joiners q) (finals q))
          end
      | _ => Ok ABlocked p
      end
  | TLeave =>
      match pc p, tk p with
      | PReturn, TRunning stop => Ok ANone (mkP (cs p) (xp p) (if stop then TStopped else TStarted) PNone (eps p) (joiners p) (finals p))
      | _, _ => Ok ABlocked p
      end
  | EConnected i =>
      match nth_error (eps p) i with
      | Some EConnecting => Ok ANone (connected (mkP (cs p) (xp p) (tk p) (pc p) (upd (eps p) i EUp) (joiners p) (finals p)))
      | _ => Ok ABlocked p
      end
  | ETerm i =>
      match nth_error (eps p) i with
      | Some EConnecting | Some EUp => reset (mkP (cs p) (xp p) (tk p) (pc p) (upd (eps p) i EGone) (joiners p) (finals p))
      | _ => Ok ABlocked p
      end
  | EPeerIn => match k with Passive => Ok ANone (mkP (cs p) (xp p) (tk p) (pc p) (eps p ++ [EPeer]) (joiners p) (finals p)) | Active => Ok ABlocked p end
  end.
Fixpoint run (k : kind) (l : list step) (p : prdcr) : option prdcr :=
  match l with
  | [] => Some p
  | s :: l => match do k s p with Ok _ p => run k l p | Crash => None end
  end.
