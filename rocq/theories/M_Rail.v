(** Model of the life cycle of a rail, ldms/src/core/ldms_rail.c.

    A rail bundles n endpoints (transports) into one connection.  An active rail is
    connected by ldms_xprt_connect; a passive one is made when the first connection
    request of a peer's rail arrives, and is found in a tree by the later ones.

    The events of one endpoint are delivered one after another; those of different
    endpoints, and the calls of the application, run concurrently.  A step is one
    critical section under the mutex of the rail (or of the tree), or one call of
    the application's callback. *)
From Verif Require Export Base.
From Coq Require Export List ZArith.
Export ListNotations.

(** ldms_rail.h:77-87 enum ldms_rail_ep_state: of a rail and of an endpoint *)
Inductive rst := INIT | LISTENING | ACCEPTING | CONNECTING | CONNECTED | PEER_CLOSE | CLOSE | ERROR | REJECTED.
(** enum ldms_xprt_event_type; [XData]: RECV, SET_DELETE, SEND_COMPLETE and
    SEND_CREDIT_DEPOSITED, which the rail treats alike. *)
Inductive xev := XConnected | XRejected | XError | XDisconnected | XData.

(** struct ldms_rail_s and struct ldms_rail_ep_s, the fields of the life cycle.
    [ep_x i]: eps[i].ep is set.  The counters are int in the code; they stay between
    0 and n_eps.  [in_tree]: r->rbn is in __passive_rail_rbt. *)
Record rail := mkRail {
  passive : bool; st : rst; n_eps : nat; ep_st : nat -> rst; ep_x : nat -> bool;
  connected_eps : Z; connecting_eps : Z; rejected_eps : Z; connreq_eps : Z; conn_error_eps : Z;
  in_tree : bool; refs : Z }.
Definition set_st (r : rail) (x : rst) : rail := mkRail (passive r) x (n_eps r) (ep_st r) (ep_x r) (connected_eps r) (connecting_eps r) (rejected_eps r) (connreq_eps r) (conn_error_eps r) (in_tree r) (refs r).
Definition set_ep (r : rail) (f : nat -> rst) : rail := mkRail (passive r) (st r) (n_eps r) f (ep_x r) (connected_eps r) (connecting_eps r) (rejected_eps r) (connreq_eps r) (conn_error_eps r) (in_tree r) (refs r).
Definition set_x (r : rail) (f : nat -> bool) : rail := mkRail (passive r) (st r) (n_eps r) (ep_st r) f (connected_eps r) (connecting_eps r) (rejected_eps r) (connreq_eps r) (conn_error_eps r) (in_tree r) (refs r).
(** add to connected_eps, connecting_eps, rejected_eps, connreq_eps, conn_error_eps *)
Definition count (r : rail) (c g j q e : Z) : rail := mkRail (passive r) (st r) (n_eps r) (ep_st r) (ep_x r) (connected_eps r + c) (connecting_eps r + g) (rejected_eps r + j) (connreq_eps r + q) (conn_error_eps r + e) (in_tree r) (refs r).
Definition ref_add (r : rail) (d : Z) : rail := mkRail (passive r) (st r) (n_eps r) (ep_st r) (ep_x r) (connected_eps r) (connecting_eps r) (rejected_eps r) (connreq_eps r) (conn_error_eps r) (in_tree r) (refs r + d).
Definition set_tree (r : rail) (b : bool) : rail := mkRail (passive r) (st r) (n_eps r) (ep_st r) (ep_x r) (connected_eps r) (connecting_eps r) (rejected_eps r) (connreq_eps r) (conn_error_eps r) b (refs r).

Definition is (a b : rst) : bool :=
  match a, b with
  | INIT, INIT | LISTENING, LISTENING | ACCEPTING, ACCEPTING | CONNECTING, CONNECTING | CONNECTED, CONNECTED
  | PEER_CLOSE, PEER_CLOSE | CLOSE, CLOSE | ERROR, ERROR | REJECTED, REJECTED => true
  | _, _ => false
  end.

(** ldms_rail.c:189-266 ldms_xprt_rail_new, for n > 0 *)
Definition rail_new (n : nat) : rail := mkRail false INIT n (fun _ => INIT) (fun _ => false) 0 0 0 0 0 false 1.
(** 598-645, the passive rail of a new identity *)
Definition rail_passive (n : nat) : rail := mkRail true ACCEPTING n (fun _ => INIT) (fun _ => false) 0 0 0 (Z.of_nat n) 0 true 2.

(** The endpoints that are closed by __rail_cut (284-300) and by the loop of
    __rail_close (896-902), in the order of the calls of ldms_xprt_close *)
Definition to_close (r : rail) : list nat := filter (fun i => is (ep_st r i) CONNECTED) (seq 0 (n_eps r)).
Definition cut (r : rail) : rail := set_ep r (fun i => if (i <? n_eps r)%nat && is (ep_st r i) CONNECTED then ERROR else ep_st r i).

(** 303-340 __rail_ev_prep *)
Definition ev_prep (r : rail) : rail * option xev :=
  let zero := (connected_eps r =? 0)%Z && (connecting_eps r =? 0)%Z in
  match st r with
  | CONNECTING | ACCEPTING => if (connected_eps r =? Z.of_nat (n_eps r))%Z then (set_st r CONNECTED, Some XConnected) else (r, None)
  | REJECTED => (r, if passive r then None else if zero then Some XRejected else None)
  | ERROR => (r, if zero then Some (if negb (conn_error_eps r =? 0)%Z then XError else if negb (rejected_eps r =? 0)%Z then XRejected else XDisconnected) else None)
  | _ => (r, None)
  end.
(** passive_rail_rm_trigger, 450, 470, 491 *)
Definition rm_trigger (r : rail) : bool := passive r && (connecting_eps r =? 0)%Z && (connected_eps r =? 0)%Z.

(** 363-506 __rail_cb for the endpoint [i] of a rail that is not listening, up to
    the call of the application: the rail, the event for the application, whether
    the rail is to leave the tree, and the endpoints to close.  [None]: an assert
    fails.  The reference "rail_cb" is taken.  The references are counted together
    with the critical section; the code puts some of them just before it, while it
    holds "rail_cb". *)
Definition rail_cb (r0 : rail) (i : nat) (e : xev) : option (rail * option xev * bool * list nat) :=
  let r := ref_add r0 1 in
  match e with
  | XConnected =>
      (* ref_put "ldms_accepting" or "ldms_connect", ref_get "ldms_connected" *)
      let r := count (set_ep r (fupd (ep_st r) i CONNECTED)) 1 (-1) 0 0 0 in
      match st r with
      | CONNECTING | ACCEPTING => let '(r, a) := ev_prep r in Some (r, a, false, [])
      | ERROR => let '(r, a) := ev_prep (set_ep r (fupd (ep_st r) i ERROR)) in Some (r, a, false, [i])
      | _ => None
      end
  | XRejected =>
      if is (ep_st r i) CONNECTING || is (ep_st r i) ACCEPTING then
        let r := ref_add r (-1) in
        let r := count r 0 (-1) 1 0 0 in
        let r := set_ep (set_st r REJECTED) (fupd (ep_st r) i REJECTED) in
        let '(r', a) := ev_prep (cut r) in Some (r', a, rm_trigger r', to_close r)
      else None
  | XError =>
      if is (ep_st r i) CONNECTING || is (ep_st r i) ACCEPTING then
        let r := ref_add r (-1) in
        let r := count r 0 (-1) 0 0 1 in
        let r := set_ep (set_st r ERROR) (fupd (ep_st r) i ERROR) in
        let '(r', a) := ev_prep (cut r) in Some (r', a, rm_trigger r', to_close r)
      else None
  | XDisconnected =>
      let r := if is (st r) CONNECTED then set_st r ERROR else r in
      let r := count r (-1) 0 0 0 0 in
      match ep_st r i with
      | CONNECTED | ERROR =>
          let r := set_ep r (fupd (ep_st r) i (if is (ep_st r i) CONNECTED then CLOSE else ERROR)) in
          let '(r', a) := ev_prep (cut r) in Some (ref_add r' (-1), a, rm_trigger r', to_close r)
      | _ => None
      end
  | XData => Some (r, Some XData, false, [])
  end.

(** How the connection of one endpoint starts in __rail_connect: no transport could
    be made, __rail_ep_connect fails, or it goes on. *)
Inductive start := NoXprt | Fails | Starts.
(** 792-829 the loop and the error path of __rail_connect: endpoints [k], [k+1], ...
    ([m] of them) *)
Fixpoint connect_from (m k : nat) (o : nat -> start) (r : rail) : rail * bool :=
  match m with
  | O => (r, true)
  | S m' =>
      match o k with
      | NoXprt => (set_st r ERROR, false)
      | Fails => (set_st (set_x (set_ep r (fupd (ep_st r) k ERROR)) (fupd (ep_x r) k true)) ERROR, false)
      | Starts => connect_from m' (S k) o (count (ref_add (set_x (set_ep r (fupd (ep_st r) k CONNECTING)) (fupd (ep_x r) k true)) 1) 0 1 0 0 0)
      end
  end.
(** 781-830 __rail_connect: whether it returns 0 *)
Definition rail_connect (r : rail) (o : nat -> start) : rail * bool :=
  if is (st r) INIT then connect_from (n_eps r) 0 o (set_st r CONNECTING) else (r, false).
(** 890-904 __rail_close *)
Definition rail_close (r : rail) : rail * list nat := (cut (set_st r ERROR), to_close r).

(** 650-712 of __rail_zap_handle_conn_req, for the rail found in the tree: the
    checks and the section that makes the endpoint.  [m]: the peer's n_eps.  The
    result tells whether an endpoint was made. *)
Definition conn_make (r : rail) (i m : nat) (mem : bool) : rail * bool :=
  if negb (m =? n_eps r)%nat then (r, false)
  else if negb (i <? n_eps r)%nat then (r, false)
  else if ep_x r i then (r, false)
  else if (connreq_eps r =? 0)%Z then (r, false)
  else let r := count r 0 0 0 (-1) 0 in
    if mem then (set_x (set_ep (count r 0 1 0 0 0) (fupd (ep_st r) i ACCEPTING)) (fupd (ep_x r) i true), true)
    else (r, false).
(** 739-745 err_1 *)
Definition conn_undo (r : rail) (i : nat) : rail :=
  let r := count r 0 (-1) 0 0 0 in set_x (set_ep r (fupd (ep_st r) i ERROR)) (fupd (ep_x r) i false).

(** Where the delivery of an event on an endpoint is: none, before the call of the
    application, after it *)
Inductive pc := Idle | Calling (a : option xev) (rm : bool) | Ending (rm : bool).
(** What the transport of an endpoint does: not started, started, connected,
    finished *)
Inductive tphase := TNone | TTrying | TUp | TDone.
(** [found]: requests that have found the rail and have not locked it.  [made i]: a
    request has made the endpoint and not yet accepted it.  [has_ref]: the application
    has a reference. *)
Record sys := mkSys { rl : rail; at_pc : nat -> pc; tp : nat -> tphase; found : nat; made : nat -> bool; has_ref : bool }.
Definition set_rl (s : sys) (r : rail) : sys := mkSys r (at_pc s) (tp s) (found s) (made s) (has_ref s).
Definition set_pc (s : sys) (i : nat) (x : pc) : sys := mkSys (rl s) (fupd (at_pc s) i x) (tp s) (found s) (made s) (has_ref s).
Definition set_tp (s : sys) (i : nat) (x : tphase) : sys := mkSys (rl s) (at_pc s) (fupd (tp s) i x) (found s) (made s) (has_ref s).

Inductive label :=
| Connect (o : nat -> start)
| Close
| Put
| Event (i : nat) (e : xev)        (** the transport of endpoint [i] reports [e] *)
| Call (i : nat)                   (** the application is called *)
| End (i : nat)                    (** the rest of __rail_cb *)
| Find                             (** a request finds the passive rail *)
| Make (i m : nat) (mem : bool)
| Accept (i : nat) (ok : bool).

Inductive out := OApp (e : xev) | OClose (i : nat) | ORet (ok : bool).
(** Failures of the code: an assert, an access to the freed rail, the removal of a
    rail that is not in the tree *)
Inductive crash := Assert | Freed | NotInTree.
Inductive res := Ok (s : sys) (o : list out) | Crash (c : crash).

(** 152-178 __rail_ref_free, when the last reference is put *)
Definition settle (s : sys) (o : list out) : res :=
  if (refs (rl s) =? 0)%Z && negb ((connecting_eps (rl s) =? 0)%Z && (connected_eps (rl s) =? 0)%Z) then Crash Assert else Ok s o.

(** What the phase of the transport is after an event *)
Definition next (e : xev) (t : tphase) : tphase :=
  match e with XConnected => TUp | XData => t | _ => TDone end.

Definition step (s : sys) (l : label) : res :=
  let r := rl s in
  if (refs r =? 0)%Z then Crash Freed else
  match l with
  | Connect o =>
      let '(r', ok) := rail_connect r o in
      let start i := is (st r) INIT && is (ep_st r' i) CONNECTING in
      Ok (mkSys r' (at_pc s) (fun i => if start i then TTrying else tp s i) (found s) (made s) (has_ref s)) [ORet ok]
  | Close => let '(r', cl) := rail_close r in Ok (set_rl s r') (map OClose cl)
  | Put => settle (mkSys (ref_add r (-1)) (at_pc s) (tp s) (found s) (made s) false) []
  | Event i e =>
      match rail_cb r i e with
      | None => Crash Assert
      | Some (r', a, rm, cl) => Ok (set_tp (set_pc (set_rl s r') i (Calling a rm)) i (next e (tp s i))) (map OClose cl)
      end
  | Call i =>
      (* 508-510 *)
      match at_pc s i with
      | Calling a rm => Ok (set_pc s i (Ending rm)) (match a with Some e => [OApp e] | None => [] end)
      | _ => Ok s []
      end
  | End i =>
      (* 512-527: leave the tree and put "__passive_rail_rbt", put "rail_cb" *)
      match at_pc s i with
      | Ending true => if in_tree r then settle (set_pc (set_rl s (ref_add (set_tree r false) (-2))) i Idle) [] else Crash NotInTree
      | Ending false => settle (set_pc (set_rl s (ref_add r (-1))) i Idle) []
      | _ => Ok s []
      end
  | Find => Ok (mkSys r (at_pc s) (tp s) (S (found s)) (made s) (has_ref s)) []
  | Make i m mem =>
      let '(r', ok) := conn_make r i m mem in
      Ok (mkSys r' (at_pc s) (tp s) (pred (found s)) (if ok then fupd (made s) i true else made s) (has_ref s)) []
  | Accept i true =>
      (* 730-731 *)
      Ok (mkSys (ref_add r 1) (at_pc s) (fupd (tp s) i TTrying) (found s) (fupd (made s) i false) (has_ref s)) []
  | Accept i false => Ok (mkSys (conn_undo r i) (at_pc s) (tp s) (found s) (fupd (made s) i false) (has_ref s)) []
  end.

(** The history of a run: the steps and, after each, its outputs *)
Inductive item := Did (l : label) | Saw (o : out).
Definition items (l : label) (o : list out) : list item := Did l :: map Saw o.
Inductive result := Ran (s : sys) (h : list item) | Crashed (c : crash) (h : list item) (l : label).
Fixpoint run (s : sys) (ls : list label) : result :=
  match ls with
  | [] => Ran s []
  | l :: ls =>
      match step s l with
      | Crash c => Crashed c [] l
      | Ok s' o =>
          match run s' ls with
          | Ran s'' h => Ran s'' (items l o ++ h)
          | Crashed c h l' => Crashed c (items l o ++ h) l'
          end
      end
  end.

Definition idle : nat -> pc := fun _ => Idle.
Definition active_sys (n : nat) : sys := mkSys (rail_new n) idle (fun _ => TNone) 0 (fun _ => false) true.
(** [found] is 1: the request that has made the rail *)
Definition passive_sys (n : nat) : sys := mkSys (rail_passive n) idle (fun _ => TNone) 1 (fun _ => false) true.
