(** What the bookkeeping of messages should do: a table with one entry per key. *)
From Verif Require Export M_Msg.
Local Open Scope N_scope.

(** Two keys the comparator can tell apart in the right order: on equal flags the
    connection numbers are less than 2^31 apart and, if they are equal, so are the
    message numbers. *)
Definition close (a b : mkey) : Prop :=
  k_flags a = k_flags b ->
  (k_conn a < k_conn b + 2147483648 /\ k_conn b < k_conn a + 2147483648) /\
  (k_conn a = k_conn b -> k_msg a < k_msg b + 2147483648 /\ k_msg b < k_msg a + 2147483648).
Definition closeb (a b : mkey) : bool :=
  negb (k_flags a =? k_flags b) ||
  ((k_conn a <? k_conn b + 2147483648) && (k_conn b <? k_conn a + 2147483648) &&
   (negb (k_conn a =? k_conn b) || ((k_msg a <? k_msg b + 2147483648) && (k_msg b <? k_msg a + 2147483648)))).
Definition same (a b : mkey) : bool := (k_flags a =? k_flags b) && (k_conn a =? k_conn b) && (k_msg a =? k_msg b).

Inductive mop {R : Type} :=
| Recv (mm : memory) (x : N) (mark : bool) (k : mkey) (r : R) (keep : nat)  (** a record of a request arrives *)
| Send (mm : memory) (x : N) (k : mkey)                                     (** a request is made here *)
| Resp (mark : bool) (k : mkey) (r : R)                                     (** a record of its response arrives *)
| Release (x : N).                                                          (** a handler's reference is dropped *)
Arguments mop : clear implicits.

Section Spec.
Variables B R : Type.
Variable fresh : B.
Variable gather : B -> R -> option B.
Variable valid : B -> option bool.
Variables som eom : R -> bool.

(** A message being received or awaited ([e_open]) or handled, with the references
    kept by its handlers *)
Record entry := mkE { e_at : N; e_key : mkey; e_buf : B; e_open : bool; e_held : nat }.
Definition lookup (k : mkey) (T : list entry) : option entry := find (fun e => same (e_key e) k) T.
Definition at_ (x : N) (T : list entry) : option entry := find (fun e => e_at e =? x) T.
Definition without (x : N) (T : list entry) : list entry := filter (fun e => negb (e_at e =? x)) T.

(** A record for the message [e] of the table [e :: T] *)
Definition take (e : entry) (T : list entry) (r : R) (keep : nat) : option (reply B * list entry) :=
  match gather (e_buf e) r with
  | None => None
  | Some b =>
    if negb (eom r) then Some (More, mkE (e_at e) (e_key e) b true (e_held e) :: T) else
    match valid b with
    | Some true => Some (Delivered b, match keep with O => T | _ => mkE (e_at e) (e_key e) b false keep :: T end)
    | _ => None
    end
  end.

(** [None]: not among the uses covered (malloc failing after the context was
    allocated, an invalid message, a record for a message already complete, keys that
    are not close, an address already in use). *)
Definition want (o : mop R) (T : list entry) : option (reply B * list entry) :=
  let ok_key k := fits_key k && forallb (fun e => closeb (e_key e) k) T in
  let ok_at x := negb (x =? 0) && forallb (fun e => negb (e_at e =? x)) T in
  match o with
  | Recv mm x mark k r keep =>
    if negb mark then Some (NoMarker, T) else
    if negb (ok_key k) then None else
    match lookup k T with
    | Some e =>
      if som r then Some (Duplicate, T)
      else if e_open e && Nat.eqb (e_held e) 0 then take e (without (e_at e) T) r keep else None
    | None =>
      if som r then
        match mm with
        | MNoCtxt => Some (NoMemory, T)
        | MAll => if ok_at x then take (mkE x k fresh true 0) T r keep else None
        | _ => None
        end
      else Some (NotFound, T)
    end
  | Send mm x k =>
    if negb (ok_key k) then None else
    match lookup k T with
    | Some _ => None
    | None =>
      match mm with
      | MNoCtxt => Some (NoMemory, T)
      | MAll => if ok_at x then Some (Done, mkE x k fresh true 0 :: T) else None
      | _ => None
      end
    end
  | Resp mark k r =>
    if negb mark then Some (NoMarker, T) else
    if negb (ok_key k) then None else
    match lookup k T with
    | Some e => if e_open e && Nat.eqb (e_held e) 0 then take e (without (e_at e) T) r 0 else None
    | None => Some (NotFound, T)
    end
  | Release x =>
    match at_ x T with
    | Some e =>
      match e_open e, e_held e with
      | false, S (S n) => Some (Done, mkE (e_at e) (e_key e) (e_buf e) false (S n) :: without x T)
      | false, S O => Some (Done, without x T)
      | _, _ => None
      end
    | None => None
    end
  end.
Fixpoint wants (l : list (mop R)) (T : list entry) : option (list (reply B) * list entry) :=
  match l with
  | [] => Some ([], T)
  | o :: l =>
    match want o T with
    | None => None
    | Some (a, T1) => match wants l T1 with None => None | Some (as_, T2) => Some (a :: as_, T2) end
    end
  end.

(** The records of message [k] that were taken since it began, from the operations
    and the answers so far *)
Definition collect (k : mkey) (acc : list R) (oa : mop R * reply B) : list R :=
  let taken r (first : bool) a := match a with More | Delivered _ => if first then [r] else acc ++ [r] | _ => acc end in
  match fst oa with
  | Recv _ _ _ k' r _ => if same k' k then taken r (som r) (snd oa) else acc
  | Resp _ k' r => if same k' k then taken r false (snd oa) else acc
  | Send _ _ k' => if same k' k then match snd oa with Done => [] | _ => acc end else acc
  | Release _ => acc
  end.
Definition collected (k : mkey) (log : list (mop R * reply B)) : list R := fold_left (collect k) log [].
Fixpoint gathers (b : B) (l : list R) : option B :=
  match l with [] => Some b | r :: l => match gather b r with None => None | Some b' => gathers b' l end end.
Definition op_key (o : mop R) : option mkey :=
  match o with Recv _ _ _ k _ _ => Some k | Resp _ k _ => Some k | Send _ _ k => Some k | Release _ => None end.

(** The same operations on the model *)
Definition act (fuel : nat) (o : mop R) : mprog B (reply B) :=
  match o with
  | Recv mm x mark k r keep => process_request B R fresh gather valid som eom fuel mm x mark k r keep
  | Send mm x k => req_cmd_new B fresh fuel mm x k
  | Resp mark k r => process_response B R gather valid eom fuel mark k r
  | Release x => drop B fuel x
  end.
Fixpoint acts (fuel : nat) (l : list (mop R)) : mprog B (list (reply B)) :=
  match l with
  | [] => fun m => Some ([], m)
  | o :: l => fun m =>
    match act fuel o m with
    | None => None
    | Some (a, m1) => match acts fuel l m1 with None => None | Some (as_, m2) => Some (a :: as_, m2) end
    end
  end.
End Spec.
