(** What stream publication should do. *)
From Verif Require Export M_Stream.
From Coq Require Import List. Import ListNotations.
Local Open Scope N_scope.

(** A message as the publisher sees it, with the junk bytes the C code leaves in
    the header. *)
Record message := mkMsg { g_meta : meta; g_pad : list byte; g_pres : list byte; g_resv : N;
                          g_name : list byte; g_data : list byte }.

Definition msg_ok (m : message) : Prop :=
  length (m_src (g_meta m)) = 20%nat /\ length (g_pad m) = 4%nat /\ length (g_pres m) = 4%nat /\
  m_gn (g_meta m) < 18446744073709551616 /\ m_type (g_meta m) < 4294967296 /\
  m_uid (g_meta m) < 4294967296 /\ m_gid (g_meta m) < 4294967296 /\ m_perm (g_meta m) < 4294967296 /\
  ~ In 0 (g_name m) /\ N.of_nat (length (g_name m) + 1 + length (g_data m)) < 2147483648.

(** Bytes on the wire for the message, without transport headers. *)
Definition msg_size (m : message) : nat := 56 + length (g_name m) + 1 + length (g_data m).

(** What the peer's subscribers should receive. *)
Definition expected (m : message) : delivered :=
  mkD (m_gn (g_meta m)) (m_type (g_meta m)) (m_uid (g_meta m)) (m_gid (g_meta m)) (m_perm (g_meta m))
      (g_name m) (g_data m).

Definition send (fuel cap : nat) (m : message) : option (list part) :=
  publish fuel cap (g_meta m) (g_pad m) (g_pres m) (g_resv m) (g_name m) (g_data m).

(** The bytes the parts of a message must concatenate to. *)
Definition wire_bytes (m : message) : list byte :=
  full_hdr (g_meta m) (N.of_nat (length (g_name m) + 1 + length (g_data m))) (g_pad m) (g_pres m)
    ++ g_name m ++ [0] ++ g_data m.

(** A list of parts is a correct fragmentation of [m]: same source and number,
    first flag on the first part only, more flag on all but the last. *)
Fixpoint frag_flags (first : bool) (ps : list part) : Prop :=
  match ps with
  | [] => False
  | [p] => p_first p = first /\ p_more p = false
  | p :: ps' => p_first p = first /\ p_more p = true /\ frag_flags false ps'
  end.
Definition fragments (cap : nat) (m : message) (ps : list part) : Prop :=
  frag_flags true ps /\ concat (map p_data ps) = wire_bytes m /\
  Forall (fun p => p_src p = m_src (g_meta m) /\ p_gn p = m_gn (g_meta m) /\
                   (length (p_data p) <= cap)%nat) ps.

(** Subscribers *)
Definition wants (c : client) (n : list byte) : bool :=
  match c_pat c with Name m => list_eqb m n | Regex f => f n | BadRegex => false end.

(** Histories: [open] is the list of open subscriptions, oldest first; each
    publication is recorded with the clients called and those that should be. *)
Inductive history : sys -> list client -> list (list client * list client) -> Prop :=
| h_new : history sys0 [] []
| h_sub s op log c s' : history s op log -> ~ In (c_id c) (map c_id op) ->
    subscribe s c = Some s' -> history s' (op ++ [c]) log
| h_close s op log c : history s op log -> In c op ->
    history (close s c) (filter (fun d => negb (Nat.eqb (c_id d) (c_id c))) op) log
| h_pub s op log n bad called s' : history s op log -> stream_deliver s n bad = (called, s') ->
    (bad = true -> forall c, In c op -> wants c n = true -> c_local c = false) ->
    history s' op (log ++ [(called, filter (fun c => wants c n) op)]).
