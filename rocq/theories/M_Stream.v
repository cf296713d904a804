(** Model of stream messages: ldms/src/core/ldms_stream.c.
    Part 1: cutting a message into parts (__part_send, __rep_publish) and
    collecting the parts at the peer (__process_stream_msg), byte by byte.
    Part 2: streams, subscribers and delivery. *)
From Verif Require Export Bytes.
From Coq Require Import List. Import ListNotations.
Local Open Scope N_scope.

(** * Part 1 *)

(** Sizes on a 64-bit ABI.  ldms_stream.h:130-138 struct ldms_stream_full_msg_s
    (default packing): src at 0 (20 bytes, ldms.h:1108), padding to 24, msg_gn at
    24, msg_len at 32, stream_type 36, cred 40 (uid, gid), perm 48, preserved 52,
    msg at 56. *)
Definition FULL_HDR : nat := 56.
Definition MSG_LEN_OFF : nat := 32.

Definition be64 (v : N) : list byte := be32 (v / 4294967296 mod 4294967296) ++ be32 (v mod 4294967296).
Definition le32 (v : N) : list byte := rev (be32 v).
Definition le64 (v : N) : list byte := rev (be64 v).

(** One transport message: LDMS_CMD_STREAM_MSG with its stream_part header
    (ldms_xprt.h:205-213) and payload. [more]/[first] are the two bit fields,
    [resv] the 30 bits that stay uninitialised (malloc, ldms_stream.c:143). *)
Record part := mkP { p_src : list byte; p_gn : N; p_more : bool; p_first : bool; p_resv : N; p_data : list byte }.

(** ldms_stream.c:130-203 __part_send.  [cap] is a_len at line 154/195, i.e. the
    transport maximum minus both headers; [buf] the payload collected so far;
    [ds] the remaining arguments.  Lines 178-180 set a_len to 0 before advancing
    [data] by it, so a piece that does not fit is flushed partially and then
    started over.  [enter] distinguishes arriving at next_param (a full buffer is
    flushed first, 166) from arriving at fill_req.  send_raw succeeds.
    Exhausted fuel = None: the loop is still sending. *)
Fixpoint part_send (fuel : nat) (cap : nat) (src : list byte) (gn resv : N)
    (first : bool) (buf : list byte) (enter : bool) (ds : list (list byte)) : option (list part) :=
  match fuel with
  | O => None
  | S fuel' =>
    match ds with
    | [] => Some [mkP src gn false first resv buf]
    | d :: ds' =>
      if (enter && Nat.eqb (cap - length buf) 0)%bool then
        match part_send fuel' cap src gn resv false [] false ds with
        | None => None
        | Some ps => Some (mkP src gn true first resv buf :: ps)
        end
      else if Nat.leb (length d) (cap - length buf) then
        part_send fuel' cap src gn resv first (buf ++ d) true ds'
      else
        match part_send fuel' cap src gn resv false [] false ds with
        | None => None
        | Some ps => Some (mkP src gn true first resv (buf ++ firstn (cap - length buf) d) :: ps)
        end
    end
  end.

(** Message meta data given by the publisher. *)
Record meta := mkMeta { m_src : list byte; m_gn : N; m_type : N; m_uid : N; m_gid : N; m_perm : N }.

(** ldms_stream.c:226-238: the message header; [pad] (4 bytes) and [pres] (4
    bytes) are uninitialised stack memory. *)
Definition full_hdr (m : meta) (len : N) (pad pres : list byte) : list byte :=
  m_src m ++ pad ++ be64 (m_gn m) ++ be32 len ++ be32 (m_type m) ++
  be32 (m_uid m) ++ be32 (m_gid m) ++ be32 (m_perm m) ++ pres.

(** ldms_stream.c:205-245 __rep_publish once credit is granted; [name] without
    its NUL. *)
Definition publish (fuel cap : nat) (m : meta) (pad pres : list byte) (resv : N)
    (name data : list byte) : option (list part) :=
  let nm := name ++ [0] in
  part_send fuel cap (m_src m) (m_gn m) resv true [] true
    [full_hdr m (N.of_nat (length nm + length data)) pad pres; nm; data].

(** ** Receiver *)
(** struct __stream_buf_s (1066-1075): key bytes, full_msg_len, received bytes *)
Record sbuf := mkS { s_key : list byte; s_full : nat; s_got : list byte }.

(** struct __sbuf_key_s (1035-1038) has default packing: src (20 bytes), 4
    padding bytes left as malloc returned them ([pad]), msg_gn (host order,
    little endian). *)
Definition tree_key (src : list byte) (gn : N) (pad : list byte) : list byte := src ++ pad ++ le64 gn.
(** rbt_find(&rep->sbuf_rbt, &req->stream_part) (1136) compares the key with the
    32 bytes of the request's stream_part, which is packed to 4 bytes
    (ldms_xprt.h:66): src, msg_gn (already host order, 1098), flag word. *)
Definition probe_key (p : part) : list byte :=
  p_src p ++ le64 (p_gn p) ++
  le32 ((if p_more p then 1 else 0) + (if p_first p then 2 else 0) + 4 * p_resv p).

Record delivered := mkD { d_gn : N; d_type : N; d_uid : N; d_gid : N; d_perm : N; d_name : list byte; d_data : list byte }.

Inductive rout := RAbort | RUndef | ROk (st : list sbuf) (out : list delivered).

Definition list_eqb (a b : list byte) : bool :=
  if list_eq_dec N.eq_dec a b then true else false.

(** strlen within the received message: None if there is no NUL *)
Fixpoint split_nul (l : list byte) : option (list byte * list byte) :=
  match l with
  | [] => None
  | c :: l' => if N.eqb c 0 then Some ([], l')
               else match split_nul l' with None => None | Some (a, b) => Some (c :: a, b) end
  end.

Definition word64 (m : list byte) (p : nat) : N := word32 m p * 4294967296 + word32 m (p + 4).

(** ldms_stream.c:1170-1193: the complete message *)
Definition deliver_full (b : list byte) : option delivered :=
  match split_nul (skipn FULL_HDR b) with
  | None => None
  | Some (name, data) =>
    Some (mkD (word64 b 24) (word32 b 36) (word32 b 40) (word32 b 44) (word32 b 48) name data)
  end.

Definition drop_key (k : list byte) (st : list sbuf) : list sbuf :=
  filter (fun s => negb (list_eqb (s_key s) k)) st.

(** ldms_stream.c:1159-1197: collect *)
Definition collect (st : list sbuf) (s : sbuf) (p : part) : rout :=
  if Nat.ltb (s_full s) (length (p_data p) + length (s_got s)) then RAbort else
  let got := s_got s ++ p_data p in
  if p_more p then ROk (mkS (s_key s) (s_full s) got :: drop_key (s_key s) st) []
  else if negb (Nat.eqb (length got) (s_full s)) then RAbort
  else match deliver_full got with
       | None => RUndef
       | Some d => ROk (drop_key (s_key s) st) [d]
       end.

(** ldms_stream.c:1080-1198 __process_stream_msg.  The red-black tree is
    represented by the list of its buffers (lookup by key equality: C01, C03).
    Source resolution (1100-1133) is assumed to have been applied to [p_src].
    [pad] is what malloc left in the padding of a new buffer's key.  msg_len of
    2 GB and more is excluded by the callers. *)
Definition recv (pad : list byte) (st : list sbuf) (p : part) : rout :=
  match find (fun s => list_eqb (s_key s) (probe_key p)) st with
  | Some s => collect st s p
  | None =>
    if negb (p_first p) then RAbort
    else if Nat.ltb (length (p_data p)) (MSG_LEN_OFF + 4) then RUndef
    else
      let s := mkS (tree_key (p_src p) (p_gn p) pad)
                   (N.to_nat (word32 (p_data p) MSG_LEN_OFF) + FULL_HDR) [] in
      collect (s :: st) s p
  end.

Fixpoint recv_all (pads : nat -> list byte) (st : list sbuf) (ps : list part) : rout :=
  match ps with
  | [] => ROk st []
  | p :: ps' =>
    match recv (pads (length ps')) st p with
    | ROk st' o =>
      match recv_all pads st' ps' with
      | ROk st'' o' => ROk st'' (o ++ o')
      | r => r
      end
    | r => r
    end
  end.

(** * Part 2: streams and subscribers *)

(** A client (subscriber): its pattern is either a stream name or a compiled
    regular expression, represented by the set of names it matches; [regcomp]
    failure is [BadRegex].  [local]: c->x == NULL. *)
Inductive pattern := Name (n : list byte) | Regex (f : list byte -> bool) | BadRegex.
Record client := mkCl { c_id : nat; c_pat : pattern; c_local : bool }.

Record stream := mkStr { st_name : list byte; st_clients : list (option client) }.
  (* s->client_tq; None = entry whose client was unbound *)
Record sys := mkSys { streams : list stream; regex_clients : list client }.
Definition sys0 : sys := mkSys [] [].

Definition rx_match (c : client) (n : list byte) : bool :=
  match c_pat c with Regex f => f n | _ => false end.

Fixpoint has_stream (l : list stream) (n : list byte) : bool :=
  match l with [] => false | s :: l' => if list_eqb (st_name s) n then true else has_stream l' n end.

(** ldms_stream.c:299-353 __stream_get: find or create; a new stream is bound to
    the matching regex clients in their order (TAILQ_INSERT_TAIL). *)
Definition stream_get (s : sys) (n : list byte) : sys :=
  if has_stream (streams s) n then s
  else mkSys (streams s ++ [mkStr n (map Some (filter (fun c => rx_match c n) (regex_clients s)))]) (regex_clients s).

(** ldms_stream.c:361-390 __client_stream_bind *)
Definition bind (c : client) (st : stream) : stream := mkStr (st_name st) (st_clients st ++ [Some c]).

(** ldms_stream.c:876-953 ldms_stream_subscribe: __client_alloc returns the freed
    client when the pattern does not compile (916-919), so the caller goes on to
    use it: None. *)
Definition subscribe (s : sys) (c : client) : option sys :=
  match c_pat c with
  | BadRegex => None
  | Regex f =>
    Some (mkSys (map (fun st => if f (st_name st) then bind c st else st) (streams s))
                (regex_clients s ++ [c]))
  | Name n =>
    let s1 := stream_get s n in
    Some (mkSys (map (fun st => if list_eqb (st_name st) n then bind c st else st) (streams s1)) (regex_clients s1))
  end.

(** ldms_stream.c:392-418, 955-970 ldms_stream_close: every entry of this client
    (its stream_tq) is unbound; the entries stay in the streams' lists. *)
Definition same (c d : client) : bool := Nat.eqb (c_id c) (c_id d).
Definition unbind (c : client) (e : option client) : option client :=
  match e with Some d => if same c d then None else Some d | None => None end.
Definition close (s : sys) (c : client) : sys :=
  mkSys (map (fun st => mkStr (st_name st) (map (unbind c) (st_clients st))) (streams s))
        (filter (fun d => negb (same c d)) (regex_clients s)).

(** ldms_stream.c:504-544: the delivery loop.  [bad_json]: the message is of type
    JSON and does not parse; the parse happens before the first local client and
    its failure leaves the loop (518-523). *)
Fixpoint deliver_loop (bad_json : bool) (es : list (option client)) : list client :=
  match es with
  | [] => []
  | None :: es' => deliver_loop bad_json es'
  | Some c :: es' =>
    if (bad_json && c_local c)%bool then [] else c :: deliver_loop bad_json es'
  end.
Definition is_some {A} (o : option A) : bool := match o with Some _ => true | None => false end.

(** ldms_stream.c:433-567 __stream_deliver: the clients called, in order, and the
    new state (unbound entries of this stream are collected, 550-564).  The
    callbacks do not subscribe or close. *)
Definition stream_deliver (s : sys) (n : list byte) (bad_json : bool) : list client * sys :=
  let s1 := stream_get s n in
  match find (fun st => list_eqb (st_name st) n) (streams s1) with
  | None => ([], s1)
  | Some st =>
    (deliver_loop bad_json (st_clients st),
     mkSys (map (fun st => if list_eqb (st_name st) n then mkStr (st_name st) (filter is_some (st_clients st)) else st)
                (streams s1)) (regex_clients s1))
  end.
