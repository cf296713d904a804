(** Model of the configuration message records:
    - ldms/src/ldmsd/ldmsd_request.h (header and attribute layout, packed)
    - ldms/src/ldmsd/ldmsd_request_util.c (record building, sending, gathering)
    - ldms/src/ldmsd/ldmsd_request.c (validation)

    Memory is modelled byte by byte; every access outside a buffer is the
    distinct outcome [None] (undefined behaviour).  Fields are stored in
    network byte order: the host-order stores followed by the in-place
    conversion (hton/ntoh functions, ldmsd_request_util.c:1094-1160) are
    modelled by one big-endian store/load.  malloc/realloc/calloc succeed.
    size_t arithmetic is unbounded [nat] except where the code computes in
    32 bits ([off] in the validation, the 32-bit length fields). *)
From Verif Require Export Bytes.

Definition SOM : N := 1.    (* ldmsd_request.h LDMSD_REQ_SOM_F *)
Definition EOM : N := 2.    (* ldmsd_request.h LDMSD_REQ_EOM_F *)
Definition HDR : nat := 24. (* sizeof(struct ldmsd_req_hdr_s), six packed uint32_t *)
Definition MARKER : N := 4294967295.

(** struct ldmsd_req_hdr_s, ldmsd_request.h *)
Definition hdr_bytes (ty flags msg_no id len : N) : list byte :=
  be32 MARKER ++ be32 ty ++ be32 flags ++ be32 msg_no ++ be32 id ++ be32 len.
Definition rec_flags (r : list byte) : N := word32 r 8.
Definition rec_len (r : list byte) : N := word32 r 20.

(** struct ldmsd_msg_buf, ldmsd_request.h; [mem] is buf->buf, of length buf->len. *)
Record mbuf := mkB { off : nat; flags : N; mem : list byte }.

(** ldmsd_request_util.c:1174-1188 ldmsd_msg_buf_new; malloc leaves the
    contents arbitrary ([junk]). *)
Definition msg_buf_new (junk : list byte) : mbuf := mkB 0 0 junk.

(** memcpy into a buffer: undefined behaviour when it does not fit. *)
Definition store (o : nat) (d m : list byte) : option (list byte) :=
  if Nat.leb (o + length d) (length m) then Some (splice o d m) else None.

(** ldmsd_request_util.c:1214-1251: the do-while loop of ldmsd_msg_buf_send.
    Returns the records handed to send_fn and the buffer.  send_fn is assumed
    to succeed (on failure the code returns at once with its error).
    [buf->len - buf->off] is a size_t; the guard [off <= len] makes the
    underflow the undefined outcome.  [fuel] exhausted = None. *)
Fixpoint send_loop (fuel : nat) (b : mbuf) (msg_flags ty msg_no id : N) (data : list byte)
  : option (list (list byte) * mbuf) :=
  match fuel with
  | O => None
  | S fuel' =>
    if Nat.ltb (length (mem b)) (off b) then None else
    let remaining := Nat.min (length data) (length (mem b) - off b) in
    match store (off b) (firstn remaining data) (mem b) with
    | None => None
    | Some m1 =>
      let data1 := skipn remaining data in
      let off1 := (off b + remaining)%nat in
      let b1 := mkB off1 (flags b) m1 in
      let cont (out : list (list byte)) (b2 : mbuf) :=
        match data1 with
        | [] => Some (out, b2)
        | _ => match send_loop fuel' b2 msg_flags ty msg_no id data1 with
               | Some (out2, b3) => Some (out ++ out2, b3)
               | None => None
               end
        end in
      if (Nat.eqb remaining 0 || (Nat.eqb (length data1) 0 && N.testbit msg_flags 1))%bool then
        let fl := if negb (Nat.eqb (length data1) 0) then N.ldiff (flags b) EOM
                  else if N.testbit msg_flags 1 then N.lor (flags b) EOM else flags b in
        match store 0 (hdr_bytes ty fl msg_no id (N.of_nat off1)) m1 with
        | None => None
        | Some m2 => cont [firstn off1 m2] (mkB HDR 0 m2)
        end
      else cont [] b1
    end
  end.

(** ldmsd_request_util.c:1198-1254 ldmsd_msg_buf_send *)
Definition msg_buf_send (b : mbuf) (msg_flags ty msg_no id : N) (data : list byte)
  : option (list (list byte) * mbuf) :=
  let b0 := mkB (if N.testbit msg_flags 0 then HDR else off b)
                (N.lor (flags b) msg_flags) (mem b) in
  send_loop (2 * length data + 2) b0 msg_flags ty msg_no id data.

(** A message is sent as a sequence of appends: ldmsd_append_reply /
    ldmsd_req_cmd_attr_append (ldmsd_request.c:1099-1187), each passing the
    SOM flag on the first and the EOM flag on the last piece. *)
Fixpoint send_all (b : mbuf) (ty msg_no id : N) (pieces : list (N * list byte))
  : option (list (list byte) * mbuf) :=
  match pieces with
  | [] => Some ([], b)
  | (fl, d) :: ps =>
    match msg_buf_send b fl ty msg_no id d with
    | None => None
    | Some (out, b1) =>
      match send_all b1 ty msg_no id ps with
      | None => None
      | Some (out2, b2) => Some (out ++ out2, b2)
      end
    end
  end.

(** ldmsd_request_util.c:1256-1283 ldmsd_msg_gather.  [req] is the received
    record.  The result is (0 or EBUSY, buffer).  Reading past the received
    record, and writing the header of a too small buffer, are undefined.
    After realloc the added space is arbitrary; it is modelled as zeros. *)
Definition msg_gather (b : mbuf) (req : list byte) : option (Z * mbuf) :=
  if Nat.ltb (length req) HDR then None else
  let len := N.to_nat (rec_len req) in
  let fl := rec_flags req in
  let som := N.testbit fl 0 in
  let start := if som then 0%nat else HDR in
  if (Nat.ltb len start || Nat.ltb (length req) len)%bool then None else
  let src := slice start (len - start) req in
  if Nat.ltb (length (mem b)) (off b) then None else
  let m0 := if Nat.ltb (length (mem b) - off b) (length src)
            then mem b ++ repeat 0%N (length (mem b) + length src)
            else mem b in
  match store (off b) src m0 with
  | None => None
  | Some m1 =>
    let off1 := (off b + length src)%nat in
    match store 20 (be32 (N.of_nat off1)) m1 with
    | None => None
    | Some m2 => Some (if N.testbit fl 1 then 0%Z else EBUSY, mkB off1 (flags b) m2)
    end
  end.

(** Feeding a list of records to the gatherer (one call of
    ldmsd_process_config_request/response per record). *)
Fixpoint gather_all (b : mbuf) (rs : list (list byte)) : option (list Z * mbuf) :=
  match rs with
  | [] => Some ([], b)
  | r :: rs' =>
    match msg_gather b r with
    | None => None
    | Some (rc, b1) =>
      match gather_all b1 rs' with
      | None => None
      | Some (rcs, b2) => Some (rc :: rcs, b2)
      end
    end
  end.

(** The gathered message: the first [off] bytes of the buffer. *)
Definition message (b : mbuf) : list byte := firstn (off b) (mem b).

(** * Validation: ldmsd_request.c:934-973 validate_ldmsd_req.
    [m] is the whole message; its length is the header's rec_len (set by
    ldmsd_msg_gather).  Loads outside [m] are the outcome [VUndef].  [off] is
    an unsigned int (wraps at 2^32), the attribute pointer is not. *)
Inductive verdict := VUndef | VReject | VAccept | VFuel.

Definition load32 (m : list byte) (p : N) : option N :=
  if N.leb (p + 4) (N.of_nat (length m)) then Some (word32 m (N.to_nat p)) else None.
Definition load8 (m : list byte) (p : N) : option N :=
  if N.ltb p (N.of_nat (length m)) then Some (nth (N.to_nat p) m 0%N) else None.

Definition two32 : N := 4294967296.

(** ldmsd_request.c:956-971.  [p] = address of attr relative to the message. *)
Fixpoint validate_loop (fuel : nat) (m : list byte) (rlen : N) (p off32 : N) : verdict :=
  match fuel with
  | O => VFuel
  | S fuel' =>
    match load32 m p with
    | None => VUndef
    | Some discrim =>
      if N.eqb discrim 0 then VAccept else
      match load32 m (p + 8) with
      | None => VUndef
      | Some alen =>
        let off' := ((off32 + (12 + alen)) mod two32)%N in
        if N.ltb rlen (off' + 4) then VReject else
        let bad :=
          if N.eqb alen 0 then Some false
          else match load8 m (p + 12 + (alen - 1)) with
               | None => None
               | Some c => Some (negb (N.eqb c 0))
               end in
        match bad with
        | None => VUndef
        | Some true => VReject
        | Some false =>
          let p' := (p + 12 + alen)%N in
          match load32 m p' with
          | None => VUndef
          | Some d' =>
            if (negb (N.eqb d' 0) && N.ltb rlen (off' + 12 + 4))%bool then VReject
            else validate_loop fuel' m rlen p' off'
          end
        end
      end
    end
  end.

(** ldmsd_request.c:934-973 *)
Definition validate (m : list byte) : verdict :=
  match load32 m 20 with
  | None => VUndef
  | Some rlen =>
    if N.eqb rlen 28 then
      match load32 m 24 with
      | None => VUndef
      | Some d => if N.eqb d 0 then VAccept else VReject
      end
    else if N.ltb rlen 36 then VReject
    else validate_loop (length m) m rlen 24 24
  end.
