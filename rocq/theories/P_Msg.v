(** Bookkeeping of outstanding messages (C40). *)
From Verif Require Import S_Rbt M_Request S_Msg L_Msg.
Local Open Scope N_scope.

(** Any number of messages on any connections, interleaved in any way: every answer
    is that of a table with one entry per (flags, connection, message number), and
    nothing undefined happens, as long as the keys outstanding at the same time are
    [close], messages are valid, and no record arrives for a message that is already
    complete. *)
Theorem message_table_partial :
  forall B R fresh (gather : B -> R -> option B) valid som eom fuel l answers T,
  wants B R fresh gather valid som eom l [] = Some (answers, T) -> enough (length l) fuel ->
  exists m, acts B R fresh gather valid som eom fuel l (mempty B) = Some (answers, m) /\
            rbt_card (m_tree B m) = Z.of_nat (length T).
Proof.
  intros B R fresh gather valid som eom fuel l answers T HW HE.
  destruct (session_ok B R fresh gather valid som eom fuel l (mempty B) [] answers T) as (m & E & HT & _); [apply tab_empty|exact HE|exact HW|].
  exists m. split; [exact E|]. destruct (trees_len _ _ _ HT) as (L & H1 & <-). exact (proj2 (proj2 H1)).
Qed.
Print Assumptions message_table_partial.

(** A delivered message consists of exactly its own records, from its first to its
    last, in the order of arrival. *)
Theorem message_assembled_partial :
  forall B R fresh (gather : B -> R -> option B) valid som eom fuel l o k answers b T,
  wants B R fresh gather valid som eom (l ++ [o]) [] = Some (answers ++ [Delivered b], T) -> length answers = length l ->
  enough (S (length l)) fuel -> op_key R o = Some k ->
  (exists m, acts B R fresh gather valid som eom fuel (l ++ [o]) (mempty B) = Some (answers ++ [Delivered b], m)) /\
  gathers B R gather fresh (collected B R som k (combine (l ++ [o]) (answers ++ [Delivered b]))) = Some b.
Proof.
  intros B R fresh gather valid som eom fuel l o k answers b T HW HL HE HK. split.
  - destruct (message_table_partial B R fresh gather valid som eom fuel (l ++ [o]) _ T HW) as (m & E & _); [|now exists m].
    rewrite app_length, Nat.add_comm. exact HE.
  - assert (HC : combine (l ++ [o]) (answers ++ [Delivered b]) = combine l answers ++ [(o, Delivered b)]).
    { clear -HL. revert answers HL. induction l as [|x l IH]; intros [|y answers] HL; try discriminate; [reflexivity|]. cbn [app combine]. f_equal. apply IH. now injection HL. }
    unfold collected. rewrite HC.
    apply (assembled B R fresh gather valid som eom fuel l (mempty B) [] (fun _ => []) answers T o (Delivered b) b k);
      [apply tab_empty|intros e []|exact HE|exact HW|exact HL|reflexivity|exact HK].
Qed.
Print Assumptions message_assembled_partial.

(** The comparator orders close keys as numbers: by flags, connection, message. *)
Theorem message_order_partial : forall a b, fits_key a = true -> fits_key b = true -> closeb a b = true ->
  let lt a b := k_flags a < k_flags b \/ k_flags a = k_flags b /\ (k_conn a < k_conn b \/ k_conn a = k_conn b /\ k_msg a < k_msg b) in
  ((msg_comparator (enc a) (enc b) < 0)%Z <-> lt a b) /\ ((0 < msg_comparator (enc a) (enc b))%Z <-> lt b a) /\
  (msg_comparator (enc a) (enc b) = 0%Z <-> a = b).
Proof.
  intros a b Ha Hb HC. rewrite (close_cmp a b Ha Hb HC). destruct (cmpx_sign (enc a) (enc b)) as [S1 S2]. pose proof (cmpx_0 (enc a) (enc b)) as S3.
  cbv zeta. unfold fits_key in *. destruct a as [fa ca ma], b as [fb cb mb]. cbn [k_flags k_conn k_msg] in *.
  assert (E1 : enc (mkKey fa ca ma) < enc (mkKey fb cb mb) <-> fa < fb \/ fa = fb /\ (ca < cb \/ ca = cb /\ ma < mb)) by (unfold enc; cbn [k_flags k_conn k_msg]; lia).
  assert (E2 : enc (mkKey fb cb mb) < enc (mkKey fa ca ma) <-> fb < fa \/ fb = fa /\ (cb < ca \/ cb = ca /\ mb < ma)) by (unfold enc; cbn [k_flags k_conn k_msg]; lia).
  split; [exact (iff_trans S2 E1)|]. split; [exact (iff_trans S1 E2)|]. split; [|intros Q; apply S3; now rewrite Q].
  intros Q. apply S3 in Q. assert (fa = fb /\ ca = cb /\ ma = mb) as (-> & -> & ->) by (rewrite Q in E1, E2; lia). reflexivity.
Qed.
Print Assumptions message_order_partial.

(** ** The code's own buffers and validation *)
Definition c_gather (b : mbuf) (r : list byte) : option mbuf := match msg_gather b r with Some (_, b') => Some b' | None => None end.
Definition c_valid (b : mbuf) : option bool :=
  match validate (message b) with VAccept => Some true | VReject => Some false | _ => None end.
Definition c_som (r : list byte) : bool := N.testbit (rec_flags r) 0.
Definition c_eom (r : list byte) : bool := N.testbit (rec_flags r) 1.
Definition c_fresh : mbuf := msg_buf_new (repeat 0 64).
Definition c_acts (l : list (mop (list byte))) : option (list (reply mbuf)) :=
  option_map fst (acts mbuf (list byte) c_fresh c_gather c_valid c_som c_eom 40 l (mempty mbuf)).
Definition c_wants (l : list (mop (list byte))) := wants mbuf (list byte) c_fresh c_gather c_valid c_som c_eom l [].
(** A record of message number [no] with flags [fl] and data [d]; the first and last
    together carry one attribute, of value "ab". *)
Definition rec (fl no : N) (d : list byte) : list byte := hdr_bytes 1 fl no 5 (24 + N.of_nat (length d)) ++ d.
Definition d_first : list byte := be32 1 ++ be32 7 ++ be32 3.
Definition d_last : list byte := [97; 98; 0] ++ be32 0.
Definition on (conn no x fl : N) (d : list byte) : mop (list byte) := Recv MAll x true (mkKey 2 conn no) (rec fl no d) 0.
Definition body (a : reply mbuf) : option (list byte) := match a with Delivered b => Some (skipn 24 (message b)) | _ => None end.

(** Two connections use the same message number, a third message is on the first
    connection; records arrive interleaved. *)
Definition ex_l : list (mop (list byte)) :=
  [on 7 1 100 SOM d_first; on 8 1 200 SOM d_first; on 7 2 300 SOM d_first; on 8 1 0 EOM d_last; on 7 1 400 SOM d_first; on 7 1 0 EOM d_last; on 7 1 0 EOM d_last].
Example message_table_ex :
  option_map (fun p => (map body (fst p), length (snd p))) (c_wants ex_l) =
  Some ([None; None; None; Some (d_first ++ d_last); None; Some (d_first ++ d_last); None], 1%nat) /\
  match c_wants ex_l with Some (a, _) => nth 4 a Done = Duplicate /\ nth 6 a Done = NotFound | None => False end /\
  option_map (map body) (c_acts ex_l) = Some [None; None; None; Some (d_first ++ d_last); None; Some (d_first ++ d_last); None].
Proof. split; [|split; [split|]]; vm_compute; reflexivity. Qed.

(** ** Where the table fails *)

(** Connections 2^32 apart are one: a record of a connection that has sent nothing
    yet completes another connection's message. *)
Theorem message_confused_refuted : exists l k k', k <> k' /\
  map (op_key (list byte)) l = [Some k; Some k'] /\ fits_key k = true /\ fits_key k' = true /\
  option_map (map body) (c_acts l) = Some [None; Some (d_first ++ d_last)].
Proof.
  exists [on 1 5 100 SOM d_first; on 4294967297 5 0 EOM d_last], (mkKey 2 1 5), (mkKey 2 4294967297 5).
  split; [discriminate|]. repeat split; vm_compute; reflexivity.
Qed.
Print Assumptions message_confused_refuted.

(** Message numbers 0, 1500000000 and 3000000000 on one connection, which are in a
    cycle for the comparator: once the second is complete, the third is lost. *)
Definition lost_l : list (mop (list byte)) :=
  [on 1 1500000000 100 SOM d_first; on 1 0 200 SOM d_first; on 1 3000000000 300 SOM d_first; on 1 1500000000 0 EOM d_last].
Theorem message_lost_refuted : exists a,
  c_acts (lost_l ++ [on 1 3000000000 0 EOM d_last]) = Some (a ++ [NotFound]) /\ map body a = [None; None; None; Some (d_first ++ d_last)] /\
  nth 2 a Done = More.
Proof. eexists [_; _; _; _]. split; [vm_compute; reflexivity|]. split; vm_compute; reflexivity. Qed.
Print Assumptions message_lost_refuted.

(** An invalid message: the tree is unlocked a second time. *)
Theorem message_invalid_refuted : exists r b, c_gather c_fresh r = Some b /\ c_valid b = Some false /\
  c_acts [Recv MAll 100 true (mkKey 2 1 1) r 0] = None.
Proof. exists (rec 3 1 d_first). eexists. split; [vm_compute; reflexivity|]. split; vm_compute; reflexivity. Qed.
Print Assumptions message_invalid_refuted.

(** A record for a complete message whose handler still holds it: the message is
    freed under the handler. *)
Theorem message_late_record_refuted : exists l, c_acts l <> None /\ c_acts (l ++ [Release 100]) = None /\
  l = [Recv MAll 100 true (mkKey 2 1 1) (rec 3 1 (be32 0)) 1; Recv MAll 0 true (mkKey 2 1 1) (rec 2 1 []) 0].
Proof. eexists. split; [|split; [|reflexivity]]; vm_compute; [discriminate|reflexivity]. Qed.
Print Assumptions message_late_record_refuted.

(** malloc failing for a buffer of a new message, or for the copy of its transport *)
Theorem message_no_memory_refuted : forall mm, mm = MNoBuffer \/ mm = MNoXprt ->
  c_acts [Recv mm 100 true (mkKey 2 1 1) (rec 3 1 (be32 0)) 0] = None.
Proof. intros mm [->| ->]; vm_compute; reflexivity. Qed.
Print Assumptions message_no_memory_refuted.
