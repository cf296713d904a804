(** Theorems about stream messages (C27) and stream subscribers (C28). *)
From Verif Require Import S_Stream L_Stream.
From Coq Require Import List. Import ListNotations.
Local Open Scope N_scope.

(** * C27 *)

(** C27, partial: messages that fit into one transport message (and whose header
    and name do not fill it exactly).  Any sequence of such messages, whatever
    junk is in uninitialised header bytes, arrives intact, once, in order, and
    leaves no buffer behind.  Missing: larger messages, which the code never
    delivers (below). *)
Theorem stream_messages_intact_partial : forall cap fuel pads ms,
  Forall (fun m => msg_ok m /\ (msg_size m <= cap)%nat /\ (57 + length (g_name m) < cap)%nat) ms ->
  (4 <= fuel)%nat ->
  exists parts,
    map (send fuel cap) ms = map Some parts /\
    Forall (Forall (fun p => (length (p_data p) <= cap)%nat)) parts /\
    Forall2 (fragments cap) ms parts /\
    recv_all pads [] (concat parts) = ROk [] (map expected ms).
Proof.
  intros cap fuel pads ms H Hf. exists (map (fun m => [the_part m]) ms).
  assert (Hw : forall m, msg_ok m -> length (wire_bytes m) = msg_size m).
  { intros m (H1 & H2 & H3 & _). unfold wire_bytes, msg_size. rewrite !app_length, full_hdr_length by assumption.
    cbn [length]. lia. }
  split; [|split; [|split]].
  - rewrite map_map. apply map_ext_in. intros m Hm. rewrite Forall_forall in H. destruct (H m Hm) as (A & B & C).
    now apply send_one.
  - apply Forall_map. eapply Forall_impl; [|exact H]. intros m (A & B & C). constructor; [|constructor].
    cbn [the_part p_data]. rewrite Hw by assumption. exact B.
  - clear Hf. induction H as [|m ms (A & B & C) H IH]; cbn [map]; constructor; auto.
    repeat split; cbn [map concat the_part p_data]; try now rewrite app_nil_r.
    repeat constructor. cbn [the_part p_data]. rewrite Hw by assumption. exact B.
  - replace (concat (map (fun m => [the_part m]) ms)) with (map the_part ms)
      by (clear; induction ms; cbn; congruence).
    apply recv_many. eapply Forall_impl; [|exact H]. intros m (A & _). exact A.
Qed.
Print Assumptions stream_messages_intact_partial.

(** For every message that does not fit into one transport message (its header
    and name do): whenever the sender terminates at all, the bytes it sent are
    more than the message; in particular never a fragmentation of it. *)
Theorem stream_large_never_intact : forall cap fuel m ps,
  msg_ok m -> (57 + length (g_name m) < cap)%nat -> (cap < msg_size m)%nat ->
  send fuel cap m = Some ps -> ~ fragments cap m ps.
Proof.
  intros cap fuel m ps H1 H2 H3 H4 (_ & E & _). pose proof (large_corrupt _ _ _ _ H1 H2 H3 H4) as L.
  rewrite E in L. lia.
Qed.
Print Assumptions stream_large_never_intact.

(** ... and if the data alone exceeds one transport message the sender never
    terminates: it resends the same bytes for ever. *)
Theorem stream_large_sends_forever : forall cap m,
  msg_ok m -> (57 + length (g_name m) < cap)%nat -> (cap < length (g_data m))%nat ->
  forall fuel, send fuel cap m = None.
Proof.
  intros cap m H1 H2 H3 fuel. destruct (send fuel cap m) as [ps|] eqn:E; [|reflexivity]. exfalso.
  destruct H1 as (A1 & A2 & A3 & _). unfold send, publish in E. rewrite app_length in E. cbn [length] in E.
  pose proof (full_hdr_length (g_meta m) (N.of_nat (length (g_name m) + 1 + length (g_data m))) (g_pad m) (g_pres m) A1 A2 A3) as Hl.
  set (h := full_hdr _ _ _ _) in *.
  assert (E' : forall k, (k < cap)%nat -> (true && Nat.eqb (cap - k) 0)%bool = false).
  { intros k Hk. cbn [andb]. apply Nat.eqb_neq. lia. }
  destruct fuel as [|fuel]; [discriminate|]. cbn [part_send length] in E. rewrite E' in E by lia.
  replace (Nat.leb (length h) (cap - 0)) with true in E by (symmetry; apply Nat.leb_le; lia).
  destruct fuel as [|fuel]; [discriminate|]. cbn [part_send app] in E. rewrite E' in E by lia.
  replace (Nat.leb (length (g_name m ++ [0])) (cap - length h)) with true in E
    by (symmetry; apply Nat.leb_le; rewrite app_length; cbn [length]; lia).
  destruct fuel as [|fuel]; [discriminate|]. cbn [part_send] in E. rewrite !app_length in E. cbn [length] in E.
  rewrite E' in E by lia.
  replace (Nat.leb (length (g_data m)) (cap - (length h + (length (g_name m) + 1)))) with false in E
    by (symmetry; apply Nat.leb_gt; lia).
  rewrite stuck in E by lia. discriminate.
Qed.
Print Assumptions stream_large_sends_forever.

(** The receiver cannot collect any two-part message numbered 1 .. 2^32: the
    second part of a correct fragmentation aborts the process, whatever malloc
    left in the padding of the buffer key. *)
Theorem stream_continuation_always_aborts : forall cap m p1 p2 st out pad pad2,
  fragments cap m [p1; p2] -> length pad = 4%nat ->
  0 < m_gn (g_meta m) -> m_gn (g_meta m) <= 4294967296 ->
  recv pad [] p1 = ROk st out -> recv pad2 st p2 = RAbort.
Proof.
  intros cap m p1 p2 st out pad pad2 (Hf & _ & Ha) Hp H0 H1 Hr. cbn [frag_flags] in Hf.
  inversion Ha as [|? ? (S1 & G1 & _) Ha']; subst. inversion Ha' as [|? ? (S2 & G2 & _) _]; subst.
  destruct Hf as (_ & Hm & Hf2 & _).
  apply (continuation_aborts pad p1 p2 st out pad2); try congruence; rewrite G1; assumption.
Qed.
Print Assumptions stream_continuation_always_aborts.

(** Witness for both: a 100-byte message named "s" over a transport that takes
    120 payload bytes. *)
Definition wmeta : meta := mkMeta (repeat 0 20) 5 0 0 0 511.
Definition wmsg : message := mkMsg wmeta [0; 0; 0; 0] [0; 0; 0; 0] 0 [115] (repeat 7 100).
Definition wparts : list part :=
  [mkP (repeat 0 20) 5 true true 0 (firstn 120 (wire_bytes wmsg));
   mkP (repeat 0 20) 5 false false 0 (skipn 120 (wire_bytes wmsg))].

Lemma wmsg_ok : msg_ok wmsg.
Proof. repeat split; try (vm_compute; reflexivity). cbn. intuition discriminate. Qed.

Theorem stream_sender_refuted : exists m cap parts, msg_ok m /\ (57 + length (g_name m) < cap)%nat /\
  send 10 cap m = Some parts /\ ~ fragments cap m parts /\
  forall pads, (forall i, length (pads i) = 4%nat) -> recv_all pads [] parts = RAbort.
Proof.
  exists wmsg, 120%nat. destruct (send 10 120 wmsg) as [ps|] eqn:E; [|vm_compute in E; discriminate].
  exists ps. split; [exact wmsg_ok|]. split; [cbn; lia|]. split; [reflexivity|]. split.
  - eapply stream_large_never_intact; [exact wmsg_ok| | |exact E]; cbn; lia.
  - intros pads Hp. vm_compute in E. injection E as <-.
    pose proof (Hp 1%nat) as H1.
    match goal with |- recv_all _ _ [?a; ?b] = _ => set (p1 := a); set (p2 := b) end.
    cbn [recv_all List.length]. destruct (recv (pads 1%nat) [] p1) as [| |st o] eqn:Er.
    + reflexivity.
    + exfalso. revert Er. vm_compute. discriminate.
    + replace (recv (pads 0%nat) st p2) with RAbort; [reflexivity|]. symmetry.
      apply (continuation_aborts (pads 1%nat) p1 p2 st o (pads 0%nat)); try reflexivity; try assumption; discriminate.
Qed.
Print Assumptions stream_sender_refuted.

Theorem stream_reassembly_refuted : exists m cap parts, msg_ok m /\ fragments cap m parts /\
  forall pads, (forall i, length (pads i) = 4%nat) -> recv_all pads [] parts = RAbort.
Proof.
  exists wmsg, 120%nat, wparts. split; [exact wmsg_ok|].
  assert (Hf : fragments 120 wmsg wparts).
  { split; [cbn; tauto|]. split.
    - unfold wparts. cbn [map concat p_data]. rewrite app_nil_r. apply firstn_skipn.
    - repeat constructor; cbn [p_data]; rewrite ?firstn_length, ?skipn_length; vm_compute; lia. }
  split; [exact Hf|]. intros pads Hp. unfold wparts in *.
  match goal with |- recv_all _ _ [?a; ?b] = _ => set (p1 := a) in *; set (p2 := b) in * end.
  cbn [recv_all List.length]. destruct (recv (pads 1%nat) [] p1) as [| |st o] eqn:Er.
  - reflexivity.
  - exfalso. revert Er. vm_compute. discriminate.
  - replace (recv (pads 0%nat) st p2) with RAbort; [reflexivity|]. symmetry.
    eapply (stream_continuation_always_aborts 120 wmsg); [exact Hf|exact (Hp 1%nat)| | |exact Er];
      vm_compute; congruence.
Qed.
Print Assumptions stream_reassembly_refuted.

Example stream_intact_case : (msg_size wmsg <= 160)%nat /\
  recv_all (fun _ => [1; 2; 3; 4]) [] [the_part wmsg; the_part wmsg] = ROk [] [expected wmsg; expected wmsg].
Proof. split; [cbn; lia|vm_compute; reflexivity]. Qed.

(** * C28 *)

(** C28, partial: in every history of subscriptions (by name or pattern), closes
    and publications, each publication calls exactly the open subscriptions that
    match, each once, in subscription order.  Missing: JSON messages that do not
    parse, when some matching subscriber is local (excluded in [h_pub]); patterns
    that do not compile. *)
Theorem stream_subscribers_partial : forall s op log,
  history s op log -> Forall (fun x => fst x = snd x) log /\ NoDup (map c_id op).
Proof. intros s op log H. destruct (history_inv _ _ _ H) as [I F]. split; [exact F|apply I]. Qed.
Print Assumptions stream_subscribers_partial.

Definition cl (i : nat) (p : pattern) (l : bool) := mkCl i p l.
Definition any_rx : pattern := Regex (fun _ => true).

(** Non-trivial history: a pattern subscription before the stream exists, a name
    subscription, a second pattern, one close. *)
Example stream_history_case : exists s op log, history s op log /\
  map (fun x => map c_id (fst x)) log = [[1]; [1; 2; 3]; [1; 3]; [1; 3; 4]]%nat.
Proof.
  pose (c1 := cl 1 any_rx true). pose (c2 := cl 2 (Name [97]) true).
  pose (c3 := cl 3 (Regex (fun n => list_eqb n [97])) false). pose (c4 := cl 4 (Name [97]) true).
  pose proof h_new as H.
  eapply (h_sub _ _ _ c1) in H; [|vm_compute; tauto|reflexivity].
  eapply (h_pub _ _ _ [98] false) in H; [|apply surjective_pairing|discriminate].
  eapply (h_sub _ _ _ c2) in H; [|vm_compute; intuition discriminate|reflexivity].
  eapply (h_sub _ _ _ c3) in H; [|vm_compute; intuition discriminate|reflexivity].
  eapply (h_pub _ _ _ [97] false) in H; [|apply surjective_pairing|discriminate].
  eapply (h_close _ _ _ c2) in H; [|right; left; reflexivity].
  eapply (h_pub _ _ _ [97] false) in H; [|apply surjective_pairing|discriminate].
  eapply (h_sub _ _ _ c4) in H; [|vm_compute; intuition discriminate|reflexivity].
  eapply (h_pub _ _ _ [97] false) in H; [|apply surjective_pairing|discriminate].
  eexists; eexists; eexists. split; [exact H|]. vm_compute. reflexivity.
Qed.

(** A JSON message that does not parse is withheld from every subscriber from the
    first local one on, including remote ones that take any payload. *)
Theorem stream_bad_json_refuted : exists s op log n called s',
  history s op log /\ stream_deliver s n true = (called, s') /\
  exists c, In c op /\ wants c n = true /\ c_local c = false /\ ~ In c called.
Proof.
  pose (c1 := cl 1 (Name [97]) true). pose (c2 := cl 2 (Name [97]) false).
  pose proof h_new as H.
  eapply (h_sub _ _ _ c1) in H; [|vm_compute; tauto|reflexivity].
  eapply (h_sub _ _ _ c2) in H; [|vm_compute; intuition discriminate|reflexivity].
  eexists; eexists; eexists. exists [97]. eexists; eexists. split; [exact H|].
  split; [apply surjective_pairing|].
  exists c2. split; [right; now left|]. split; [vm_compute; reflexivity|]. split; [reflexivity|].
  vm_compute. intros [].
Qed.
Print Assumptions stream_bad_json_refuted.

(** Subscribing with a pattern that does not compile uses freed memory. *)
Theorem stream_bad_pattern_refuted : exists s op log c,
  history s op log /\ ~ In (c_id c) (map c_id op) /\ subscribe s c = None.
Proof. exists sys0, [], [], (cl 1 BadRegex true). split; [apply h_new|]. split; [intros []|reflexivity]. Qed.
Print Assumptions stream_bad_pattern_refuted.
