(** Theorems about the text encoders: C13, C14, C15. *)
From Verif Require Import S_Codec L_Codec.
From Coq Require Import String.
From Coq Require Import List. Import ListNotations.
Local Open Scope N_scope.

(** * C13 *)

(** Any split into blocks gives the same text, which decodes to the input and has
    no line longer than 72 characters; its exact length is given. *)
Theorem base64_correct : forall blocks, Forall (Forall is_byte) blocks ->
  let input := concat blocks in
  let text := b64_encode blocks in
  text = b64_encode [input] /\
  rfc_decode (no_breaks text) = Some input /\
  lines_within 72 0 text /\
  length text = (4 * ((length input + 2) / 3) + length input / 54 + 1)%nat.
Proof.
  intros blocks H. cbv zeta.
  assert (E : b64_encode blocks = rest_text b64_init (concat blocks)).
  { unfold b64_encode, rest_text. now rewrite blocks_concat. }
  assert (Hb : Forall is_byte (concat blocks)).
  { clear E. induction H as [|l ls Hl Hls IH]; [constructor|]. cbn [concat]. apply Forall_app. now split. }
  rewrite E. split; [|split; [|split]].
  - unfold b64_encode. rewrite blocks_concat. cbn [concat]. now rewrite app_nil_r.
  - now apply rest_text_decode.
  - apply (rest_text_lines _ Hb b64_init); cbn; auto; lia.
  - rewrite rest_text_length by (cbn; auto; lia). cbn [b64_init b_count Nat.add].
    rewrite Nat.div_div by lia. reflexivity.
Qed.
Print Assumptions base64_correct.

Example base64_case : b64_encode [[77]; []; [97; 110; 33]] = chars "TWFuIQ=="%string ++ [10].
Proof. vm_compute. reflexivity. Qed.

(** * C14 *)

(** C14, partial: injective on byte strings whose length is not 4 modulo 5.
    Missing: lengths 4 modulo 5, where it fails ([base62_injective_refuted]). *)
Theorem base62_injective_partial : forall l m,
  Forall is_byte l -> Forall is_byte m -> length l = length m -> (length l mod 5 <> 4)%nat ->
  b62_encode l = b62_encode m -> l = m.
Proof. intros l m Hl Hm He Hn E. now apply b62_inj. Qed.
Print Assumptions base62_injective_partial.

(** For every length 4 modulo 5 there are two different strings with the same
    text. *)
Theorem base62_injective_refuted : forall k, exists l m,
  length l = (5 * k + 4)%nat /\ length m = (5 * k + 4)%nat /\ Forall is_byte l /\ Forall is_byte m /\
  l <> m /\ b62_encode l = b62_encode m.
Proof.
  induction k as [|k (l & m & H1 & H2 & H3 & H4 & H5 & H6)].
  - exists [0; 0; 0; 0], [54; 155; 19; 224]. repeat split; try (repeat constructor; unfold is_byte; lia); [discriminate].
  - exists (0 :: 0 :: 0 :: 0 :: 0 :: l), (0 :: 0 :: 0 :: 0 :: 0 :: m). cbn [length].
    split; [lia|]. split; [lia|]. split; [repeat constructor; auto; unfold is_byte; lia|].
    split; [repeat constructor; auto; unfold is_byte; lia|].
    split; [congruence|]. cbn [b62_encode]. now rewrite H6.
Qed.
Print Assumptions base62_injective_refuted.

(** The number of characters depends on the number of bytes only and is about 1.4
    times it. *)
Theorem base62_length : forall l,
  length (b62_encode l) = (7 * (length l / 5) + nth (length l mod 5) [0; 2; 3; 5; 5] 0)%nat /\
  (5 * length (b62_encode l) <= 7 * length l + 5)%nat.
Proof.
  intros l. rewrite b62_length. assert (E : tail_chars (length l mod 5)%nat = nth (length l mod 5)%nat [0; 2; 3; 5; 5]%nat 0%nat).
  { pose proof (Nat.mod_upper_bound (length l) 5 ltac:(lia)). destruct (length l mod 5)%nat as [|[|[|[|[|]]]]]; try reflexivity; lia. }
  split; [now rewrite E|]. pose proof (Nat.div_mod (length l) 5 ltac:(lia)) as H.
  pose proof (Nat.mod_upper_bound (length l) 5 ltac:(lia)).
  destruct (length l mod 5)%nat as [|[|[|[|[|]]]]]; cbn [tail_chars]; lia.
Qed.
Print Assumptions base62_length.

(** Every character of the text is one of the 62: in particular the unreduced
    last quotient never indexes outside the table. *)
Theorem base62_alphabet : forall l, Forall is_byte l -> Forall (fun c => In c b62_tab) (b62_encode l).
Proof.
  assert (Hc : forall v, v < 62 -> In (b62_char v) b62_tab).
  { intros v Hv. unfold b62_char. apply nth_In. change (length b62_tab) with 62%nat. lia. }
  assert (Hd : forall k v, Forall (fun c => In c b62_tab) (b62_digits k v)).
  { induction k as [|k IH]; intros v; cbn [b62_digits]; constructor; auto. apply Hc, N.mod_lt. lia. }
  intros l. induction l as [|a|a b|a b c|a b c d|a b c d e l IH] using list_ind5; intros Hl; cbn [b62_encode];
    repeat match goal with H : Forall _ (_ :: _) |- _ => inversion H; clear H; subst end;
    repeat match goal with H : is_byte _ |- _ => unfold is_byte in H end.
  - constructor.
  - repeat (apply Forall_cons || apply Forall_nil); apply Hc; [apply N.mod_lt; lia|apply N.div_lt_upper_bound; lia].
  - apply Forall_app. split; [apply Hd|]. apply Forall_cons; [|apply Forall_nil]. apply Hc. apply N.div_lt_upper_bound; lia.
  - apply Forall_app. split; [apply Hd|]. apply Forall_cons; [|apply Forall_nil]. apply Hc. apply N.div_lt_upper_bound; lia.
  - apply Hd.
  - apply Forall_app. split; [apply Hd|]. auto.
Qed.
Print Assumptions base62_alphabet.

Example base62_case : b62_encode [255; 255; 255; 255; 255; 255; 0] <> b62_encode [255; 255; 255; 255; 255; 0; 255].
Proof. intros E. apply base62_injective_partial in E; try discriminate; repeat constructor; unfold is_byte; lia. Qed.

(** * C15 *)

(** Printing and parsing. *)
Theorem digest_round_trip : forall d n, Forall is_byte d -> length d = 32%nat -> (65 <= n)%nat ->
  exists s, digest_str d n = Some s /\ length s = 64%nat /\ hex_text s d /\ str_digest s = Some d.
Proof.
  intros d n H Hl Hn. exists (flat_map hex2 d). unfold digest_str.
  replace (Nat.ltb n (2 * 32 + 1)) with false by (symmetry; apply Nat.ltb_ge; lia).
  pose proof (hex_text_print d H) as Ht. pose proof (hex_text_inv_length _ _ Ht) as Hlen.
  split; [reflexivity|]. split; [lia|]. split; [exact Ht|].
  unfold str_digest. replace (Nat.eqb _ _) with true by (symmetry; apply Nat.eqb_eq; lia). now apply loop_hex.
Qed.
Print Assumptions digest_round_trip.

(** A buffer that is too small is refused. *)
Theorem digest_small_buffer : forall d n, (n < 65)%nat -> digest_str d n = None.
Proof. intros d n H. unfold digest_str. replace (Nat.ltb _ _) with true by (symmetry; apply Nat.ltb_lt; lia). reflexivity. Qed.
Print Assumptions digest_small_buffer.

(** C15, parsing, partial: every 64-character hexadecimal text (upper or lower
    case) is accepted with its value; a text of another length is refused, and so
    is one with a pair of characters neither of which is a hexadecimal digit.
    Missing: refusing pairs with one bad character ([digest_parse_refuted]). *)
Theorem digest_parse_partial :
  (forall s d, hex_text s d -> length s = 64%nat -> str_digest s = Some d) /\
  (forall s, length s <> 64%nat -> str_digest s = None) /\
  (forall s, ~ half_hex s -> str_digest s = None).
Proof.
  unfold str_digest. split; [|split].
  - intros s d H E. rewrite E. cbn [Nat.eqb]. now apply loop_hex.
  - intros s H. apply Nat.eqb_neq in H. now rewrite H.
  - intros s H. destruct (Nat.eqb_spec (length s) 64) as [E|E]; [|reflexivity].
    destruct (str_digest_loop s) as [d|] eqn:El; [|reflexivity].
    exfalso. apply H. eapply loop_half; [exact El|]. now rewrite E.
Qed.
Print Assumptions digest_parse_partial.

(** Text that is not hexadecimal is accepted. *)
Theorem digest_parse_refuted : exists s d, length s = 64%nat /\ str_digest s = Some d /\ ~ (exists d', hex_text s d').
Proof.
  exists (122 :: repeat 48 63), (repeat 0 32). split; [reflexivity|]. split; [vm_compute; reflexivity|].
  intros (d' & H). inversion H as [|a b x y s d Ha]; subst. inversion Ha; lia.
Qed.
Print Assumptions digest_parse_refuted.

Example digest_case : exists s, digest_str (repeat 171 32) 65 = Some s /\ str_digest s = Some (repeat 171 32).
Proof. eexists. split; [vm_compute; reflexivity|vm_compute; reflexivity]. Qed.
