(** Byte strings: a byte is an [N] below 256; buffers are lists of bytes. *)
From Verif Require Export Base.
From Coq Require Export ZifyBool ZifyNat ZifyN.
Local Open Scope N_scope.

Notation byte := N (only parsing).
Definition is_byte (b : byte) : Prop := b < 256.

(** Big-endian 32-bit words: htonl/ntohl as stored in memory. *)
Definition be32 (v : N) : list byte :=
  [v / 16777216 mod 256; v / 65536 mod 256; v / 256 mod 256; v mod 256].
Definition of_be32 (l : list byte) : N :=
  match l with
  | [a; b; c; d] => ((a * 256 + b) * 256 + c) * 256 + d
  | _ => 0
  end.

Lemma be32_length v : length (be32 v) = 4%nat.
Proof. reflexivity. Qed.

Lemma of_be32_be32 v : v < 4294967296 -> of_be32 (be32 v) = v.
Proof.
  intros H. unfold of_be32, be32.
  pose proof (N.div_mod v 256 ltac:(lia)) as H0.
  pose proof (N.div_mod (v / 256) 256 ltac:(lia)) as H1.
  pose proof (N.div_mod (v / 256 / 256) 256 ltac:(lia)) as H2.
  pose proof (N.div_mod (v / 256 / 256 / 256) 256 ltac:(lia)) as H3.
  rewrite !N.div_div in * by lia. change (256 * 256) with 65536 in *.
  change (65536 * 256) with 16777216 in *. change (256 * 65536) with 16777216 in *.
  change (16777216 * 256) with 4294967296 in *.
  rewrite (N.div_small v 4294967296) in H3 by lia. lia.
Qed.

Lemma be32_bytes v : Forall is_byte (be32 v).
Proof. unfold be32, is_byte. repeat constructor; apply N.mod_lt; lia. Qed.

Lemma of_be32_bound l : Forall is_byte l -> of_be32 l < 4294967296.
Proof.
  unfold of_be32, is_byte. intros H.
  destruct l as [|a [|b [|c [|d [|e l]]]]]; try lia.
  repeat match goal with X : Forall _ (_ :: _) |- _ => inversion_clear X end. lia.
Qed.

Lemma be32_of_be32 a b c d : is_byte a -> is_byte b -> is_byte c -> is_byte d ->
  be32 (of_be32 [a; b; c; d]) = [a; b; c; d].
Proof.
  unfold is_byte, be32, of_be32. intros Ha Hb Hc Hd.
  assert (E3 : (((a * 256 + b) * 256 + c) * 256 + d) / 256 = (a * 256 + b) * 256 + c)
    by (symmetry; apply (N.div_unique _ 256 _ d); lia).
  assert (E2 : (((a * 256 + b) * 256 + c) * 256 + d) / 65536 = a * 256 + b).
  { change 65536 with (256 * 256). rewrite <- N.div_div by lia. rewrite E3.
    symmetry. apply (N.div_unique _ 256 _ c); lia. }
  assert (E1 : (((a * 256 + b) * 256 + c) * 256 + d) / 16777216 = a).
  { change 16777216 with (256 * 256 * 256). rewrite <- N.div_div by lia.
    change (256 * 256) with 65536. rewrite E2. symmetry. apply (N.div_unique _ 256 _ b); lia. }
  rewrite E1, E2, E3.
  f_equal; [apply N.mod_small; lia|].
  f_equal; [symmetry; apply (N.mod_unique _ 256 a); lia|].
  f_equal; [symmetry; apply (N.mod_unique _ 256 (a * 256 + b)); lia|].
  f_equal. symmetry; apply (N.mod_unique _ 256 ((a * 256 + b) * 256 + c)); lia.
Qed.

(** Sub-range of a buffer, and overwriting a range. *)
Definition slice {A} (off len : nat) (l : list A) : list A := firstn len (skipn off l).
Definition splice {A} (off : nat) (d m : list A) : list A :=
  firstn off m ++ d ++ skipn (off + length d) m.

Lemma skipn_skipn {A} n m (l : list A) : skipn n (skipn m l) = skipn (m + n) l.
Proof. revert l. induction m as [|m IH]; intros [|x l]; cbn [Nat.add skipn]; auto using skipn_nil. Qed.

Lemma splice_length {A} off (d m : list A) : (off + length d <= length m)%nat ->
  length (splice off d m) = length m.
Proof.
  intros H. unfold splice. rewrite !app_length, firstn_length, skipn_length. lia.
Qed.

Lemma slice_length {A} off len (l : list A) : (off + len <= length l)%nat -> length (slice off len l) = len.
Proof. intros H. unfold slice. rewrite firstn_length, skipn_length. lia. Qed.

Lemma slice_app_l {A} off len (a b : list A) : (off + len <= length a)%nat ->
  slice off len (a ++ b) = slice off len a.
Proof.
  intros H. unfold slice. rewrite skipn_app, firstn_app.
  replace (off - length a)%nat with 0%nat by lia.
  replace (len - length (skipn off a))%nat with 0%nat by (rewrite skipn_length; lia).
  simpl. now rewrite app_nil_r.
Qed.

Lemma slice_app_r {A} off len (a b : list A) : (length a <= off)%nat ->
  slice off len (a ++ b) = slice (off - length a) len b.
Proof.
  intros H. unfold slice. rewrite skipn_app, (skipn_all2 a) by lia. reflexivity.
Qed.

Lemma slice_all {A} (l : list A) n : length l = n -> slice 0 n l = l.
Proof. intros <-. unfold slice. simpl. apply firstn_all. Qed.

Lemma firstn_splice {A} off (d m : list A) : (off <= length m)%nat ->
  firstn (off + length d) (splice off d m) = firstn off m ++ d.
Proof.
  intros H. unfold splice. rewrite app_assoc, firstn_app, app_length, firstn_length.
  replace (off + length d - (Nat.min off (length m) + length d))%nat with 0%nat by lia.
  simpl. rewrite app_nil_r. apply firstn_all2. rewrite app_length, firstn_length. lia.
Qed.

Definition word32 (m : list byte) (p : nat) : N := of_be32 (slice p 4 m).
