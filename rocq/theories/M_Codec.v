(** Models of three text encoders:
    base64 (lib/src/third/cencode.c), base 62 (lib/src/third/b62encode.c) and
    the text form of set digests (ldms/src/core/ldms.c:1154-1213). *)
From Verif Require Export Bytes.
From Coq Require Import Ascii String.
From Coq Require Import List. Import ListNotations.
Local Open Scope N_scope.

Fixpoint chars (s : string) : list byte :=
  match s with EmptyString => [] | String a s' => N_of_ascii a :: chars s' end.

(** * Base 64 *)

(** cencode.c:17-22 base64_encode_value.  Its argument is a char; every caller
    passes 0..63. *)
Definition b64_tab : list byte :=
  chars "ABCDEFGHIJKLMNOPQRSTUVWXYZabcdefghijklmnopqrstuvwxyz0123456789+/".
Definition b64_value (v : N) : byte :=
  if 63 <? v then 61 else nth (N.to_nat v) b64_tab 61.

(** cencode.h:11-21 base64_encodestate *)
Inductive b64_step := StepA | StepB | StepC.
Record b64_state := mkB64 { b_step : b64_step; b_result : N; b_count : nat }.
(** cencode.c:10-15 base64_init_encodestate *)
Definition b64_init : b64_state := mkB64 StepA 0 0.

(** cencode.c:24-85 base64_encode_block: one case of the switch per byte.  The
    fragment is a (signed) char; only its low eight bits are used. *)
Fixpoint b64_block (s : b64_state) (l : list byte) : b64_state * list byte :=
  match l with
  | [] => (s, [])
  | f :: l' =>
    match b_step s with
    | StepA =>
      let '(s', out) := b64_block (mkB64 StepB (N.shiftl (N.land f 3) 4) (b_count s)) l' in
      (s', b64_value (N.shiftr (N.land f 252) 2) :: out)
    | StepB =>
      let '(s', out) := b64_block (mkB64 StepC (N.shiftl (N.land f 15) 2) (b_count s)) l' in
      (s', b64_value (N.lor (b_result s) (N.shiftr (N.land f 240) 4)) :: out)
    | StepC =>
      let c1 := b64_value (N.lor (b_result s) (N.shiftr (N.land f 192) 6)) in
      let r := N.land f 63 in
      let wrap := Nat.eqb (S (b_count s)) 18 in
      let '(s', out) := b64_block (mkB64 StepA r (if wrap then 0%nat else S (b_count s))) l' in
      (s', [c1; b64_value r] ++ (if wrap then [10] else []) ++ out)
    end
  end.

(** cencode.c:87-107 base64_encode_blockend *)
Definition b64_end (s : b64_state) : list byte :=
  match b_step s with
  | StepA => [10]
  | StepB => [b64_value (b_result s); 61; 61; 10]
  | StepC => [b64_value (b_result s); 61; 10]
  end.

(** Use of the encoder as label-set.c:159-163 does: init, blocks, end. *)
Fixpoint b64_blocks (s : b64_state) (ls : list (list byte)) : b64_state * list byte :=
  match ls with
  | [] => (s, [])
  | l :: ls' => let '(s1, o1) := b64_block s l in
                let '(s2, o2) := b64_blocks s1 ls' in (s2, o1 ++ o2)
  end.
Definition b64_encode (blocks : list (list byte)) : list byte :=
  let '(s, out) := b64_blocks b64_init blocks in out ++ b64_end s.

(** * Base 62 *)

(** b62encode.c:59-68 *)
Definition b62_tab : list byte := chars "ABCDEFGHIJKLMNOPQRSTUVWXYZabcdefghijklmnopqrstuvwxyz0123456789".
Definition b62_char (v : N) : byte := nth (N.to_nat v) b62_tab 0.

(** [k] digits, least significant first, of the value [v] *)
Fixpoint b62_digits (k : nat) (v : N) : list byte :=
  match k with O => [] | S k' => b62_char (v mod 62) :: b62_digits k' (v / 62) end.

(** b62encode.c:70-123 b62_encode.  In the tail cases with 1, 2 and 3 bytes the
    last character is the remaining quotient itself, without a remainder
    operation (an index beyond 61 would read outside the table).  In the 4-byte
    case data[i]<<24 is computed in int: for data[i] >= 128 it is negative and the
    assignment to uint64_t extends the sign (gcc's defined behaviour); the
    quotient left after five digits is dropped. *)
Fixpoint b62_encode (l : list byte) : list byte :=
  match l with
  | a :: b :: c :: d :: e :: l' =>
    b62_digits 7 (a * 4294967296 + b * 16777216 + c * 65536 + d * 256 + e) ++ b62_encode l'
  | [a; b; c; d] =>
    let v := a * 16777216 + b * 65536 + c * 256 + d in
    b62_digits 5 (if a <? 128 then v else v + 18446744069414584320)
  | [a; b; c] =>
    let v := a * 65536 + b * 256 + c in
    b62_digits 4 v ++ [b62_char (v / 14776336)]
  | [a; b] =>
    let v := a * 256 + b in
    b62_digits 2 v ++ [b62_char (v / 3844)]
  | [a] => [b62_char (a mod 62); b62_char (a / 62)]
  | [] => []
  end.

(** * Digests *)

(** sprintf("%02X") of one byte: two upper-case hexadecimal digits *)
Definition hex_tab : list byte := chars "0123456789ABCDEF".
Definition hex2 (b : byte) : list byte :=
  [nth (N.to_nat (b / 16)) hex_tab 0; nth (N.to_nat (b mod 16)) hex_tab 0].

(** ldms.c:1154-1169 ldms_digest_str; None is NULL with errno ENOBUFS.  The
    result is the text without its NUL. *)
Definition digest_str (d : list byte) (buf_len : nat) : option (list byte) :=
  if Nat.ltb buf_len (2 * 32 + 1) then None else Some (flat_map hex2 d).

(** ctype isxdigit in the C locale *)
Definition isxdigit (c : byte) : bool :=
  ((48 <=? c) && (c <=? 57) || (65 <=? c) && (c <=? 70) || (97 <=? c) && (c <=? 102))%bool.
(** ldms.c:1171-1197 hex_int: other entries of the array are zero *)
Definition hex_int (c : byte) : N :=
  if ((48 <=? c) && (c <=? 57))%bool then c - 48
  else if ((65 <=? c) && (c <=? 70))%bool then c - 55
  else if ((97 <=? c) && (c <=? 102))%bool then c - 87
  else 0.

(** ldms.c:1205-1211: the loop; the text is a C string without its NUL, so the
    last of an odd number of characters would be paired with the NUL *)
Fixpoint str_digest_loop (s : list byte) : option (list byte) :=
  match s with
  | [] => Some []
  | c :: s' =>
    let c2 := match s' with [] => 0 | c2 :: _ => c2 end in
    if (negb (isxdigit c) && negb (isxdigit c2))%bool then None
    else
      let v := N.lor (N.land (N.shiftl (hex_int c) 4) 255) (hex_int c2) in
      match s' with
      | [] => Some [v]
      | _ :: s'' => match str_digest_loop s'' with None => None | Some d => Some (v :: d) end
      end
  end.
(** ldms.c:1199-1213 ldms_str_digest; None is EINVAL *)
Definition str_digest (s : list byte) : option (list byte) :=
  if Nat.eqb (length s) 64 then str_digest_loop s else None.
