(** What the encoders should do: RFC 4648 decoding, line length, hexadecimal. *)
From Verif Require Export M_Codec.
From Coq Require Import List. Import ListNotations.
Local Open Scope N_scope.

(** RFC 4648, section 4: value of a character *)
Definition rfc_value (c : byte) : option N :=
  if ((65 <=? c) && (c <=? 90))%bool then Some (c - 65)
  else if ((97 <=? c) && (c <=? 122))%bool then Some (c - 97 + 26)
  else if ((48 <=? c) && (c <=? 57))%bool then Some (c - 48 + 52)
  else if c =? 43 then Some 62 else if c =? 47 then Some 63 else None.

(** Groups of four characters are three bytes; the last group may be padded with
    '=' (61). *)
Fixpoint rfc_decode (l : list byte) : option (list byte) :=
  match l with
  | [] => Some []
  | a :: b :: c :: d :: l' =>
    match rfc_value a, rfc_value b, rfc_value c, rfc_value d with
    | Some w, Some x, Some y, Some z =>
      match rfc_decode l' with
      | None => None
      | Some r => let v := w * 262144 + x * 4096 + y * 64 + z in
                  Some (v / 65536 :: v / 256 mod 256 :: v mod 256 :: r)
      end
    | Some w, Some x, Some y, None =>
      if ((d =? 61) && match l' with [] => true | _ => false end)%bool
      then let v := w * 262144 + x * 4096 + y * 64 in
           if v mod 256 =? 0 then Some [v / 65536; v / 256 mod 256] else None
      else None
    | Some w, Some x, None, None =>
      if ((c =? 61) && (d =? 61) && match l' with [] => true | _ => false end)%bool
      then let v := w * 262144 + x * 4096 in
           if v mod 65536 =? 0 then Some [v / 65536] else None
      else None
    | _, _, _, _ => None
    end
  | _ => None
  end.

Definition no_breaks (l : list byte) : list byte := filter (fun c => negb (c =? 10)) l.

(** No line longer than [max]; [cur] characters of the current line passed. *)
Fixpoint lines_within (max cur : nat) (l : list byte) : Prop :=
  match l with
  | [] => True
  | c :: l' => if c =? 10 then lines_within max 0 l'
               else (cur < max)%nat /\ lines_within max (S cur) l'
  end.

(** Hexadecimal digits and their values *)
Inductive hex_digit : byte -> N -> Prop :=
| hx_dec c : 48 <= c <= 57 -> hex_digit c (c - 48)
| hx_up c : 65 <= c <= 70 -> hex_digit c (c - 65 + 10)
| hx_lo c : 97 <= c <= 102 -> hex_digit c (c - 97 + 10).

(** Text [s] is the hexadecimal form of [d]. *)
Inductive hex_text : list byte -> list byte -> Prop :=
| ht_nil : hex_text [] []
| ht_cons a b x y s d : hex_digit a x -> hex_digit b y -> hex_text s d -> hex_text (a :: b :: s) (16 * x + y :: d).
