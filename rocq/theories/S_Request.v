(** Specification vocabulary for C16-C18 and C41 (configuration messages). *)
From Verif Require Import Bytes M_Request M_Parse.

(** ** C16 *)

(** The pieces of one message with the flags its sender passes: start on the
    first, end on the last. *)
Fixpoint mark_from (first : bool) (pieces : list (list byte)) : list (N * list byte) :=
  match pieces with
  | [] => []
  | d :: ps =>
    ((if first then 1 else 0) + match ps with [] => 2 | _ => 0 end, d)%N :: mark_from false ps
  end.
Definition mark (pieces : list (list byte)) := mark_from true pieces.

(** Byte layout of the start and end marks: bits 0 and 1 of the big-endian
    word at byte 8, i.e. of byte 11. *)
Definition starts (r : list byte) : bool := N.odd (nth 11 r 0%N).
Definition ends (r : list byte) : bool := N.odd (nth 11 r 0%N / 2).

(** The records of one message: exactly the first starts it, exactly the last
    ends it. *)
Definition well_marked (rs : list (list byte)) : Prop :=
  forall i r, nth_error rs i = Some r ->
    starts r = Nat.eqb i 0 /\ ends r = Nat.eqb (S i) (length rs).

(** ** C17 *)

(** One attribute on the wire: a non-zero discriminator, an id, the length of
    the value and the value. *)
Definition raw_attr (d i : N) (v : list byte) : list byte :=
  be32 d ++ be32 i ++ be32 (N.of_nat (length v)) ++ v.

(** [attr_list l rest]: [l] is a terminated attribute list followed by [rest];
    every non-empty value ends in NUL. *)
Inductive attr_list : list byte -> list byte -> Prop :=
| al_end rest : attr_list (be32 0 ++ rest) rest
| al_cons d i v l rest : d <> 0%N -> (v = [] \/ exists v', v = v' ++ [0%N]) ->
    attr_list l rest -> attr_list (raw_attr d i v ++ l) rest.

(** A message all of whose attributes, values and list end lie inside it. *)
Definition well_formed (m : list byte) : Prop :=
  exists h l rest, m = h ++ l /\ length h = 24%nat /\ attr_list l rest.

(** The attribute positions met when walking the list from byte 24. *)
Inductive attr_at (m : list byte) : nat -> Prop :=
| aa_first : attr_at m 24
| aa_next p : attr_at m p -> word32 m p <> 0%N -> (p + 12 <= length m)%nat ->
    attr_at m (p + 12 + N.to_nat (word32 m (p + 8))).

(** ** C18 *)

Definition delim (c : byte) : Prop := c = 32%N \/ c = 9%N.

(** [words l ws]: [ws] are the maximal delimiter-free runs of [l], in order. *)
Inductive words : list byte -> list (list byte) -> Prop :=
| ws_nil d : Forall delim d -> words d []
| ws_cons d w l ws : Forall delim d -> w <> [] -> Forall (fun c => ~ delim c) w ->
    (l = [] \/ exists c l', l = c :: l' /\ delim c) -> words l ws ->
    words (d ++ w ++ l) (w :: ws).

(** A word is name=value or a bare keyword. *)
Inductive word_means : list byte -> list byte -> option (list byte) -> Prop :=
| wm_kw n : ~ In 61%N n -> word_means n n None
| wm_av n v : ~ In 61%N n -> word_means (n ++ 61%N :: v) n (Some v).

(** The attribute a word stands for. *)
Definition word_attr (w : list byte) (a : attr) : Prop :=
  exists n v id, word_means w n v /\ In (n, id) attr_table /\ a = (id, v).

(** Attributes on the wire: keyword without value bytes, value with its NUL. *)
Definition wire (a : attr) : list byte :=
  raw_attr 1 (fst a) (match snd a with None => [] | Some v => v ++ [0%N] end).

(** The verbs with their own syntax; all other verbs are "generic". *)
Definition special_ids : list N := [1287; 1541; 1552; 2560; 1554; 268; 1558]%N.

(** Words split by a property of their names, each part in line order. *)
Inductive parted (P : list byte -> Prop) :
  list (list byte) -> list (list byte) -> list (list byte) -> Prop :=
| pt_nil : parted P [] [] []
| pt_own w n v ws a b : word_means w n v -> P n -> parted P ws a b -> parted P (w :: ws) (w :: a) b
| pt_other w n v ws a b : word_means w n v -> ~ P n -> parted P ws a b -> parted P (w :: ws) a (w :: b).

(** Words joined by single spaces. *)
Fixpoint join (ws : list (list byte)) : list byte :=
  match ws with
  | [] => []
  | [w] => w
  | w :: ws' => w ++ 32%N :: join ws'
  end.


(** The whole journey of a command line: it is cut into records of at most
    [max] bytes, the peer gathers them (all but the last ask for more) into a
    message that carries the request id, the message number and exactly [attrs],
    and validation accepts it. *)
Definition delivered (line : list byte) (msg_no : N) (max : nat) (junk : list byte) (id : N)
    (attrs : list attr) : Prop :=
  exists recs rcs g h,
    parse_config_str line msg_no max = POk recs /\
    Forall (fun r => (length r <= max)%nat) recs /\ well_marked recs /\
    gather_all (msg_buf_new junk) recs = Some (rcs, g) /\
    rcs = repeat EBUSY (length recs - 1) ++ [0%Z] /\
    message g = h ++ flat_map wire attrs ++ be32 0 /\
    length h = 24%nat /\ word32 h 16 = id /\ word32 h 12 = msg_no /\
    validate (message g) = VAccept.

