(** Model of the key-value information of sets: ldms/src/core/ldms.c:3535-3695, the part
    of the lookup message that carries it (ldms/src/core/ldms_xprt.c:1140-1220,
    1341-1361, 2564-2623) and directory replies (ldms_xprt.c:1775-1841, 1965-1990).

    Strings are sequences of characters without NUL.  Bodies run under the lock of the
    set: one step each. *)
From Verif Require Export M_Dir.
From Coq Require Import String.
Local Open Scope Z_scope.

Notation pairs := (list (text * text)).
(** ldms.c:3607 *)
Fixpoint find (k : text) (l : pairs) : option text :=
  match l with [] => None | (a, v) :: l => if teq k a then Some v else find k l end.
(** The value of a pair replaced in place; a pair removed *)
Fixpoint replace (k v : text) (l : pairs) : pairs :=
  match l with [] => [] | (a, w) :: l => if teq k a then (a, v) :: l else (a, w) :: replace k v l end.
Fixpoint remove (k : text) (l : pairs) : pairs :=
  match l with [] => [] | (a, w) :: l => if teq k a then l else (a, w) :: remove k l end.
(** ldms.c:3539-3577; [pair_ok]: malloc and strdup of the key succeed, [val_ok]: strdup
    of the value does *)
Definition info_set (pair_ok val_ok : bool) (l : pairs) (k v : text) : pairs * Z :=
  match find k l with
  | Some w => if teq v w then (l, -1) else if val_ok then (replace k v l, 0) else (remove k l, ENOMEM)
  | None => if negb pair_ok then (l, ENOMEM) else if val_ok then ((k, v) :: l, 0) else (l, ENOMEM)
  end.

(** A set: its own information, that of the process it comes from, whether it is
    published *)
Record iset := mkI { loc : pairs; rem : pairs; published : bool }.
(** What is listed about it (also ldms.c:459-493) *)
Definition shown_info (s : iset) : pairs := shown (mkS [] (loc s) (rem s) true).
(** Directory updates sent to the peers: the information they carry *)
Notation updates := (list pairs).
Definition upd (s : iset) : updates := if published s then [shown_info s] else [].

(** ldms.c:3579-3604; None: a NULL pointer *)
Definition set_info_set (pair_ok val_ok : bool) (s : iset) (k v : option text) : iset * Z * updates :=
  match k, v with
  | Some k, Some v =>
      let '(l, rc) := info_set pair_ok val_ok (loc s) k v in
      let s' := mkI l (rem s) (published s) in
      if 0 <? rc then (s', rc, []) else if rc =? -1 then (s', 0, []) else (s', rc, upd s')
  | _, _ => (s, EINVAL, [])
  end.
(** 3625-3638 *)
Definition set_info_unset (s : iset) (k : text) : iset * updates :=
  match find k (loc s) with
  | None => (s, [])
  | Some _ => let s' := mkI (remove k (loc s)) (rem s) (published s) in (s', upd s')
  end.
(** 3640-3659 *)
Definition set_info_get (s : iset) (k : text) : option text :=
  match find k (loc s) with Some v => Some v | None => find k (rem s) end.

(** ** A directory reply, ldms_xprt.c:1775-1841.  Allocations succeed. *)
(** 1786-1812 *)
Fixpoint set_all (l : pairs) (new : pairs) (changed : bool) : pairs * bool :=
  match new with
  | [] => (l, changed)
  | (k, v) :: new => let '(l, rc) := info_set true true l k v in set_all l new (changed || (rc =? 0))
  end.
(** 1813-1828: pairs that are not listed go *)
Definition listed (new : pairs) (k : text) : bool := existsb (fun p => teq k (fst p)) new.
Definition drop_unlisted (l new : pairs) : pairs * bool :=
  (filter (fun p => listed new (fst p)) l, negb (forallb (fun p => listed new (fst p)) l)).
(** [update]: the reply is a directory update (LDMS_DIR_UPD); 1969-1973: nothing is done
    if no information is listed *)
Definition dir_info (update : bool) (s : iset) (new : pairs) : iset * updates :=
  match new with
  | [] => (s, [])
  | _ =>
    let '(l, c1) := set_all (rem s) new false in
    let '(l, c2) := drop_unlisted l new in
    let s' := mkI (loc s) l (published s) in
    (s', if update && (c1 || c2) then upd s' else [])
  end.

(** ** The lookup message, ldms_xprt.c:1140-1192: each string is a struct ldms_name, a
    uint8_t length that counts the NUL and the characters with the NUL.  [size]: bytes
    from set_info to the end of the message; [None]: a write beyond. *)
Definition byte (z : Z) : ascii := ascii_of_nat (Z.to_nat (z mod 256)).
Definition put_name (size : Z) (m : mem) (off : Z) (t : text) : option (mem * Z) :=
  if off + 1 + zlen t + 1 <=? size then
    Some (write (write m off [byte (zlen t + 1)]) (off + 1) (t ++ [zero]), off + 1 + (zlen t + 1) mod 256)
  else None.
Fixpoint put_names (size : Z) (m : mem) (off : Z) (l : list text) : option (mem * Z) :=
  match l with
  | [] => if off + 1 <=? size then Some (write m off [zero], off + 1) else None
  | t :: l => match put_name size m off t with Some (m, off) => put_names size m off l | None => None end
  end.
Definition flat (l : pairs) : list text := flat_map (fun p => [fst p; snd p]) l.
(** 1341-1354: the size of that part of the message (sizeof(struct ldms_name) is 1) *)
Definition msg_size (schema inst : text) (l : pairs) : Z :=
  1 * (2 + zlen l * 2 + 1) + (zlen inst + 1) + (zlen schema + 1)
  + fold_right Z.add 0 (map (fun p => zlen (fst p) + zlen (snd p) + 2) l).
(** calloc; the names of the set are stored the same way and are at most 254 long *)
Definition lookup_msg (schema inst : text) (s : iset) : option (mem * Z) :=
  put_names (msg_size schema inst (shown_info s)) (fun _ => zero) 0 (schema :: inst :: flat (shown_info s)).

(** The receiver, 2564-2600: the text of a string ends at the first NUL; [None]: a read
    beyond the message *)
Fixpoint cstr (fuel : nat) (size : Z) (m : mem) (off : Z) : option text :=
  match fuel with
  | O => None
  | S fuel => if off <? size then
      if Ascii.eqb (m off) zero then Some [] else option_map (cons (m off)) (cstr fuel size m (off + 1))
    else None
  end.
Definition len_at (m : mem) (off : Z) : Z := Z.of_nat (nat_of_ascii (m off)).
Fixpoint get_pairs (fuel : nat) (size : Z) (m : mem) (off : Z) : option pairs :=
  match fuel with
  | O => None
  | S fuel =>
      if negb (off <? size) then None
      else if len_at m off =? 0 then Some []
      else
        let voff := off + 1 + len_at m off in
        if negb (voff <? size) then None
        else match cstr (Z.to_nat size) size m (off + 1), cstr (Z.to_nat size) size m (voff + 1) with
        | Some k, Some v => option_map (cons (k, v)) (get_pairs fuel size m (voff + 1 + len_at m voff))
        | _, _ => None
        end
  end.
(** handle_rendezvous_lookup, 2652-2685, for an instance that does not exist: the new set *)
Definition looked_up (size : Z) (m : mem) : option (text * text * iset) :=
  if negb (0 <? size) then None else
  let ioff := 1 + len_at m 0 in
  if negb (ioff <? size) then None
  else match cstr (Z.to_nat size) size m 1, cstr (Z.to_nat size) size m (ioff + 1),
             get_pairs (Z.to_nat size) size m (ioff + 1 + len_at m ioff) with
  | Some sch, Some inst, Some l => Some (sch, inst, mkI [] (fst (set_all [] l false)) false)
  | _, _, _ => None
  end.
(** 2655-2668: what happens first.  If the set exists, the pointer is set to NULL and
    then the reference of what it points to is put. *)
Inductive outcome := Created (sch inst : text) (s : iset) | NullRef | Overread.
Definition lookup_reply (exists_local : text -> bool) (size : Z) (m : mem) : outcome :=
  match looked_up size m with
  | None => Overread
  | Some (sch, inst, s) => if exists_local inst then NullRef else Created sch inst s
  end.
