(** What a user of the information of sets relies on: two maps, the own one first. *)
From Verif Require Export M_Info.
Local Open Scope Z_scope.

Definition kv := text -> option text.
Definition put (f : kv) (k : text) (v : option text) : kv := fun x => if list_eq_dec ascii_dec x k then v else f x.
(** The last value given to a key in a list *)
Fixpoint said (l : pairs) : kv :=
  match l with [] => fun _ => None | (k, v) :: l => fun x => match said l x with Some w => Some w | None => if list_eq_dec ascii_dec x k then Some v else None end end.

(** Calls and replies *)
Inductive op := OSet (k v : text) | OUnset (k : text) | ODir (update : bool) (l : pairs) | OBad.
Definition mstep (s : iset) (o : op) : iset * Z * updates :=
  match o with
  | OSet k v => set_info_set true true s (Some k) (Some v)
  | OUnset k => let '(s, u) := set_info_unset s k in (s, 0, u)
  | ODir b l => let '(s, u) := dir_info b s l in (s, 0, u)
  | OBad => set_info_set true true s None (Some [])
  end.
Fixpoint mrun (s : iset) (l : list op) : iset := match l with [] => s | o :: l => mrun (fst (fst (mstep s o))) l end.

(** The abstract state: own information, peer's information *)
Definition astep (a : kv * kv) (o : op) : kv * kv :=
  match o with
  | OSet k v => (put (fst a) k (Some v), snd a)
  | OUnset k => (put (fst a) k None, snd a)
  | ODir _ l => (fst a, said l)
  | OBad => a
  end.
Fixpoint arun (a : kv * kv) (l : list op) : kv * kv := match l with [] => a | o :: l => arun (astep a o) l end.
Definition view (a : kv * kv) : kv := fun k => match fst a k with Some v => Some v | None => snd a k end.
(** Replies that list something *)
Definition speaks (o : op) : Prop := match o with ODir _ [] => False | _ => True end.
(** A listing that says [f]: each key once *)
Definition tells (l : pairs) (f : kv) : Prop := NoDup (map fst l) /\ forall k v, In (k, v) l <-> f k = Some v.
(** Strings of the wire *)
Definition plain (t : text) : Prop := ~ In zero t.
Definition short (t : text) : Prop := zlen t <= 254.
