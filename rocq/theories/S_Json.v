(** JSON texts: a grammar with what each text denotes. *)
From Verif Require Export M_Json.
From Coq Require Import String.
Local Open Scope Z_scope.

(** A text of JSON as a tree, with the white space *)
Inductive cst :=
  | CInt (z : Z) | CBool (b : bool) | CFloat (t : text) | CStr (t : text) | CNull
  | CList (w : text) (l : list (text * cst * text))
  | CDict (w : text) (l : list (text * text * text * text * cst * text)).
(** Each item of a list has white space before and behind; an attribute also around the
    colon; [w] is the white space of an empty list or dictionary *)
Fixpoint join (l : list text) : text := match l with [] => [] | [t] => t | t :: l => t ++ ","%char :: join l end.
Fixpoint render (c : cst) : text :=
  match c with
  | CInt z => print_ld z
  | CBool b => if b then str "true" else str "false"
  | CFloat t => t
  | CStr t => quoted t
  | CNull => str "null"
  | CList w l => "["%char :: match l with [] => w | _ => join (map (fun '(u, c, v) => u ++ render c ++ v) l) end ++ str "]"
  | CDict w l => "{"%char :: match l with [] => w | _ => join (map (fun '(u, k, a, b, c, v) => u ++ quoted k ++ a ++ ":"%char :: b ++ render c ++ v) l) end ++ str "}"
  end.
(** The last attribute of a name counts *)
Fixpoint last_of (l : list (text * entity)) : list (text * entity) :=
  match l with [] => [] | (k, v) :: l => if existsb (fun p => teq k (fst p)) l then last_of l else (k, v) :: last_of l end.
Fixpoint meaning (c : cst) : entity :=
  match c with
  | CInt z => JInt z
  | CBool b => JBool b
  | CFloat t => JFloat t
  | CStr t => JStr t
  | CNull => JNull
  | CList _ l => JList (map (fun '(_, c, _) => meaning c) l)
  | CDict _ l => JDict (last_of (map (fun '(_, k, _, _, c, _) => (k, meaning c)) l))
  end.

(** White space, the characters of strings (as written, with escapes), numbers *)
Definition white (t : text) : Prop := Forall (fun c => c = " "%char \/ c = "009"%char \/ c = "010"%char \/ c = "013"%char) t.
Inductive unit : text -> Prop :=
  | u_plain : forall c, c <> QUO -> c <> BSL -> unit [c]
  | u_esc : forall e, In e [QUO; BSL; "/"%char; "b"%char; "f"%char; "n"%char; "r"%char; "t"%char] -> unit [BSL; e]
  | u_uni : forall a b c d, Forall (fun x => hexa x = true) [a; b; c; d] -> unit [BSL; "u"%char; a; b; c; d].
Definition raw (t : text) : Prop := exists us, t = List.concat us /\ Forall unit us.
Definition numeral (t : text) : Prop := t <> [] /\ Forall (fun c => digit c = true) t.
Definition float (t : text) : Prop :=
  exists s d f x, (s = [] \/ s = str "-") /\ numeral d /\
  (f = [] \/ exists g, numeral g /\ f = "."%char :: g) /\
  (x = [] \/ exists e g y, (e = "e"%char \/ e = "E"%char) /\ (g = [] \/ g = str "+" \/ g = str "-") /\ numeral y /\ x = e :: g ++ y) /\
  (f <> [] \/ x <> []) /\ t = s ++ d ++ f ++ x.
Fixpoint valid (c : cst) : Prop :=
  match c with
  | CInt z => I64MIN <= z <= I64MAX
  | CFloat t => float t
  | CStr t => raw t
  | CBool _ | CNull => True
  | CList w l => white w /\ (fix all l := match l with [] => True | (u, c, v) :: l => (white u /\ valid c /\ white v) /\ all l end) l
  | CDict w l => white w /\ (fix all l := match l with [] => True
      | (u, k, a, b, c, v) :: l => (white u /\ raw k /\ white a /\ white b /\ valid c /\ white v) /\ all l end) l
  end.
Fixpoint depth (c : cst) : Z :=
  match c with
  | CList _ l => 1 + fold_right Z.max 0 (map (fun '(_, c, _) => depth c) l)
  | CDict _ l => 1 + fold_right Z.max 0 (map (fun '(_, _, _, _, c, _) => depth c) l)
  | _ => 0
  end.
(** The text without white space of an entity *)
Fixpoint plainly (e : entity) : cst :=
  match e with
  | JInt z => CInt z | JBool b => CBool b | JFloat t => CFloat t | JStr t => CStr t | JNull => CNull
  | JList l => CList [] (map (fun e => ([], plainly e, [])) l)
  | JDict l => CDict [] (map (fun '(k, e) => ([], k, [], [], plainly e, [])) l)
  end.
Definition dump (e : entity) : text := render (plainly e).
(** Dictionaries have one attribute of a name *)
Fixpoint proper (e : entity) : Prop :=
  match e with
  | JList l => (fix all l := match l with [] => True | e :: l => proper e /\ all l end) l
  | JDict l => NoDup (map fst l) /\ (fix all l := match l with [] => True | (_, e) :: l => proper e /\ all l end) l
  | _ => True
  end.
(** No doubles in it: %f does not print all the digits *)
Fixpoint nofloat (e : entity) : Prop :=
  match e with
  | JFloat _ => False
  | JList l => (fix all l := match l with [] => True | e :: l => nofloat e /\ all l end) l
  | JDict l => (fix all l := match l with [] => True | (_, e) :: l => nofloat e /\ all l end) l
  | _ => True
  end.
(** The characters a string of JSON stands for (without \u) *)
Fixpoint decode (t : text) : option text :=
  match t with
  | [] => Some []
  | c :: t =>
      if is c BSL then
        match t with
        | [] => None
        | e :: t =>
            match decode t with
            | None => None
            | Some s =>
                if is e QUO || is e BSL || is e "/"%char then Some (e :: s)
                else if is e "b"%char then Some ("008"%char :: s)
                else if is e "f"%char then Some ("012"%char :: s)
                else if is e "n"%char then Some ("010"%char :: s)
                else if is e "r"%char then Some ("013"%char :: s)
                else if is e "t"%char then Some ("009"%char :: s)
                else None
            end
        end
      else if is c QUO then None
      else option_map (cons c) (decode t)
  end.
