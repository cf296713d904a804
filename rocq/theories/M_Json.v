(** Model of the JSON library lib/src/ovis_json: the scanner ovis_json_lexer.l, the
    parser ovis_json_parser.y and the dump of ovis_json.c.

    Texts have no NUL.  A double is represented by the text it was read from; its
    conversions are not modelled.  A dictionary is the list of its attributes in the
    order in which they are visited (for the hash table see M_Hash.v).  Allocations
    succeed.  Texts are below 2 GB. *)
From Verif Require Export M_Dir.
From Coq Require Import String.
Local Open Scope Z_scope.

Inductive entity :=
  | JInt (z : Z) | JBool (b : bool) | JFloat (t : text) | JStr (t : text) | JNull
  | JList (l : list entity) | JDict (l : list (text * entity)).

(** ** The scanner: the longest match, the first rule of that length *)
Inductive tok := TStr (t : text) | TInt (z : Z) | TFloat (t : text) | TBool (b : bool) | TNull | TP (c : ascii).
Definition code (c : ascii) : Z := Z.of_nat (nat_of_ascii c).
Definition digit (c : ascii) : bool := (48 <=? code c) && (code c <=? 57).
Definition hexa (c : ascii) : bool := digit c || ((65 <=? code c) && (code c <=? 70)) || ((97 <=? code c) && (code c <=? 102)).
Definition is (c d : ascii) : bool := Ascii.eqb c d.
Definition QUO : ascii := """"%char.
Definition BSL : ascii := "\"%char.
(** ovis_json_lexer.l:64 *)
Definition esc (c : ascii) : bool :=
  is c QUO || is c BSL || is c "/"%char || is c "b"%char || is c "f"%char || is c "n"%char || is c "r"%char || is c "t"%char.
(** 66-67, behind the opening quote; None if the rule does not match *)
Fixpoint dq (t : text) : option (text * text) :=
  match t with
  | [] => None
  | c :: t1 =>
      if is c QUO then Some ([], t1)
      else if is c BSL then
        match t1 with
        | [] => None
        | e :: t2 =>
            if esc e then match dq t2 with Some (s, r) => Some (c :: e :: s, r) | None => None end
            else if is e "u"%char then
              match t2 with
              | h1 :: h2 :: h3 :: h4 :: t3 =>
                  if hexa h1 && hexa h2 && hexa h3 && hexa h4 then
                    match dq t3 with Some (s, r) => Some (c :: e :: h1 :: h2 :: h3 :: h4 :: s, r) | None => None end
                  else None
              | _ => None
              end
            else None
        end
      else match dq t1 with Some (s, r) => Some (c :: s, r) | None => None end
  end.
(** 82 *)
Fixpoint sq (t : text) : option (text * text) :=
  match t with
  | [] => None
  | c :: t => if is c "'"%char then Some ([], t) else match sq t with Some (s, r) => Some (c :: s, r) | None => None end
  end.
Fixpoint digits (t : text) : text * text :=
  match t with c :: r => if digit c then let '(d, r) := digits r in (c :: d, r) else ([], t) | [] => ([], []) end.
Definition opt (p : ascii -> bool) (t : text) : text * text :=
  match t with c :: r => if p c then ([c], r) else ([], t) | [] => ([], []) end.
Definition sign (c : ascii) : bool := is c "-"%char || is c "+"%char.
(** 94-101: the longest match of the rule for floats; whether the one for integers has
    the same length *)
Definition number (t : text) : text * text * bool :=
  let '(s, t0) := opt sign t in
  let '(d, t1) := digits t0 in
  let '(p, t2) := opt (fun c => is c "."%char) t1 in
  let '(f, t3) := digits t2 in
  let '(e, t4) := opt (fun c => is c "e"%char || is c "E"%char) t3 in
  let '(g, t5) := opt sign t4 in
  let '(x, t6) := digits t5 in
  let isint := match d, p, f with _ :: _, [], [] => true | _, _, _ => false end in
  match e, x with
  | _ :: _, _ :: _ => (s ++ d ++ p ++ f ++ e ++ g ++ x, t6, false)
  | _, _ => (s ++ d ++ p ++ f, t3, isint)
  end.
(** strtoll with base 0 of [-+]?[0-9]+: octal after a zero; the result saturates *)
Definition I64MAX := 9223372036854775807.
Definition I64MIN := -9223372036854775808.
Definition clamp (z : Z) : Z := Z.max I64MIN (Z.min I64MAX z).
Fixpoint radix (b acc : Z) (t : text) : Z :=
  match t with c :: r => let v := code c - 48 in if (0 <=? v) && (v <? b) then radix b (acc * b + v) r else acc | [] => acc end.
Definition strtoll0 (t : text) : Z :=
  let '(s, d) := opt sign t in
  let v := match d with c :: _ => if is c "0"%char then radix 8 0 d else radix 10 0 d | [] => 0 end in
  clamp (match s with [c] => if is c "-"%char then - v else v | _ => v end).
Fixpoint prefix (p t : text) : option text :=
  match p, t with [], _ => Some t | a :: p, b :: t => if is a b then prefix p t else None | _ :: _, [] => None end.
(** One match in a text that is not empty: a token or nothing, the rest *)
Definition next (c : ascii) (t : text) : option tok * text :=
  if is c QUO then match dq t with Some (s, r) => (Some (TStr s), r) | None => (None, t) end
  else if is c "'"%char then match sq t with Some (s, r) => (Some (TStr s), r) | None => (None, t) end
  else if is c "["%char || is c "]"%char || is c "{"%char || is c "}"%char || is c ","%char || is c ":"%char then (Some (TP c), t)
  else match number (c :: t) with
  | ((_ :: _) as y, r, true) => (Some (TInt (strtoll0 y)), r)
  | ((_ :: _) as y, r, false) => (Some (TFloat y), r)
  | ([], _, _) =>
      match prefix (str "true") (c :: t), prefix (str "false") (c :: t), prefix (str "null") (c :: t) with
      | Some r, _, _ => (Some (TBool true), r)
      | _, Some r, _ => (Some (TBool false), r)
      | _, _, Some r => (Some TNull, r)
      | _, _, _ => (None, t)
      end
  end.
Fixpoint lexf (fuel : nat) (t : text) : list tok :=
  match fuel, t with
  | S fuel, c :: t => match next c t with (Some k, r) => k :: lexf fuel r | (None, r) => lexf fuel r end
  | _, _ => []
  end.
Definition lex (t : text) : list tok := lexf (List.length t) t.

(** ** The parser, ovis_json_parser.y:84-127.  The generated parser has a stack of at most
    10000 states (YYMAXDEPTH), one of which is the start; [d] is the number of symbols
    below.  A state with one possible reduction reduces without looking ahead, so that
    what follows the value is not read. *)
Definition MAXD := 9998.
Inductive pres := POk (e : entity) (r : list tok) | PSyntax | PDeep | PFuel.
(** json_attr_add of ovis_json.c: a former attribute of the name goes *)
Definition attr_add (l : list (text * entity)) (k : text) (v : entity) : list (text * entity) :=
  filter (fun p => negb (teq (fst p) k)) l ++ [(k, v)].
Fixpoint value (fuel : nat) (d : Z) (ts : list tok) : pres :=
  match fuel with
  | O => PFuel
  | S fuel =>
      if MAXD <? d + 1 then match ts with [] => PSyntax | _ => PDeep end
      else match ts with
      | [] => PSyntax
      | TInt z :: r => POk (JInt z) r
      | TFloat t :: r => POk (JFloat t) r
      | TBool b :: r => POk (JBool b) r
      | TNull :: r => POk JNull r
      | TStr t :: r => POk (JStr t) r
      | TP c :: r =>
          if is c "["%char then
            match r with
            | TP x :: _ => if is x ","%char || is x "]"%char then items fuel d [] r
                           else match value fuel (d + 1) r with POk e r => items fuel d [e] r | x => x end
            | _ => match value fuel (d + 1) r with POk e r => items fuel d [e] r | x => x end
            end
          else if is c "{"%char then
            match r with
            | TStr k :: r =>
                if MAXD <? d + 2 then PDeep else
                match r with
                | TP x :: r => if is x ":"%char then
                      if MAXD <? d + 3 then PDeep else
                      match value fuel (d + 3) r with POk e r => attrs fuel d [(k, e)] r | x => x end
                    else PSyntax
                | _ => PSyntax
                end
            | _ => attrs fuel d [] r
            end
          else PSyntax
      end
  end
(** '[' item_list on the stack *)
with items (fuel : nat) (d : Z) (l : list entity) (ts : list tok) : pres :=
  match fuel with
  | O => PFuel
  | S fuel =>
      if MAXD <? d + 2 then PDeep
      else match ts with
      | TP c :: r =>
          if is c "]"%char then if MAXD <? d + 3 then PDeep else POk (JList l) r
          else if is c ","%char then
            if MAXD <? d + 3 then PDeep else
            match value fuel (d + 3) r with POk e r => items fuel d (l ++ [e]) r | x => x end
          else PSyntax
      | _ => PSyntax
      end
  end
(** '{' attr_list on the stack *)
with attrs (fuel : nat) (d : Z) (l : list (text * entity)) (ts : list tok) : pres :=
  match fuel with
  | O => PFuel
  | S fuel =>
      if MAXD <? d + 2 then PDeep
      else match ts with
      | TP c :: r =>
          if is c "}"%char then if MAXD <? d + 3 then PDeep else POk (JDict l) r
          else if is c ","%char then
            if MAXD <? d + 3 then PDeep else
            match r with
            | TStr k :: r =>
                if MAXD <? d + 4 then PDeep else
                match r with
                | TP x :: r => if is x ":"%char then
                      if MAXD <? d + 5 then PDeep else
                      match value fuel (d + 5) r with POk e r => attrs fuel d (attr_add l k e) r | x => x end
                    else PSyntax
                | _ => PSyntax
                end
            | _ => PSyntax
            end
          else PSyntax
      | _ => PSyntax
      end
  end.
(** json_parse_buffer: an entity or what yyparse returns *)
Definition parse (t : text) : pres := let ts := lex t in value (S (List.length ts)) 0 ts.

(** ** The dump *)
(** %ld *)
Definition dchar (n : N) : ascii := ascii_of_N (48 + n).
Fixpoint dec (fuel : nat) (n : N) : text :=
  match fuel with
  | O => []
  | S fuel => if (n <? 10)%N then [dchar n] else dec fuel (n / 10) ++ [dchar (n mod 10)]
  end.
Definition decimal (n : N) : text := dec (S (N.to_nat (N.log2 n))) n.
Definition print_ld (z : Z) : text := if z <? 0 then "-"%char :: decimal (Z.to_N (- z)) else decimal (Z.to_N z).
Definition quoted (t : text) : text := QUO :: t ++ [QUO].

(** struct jbuf_s: what is in the buffer, its size.  Pointers are numbers; [None]: freed. *)
Record heap := mkH { bufs : nat -> option (text * Z); fresh_at : nat }.
Inductive hres := HOk (h : heap) (p : nat) | HWild.
Section Dump.
(** Whether realloc moves the buffer, each time *)
Variable moves : nat -> bool.
(** ovis_json.c:54-76 jbuf_append_va *)
Definition append (h : heap) (p : nat) (t : text) : hres :=
  match bufs h p with
  | None => HWild
  | Some (b, len) =>
      if len - zlen b <=? zlen t then
        let len' := len + zlen t + 8192 in
        let q := if moves (fresh_at h) then fresh_at h else p in
        HOk (mkH (fun i => if Nat.eqb i q then Some (b ++ t, len') else if Nat.eqb i p then None else bufs h i) (S (fresh_at h))) q
      else HOk (mkH (fun i => if Nat.eqb i p then Some (b ++ t, len) else bufs h i) (fresh_at h)) p
  end.
Definition hbind (r : hres) (f : heap -> nat -> hres) : hres := match r with HOk h p => f h p | HWild => HWild end.
(** 370-408 __entity_dump, with 339-352 __list_dump and 354-368 __dict_dump.  What
    __entity_dump returns for an item of a list, and what __list_dump and __dict_dump
    return, is not used. *)
Fixpoint edump (h : heap) (p : nat) (e : entity) : hres :=
  match e with
  | JInt z => append h p (print_ld z)
  | JBool b => append h p (if b then str "true" else str "false")
  | JFloat t => append h p t
  | JStr t => append h p (quoted t)
  | JNull => append h p (str "null")
  | JList l =>
      match hbind (append h p (str "[")) (fun h q =>
        hbind ((fix go (h : heap) (q : nat) (first : bool) (l : list entity) : hres :=
          match l with
          | [] => HOk h q
          | i :: l =>
              hbind (if first then HOk h q else append h q (str ",")) (fun h q =>
              match edump h q i with HOk h _ => go h q false l | HWild => HWild end)
          end) h q true l) (fun h q => append h q (str "]")))
      with HOk h _ => HOk h p | HWild => HWild end
  | JDict l =>
      match hbind (append h p (str "{")) (fun h q =>
        hbind ((fix go (h : heap) (q : nat) (first : bool) (l : list (text * entity)) : hres :=
          match l with
          | [] => HOk h q
          | (k, v) :: l =>
              hbind (if first then HOk h q else append h q (str ",")) (fun h q =>
              hbind (append h q (quoted k ++ str ":")) (fun h q =>
              hbind (edump h q v) (fun h q => go h q false l)))
          end) h q true l) (fun h q => append h q (str "}")))
      with HOk h _ => HOk h p | HWild => HWild end
  end.
(** 410-431 json_entity_dump with NULL; what the caller reads in the buffer it gets,
    [None] if memory that was freed is used *)
Definition dumped (e : entity) : option text :=
  match edump (mkH (fun i => if Nat.eqb i 0 then Some ([], 8192) else None) 1) 0 e with
  | HOk h p => option_map fst (bufs h p)
  | HWild => None
  end.
End Dump.
