(** What the hash table, the JSON dictionary and the string map should do. *)
From Verif Require Export M_Hash.
Local Open Scope N_scope.

(** ** Hash table: the live entries, the last inserted first *)
Inductive hreach (hash : list byte -> N -> N) (depth : N) : htbl -> list (N * hdat) -> Prop :=
| hr_new m : hreach hash depth (htbl_alloc depth m) []
| hr_init t L a e : hreach hash depth t L -> ~ In a (map fst L) ->
    hreach hash depth (mkHt (table_depth t) (entry_count t) (put (lists t) a e)) L
| hr_ins t L a e t' : hreach hash depth t L -> a <> 0 -> ~ In a (map fst L) -> en (lists t) a = Some e ->
    htbl_ins hash t a = Some t' -> hreach hash depth t' ((a, dat e) :: L)
| hr_del t L1 a d L2 t' : hreach hash depth t (L1 ++ (a, d) :: L2) -> htbl_del t a = Some t' ->
    hreach hash depth t' (L1 ++ L2).

(** [a] is the last inserted of the entries with that key, 0 if there is none. *)
Definition latest (L : list (N * hdat)) (k : list byte) (len a : N) : Prop :=
  (a = 0 /\ forall b d, In (b, d) L -> ~ (key d = k /\ key_len d = len)) \/
  (exists L1 d L2, L = L1 ++ (a, d) :: L2 /\ a <> 0 /\ key d = k /\ key_len d = len /\
     forall b c, In (b, c) L1 -> ~ (key c = k /\ key_len c = len)).

(** ** A finite map from texts to numbers *)
Definition fmap := list (list byte * N).
Definition keq (a b : list byte) : bool := if list_eq_dec N.eq_dec a b then true else false.
Definition lookup (M : fmap) (k : list byte) : option N := option_map snd (find (fun p => keq (fst p) k) M).
Definition without (M : fmap) (k : list byte) : fmap := filter (fun p => negb (keq (fst p) k)) M.

(** ** Sessions with a JSON dictionary *)
Inductive jop := JAdd (name : list byte) (v a : N) (e : ent hdat) | JRem (name : list byte) | JFind (name : list byte) | JCount.
Inductive out := Rc (z : Z) | Val (v : option N) | Got (v : N) (errno : Z) | Cnt (n : N).
Definition jname (op : jop) : list byte := match op with JAdd k _ _ _ => k | JRem k => k | JFind k => k | JCount => [] end.
(** the dictionary of the code *)
Definition jdo (fuel : nat) (op : jop) (d : htbl) : option (out * htbl) :=
  match op with
  | JAdd k v a e => bnd (json_attr_add fuel d k v a e) (fun r => Some (Rc (fst r), snd r))
  | JRem k => bnd (json_attr_rem fuel d k) (fun r => Some (Rc (fst r), snd r))
  | JFind k => bnd (json_attr_find fuel d k) (fun a => if a =? 0 then Some (Val None, d) else bnd (json_attr_value d a) (fun v => Some (Val (Some v), d)))
  | JCount => Some (Cnt (json_attr_count d), d)
  end.
(** the map it should be; malloc may fail *)
Definition jwant (op : jop) (M : fmap) : out * fmap :=
  match op with
  | JAdd k v a _ => if a =? 0 then (Rc ENOMEM, M) else (Rc 0, (k, v) :: without M k)
  | JRem k => match lookup M k with None => (Rc ENOENT, M) | Some _ => (Rc 0, without M k) end
  | JFind k => (Val (lookup M k), M)
  | JCount => (Cnt (N.of_nat (length M) mod H32), M)
  end.
(** malloc gives memory that is not in use *)
Definition jfresh (op : jop) (d : htbl) : Prop := match op with JAdd _ _ a _ => en (lists d) a = None | _ => True end.
(** A session, as far as it is defined: what it returned and the dictionary at its end *)
Inductive jsession (fuel : nat) : htbl -> list jop -> list out -> htbl -> Prop :=
| js_nil d : jsession fuel d [] [] d
| js_cons d op o d1 ops os d2 : jfresh op d -> jdo fuel op d = Some (o, d1) -> jsession fuel d1 ops os d2 ->
    jsession fuel d (op :: ops) (o :: os) d2.
Fixpoint jwants (ops : list jop) (M : fmap) : list out * fmap :=
  match ops with
  | [] => ([], M)
  | op :: ops => let (o, M1) := jwant op M in let (os, M2) := jwants ops M1 in (o :: os, M2)
  end.
(** No name is a proper prefix of another. *)
Definition prefix_free (U : list byte -> Prop) : Prop := forall k r, U k -> U (k ++ r) -> r = [].

(** ** Sessions with a string map *)
Inductive sop := SIns (k : list byte) (v a : N) (e : ent sdat) (dup : bool) | SRem (k : list byte) | SGet (k : list byte).
Definition sdo (fuel : nat) (op : sop) (m : smap) : option (out * smap) :=
  match op with
  | SIns k v a e dup => bnd (str_map_insert fuel m k v a e dup) (fun r => Some (Rc (fst r), snd r))
  | SRem k => bnd (str_map_remove fuel m k) (fun r => Some (Rc (fst r), snd r))
  | SGet k => bnd (str_map_get fuel m k) (fun r => Some (Got (fst r) (snd r), m))
  end.
Definition swant (op : sop) (M : fmap) : out * fmap :=
  match op with
  | SIns k v a _ dup =>
    match lookup M k with
    | Some _ => (Rc EEXIST, M)
    | None => if (a =? 0) || negb dup then (Rc ENOMEM, M) else (Rc 0, (k, v) :: M)
    end
  | SRem k => match lookup M k with None => (Rc ENOENT, M) | Some _ => (Rc 0, without M k) end
  | SGet k => (match lookup M k with None => Got 0 ENOENT | Some v => Got v 0 end, M)
  end.
Definition sfresh (op : sop) (m : smap) : Prop := match op with SIns _ _ a _ _ => en (slists m) a = None | _ => True end.
Inductive ssession (fuel : nat) : smap -> list sop -> list out -> smap -> Prop :=
| ss_nil m : ssession fuel m [] [] m
| ss_cons m op o m1 ops os m2 : sfresh op m -> sdo fuel op m = Some (o, m1) -> ssession fuel m1 ops os m2 ->
    ssession fuel m (op :: ops) (o :: os) m2.
Fixpoint swants (ops : list sop) (M : fmap) : list out * fmap :=
  match ops with
  | [] => ([], M)
  | op :: ops => let (o, M1) := swant op M in let (os, M2) := swants ops M1 in (o :: os, M2)
  end.
