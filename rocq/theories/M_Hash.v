(** Model of the linked lists of sys/queue.h and of what is built from them: the
    hash table lib/src/coll/htbl.c, the string map lib/src/coll/str_map.c and the
    dictionary of lib/src/ovis_json/ovis_json.c. *)
From Verif Require Export Bytes.
Local Open Scope N_scope.

(** ** LIST of sys/queue.h (glibc) *)
(** A pointer to a pointer: the field lh_first of list head number [h], or the field
    le_next of the entry at an address *)
Inductive loc := Head (h : N) | Next (a : N).
(** An entry: le_next (0 is NULL), le_prev, and the rest of the structure *)
Record ent (P : Type) := mkEnt { nx : N; pv : loc; dat : P }.
Arguments mkEnt {P}. Arguments nx {P}. Arguments pv {P}. Arguments dat {P}.
(** The list heads of a table and the memory; None where nothing is allocated *)
Record bl (P : Type) := mkBl { hd1 : N -> N; en : N -> option (ent P) }.
Arguments mkBl {P}. Arguments hd1 {P}. Arguments en {P}.

Section BList.
Context {P : Type}.
Definition upd1 {A} (f : N -> A) (i : N) (v : A) : N -> A := fun j => if j =? i then v else f j.
Definition set_hd (s : bl P) (h a : N) : bl P := mkBl (upd1 (hd1 s) h a) (en s).
(** assignments to fields of the entry at [a]: None if there is no entry *)
Definition set_nx (s : bl P) (a v : N) : option (bl P) :=
  match en s a with Some e => Some (mkBl (hd1 s) (upd1 (en s) a (Some (mkEnt v (pv e) (dat e))))) | None => None end.
Definition set_pv (s : bl P) (a : N) (l : loc) : option (bl P) :=
  match en s a with Some e => Some (mkBl (hd1 s) (upd1 (en s) a (Some (mkEnt (nx e) l (dat e))))) | None => None end.
(** *l = v *)
Definition set_loc (s : bl P) (l : loc) (v : N) : option (bl P) :=
  match l with Head h => Some (set_hd s h v) | Next a => set_nx s a v end.
Definition bnd {A B} (o : option A) (f : A -> option B) : option B := match o with Some a => f a | None => None end.

(** LIST_INSERT_HEAD *)
Definition list_insert_head (s : bl P) (h a : N) : option (bl P) :=
  bnd (set_nx s a (hd1 s h)) (fun s =>
  bnd (if hd1 s h =? 0 then Some s else set_pv s (hd1 s h) (Next a)) (fun s =>
  set_pv (set_hd s h a) a (Head h))).
(** LIST_REMOVE *)
Definition list_remove (s : bl P) (a : N) : option (bl P) :=
  bnd (en s a) (fun e =>
  bnd (if nx e =? 0 then Some s else set_pv s (nx e) (pv e)) (fun s =>
  set_loc s (pv e) (nx e))).
(** LIST_FOREACH with a body that returns the first entry satisfying [f], 0 if the
    loop ends: None when an entry is not there or the fuel is exhausted *)
Fixpoint walk (fuel : nat) (s : bl P) (f : P -> bool) (a : N) : option N :=
  match fuel with
  | O => None
  | S fuel =>
    if a =? 0 then Some 0 else
    match en s a with None => None | Some e => if f (dat e) then Some a else walk fuel s f (nx e) end
  end.
Definition foreach (fuel : nat) (s : bl P) (f : P -> bool) (h : N) : option N := walk fuel s f (hd1 s h).
(** malloc of an entry at [a], free of it *)
Definition put (s : bl P) (a : N) (e : ent P) : bl P := mkBl (hd1 s) (upd1 (en s) a (Some e)).
Definition drop (s : bl P) (a : N) : option (bl P) := match en s a with Some _ => Some (mkBl (hd1 s) (upd1 (en s) a None)) | None => None end.
End BList.

(** ** htbl.c *)
Definition H64 : N := 18446744073709551616.
Definition H32 : N := 4294967296.
Definition FNV_64_PRIME : N := 1099511628211.
Definition FNV_64_SEED : N := 16045693110309609133.
(** htbl.c:57-67 default_hash_fn: unsigned bytes.  The index is an int: keys of 2^31
    bytes or more are not modelled. *)
Fixpoint fnv64 (h : N) (s : list byte) : N :=
  match s with [] => h | c :: s => fnv64 (N.lxor h c * FNV_64_PRIME mod H64) s end.
Definition default_hash (key : list byte) (key_len : N) : N := fnv64 FNV_64_SEED (firstn (N.to_nat key_len) key).

(** The rest of struct hent (htbl.h:11-16): what key points to, key_len; [obj] stands
    for the structure the entry is embedded in.  tbl is always the table. *)
Record hdat := mkHd { key : list byte; key_len : N; obj : N }.
(** struct htbl (htbl.h:18-24); cmp_fn and hash_fn are parameters, cmp_fn through
    whether it returns 0 *)
Record htbl := mkHt { table_depth : N; entry_count : N; lists : bl hdat }.

Section Htbl.
Variable hash_fn : list byte -> N -> N.
Variable cmp_eq : list byte -> list byte -> N -> bool.
Variable fuel : nat.

(** htbl.c:76-89 htbl_alloc, malloc succeeding; [m] is the memory of the entries *)
Definition htbl_alloc (depth : N) (m : N -> option (ent hdat)) : htbl := mkHt depth 0 (mkBl (fun _ => 0) m).
(** htbl.c:103-106 htbl_empty *)
Definition htbl_empty (t : htbl) : bool := entry_count t =? 0.
(** h = hash_fn(...); h %= table_depth: None is the division by 0 *)
Definition bucket (t : htbl) (k : list byte) (len : N) : option N :=
  if table_depth t =? 0 then None else Some (hash_fn k len mod table_depth t).
(** htbl.c:131-138 htbl_ins *)
Definition htbl_ins (t : htbl) (e : N) : option htbl :=
  bnd (en (lists t) e) (fun d =>
  bnd (bucket t (key (dat d)) (key_len (dat d))) (fun h =>
  bnd (list_insert_head (lists t) h e) (fun l =>
  Some (mkHt (table_depth t) ((entry_count t + 1) mod H64) l)))).
(** htbl.c:146-150 htbl_del *)
Definition htbl_del (t : htbl) (e : N) : option htbl :=
  bnd (list_remove (lists t) e) (fun l => Some (mkHt (table_depth t) ((entry_count t + (H64 - 1)) mod H64) l)).
(** htbl.c:160-175 htbl_find *)
Definition htbl_find (t : htbl) (k : list byte) (len : N) : option N :=
  bnd (bucket t k len) (fun h => foreach fuel (lists t) (fun d => cmp_eq (key d) k len) h).
(** htbl.c:183-194 htbl_first and the loop at 211-215, from bucket [h] on, [n] buckets *)
Fixpoint first_from (t : htbl) (n : nat) (h : N) : N :=
  match n with
  | O => 0
  | S n => if hd1 (lists t) h =? 0 then first_from t n (h + 1) else hd1 (lists t) h
  end.
Definition htbl_first (t : htbl) : N := first_from t (N.to_nat (table_depth t)) 0.
(** htbl.c:204-219 htbl_next *)
Definition htbl_next (t : htbl) (e : N) : option N :=
  bnd (en (lists t) e) (fun d =>
  if nx d =? 0 then
    bnd (bucket t (key (dat d)) (key_len (dat d))) (fun h => Some (first_from t (N.to_nat (table_depth t - (h + 1))) (h + 1)))
  else Some (nx d)).
(** A client's loop: for (e = htbl_first(t); e; e = htbl_next(e)), the entries seen *)
Fixpoint iterate (n : nat) (t : htbl) (e : N) : option (list N) :=
  match n with
  | O => None
  | S n => if e =? 0 then Some [] else bnd (htbl_next t e) (fun e' => bnd (iterate n t e') (fun l => Some (e :: l)))
  end.
End Htbl.

(** ** The dictionary of ovis_json.c *)
(** strncmp(a, b, n) == 0 for texts without NUL: bytes after the terminator are not
    compared *)
Fixpoint strncmp_eq (a b : list byte) (n : nat) : bool :=
  match n, a, b with
  | O, _, _ => true
  | S n, [], [] => true
  | S n, x :: a, y :: b => (x =? y) && strncmp_eq a b n
  | S _, _, _ => false
  end.
(** ovis_json.c:146-153 attr_cmp, 155 JSON_HTBL_DEPTH *)
Definition attr_cmp (a b : list byte) (len : N) : bool := strncmp_eq a b (N.to_nat len).
Definition JSON_HTBL_DEPTH : N := 23.
Definition strlen (k : list byte) : N := N.of_nat (length k).
(** ovis_json.c:157-172 json_dict_new; a dictionary is its table, an attribute is the
    address of its entry, the value of the attribute is [obj] *)
Definition json_dict_new (m : N -> option (ent hdat)) : htbl := htbl_alloc JSON_HTBL_DEPTH m.
Section Json.
Variable fuel : nat.
(** ovis_json.c:97-120 json_attr_first, json_attr_next *)
Definition json_attr_first (d : htbl) : N := htbl_first d.
Definition json_attr_next (d : htbl) (a : N) : option N := htbl_next default_hash d a.
(** ovis_json.c:122-137 json_attr_find *)
Definition json_attr_find (d : htbl) (name : list byte) : option N := htbl_find default_hash attr_cmp fuel d name (strlen name).
(** ovis_json.c:139-144 json_attr_count: an int *)
Definition json_attr_count (d : htbl) : N := entry_count d mod H32.
(** ovis_json.c:499-504 __attr_rem: also frees the attribute *)
Definition attr_rem (d : htbl) (a : N) : option htbl :=
  bnd (htbl_del d a) (fun d => bnd (drop (lists d) a) (fun l => Some (mkHt (table_depth d) (entry_count d) l))).
(** ovis_json.c:506-522 __attr_add, 524-533 json_attr_add, 256-271 json_attr_new:
    [a] is the memory malloc gives, 0 if it fails; what it holds is arbitrary [e] *)
Definition json_attr_add (d : htbl) (name : list byte) (v : N) (a : N) (e : ent hdat) : option (Z * htbl) :=
  if a =? 0 then Some (ENOMEM, d) else
  let d := mkHt (table_depth d) (entry_count d) (put (lists d) a (mkEnt (nx e) (pv e) (mkHd name (strlen name) v))) in
  bnd (json_attr_find d name) (fun a' =>
  bnd (if a' =? 0 then Some d else attr_rem d a') (fun d =>
  bnd (htbl_ins default_hash d a) (fun d => Some (0%Z, d)))).
(** ovis_json.c:550-559 json_attr_rem *)
Definition json_attr_rem (d : htbl) (name : list byte) : option (Z * htbl) :=
  bnd (json_attr_find d name) (fun a =>
  if a =? 0 then Some (ENOENT, d) else bnd (attr_rem d a) (fun d => Some (0%Z, d))).
(** The value of an attribute *)
Definition json_attr_value (d : htbl) (a : N) : option N := bnd (en (lists d) a) (fun e => Some (obj (dat e))).
(** ovis_json.c:596-613 json_dict_free: the loop over the attributes; the value is
    the list of attributes freed *)
Fixpoint json_dict_free (n : nat) (d : htbl) : option (list N * htbl) :=
  match n with
  | O => None
  | S n =>
    if htbl_empty d then Some ([], d) else
    let a := htbl_first d in
    bnd (attr_rem d a) (fun d => bnd (json_dict_free n d) (fun r => Some (a :: fst r, snd r)))
  end.
End Json.

(** ** str_map.c *)
(** fnv_hash.c:53-64 fnv_hash_a1_32: [*s] is a signed char, its sign is extended.
    The length is an int: strlen of more than 2^31 - 1 bytes is negative modulo 2^32
    for half of the lengths, then the loop does not run. *)
Definition FNV_32_PRIME : N := 16777619.
Definition sext32 (c : byte) : N := if c <? 128 then c else H32 - 256 + c.
Fixpoint fnv32 (h : N) (s : list byte) : N :=
  match s with [] => h | c :: s => fnv32 (N.lxor h (sext32 c) * FNV_32_PRIME mod H32) s end.
Definition int_len (n : N) : N := if n mod H32 <? 2147483648 then n mod H32 else 0.
Definition fnv_hash_a1_32 (s : list byte) (len seed : N) : N := fnv32 seed (firstn (N.to_nat (int_len len)) s).

(** struct obj_list, str_map.h:69-73; the key is a copy of its own *)
Record sdat := mkSd { skey : list byte; sobj : N }.
Record smap := mkSm { hash_size : N; slists : bl sdat }.
(** str_map.c:78-88 str_map_create, mmap succeeding: zeroed memory *)
Definition str_map_create (sz : N) (m : N -> option (ent sdat)) : smap := mkSm sz (mkBl (fun _ => 0) m).
(** strcmp == 0 *)
Fixpoint strcmp_eq (a b : list byte) : bool :=
  match a, b with
  | [], [] => true
  | x :: a, y :: b => (x =? y) && strcmp_eq a b
  | _, _ => false
  end.
Section Smap.
Variable fuel : nat.
Definition sbucket (m : smap) (k : list byte) : option N :=
  if hash_size m =? 0 then None else Some (fnv_hash_a1_32 k (strlen k) 0 mod hash_size m).
Definition slookup (m : smap) (k : list byte) (h : N) : option N := foreach fuel (slists m) (fun d => strcmp_eq (skey d) k) h.
(** str_map.c:106-119 str_map_get: the value and errno *)
Definition str_map_get (m : smap) (k : list byte) : option (N * Z) :=
  bnd (sbucket m k) (fun h => bnd (slookup m k h) (fun a =>
  if a =? 0 then Some (0, ENOENT) else bnd (en (slists m) a) (fun e => Some (sobj (dat e), 0%Z)))).
(** str_map.c:121-142 str_map_insert: [a] is what malloc gives (0 is NULL) and [e]
    what that memory holds, [dup] whether strdup succeeds *)
Definition str_map_insert (m : smap) (k : list byte) (v : N) (a : N) (e : ent sdat) (dup : bool) : option (Z * smap) :=
  bnd (sbucket m k) (fun h => bnd (slookup m k h) (fun a' =>
  if negb (a' =? 0) then Some (EEXIST, m) else
  if a =? 0 then Some (ENOMEM, m) else
  if negb dup then Some (ENOMEM, m) else
  bnd (list_insert_head (put (slists m) a (mkEnt (nx e) (pv e) (mkSd k v))) h a) (fun l => Some (0%Z, mkSm (hash_size m) l)))).
(** str_map.c:144-157 str_map_remove *)
Definition str_map_remove (m : smap) (k : list byte) : option (Z * smap) :=
  bnd (sbucket m k) (fun h => bnd (slookup m k h) (fun a =>
  if a =? 0 then Some (ENOENT, m) else
  bnd (list_remove (slists m) a) (fun l => bnd (drop l a) (fun l => Some (0%Z, mkSm (hash_size m) l))))).
(** str_map.c:159-173 str_map_id_init; one malloc for each key *)
Fixpoint str_map_id_init (m : smap) (keys : list (list byte)) (al : list (N * ent sdat * bool)) (id : N) : option (Z * smap) :=
  match keys, al with
  | [], _ => Some (0%Z, m)
  | _, [] => None
  | k :: keys, (a, e, dup) :: al =>
    bnd (str_map_insert m k id a e dup) (fun r =>
    if (fst r =? 0)%Z then str_map_id_init (snd r) keys al ((id + 1) mod H64) else Some r)
  end.
(** str_map.c:90-104 str_map_free: the loop over a list, then over [n] lists from
    [i] on (the index is an int: tables of 2^31 lists or more are not modelled); the
    value is the entries freed *)
Fixpoint free_list (f : nat) (l : bl sdat) (h : N) : option (list N * bl sdat) :=
  match f with
  | O => None
  | S f =>
    let a := hd1 l h in
    if a =? 0 then Some ([], l) else
    bnd (list_remove l a) (fun l => bnd (drop l a) (fun l => bnd (free_list f l h) (fun r => Some (a :: fst r, snd r))))
  end.
Fixpoint free_lists (n : nat) (l : bl sdat) (i : N) : option (list N * bl sdat) :=
  match n with
  | O => Some ([], l)
  | S n => bnd (free_list fuel l i) (fun r => bnd (free_lists n (snd r) (i + 1)) (fun r' => Some (fst r ++ fst r', snd r')))
  end.
Definition str_map_free (m : smap) : option (list N) :=
  bnd (free_lists (N.to_nat (hash_size m)) (slists m) 0) (fun r => Some (fst r)).
End Smap.
