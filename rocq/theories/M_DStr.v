(** Model of the dynamic strings, lib/src/ovis_util/dstring.c. *)
From Verif Require Export Bytes.
Local Open Scope Z_scope.

Definition INT_MAX : Z := 2147483647.
(** dstring.h:89 *)
Definition STATIC_SIZE : Z := 200.

(** dstring.h:94-107 struct dstring.  [hbuf] is the malloc'ed array when the member
    string points to one, [sbuf] is staticSpace; both lists have exactly the bytes
    that may be written.  [blocks] counts malloc'ed minus freed blocks (ghost). *)
Record ds := mkDs { hbuf : option (list byte); sbuf : list byte; dlen : Z; dcap : Z; dead : bool; blocks : Z }.
Definition string (s : ds) : list byte := match hbuf s with Some b => b | None => sbuf s end.

(** What malloc returns: the bytes of a block of the given size, or NULL *)
Notation malloc_t := (Z -> option (list byte)) (only parsing).

(** A store of the bytes [d] at index [i] of a buffer; None is an access out of its
    bounds. *)
Definition wr (i : Z) (d b : list byte) : option (list byte) :=
  if (0 <=? i) && (i + Z.of_nat (length d) <=? Z.of_nat (length b)) then Some (splice (Z.to_nat i) d b) else None.
Definition put (i : Z) (d : list byte) (s : ds) : option ds :=
  match hbuf s with
  | Some b => match wr i d b with Some b' => Some (mkDs (Some b') (sbuf s) (dlen s) (dcap s) (dead s) (blocks s)) | None => None end
  | None => match wr i d (sbuf s) with Some b' => Some (mkDs None b' (dlen s) (dcap s) (dead s) (blocks s)) | None => None end
  end.
Definition set_len (n : Z) (s : ds) : ds := mkDs (hbuf s) (sbuf s) n (dcap s) (dead s) (blocks s).
Definition set_dead (d : bool) (s : ds) : ds := mkDs (hbuf s) (sbuf s) (dlen s) (dcap s) d (blocks s).
Definition set_cap (c : Z) (s : ds) : ds := mkDs (hbuf s) (sbuf s) (dlen s) c (dead s) (blocks s).
(** free the old array unless it is staticSpace, then point to the new one *)
Definition take (b : list byte) (s : ds) : ds :=
  mkDs (Some b) (sbuf s) (dlen s) (dcap s) (dead s) (match hbuf s with Some _ => blocks s | None => blocks s + 1 end).

(** strlen of a C string in a buffer: the bytes before the first 0; None when there
    is none (a read beyond the end) *)
Fixpoint cstr (b : list byte) : option (list byte) :=
  match b with
  | [] => None
  | c :: b => if N.eqb c 0 then Some [] else match cstr b with Some l => Some (c :: l) | None => None end
  end.
(** what strncpy writes for the string [src] and the count [n] *)
Definition strncpy_data (src : list byte) (n : Z) : list byte :=
  firstn (Z.to_nat n) src ++ repeat 0%N (Z.to_nat n - length src).

(** dstring.c:68-76 dstrlen, dstrval (the text seen through the pointer) *)
Definition dstrlen (s : ds) : Z := dlen s.
Definition dstrval (s : ds) : option (list byte) := cstr (string s).

(** dstring.c:78-88 dstr_init, of memory holding anything in staticSpace *)
Definition dstr_init (junk : list byte) : ds :=
  mkDs None (splice (Z.to_nat (STATIC_SIZE - 1)) [0%N] (splice 0 [0%N] junk)) 0 STATIC_SIZE false 0.
(** dstring.c:90-106 dstr_init2 *)
Definition dstr_init2 (al : malloc_t) (junk : list byte) (cap : Z) : option ds :=
  let s := dstr_init junk in
  if dcap s <=? cap then
    let s := set_dead false (set_cap cap s) in
    match al cap with
    | None => Some (set_dead true s)
    | Some b => match wr 0 [0%N] b with Some b => Some (take b s) | None => None end
    end
  else Some s.

(** the conversion (int)input_length *)
Definition to_int (v : Z) : Z := (v + 2147483648) mod 4294967296 - 2147483648.
Definition too_big : list byte := [105; 110; 112; 117; 116; 95; 116; 111; 111; 95; 98; 105; 103]%N.

(** dstring.c:127-137, 165-175, 229-239: the new capacity *)
Definition new_cap (n : Z) : Z := if INT_MAX / 2 <? n then INT_MAX else n * 2.

(** dstring.c:108-157 dstr_set.  Result: None on an access out of bounds, else the
    state and whether the return value is not NULL.  [src] is the text of the C
    string, without its terminator; it does not lie in the dstring itself. *)
Definition dstr_set (al : malloc_t) (src : list byte) (s : ds) : option (ds * bool) :=
  let input_length := Z.of_nat (length src) in
  let src := if INT_MAX <? input_length then too_big else src in
  let length := to_int input_length in
  let s := set_dead false s in
  let fill s :=
    match put 0 (strncpy_data src input_length) s with
    | None => None
    | Some s => match put length [0%N] (set_len length s) with Some s => Some (s, true) | None => None end
    end in
  if dcap s <=? length then
    match al (new_cap length) with
    | None => Some (set_dead true s, false)
    | Some b => fill (take b (set_cap (new_cap length) s))
    end
  else fill s.

(** sprintf %ld and %lu: decimal digits *)
Fixpoint dec (fuel : nat) (n : N) : list byte :=
  match fuel with
  | O => []
  | S fuel => if (n <? 10)%N then [(48 + n)%N] else dec fuel (n / 10) ++ [(48 + n mod 10)%N]
  end.
Definition fmt_u64 (v : N) : list byte := dec 20 v.
Definition fmt_i64 (v : Z) : list byte := if v <? 0 then 45%N :: dec 20 (Z.to_N (- v)) else dec 20 (Z.to_N v).

(** dstring.c:159-203 dstr_set_int *)
Definition dstr_set_int (al : malloc_t) (v : Z) (s : ds) : option (ds * bool) :=
  let src := fmt_i64 v in
  let length := Z.of_nat (length src) in
  let s := set_dead false s in
  let fill s := match put 0 (src ++ [0%N]) s with Some s => Some (set_len length s, true) | None => None end in
  if dcap s <=? length then
    match al (new_cap length) with
    | None => Some (set_dead true s, false)
    | Some b => fill (take b (set_cap (new_cap length) s))
    end
  else fill s.

(** dstring.c:223-282 dstrcat.  The int sum of line 248 overflowing is undefined
    behaviour: None. *)
Definition dstrcat (al : malloc_t) (src : list byte) (n : Z) (s : ds) : option (ds * bool) :=
  if dead s then Some (s, false) else
  let input_length := Z.of_nat (length src) in
  if INT_MAX <? input_length then Some (s, false) else
  let length := if n <? 0 then input_length else if n <? input_length then n else input_length in
  let newSize := length + dlen s in
  if INT_MAX <? newSize then None else
  if INT_MAX - 1 <? newSize then Some (s, false) else
  let fill s :=
    match put (dlen s) (strncpy_data src length) s with
    | None => None
    | Some s => match put newSize [0%N] (set_len (dlen s + length) s) with Some s => Some (s, true) | None => None end
    end in
  if dcap s <=? newSize then
    match al (new_cap newSize) with
    | None => Some (set_dead true s, false)
    | Some b =>
      match cstr (string s) with
      | None => None
      | Some old =>
        match wr 0 (strncpy_data old (dlen s)) b with
        | None => None
        | Some b => fill (take b (set_cap (new_cap newSize) s))
        end
      end
    end
  else fill s.

(** dstring.c:205-221 dstrcat_int, dstrcat_uint *)
Definition dstrcat_int (al : malloc_t) (v : Z) (s : ds) : option (ds * bool) := dstrcat al (fmt_i64 v) (-1) s.
Definition dstrcat_uint (al : malloc_t) (v : N) (s : ds) : option (ds * bool) := dstrcat al (fmt_u64 v) (-1) s.

(** dstring.c:284-295 dstr_trunc *)
Definition dstr_trunc (n : Z) (s : ds) : option ds :=
  let n := if n <? 0 then 0 else n in
  if n <? dlen s then put n [0%N] (set_len n s) else Some s.

(** dstring.c:297-309 dstr_free *)
Definition dstr_free (s : ds) : option ds :=
  let s := match hbuf s with Some _ => mkDs None (sbuf s) 0 STATIC_SIZE false (blocks s - 1) | None => mkDs None (sbuf s) 0 STATIC_SIZE false (blocks s) end in
  put 0 [0%N] s.

(** dstring.c:311-323 dstr_extract: the state and the returned text *)
Definition dstr_extract (al : malloc_t) (s : ds) : option (ds * option (list byte)) :=
  match cstr (string s) with
  | None => None
  | Some t =>
    match al (Z.of_nat (length t) + 1) with
    | None => match dstr_free s with Some s => Some (s, None) | None => None end
    | Some b =>
      match wr 0 (t ++ [0%N]) b with
      | None => None
      | Some b => match dstr_free s with Some s => Some (s, cstr b) | None => None end
      end
    end
  end.
