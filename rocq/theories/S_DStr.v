(** What a dynamic string should be and do. *)
From Verif Require Export M_DStr.
Local Open Scope Z_scope.

(** A working malloc gives blocks of the size asked for (or NULL). *)
Definition sane (al : malloc_t) : Prop := forall n b, al n = Some b -> Z.of_nat (length b) = n.
Definition never_fails (al : malloc_t) : Prop := forall n, 0 < n -> al n <> None.
Definition is_text (t : list byte) : Prop := Forall (fun c => c <> 0%N) t.

(** The uses of a dynamic string after initialisation, each with the behaviour of
    malloc at that moment *)
Inductive dop :=
| OSet (t : list byte) | OSetInt (v : Z) | OCat (t : list byte) (n : Z) | OCatInt (v : Z) | OCatUint (v : N)
| OTrunc (n : Z) | OFree | OExtract.
(** What a call returns: NULL, the string itself, a copy, or nothing *)
Inductive dret := RNull | RSelf | RCopy (t : list byte) | RVoid.
Definition self (r : option (ds * bool)) : option (ds * dret) :=
  match r with Some (s, b) => Some (s, if b then RSelf else RNull) | None => None end.
Definition do_dop (al : malloc_t) (o : dop) (s : ds) : option (ds * dret) :=
  match o with
  | OSet t => self (dstr_set al t s)
  | OSetInt v => self (dstr_set_int al v s)
  | OCat t n => self (dstrcat al t n s)
  | OCatInt v => self (dstrcat_int al v s)
  | OCatUint v => self (dstrcat_uint al v s)
  | OTrunc n => match dstr_trunc n s with Some s => Some (s, RVoid) | None => None end
  | OFree => match dstr_free s with Some s => Some (s, RVoid) | None => None end
  | OExtract => match dstr_extract al s with
                | Some (s, Some t) => Some (s, RCopy t) | Some (s, None) => Some (s, RNull) | None => None end
  end.
Fixpoint do_dops (os : list (malloc_t * dop)) (s : ds) : option (ds * list dret) :=
  match os with
  | [] => Some (s, [])
  | (al, o) :: os =>
    match do_dop al o s with
    | None => None
    | Some (s, r) => match do_dops os s with Some (s, rs) => Some (s, r :: rs) | None => None end
    end
  end.

(** The abstract string: its text, and whether a failed allocation froze it. *)
Notation astr := (list byte * bool)%type (only parsing).
(** What an append appends *)
Definition part (t : list byte) (n : Z) : list byte := if n <? 0 then t else firstn (Z.to_nat n) t.
Definition room (t : list byte) : Prop := Z.of_nat (length t) <= INT_MAX - 1.
Definition small (t : list byte) : Prop := Z.of_nat (length t) < STATIC_SIZE.
(** [t'] is stored, or, if it does not fit the inline space, memory was short *)
Inductive stores (al : malloc_t) (a : astr) (t' : list byte) : dret -> astr -> Prop :=
| st_ok : stores al a t' RSelf (t', false)
| st_nomem : ~ small t' -> ~ never_fails al -> stores al a t' RNull (fst a, true).
Inductive appends (al : malloc_t) (a : astr) (p : list byte) : dret -> astr -> Prop :=
| ap_dead : snd a = true -> appends al a p RNull a
| ap_full : snd a = false -> ~ room (fst a ++ p) -> appends al a p RNull a
| ap_store r a' : snd a = false -> room (fst a ++ p) -> stores al a (fst a ++ p) r a' -> appends al a p r a'.
Definition wants (al : malloc_t) (o : dop) (a : astr) (r : dret) (a' : astr) : Prop :=
  match o with
  | OSet t => stores al a t r a'
  | OSetInt v => r = RSelf /\ a' = (fmt_i64 v, false)
  | OCat t n => appends al a (part t n) r a'
  | OCatInt v => appends al a (fmt_i64 v) r a'
  | OCatUint v => appends al a (fmt_u64 v) r a'
  | OTrunc n => r = RVoid /\ a' = (firstn (Z.to_nat n) (fst a), snd a)
  | OFree => r = RVoid /\ a' = ([], false)
  | OExtract => (r = RCopy (fst a) \/ r = RNull /\ ~ never_fails al) /\ a' = ([], false)
  end.
(** What the caller must respect: texts are C strings, a string set has a length
    below INT_MAX, and no append is to make the int sum of the lengths overflow. *)
Definition dlegal (o : dop) (a : astr) : Prop :=
  match o with
  | OSet t => is_text t /\ room t
  | OCat t n => is_text t /\ Z.of_nat (length t) <= INT_MAX /\ Z.of_nat (length (fst a ++ part t n)) <= INT_MAX
  | OCatInt v => - 2 ^ 63 <= v < 2 ^ 63 /\ Z.of_nat (length (fst a ++ fmt_i64 v)) <= INT_MAX
  | OCatUint v => Z.of_N v < 2 ^ 64 /\ Z.of_nat (length (fst a ++ fmt_u64 v)) <= INT_MAX
  | OSetInt v => - 2 ^ 63 <= v < 2 ^ 63
  | _ => True
  end.
Inductive session : astr -> list (malloc_t * dop) -> list dret -> astr -> Prop :=
| se_nil a : session a [] [] a
| se_cons a al o os r rs a1 a2 : wants al o a r a1 -> session a1 os rs a2 -> session a ((al, o) :: os) (r :: rs) a2.
(** Legal whatever the outcomes of the allocations *)
Inductive all_legal : astr -> list (malloc_t * dop) -> Prop :=
| al_nil a : all_legal a []
| al_cons a al o os : sane al -> dlegal o a -> (forall r a', wants al o a r a' -> all_legal a' os) -> all_legal a ((al, o) :: os).

(** The text as seen through dstrval and dstrlen *)
Definition shows (s : ds) (t : list byte) : Prop := dstrval s = Some t /\ dstrlen s = Z.of_nat (length t).

(** With memory to spare and room for the text the outcome is determined. *)
Definition text_after (t : list byte) (o : dop) : list byte :=
  match o with
  | OSet u => u
  | OSetInt v => fmt_i64 v
  | OCat u n => t ++ part u n
  | OCatInt v => t ++ fmt_i64 v
  | OCatUint v => t ++ fmt_u64 v
  | OTrunc n => firstn (Z.to_nat n) t
  | OFree | OExtract => []
  end.
Definition texts_ok (o : dop) : Prop :=
  match o with
  | OSet t => is_text t /\ Z.of_nat (length t) <= INT_MAX
  | OCat t _ => is_text t /\ Z.of_nat (length t) <= INT_MAX
  | OCatInt v | OSetInt v => - 2 ^ 63 <= v < 2 ^ 63
  | OCatUint v => Z.of_N v < 2 ^ 64
  | _ => True
  end.
(** The number a decimal text stands for *)
Definition digits_value (l : list byte) : N := fold_left (fun v c => 10 * v + (c - 48))%N l 0%N.
