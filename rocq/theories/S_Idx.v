(** What the prefix tree should do: an ordered finite map. *)
From Verif Require Export M_Idx.
From Coq Require Export Sorting.Sorted.
Local Open Scope N_scope.

(** Lexicographic order of keys; a key comes before those it is a prefix of. *)
Fixpoint lex (a b : list byte) : comparison :=
  match a, b with
  | [], [] => Eq
  | [], _ => Lt
  | _, [] => Gt
  | x :: a, y :: b => match x ?= y with Eq => lex a b | c => c end
  end.
Definition before (p q : list byte * N) : Prop := lex (fst p) (fst q) = Lt.
(** The map is the list of its keys and objects in order. *)
Fixpoint mget (M : list (list byte * N)) (k : list byte) : N :=
  match M with [] => 0 | (k', o) :: M => match lex k k' with Eq => o | _ => mget M k end end.
Fixpoint mset (M : list (list byte * N)) (k : list byte) (o : N) : list (list byte * N) :=
  match M with
  | [] => [(k, o)]
  | (k', o') :: M => match lex k k' with Lt => (k, o) :: (k', o') :: M | Eq => (k, o) :: M | Gt => (k', o') :: mset M k o end
  end.
Fixpoint mdel (M : list (list byte * N)) (k : list byte) : list (list byte * N) :=
  match M with [] => [] | (k', o') :: M => match lex k k' with Eq => mdel M k | _ => (k', o') :: mdel M k end end.

(** Sessions.  A key is given with the bytes behind it in memory. *)
Inductive iop := IAdd (k after : list byte) (o : N) (ok : nat -> bool) | IDel (k after : list byte) | IFind (k after : list byte) | ICount | ITraverse.
Inductive iout := Rc (z : Z) | Obj (o : N) | Cnt (n : N) | Objs (l : list N).
Definition ikey (op : iop) : option (list byte) := match op with IAdd k _ _ _ | IDel k _ | IFind k _ => Some k | _ => None end.
Definition ido (op : iop) (t : layer) : res (iout * layer) :=
  match op with
  | IAdd k after o ok => bindr (idx_add t (k ++ after) (length k) o ok) (fun r => Ok (Rc (fst r), snd r))
  | IDel k after => bindr (idx_delete t (k ++ after) (length k)) (fun r => Ok (Obj (fst r), snd r))
  | IFind k after => bindr (idx_find t (k ++ after) (length k)) (fun o => Ok (Obj o, t))
  | ICount => Ok (Cnt (idx_count t), t)
  | ITraverse => Ok (Objs (idx_traverse t), t)
  end.
(** The map: adding may fail for lack of memory, which changes nothing. *)
Inductive iwant : iop -> list (list byte * N) -> iout -> list (list byte * N) -> Prop :=
| iw_null k x ok M : iwant (IAdd k x 0 ok) M (Rc EINVAL) M
| iw_exist k x o ok M : o <> 0 -> mget M k <> 0 -> iwant (IAdd k x o ok) M (Rc EEXIST) M
| iw_add k x o ok M : o <> 0 -> mget M k = 0 -> iwant (IAdd k x o ok) M (Rc 0) (mset M k o)
| iw_nomem k x o ok M d : o <> 0 -> mget M k = 0 -> ok d = false -> iwant (IAdd k x o ok) M (Rc ENOMEM) M
| iw_del k x M : iwant (IDel k x) M (Obj (mget M k)) (mdel M k)
| iw_find k x M : iwant (IFind k x) M (Obj (mget M k)) M
| iw_count M : iwant ICount M (Cnt (N.of_nat (length M) mod 18446744073709551616)) M
| iw_traverse M : iwant ITraverse M (Objs (map snd M)) M.
Inductive iwants : list iop -> list (list byte * N) -> list iout -> list (list byte * N) -> Prop :=
| iws_nil M : iwants [] M [] M
| iws_cons op ops M o M1 os M2 : iwant op M o M1 -> iwants ops M1 os M2 -> iwants (op :: ops) M (o :: os) M2.
(** A session of the code, as far as it is defined *)
Inductive isession : layer -> list iop -> list iout -> layer -> Prop :=
| is_nil t : isession t [] [] t
| is_cons t op o t1 ops os t2 : ido op t = Ok (o, t1) -> isession t1 ops os t2 -> isession t (op :: ops) (o :: os) t2.
(** Keys are not empty and made of bytes. *)
Definition valid_key (k : list byte) : Prop := k <> [] /\ Forall is_byte k.
Definition valid_op (op : iop) : Prop := match ikey op with Some k => valid_key k | None => True end.
(** What idx_delete looks at besides: from the second byte on, but the last byte of a
    key only if it is the second; of a key of one byte, the byte behind it.  None of
    these may be 255, and that byte behind must be there. *)
Definition looked_at (k after : list byte) : option (list byte) :=
  match k with
  | [] => Some []
  | [_] => match after with [] => None | x :: _ => Some [x] end
  | [_; y] => Some [y]
  | _ :: k => Some (removelast k)
  end.
Definition deletable (k after : list byte) : Prop := exists l, looked_at k after = Some l /\ ~ In 255 l.
