(** Model of the command substitution in configuration values, lib/src/ovis_util/util.c. *)
From Verif Require Export Bytes.
From Coq Require Import List. Import ListNotations.
Local Open Scope N_scope.

(** CWild: the C code accesses memory outside its buffer, or a loop exceeds its fuel *)
Inductive cres (A : Type) := CWild | CRes (a : A).
Arguments CWild {A}. Arguments CRes {A} a.
Definition cbind {A B} (m : cres A) (k : A -> cres B) : cres B := match m with CWild => CWild | CRes a => k a end.
Notation "x <== m ;; k" := (cbind m (fun x => k)) (at level 61, m at next level, right associativity).

Definition W64 : N := 18446744073709551616.
Definition add64 (a b : N) : N := (a + b) mod W64.
Definition sub64 (a b : N) : N := (a + (W64 - b mod W64)) mod W64.

(** The variables buff, slen, alen of str_repl_cmd (util.c:117-126): the buffer has
    [cap] bytes; what is in it before it is written is arbitrary. *)
Record sbuf := mkB { cap : N; byt : N -> byte; slen : N; alen : N }.
Definition rd (b : sbuf) (i : N) : cres byte := if i <? cap b then CRes (byt b i) else CWild.
Definition wr (b : sbuf) (off : N) (d : list byte) : cres sbuf :=
  if off + N.of_nat (length d) <=? cap b
  then CRes (mkB (cap b) (fun i => if (off <=? i) && (i <? off + N.of_nat (length d)) then nth (N.to_nat (i - off)) d 0 else byt b i) (slen b) (alen b))
  else CWild.
Definition set_len (b : sbuf) (s a : N) : sbuf := mkB (cap b) (byt b) s a.

(** util.c:94-112 _scpy; realloc does not fail *)
Definition scpy (b : sbuf) (str : list byte) : cres sbuf :=
  let len := N.of_nat (length str) in
  let b := if alen b <=? len
           then let xlen := add64 (N.lor (sub64 len 1) 4095) 1 in
                mkB (add64 (add64 (slen b) (alen b)) xlen) (byt b) (slen b) (alen b)
           else b in
  b <== wr b (slen b) str ;;
  let b := set_len b (add64 (slen b) len) (sub64 (alen b) len) in
  wr b (slen b) [0].

(** isspace in the C locale *)
Definition isspace (c : byte) : bool := ((9 <=? c) && (c <=? 13)) || (c =? 32).

(** strstr(p0, "$("): what is before it and what is behind it *)
Fixpoint strstr (l : list byte) : option (list byte * list byte) :=
  match l with
  | [] => None
  | c :: r =>
    match r with
    | d :: r' => if (c =? 36) && (d =? 40) then Some ([], r')
                 else match strstr r with Some (x, y) => Some (c :: x, y) | None => None end
    | [] => None
    end
  end.
(** util.c:157-173: the matching parenthesis; the command, and what is behind the
    parenthesis; None if there is none (EINVAL) *)
Fixpoint matching (count : nat) (l : list byte) : option (list byte * list byte) :=
  match l with
  | [] => None
  | c :: r =>
    let cons1 x := match x with Some (a, y) => Some (c :: a, y) | None => None end in
    if c =? 92 then
      match r with
      | [] => None
      | d :: r' => match matching count r' with Some (a, y) => Some (c :: d :: a, y) | None => None end
      end
    else if c =? 40 then cons1 (matching (S count) r)
    else if c =? 41 then match count with
                         | O | S O => Some ([], r)
                         | S n => cons1 (matching n r)
                         end
    else cons1 (matching count r)
  end.

(** The part of [l] that fgets with room for [n] characters takes, and the rest *)
Fixpoint line (n : nat) (l : list byte) : list byte * list byte :=
  match n, l with
  | S n, c :: r => if c =? 10 then ([c], r) else let '(a, y) := line n r in (c :: a, y)
  | _, _ => ([], l)
  end.
(** conversion of a size_t to the int argument of fgets *)
Definition to_int (a : N) : Z :=
  let d := a mod 4294967296 in if d <? 2147483648 then Z.of_N d else (Z.of_N d - 4294967296)%Z.
(** fgets(buff+slen, alen, p), where [out] is what is to be read: None for NULL.  As
    in the GNU library: NULL for a size below 1, the empty string for 1. *)
Definition fgets (b : sbuf) (out : list byte) : cres (option (sbuf * list byte)) :=
  let n := to_int (alen b) in
  if (n <=? 0)%Z then CRes None
  else if (n =? 1)%Z then b <== wr b (slen b) [0] ;; CRes (Some (b, out))
  else match out with
       | [] => CRes None
       | _ => let '(l, rest) := line (Z.to_nat (n - 1)) out in
              b <== wr b (slen b) (l ++ [0]) ;; CRes (Some (b, rest))
       end.
(** strlen(buff+slen) *)
Fixpoint strlen_at (f : nat) (b : sbuf) (i : N) : cres N :=
  match f with
  | O => CWild
  | S f => c <== rd b i ;; if c =? 0 then CRes 0 else n <== strlen_at f b (i + 1) ;; CRes (n + 1)
  end.
(** util.c:186-189 and, with [z], 203-207: back over spaces *)
Fixpoint back (f : nat) (z : bool) (b : sbuf) : cres sbuf :=
  match f with
  | O => CWild
  | S f =>
    c <== rd b (sub64 (slen b) 1) ;;
    if isspace c then
      b <== (if z then wr b (sub64 (slen b) 1) [0] else CRes b) ;;
      back f z (set_len b (sub64 (slen b) 1) (add64 (alen b) 1))
    else CRes b
  end.
(** util.c:181-201: the loop that copies the output *)
Fixpoint copy_out (f : nat) (b : sbuf) (out : list byte) : cres sbuf :=
  match f with
  | O => CWild
  | S f =>
    r <== fgets b out ;;
    match r with
    | None => CRes b
    | Some (b, rest) =>
      len <== strlen_at (S (N.to_nat (cap b))) b (slen b) ;;
      let b := set_len b (add64 (slen b) len) (sub64 (alen b) len) in
      b <== back (S (N.to_nat (slen b))) false b ;;
      c <== rd b (slen b) ;;
      b <== (if isspace c
             then b <== wr b (slen b) [32] ;;
                  let b := set_len b (add64 (slen b) 1) (alen b) in
                  b <== wr b (slen b) [0] ;;
                  CRes (set_len b (slen b) (sub64 (alen b) 1))
             else CRes b) ;;
      let b := if alen b =? 1
               then mkB (add64 (add64 (slen b) (alen b)) 4096) (byt b) (slen b) (add64 (alen b) 4096)
               else b in
      copy_out f b rest
    end
  end.

(** util.c:134-208: the loop over the string; None for an error.  [sh cmd] is what
    the command prints, None if popen fails. *)
Fixpoint expand (f : nat) (sh : list byte -> option (list byte)) (b : sbuf) (p0 : list byte) : cres (option sbuf) :=
  match f with
  | O => CWild
  | S f =>
    match p0 with
    | [] => CRes (Some b)
    | _ =>
      match strstr p0 with
      | None => b <== scpy b p0 ;; CRes (Some b)
      | Some (lit, r) =>
        b <== scpy b lit ;;
        match matching 1 r with
        | None => CRes None
        | Some (cmd, p0) =>
          match sh cmd with
          | None => CRes None
          | Some out =>
            b <== copy_out (length out + 3) b out ;;
            b <== back (S (N.to_nat (slen b))) true b ;;
            expand f sh b p0
          end
        end
      end
    end
  end.
(** the C string in the buffer *)
Fixpoint cstr (f : nat) (b : sbuf) (i : N) : cres (list byte) :=
  match f with
  | O => CWild
  | S f => c <== rd b i ;; if c =? 0 then CRes [] else l <== cstr f b (i + 1) ;; CRes (c :: l)
  end.
(** util.c:114-219 str_repl_cmd on a C string, and what the caller reads in the
    result; None is NULL.  malloc and strdup do not fail; [junk] is what malloc
    returned. *)
Definition str_repl_cmd (sh : list byte -> option (list byte)) (junk : N -> byte) (str : list byte) : cres (option (list byte)) :=
  r <== expand (S (length str)) sh (mkB 4096 junk 0 4096) str ;;
  match r with
  | None => CRes None
  | Some b => l <== cstr (S (N.to_nat (cap b))) b 0 ;; CRes (Some l)
  end.
