(** Models from lib/src/ovis_util/util.c: access check, environment
    substitution, tokenising, memory sizes, joining paths. *)
From Verif Require Export Bytes.
From Coq Require Import List. Import ListNotations.
Local Open Scope N_scope.

Inductive ures (A : Type) := UUndef | UAbort | URes (a : A).
Arguments UUndef {A}. Arguments UAbort {A}. Arguments URes {A} a.
  (* UUndef: the C code accesses memory it must not; UAbort: a failed assert *)

(** * Access check *)

(** util.c:823-867 __uid_gid_check: [groups u] is what getpwuid_r and
    getgrouplist give; None when the user is unknown or is in more than 128
    groups. *)
Definition uid_gid_check (groups : N -> option (list N)) (uid gid : N) : Z :=
  match groups uid with
  | None => ENOENT
  | Some l => if existsb (N.eqb gid) l then 0%Z else ENOENT
  end.

(** util.c:868-895 ovis_access_check; octal 07, 0700, 070 are 7, 448, 56 *)
Definition access_check (groups : N -> option (list N)) (auid agid acc ouid ogid perm : N) : Z :=
  let macc := N.land acc perm in
  if auid =? 0 then 0%Z
  else if negb (N.land 7 macc =? 0) then 0%Z
  else if (negb (N.land 448 macc =? 0) && (auid =? ouid))%bool then 0%Z
  else if (negb (N.land 56 macc =? 0) &&
           ((agid =? ogid) || (uid_gid_check groups auid ogid =? 0)%Z))%bool then 0%Z
  else EACCES.

(** * Environment substitution *)

(** Store [d] at offset [off]; None when it does not fit. *)
Definition put (off : nat) (d m : list byte) : option (list byte) :=
  if Nat.leb (off + length d) (length m) then Some (firstn off m ++ d ++ skipn (off + length d) m) else None.

(** strlen: None when there is no NUL *)
Fixpoint strlen (m : list byte) : option nat :=
  match m with
  | [] => None
  | c :: m' => if c =? 0 then Some 0%nat else match strlen m' with None => None | Some n => Some (S n) end
  end.

Definition alnum_ (c : byte) : bool :=
  ((48 <=? c) && (c <=? 57) || (65 <=? c) && (c <=? 90) || (97 <=? c) && (c <=? 122) || (c =? 95))%bool.

Fixpoint span (f : byte -> bool) (l : list byte) : list byte * list byte :=
  match l with
  | [] => ([], [])
  | c :: l' => if f c then let '(a, b) := span f l' in (c :: a, b) else ([], l)
  end.

(** The regular expression of util.c:238, \$\{[[:alnum:]_]+\}, at the beginning of
    [l]: the name and what follows the closing brace. *)
Definition ref_at (l : list byte) : option (list byte * list byte) :=
  match l with
  | c1 :: c2 :: r =>
    if ((c1 =? 36) && (c2 =? 123))%bool then
      match span alnum_ r with
      | (nm, c3 :: r') => if (negb (Nat.eqb (length nm) 0) && (c3 =? 125))%bool then Some (nm, r') else None
      | _ => None
      end
    else None
  | _ => None
  end.

(** regexec (util.c:250): leftmost match as (rm_so, rm_eo) and the name that
    get_env_var (72-91) extracts *)
Fixpoint regexec (l : list byte) : option (nat * nat * list byte) :=
  match ref_at l with
  | Some (nm, _) => Some (0%nat, (length nm + 3)%nat, nm)
  | None =>
    match l with
    | [] => None
    | _ :: l' => match regexec l' with
                 | None => None
                 | Some (so, eo, nm) => Some (S so, S eo, nm)
                 end
    end
  end.

Record rmatch := mkRM { rm_so : nat; rm_eo : nat; rm_val : list byte }.

(** util.c:248-265: the matching loop.  [match] and [values] have 100 elements;
    [name] (74, 87) has room for 99 characters.  getenv gives [env]. *)
Fixpoint env_scan (fuel : nat) (env : list byte -> option (list byte)) (i pos : nat) (str : list byte)
  : ures (list rmatch) :=
  match fuel with
  | O => UUndef
  | S fuel' =>
    if Nat.leb 100 i then UUndef
    else match regexec (skipn pos str) with
         | None => URes []
         | Some (so, eo, nm) =>
           if Nat.leb 100 (length nm) then UAbort
           else match env_scan fuel' env (S i) (pos + eo) str with
                | URes ms =>
                  URes (mkRM (pos + so) (pos + eo) (match env nm with Some v => v | None => [] end) :: ms)
                | r => r
                end
         end
  end.

(** util.c:283-295: the copying loop into [res] *)
Fixpoint env_copy (str : list byte) (ms : list rmatch) (res : list byte) (ptr so : nat) : option (list byte) :=
  match ms with
  | [] => put ptr (skipn so str ++ [0]) res
  | m :: ms' =>
    let len := (rm_so m - so)%nat in
    match put ptr (slice so len str) res with
    | None => None
    | Some r1 =>
      match put (ptr + len) [0] r1 with
      | None => None
      | Some r2 =>
        match put (ptr + len) (rm_val m ++ [0]) r2 with
        | None => None
        | Some r3 =>
          match strlen r3 with
          | None => None
          | Some p => env_copy str ms' r3 p (rm_eo m)
          end
        end
      end
    end
  end.

Definition total (f : rmatch -> nat) (ms : list rmatch) : nat := fold_right (fun m n => (f m + n)%nat) 0%nat ms.

(** util.c:227-297 str_repl_env_vars; [junk] is what malloc returned (its first
    res_len bytes), the result the C string in the result buffer *)
Definition env_subst (env : list byte -> option (list byte)) (junk : nat -> list byte) (str : list byte)
  : ures (list byte) :=
  match env_scan (S (length str)) env 0 0 str with
  | UUndef => UUndef
  | UAbort => UAbort
  | URes [] => URes str
  | URes ms =>
    let name_total := total (fun m => rm_eo m - rm_so m)%nat ms in
    let value_total := total (fun m => length (rm_val m)) ms in
    let res_len := (length str - name_total + value_total + 1)%nat in
    match put 0 [0] (junk res_len) with
    | None => UUndef
    | Some r0 =>
      match env_copy str ms r0 0 0 with
      | None => UUndef
      | Some r =>
        match strlen r with
        | None => UUndef
        | Some n => if Nat.eqb res_len (n + 1) then URes (firstn n r) else UAbort
        end
      end
    end
  end.

(** * Tokenising *)

Definition is_blank (c : byte) : bool := ((c =? 32) || (c =? 9) || (c =? 10))%bool.
(** strtok_r over the whole command *)
Fixpoint toks (cur l : list byte) : list (list byte) :=
  match l with
  | [] => match cur with [] => [] | _ => [cur] end
  | c :: l' => if is_blank c then match cur with [] => toks [] l' | _ => cur :: toks [] l' end
               else toks (cur ++ [c]) l'
  end.
(** strstr(token, "=") and the NUL written there *)
Fixpoint cut_eq (w : list byte) : option (list byte * list byte) :=
  match w with
  | [] => None
  | c :: w' => if c =? 61 then Some ([], w')
               else match cut_eq w' with None => None | Some (n, v) => Some (c :: n, v) end
  end.

(** struct attr_value_list (util.h:110-115): [slots] has the list's capacity *)
Definition slot := (list byte * option (list byte))%type.
Record avl := mkAvl { slots : list slot; count : nat }.
Fixpoint set_slot (i : nat) (x : slot) (l : list slot) : list slot :=
  match i, l with
  | O, _ :: l' => x :: l'
  | S i', y :: l' => y :: set_slot i' x l'
  | _, [] => []
  end.

(** util.c:371-404 tokenize *)
Fixpoint tokenize_loop (ws : list (list byte)) (kw av : list slot) (nk na : nat)
  : Z * list slot * list slot * nat * nat :=
  match ws with
  | [] => (0%Z, kw, av, nk, na)
  | w :: ws' =>
    match cut_eq w with
    | Some (n, v) =>
      if Nat.leb (length av) na then (ENOMEM, kw, av, nk, na)
      else tokenize_loop ws' kw (set_slot na (n, Some v) av) nk (S na)
    | None =>
      if Nat.leb (length kw) nk then (ENOMEM, kw, av, nk, na)
      else tokenize_loop ws' (set_slot nk (w, None) kw) av (S nk) na
    end
  end.
Definition tokenize (cmd : list byte) (kw av : avl) : Z * avl * avl :=
  match tokenize_loop (toks [] cmd) (slots kw) (slots av) 0 0 with
  | (rc, k, a, nk, na) =>
    if (rc =? 0)%Z then (rc, mkAvl k nk, mkAvl a na)
    else (rc, mkAvl k (count kw), mkAvl a (count av))
  end.

Definition leqb (a b : list byte) : bool := if list_eq_dec N.eq_dec a b then true else false.
Definition live (l : avl) : list slot := firstn (count l) (slots l).

(** util.c:308-330 av_value before environment substitution: the value of the
    first slot with the name *)
Fixpoint first_value (l : list slot) (name : list byte) : option (list byte) :=
  match l with
  | [] => None
  | (n, v) :: l' => if leqb name n then v else first_value l' name
  end.
Definition av_value (env : list byte -> option (list byte)) (junk : nat -> list byte) (l : avl) (name : list byte)
  : ures (option (list byte)) :=
  match first_value (live l) name with
  | None => URes None
  | Some v => match env_subst env junk v with
              | UUndef => UUndef | UAbort => UAbort | URes s => URes (Some s) end
  end.

(** util.c:332-351 av_idx_of *)
Fixpoint idx_loop (l : list slot) (name : list byte) (i k : Z) : Z :=
  match l with
  | [] => k
  | (n, _) :: l' =>
    idx_loop l' name (i + 1)%Z
      (if leqb name n then (if (k =? -1)%Z then i else if (k <? 0)%Z then (k - 1)%Z else (-2)%Z) else k)
  end.
Definition av_idx_of (l : avl) (name : list byte) : Z := idx_loop (live l) name 0 (-1)%Z.

(** util.c:451-485 av_add without allocation failures.  A NULL value leaves the
    slot's value as it was. *)
Definition av_add (l : avl) (name : list byte) (value : option (list byte)) : Z * avl :=
  if Nat.eqb (count l) (length (slots l)) then (ENOSPC, l)
  else
    let old := snd (nth (count l) (slots l) ([], None)) in
    let v := match value with Some v => Some v | None => old end in
    (0%Z, mkAvl (set_slot (count l) (name, v) (slots l)) (S (count l))).

(** * Memory sizes *)

Definition isspace (c : byte) : bool := ((c =? 32) || (9 <=? c) && (c <=? 13))%bool.
Definition isdigit (c : byte) : bool := ((48 <=? c) && (c <=? 57))%bool.
Fixpoint skip_space (l : list byte) : list byte :=
  match l with c :: l' => if isspace c then skip_space l' else l | [] => [] end.
Definition dec_value (l : list byte) : N := fold_left (fun n c => n * 10 + (c - 48)) l 0.
Definition ULONG_MAX : N := 18446744073709551615.

(** sscanf(l, "%lu %c"): Some (size, unit) when both conversions succeed.  An
    overflowing number gives ULONG_MAX, a minus sign negates modulo 2^64. *)
Definition scan_lu_c (l : list byte) : option (N * byte) :=
  let l1 := skip_space l in
  let '(neg, l2) := match l1 with
                    | c :: r => if c =? 45 then (true, r) else if c =? 43 then (false, r) else (false, l1)
                    | [] => (false, l1)
                    end in
  match span isdigit l2 with
  | ([], _) => None
  | (ds, l3) =>
    let v := dec_value ds in
    let n := if ULONG_MAX <? v then ULONG_MAX else if neg then (ULONG_MAX + 1 - v) mod (ULONG_MAX + 1) else v in
    match skip_space l3 with
    | [] => None
    | u :: _ => Some (n, u)
    end
  end.

(** util.c:570-598 ovis_get_mem_size: None when size and unit stay
    uninitialised.  Both 'G' and 'T' multiply by 1024^3 (588-594). *)
Definition mem_size (s : list byte) : option N :=
  match scan_lu_c (s ++ [66]) with
  | None => None
  | Some (n, u) =>
    let m := if ((u =? 98) || (u =? 66))%bool then 1
             else if ((u =? 107) || (u =? 75))%bool then 1024
             else if ((u =? 109) || (u =? 77))%bool then 1048576
             else if ((u =? 103) || (u =? 71))%bool then 1073741824
             else if ((u =? 116) || (u =? 84))%bool then 1073741824
             else 0 in
    Some ((n * m) mod (ULONG_MAX + 1))
  end.

(** * Joining paths *)

Definition E2BIG : Z := 7%Z.

(** util.c:715-742: the loop over the further arguments *)
Fixpoint join_loop (sep : list byte) (ns : list (list byte)) (buf : list byte) (len : nat)
  : option (Z * list byte * nat) :=
  match ns with
  | [] => Some (0%Z, buf, len)
  | n :: ns' =>
    if Nat.ltb (len + length sep) (length buf) then
      match put len sep buf with
      | None => None
      | Some b1 =>
        let len1 := (len + length sep)%nat in
        if Nat.ltb (len1 + length n) (length buf) then
          match put len1 n b1 with
          | None => None
          | Some b2 => join_loop sep ns' b2 (len1 + length n)
          end
        else Some (E2BIG, b1, len1)
      end
    else Some (E2BIG, buf, len)
  end.

(** util.c:694-748 ovis_join_buf on a buffer of buflen = length buf bytes, the
    arguments up to the NULL; None is a write outside the buffer. *)
Definition join_buf (buf sep : list byte) (args : list (list byte)) : option (Z * list byte) :=
  match put 0 [0] buf with
  | None => None
  | Some b0 =>
    let r := match args with
             | [] => Some (EINVAL, b0, 0%nat)
             | n :: ns =>
               if Nat.ltb (length n) (length buf) then
                 match put 0 n b0 with
                 | None => None
                 | Some b1 => join_loop sep ns b1 (length n)
                 end
               else Some (E2BIG, b0, 0%nat)
             end in
    match r with
    | None => None
    | Some (rc, b, len) => match put len [0] b with None => None | Some b' => Some (rc, b') end
    end
  end.
