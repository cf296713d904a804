(** Times in configuration texts.
    Source: lib/src/ovis_util/util.c 600-642 (ovis_time_str2us) and
    ldms/src/ldmsd/ldmsd_strgp.c 104-181 (ldmsd_timespec_diff, _cmp, _add, _from_str).
    double is IEEE binary64 with rounding to nearest even (Coq's SpecFloat); long is 64 bits;
    the locale is "C". *)
From Verif Require Export Base.
From Coq Require Export List ZArith NArith Bool SpecFloat.
Export ListNotations.
Local Open Scope N_scope.

Definition text := list N.
Definition isspace (c : N) : bool := ((9 <=? c) && (c <=? 13)) || (c =? 32).
Definition isdigit (c : N) : bool := (48 <=? c) && (c <=? 57).
Definition isxdigit (c : N) : bool := isdigit c || ((65 <=? c) && (c <=? 70)) || ((97 <=? c) && (c <=? 102)).
Definition tolower (c : N) : N := if (65 <=? c) && (c <=? 90) then c + 32 else c.
(** strcmp(a, b) == 0, strcasecmp(a, b) == 0 and strncmp(a, b, strlen(b)) == 0 *)
Fixpoint eqs (a b : text) : bool :=
  match a, b with [], [] => true | x :: a, y :: b => (x =? y) && eqs a b | _, _ => false end.
Definition eqcase (a b : text) : bool := eqs (map tolower a) (map tolower b).
Fixpoint starts (a b : text) : bool :=
  match b, a with [], _ => true | y :: b, x :: a => (x =? y) && starts a b | _, [] => false end.
Fixpoint skip_while (f : N -> bool) (s : text) : text :=
  match s with [] => [] | c :: r => if f c then skip_while f r else s end.
Fixpoint take_while (f : N -> bool) (s : text) : text :=
  match s with [] => [] | c :: r => if f c then c :: take_while f r else [] end.
(** The number a sequence of decimal digits denotes *)
Definition digits_from (n : N) (ds : text) : N := fold_left (fun n c => 10 * n + (c - 48)) ds n.
Definition digits (ds : text) : N := digits_from 0 ds.

(** ** double *)
Definition double := spec_float.
Definition mul : double -> double -> double := SFmul 53 1024.
Definition of_int (n : N) : double := binary_normalize 53 1024 (Z.of_N n) 0 false.
(** The double nearest to m * 10^e *)
Definition nearest (m : N) (e : Z) : double :=
  match m with
  | 0 => S754_zero false
  | Npos p => if (0 <=? e)%Z then of_int (m * 10 ^ Z.to_N e)
              else SFdiv 53 1024 (S754_finite false p 0) (S754_finite false (Z.to_pos (10 ^ (- e))) 0)
  end.
(** The conversion of a double to long, which is undefined out of range ([None]). *)
Definition to_long (x : double) : option Z :=
  match x with
  | S754_zero _ => Some 0%Z
  | S754_finite s m e =>
    let n := (if (0 <=? e)%Z then Z.pos m * 2 ^ e else Z.pos m / 2 ^ (- e))%Z in
    let v := if s then (- n)%Z else n in
    if (-9223372036854775808 <=? v)%Z && (v <=? 9223372036854775807)%Z then Some v else None
  | S754_infinity _ | S754_nan => None
  end.

(** ** strtod *)
(** [NoNumber]: the end pointer is the beginning.  Hexadecimal numbers are not modelled. *)
Inductive num := NoNumber | Num (x : double) (rest : text) | Hex.
Definition neg (s : bool) (x : double) : double := if s then SFopp x else x.
(** The exponent, if there is one *)
Definition exponent (s : text) : Z * text :=
  match s with
  | c :: r =>
    if (c =? 101) || (c =? 69) then                                   (* e, E *)
      let '(sg, d) := match r with
                      | x :: r' => if x =? 43 then (false, r') else if x =? 45 then (true, r') else (false, r)
                      | [] => (false, r)
                      end in
      match take_while isdigit d with
      | [] => (0%Z, s)
      | ds => let v := Z.of_N (digits ds) in (if sg then (- v)%Z else v, skip_while isdigit d)
      end
    else (0%Z, s)
  | [] => (0%Z, s)
  end.
Definition strtod (s : text) : num :=
  let s1 := skip_while isspace s in
  let '(sg, s2) := match s1 with
                   | x :: r => if x =? 43 then (false, r) else if x =? 45 then (true, r) else (false, s1)
                   | [] => (false, s1)
                   end in
  let low := map tolower s2 in
  if starts low [105; 110; 102; 105; 110; 105; 116; 121] then Num (neg sg (S754_infinity false)) (skipn 8 s2)   (* infinity *)
  else if starts low [105; 110; 102] then Num (neg sg (S754_infinity false)) (skipn 3 s2)                      (* inf *)
  else if starts low [110; 97; 110] then Num S754_nan (skipn 3 s2)                                             (* nan *)
  else if starts low [48; 120] &&                                                                              (* 0x *)
          match skipn 2 s2 with c :: r => isxdigit c || ((c =? 46) && match r with x :: _ => isxdigit x | [] => false end) | [] => false end
  then Hex
  else
    let ip := take_while isdigit s2 in let r1 := skip_while isdigit s2 in
    let '(fp, r2) := match r1 with
                     | c :: r => if (c =? 46) && match ip, take_while isdigit r with [], [] => false | _, _ => true end   (* . *)
                                 then (take_while isdigit r, skip_while isdigit r) else ([], r1)
                     | [] => ([], r1)
                     end in
    match ip ++ fp with
    | [] => NoNumber
    | ds => let '(e, r3) := exponent r2 in Num (neg sg (nearest (digits ds) (e - Z.of_nat (length fp)))) r3
    end.

(** ** ovis_time_str2us, util.c 608-642 *)
(** [TUndef]: the conversion to long is undefined. *)
Inductive tres := TErr | TVal (v : Z) | TUndef | TOther.
Definition conv (x : double) : tres := match to_long x with Some v => TVal v | None => TUndef end.
Definition c1000000 : double := of_int 1000000.
Definition c60 : double := of_int 60.
Definition time_str2us (s : text) : tres :=
  match strtod s with
  | NoNumber => TErr
  | Hex => TOther
  | Num x r =>
    let u := skip_while (fun c => c =? 32) r in
    if match u with [] => true | _ => false end || eqs u [117; 115] || starts u [109; 105; 99; 114; 111] then conv x   (* us micro *)
    else if eqs u [109; 115] || starts u [109; 105; 108; 108; 105] then conv (mul x (of_int 1000))                       (* ms milli *)
    else match u with
         | c :: _ =>
           if c =? 115 then conv (mul x c1000000)                                                                       (* s *)
           else if c =? 109 then conv (mul (mul x c1000000) c60)                                                        (* m *)
           else if c =? 104 then conv (mul (mul (mul x c1000000) c60) c60)                                              (* h *)
           else if c =? 100 then conv (mul (mul (mul (mul x c1000000) c60) c60) (of_int 24))                            (* d *)
           else TErr
         | [] => TErr
         end
  end.

(** ** struct timespec *)
Record tspec := mkTs { ts_sec : Z; ts_nsec : Z }.
(** ldmsd_timespec_diff, ldmsd_strgp.c 104-114; no overflow *)
Definition ts_diff (start stop : tspec) : tspec :=
  if (ts_nsec stop - ts_nsec start <? 0)%Z
  then mkTs (ts_sec stop - ts_sec start - 1) (ts_nsec stop - ts_nsec start + 1000000000)
  else mkTs (ts_sec stop - ts_sec start) (ts_nsec stop - ts_nsec start).
(** ldmsd_timespec_cmp, 116-127 *)
Definition ts_cmp (a b : tspec) : Z :=
  if (ts_sec a <? ts_sec b)%Z then (-1)%Z else if (ts_sec b <? ts_sec a)%Z then 1%Z
  else if (ts_nsec a <? ts_nsec b)%Z then (-1)%Z else if (ts_nsec b <? ts_nsec a)%Z then 1%Z else 0%Z.
(** ldmsd_timespec_add, 129-138; no overflow *)
Definition ts_add (a b : tspec) : tspec :=
  if (ts_nsec a + ts_nsec b <? 1000000000)%Z then mkTs (ts_sec a + ts_sec b) (ts_nsec a + ts_nsec b)
  else mkTs (ts_sec a + ts_sec b + 1) (ts_nsec a + ts_nsec b - 1000000000).
(** ldmsd_timespec_from_str, 140-181.  [SErr]: EINVAL.  The text given to strtod has only
    digits and points, so it is neither special nor hexadecimal. *)
Inductive sres := SErr | SVal (t : tspec) | SUndef.
Definition timespec_from_str (s : text) : sres :=
  let num c := isdigit c || (c =? 46) in
  let input := take_while num s in
  let units := match skip_while num s with [] => [117; 115] | u => u end in
  let term := match strtod input with Num x _ => x | _ => S754_zero false end in
  let out x := match to_long x with Some n => SVal (mkTs (Z.quot n 1000000000) (Z.rem n 1000000000)) | None => SUndef end in
  if eqcase units [115] then out (mul term (of_int 1000000000))
  else if eqcase units [109; 115] then out (mul term (of_int 1000000))
  else if eqcase units [117; 115] then out (mul term (of_int 1000))
  else if eqcase units [110; 115] then out term
  else SErr.
