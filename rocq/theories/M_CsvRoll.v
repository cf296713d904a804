(** Model of the rollover of CSV files, ldms/src/store/store_csv.c: when the files are rolled
    (rolloverThreadInit 412-484, config 720-806), and the counters of a file that decide about
    rolling and flushing (handleRollover 239-386, store 1651-1667).

    Simplified: times are whole seconds of a local clock whose days have 86400 seconds (no
    daylight saving, no leap seconds); what a roll does with names, owners and headers is left
    out; a stored record is one line. *)
From Coq Require Export ZArith List Bool.
Export ListNotations.
Open Scope Z_scope.

Definition DAY : Z := 86400.
(** 115 MIN_ROLL_1, 118 MIN_ROLL_RECORDS, 121 MIN_ROLL_BYTES, 123 ROLL_LIMIT_INTERVAL *)
Definition MIN_ROLL_1 : Z := 10.
Definition MIN_ROLL_RECORDS : Z := 3.
Definition MIN_ROLL_BYTES : Z := 1024.
Definition ROLL_LIMIT_INTERVAL : Z := 60.
Definition INT_MAX : Z := 2147483647.
Definition INT_MIN : Z := -2147483648.

(** The attributes, as ints: [None] if not given (or out of the range of int, which
    ldmsd_plugattr_s32 tells apart but config does not) *)
Record attrs := mkA { a_type : option Z; a_over : option Z; a_again : option Z }.
(** rolltype (-1: none), rollover, rollagain *)
Record conf := mkF { rtype : Z; rover : Z; ragain : Z }.
(** 728-802: [None] is EINVAL *)
Definition config (a : attrs) : option conf :=
  let ragain := match a_again a with Some v => v | None => 0 end in
  let roll := match a_over a with Some v => v | None => -1 end in
  if match a_again a with Some v => v <? 0 | None => false end then None
  else if match a_over a with Some v => v <? 0 | None => false end then None
  else match a_type a with
       | None => Some (mkF (-1) roll ragain)
       | Some m =>
           if roll <? 0 then None
           else if (m <? 1) || (5 <? m) then None
           else if (m =? 5) && ((roll <? 0) || (ragain <? roll) || (ragain <? MIN_ROLL_1)) then None
           else Some (mkF m roll ragain)
       end.

(** An int; [None]: signed overflow, which is undefined *)
Definition int (x : Z) : option Z := if (INT_MIN <=? x) && (x <=? INT_MAX) then Some x else None.
Definition bind {A B} (x : option A) (f : A -> option B) : option B := match x with Some a => f a | None => None end.
Notation "'do' x <- e ; f" := (bind e (fun x => f)) (at level 200, x name, e at level 100, f at level 200).

(** 412-473: how long the thread sleeps at time [t] *)
Definition tsleep (c : conf) (t : Z) : option Z :=
  let sec := t mod DAY in
  if rtype c =? 1 then Some (if rover c <? MIN_ROLL_1 then MIN_ROLL_1 else rover c)
  else if rtype c =? 2 then
    do s <- int (DAY - sec + rover c);
    if s <? MIN_ROLL_1 then int (s + DAY) else Some s
  else if rtype c =? 5 then
    do s <- (if sec <? rover c then Some (rover c - sec)
             else let z := (sec - rover c) / ragain c in
                  do p <- int ((z + 1) * ragain c); do q <- int (p + rover c); Some (q - sec));
    if s <? MIN_ROLL_1 then int (s + ragain c) else Some s
  else Some ROLL_LIMIT_INTERVAL.

(** When the rolls are meant to be and when they end: each takes (with waking up late) some time [d] *)
Fixpoint rolls (c : conf) (t : Z) (ds : list Z) : option (list Z) :=
  match ds with
  | [] => Some []
  | d :: r => do s <- tsleep c t; do l <- rolls c (t + s + d) r; Some (t + s :: l)
  end.

(** * The counters of a file *)
(** store_count, byte_count, lastflush of struct csv_store_handle; [unflushed]: lines in the
    buffer of the file (of stdio) that may not have been written; [in_file]: lines of this file *)
Record file := mkH { store_count : Z; byte_count : Z; lastflush : Z; unflushed : Z; in_file : Z }.
Definition new_file : file := mkH 0 0 0 0 0.
(** rollempty and the buffering: buffer_type (3: lines, 4: bytes), buffer_sz (0: none) *)
Record fconf := mkB { rollempty : bool; btype : Z; bsz : Z }.
(** 1651-1667 the end of store, after a line of [n] bytes *)
Definition store (b : fconf) (n : Z) (h : file) : file :=
  let sc := store_count h + 1 in let bc := byte_count h + n in
  let '(lf, fl) := if (btype b =? 3) && (bsz b <=? sc - lastflush h) then (sc, true)
                   else if (btype b =? 4) && (bsz b <=? bc - lastflush h) then (bc, true) else (lastflush h, false) in
  mkH sc bc lf (if (bsz b =? 0) || fl then 0 else unflushed h + 1) (in_file h + 1).
(** 239-386 handle_rollover of one file; [ok]: the new files are opened.  The buffer is flushed before
    that.  True: a new file.  437-446: the limits are at least MIN_ROLL_RECORDS and MIN_ROLL_BYTES. *)
Definition roll (c : conf) (b : fconf) (ok : bool) (h : file) : bool * file :=
  let go h := if ok then (true, mkH 0 (byte_count h) (lastflush h) 0 0) else (false, mkH (store_count h) (byte_count h) (lastflush h) 0 (in_file h)) in
  if (rtype c =? 1) || (rtype c =? 2) || (rtype c =? 5)
  then if (store_count h =? 0) && negb (rollempty b) then (false, h) else go h
  else if rtype c =? 3
  then if store_count h <? Z.max (rover c) MIN_ROLL_RECORDS then (false, h) else go (mkH 0 (byte_count h) 0 (unflushed h) (in_file h))
  else if rtype c =? 4
  then if byte_count h <? Z.max (rover c) MIN_ROLL_BYTES then (false, h) else go (mkH (store_count h) 0 0 (unflushed h) (in_file h))
  else go h.
(** The rollover thread of a configured store only calls [roll] when the type is 1 to 5 *)
Inductive op := Store (n : Z) | Roll (ok : bool).
Definition step (c : conf) (b : fconf) (h : file) (o : op) : file := match o with Store n => store b n h | Roll ok => snd (roll c b ok h) end.
Definition run (c : conf) (b : fconf) (l : list op) : file := fold_left (step c b) l new_file.
