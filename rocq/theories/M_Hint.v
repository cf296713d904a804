(** Model of the update hints of sets: ldms/src/ldmsd/ldmsd.c:776-807,
    ldms/src/ldmsd/ldmsd_prdcr.c:298-332, ldms/src/ldmsd/ldmsd_updtr.c:150-169, 808-845. *)
From Verif Require Export M_Json.
Import M_Json.

Local Open Scope Z_scope.
Definition COL : ascii := ":"%char.
(** LDMSD_UPDT_HINT_OFFSET_NONE, ldmsd.h:101 *)
Definition NONE : Z := I64MIN.
(** ldmsd.h:281-284 struct ldmsd_updtr_schedule: interval and offset *)
Definition hint := (Z * Z)%type.

(** ** The text *)
(** ldmsd.c:776-788 ldmsd_set_update_hint_set: at most 41 of 127 characters *)
Definition hint_text (h : hint) : text :=
  if snd h =? NONE then print_ld (fst h) ++ [COL] else print_ld (fst h) ++ COL :: print_ld (snd h).

(** strtok_r with ":": the token and what follows it *)
Fixpoint skip (t : text) : text := match t with c :: r => if is c COL then skip r else t | [] => [] end.
Fixpoint until (t : text) : text * text :=
  match t with c :: r => if is c COL then ([], r) else let '(a, b) := until r in (c :: a, b) | [] => ([], []) end.
Definition strtok (t : text) : option (text * text) := match skip t with [] => None | t => Some (until t) end.

(** strtol with base 0: white space, sign, "0x", "0", digits; what follows is not looked at;
    the result saturates *)
Definition space (c : ascii) : bool := is c " "%char || ((9 <=? code c) && (code c <=? 13)).
Fixpoint trim (t : text) : text := match t with c :: r => if space c then trim r else t | [] => [] end.
Definition hexval (c : ascii) : option Z :=
  let n := code c in
  if (48 <=? n) && (n <=? 57) then Some (n - 48)
  else if (97 <=? n) && (n <=? 102) then Some (n - 87)
  else if (65 <=? n) && (n <=? 70) then Some (n - 55) else None.
Fixpoint hex (acc : Z) (t : text) : Z := match t with c :: r => match hexval c with Some v => hex (acc * 16 + v) r | None => acc end | [] => acc end.
Definition magnitude (t : text) : Z :=
  match t with
  | a :: b :: c :: r =>
      if is a "0"%char && (is b "x"%char || is b "X"%char) then match hexval c with Some _ => hex 0 (c :: r) | None => 0 end
      else if is a "0"%char then radix 8 0 t else radix 10 0 t
  | c :: _ => if is c "0"%char then radix 8 0 t else radix 10 0 t
  | [] => 0
  end.
Definition strtol (t : text) : Z :=
  let '(s, d) := opt sign (trim t) in
  clamp (match s with [c] => if is c "-"%char then - magnitude d else magnitude d | _ => magnitude d end).

(** ldmsd.c:790-807 ldmsd_set_update_hint_get; [None]: strtol(NULL) *)
Definition hint_get (v : option text) : option hint :=
  match v with
  | None => Some (0, NONE)
  | Some v =>
      match strtok v with
      | None => None
      | Some (a, r) => Some (strtol a, match strtok r with Some (b, _) => strtol b | None => NONE end)
      end
  end.
(** ldmsd_prdcr.c:298-332 __update_set_info: the hint of the set of the producer before and
    after a directory message with (or without) a hint; [None]: strtol(NULL) *)
Definition set_info (old : hint) (v : option text) : option hint :=
  match v with
  | None => Some old
  | Some v =>
      match strtok v with
      | None => None
      | Some (a, r) =>
          let i := strtol a in
          let o := match strtok r with Some (b, _) => strtol b | None => NONE end in
          if i <=? o then Some old
          else Some (i, if o =? NONE then snd old else o)
      end
  end.
(** ldmsd_prdcr.c:101-124 prdcr_set_new: calloc *)
Definition fresh : hint := (0, 0).

(** ** Scheduling *)
(** ldmsd_updtr.c:150-169 updtr_task_init: the schedule of the task for a hint; [skew]:
    LDMSD_UPDTR_OFFSET_INCR.  The sum is not taken modulo 2^64. *)
Definition task_sched (skew : Z) (h : hint) : hint := (fst h, if snd h =? NONE then NONE else snd h + skew).
(** An aggregator with an updater of automatic schedule to which a set is announced: the
    schedule it updates the set with, which is the hint it publishes with it (808-845).
    [None]: the daemon fails; [Some None]: the set has no hint and is not updated
    (schedule_prdcr_updates walks the hint tree, in which it is not) *)
Definition aggregate (skew : Z) (v : option text) : option (option hint) :=
  match set_info fresh v with
  | None => None
  | Some h => if fst h =? 0 then Some None else Some (Some (task_sched skew h))
  end.
(** [n] levels of aggregators, and the schedule of the last *)
Fixpoint levels (n : nat) (skew : Z) (h : hint) : option (option hint) :=
  match n with
  | O => Some (Some h)
  | S n =>
      match levels n skew h with
      | Some (Some h) => aggregate skew (Some (hint_text h))
      | x => x
      end
  end.
