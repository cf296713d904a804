(** The log: levels, subsystems, the asynchronous writer.
    Source: lib/src/ovis_log/ovis_log.c.  Functions are steps of their own (the lookup and the
    insertion of ovis_log_register, too); memory is never short; texts are lists of bytes. *)
From Verif Require Export M_TimeStr.
From Coq Require Export List ZArith NArith Bool.
Local Open Scope Z_scope.

(** ** Levels *)
(** ovis_log.h 75-86 *)
Definition LDEFAULT : Z := -1.
Definition LQUIET : Z := 0.
Definition LALWAYS : Z := 31.
Definition t_quiet : text := [81; 85; 73; 69; 84]%N.
Definition t_always : text := [65; 76; 87; 65; 89; 83]%N.
Definition t_crit : text := [67; 82; 73; 84]%N.
Definition t_critical : text := [67; 82; 73; 84; 73; 67; 65; 76]%N.
Definition t_error : text := [69; 82; 82; 79; 82]%N.
Definition t_warn : text := [87; 65; 82; 78]%N.
Definition t_warning : text := [87; 65; 82; 78; 73; 78; 71]%N.
Definition t_info : text := [73; 78; 70; 79]%N.
Definition t_debug : text := [68; 69; 66; 85; 71]%N.
(** level_tbl, ovis_log.c 123-133 *)
Definition level_tbl : list (Z * text) := [(1, t_debug); (2, t_info); (4, t_warning); (8, t_error); (16, t_critical)].
(** is_level_valid, 135-138 *)
Definition is_level_valid (l : Z) : bool := (l =? LDEFAULT) || (l =? 0) || (Z.land l (Z.lnot LALWAYS) =? 0).
(** __str_to_loglevel, 257-278 *)
Definition str_to_loglevel (s : text) : Z :=
  if eqcase s t_quiet then LQUIET else if eqcase s t_always then LALWAYS
  else if eqcase s t_crit || eqcase s t_critical then 16
  else if eqcase s t_error then 8
  else if eqcase s t_warn || eqcase s t_warning then 4
  else if eqcase s t_info then 2 else if eqcase s t_debug then 1 else - EINVAL.
(** __get_bit, 280-288: the loop counts the bits of a positive number, less one *)
Definition get_bit (l : Z) : Z := if l <=? 0 then -1 else Z.log2 l.
(** The tokens strtok_r(…, ",", …) gives: the pieces between commas that are not empty.  [cur] is
    the token that is being read. *)
Fixpoint tokens (cur s : text) : list text :=
  match s with
  | [] => match cur with [] => [] | _ => [cur] end
  | c :: r => if (c =? 44)%N then match cur with [] => tokens [] r | _ => cur :: tokens [] r end else tokens (cur ++ [c]) r
  end.
Fixpoint level_list (level : Z) (ts : list text) : Z :=
  match ts with [] => level | t :: r => let rc := str_to_loglevel t in if rc <? 0 then rc else level_list (Z.lor level rc) r end.
(** ovis_log_str_to_level, 290-341 *)
Definition str_to_level (s : text) : Z :=
  if existsb (fun c => (c =? 44)%N) s then level_list 0 (tokens [] s)
  else let level := str_to_loglevel s in
       if level <? 0 then level
       else if level =? LQUIET then level
       else fold_left (fun l e => Z.lor l (fst e)) (skipn (Z.to_nat (get_bit level + 1)) level_tbl) level.
(** ovis_log_level_to_str, 343-377; the buffer of 128 bytes is not modelled (see log_str_fits) *)
Definition level_to_str (level : Z) : option text :=
  if is_level_valid level then
    if level =? LQUIET then Some t_quiet
    else let '(s, count) := fold_left (fun '(s, count) '(v, n) =>
           if Z.land level v =? 0 then (s, count) else (if (count =? 0)%nat then s ++ n else s ++ 44%N :: n, S count)) level_tbl ([], 0%nat) in
         Some (if (count =? 1)%nat then s ++ [44%N] else s)
  else None.

(** ** Subsystems and messages *)
(** struct ovis_log_s; the number stands for its address *)
Record log := mkLog { l_id : nat; l_name : text; l_level : Z; l_ref : Z }.
(** [logs] is the tree in the order of names; [dflt] the level of default_log and [prog] its name;
    [queue] the events of the worker, with [None] for default_log; [out] the lines written.
    The reference count of default_log is left out: it is not an argument of ovis_log_destroy. *)
Record state := mkSt { logs : list log; next : nat; dflt : Z; prog : text; worker : bool; queue : list (option nat * Z * text); out : list (text * Z * text) }.
Definition init : state := mkSt [] 0 24 [] false [] [].
(** strcmp(a, b) < 0 *)
Fixpoint text_lt (a b : text) : bool :=
  match a, b with [], [] => false | [], _ => true | _, [] => false
  | x :: a, y :: b => if (x <? y)%N then true else if (y <? x)%N then false else text_lt a b end.
Fixpoint insert (e : log) (l : list log) : list log :=
  match l with [] => [e] | x :: r => if text_lt (l_name e) (l_name x) then e :: l else x :: insert e r end.
(** __find_log, 147-154 *)
Definition find_log (n : text) (l : list log) : option log := find (fun e => eqs (l_name e) n) l.
Definition at_id (i : nat) (l : list log) : option log := find (fun e => (l_id e =? i)%nat) l.
Definition upd (i : nat) (f : log -> log) (l : list log) : list log := map (fun e => if (l_id e =? i)%nat then f e else e) l.
Definition with_level (v : Z) (e : log) : log := mkLog (l_id e) (l_name e) v (l_ref e).
Definition add_ref (d : Z) (e : log) : log := mkLog (l_id e) (l_name e) (l_level e) (l_ref e + d).
(** __ovis_log_put, 392-400 *)
Definition put (i : nat) (l : list log) : list log :=
  match at_id i l with
  | Some e => if l_ref e - 1 =? 0 then filter (fun e => negb (l_id e =? i)%nat) l else upd i (add_ref (-1)) l
  | None => l
  end.

(** [Reg]'s result is the handle or NULL with errno.  [Regex p]: the names the expression
    matches; expressions that do not compile are left out. *)
Inductive op :=
| Start (name : text) (level : Z)                       (* ovis_log_init *)
| Reg (name : text) | Destroy (i : nat)
| SetL (h : option nat) (level : Z) | SetN (name : option text) (level : Z) | SetR (p : text -> bool) (level : Z)
| GetL (h : option nat) | GetN (name : option text)
| Log (h : option nat) (level : Z) (msg : text)
| Work.                                                 (* the worker takes an event *)
Inductive ret := RInt (z : Z) | RHandle (i : nat) | RNull (e : Z).
(** [Crash]: a freed log, NULL or a level without name is used. *)
Inductive res := Ok (s : state) (r : ret) | Crash.
(** ovis_log_set_level, 156-174; the list of logs and the level of default_log change *)
Definition set_level (s : state) (h : option nat) (level : Z) : res :=
  if negb (is_level_valid level) then Ok s (RInt EINVAL)
  else match h with
       | None => if level =? LDEFAULT then Ok s (RInt 0) else Ok (mkSt (logs s) (next s) level (prog s) (worker s) (queue s) (out s)) (RInt 0)
       | Some i => match at_id i (logs s) with
                   | None => Crash
                   | Some _ => Ok (mkSt (upd i (with_level level) (logs s)) (next s) (dflt s) (prog s) (worker s) (queue s) (out s)) (RInt 0)
                   end
       end.
(** The loop of ovis_log_set_level_by_regex, 206-213: the logs, rc, cnt *)
Fixpoint regex_loop (p : text -> bool) (level : Z) (l : list log) (rc : Z) (cnt : nat) : list log * Z * nat :=
  match l with
  | [] => ([], rc, cnt)
  | e :: r => if p (l_name e)
              then let '(r', rc', cnt') := regex_loop p level r 0 (S cnt) in ((if is_level_valid level then with_level level e else e) :: r', rc', cnt')
              else let '(r', rc', cnt') := regex_loop p level r 1 cnt in (e :: r', rc', cnt')      (* REG_NOMATCH *)
  end.
(** The levels with a name in ovis_loglevel_names, 108-117 (QUIET is never written) *)
Definition named (level : Z) : bool := existsb (Z.eqb level) [1; 2; 4; 8; 16; LALWAYS].
Definition line (s : state) (h : option nat) : option text := match h with None => Some (prog s) | Some i => option_map l_name (at_id i (logs s)) end.
Definition step (s : state) (o : op) : res :=
  match o with
  (* 772-832 *)
  | Start name level =>
    if worker s then Ok s (RInt 0) else if negb (is_level_valid level) then Ok s (RInt EINVAL)
    else Ok (mkSt (logs s) (next s) level name true (queue s) (out s)) (RInt 0)
  (* 407-446 *)
  | Reg name =>
    match find_log name (logs s) with
    | Some _ => Ok s (RNull EEXIST)
    | None => Ok (mkSt (insert (mkLog (next s) name LDEFAULT 1) (logs s)) (S (next s)) (dflt s) (prog s) (worker s) (queue s) (out s)) (RHandle (next s))
    end
  (* 402-405 *)
  | Destroy i =>
    match at_id i (logs s) with
    | None => Crash
    | Some _ => Ok (mkSt (put i (logs s)) (next s) (dflt s) (prog s) (worker s) (queue s) (out s)) (RInt 0)
    end
  | SetL h level => set_level s h level
  (* 176-185 *)
  | SetN None level => set_level s None level
  | SetN (Some n) level => match find_log n (logs s) with None => Ok s (RInt ENOENT) | Some e => set_level s (Some (l_id e)) level end
  (* 187-223 *)
  | SetR p level =>
    let '(l, rc, cnt) := regex_loop p level (logs s) 0 0 in
    Ok (mkSt l (next s) (dflt s) (prog s) (worker s) (queue s) (out s)) (RInt (if (cnt =? 0)%nat then ENOENT else rc))
  (* 225-228 *)
  | GetL None => Crash
  | GetL (Some i) => match at_id i (logs s) with None => Crash | Some e => Ok s (RInt (l_level e)) end
  (* 230-241 *)
  | GetN None => Ok s (RInt (dflt s))
  | GetN (Some n) => match find_log n (logs s) with None => Ok s (RInt (- ENOENT)) | Some e => Ok s (RInt (l_level e)) end
  (* 920-989; the reference that is taken for the time of the call is put back and left out;
     writing a line succeeds (__log, 665-702) *)
  | Log h level msg =>
    match line s h, match h with None => Some (dflt s) | Some i => option_map l_level (at_id i (logs s)) end with
    | Some n, Some lv =>
      let lmask := if lv =? LDEFAULT then dflt s else lv in
      if Z.land lmask level =? 0 then Ok s (RInt 0)
      else if worker s then
        Ok (mkSt (match h with Some i => upd i (add_ref 1) (logs s) | None => logs s end) (next s) (dflt s) (prog s) (worker s) (queue s ++ [(h, level, msg)]) (out s))
           (RInt (Z.of_nat (length msg)))
      else if named level then Ok (mkSt (logs s) (next s) (dflt s) (prog s) (worker s) (queue s) (out s ++ [(n, level, msg)])) (RInt 0)
      else Crash
    | _, _ => Crash
    end
  (* log_actor, 704-728 *)
  | Work =>
    match queue s with
    | [] => Ok s (RInt 0)
    | (h, level, msg) :: q =>
      match line s h with
      | None => Crash
      | Some n =>
        if named level
        then Ok (mkSt (match h with Some i => put i (logs s) | None => logs s end) (next s) (dflt s) (prog s) (worker s) q (out s ++ [(n, level, msg)])) (RInt 0)
        else Crash
      end
    end
  end.

(** ** Where the lines go *)
(** ovis_log_open, _close and the part of the worker that does them, 588-663, 730-770, 839-914.
    Files open and the calls of dup2 succeed.  A target is what a descriptor refers to, a [file] a
    FILE pointer: [FStd] is the stdout of the start and writes to descriptor 1, [FLog n] writes to
    log file n. *)
Inductive target := TIn | TOut | TErr | TLog (n : nat) | TClosed | TSyslog.
Inductive file := FNull | FStd | FLog (n : nat) | FSyslog.
(** [gone]: FStd has been closed.  [cached]: stdout_cache.  stdout_fd_cache and stderr_fd_cache
    are never set, so both are descriptor 0. *)
Record dest := mkD { fd0 : target; fd1 : target; fd2 : target; gone : bool; log_fp : file; vstdout : file; cached : file; d_worker : bool }.
Definition dest0 : dest := mkD TIn TOut TErr false FNull FStd FNull false.
(** __cache_stdout_stderr, 749-770: dup2(1, 0) and dup2(2, 0) *)
Definition cache (d : dest) : dest :=
  match cached d with FNull => mkD (fd2 d) (fd1 d) (fd2 d) (gone d) (log_fp d) (vstdout d) (vstdout d) (d_worker d) | _ => d end.
(** __log_open, 588-619; [None] is syslog *)
Definition log_open (d : dest) (path : option nat) : dest * file :=
  match path with None => (d, FSyslog) | Some n => (mkD (fd0 d) (TLog n) (TLog n) (gone d) (log_fp d) (vstdout d) (cached d) (d_worker d), FLog n) end.
Definition use (d : dest) (f : file) : dest := mkD (fd0 d) (fd1 d) (fd2 d) (gone d) f f (cached d) (d_worker d).
(** fclose; [None] is a crash *)
Definition fclose (d : dest) (f : file) : option dest :=
  match f with
  | FNull | FSyslog => None
  | FStd => if gone d then None else Some (mkD (fd0 d) TClosed (fd2 d) true (log_fp d) (vstdout d) (cached d) (d_worker d))
  | FLog _ => Some d
  end.
Definition fflush_ok (d : dest) (f : file) : bool := match f with FSyslog => false | FStd => negb (gone d) | _ => true end.
(** __log_reopen, 621-648 *)
Definition log_reopen (d : dest) (path : option nat) : option dest :=
  match log_fp d with
  | FNull => let '(d, f) := log_open d path in Some (use d f)
  | bk => if fflush_ok d bk then let '(d, f) := log_open d path in
            match fclose d bk with Some d => Some (use d f) | None => None end
          else None
  end.
(** __log_close, 650-663 *)
Definition log_close (d : dest) : option dest :=
  match log_fp d with
  | FSyslog => Some (use d (cached d))
  | f => if fflush_ok d f then
           match fclose (mkD (fd0 d) (fd0 d) (fd0 d) (gone d) (log_fp d) (vstdout d) (cached d) (d_worker d)) f with
           | Some d => Some (use d (cached d)) | None => None end
         else None
  end.
Inductive dop := DStart | DLog | DOpen (path : option nat) | DClose.
(** An operation and its event, which the worker does before anything later. *)
Definition dstep (d : dest) (o : dop) : option dest :=
  match o with
  | DStart => Some (mkD (fd0 d) (fd1 d) (fd2 d) (gone d) (log_fp d) (vstdout d) (cached d) true)
  | DLog => Some (if d_worker d then d else mkD (fd0 d) (fd1 d) (fd2 d) (gone d) (vstdout d) (vstdout d) (cached d) (d_worker d))   (* ovis_log, 991-1001 *)
  | DOpen p => let d := cache d in if d_worker d then log_reopen d p else let '(d, f) := log_open d p in Some (use d f)
  | DClose => log_close d
  end.
Fixpoint druns (d : dest) (l : list dop) : option dest := match l with [] => Some d | o :: r => match dstep d o with Some d => druns d r | None => None end end.
(** The target of the lines written now, 665-702 *)
Definition goes (d : dest) : option target :=
  match (match log_fp d with FNull => vstdout d | f => f end) with
  | FSyslog => Some TSyslog | FLog n => Some (TLog n) | FStd => if gone d then None else Some (fd1 d) | FNull => None end.
