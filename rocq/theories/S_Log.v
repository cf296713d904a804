(** What the log should do. *)
From Verif Require Export M_Log.
Local Open Scope Z_scope.

(** The severities, from the least, with the names a user may write in any case. *)
Definition severities : list (Z * list text) :=
  [(1, [t_debug]); (2, [t_info]); (4, [t_warn; t_warning]); (8, [t_error]); (16, [t_crit; t_critical])].
Definition names (s : text) (v : Z) : Prop := exists ns n, In (v, ns) severities /\ In n ns /\ map tolower s = map tolower n.
(** All levels from [v] on *)
Definition at_least (v : Z) : Z := fold_right (fun '(x, _) m => if v <=? x then Z.lor x m else m) 0 severities.
(** Texts joined with commas *)
Fixpoint join (l : list text) : text := match l with [] => [] | [x] => x | x :: r => x ++ 44%N :: join r end.
(** All lines of messages that were accepted, written or not yet *)
Definition name_of (s : state) (h : option nat) : text := match line s h with Some n => n | None => [] end.
Definition pending (s : state) : list (text * Z * text) := out s ++ map (fun '(h, l, m) => (name_of s h, l, m)) (queue s).
(** The level of a subsystem as it is shown, and the levels that are enabled *)
Definition level_of (s : state) (h : option nat) : option Z := match h with None => Some (dflt s) | Some i => option_map l_level (at_id i (logs s)) end.
Definition enabled (s : state) (h : option nat) (level : Z) : Prop :=
  exists lv, level_of s h = Some lv /\ Z.land (if lv =? LDEFAULT then dflt s else lv) level <> 0.
(** Proper use: handles are used between their registration and their destruction; messages have
    one of the levels; the level of NULL is not asked for by handle. *)
Definition held (H : list nat) (o : op) (r : ret) : list nat :=
  match o, r with Reg _, RHandle i => i :: H | Destroy i, _ => remove Nat.eq_dec i H | _, _ => H end.
Definition proper (H : list nat) (o : op) : Prop :=
  match o with
  | Destroy i | SetL (Some i) _ | GetL (Some i) => In i H
  | Log h level _ => named level = true /\ match h with Some i => In i H | None => True end
  | GetL None => False
  | _ => True
  end.
Inductive used : state -> list nat -> Prop :=
| U_init : used init []
| U_step s H o s' r : used s H -> proper H o -> step s o = Ok s' r -> used s' (held H o r).
Fixpoint works (n : nat) (s : state) : option state := match n with O => Some s | S n => match step s Work with Ok s _ => works n s | Crash => None end end.
