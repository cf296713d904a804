(** Model of set groups, ldms/src/ldmsd/ldmsd_group.c:60-140: the members of a group are keys of
    its information (M_Info.v).  The commands setgroup_ins and setgroup_rm call these for each
    name.  Simplified: allocations succeed; the callback of ldmsd_group_iter returns 0. *)
From Verif Require Export M_Info.
From Coq Require Import String.
Local Open Scope Z_scope.

(** ldmsd_group.c:56 GRP_KEY_PREFIX *)
Definition kprefix : text := str "    grp_member: ".
Definition ENAMETOOLONG : Z := 36.
(** 68-90: the key is formatted into 512 bytes with the NUL; [None]: ENAMETOOLONG *)
Definition member_key (n : text) : option text := if 512 <=? Z.of_nat (List.length (kprefix ++ n)) then None else Some (kprefix ++ n).
(** 68-78 *)
Definition group_add (s : iset) (n : text) : iset * Z * updates :=
  match member_key n with None => (s, ENAMETOOLONG, []) | Some k => set_info_set true true s (Some k) (Some (str "-")) end.
(** 80-90 *)
Definition group_rm (s : iset) (n : text) : iset * Z * updates :=
  match member_key n with None => (s, ENAMETOOLONG, []) | Some k => let '(s, u) := set_info_unset s k in (s, 0, u) end.
(** 92-97 ldmsd_group_member_name *)
Fixpoint strip (p t : text) : option text :=
  match p, t with [], t => Some t | a :: p, b :: t => if ascii_dec a b then strip p t else None | _ :: _, [] => None end.
Definition member_name (k : text) : option text := strip kprefix k.
(** 105-129 ldmsd_group_iter: the names the callback gets, of the own and then of the other information *)
Definition names_of (l : pairs) : list text := flat_map (fun p => match member_name (fst p) with Some n => [n] | None => [] end) l.
Definition members (s : iset) : list text := names_of (loc s) ++ names_of (rem s).

(** The group where it is made, and the copy of an aggregator, which gets the directory updates *)
Inductive gop := GAdd (n : text) | GRm (n : text).
Definition gstep (s : iset) (o : gop) : iset * Z * updates := match o with GAdd n => group_add s n | GRm n => group_rm s n end.
Definition both (x : iset * iset) (o : gop) : iset * iset :=
  let '(s, _, u) := gstep (fst x) o in (s, fold_left (fun r new => fst (dir_info true r new)) u (snd x)).
Definition grun (s : iset) (l : list gop) : iset := fold_left (fun s o => fst (fst (gstep s o))) l s.
Definition both_run (x : iset * iset) (l : list gop) : iset * iset := fold_left both l x.
