(** What the utilities should do. *)
From Verif Require Export M_Util.
From Coq Require Import List. Import ListNotations.
Local Open Scope N_scope.

(** ** Access *)

(** The three bits of a mode for a class. *)
Inductive class := Owner | Group | Other.
Definition bits (c : class) (mode : N) : N :=
  match c with Owner => mode / 64 mod 8 | Group => mode / 8 mod 8 | Other => mode mod 8 end.

Definition in_class (groups : N -> option (list N)) (uid gid ouid ogid : N) (c : class) : Prop :=
  match c with
  | Owner => uid = ouid
  | Group => gid = ogid \/ exists l, groups uid = Some l /\ In ogid l
  | Other => True
  end.

(** All requested bits are permitted. *)
Definition covers (perm acc : N) : Prop := N.land acc perm = acc.

Definition allowed (groups : N -> option (list N)) (uid gid acc ouid ogid perm : N) : Prop :=
  uid = 0 \/ exists c, in_class groups uid gid ouid ogid c /\ covers (bits c perm) (bits c acc).

(** ** Substitution *)
Definition name_char (c : byte) : Prop :=
  48 <= c <= 57 \/ 65 <= c <= 90 \/ 97 <= c <= 122 \/ c = 95.
Definition reference (nm : list byte) : list byte := [36; 123] ++ nm ++ [125].
Definition valid_name (nm : list byte) : Prop := nm <> [] /\ Forall name_char nm.

(** [subst env s r names]: [r] is [s] with every reference replaced by its value
    (nothing if unset); [names] are the names replaced, in order. *)
Inductive subst (env : list byte -> option (list byte)) : list byte -> list byte -> list (list byte) -> Prop :=
| sb_nil : subst env [] [] []
| sb_ref nm s r ns : valid_name nm -> subst env s r ns ->
    subst env (reference nm ++ s) (match env nm with Some v => v | None => [] end ++ r) (nm :: ns)
| sb_char c s r ns : (forall nm s', valid_name nm -> c :: s <> reference nm ++ s') -> subst env s r ns ->
    subst env (c :: s) (c :: r) ns.

Definition no_nul (l : list byte) : Prop := ~ In 0 l.

(** ** Words *)
Definition blank (c : byte) : Prop := c = 32 \/ c = 9 \/ c = 10.
Inductive words : list byte -> list (list byte) -> Prop :=
| ws_nil d : Forall blank d -> words d []
| ws_cons d w l ws : Forall blank d -> w <> [] -> Forall (fun c => ~ blank c) w ->
    (l = [] \/ exists c l', l = c :: l' /\ blank c) -> words l ws ->
    words (d ++ w ++ l) (w :: ws).
(** Words sorted into keywords and name/value pairs, each in line order. *)
Inductive sorted_words : list (list byte) -> list slot -> list slot -> Prop :=
| so_nil : sorted_words [] [] []
| so_kw w ws ks vs : ~ In 61 w -> sorted_words ws ks vs -> sorted_words (w :: ws) ((w, None) :: ks) vs
| so_av n v ws ks vs : ~ In 61 n -> sorted_words ws ks vs ->
    sorted_words ((n ++ 61 :: v) :: ws) ks ((n, Some v) :: vs).

(** ** Decimal numbers *)
Inductive decimal : list byte -> N -> Prop :=
| de_one c : 48 <= c <= 57 -> decimal [c] (c - 48)
| de_snoc l n c : decimal l n -> 48 <= c <= 57 -> decimal (l ++ [c]) (10 * n + (c - 48)).
(** Suffixes and the power of 1024 they stand for *)
Definition suffixes : list (list byte * N) :=
  [([], 0); ([66], 0); ([98], 0); ([75], 1); ([107], 1); ([77], 2); ([109], 2); ([71], 3); ([103], 3); ([84], 4); ([116], 4)].

(** ** Paths *)
Fixpoint joined (sep : list byte) (args : list (list byte)) : list byte :=
  match args with
  | [] => []
  | [a] => a
  | a :: args' => a ++ sep ++ joined sep args'
  end.
