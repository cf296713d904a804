(** What command substitution in configuration values should do. *)
From Verif Require Export M_Cmd.
From Coq Require Import List. Import ListNotations.
Local Open Scope N_scope.

(** A command: parentheses are balanced, a backslash protects the next character. *)
Inductive balanced : list byte -> Prop :=
| ba_nil : balanced []
| ba_char c l : c <> 40 -> c <> 41 -> c <> 92 -> balanced l -> balanced (c :: l)
| ba_esc c l : balanced l -> balanced (92 :: c :: l)
| ba_paren a l : balanced a -> balanced l -> balanced (40 :: a ++ 41 :: l).

(** Text without the beginning of a command *)
Definition plain (l : list byte) : Prop := forall x y, l <> x ++ 36 :: 40 :: y.
(** Texts, each followed by a command, and a last text *)
Fixpoint render (segs : list (list byte * list byte)) (last : list byte) : list byte :=
  match segs with
  | [] => last
  | (lit, cmd) :: r => lit ++ 36 :: 40 :: cmd ++ 41 :: render r last
  end.

(** The output of a command in one line: of the spaces around ends of lines one is
    kept for a run up to the last end of line, and none at the end. *)
Fixpoint nl_ahead (l : list byte) : bool :=
  match l with [] => false | c :: r => (c =? 10) || (isspace c && nl_ahead r) end.
Fixpoint squeeze (l : list byte) : list byte :=
  match l with
  | [] => []
  | c :: r => if isspace c && nl_ahead r then squeeze r else (if c =? 10 then 32 else c) :: squeeze r
  end.
Fixpoint trim (l : list byte) : list byte :=
  match l with
  | [] => []
  | c :: r => match trim r with [] => if isspace c then [] else [c] | t => c :: t end
  end.
Definition tidy (out : list byte) : list byte := trim (squeeze out).

(** The expanded string, for the outputs of the commands *)
Fixpoint result (segs : list (list byte * list byte)) (outs : list (list byte)) (last : list byte) : list byte :=
  match segs, outs with
  | (lit, _) :: r, out :: outs => lit ++ tidy out ++ result r outs last
  | _, _ => last
  end.
(** No space before a command *)
Definition firm (l : list byte) : Prop := trim l = l.
(** All that is copied *)
Definition volume (segs : list (list byte * list byte)) (outs : list (list byte)) (last : list byte) : nat :=
  (length (concat (map fst segs)) + length (concat outs) + length last)%nat.
