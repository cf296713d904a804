(** What the answer to a directory request should be. *)
From Verif Require Export M_Dir.
From Coq Require Import String.
Local Open Scope Z_scope.

(** The sets that exist and that the asking process may read *)
Definition visible (l : list (option dset)) : list dset :=
  flat_map (fun o => match o with Some s => if readable s then [s] else [] | None => [] end) l.
(** The entry of a set: its text, its information separated by commas *)
Fixpoint commas (l : list text) : text := match l with [] => [] | [t] => t | t :: l => t ++ str "," ++ commas l end.
Definition entry (s : dset) : text := head s ++ commas (map pair_text (shown s)) ++ str "]}".
(** A reply that lists [l]: entries with a blank or a comma before each.  (The parser of
    the library takes a comma before the first.) *)
Definition entries (c : ascii) (l : list dset) : text :=
  match l with [] => [] | s :: l => c :: entry s ++ flat_map (fun s => ","%char :: entry s) l end.
Definition lists (t : text) (l : list dset) : Prop :=
  exists c, (c = " "%char \/ c = ","%char) /\ t = HDR ++ entries c l ++ str "]}".
(** The answer: a sequence of replies, the last and only the last without "more", that
    list all the visible sets one after the other *)
Definition complete (l : list (option dset)) (a : list reply) : Prop :=
  exists groups last init final, a = init ++ [final] /\ List.concat groups ++ last = visible l /\
  Forall2 (fun r g => rc r = 0 /\ more r = true /\ g <> [] /\ lists (json r) g) init groups /\
  rc final = 0 /\ more final = false /\ lists (json final) last.
(** The set fits in a message of its own, with [slack] bytes *)
Definition fits (cap slack : Z) (s : dset) : Prop := zlen HDR + 1 + zlen (entry s) + slack <= cap.
