(** What is said about the tasks of updaters, apart from the model's steps *)
From Verif Require Import M_Updtr.

(** The tasks that may be in their function: begun and not ended *)
Definition opens (open : list hint) (o : op) : list hint :=
  match o with
  | Begin h => h :: open
  | End h => filter (fun k => negb (hint_eqb k h)) open
  | UStop => []
  | _ => open
  end.
Fixpoint along (P : list hint -> op -> Prop) (open : list hint) (l : list op) : Prop :=
  match l with [] => True | o :: r => P open o /\ along P (opens open o) r end.
(** No set gets a hint while the task of that hint is in its function *)
Definition calm : list op -> Prop := along (fun open o => match o with Add _ h | Upd _ h => ~ In h open | _ => True end) [].
(** The clean up does not run while a task is in its function *)
Definition tidy : list op -> Prop := along (fun open o => o = Cleanup -> open = []) [].

(** The updater is asked to update the set *)
Definition asked (c : conf) (i : nat) : Prop := matches c = [] \/ exists m, In m (matches c) /\ m i = true.
(** The next time of the task with this hint (after it is done, if it is in its function) *)
Definition next_time (c : conf) (h : hint) : list op :=
  if hint_eqb (dflt c) h then [EndD; BeginD] else [End h; Begin h].
(** Each set is selected by one match at most *)
Definition disjoint (c : conf) (i : nat) : Prop :=
  forall a b m n, nth_error (matches c) a = Some m -> nth_error (matches c) b = Some n -> m i = true -> n i = true -> a = b.
