(** What the event workers should do for their users. *)
From Verif Require Export M_Ev.
From Coq Require Import List ZArith. Import ListNotations.

(** ** Observations *)
Definition is_post (e : nat) (o : out) : bool := match o with OPosted e' _ _ => Nat.eqb e e' | _ => false end.
Definition is_delivery (e : nat) (o : out) : bool := match o with ODelivered _ e' _ _ _ => Nat.eqb e e' | _ => false end.
Definition posts (e : nat) (tr : list out) : nat := length (filter (is_post e) tr).
Definition deliveries (e : nat) (tr : list out) : nat := length (filter (is_delivery e) tr).
(** The last successful post of an event: to which worker, for when *)
Fixpoint last_post (e : nat) (tr : list out) : option (nat * option (Z * Z)) :=
  match tr with
  | [] => None
  | o :: r => match last_post e r with
              | Some x => Some x
              | None => match o with OPosted e' w to => if Nat.eqb e e' then Some (w, to) else None | _ => None end
              end
  end.
(** The events that were put in the list of a worker (posts without a timeout, and
    cancelled ones), and those delivered from it *)
Definition entered (w : nat) (tr : list out) : list nat :=
  flat_map (fun o => match o with OPosted e w' None => if Nat.eqb w w' then [e] else [] | OMoved e w' => if Nat.eqb w w' then [e] else [] | _ => [] end) tr.
Definition delivered_from_list (w : nat) (tr : list out) : list nat :=
  flat_map (fun o => match o with ODelivered w' e _ _ InList => if Nat.eqb w w' then [e] else [] | _ => [] end) tr.

(** ** Where an event is *)
Definition in_queue (e : nat) (k : wk) : nat := count_occ Nat.eq_dec (queue k) e.
Definition in_tree (e : nat) (k : wk) : nat := count_occ Nat.eq_dec (map snd (tree k)) e.
Definition is_popped (e : nat) (p : phase) : nat := match p with Popped e' _ => if Nat.eqb e e' then 1 else 0 | _ => 0 end.
Definition is_acting (e : nat) (p : phase) : nat := match p with Acting e' _ => if Nat.eqb e e' then 1 else 0 | _ => 0 end.
Fixpoint sumw (n : nat) (f : nat -> nat) : nat := match n with O => 0 | S m => sumw m f + f m end.
(** posted and not yet given to an actor *)
Definition pending (n e : nat) (s : sys) : nat :=
  sumw n (fun w => in_queue e (wks s w) + in_tree e (wks s w) + is_popped e (ph (wks s w))).
(** given to an actor that has not returned *)
Definition acting (n e : nat) (s : sys) : nat := sumw n (fun w => is_acting e (ph (wks s w))).

(** ** What is asked of the users *)
(** A user of an event has a reference, or is its actor. *)
Definition safe (n e : nat) (s : sys) : Prop := 0 < held s e \/ exists w p, w < n /\ ph (wks s w) = Acting e p.
Definition busy (e : nat) (s : sys) : Prop := (exists w b, In (e, w, b) (claims s)) \/ In e (cancels s).
(** There are [n] workers; references are returned by who has them; one who is in a
    call has a reference to the event; only events that were posted before are
    cancelled; and when ev_cancel gets the lock, the event is still in the tree of
    the worker, or its time is less than a second away. *)
Definition fair (n : nat) (l : label) (s : sys) : Prop :=
  match l with
  | New _ | Tick _ => True
  | Get e => safe n e s
  | Put e => 0 < held s e
  | Claim e w _ => safe n e s /\ w < n
  | Cancel1 e => safe n e s /\ flushed (evs s e) <> None
  | Cancel2 e => forall w t, edst (evs s e) = Some w -> eto (evs s e) = Some t ->
      (time_diff t (clk s) < 1000000000)%Z \/ exists t', In (t', e) (tree (wks s w))
  | Insert _ w | Flush w | Start w | Wake w | Deliver w | Return w => w < n
  end.
Definition legal (n : nat) (l : label) (s : sys) : Prop :=
  fair n l s /\ forall s' o, step false l s = Some (s', o) -> forall e, busy e s' -> safe n e s'.
(** Nobody posts an event that is on its way to its actor. *)
Definition calm (n : nat) (l : label) (s : sys) : Prop :=
  match l with Claim e _ _ => forall w p, w < n -> ph (wks s w) <> Popped e p | _ => True end.

(** The states of [n] workers, and what was observed *)
Inductive reach (n : nat) (P : label -> sys -> Prop) : sys -> list out -> Prop :=
| re_init now : (time_cmp (0, 0) now <= 0)%Z -> reach n P (sys_new now) []
| re_step s tr l s' o : reach n P s tr -> legal n l s -> P l s -> step false l s = Some (s', o) -> reach n P s' (tr ++ o).
Definition any (l : label) (s : sys) : Prop := True.
