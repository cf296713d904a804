(** Invariant of a set of a producer. *)
From Verif Require Export S_PrdSet.
From Coq Require Import Lia.

Record inv (g : bool) (p : pset) : Prop := {
  iF : freed p = true -> tree p = false /\ lk p = 0 /\ up p = 0 /\ infos p = 0 /\ ref p = 0;
  iA : freed p = false -> 0 < ref p;
  iR : holders p <= ref p /\ (g = false -> ref p = holders p);
  iT : tree p = false -> hint p = false /\ quiet p;
  iL : 0 < lk p -> has p = false;
  iL1 : lk p <= 1;
  iU1 : up p <= 1;
  iS : tree p = true -> match st p with SStart => has p = false /\ lk p = 0 /\ up p = 0 | SLookup => up p = 0 | SReady => lk p = 0 /\ up p = 0 | SUpdating => lk p = 0 end }.
Lemma inv_new : forall g h, inv g (new h).
Proof. intros g h. split; cbn; try discriminate; try lia; destruct h; unfold holders; cbn; repeat split; lia. Qed.

Ltac fin := first [congruence | lia | discriminate | assumption].
Ltac expand := unfold do, bind, touch, hint_remove, hint_add, lookup, set_updates, ref_get, ref_put, set_st, set_ref, set_lk, set_up, set_infos, set_uses, set_finds, set_has, set_hint, set_tree, set_freed; cbn [st has ref tree hint lk up infos uses finds freed andb orb negb].
Ltac cases := repeat match goal with
  | |- context [if ?b then _ else _] => is_var b; destruct b; cbn [st has ref tree hint lk up infos uses finds freed andb orb negb]
  | |- context [match ?b with SStart => _ | SLookup => _ | SReady => _ | SUpdating => _ end] => is_var b; destruct b; cbn [st has ref tree hint lk up infos uses finds freed andb orb negb]
  | |- context [match ?n with O => _ | S _ => _ end] => is_var n; destruct n; cbn [st has ref tree hint lk up infos uses finds freed andb orb negb]
  end.
Ltac close := first [ exact I
  | exfalso; intuition (first [congruence|lia])
  | split; unfold holders, quiet in *; cbn in *; intros; intuition (first [congruence|lia]) ].
Lemma inv_step : forall g p s, inv g p -> calm p s -> match do g s p with Ok q => inv g q | Blocked => True | Crash => False end.
Proof.
  intros g [c h r t hi l u i us fi fr] s [F A [R RG] T L L1 U1 S] C; unfold holders, quiet in *; cbn in *.
  destruct fr.
  - destruct (F eq_refl) as (-> & -> & -> & -> & ->). clear F A. destruct (T eq_refl) as (-> & -> & ->). clear T S L.
    destruct s; cbn; try exact I.
  - clear F. specialize (A eq_refl).
    destruct s as [|[] []|[]|[]|[]|[] []|[] []| | | |]; destruct g; unfold calm, quiet in C; cbn in C; expand; cases; cbn [st has ref tree hint lk up infos uses finds freed andb orb negb] in *;
    try destruct t; try destruct c; try solve [close].
    all: try (specialize (L ltac:(lia)); subst h); try destruct hi; solve [close].
Qed.
Lemma inv_run : forall g l p, inv g p -> along g calm l p -> exists q, run g l p = Some q /\ inv g q.
Proof.
  intros g l. induction l as [|s l IH]; intros p I A; cbn; [eauto|]. destruct A as (C & A). pose proof (inv_step g p s I C) as H.
  destruct (do g s p); [apply IH; assumption|apply IH; assumption|destruct H].
Qed.

(** Runs in which no call for an update fails *)
Definition smooth (g : bool) (p : pset) (s : step) : Prop :=
  calm p s /\ match s with Sched ok | MSched ok => st p = SReady -> ok = true | UpdateDone ok _ => ok = true | LookupDone _ members => g = true -> members = true | _ => True end.
Definition inv2 (p : pset) : Prop :=
  tree p = true -> match st p with SStart => has p = false | SLookup => lk p = 1 /\ has p = false | SReady => has p = true | SUpdating => up p = 1 /\ has p = true end.
Lemma smooth_step : forall g p s q, inv g p -> inv2 p -> smooth g p s -> do g s p = Ok q -> inv2 q.
Proof.
  intros g [c h r t hi l u i us fi fr] s q [F A [R RG] T L L1 U1 S] J (C & M) E. revert E. unfold holders, quiet, inv2, calm in *; cbn in *.
  destruct g; destruct s as [|[] []|[]|[]|[]|[] []|[] []| | | |]; cbn in C, M; try (specialize (M eq_refl); discriminate); expand; cases;
  intros E; try discriminate; try (injection E as <-); cbn in *; try discriminate; intros; subst; cbn in *;
  try solve [intuition (first [congruence|lia])].
  all: try (specialize (L ltac:(lia))); destruct c; intuition (first [congruence|lia]).
Qed.
