(** Lemmas on producers. *)
From Verif Require Import S_Prdcr.
From Coq Require Import Lia.

Lemma upd_same : forall l i e x, nth_error l i = Some x -> nth_error (upd l i e) i = Some e.
Proof. induction l as [|y l IH]; intros [|i] e x H; cbn in *; try discriminate; [reflexivity|eapply IH, H]. Qed.
Lemma upd_other : forall l i j e, i <> j -> nth_error (upd l i e) j = nth_error l j.
Proof. induction l as [|y l IH]; intros [|i] [|j] e H; cbn; try reflexivity; try congruence. apply IH; congruence. Qed.
Lemma upd_len : forall l i e, length (upd l i e) = length l.
Proof. induction l as [|y l IH]; intros [|i] e; cbn; try reflexivity. f_equal; apply IH. Qed.
Lemma peer_ok : forall l n i, peer n l = Some i -> (n <= i)%nat /\ nth_error l (i - n) = Some EPeer.
Proof.
  induction l as [|e l IH]; intros n i H; cbn in H; [discriminate|]. destruct e.
  1: injection H as <-; split; [lia|]; rewrite Nat.sub_diag; reflexivity.
  all: apply IH in H; destruct H as (L & H); split; [lia|]; replace (i - n)%nat with (S (i - S n)) by lia; exact H.
Qed.

Definition okep (k : kind) (p : prdcr) (i : nat) (e : ep) : Prop :=
  e = EGone \/ (e = EPeer /\ k = Passive) \/ (xp p = Some i /\ (e = EUp \/ (e = EConnecting /\ k = Active))).
Record inv (k : kind) (p : prdcr) : Prop := mkInv {
  iE : forall i e, nth_error (eps p) i = Some e -> okep k p i e;
  iX : forall i, xp p = Some i -> exists e, nth_error (eps p) i = Some e /\ is_live e = true;
  iC : match cs p with CStopped => xp p = None | CDisc => xp p = None \/ exists i, pc p = PGap i | CConnecting | CConn => xp p <> None | CStopping => True end;
  iP : match pc p with PNone => match tk p with TRunning _ => False | _ => True end | _ => match tk p with TRunning _ => True | _ => False end end;
  iG : forall i, pc p = PGap i -> xp p = Some i /\ nth_error (eps p) i = Some EUp /\ (cs p = CDisc \/ cs p = CStopping) /\ k = Passive;
  iS : cs p = CStopping -> xp p <> None \/ (0 < joiners p + finals p)%nat }.
Lemma inv_new : forall k, inv k new.
Proof.
  intros k; constructor; cbn; try discriminate; try exact I; try reflexivity. intros i e H; destruct i; discriminate.
Qed.
(** What depends on the endpoints is unchanged *)
Lemma inv_step : forall k p s, inv k p -> (forall i, pc p = PGap i -> s <> ETerm i) -> exists a q, do k s p = Ok a q /\ inv k q.
Proof.
  intros k p s H Q. pose proof H as HI. destruct H as [E X C P G S]. destruct p as [c x t q es j f]; cbn [cs xp tk pc eps joiners finals] in *.
  destruct s; cbn [do cs xp tk pc eps joiners finals].
  - (* start *) destruct c; try (eexists _, _; split; [reflexivity|exact HI]). eexists _, _; split; [reflexivity|].
    constructor; cbn [cs xp tk pc eps joiners finals].
    + exact E.
    + exact X.
    + left; exact C.
    + destruct q, t; cbn; try exact I; exact P.
    + intros i Hi. destruct (G i Hi) as (_ & _ & [F|F] & _); discriminate.
    + discriminate.
  - (* stop *) destruct c; try (eexists _, _; split; [reflexivity|exact HI]); (eexists _, _; split; [reflexivity|]);
    (constructor; cbn [cs xp tk pc eps joiners finals]; [exact E|exact X|exact I|destruct q, t; cbn; try exact I; exact P| |intros _; right; lia]).
    + intros i Hi. destruct (G i Hi) as (A & B & _ & D). repeat split; try assumption. right; reflexivity.
    + intros i Hi. destruct (G i Hi) as (_ & _ & [F|F] & _); discriminate.
    + intros i Hi. destruct (G i Hi) as (_ & _ & [F|F] & _); discriminate.
  - (* join *) destruct j as [|j]; [eexists _, _; split; [reflexivity|exact HI]|]. destruct t; try (eexists _, _; split; [reflexivity|exact HI]).
    eexists _, _; split; [reflexivity|]. constructor; cbn [cs xp tk pc eps joiners finals]; try assumption. intros Hc. destruct (S Hc); [left; assumption|right; lia].
  - (* final *) destruct f as [|f]; [eexists _, _; split; [reflexivity|exact HI]|]. eexists _, _; split; [reflexivity|].
    destruct x as [i|]; constructor; cbn [cs xp tk pc eps joiners finals] in *; try assumption; try discriminate; try reflexivity.
    + intros _; left; discriminate.
    + intros i Hi. destruct (G i Hi) as (A & _); discriminate.
  - (* fire *) destruct t; try (eexists _, _; split; [reflexivity|exact HI]). destruct q; try (eexists _, _; split; [reflexivity|exact HI]).
    eexists _, _; split; [reflexivity|]. constructor; cbn [cs xp tk pc eps joiners finals]; try assumption; try exact I; try discriminate.
    destruct c; try assumption. destruct C as [C|(i & C)]; [left; exact C|discriminate].
  - (* run *) destruct q; try (eexists _, _; split; [reflexivity|exact HI]). destruct t as [| |b]; try (destruct P; fail).
    destruct c.
    1,5: eexists _, _; split; [reflexivity|]; constructor; cbn [cs xp tk pc eps joiners finals task_stop]; try assumption; try exact I; discriminate.
    2,3: eexists _, _; split; [reflexivity|]; constructor; cbn [cs xp tk pc eps joiners finals task_stop]; try assumption; try exact I; discriminate.
    unfold connect; cbn [cs xp tk pc eps joiners finals]. destruct C as [->|(i & C)]; [|discriminate]. destruct k.
    + destruct ok; (eexists _, _; split; [reflexivity|]).
      * constructor; cbn [cs xp tk pc eps joiners finals]; try discriminate; try exact I.
        -- intros i e H. destruct (Nat.lt_ge_cases i (length es)) as [L|L].
           ++ rewrite nth_error_app1 in H by exact L. destruct (E i e H) as [->|[(-> & K)|(K & _)]]; [left; reflexivity|discriminate K|discriminate K].
           ++ rewrite nth_error_app2 in H by exact L. destruct (i - length es)%nat as [|n] eqn:D; [|destruct n; discriminate H]. injection H as <-.
              right; right. assert (i = length es) by lia. subst. split; [reflexivity|right; split; reflexivity].
        -- intros i Hi. injection Hi as <-. exists EConnecting. rewrite nth_error_app2, Nat.sub_diag by lia. split; reflexivity.
      * constructor; cbn [cs xp tk pc eps joiners finals]; try discriminate; try exact I; try assumption. left; reflexivity.
    + destruct (peer 0 es) as [i|] eqn:PE; (eexists _, _; split; [reflexivity|]).
      * apply peer_ok in PE. destruct PE as (_ & PE). rewrite Nat.sub_0_r in PE.
        constructor; cbn [cs xp tk pc eps joiners finals]; try discriminate; try exact I.
        -- intros n e H. destruct (Nat.eq_dec i n) as [->|N].
           ++ rewrite (upd_same _ _ _ _ PE) in H. injection H as <-. right; right. split; [reflexivity|left; reflexivity].
           ++ rewrite upd_other in H by exact N. destruct (E n e H) as [->|[(-> & K)|(K & _)]]; [left; reflexivity|right; left; split; [reflexivity|exact K]|discriminate K].
        -- intros n Hn. injection Hn as <-. exists EUp. split; [apply (upd_same _ _ _ _ PE)|reflexivity].
        -- right; exists i; reflexivity.
        -- intros n Hn. injection Hn as <-. repeat split; [apply (upd_same _ _ _ _ PE)|left; reflexivity].
      * constructor; cbn [cs xp tk pc eps joiners finals]; try discriminate; try exact I; try assumption. left; reflexivity.
  - (* accept *) destruct q as [| |i|]; try (eexists _, _; split; [reflexivity|exact HI]). destruct (G i eq_refl) as (A & B & D & K).
    rewrite B. eexists _, _; split; [reflexivity|]. destruct t as [| |b]; try (destruct P; fail).
    constructor; cbn [connected cs xp tk pc eps joiners finals task_stop]; try assumption; try exact I; try discriminate. rewrite A; discriminate.
  - (* leave *) destruct q; try (eexists _, _; split; [reflexivity|exact HI]). destruct t as [| |b]; try (destruct P; fail). eexists _, _; split; [reflexivity|].
    constructor; cbn [cs xp tk pc eps joiners finals]; try assumption; try discriminate.
    + destruct c; try assumption. destruct C as [C|(i & C)]; [left; exact C|discriminate].
    + destruct b; exact I.
  - (* connected *) destruct (nth_error es i) as [e|] eqn:N; [|eexists _, _; split; [reflexivity|exact HI]].
    destruct e; try (eexists _, _; split; [reflexivity|exact HI]). eexists _, _; split; [reflexivity|].
    assert (XI : x = Some i). { destruct (E i _ N) as [F|[(F & _)|(F & _)]]; [discriminate|discriminate|exact F]. }
    assert (KA : k = Active). { destruct (E i _ N) as [F|[(F & _)|(_ & [F|(_ & F)])]]; try discriminate. exact F. }
    constructor; cbn [connected cs xp tk pc eps joiners finals].
    + intros n e H. destruct (Nat.eq_dec i n) as [->|NE].
      * rewrite (upd_same _ _ _ _ N) in H. injection H as <-. right; right. split; [exact XI|left; reflexivity].
      * rewrite upd_other in H by exact NE. exact (E n e H).
    + intros n Hn. rewrite XI in Hn. injection Hn as <-. exists EUp. split; [apply (upd_same _ _ _ _ N)|reflexivity].
    + rewrite XI; discriminate.
    + destruct q, t; cbn; try exact I; exact P.
    + intros n Hn. destruct (G n Hn) as (_ & _ & _ & F). congruence.
    + discriminate.
  - (* terminal *) destruct (nth_error es i) as [e|] eqn:N; [|eexists _, _; split; [reflexivity|exact HI]].
    assert (L : is_live e = true -> x = Some i). { intros L. destruct (E i e N) as [->|[(-> & _)|(F & _)]]; [discriminate|discriminate|exact F]. }
    assert (M : is_live e = true -> exists a0 q0, reset (mkP c x t q (upd es i EGone) j f) = Ok a0 q0 /\ inv k q0).
    { intros L0. specialize (L L0). subst x.
      assert (NG : forall n, q <> PGap n). { intros n ->. destruct (G n eq_refl) as (A & _). injection A as <-. apply (Q i eq_refl eq_refl). }
      assert (EE : forall n e0, nth_error (upd es i EGone) n = Some e0 -> e0 = EGone \/ (e0 = EPeer /\ k = Passive)).
      { intros n e0 H. destruct (Nat.eq_dec i n) as [->|NE].
        - rewrite (upd_same _ _ _ _ N) in H. injection H as <-. left; reflexivity.
        - rewrite upd_other in H by exact NE. destruct (E n e0 H) as [->|[(-> & K)|(F & _)]]; [left; reflexivity|right; split; [reflexivity|exact K]|cbn in F; congruence]. }
      unfold reset; cbn [cs xp tk pc eps joiners finals]. destruct c; try discriminate C; (eexists _, _; split; [reflexivity|]);
      (constructor; cbn [cs xp tk pc eps joiners finals]; [intros n e0 H; destruct (EE n e0 H) as [->|Z]; [left; reflexivity|right; left; exact Z]|discriminate| | |intros n Hn; exfalso; exact (NG n Hn)|discriminate]).
      all: try reflexivity; try (left; reflexivity); try exact P. all: destruct q, t; cbn; try exact I; exact P. }
    destruct e; try (eexists _, _; split; [reflexivity|exact HI]); apply M; reflexivity.
  - (* peer *) destruct k; [eexists _, _; split; [reflexivity|exact HI]|]. eexists _, _; split; [reflexivity|].
    constructor; cbn [cs xp tk pc eps joiners finals]; try assumption.
    + intros i e H. destruct (Nat.lt_ge_cases i (length es)) as [L|L].
      * rewrite nth_error_app1 in H by exact L. exact (E i e H).
      * rewrite nth_error_app2 in H by exact L. destruct (i - length es)%nat as [|n]; [|destruct n; discriminate H]. injection H as <-. right; left; split; reflexivity.
    + intros i Hi. destruct (X i Hi) as (e & A & B). exists e. split; [|exact B]. rewrite nth_error_app1; [exact A|]. apply nth_error_Some. congruence.
    + intros i Hi. destruct (G i Hi) as (A & B & D). split; [exact A|]. split; [|exact D]. rewrite nth_error_app1; [exact B|]. apply nth_error_Some. congruence.
Qed.
Definition calm (p : prdcr) (s : step) : Prop := forall i, pc p = PGap i -> s <> ETerm i.
Lemma inv_run : forall k l p, inv k p -> along k calm l p -> exists q, run k l p = Some q /\ inv k q.
Proof.
  intros k l; induction l as [|s l IH]; intros p I A; [exists p; split; [reflexivity|exact I]|]. destruct A as (A & B). cbn [run].
  destruct (inv_step k p s I A) as (a & q & E & J). rewrite E in *. apply IH; assumption.
Qed.
Lemma calm_active : forall l p, inv Active p -> along Active calm l p.
Proof.
  induction l as [|s l IH]; intros p I; [exact Logic.I|]. cbn [along].
  assert (C : calm p s) by (intros i H; destruct (iG _ _ I i H) as (_ & _ & _ & K); discriminate).
  split; [exact C|]. destruct (inv_step _ p s I C) as (a & q & -> & J). apply IH, J.
Qed.
Lemma live_one : forall k p, inv k p -> (live p <= 1)%nat /\ (live p = 1%nat <-> xp p <> None).
Proof.
  intros k p [E X _ _ _ _]. unfold live.
  assert (N0 : forall l, (forall i e, nth_error l i = Some e -> is_live e = false) -> length (filter is_live l) = 0%nat).
  { induction l as [|e l IH]; intros H; [reflexivity|]. cbn. rewrite (H 0%nat e eq_refl). apply IH. intros i; apply (H (S i)). }
  assert (N1 : forall l n, (exists e, nth_error l n = Some e /\ is_live e = true) -> (forall i e, nth_error l i = Some e -> is_live e = true -> i = n) -> length (filter is_live l) = 1%nat).
  { induction l as [|e l IH]; intros n (e0 & H1 & H2) H; [destruct n; discriminate|]. destruct n as [|n].
    - injection H1 as ->. cbn. rewrite H2. cbn. f_equal. apply N0. intros i e1 H3. destruct (is_live e1) eqn:L; [|reflexivity]. specialize (H (S i) e1 H3 L). discriminate.
    - cbn. destruct (is_live e) eqn:L; [specialize (H 0%nat e eq_refl L); discriminate|]. apply (IH n); [exists e0; split; assumption|].
      intros i e1 H3 H4. specialize (H (S i) e1 H3 H4). congruence. }
  destruct (xp p) as [n|] eqn:XP.
  - rewrite (N1 (eps p) n (X n eq_refl)).
    + split; [lia|]. split; [discriminate|reflexivity].
    + intros i e H L. destruct (E i e H) as [->|[(-> & _)|(F & _)]]; [discriminate|discriminate|congruence].
  - rewrite N0; [split; [lia|]; split; [discriminate|congruence]|].
    intros i e H. destruct (E i e H) as [->|[(-> & _)|(F & _)]]; [reflexivity|reflexivity|congruence].
Qed.
