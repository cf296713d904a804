(** Every step keeps the invariant of a rail. *)
From Verif Require Import S_Rail L_Rail.
From Coq Require Import List ZArith Lia Bool ZifyBool ZifyNat. Import ListNotations.
Local Arguments Nat.eq_dec : simpl never.
Local Arguments Z.add : simpl never.
Local Arguments Z.of_nat : simpl never.

Lemma eps_calm p n s h s' l o : Eps p n s h -> calm l -> (forall i, number (closes i) (map Saw o) = 0) ->
  n_eps (rl s') = n_eps (rl s) -> passive (rl s') = passive (rl s) -> (forall i, ep_st (rl s') i = ep_st (rl s) i) -> (forall i, ep_x (rl s') i = ep_x (rl s) i) ->
  connected_eps (rl s') = connected_eps (rl s) -> connecting_eps (rl s') = connecting_eps (rl s) -> rejected_eps (rl s') = rejected_eps (rl s) -> conn_error_eps (rl s') = conn_error_eps (rl s) ->
  (forall i, tp s' i = tp s i) -> (forall i, made s' i = made s i) ->
  (forall i a rm, at_pc s' i = Calling a rm -> at_pc s i = Calling a rm \/ (a = Some XData /\ rm = false /\ tp s i = TUp)) -> (forall i, at_pc s' i = Ending true -> tp s i = TDone) -> (forall i, n <= i -> at_pc s' i = Idle) ->
  (forall i, l = Event i XData -> tp s i = TUp) ->
  Eps p n s' (h ++ items l o).
Proof.
  intros [] C Hc E1 E2 E3 E4 E5 E6 E7 E8 E9 E10 E11 E12 E13 E14.
  assert (K : forall i, number (closes i) (h ++ items l o) = number (closes i) h) by (intros i; rewrite saw_number by reflexivity; rewrite Hc; lia).
  constructor.
  - congruence.
  - congruence.
  - exact e_pos.
  - intros i Hi. destruct (e_out i Hi) as (A & B & D & F). rewrite E9, E10, E3. auto.
  - intros i e H. rewrite ev_items, E9 in *. intros [X|<-]; [now apply (e_none i e)|]. destruct e; try destruct C. rewrite (E14 i eq_refl) in H. destruct H; discriminate.
  - intros i H. rewrite E9 in H. destruct (e_up i H) as (A & B). split; [apply calm_ev; auto; discriminate|]. intros e He. rewrite calm_ev; [auto|exact C|]. intros ->. exact He.
  - intros i H. rewrite E9 in H. destruct (e_done i H) as (e & A & B). exists e. rewrite calm_ev; [auto|exact C|]. intros ->. exact A.
  - intros i H. rewrite !calm_ev in * by (exact C || discriminate). auto.
  - rewrite E5, e_cc. apply sumz_ext. intros i _. rewrite E9. reflexivity.
  - rewrite E6, e_cg. f_equal; apply sumz_ext; intros i _; [rewrite E9|rewrite E10]; reflexivity.
  - rewrite E7, calm_some by (exact C || discriminate). exact e_rej.
  - rewrite E8, calm_some by (exact C || discriminate). exact e_err.
  - intros i. specialize (e_st i). rewrite E9, E3, E10, K. exact e_st.
  - intros i. rewrite K, E9. apply e_cl.
  - intros i H. rewrite E10 in H. rewrite E9, E4. auto.
  - intros i H. rewrite E9 in H. rewrite E4. auto.
  - intros i a rm H. rewrite E9. destruct (E11 i a rm H) as [X|(-> & -> & X)]; [apply e_pc; exact X|auto].
  - intros i H. rewrite E9. auto.
Qed.
Lemma rst_calm p n s h s' l o : Rst p n s h -> calm l ->
  st (rl s') = st (rl s) -> (forall i, ep_st (rl s') i = ep_st (rl s) i) -> (forall i, tp s' i = tp s i) ->
  (hC (h ++ items l o) + sumz n (fun i => ind (pC (at_pc s' i))) = hC h + sumz n (fun i => ind (pC (at_pc s i))))%Z ->
  (hT (h ++ items l o) + sumz n (fun i => ind (pT (at_pc s' i))) = hT h + sumz n (fun i => ind (pT (at_pc s i))))%Z ->
  Rst p n s' (h ++ items l o).
Proof.
  intros [] C E1 E2 E3 E4 E5. constructor.
  - rewrite E1. destruct (st (rl s)); auto.
    + destruct r_st as (A & B & D & F). rewrite calm_connects, calm_settled by exact C. repeat split; auto. rewrite E3; apply B. rewrite E2; apply B.
    + rewrite calm_settled by exact C. auto.
    + rewrite calm_settled, calm_connects by exact C. auto.
    + rewrite calm_joined, calm_connects by exact C. destruct r_st as (A & B & D). repeat split; auto. intros i Hi. rewrite E3. auto.
    + rewrite calm_settled, calm_connects, calm_close by exact C. destruct r_st as (A & B & D). repeat split; auto. intros i Hi. rewrite E3 in Hi. rewrite E2. auto.
    + rewrite calm_settled, calm_connects, calm_close by exact C. destruct r_st as (A & B & D). repeat split; auto. intros i Hi. rewrite E3 in Hi. rewrite E2. auto.
  - rewrite calm_failed, calm_close, E1 by exact C. intros H. destruct (r_fs H) as (A & B & D). repeat split; auto. destruct D as [(k & D1 & D2)|D]; [left; exists k; rewrite E3; auto|auto].
  - rewrite calm_rl, E1 by exact C. exact r_rl.
  - cbv zeta in *. rewrite E4, calm_joined by exact C. exact r_c.
  - rewrite E1, E5. exact r_t0.
  - cbv zeta in *. rewrite calm_joined, E5, calm_last by exact C. intros H. destruct (r_t H) as (A & B). split; [exact A|]. unfold allDone in *. rewrite B. split; intros (X & Y); (split; [|exact Y]); intros i; [rewrite E3|rewrite <- E3]; apply X.
Qed.

Ltac fu := match goal with |- context [fupd ?f ?i ?v ?j] => destruct (Nat.eq_dec j i) as [->|?]; [rewrite (fupd_eq f i v)|rewrite (fupd_neq f i v j) by assumption] end.
Ltac fuh H := match type of H with context [fupd ?f ?i ?v ?j] => destruct (Nat.eq_dec j i) as [->|?]; [rewrite (fupd_eq f i v) in H|rewrite (fupd_neq f i v j) in H by assumption] end.

(** sums after the change of one program counter *)
Lemma sum_pc n (f : pc -> bool) (g : nat -> pc) i x : i < n -> sumz n (fun j => ind (f (fupd g i x j))) = (sumz n (fun j => ind (f (g j))) + ind (f x) - ind (f (g i)))%Z.
Proof. intros Hi. rewrite (sumz_chg n (fun j => ind (f (g j))) _ i Hi); [rewrite fupd_eq; reflexivity|]. intros j _ Hj. rewrite fupd_neq by exact Hj. reflexivity. Qed.
Lemma sum_tp n (f : tphase -> bool) (g : nat -> tphase) i x : i < n -> sumz n (fun j => ind (f (fupd g i x j))) = (sumz n (fun j => ind (f (g j))) + ind (f x) - ind (f (g i)))%Z.
Proof. intros Hi. rewrite (sumz_chg n (fun j => ind (f (g j))) _ i Hi); [rewrite fupd_eq; reflexivity|]. intros j _ Hj. rewrite fupd_neq by exact Hj. reflexivity. Qed.
Lemma sum_b n (g : nat -> bool) i x : i < n -> sumz n (fun j => ind (fupd g i x j)) = (sumz n (fun j => ind (g j)) + ind x - ind (g i))%Z.
Proof. intros Hi. rewrite (sumz_chg n (fun j => ind (g j)) _ i Hi); [rewrite fupd_eq; reflexivity|]. intros j _ Hj. rewrite fupd_neq by exact Hj. reflexivity. Qed.
Lemma pc_lt p n s h i : Eps p n s h -> at_pc s i <> Idle -> i < n.
Proof. intros [] H. destruct (Nat.lt_ge_cases i n) as [L|L]; [exact L|]. destruct (e_out i L) as (_ & A & _). congruence. Qed.
Lemma tp_lt p n s h i : Eps p n s h -> tp s i <> TNone -> i < n.
Proof. intros [] H. destruct (Nat.lt_ge_cases i n) as [L|L]; [exact L|]. destruct (e_out i L) as (A & _). congruence. Qed.
Lemma made_lt p n s h i : Eps p n s h -> made s i = true -> i < n.
Proof. intros [] H. destruct (Nat.lt_ge_cases i n) as [L|L]; [exact L|]. destruct (e_out i L) as (_ & _ & A & _). congruence. Qed.
Lemma nil_number p : number p (map Saw []) = 0.
Proof. reflexivity. Qed.

Ltac same := first [reflexivity | intros; reflexivity].

Lemma settle_ok s o s' o' : settle s o = Ok s' o' -> s' = s /\ o' = o.
Proof. unfold settle. destruct (_ && _); [discriminate|]. now intros [= -> ->]. Qed.

Lemma step_put p n s h s' o : Inv p n s h -> legal s Put -> step s Put = Ok s' o -> Inv p n s' (h ++ items Put o).
Proof.
  intros (IE & IR & IF) L. unfold step. destruct (refs (rl s) =? 0)%Z; [discriminate|]. intros H. apply settle_ok in H. destruct H as (-> & ->). cbn in L.
  split; [|split].
  - apply (eps_calm _ _ s); try same; auto; try exact I; cbn; [intros i H; apply (e_end _ _ _ _ IE); exact H|intros i Hi; apply (e_out _ _ _ _ IE); exact Hi|discriminate].
  - apply (rst_calm _ _ s); try same; auto; try exact I; [rewrite hC_items|rewrite hT_items]; rewrite nil_number; cbn [at_pc]; lia.
  - destruct IF. constructor; cbn [rl at_pc tp found made has_ref refs in_tree ref_add ].
    + rewrite f_ref, L. cbn [ind]. lia.
    + exact f_act.
    + intros Hp H. apply f_clean; [exact Hp|]. intros e He. specialize (H e He). rewrite calm_some in H; [exact H|exact I|]. intros ->. exact He.
    + rewrite calm_joined by exact I. exact f_tree.
Qed.

Lemma step_find p n s h s' o : Inv p n s h -> legal s Find -> step s Find = Ok s' o -> Inv p n s' (h ++ items Find o).
Proof.
  intros (IE & IR & IF) L. unfold step. destruct (refs (rl s) =? 0)%Z; [discriminate|]. intros [= <- <-]. cbn in L.
  split; [|split].
  - apply (eps_calm _ _ s); try same; auto; try exact I; cbn; [intros i H; apply (e_end _ _ _ _ IE); exact H|intros i Hi; apply (e_out _ _ _ _ IE); exact Hi|discriminate].
  - apply (rst_calm _ _ s); try same; auto; try exact I; [rewrite hC_items|rewrite hT_items]; rewrite nil_number; cbn [at_pc]; lia.
  - destruct IF. constructor; cbn [rl at_pc tp found made has_ref refs in_tree ref_add ].
    + exact f_ref.
    + intros Hp. destruct (f_act Hp) as (A & _). congruence.
    + intros Hp H. apply f_clean; [exact Hp|]. intros e He. specialize (H e He). rewrite calm_some in H; [exact H|exact I|]. intros ->. exact He.
    + rewrite calm_joined by exact I. exact f_tree.
Qed.

Lemma told_out a : Z.of_nat (number told (map Saw (match a with Some e => [OApp e] | None => [] end))) = ind (isC a).
Proof. destruct a as [[]|]; reflexivity. Qed.
Lemma terminal_out a : Z.of_nat (number terminal (map Saw (match a with Some e => [OApp e] | None => [] end))) = ind (isT a).
Proof. destruct a as [[]|]; reflexivity. Qed.
Lemma closes_out a i : number (closes i) (map Saw (match a with Some e => [OApp e] | None => [] end)) = 0.
Proof. destruct a as [[]|]; reflexivity. Qed.

Lemma step_call p n s h i s' o : Inv p n s h -> legal s (Call i) -> step s (Call i) = Ok s' o -> Inv p n s' (h ++ items (Call i) o).
Proof.
  intros (IE & IR & IF) (a & rm & L). unfold step. destruct (refs (rl s) =? 0)%Z; [discriminate|]. rewrite L. intros [= <- <-].
  assert (Hi : i < n) by (apply (pc_lt _ _ _ _ i IE); congruence).
  split; [|split].
  - apply (eps_calm _ _ s); try same; auto; try exact I; cbn [at_pc set_pc].
    + intros j. apply closes_out.
    + intros j b r H. fuh H; [discriminate|auto].
    + intros j H. fuh H; [|apply (e_end _ _ _ _ IE); exact H]. injection H as ->. pose proof (e_pc _ _ _ _ IE i a true L) as E. destruct a as [[]|]; try tauto; try (destruct E; discriminate).
    + intros j Hj. fu; [lia|]. apply (e_out _ _ _ _ IE); exact Hj.
    + discriminate.
  - apply (rst_calm _ _ s); try same; auto; try exact I; [rewrite hC_items, told_out|rewrite hT_items, terminal_out]; cbn [at_pc set_pc]; rewrite sum_pc by exact Hi; rewrite L; cbn [pC pT]; cbn [ind isC isT]; lia.
  - destruct IF. constructor; cbn [rl at_pc tp found made has_ref refs in_tree set_pc].
    + rewrite f_ref, (sum_pc _ busy) by exact Hi. rewrite L. cbn [busy ind]. lia.
    + intros Hp. destruct (f_act Hp) as (A & B & D). repeat split; auto. intros j. fu; [|apply D]. specialize (D i). rewrite L in D. exact D.
    + intros Hp H. destruct (f_clean Hp) as (A & B). { intros e He. specialize (H e He). rewrite calm_some in H; [exact H|exact I|]. intros ->. exact He. } split; [exact A|]. intros j. fu; [|apply B]. specialize (B i). rewrite L in B. exact B.
    + rewrite calm_joined by exact I. intros Hp H. specialize (f_tree Hp H). rewrite sum_pc by exact Hi. rewrite L. cbn [pRm]. unfold allDone in *. cbn [tp]. replace (sumz n (fun j => ind (pRm (at_pc s j))) + ind rm - ind rm)%Z with (sumz n (fun j => ind (pRm (at_pc s j)))) by lia. exact f_tree.
Qed.

Lemma step_end p n s h i s' o : Inv p n s h -> legal s (End i) -> step s (End i) = Ok s' o -> Inv p n s' (h ++ items (End i) o).
Proof.
  intros (IE & IR & IF) (rm & L). unfold step. destruct (refs (rl s) =? 0)%Z; [discriminate|]. rewrite L.
  assert (Hi : i < n) by (apply (pc_lt _ _ _ _ i IE); congruence). intros H.
  assert (G : o = [] /\ exists r', s' = set_pc (set_rl s r') i Idle /\ (rm = true -> in_tree (rl s) = true) /\ r' = if rm then ref_add (set_tree (rl s) false) (-2) else ref_add (rl s) (-1)).
  { destruct rm; [destruct (in_tree (rl s)) eqn:T; [|discriminate]|]; apply settle_ok in H; destruct H as (-> & ->); (split; [reflexivity|]); eexists; repeat split; congruence. }
  destruct G as (-> & r' & -> & T & Er). clear H.
  assert (F1 : n_eps r' = n_eps (rl s) /\ passive r' = passive (rl s) /\ ep_st r' = ep_st (rl s) /\ ep_x r' = ep_x (rl s) /\ connected_eps r' = connected_eps (rl s) /\ connecting_eps r' = connecting_eps (rl s) /\ rejected_eps r' = rejected_eps (rl s) /\ conn_error_eps r' = conn_error_eps (rl s) /\ st r' = st (rl s)) by (rewrite Er; destruct rm; repeat split).
  assert (F2 : refs r' = (refs (rl s) - 1 - ind rm)%Z) by (rewrite Er; destruct rm; cbn [refs ref_add set_tree ind]; lia).
  assert (F3 : in_tree r' = if rm then false else in_tree (rl s)) by (rewrite Er; destruct rm; reflexivity). clear Er.
  destruct F1 as (Q1 & Q2 & Q3 & Q4 & Q5 & Q6 & Q7 & Q8 & Q9).
  split; [|split].
  - apply (eps_calm _ _ s); try same; auto; try exact I; cbn [at_pc set_pc rl set_rl]; try (intros; congruence).
    + intros j b r H. fuh H; [discriminate|auto].
    + intros j H. fuh H; [discriminate|]. apply (e_end _ _ _ _ IE); exact H.
    + intros j Hj. fu; [lia|]. apply (e_out _ _ _ _ IE); exact Hj.
  - apply (rst_calm _ _ s); try same; auto; try exact I; cbn [at_pc set_pc rl set_rl]; try (intros; congruence); [rewrite hC_items|rewrite hT_items]; rewrite nil_number, sum_pc by exact Hi; rewrite L; cbn [pC pT ind]; lia.
  - destruct IF. constructor; cbn [rl at_pc tp found made has_ref set_pc set_rl].
    + rewrite F2, f_ref, (sum_pc _ busy) by exact Hi. rewrite L, F3. cbn [busy ind]. destruct rm; [rewrite T by reflexivity|]; cbn [ind]; lia.
    + intros Hp. destruct (f_act Hp) as (A & B & D). rewrite F3. repeat split; auto; [destruct rm; auto|]. intros j. fu; [reflexivity|apply D].
    + intros Hp H. destruct (f_clean Hp) as (A & B). { intros e He. specialize (H e He). rewrite calm_some in H; [exact H|exact I|]. intros ->. exact He. }
      pose proof (B i) as Bi. rewrite L in Bi. cbn in Bi. subst rm. rewrite F3. split; [exact A|]. intros j. fu; [reflexivity|apply B].
    + rewrite calm_joined by exact I. intros Hp H. specialize (f_tree Hp H). rewrite sum_pc by exact Hi. rewrite L, F3. cbn [pRm ind]. unfold allDone in *. cbn [tp].
      replace (sumz n (fun j => ind (pRm (at_pc s j))) + 0 - ind rm + ind (negb (if rm then false else in_tree (rl s))))%Z with (sumz n (fun j => ind (pRm (at_pc s j))) + ind (negb (in_tree (rl s))))%Z; [exact f_tree|].
      destruct rm; [rewrite T by reflexivity|]; cbn [negb ind]; lia.
Qed.
