(** Every step keeps the invariant of a rail: the events of the endpoints. *)
From Verif Require Import S_Rail L_Rail L_RailStep L_RailStep2 L_RailStep3.
From Coq Require Import List ZArith Lia Bool ZifyBool ZifyNat. Import ListNotations.
Local Arguments Nat.eq_dec : simpl never.
Local Arguments Z.add : simpl never.
Local Arguments Z.of_nat : simpl never.

Lemma step_data p n s h i s' o : Inv p n s h -> legal s (Event i XData) -> step s (Event i XData) = Ok s' o -> Inv p n s' (h ++ items (Event i XData) o).
Proof.
  intros (IE & IR & IF) (Hi & Hpc & Ht). unfold step. destruct (refs (rl s) =? 0)%Z; [discriminate|]. cbn [rail_cb next]. intros [= <- <-].
  rewrite (e_n _ _ _ _ IE) in Hi.
  assert (TP : forall j, fupd (tp s) i (tp s i) j = tp s j) by (intros j; fu; reflexivity).
  split; [|split].
  - apply (eps_calm _ _ s); try same; auto; try exact I; cbn [at_pc set_pc set_tp set_rl tp].
    + intros j b r H. fuh H; [|auto]. injection H as <- <-. auto.
    + intros j H. fuh H; [discriminate|]. apply (e_end _ _ _ _ IE); exact H.
    + intros j Hj. fu; [lia|]. apply (e_out _ _ _ _ IE); exact Hj.
    + intros j [= <-]. exact Ht.
  - apply (rst_calm _ _ s); try same; auto; try exact I; cbn [at_pc set_pc set_tp set_rl]; [rewrite hC_items|rewrite hT_items]; cbn [map]; rewrite nil_number, sum_pc by exact Hi; rewrite Hpc; cbn [pC pT ind isC isT]; lia.
  - destruct IF. constructor; cbn [rl at_pc tp found made has_ref set_pc set_tp set_rl ref_add refs in_tree].
    + rewrite f_ref, (sum_pc _ busy) by exact Hi. rewrite Hpc, (sumz_ext n (fun j => ind (isTry (fupd (tp s) i (tp s i) j))) (fun j => ind (isTry (tp s j)))) by (intros; rewrite TP; reflexivity).
      rewrite (sumz_ext n (fun j => ind (isUp (fupd (tp s) i (tp s i) j))) (fun j => ind (isUp (tp s j)))) by (intros; rewrite TP; reflexivity). cbn [busy ind]. lia.
    + intros Hp. destruct (f_act Hp) as (A & B & D). repeat split; auto. intros j. fu; [reflexivity|apply D].
    + intros Hp H. destruct (f_clean Hp) as (A & B). { intros e He. specialize (H e He). rewrite calm_some in H; [exact H|exact I|]. intros ->. exact He. } split; [exact A|]. intros j. fu; [reflexivity|apply B].
    + rewrite calm_joined by exact I. intros Hp H. specialize (f_tree Hp H). rewrite sum_pc, Hpc by exact Hi. cbn [pRm ind]. replace (sumz n (fun j => ind (pRm (at_pc s j))) + 0 - 0)%Z with (sumz n (fun j => ind (pRm (at_pc s j)))) by lia.
      destruct f_tree as (A & B). split; [exact A|]. rewrite B. unfold allDone. cbn [tp set_tp set_pc set_rl]. split; intros X j; specialize (X j); rewrite TP in *; exact X.
Qed.

(** all endpoints are up exactly if they all were connected and nothing went wrong *)
Lemma up_one t : ind (isUp t) = 1%Z <-> t = TUp.
Proof. destruct t; cbn; split; congruence. Qed.

Lemma up_fields r i r' a rm cl : rail_cb r i XConnected = Some (r', a, rm, cl) ->
  (connected_eps r < Z.of_nat (n_eps r))%Z -> (0 <= connected_eps r)%Z ->
  n_eps r' = n_eps r /\ passive r' = passive r /\ ep_x r' = ep_x r /\ connected_eps r' = (connected_eps r + 1)%Z /\ connecting_eps r' = (connecting_eps r - 1)%Z /\
  rejected_eps r' = rejected_eps r /\ conn_error_eps r' = conn_error_eps r /\ refs r' = (refs r + 1)%Z /\ in_tree r' = in_tree r /\ rm = false /\
  (((st r = CONNECTING \/ st r = ACCEPTING) /\ cl = [] /\ ep_st r' = fupd (ep_st r) i CONNECTED /\
      ((connected_eps r + 1 = Z.of_nat (n_eps r))%Z /\ st r' = CONNECTED /\ a = Some XConnected \/
       (connected_eps r + 1 < Z.of_nat (n_eps r))%Z /\ st r' = st r /\ a = None)) \/
   (st r = ERROR /\ st r' = ERROR /\ cl = [i] /\ (forall j, ep_st r' j = fupd (ep_st r) i ERROR j) /\ a = None)).
Proof.
  unfold rail_cb. cbn [st set_ep ref_add count]. intros H L0 L1.
  destruct (st r) eqn:S; try discriminate.
  1,2: unfold ev_prep in H; cbn [st connected_eps connecting_eps n_eps set_ep ref_add count passive conn_error_eps rejected_eps] in H; rewrite S in H; destruct (Z.eqb_spec (connected_eps r + 1) (Z.of_nat (n_eps r))); injection H as <- <- <- <-; repeat (split; [first [reflexivity|cbn [connecting_eps connected_eps refs rejected_eps conn_error_eps count ref_add set_ep set_st]; lia]|]); left; (split; [auto|]); (split; [reflexivity|]); (split; [reflexivity|]); [left|right]; repeat split; auto; lia.
  unfold ev_prep in H; cbn [st connected_eps connecting_eps n_eps set_ep ref_add count passive conn_error_eps rejected_eps] in H; rewrite S in H. destruct (Z.eqb_spec (connected_eps r + 1) 0); [lia|]. cbn [andb] in H. injection H as <- <- <- <-.
  repeat (split; [first [reflexivity|cbn [connecting_eps connected_eps refs rejected_eps conn_error_eps count ref_add set_ep set_st]; lia]|]). right. repeat split; auto.
  intros j. cbn [ep_st set_ep count ref_add]. destruct (Nat.eq_dec j i) as [->|N]; [rewrite !fupd_eq; reflexivity|]. rewrite !fupd_neq by assumption. reflexivity.
Qed.

Lemma ev_ext_up i j e h o : e <> XConnected -> (ev j e (h ++ items (Event i XConnected) o) <-> ev j e h).
Proof. intros N. rewrite ev_items. split; [intros [X|X]; [exact X|congruence]|auto]. Qed.

Lemma step_up p n s h i s' o : Inv p n s h -> legal s (Event i XConnected) -> step s (Event i XConnected) = Ok s' o -> Inv p n s' (h ++ items (Event i XConnected) o).
Proof.
  intros (IE & IR & IF) (Hi & Hpc & Ht). unfold step. destruct (refs (rl s) =? 0)%Z; [discriminate|].
  destruct (rail_cb (rl s) i XConnected) as [[[[r' a] rm] cl]|] eqn:CB; [|discriminate]. cbn [next]. intros [= <- <-].
  pose proof IE as IE'. destruct IE. rewrite e_n in Hi.
  assert (UB : forall k, (0 <= ind (isUp (tp s k)) <= 1)%Z) by (intros; apply ind_bound).
  assert (C0 : (0 <= connected_eps (rl s))%Z) by (rewrite e_cc; apply sumz_nonneg; intros; apply UB).
  assert (S' : sumz n (fun j => ind (isUp (fupd (tp s) i TUp j))) = (connected_eps (rl s) + 1)%Z) by (rewrite sum_tp, Ht, e_cc by exact Hi; cbn [isUp ind]; lia).
  assert (C1 : (connected_eps (rl s) < Z.of_nat n)%Z).
  { assert (B : (sumz n (fun j => ind (isUp (fupd (tp s) i TUp j))) <= Z.of_nat n)%Z).
    { clear. induction n; cbn [sumz]; [lia|]. pose proof (ind_bound (isUp (fupd (tp s) i TUp n))). lia. } lia. }
  apply up_fields in CB; [|rewrite e_n; exact C1|exact C0].
  destruct CB as (Q1 & Q2 & Q3 & Q4 & Q5 & Q6 & Q7 & Q8 & Q9 & -> & CB).
  set (l := Event i XConnected). set (o := map OClose cl).
  assert (SE : forall e, e <> XConnected -> (some_ev e (h ++ items l o) <-> some_ev e h)) by (intros e N; apply some_other; unfold l; congruence).
  assert (NJ : ~ joined n h). { intros J. destruct (joined_up _ _ _ _ i IE' J Hi) as (_ & _ & A & _). contradiction. }
  assert (CLO : In (Did Close) (h ++ items l o) <-> In (Did Close) h) by (rewrite did_items; split; [intros [X|X]; [exact X|discriminate]|auto]).
  assert (CO : connects (h ++ items l o) <-> connects h) by (rewrite connects_items; split; [intros [X|(c & X)]; [exact X|discriminate]|auto]).
  assert (FS : failed_start n (h ++ items l o) <-> failed_start n h) by (rewrite failed_items; split; [intros [X|(c & X & _)]; [exact X|discriminate]|auto]).
  assert (RL : rejected_last (h ++ items l o) <-> rejected_last h). { rewrite rejected_items. split; [intros [(k & X)|X]; [discriminate|tauto]|]. intros X. right. repeat split; [exact X|discriminate|discriminate]. }
  assert (LA : settled_last n (h ++ items l o) <-> settled_last n h) by (rewrite last_items; cbn [fin l final]; tauto).
  assert (NT : hT (h ++ items l o) = hT h) by (rewrite hT_items; unfold o; rewrite number_term_closes; lia).
  assert (NC : hC (h ++ items l o) = hC h) by (rewrite hC_items; unfold o; rewrite number_told_closes; lia).
  assert (ND : ~ allDone s) by (intros D; destruct (D i); congruence).
  (* all up *)
  assert (FULL : (connected_eps (rl s) + 1 = Z.of_nat n)%Z <-> forall j, j < n -> j <> i -> tp s j = TUp).
  { rewrite <- S'. rewrite sumz_full by (intros; apply ind_bound). split.
    - intros H j Hj N. specialize (H j Hj). rewrite fupd_neq in H by exact N. apply up_one. exact H.
    - intros H j Hj. fu; [reflexivity|]. apply up_one. auto. }
  assert (NOEV : forall j e, final e -> ev j e h -> j < n -> j <> i -> tp s j <> TUp). { intros j e He H _ _ T. destruct (e_up j T) as (_ & B). now apply (B e). }
  assert (EVI : forall e, ~ ev i e h) by (intros e; apply e_none; auto).
  assert (EVLT : forall j e, ev j e h -> j < n). { intros j e H. destruct (Nat.lt_ge_cases j n) as [A|A]; [exact A|]. exfalso. apply (e_none j e); [left; apply e_out; exact A|exact H]. }
  assert (CU : clean (h ++ [Did l]) /\ all_up n (h ++ [Did l]) <-> ~ In (Did Close) h /\ (connected_eps (rl s) + 1 = Z.of_nat n)%Z).
  { change [Did l] with (items l []). rewrite FULL. unfold clean. rewrite did_items, !some_other by (unfold l; congruence). split.
    - intros ((A1 & A2 & A3 & A4) & U). split; [tauto|]. intros j Hj N. specialize (U j Hj). apply ev_items in U. destruct U as [U|U]; [|unfold l in U; congruence].
      destruct (tp s j) eqn:T; [exfalso; apply (e_none j XConnected); auto|exfalso; apply (e_none j XConnected); auto|reflexivity|].
      destruct (e_done j T) as (e & Fe & Ee). exfalso. destruct e; try contradiction; [apply A2|apply A3|apply A4]; exists j; exact Ee.
    - intros (A & U). assert (X : forall e, final e -> ~ some_ev e h). { intros e He (j & Hj). destruct (Nat.eq_dec j i) as [->|N]; [now apply (EVI e)|]. pose proof (EVLT j e Hj) as Lj. apply (NOEV j e He Hj Lj N). auto. }
      repeat split; try (apply X; exact I). { intros [Y|Y]; [contradiction|discriminate]. }
      intros j Hj. apply ev_items. destruct (Nat.eq_dec j i) as [->|N]; [right; reflexivity|]. left. apply e_up. auto. }
  assert (JN : joined n (h ++ items l o) <-> ~ In (Did Close) h /\ (connected_eps (rl s) + 1 = Z.of_nat n)%Z) by (rewrite joined_items, CU; tauto).
  assert (SN : settled n (h ++ items l o) <-> settled n h \/ (~ In (Did Close) h /\ (connected_eps (rl s) + 1 = Z.of_nat n)%Z)).
  { rewrite settled_items, CU. split; [|tauto]. intros [X|[X|[(c & X & _)|[(k & X)|[(k & X)|X]]]]]; try tauto; discriminate. }
  assert (TS : sumz n (fun j => ind (isTry (fupd (tp s) i TUp j))) = (sumz n (fun j => ind (isTry (tp s j))) - 1)%Z) by (rewrite sum_tp, Ht by exact Hi; cbn [isTry ind]; lia).
  assert (EPS : forall x, (x = CONNECTED /\ cl = [] \/ x = ERROR /\ cl = [i]) -> (forall j, ep_st r' j = fupd (ep_st (rl s)) i x j) -> isT a = false -> (isC a = false -> a = None) ->
    Eps p n (set_tp (set_pc (set_rl s r') i (Calling a false)) i TUp) (h ++ items l o)).
  { intros x Hx EP Ha Ha'.
    assert (K : forall j, number (closes j) (h ++ items l o) = number (closes j) h + if Nat.eqb j i then match cl with [] => 0 | _ => 1 end else 0).
    { intros j. rewrite saw_number by reflexivity. unfold o. rewrite number_closes. f_equal. destruct Hx as [(_ & ->)|(_ & ->)]; cbn [count_occ]; [destruct (j =? i); reflexivity|]. destruct (Nat.eq_dec i j) as [->|N]; [rewrite Nat.eqb_refl; reflexivity|]. destruct (Nat.eqb_spec j i); congruence. }
    constructor; cbn [set_rl set_pc set_tp rl at_pc tp found made has_ref]; try congruence; auto.
    - intros j Hj. destruct (e_out j Hj) as (A & B & D & F). rewrite EP, !fupd_neq by lia. auto.
    - intros j e H. fuh H; [destruct H; discriminate|]. rewrite ev_items. intros [X|X]; [now apply (e_none j e)|unfold l in X; congruence].
    - intros j H. fuh H.
      + split; [apply ev_items; right; reflexivity|]. intros e He. rewrite ev_items. intros [X|X]; [now apply (EVI e)|]. unfold l in X. injection X as ->. exact He.
      + destruct (e_up j H) as (A & B). split; [apply ev_items; auto|]. intros e He. rewrite ev_items. intros [X|X]; [now apply (B e)|unfold l in X; congruence].
    - intros j H. fuh H; [discriminate|]. destruct (e_done j H) as (e & A & B). exists e. split; [exact A|]. apply ev_items. auto.
    - intros j H. rewrite !ev_items. destruct (Nat.eq_dec j i) as [->|N].
      + split; (intros [X|X]; [now apply EVI in X|discriminate]).
      + apply ev_items in H. destruct H as [H|H]; [|unfold l in H; congruence]. destruct (e_excl j H). split; (intros [X|X]; [contradiction|discriminate]).
    - rewrite Q5, e_cg, TS. lia.
    - rewrite Q6, SE by discriminate. exact e_rej.
    - rewrite Q7, SE by discriminate. exact e_err.
    - intros j. specialize (e_st j). rewrite K, EP. destruct (Nat.eq_dec j i) as [->|N].
      + rewrite !fupd_eq, Nat.eqb_refl. destruct (e_cl i) as (_ & E). rewrite E by auto. destruct Hx as [(-> & ->)|(-> & ->)]; auto.
      + rewrite !fupd_neq by exact N. destruct (Nat.eqb_spec j i); [congruence|]. rewrite Nat.add_0_r. exact e_st.
    - intros j. rewrite K. destruct (e_cl j) as (A & B). destruct (Nat.eqb_spec j i) as [->|N].
      + rewrite fupd_eq. split; [rewrite B by auto; destruct cl; lia|]. intros [X|X]; discriminate.
      + rewrite fupd_neq by exact N. rewrite Nat.add_0_r. auto.
    - intros j H. rewrite Q3. destruct (e_made j H) as (A & B). rewrite fupd_neq by congruence. auto.
    - intros j H. rewrite Q3. fuh H; [apply e_x; congruence|]. auto.
    - intros j b r H. fuh H.
      + rewrite fupd_eq. injection H as <- <-. destruct a as [[]|]; cbn in Ha, Ha'; auto; try discriminate.
      + rewrite fupd_neq by assumption. apply e_pc. exact H.
    - intros j H. fuh H; [discriminate|]. rewrite fupd_neq by assumption. auto. }
  destruct IR. cbv zeta in *.
  assert (PT : sumz n (fun j => ind (pT (fupd (at_pc s) i (Calling a false) j))) = (sumz n (fun j => ind (pT (at_pc s j))) + ind (isT a))%Z) by (rewrite sum_pc, Hpc by exact Hi; cbn [pT ind]; lia).
  assert (PC : sumz n (fun j => ind (pC (fupd (at_pc s) i (Calling a false) j))) = (sumz n (fun j => ind (pC (at_pc s j))) + ind (isC a))%Z) by (rewrite sum_pc, Hpc by exact Hi; cbn [pC ind]; lia).
  assert (CJ : (hC h + sumz n (fun j => ind (pC (at_pc s j))) = 0)%Z). { destruct r_c as ([A|A] & B); [exact A|]. exfalso. apply NJ. apply B. exact A. }
  assert (T0 : p = false \/ joined n h -> (hT h + sumz n (fun j => ind (pT (at_pc s j))) = 0)%Z). { intros H. destruct (r_t H) as ([A|A] & B); [exact A|]. exfalso. apply ND. apply B. exact A. }
  assert (AD : ~ allDone (set_tp (set_pc (set_rl s r') i (Calling a false)) i TUp)). { intros D. specialize (D i). unfold set_tp in D. cbn [tp] in D. rewrite fupd_eq in D. destruct D; discriminate. }
  assert (REF : isT a = false -> Ref p n (set_tp (set_pc (set_rl s r') i (Calling a false)) i TUp) (h ++ items l o)).
  { intros Ha. destruct IF. constructor; cbn [rl at_pc tp found made has_ref set_pc set_tp set_rl].
    - rewrite Q8, Q9, f_ref, TS, S', e_cc, (sum_pc _ busy), Hpc by exact Hi. cbn [busy ind]. lia.
    - intros Hp. destruct (f_act Hp) as (A & B & D). rewrite Q9. repeat split; auto. intros j. fu; [reflexivity|apply D].
    - intros Hp H. rewrite Q9. destruct (f_clean Hp) as (A & B). { intros e He. specialize (H e He). rewrite SE in H; [exact H|]. intros ->. exact He. } split; [exact A|]. intros j. fu; [reflexivity|apply B].
    - intros Hp HJ. assert (X : forall e, final e -> ~ some_ev e h).
      { rewrite joined_items in HJ. destruct HJ as [HJ|((_ & A2 & A3 & A4) & _)]; [contradiction|]. change [Did l] with (items l []) in *. rewrite some_other in A2, A3, A4 by (unfold l; congruence). intros [] He; try contradiction; assumption. }
      destruct (f_clean Hp X) as (A & B). rewrite Q9, A, sum_pc, Hpc by exact Hi. cbn [pRm ind negb].
      rewrite (proj2 (sumz_zero n (fun j => ind (pRm (at_pc s j))) ltac:(intros; apply ind_bound))) by (intros j _; rewrite B; reflexivity).
      split; [lia|]. split; [lia|]. intros Y. contradiction. }
  destruct CB as [(S0 & Hcl & EP & CB)|(S0 & S1 & Hcl & EP & Ha)].
  - assert (NS : ~ settled n h) by (destruct S0 as [S0|S0]; rewrite S0 in r_st; tauto).
    assert (NCl : ~ In (Did Close) h) by (intros X; apply NS; unfold settled; auto).
    destruct CB as [(F & S1 & Ha)|(F & S1 & Ha)]; rewrite e_n in F.
    + assert (J : joined n (h ++ items l o)) by (apply JN; auto).
      split; [|split]; [apply (EPS CONNECTED); rewrite ?Ha; auto; [intros; rewrite EP; reflexivity|discriminate]| |apply REF; rewrite Ha; reflexivity].
      constructor; cbv zeta; cbn [rl at_pc tp set_tp set_pc set_rl]; rewrite ?S1, ?NT, ?NC, ?RL, ?LA, ?FS, ?CO, ?CLO, ?PC, ?PT, ?Ha; cbn [isC isT ind].
      * split; [exact J|]. split; [|destruct S0 as [S0|S0]; rewrite S0 in r_st; [tauto|destruct r_st; congruence]]. intros j Hj. fu; [reflexivity|]. apply (proj1 FULL F); auto.
      * intros X. exfalso. apply NS. unfold settled. auto.
      * rewrite r_rl. destruct S0 as [-> | ->]; split; discriminate.
      * split; [lia|]. split; [intros _; exact J|lia].
      * destruct S0 as [S0|S0]; rewrite S0 in r_t0; lia.
      * intros _. assert (Z0 : (hT h + sumz n (fun j => ind (pT (at_pc s j))) = 0)%Z) by (destruct S0 as [S0|S0]; rewrite S0 in r_t0; exact r_t0). split; [lia|]. split; [lia|]. intros (X & _). contradiction.
    + assert (J : ~ joined n (h ++ items l o)) by (rewrite JN; lia).
      split; [|split]; [apply (EPS CONNECTED); rewrite ?Ha; auto; intros; rewrite EP; reflexivity| |apply REF; rewrite Ha; reflexivity].
      constructor; cbv zeta; cbn [rl at_pc tp set_tp set_pc set_rl]; rewrite ?S1, ?NT, ?NC, ?RL, ?LA, ?FS, ?CO, ?CLO, ?PC, ?PT, ?Ha; cbn [isC isT ind].
      * assert (NS' : ~ settled n (h ++ items l o)) by (rewrite SN; lia || (intros [X|(_ & X)]; [contradiction|lia])). destruct S0 as [S0|S0]; rewrite S0 in *; tauto.
      * intros X. exfalso. apply NS. unfold settled. auto.
      * exact r_rl.
      * split; [lia|]. split; [lia|]. intros X. contradiction.
      * destruct S0 as [S0|S0]; rewrite S0 in *; lia.
      * intros [X|X]; [|contradiction]. specialize (T0 (or_introl X)). split; [lia|]. split; [lia|]. intros (Y & _). contradiction.
  - rewrite S0 in r_st. destruct r_st as (R1 & R2 & R3).
    assert (J : ~ joined n (h ++ items l o)).
    { rewrite JN. intros (A & B). pose proof (proj1 FULL B) as U. destruct R1 as [X|[X|[(k & X)|[(k & X)|X]]]]; try contradiction.
      - destruct (r_fs X) as (_ & _ & [(k & Hk & T)|Y]); [|contradiction]. destruct (Nat.eq_dec k i) as [->|N]; [congruence|]. specialize (U k Hk N). congruence.
      - destruct (Nat.eq_dec k i) as [->|N]; [now apply EVI in X|]. pose proof (EVLT k _ X) as Lk. apply (NOEV k XRejected I X Lk N). auto.
      - destruct (Nat.eq_dec k i) as [->|N]; [now apply EVI in X|]. pose proof (EVLT k _ X) as Lk. apply (NOEV k XError I X Lk N). auto. }
    split; [|split]; [apply (EPS ERROR); rewrite ?Ha; auto| |apply REF; rewrite Ha; reflexivity].
    constructor; cbv zeta; cbn [rl at_pc tp set_tp set_pc set_rl]; rewrite ?S1, ?NT, ?NC, ?RL, ?LA, ?FS, ?CO, ?CLO, ?PC, ?PT, ?Ha; cbn [isC isT ind].
    + rewrite SN. split; [auto|]. split; [|exact R3]. intros j H. rewrite EP. fu; [reflexivity|]. rewrite fupd_neq in H by assumption. auto.
    + intros X. destruct (r_fs X) as (A & B & D). split; [exact A|]. split; [discriminate|]. destruct D as [(k & D1 & D2)|D]; [left; exists k|auto]. split; [exact D1|]. rewrite fupd_neq by congruence. exact D2.
    + rewrite r_rl, S0. reflexivity.
    + split; [lia|]. split; [lia|]. intros X. contradiction.
    + exact I.
    + intros [X|X]; [|contradiction]. specialize (T0 (or_introl X)). split; [lia|]. split; [lia|]. intros (Y & _). contradiction.
Qed.
