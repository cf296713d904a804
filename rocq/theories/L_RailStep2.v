(** Every step keeps the invariant of a rail: requests, connect, close. *)
From Verif Require Import S_Rail L_Rail L_RailStep.
From Coq Require Import List ZArith Lia Bool ZifyBool ZifyNat. Import ListNotations.
Local Arguments Nat.eq_dec : simpl never.
Local Arguments Z.add : simpl never.
Local Arguments Z.of_nat : simpl never.

Lemma joined_up p n s h i : Eps p n s h -> joined n h -> i < n -> ev i XConnected h /\ tp s i <> TNone /\ tp s i <> TTrying /\ made s i = false.
Proof.
  intros [] (a & b & -> & _ & U) Hi. assert (E : ev i XConnected (a ++ b)) by (apply in_app_iff; left; apply U; exact Hi). split; [exact E|].
  assert (N : tp s i <> TNone) by (intros H; apply (e_none i XConnected); auto). split; [exact N|]. split; [intros H; apply (e_none i XConnected); auto|].
  destruct (made s i) eqn:M; [|reflexivity]. destruct (e_made i M) as (H & _). contradiction.
Qed.

Lemma step_make p n s h i m mem s' o : Inv p n s h -> legal s (Make i m mem) -> step s (Make i m mem) = Ok s' o -> Inv p n s' (h ++ items (Make i m mem) o).
Proof.
  intros (IE & IR & IF) L. unfold step. destruct (refs (rl s) =? 0)%Z; [discriminate|]. unfold legal in L.
  destruct (conn_make (rl s) i m mem) as [r' ok] eqn:E. intros [= <- <-].
  assert (Hp : p = true). { destruct p; [reflexivity|]. destruct (f_act _ _ _ _ IF eq_refl) as (_ & A & _). lia. }
  assert (R : (ok = false /\ st r' = st (rl s) /\ n_eps r' = n_eps (rl s) /\ passive r' = passive (rl s) /\ ep_st r' = ep_st (rl s) /\ ep_x r' = ep_x (rl s) /\ connected_eps r' = connected_eps (rl s) /\ connecting_eps r' = connecting_eps (rl s) /\ rejected_eps r' = rejected_eps (rl s) /\ conn_error_eps r' = conn_error_eps (rl s) /\ refs r' = refs (rl s) /\ in_tree r' = in_tree (rl s)) \/
    (ok = true /\ i < n_eps (rl s) /\ ep_x (rl s) i = false /\ st r' = st (rl s) /\ n_eps r' = n_eps (rl s) /\ passive r' = passive (rl s) /\ ep_st r' = fupd (ep_st (rl s)) i ACCEPTING /\ ep_x r' = fupd (ep_x (rl s)) i true /\ connected_eps r' = connected_eps (rl s) /\ connecting_eps r' = (connecting_eps (rl s) + 1)%Z /\ rejected_eps r' = rejected_eps (rl s) /\ conn_error_eps r' = conn_error_eps (rl s) /\ refs r' = refs (rl s) /\ in_tree r' = in_tree (rl s))).
  { unfold conn_make in E. destruct (negb (m =? n_eps (rl s))) eqn:?; [injection E as <- <-; left; repeat split; reflexivity|].
    destruct (negb (i <? n_eps (rl s))) eqn:?; [injection E as <- <-; left; repeat split; reflexivity|].
    destruct (ep_x (rl s) i) eqn:?; [injection E as <- <-; left; repeat split; reflexivity|].
    destruct (connreq_eps (rl s) =? 0)%Z eqn:?; [injection E as <- <-; left; repeat split; reflexivity|].
    destruct mem; injection E as <- <-; [right|left]; cbn [st n_eps passive ep_st ep_x connected_eps connecting_eps rejected_eps conn_error_eps refs in_tree count set_x set_ep]; repeat split; lia. }
  clear E. destruct R as [(-> & Q0 & Q1 & Q2 & Q3 & Q4 & Q5 & Q6 & Q7 & Q8 & Q9 & Q10)|(-> & Hi & Hx & Q0 & Q1 & Q2 & Q3 & Q4 & Q5 & Q6 & Q7 & Q8 & Q9 & Q10)].
  - split; [|split].
    + apply (eps_calm _ _ s); try same; auto; try exact I; cbn [at_pc rl]; try (intros; congruence); [intros j H; apply (e_end _ _ _ _ IE); exact H|intros j Hj; apply (e_out _ _ _ _ IE); exact Hj].
    + apply (rst_calm _ _ s); try same; auto; try exact I; cbn [at_pc rl]; try (intros; congruence); [rewrite hC_items|rewrite hT_items]; rewrite nil_number; lia.
    + destruct IF. constructor; cbn [rl at_pc tp found made has_ref]; rewrite ?Q9, ?Q10.
      * exact f_ref.
      * congruence.
      * intros _ H. apply f_clean; [exact Hp|]. intros e He. specialize (H e He). rewrite calm_some in H; [exact H|exact I|]. intros ->. exact He.
      * rewrite calm_joined by exact I. exact f_tree.
  - pose proof IE as IE'. destruct IE. rewrite e_n in Hi.
    assert (T : tp s i = TNone). { destruct (tp s i) eqn:E; [reflexivity| | |]; exfalso; rewrite e_x in Hx by congruence; discriminate. }
    assert (M : made s i = false). { destruct (made s i) eqn:M; [|reflexivity]. destruct (e_made i M) as (_ & A & _). congruence. }
    assert (K : forall j, number (closes j) (h ++ items (Make i m mem) []) = number (closes j) h) by (intros j; rewrite saw_number by reflexivity; rewrite nil_number; lia).
    split; [|split].
    + constructor; cbn [rl at_pc tp found made has_ref]; rewrite ?Q1, ?Q2, ?Q3, ?Q4, ?Q5, ?Q6, ?Q7, ?Q8; auto.
      * intros j Hj. destruct (e_out j Hj) as (A & B & D & F). rewrite !fupd_neq by lia. auto.
      * intros j e H. rewrite ev_items. intros [X|X]; [now apply (e_none j e)|discriminate].
      * intros j H. destruct (e_up j H) as (A & B). split; [apply calm_ev; auto; [exact I|discriminate]|]. intros e He. rewrite calm_ev; [auto|exact I|]. intros ->. exact He.
      * intros j H. destruct (e_done j H) as (e & A & B). exists e. rewrite calm_ev; [auto|exact I|]. intros ->. exact A.
      * intros j H. rewrite !calm_ev in * by (exact I || discriminate). auto.
      * rewrite e_cg, sum_b, M by exact Hi. cbn [ind]. lia.
      * rewrite calm_some by (exact I || discriminate). exact e_rej.
      * rewrite calm_some by (exact I || discriminate). exact e_err.
      * intros j. specialize (e_st j). rewrite K. destruct (Nat.eq_dec j i) as [->|N]; [rewrite T, !fupd_eq; exact Hp|]. rewrite !fupd_neq by exact N. exact e_st.
      * intros j. rewrite K. apply e_cl.
      * intros j H. fu; [auto|]. rewrite fupd_neq in H by assumption. auto.
      * intros j H. fu; [auto|]. auto.
    + destruct IR. constructor; cbn [rl at_pc tp]; rewrite ?Q0.
      * destruct (st (rl s)) eqn:S; try exact r_st.
        -- destruct r_st. congruence.
        -- destruct r_st. rewrite calm_settled by exact I. auto.
        -- destruct r_st. congruence.
        -- rewrite calm_joined, calm_connects by exact I. exact r_st.
        -- rewrite calm_settled, calm_connects, calm_close by exact I. destruct r_st as (A & B & D). repeat split; auto. intros j H. rewrite Q3. rewrite fupd_neq by congruence. auto.
        -- rewrite calm_settled, calm_connects, calm_close by exact I. destruct r_st as (A & B & D). repeat split; auto. intros j H. rewrite Q3. rewrite fupd_neq by congruence. auto.
      * rewrite calm_failed, calm_close by exact I. exact r_fs.
      * rewrite calm_rl by exact I. exact r_rl.
      * cbv zeta in *. rewrite hC_items, nil_number, calm_joined by exact I. replace (hC h + Z.of_nat 0)%Z with (hC h) by lia. exact r_c.
      * rewrite hT_items, nil_number. replace (hT h + Z.of_nat 0)%Z with (hT h) by lia. exact r_t0.
      * cbv zeta in *. rewrite hT_items, nil_number, calm_joined, calm_last by exact I. replace (hT h + Z.of_nat 0)%Z with (hT h) by lia. exact r_t.
    + destruct IF. constructor; cbn [rl at_pc tp found made has_ref]; rewrite ?Q9, ?Q10.
      * exact f_ref.
      * congruence.
      * intros _ H. apply f_clean; [exact Hp|]. intros e He. specialize (H e He). rewrite calm_some in H; [exact H|exact I|]. intros ->. exact He.
      * rewrite calm_joined by exact I. exact f_tree.
Qed.

Lemma step_accept p n s h i b s' o : Inv p n s h -> legal s (Accept i b) -> step s (Accept i b) = Ok s' o -> Inv p n s' (h ++ items (Accept i b) o).
Proof.
  intros (IE & IR & IF) L. unfold legal in L. unfold step. destruct (refs (rl s) =? 0)%Z; [discriminate|].
  pose proof (made_lt _ _ _ _ i IE L) as Hi. pose proof IE as IE'. destruct IE. destruct (e_made i L) as (T & X & Hp).
  assert (NJ : ~ joined n h). { intros J. destruct (joined_up _ _ _ _ i IE' J Hi) as (_ & A & _). contradiction. }
  intros H. assert (Ho : o = []) by (destruct b; now injection H).
  assert (K : forall j, number (closes j) (h ++ items (Accept i b) o) = number (closes j) h) by (intros j; rewrite saw_number by reflexivity; rewrite Ho, nil_number; lia).
  destruct b; injection H as <- <-.
  - split; [|split].
    + constructor; cbn [rl at_pc tp found made has_ref ref_add n_eps passive ep_st ep_x connected_eps connecting_eps rejected_eps conn_error_eps]; auto.
      * intros j Hj. destruct (e_out j Hj) as (A & B & D & F). rewrite !fupd_neq by lia. auto.
      * intros j e H. rewrite ev_items. intros [Y|Y]; [|discriminate]. fuh H; [now apply (e_none i e); auto|now apply (e_none j e)].
      * intros j H. fuh H; [discriminate|]. destruct (e_up j H) as (A & B). split; [apply calm_ev; auto; [exact I|discriminate]|]. intros e He. rewrite calm_ev; [auto|exact I|]. intros ->. exact He.
      * intros j H. fuh H; [discriminate|]. destruct (e_done j H) as (e & A & B). exists e. rewrite calm_ev; [auto|exact I|]. intros ->. exact A.
      * intros j H. rewrite !calm_ev in * by (exact I || discriminate). auto.
      * rewrite e_cc, sum_tp, T by exact Hi. cbn [ind isUp]. lia.
      * rewrite e_cg, sum_b, sum_tp, L, T by exact Hi. cbn [ind isTry]. lia.
      * rewrite calm_some by (exact I || discriminate). exact e_rej.
      * rewrite calm_some by (exact I || discriminate). exact e_err.
      * intros j. specialize (e_st j). rewrite K. destruct (Nat.eq_dec j i) as [->|N]; [|rewrite !fupd_neq by exact N; exact e_st].
        rewrite !fupd_eq. rewrite T, L in e_st. destruct (ep_st (rl s) i); try contradiction; try discriminate. auto.
      * intros j. rewrite K. destruct (e_cl j) as (A & B). split; [exact A|]. intros H. fuh H; auto.
      * intros j H. fuh H; [discriminate|]. rewrite fupd_neq by assumption. auto.
      * intros j H. fuh H; [auto|]. auto.
      * intros j a rm H. destruct (Nat.eq_dec j i) as [->|N]; [|rewrite !fupd_neq by exact N; apply e_pc; exact H].
        pose proof (e_pc i a rm H) as Y. rewrite T in Y. destruct a as [[]|]; try (destruct Y; discriminate); try discriminate. intros Z. specialize (Y Z). discriminate.
      * intros j H. destruct (Nat.eq_dec j i) as [->|N]; [|rewrite !fupd_neq by exact N; apply e_end; exact H]. pose proof (e_end i H). congruence.
    + destruct IR. constructor; cbn [rl at_pc tp ref_add st ep_st].
      * destruct (st (rl s)) eqn:S; try exact r_st.
        -- destruct r_st. congruence.
        -- destruct r_st. rewrite calm_settled by exact I. auto.
        -- destruct r_st. congruence.
        -- destruct r_st. contradiction.
        -- rewrite calm_settled, calm_connects, calm_close by exact I. destruct r_st as (A & B & D). repeat split; auto. intros j H. fuh H; [discriminate|]. auto.
        -- rewrite calm_settled, calm_connects, calm_close by exact I. destruct r_st as (A & B & D). repeat split; auto. intros j H. fuh H; [discriminate|]. auto.
      * rewrite calm_failed by exact I. intros F. destruct (r_fs F). congruence.
      * rewrite calm_rl by exact I. exact r_rl.
      * cbv zeta in *. rewrite hC_items, nil_number, calm_joined by exact I. replace (hC h + Z.of_nat 0)%Z with (hC h) by lia. exact r_c.
      * rewrite hT_items, nil_number. replace (hT h + Z.of_nat 0)%Z with (hT h) by lia. exact r_t0.
      * rewrite calm_joined by exact I. intros [Y|Y]; [congruence|contradiction].
    + destruct IF. constructor; cbn [rl at_pc tp found made has_ref ref_add refs in_tree].
      * rewrite f_ref, (sum_tp n isTry), (sum_tp n isUp), T by exact Hi. cbn [ind isTry isUp]. lia.
      * congruence.
      * intros _ H. apply f_clean; [exact Hp|]. intros e He. specialize (H e He). rewrite calm_some in H; [exact H|exact I|]. intros ->. exact He.
      * rewrite calm_joined by exact I. intros; contradiction.
  - split; [|split].
    + constructor; cbn [rl at_pc tp found made has_ref conn_undo count set_x set_ep n_eps passive ep_st ep_x connected_eps connecting_eps rejected_eps conn_error_eps]; auto.
      * intros j Hj. destruct (e_out j Hj) as (A & B & D & F). rewrite !fupd_neq by lia. auto.
      * intros j e H. rewrite ev_items. intros [Y|Y]; [|discriminate]. now apply (e_none j e).
      * intros j H. destruct (e_up j H) as (A & B). split; [apply calm_ev; auto; [exact I|discriminate]|]. intros e He. rewrite calm_ev; [auto|exact I|]. intros ->. exact He.
      * intros j H. destruct (e_done j H) as (e & A & B). exists e. rewrite calm_ev; [auto|exact I|]. intros ->. exact A.
      * intros j H. rewrite !calm_ev in * by (exact I || discriminate). auto.
      * rewrite e_cc. lia.
      * rewrite e_cg, sum_b, L by exact Hi. cbn [ind]. lia.
      * rewrite calm_some, Z.add_0_r by (exact I || discriminate). exact e_rej.
      * rewrite calm_some, Z.add_0_r by (exact I || discriminate). exact e_err.
      * intros j. specialize (e_st j). rewrite K. destruct (Nat.eq_dec j i) as [->|N]; [|rewrite !fupd_neq by exact N; exact e_st].
        rewrite !fupd_eq, T. reflexivity.
      * intros j. rewrite K. apply e_cl.
      * intros j H. fuh H; [discriminate|]. rewrite fupd_neq by assumption. auto.
      * intros j H. rewrite fupd_neq by congruence. auto.
    + destruct IR. constructor; cbn [rl at_pc tp conn_undo count set_x set_ep st ep_st].
      * destruct (st (rl s)) eqn:S; try exact r_st.
        -- destruct r_st. congruence.
        -- destruct r_st. rewrite calm_settled by exact I. auto.
        -- destruct r_st. congruence.
        -- destruct r_st. contradiction.
        -- rewrite calm_settled, calm_connects, calm_close by exact I. destruct r_st as (A & B & D). repeat split; auto. intros j H. fu; [reflexivity|]. auto.
        -- rewrite calm_settled, calm_connects, calm_close by exact I. destruct r_st as (A & B & D). repeat split; auto. intros j H. fu; [reflexivity|]. auto.
      * rewrite calm_failed, calm_close by exact I. exact r_fs.
      * rewrite calm_rl by exact I. exact r_rl.
      * cbv zeta in *. rewrite hC_items, nil_number, calm_joined by exact I. replace (hC h + Z.of_nat 0)%Z with (hC h) by lia. exact r_c.
      * rewrite hT_items, nil_number. replace (hT h + Z.of_nat 0)%Z with (hT h) by lia. exact r_t0.
      * rewrite calm_joined by exact I. intros [Y|Y]; [congruence|contradiction].
    + destruct IF. constructor; cbn [rl at_pc tp found made has_ref refs in_tree conn_undo count set_x set_ep].
      * exact f_ref.
      * congruence.
      * intros _ H. apply f_clean; [exact Hp|]. intros e He. specialize (H e He). rewrite calm_some in H; [exact H|exact I|]. intros ->. exact He.
      * rewrite calm_joined by exact I. intros; contradiction.
Qed.
