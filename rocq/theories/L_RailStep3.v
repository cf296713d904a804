(** Every step keeps the invariant of a rail: connect, close, data. *)
From Verif Require Import S_Rail L_Rail L_RailStep L_RailStep2.
From Coq Require Import List ZArith Lia Bool ZifyBool ZifyNat. Import ListNotations.
Local Arguments Nat.eq_dec : simpl never.
Local Arguments Z.add : simpl never.
Local Arguments Z.of_nat : simpl never.

Lemma is_true a b : is a b = true <-> a = b.
Proof. destruct a, b; cbn; split; congruence. Qed.
Lemma is_false a b : is a b = false <-> a <> b.
Proof. destruct a, b; cbn; split; congruence. Qed.

(** ** Closing endpoints *)
Lemma number_closes i cl : number (closes i) (map Saw (map OClose cl)) = count_occ Nat.eq_dec cl i.
Proof.
  unfold number. induction cl as [|j cl IH]; cbn; [reflexivity|]. destruct (Nat.eqb_spec i j) as [->|E]; cbn; rewrite IH; destruct (Nat.eq_dec _ _); congruence.
Qed.
Lemma number_told_closes cl : number told (map Saw (map OClose cl)) = 0.
Proof. unfold number. induction cl; cbn; auto. Qed.
Lemma number_term_closes cl : number terminal (map Saw (map OClose cl)) = 0.
Proof. unfold number. induction cl; cbn; auto. Qed.
Lemma count_filter f l i : count_occ Nat.eq_dec (filter f l) i = if f i then count_occ Nat.eq_dec l i else 0.
Proof.
  induction l as [|j l IH]; cbn; [destruct (f i); reflexivity|]. destruct (f j) eqn:F; cbn; destruct (Nat.eq_dec j i) as [->|E]; rewrite IH; rewrite ?F; destruct (f i); congruence.
Qed.
Lemma count_seq n k i : count_occ Nat.eq_dec (seq k n) i = if (k <=? i) && (i <? k + n) then 1 else 0.
Proof.
  revert k. induction n as [|n IH]; intros k; cbn [seq count_occ]; [destruct (Nat.leb_spec k i), (Nat.ltb_spec i (k + 0)); cbn; lia|].
  rewrite IH. destruct (Nat.eq_dec k i) as [E|E]; destruct (Nat.leb_spec (S k) i), (Nat.leb_spec k i), (Nat.ltb_spec i (k + S n)), (Nat.ltb_spec i (S k + n)); cbn [andb]; lia.
Qed.
Lemma closes_cut r i : number (closes i) (map Saw (map OClose (to_close r))) = if (i <? n_eps r) && is (ep_st r i) CONNECTED then 1 else 0.
Proof.
  rewrite number_closes. unfold to_close. rewrite count_filter, count_seq. cbn [Nat.leb]. rewrite Nat.add_0_l. destruct (is _ _), (i <? n_eps r); reflexivity.
Qed.
Lemma cut_ep r i : ep_st (cut r) i = if (i <? n_eps r) && is (ep_st r i) CONNECTED then ERROR else ep_st r i.
Proof. reflexivity. Qed.

Lemma some_other e h l o : (forall i, l <> Event i e) -> (some_ev e (h ++ items l o) <-> some_ev e h).
Proof. intros N. rewrite some_items. split; [intros [H|(i & ->)]; [exact H|now elim (N i)]|auto]. Qed.
Lemma joined_unclean n h l o : ~ clean (h ++ [Did l]) -> (joined n (h ++ items l o) <-> joined n h).
Proof. intros C. rewrite joined_items. tauto. Qed.

Lemma step_close p n s h s' o : Inv p n s h -> legal s Close -> step s Close = Ok s' o -> Inv p n s' (h ++ items Close o).
Proof.
  intros (IE & IR & IF) L. unfold step. destruct (refs (rl s) =? 0)%Z; [discriminate|]. cbn [rail_close]. intros [= <- <-]. clear L.
  pose proof IE as IE'. destruct IE. set (o := map OClose (to_close (rl s))).
  assert (K : forall j, number (closes j) (h ++ items Close o) = number (closes j) h + if is (ep_st (rl s) j) CONNECTED then 1 else 0).
  { intros j. rewrite saw_number by reflexivity. unfold o. rewrite closes_cut, e_n. destruct (Nat.ltb_spec j n) as [A|A]; [reflexivity|]. destruct (e_out j A) as (_ & _ & _ & B). rewrite B. reflexivity. }
  assert (EP : forall j, ep_st (cut (set_st (rl s) ERROR)) j = if is (ep_st (rl s) j) CONNECTED then ERROR else ep_st (rl s) j).
  { intros j. rewrite cut_ep. cbn [n_eps set_st ep_st]. rewrite e_n. destruct (Nat.ltb_spec j n) as [A|A]; [reflexivity|]. destruct (e_out j A) as (_ & _ & _ & B). rewrite B. reflexivity. }
  assert (EV : forall j e, ev j e (h ++ items Close o) <-> ev j e h) by (intros j e; rewrite ev_items; split; [intros [X|X]; [exact X|discriminate]|auto]).
  assert (SE : forall e, some_ev e (h ++ items Close o) <-> some_ev e h) by (intros e; apply some_other; discriminate).
  assert (J : joined n (h ++ items Close o) <-> joined n h). { apply joined_unclean. intros (C & _). apply C. apply did_snoc. auto. }
  assert (NUP : forall j, tp s j <> TUp -> is (ep_st (rl s) j) CONNECTED = false).
  { intros j Hj. apply is_false. specialize (e_st j). destruct (tp s j); try contradiction; destruct (ep_st (rl s) j); try discriminate; try contradiction; destruct e_st as [X|X]; try discriminate; destruct X; discriminate. }
  split; [|split].
  - constructor; cbn [set_rl rl at_pc tp found made has_ref]; try exact e_n; auto.
    + intros j Hj. destruct (e_out j Hj) as (A & B & D & F). rewrite EP, F. auto.
    + intros j e H. rewrite EV. auto.
    + intros j H. destruct (e_up j H) as (A & B). split; [apply EV; exact A|]. intros e He. rewrite EV. auto.
    + intros j H. destruct (e_done j H) as (e & A & B). exists e. rewrite EV. auto.
    + intros j H. rewrite !EV in *. auto.
    + rewrite SE. exact e_rej.
    + rewrite SE. exact e_err.
    + intros j. specialize (e_st j). rewrite K, EP. destruct (tp s j) eqn:T; try (rewrite NUP by congruence; exact e_st).
      destruct e_st as [(A & B)|(A & B)]; rewrite A; cbn [is]; right; split; auto; lia.
    + intros j. rewrite K. destruct (e_cl j) as (A & B). specialize (e_st j). destruct (tp s j) eqn:T; try (rewrite NUP by congruence; rewrite Nat.add_0_r; auto).
      split; [|intros [X|X]; discriminate]. destruct e_st as [(A' & B')|(A' & B')]; rewrite A'; cbn [is]; lia.
  - destruct IR. constructor; cbn [set_rl rl at_pc tp cut set_ep set_st st].
    + split; [left; apply did_items; auto|]. split; [|intros _; right; apply did_items; auto].
      intros j H. change (ep_st (cut (set_st (rl s) ERROR)) j = ERROR). rewrite EP. specialize (e_st j). rewrite H in e_st. destruct e_st as [(A & B)|(A & B)]; rewrite A; reflexivity.
    + rewrite failed_items. intros [F|(c & F & _)]; [|discriminate]. destruct (r_fs F) as (A & B & D). repeat split; [exact A|discriminate|right; apply did_items; auto].
    + split; [|discriminate]. rewrite rejected_items. intros [(i & X)|(_ & X & _)]; [discriminate|contradiction].
    + cbv zeta in *. rewrite hC_items. unfold o. rewrite number_told_closes. fold o. rewrite J. replace (hC h + Z.of_nat 0)%Z with (hC h) by lia. exact r_c.
    + exact I.
    + cbv zeta in *. rewrite hT_items. unfold o. rewrite number_term_closes. fold o. rewrite J, last_items. replace (hT h + Z.of_nat 0)%Z with (hT h) by lia.
      intros H. destruct (r_t H) as (A & B). split; [exact A|]. rewrite B. unfold allDone. cbn [set_rl tp fin]. tauto.
  - destruct IF. constructor; cbn [set_rl rl at_pc tp found made has_ref cut set_ep set_st refs in_tree]; auto.
    + intros Hp H. apply f_clean; [exact Hp|]. intros e He. specialize (H e He). rewrite SE in H. exact H.
    + rewrite J. exact f_tree.
Qed.

(** ** Connecting *)
Lemma sumz_lt n q : q <= n -> sumz n (fun i => ind (i <? q)) = Z.of_nat q.
Proof.
  revert q. induction n as [|n IH]; intros q Hq; cbn [sumz]; [lia|]. destruct (Nat.eq_dec q (S n)) as [->|E].
  - rewrite (sumz_ext n _ (fun i => ind (i <? n))) by (intros i Hi; f_equal; lia). rewrite IH by lia. destruct (Nat.ltb_spec n (S n)); [cbn [ind]; lia|lia].
  - rewrite IH by lia. destruct (Nat.ltb_spec n q); [lia|cbn [ind]; lia].
Qed.
Lemma connect_spec c : forall m k r r' ok, connect_from m k c r = (r', ok) ->
  exists q, q <= m /\ (forall j, j < q -> c (k + j) = Starts) /\
  ((ok = true /\ q = m /\ st r' = st r) \/ (ok = false /\ q < m /\ c (k + q) <> Starts /\ st r' = ERROR)) /\
  (forall j, k <= j < k + q -> ep_st r' j = CONNECTING /\ ep_x r' j = true) /\
  (forall j, j < k -> ep_st r' j = ep_st r j /\ ep_x r' j = ep_x r j) /\
  (forall j, k + q <= j -> ep_st r' j = ep_st r j \/ (j < k + m /\ ep_st r' j = ERROR)) /\
  (connecting_eps r' = connecting_eps r + Z.of_nat q /\ refs r' = refs r + Z.of_nat q)%Z /\
  n_eps r' = n_eps r /\ passive r' = passive r /\ connected_eps r' = connected_eps r /\ rejected_eps r' = rejected_eps r /\ conn_error_eps r' = conn_error_eps r /\ in_tree r' = in_tree r.
Proof.
  induction m as [|m IH]; intros k r r' ok H; cbn [connect_from] in H.
  - injection H as <- <-. exists 0. repeat split; auto; lia.
  - destruct (c k) eqn:C.
    + injection H as <- <-. exists 0. repeat split; auto; try lia; try (cbn [set_st connecting_eps refs]; lia). right. rewrite Nat.add_0_r, C. repeat split; try lia; discriminate.
    + injection H as <- <-. exists 0. repeat split; auto; try lia; try (cbn [set_st set_x set_ep connecting_eps refs]; lia).
      * right. rewrite Nat.add_0_r, C. repeat split; try lia; discriminate.
      * cbn [set_st set_x set_ep ep_st]. rewrite fupd_neq by lia. reflexivity.
      * cbn [set_st set_x set_ep ep_x]. rewrite fupd_neq by lia. reflexivity.
      * intros j Hj. cbn [set_st set_x set_ep ep_st]. fu; [right; split; [lia|reflexivity]|left; reflexivity].
    + apply IH in H. destruct H as (q & Q1 & Q2 & Q3 & Q4 & Q5 & Q5' & (Q6 & Q7) & Q8 & Q9 & Q10 & Q11 & Q12 & Q13).
      exists (S q). cbn [count ref_add set_x set_ep st n_eps passive connected_eps connecting_eps rejected_eps conn_error_eps in_tree refs ep_st ep_x] in *.
      repeat split; try lia.
      * intros [|j] Hj; [rewrite Nat.add_0_r; exact C|]. rewrite <- Nat.add_succ_comm. apply Q2. lia.
      * destruct Q3 as [(A & B & D)|(A & B & D & E)]; [left|right]; repeat split; auto; try lia. rewrite <- Nat.add_succ_comm. exact D.
      * destruct (Nat.eq_dec j k) as [->|N]; [|apply Q4; lia]. destruct (Q5 k ltac:(lia)) as (X & _). rewrite X, fupd_eq. reflexivity.
      * destruct (Nat.eq_dec j k) as [->|N]; [|apply Q4; lia]. destruct (Q5 k ltac:(lia)) as (_ & X). rewrite X, fupd_eq. reflexivity.
      * destruct (Q5 j ltac:(lia)) as (X & _). rewrite X, fupd_neq by lia. reflexivity.
      * destruct (Q5 j ltac:(lia)) as (_ & X). rewrite X, fupd_neq by lia. reflexivity.
      * intros j Hj. destruct (Q5' j ltac:(lia)) as [X|(X & Y)]; [left; rewrite X, fupd_neq by lia; reflexivity|]. right. split; [lia|exact Y].
Qed.

Lemma ev_connect j e h c o : ev j e (h ++ items (Connect c) o) <-> ev j e h.
Proof. rewrite ev_items. split; [intros [X|X]; [exact X|discriminate]|auto]. Qed.
Lemma joined_connect n h c o : joined n (h ++ items (Connect c) o) <-> joined n h.
Proof.
  rewrite joined_items. split; [|auto]. intros [H|(H & U)]; [exact H|]. exists h, []. rewrite app_nil_r. split; [reflexivity|]. change [Did (Connect c)] with (items (Connect c) []) in *. split.
  - destruct H as (H1 & H2 & H3 & H4). rewrite some_other in H2, H3, H4 by discriminate. repeat split; try assumption. intros X. apply H1. apply did_items. auto.
  - intros i Hi. specialize (U i Hi). apply ev_connect in U. exact U.
Qed.
Lemma step_connect p n s h c s' o : Inv p n s h -> legal s (Connect c) -> step s (Connect c) = Ok s' o -> Inv p n s' (h ++ items (Connect c) o).
Proof.
  intros (IE & IR & IF) (_ & L). unfold step. destruct (refs (rl s) =? 0)%Z; [discriminate|].
  destruct (rail_connect (rl s) c) as [r' ok] eqn:E. cbn zeta. intros [= <- <-]. pose proof IE as IE'. destruct IE.
  assert (Hp : p = false) by congruence. set (o := [ORet ok]).
  assert (K : forall j, number (closes j) (h ++ items (Connect c) o) = number (closes j) h) by (intros j; rewrite saw_number by reflexivity; cbn; lia).
  assert (EV : forall j e, ev j e (h ++ items (Connect c) o) <-> ev j e h) by (intros; apply ev_connect).
  assert (SE : forall e, some_ev e (h ++ items (Connect c) o) <-> some_ev e h) by (intros e; apply some_other; discriminate).
  assert (J : joined n (h ++ items (Connect c) o) <-> joined n h) by apply joined_connect.
  assert (CL : In (Did Close) (h ++ items (Connect c) o) <-> In (Did Close) h) by (rewrite did_items; split; [intros [X|X]; [exact X|discriminate]|auto]).
  assert (CO : connects (h ++ items (Connect c) o)) by (apply connects_items; eauto).
  assert (RL : rejected_last (h ++ items (Connect c) o) <-> rejected_last h). { rewrite rejected_items. split; [intros [(i & X)|X]; [discriminate|tauto]|]. intros X. right. repeat split; [exact X|discriminate|discriminate]. }
  assert (LA : settled_last n (h ++ items (Connect c) o) <-> settled_last n h) by (rewrite last_items; cbn [fin]; tauto).
  assert (NC : (hC (h ++ items (Connect c) o) = hC h /\ hT (h ++ items (Connect c) o) = hT h)%Z) by (rewrite hC_items, hT_items; cbn; lia).
  destruct NC as (NC & NT). destruct IR. cbv zeta in *.
  unfold rail_connect in E. destruct (is (st (rl s)) INIT) eqn:ST.
  - apply is_true in ST. rewrite ST in *. destruct r_st as (_ & R1 & R2 & R3).
    apply connect_spec in E. rewrite e_n in E. destruct E as (q & Q1 & Q2 & Q3 & Q4 & _ & Q5 & (Q6 & Q7) & Q8 & Q9 & Q10 & Q11 & Q12 & Q13).
    cbn [set_st st n_eps passive connected_eps connecting_eps rejected_eps conn_error_eps in_tree refs ep_st ep_x] in *.
    assert (EPq : forall i, q <= i -> ep_st r' i = INIT \/ (i < n /\ ep_st r' i = ERROR)). { intros i Hi. destruct (Q5 i Hi) as [X|X]; [left; rewrite X; apply R1|right; exact X]. }
    set (tp' := fun i => if true && is (ep_st r' i) CONNECTING then TTrying else tp s i).
    assert (TP : forall i, tp' i = if i <? q then TTrying else TNone).
    { intros i. unfold tp'. destruct (Nat.ltb_spec i q) as [A|A].
      - destruct (Q4 i ltac:(lia)) as (B & _). rewrite B. reflexivity.
      - destruct (R1 i) as (B & _). rewrite B. destruct (EPq i A) as [X|(_ & X)]; rewrite X; reflexivity. }
    clearbody tp'.
    assert (MF : forall i, made s i = false). { intros i. destruct (made s i) eqn:M; [|reflexivity]. destruct (e_made i M). intuition congruence. }
    assert (NJ : ~ joined n h). { intros X. apply R3. unfold settled. auto. }
    assert (NL : ~ settled_last n h). { intros (g1 & i & e & g2 & -> & F & _). apply (e_none i e); [left; apply R1|]. apply in_app_iff. cbn. auto. }
    assert (TS : sumz n (fun i => ind (isTry (tp' i))) = Z.of_nat q). { rewrite <- (sumz_lt n q Q1). apply sumz_ext. intros i _. rewrite TP. destruct (i <? q); reflexivity. }
    assert (US : sumz n (fun i => ind (isUp (tp' i))) = 0%Z). { apply sumz_zero; [intros i _; destruct (ind_bound (isUp (tp' i))); lia|]. intros i _. rewrite TP. destruct (i <? q); reflexivity. }
    assert (US0 : sumz n (fun i => ind (isUp (tp s i))) = 0%Z). { apply sumz_zero; [intros i _; destruct (ind_bound (isUp (tp s i))); lia|]. intros i _. destruct (R1 i) as (-> & _). reflexivity. }
    assert (TS0 : sumz n (fun i => ind (isTry (tp s i))) = 0%Z). { apply sumz_zero; [intros i _; destruct (ind_bound (isTry (tp s i))); lia|]. intros i _. destruct (R1 i) as (-> & _). reflexivity. }
    split; [|split].
    + constructor; cbn [rl at_pc tp found made has_ref]; auto; try congruence.
      * intros i Hi. destruct (e_out i Hi) as (A & B & D & F). rewrite TP. destruct (Nat.ltb_spec i q); [lia|]. repeat split; auto. destruct (EPq i H) as [X|(X & _)]; [exact X|lia].
      * intros i e _. rewrite EV. apply e_none. left. apply R1.
      * intros i H. rewrite TP in H. destruct (i <? q); discriminate.
      * intros i H. rewrite TP in H. destruct (i <? q); discriminate.
      * intros i H. rewrite !EV in *. auto.
      * rewrite TS, Q6, e_cg, TS0. lia.
      * rewrite SE, Q11. exact e_rej.
      * rewrite SE, Q12. exact e_err.
      * intros i. rewrite TP. destruct (Nat.ltb_spec i q) as [A|A]; [left; apply Q4; lia|]. destruct (EPq i A) as [X|(_ & X)]; rewrite X; apply MF.
      * intros i. rewrite K. split; [apply e_cl|]. intros _. apply e_cl. left. apply R1.
      * intros i H. rewrite TP in H. destruct (Nat.ltb_spec i q); [|congruence]. apply Q4. lia.
      * intros i a rm H. pose proof (e_pc i a rm H) as Y. destruct (R1 i) as (T & _). rewrite T in Y. destruct a as [[]|]; try (destruct Y; discriminate); try discriminate. intros Z. specialize (Y Z). discriminate.
      * intros i H. pose proof (e_end i H) as Y. destruct (R1 i) as (T & _). congruence.
    + constructor; cbv zeta; cbn [rl at_pc tp]; rewrite ?NC, ?NT, ?RL, ?J, ?LA.
      * destruct Q3 as [(-> & -> & ->)|(-> & A & B & ->)].
        -- repeat split; auto. rewrite settled_items. intros [X|[X|[(c' & X & _ & i & Hi & Hs)|[(i & X)|[(i & X)|(_ & X)]]]]]; try contradiction; try discriminate.
           ++ injection X as <-. apply Hs. exact (Q2 i Hi).
           ++ specialize (X 0 e_pos). apply ev_snoc in X. destruct X as [X|X]; [|discriminate]. apply (e_none 0 XConnected); [left; apply R1|exact X].
        -- repeat split; auto.
           ++ apply settled_items. right. right. left. exists c. repeat split; auto. exists q. auto.
           ++ intros i H. rewrite TP in H. destruct (i <? q); discriminate.
      * intros F. apply failed_items in F. split; [exact Hp|]. destruct F as [F|(c' & X & _ & i & Hi & Hs)]; [exfalso; apply R3; unfold settled; auto|]. injection X as <-.
        destruct Q3 as [(_ & -> & _)|(_ & A & B & D)]; [exfalso; apply Hs; exact (Q2 i Hi)|]. split; [rewrite D; discriminate|]. left. exists q. split; [exact A|]. rewrite TP. destruct (Nat.ltb_spec q q); [lia|reflexivity].
      * rewrite r_rl. destruct Q3 as [(_ & _ & ->)|(_ & _ & _ & ->)]; split; discriminate.
      * exact r_c.
      * destruct (st r'); auto.
      * intros _. rewrite r_t0. split; [left; reflexivity|]. split; [discriminate|]. tauto.
    + destruct IF. constructor; cbn [rl at_pc tp found made has_ref]; rewrite ?Q13; auto.
      * rewrite Q7, f_ref, TS, US, TS0, US0. lia.
      * intros; congruence.
      * intros; congruence.
  - injection E as <- <-. assert (NI : st (rl s) <> INIT) by (apply is_false; exact ST). cbn [andb].
    assert (OC : connects h \/ In (Did Close) h). { destruct (st (rl s)); try contradiction; try (destruct r_st; tauto); destruct r_st; congruence. }
    assert (SS : settled n (h ++ items (Connect c) o) <-> settled n h).
    { unfold settled. rewrite CL, !SE, J, failed_items. split; [|tauto]. intros [X|[[X|(c' & _ & X & _)]|X]]; tauto. }
    split; [|split].
    + constructor; cbn [rl at_pc tp found made has_ref]; auto.
      * intros i e H. rewrite EV. auto.
      * intros j H. destruct (e_up j H) as (A & B). split; [apply EV; exact A|]. intros e He. rewrite EV. auto.
      * intros j H. destruct (e_done j H) as (e & A & B). exists e. rewrite EV. auto.
      * intros j H. rewrite !EV in *. auto.
      * rewrite SE. exact e_rej.
      * rewrite SE. exact e_err.
      * intros j. rewrite K. apply e_st.
      * intros j. rewrite K. apply e_cl.
    + constructor; cbv zeta; cbn [rl at_pc tp]; rewrite ?NC, ?NT, ?RL, ?J, ?LA; auto.
      * destruct (st (rl s)); try contradiction; rewrite ?SS, ?J; tauto.
      * intros F. assert (S1 : failed_start n h \/ In (Did Close) h). { apply failed_items in F. destruct F as [F|(c' & _ & X & _)]; [auto|]. destruct OC as [Y|Y]; [contradiction|auto]. }
        split; [exact Hp|]. split; [exact NI|]. destruct S1 as [F1|F1]; [|right; apply CL; exact F1]. destruct (r_fs F1) as (_ & _ & [X|X]); [auto|right; apply CL; exact X].
    + destruct IF. constructor; cbn [rl at_pc tp found made has_ref]; auto; intros; congruence.
Qed.
