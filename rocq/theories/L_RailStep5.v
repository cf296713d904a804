(** Every step keeps the invariant of a rail: the endpoints that finish. *)
From Verif Require Import S_Rail L_Rail L_RailStep L_RailStep2 L_RailStep3 L_RailStep4.
From Coq Require Import List ZArith Lia Bool ZifyBool ZifyNat. Import ListNotations.
Local Arguments Nat.eq_dec : simpl never.
Local Arguments Z.add : simpl never.
Local Arguments Z.of_nat : simpl never.

Definition isD (e : xev) : bool := match e with XDisconnected => true | _ => false end.
Definition isR (e : xev) : bool := match e with XRejected => true | _ => false end.
Definition isE (e : xev) : bool := match e with XError => true | _ => false end.
Definition st_after (e : xev) (x : rst) : rst := match e with XRejected => REJECTED | XError => ERROR | _ => if is x CONNECTED then ERROR else x end.
Definition ep_after (e : xev) (x : rst) : rst := match e with XRejected => REJECTED | XError => ERROR | _ => if is x CONNECTED then CLOSE else ERROR end.
Definition zero (r : rail) : bool := (connected_eps r =? 0)%Z && (connecting_eps r =? 0)%Z.
Definition outcome (r : rail) : option xev :=
  match st r with
  | REJECTED => if passive r then None else if zero r then Some XRejected else None
  | ERROR => if zero r then Some (if negb (conn_error_eps r =? 0)%Z then XError else if negb (rejected_eps r =? 0)%Z then XRejected else XDisconnected) else None
  | _ => None
  end.

Lemma ep_after_not e x : is (ep_after e x) CONNECTED = false.
Proof. destruct e; cbn; try reflexivity; destruct (is x CONNECTED); reflexivity. Qed.
Lemma fin_fields r i e r' a rm cl : rail_cb r i e = Some (r', a, rm, cl) -> final e -> (e = XDisconnected -> connected_eps r <= Z.of_nat (n_eps r))%Z ->
  st r' = st_after e (st r) /\ n_eps r' = n_eps r /\ passive r' = passive r /\ ep_x r' = ep_x r /\ in_tree r' = in_tree r /\ refs r' = refs r /\
  connected_eps r' = (connected_eps r - ind (isD e))%Z /\ connecting_eps r' = (connecting_eps r - ind (negb (isD e)))%Z /\
  rejected_eps r' = (rejected_eps r + ind (isR e))%Z /\ conn_error_eps r' = (conn_error_eps r + ind (isE e))%Z /\
  (forall j, ep_st r' j = if Nat.eqb j i then ep_after e (ep_st r i) else if (j <? n_eps r) && is (ep_st r j) CONNECTED then ERROR else ep_st r j) /\
  (forall j, number (closes j) (map Saw (map OClose cl)) = if negb (Nat.eqb j i) && (j <? n_eps r) && is (ep_st r j) CONNECTED then 1 else 0) /\
  rm = passive r' && zero r' /\ a = outcome r'.
Proof.
  assert (EP : forall q x, (forall j, ep_st q j = if Nat.eqb j i then x else ep_st r j) -> is x CONNECTED = false -> n_eps q = n_eps r ->
    (forall j, ep_st (cut q) j = if Nat.eqb j i then x else if (j <? n_eps r) && is (ep_st r j) CONNECTED then ERROR else ep_st r j) /\
    (forall j, number (closes j) (map Saw (map OClose (to_close q))) = if negb (Nat.eqb j i) && (j <? n_eps r) && is (ep_st r j) CONNECTED then 1 else 0)).
  { intros q x H X N. split; intros j; [rewrite cut_ep|rewrite closes_cut]; rewrite H, N; destruct (Nat.eqb j i); cbn [negb andb]; rewrite ?X, ?andb_false_r; try reflexivity. }
  assert (FU : forall x j, fupd (ep_st r) i x j = if Nat.eqb j i then x else ep_st r j) by reflexivity.
  unfold rail_cb. destruct e; try (intros _ []; fail); intros H _ B.
  - cbn [ep_st ref_add] in H. destruct (is (ep_st r i) CONNECTING || is (ep_st r i) ACCEPTING); [|discriminate]. unfold ev_prep in H. cbn [cut set_ep set_st count ref_add st passive] in H.
    injection H as <- <- <- <-. cbn [st_after ep_after].
    match goal with |- context [to_close ?q] => destruct (EP q REJECTED ltac:(intros j; apply FU) eq_refl eq_refl) as (E1 & E2) end.
    repeat (split; [first [reflexivity|cbn [connecting_eps connected_eps refs rejected_eps conn_error_eps count ref_add set_ep set_st cut isD isR isE ind negb]; lia]|]).
    split; [exact E1|]. split; [exact E2|]. split; [|reflexivity]. unfold rm_trigger, zero. rewrite <- andb_assoc. f_equal. apply andb_comm.
  - cbn [ep_st ref_add] in H. destruct (is (ep_st r i) CONNECTING || is (ep_st r i) ACCEPTING); [|discriminate]. unfold ev_prep in H. cbn [cut set_ep set_st count ref_add st passive] in H.
    injection H as <- <- <- <-. cbn [st_after ep_after].
    match goal with |- context [to_close ?q] => destruct (EP q ERROR ltac:(intros j; apply FU) eq_refl eq_refl) as (E1 & E2) end.
    repeat (split; [first [reflexivity|cbn [connecting_eps connected_eps refs rejected_eps conn_error_eps count ref_add set_ep set_st cut isD isR isE ind negb]; lia]|]).
    split; [exact E1|]. split; [exact E2|]. split; [|reflexivity]. unfold rm_trigger, zero. rewrite <- andb_assoc. f_equal. apply andb_comm.
  - specialize (B eq_refl). cbn [st ref_add] in H.
    set (q0 := count (if is (st r) CONNECTED then set_st (ref_add r 1) ERROR else ref_add r 1) (-1) 0 0 0 0) in *.
    assert (Q : ep_st q0 = ep_st r /\ st q0 = st_after XDisconnected (st r) /\ n_eps q0 = n_eps r /\ passive q0 = passive r /\ ep_x q0 = ep_x r /\ in_tree q0 = in_tree r /\ refs q0 = (refs r + 1)%Z /\ connected_eps q0 = (connected_eps r - 1)%Z /\ connecting_eps q0 = connecting_eps r /\ rejected_eps q0 = rejected_eps r /\ conn_error_eps q0 = conn_error_eps r).
    { unfold q0. destruct (is (st r) CONNECTED) eqn:S; cbn [count set_st ref_add ep_st st st_after n_eps passive ep_x in_tree refs connected_eps connecting_eps rejected_eps conn_error_eps]; rewrite ?S; repeat split; lia. }
    clearbody q0. destruct Q as (Q0 & Q1 & Q2 & Q3 & Q4 & Q5 & Q6 & Q7 & Q8 & Q9 & Q10).
    set (q := set_ep q0 (fupd (ep_st q0) i (if is (ep_st q0 i) CONNECTED then CLOSE else ERROR))) in *.
    assert (G : exists q', ev_prep (cut q) = (q', a) /\ q' = cut q /\ r' = ref_add q' (-1) /\ rm = rm_trigger q' /\ cl = to_close q /\ a = outcome q').
    { assert (NP : ev_prep (cut q) = (cut q, outcome (cut q))).
      { unfold ev_prep, outcome. cbn [cut q set_ep st connected_eps n_eps passive connecting_eps rejected_eps conn_error_eps]. destruct (st q0); try reflexivity; rewrite Q7, Q2; destruct (Z.eqb_spec (connected_eps r - 1) (Z.of_nat (n_eps r))); try lia; reflexivity. }
      rewrite NP in H. exists (cut q). destruct (ep_st q0 i); try discriminate; injection H as <- <- <- <-; repeat split; auto. }
    destruct G as (q' & _ & -> & -> & -> & -> & ->).
    destruct (EP q (ep_after XDisconnected (ep_st r i)) ltac:(intros j; unfold q; cbn [set_ep ep_st]; rewrite Q0; apply FU) (ep_after_not _ _) Q2) as (E1 & E2).
    cbn [ref_add st n_eps passive ep_x in_tree refs connected_eps connecting_eps rejected_eps conn_error_eps cut set_ep q isD isR isE ind negb ep_st].
    split; [exact Q1|]. split; [exact Q2|]. split; [exact Q3|]. split; [exact Q4|]. split; [exact Q5|]. split; [lia|]. split; [lia|]. split; [lia|]. split; [lia|]. split; [lia|].
    split; [exact E1|]. split; [exact E2|]. split; [|reflexivity]. unfold rm_trigger, zero. cbn [ref_add passive connecting_eps connected_eps]. rewrite <- andb_assoc. f_equal. apply andb_comm.
Qed.

Ltac zl := repeat match goal with H : _ <-> _ |- _ => clear H | H : _ \/ _ |- _ => clear H | H : _ /\ _ |- _ => clear H | H : forall x : ?A, @?B x |- _ => clear H end; lia.

Lemma step_fin p n s h i e s' o : final e -> Inv p n s h -> legal s (Event i e) -> step s (Event i e) = Ok s' o -> Inv p n s' (h ++ items (Event i e) o).
Proof.
  intros Fe (IE & IR & IF) (Hi & Hpc & Ht). unfold step. destruct (refs (rl s) =? 0)%Z; [discriminate|].
  destruct (rail_cb (rl s) i e) as [[[[r' a] rm] cl]|] eqn:CB; [|discriminate]. intros H.
  assert (Hs : s' = set_tp (set_pc (set_rl s r') i (Calling a rm)) i TDone /\ o = map OClose cl) by (destruct e; try contradiction; injection H as <- <-; auto). clear H. destruct Hs as (-> & ->).
  assert (Ht' : tp s i = if isD e then TUp else TTrying) by (destruct e; try contradiction; exact Ht). clear Ht.
  pose proof IE as IE'. destruct IE. rewrite e_n in Hi.
  assert (C1 : (connected_eps (rl s) <= Z.of_nat n)%Z). { rewrite e_cc. clear. induction n; cbn [sumz]; [lia|]. pose proof (ind_bound (isUp (tp s n))). lia. }
  apply fin_fields in CB; [|exact Fe|rewrite e_n; auto].
  destruct CB as (Q0 & Q1 & Q2 & Q3 & Q4 & Q5 & Q6 & Q7 & Q8 & Q9 & EP & K & Erm & Ea). rewrite e_n in EP, K.
  set (l := Event i e). set (o := map OClose cl) in *.
  assert (Act : tp s i <> TNone /\ tp s i <> TDone) by (rewrite Ht'; destruct (isD e); split; discriminate).
  assert (ND : ~ allDone s) by (intros D; destruct (D i); tauto).
  assert (OUTE : forall j, n <= j -> ep_st (rl s) j = INIT) by (intros j Hj; apply e_out; exact Hj).
  assert (EP' : forall j, j <> i -> ep_st r' j = if is (ep_st (rl s) j) CONNECTED then ERROR else ep_st (rl s) j).
  { intros j N. rewrite EP. destruct (Nat.eqb_spec j i); [congruence|]. destruct (Nat.ltb_spec j n) as [A|A]; [reflexivity|]. rewrite OUTE by exact A. reflexivity. }
  assert (K' : forall j, number (closes j) (h ++ items l o) = number (closes j) h + if negb (j =? i) && is (ep_st (rl s) j) CONNECTED then 1 else 0).
  { intros j. rewrite saw_number, K by reflexivity. f_equal. destruct (j =? i); [reflexivity|]. cbn [negb andb]. destruct (Nat.ltb_spec j n) as [A|A]; [reflexivity|]. rewrite OUTE by exact A. reflexivity. }
  assert (NUP : forall j, tp s j <> TUp -> is (ep_st (rl s) j) CONNECTED = false).
  { intros j Hj. apply is_false. specialize (e_st j). destruct (tp s j); try contradiction; destruct (ep_st (rl s) j); try discriminate; try contradiction; destruct e_st as [X|X]; try discriminate; destruct X; discriminate. }
  assert (SE : forall f, f <> e -> (some_ev f (h ++ items l o) <-> some_ev f h)) by (intros f N; apply some_other; unfold l; congruence).
  assert (SEe : some_ev e (h ++ items l o)) by (apply some_items; right; exists i; reflexivity).
  assert (J : joined n (h ++ items l o) <-> joined n h).
  { apply joined_unclean. intros (_ & A2 & A3 & A4). change [Did l] with (items l []) in *. rewrite some_items in A2, A3, A4. destruct e; try contradiction; [apply A2|apply A3|apply A4]; right; exists i; reflexivity. }
  assert (NCL : ~ clean (h ++ [Did l])).
  { intros (_ & A2 & A3 & A4). change [Did l] with (items l []) in *. rewrite some_items in A2, A3, A4. destruct e; try contradiction; [apply A2|apply A3|apply A4]; right; exists i; reflexivity. }
  assert (CLO : In (Did Close) (h ++ items l o) <-> In (Did Close) h) by (rewrite did_items; split; [intros [X|X]; [exact X|discriminate]|auto]).
  assert (CO : connects (h ++ items l o) <-> connects h) by (rewrite connects_items; split; [intros [X|(c & X)]; [exact X|discriminate]|auto]).
  assert (FS : failed_start n (h ++ items l o) <-> failed_start n h) by (rewrite failed_items; split; [intros [X|(c & X & _)]; [exact X|discriminate]|auto]).
  assert (RL : rejected_last (h ++ items l o) <-> isR e = true \/ (rejected_last h /\ isE e = false)).
  { rewrite rejected_items. unfold l. split.
    - intros [(k & X)|(A & _ & B)]; [injection X as -> ->; auto|]. destruct e; try contradiction; cbn; auto. now elim (B i).
    - intros [X|(A & X)]; destruct e; try contradiction; try discriminate; [left; eauto|left; eauto|]. right. repeat split; [exact A|discriminate|discriminate]. }
  assert (SN : settled n (h ++ items l o) <-> settled n h \/ isR e = true \/ isE e = true).
  { rewrite settled_items. unfold l. split.
    - intros [X|[X|[(c & X & _)|[(k & X)|[(k & X)|(X & _)]]]]]; try discriminate; try contradiction; [auto|injection X as -> ->; auto|injection X as -> ->; auto].
    - intros [X|[X|X]]; [auto| |]; destruct e; try discriminate; [do 3 right; left; eauto|do 4 right; left; eauto]. }
  assert (LA : settled_last n (h ++ items l o) <-> settled n (h ++ items l o)) by (rewrite last_items; unfold l; clear -Fe; destruct e; try contradiction; cbn [fin]; tauto).
  assert (NT : hT (h ++ items l o) = hT h) by (rewrite hT_items; unfold o; rewrite number_term_closes; clear; lia).
  assert (NC : hC (h ++ items l o) = hC h) by (rewrite hC_items; unfold o; rewrite number_told_closes; clear; lia).
  assert (TS : sumz n (fun j => ind (isTry (fupd (tp s) i TDone j))) = (sumz n (fun j => ind (isTry (tp s j))) - ind (negb (isD e)))%Z) by (rewrite sum_tp, Ht' by exact Hi; destruct (isD e); cbn [isTry ind negb]; clear; lia).
  assert (US : sumz n (fun j => ind (isUp (fupd (tp s) i TDone j))) = (connected_eps (rl s) - ind (isD e))%Z) by (rewrite sum_tp, Ht', e_cc by exact Hi; destruct (isD e); cbn [isUp ind negb]; clear; lia).
  assert (EVT : isD e = false -> forall f, ~ ev i f h) by (intros X f; rewrite X in Ht'; apply e_none; auto).
  assert (OTE : (isT a = false -> a = None) /\ isC a = false).
  { rewrite Ea. unfold outcome. destruct (st r'); cbn; auto; [destruct (zero r'); cbn; auto; destruct (negb (conn_error_eps r' =? 0)%Z); [cbn; split; auto; discriminate|]; destruct (negb (rejected_eps r' =? 0)%Z); cbn; split; auto; discriminate|].
    destruct (passive r'); cbn; auto. destruct (zero r'); cbn; auto; split; auto; discriminate. }
  destruct OTE as (OTE & OTC).
  set (sf := set_tp (set_pc (set_rl s r') i (Calling a rm)) i TDone) in *.
  assert (AD : allDone sf -> forall j, j <> i -> done (tp s j)). { intros D j N. specialize (D j). unfold sf, set_tp in D. cbn [tp set_pc set_rl] in D. rewrite fupd_neq in D by exact N. exact D. }
  assert (Z0 : (forall j, j < n -> made s j = false) -> (zero r' = true <-> allDone sf)).
  { intros M. assert (CG : connecting_eps r' = sumz n (fun j => ind (isTry (fupd (tp s) i TDone j)))).
    { assert (MZ : sumz n (fun j => ind (made s j)) = 0%Z) by (apply sumz_zero; [intros; apply ind_bound|]; intros j Hj; rewrite M by exact Hj; reflexivity). rewrite Q7, e_cg, TS, MZ. clear. lia. }
    unfold zero. rewrite andb_true_iff, !Z.eqb_eq, CG, Q6, <- US. split.
    - intros (A & B) j. pose proof (proj1 (sumz_zero n _ (fun j _ => proj1 (ind_bound (isUp (fupd (tp s) i TDone j))))) A) as A'. clear A; rename A' into A.
      pose proof (proj1 (sumz_zero n _ (fun j _ => proj1 (ind_bound (isTry (fupd (tp s) i TDone j))))) B) as B'. clear B; rename B' into B. unfold sf, set_tp. cbn [tp set_pc set_rl]. destruct (Nat.lt_ge_cases j n) as [Lj|Lj].
      + specialize (A j Lj). specialize (B j Lj). cbv beta in A, B. destruct (fupd (tp s) i TDone j); cbn in A, B; try discriminate; [left|right]; reflexivity.
      + rewrite fupd_neq by (clear -Lj Hi; lia). left. apply e_out. exact Lj.
    - intros D. split; (apply sumz_zero; [intros; apply ind_bound|]); intros j _; specialize (D j); unfold sf, set_tp in D; cbn [tp set_pc set_rl] in D; destruct D as [-> | ->]; reflexivity. }
  destruct IR. cbv zeta in *.
  assert (NI : st (rl s) <> INIT). { intros X. rewrite X in r_st. destruct r_st as (_ & A & _). destruct (A i) as (B & _). tauto. }
  assert (OC : p = false -> connects h \/ In (Did Close) h). { intros Hp. clear -r_st NI Hp. destruct (st (rl s)); try contradiction; try (destruct r_st; tauto); destruct r_st; congruence. }
  assert (T0 : p = false \/ joined n h -> (hT h + sumz n (fun j => ind (pT (at_pc s j))) = 0)%Z). { intros H. destruct (r_t H) as ([A|A] & B); [exact A|]. exfalso. apply ND. apply B. exact A. }
  assert (PT : sumz n (fun j => ind (pT (fupd (at_pc s) i (Calling a rm) j))) = (sumz n (fun j => ind (pT (at_pc s j))) + ind (isT a))%Z) by (rewrite sum_pc, Hpc by exact Hi; cbn [pT ind]; clear; lia).
  assert (PC : sumz n (fun j => ind (pC (fupd (at_pc s) i (Calling a rm) j))) = (sumz n (fun j => ind (pC (at_pc s j))))%Z) by (rewrite sum_pc, Hpc by exact Hi; cbn [pC ind]; rewrite OTC; cbn [ind]; clear; lia).
  assert (UPE : forall j, fupd (tp s) i TDone j = TUp -> ep_st r' j = ERROR).
  { intros j H. fuh H; [discriminate|]. rewrite EP' by assumption. specialize (e_st j). rewrite H in e_st. destruct e_st as [(A & _)|(A & _)]; rewrite A; reflexivity. }
  assert (MF : p = false \/ joined n h -> forall j, j < n -> made s j = false).
  { intros [X|X] j Hj; [|apply (joined_up _ _ _ _ j IE' X Hj)]. destruct (made s j) eqn:M; [|reflexivity]. destruct (e_made j M) as (_ & _ & Y). congruence. }
  (* the new state tells whether the rail is settled *)
  assert (ST : match st r' with
      | CONNECTING => p = false /\ connects h /\ ~ settled n (h ++ items l o) /\ a = None /\ st (rl s) = CONNECTING
      | ACCEPTING => p = true /\ ~ settled n (h ++ items l o) /\ a = None /\ st (rl s) = ACCEPTING
      | ERROR | REJECTED => settled n (h ++ items l o)
      | _ => False end).
  { assert (OUT : st r' = CONNECTING \/ st r' = ACCEPTING -> a = None) by (intros [X|X]; rewrite Ea; unfold outcome; rewrite X; reflexivity).
    rewrite Q0. destruct e; try contradiction; cbn [st_after isR isE] in *; [apply SN; auto|apply SN; auto|].
    rewrite Q0 in OUT. assert (SN' : settled n (h ++ items l o) <-> settled n h) by (rewrite SN; clear; intuition discriminate).
    clear -r_st NI OUT SN'. destruct (st (rl s)) eqn:S; cbn [is] in *; try contradiction; rewrite SN'.
    - destruct r_st as (X1 & X2). split; [exact X1|]. split; [exact X2|]. split; [apply OUT; right; reflexivity|reflexivity].
    - destruct r_st as (X1 & X2 & X3). split; [exact X1|]. split; [exact X2|]. split; [exact X3|]. split; [apply OUT; left; reflexivity|reflexivity].
    - destruct r_st as (X & _). right. right. right. right. exact X.
    - apply r_st.
    - apply r_st. }
  (* a rail that was connected is never rejected *)
  assert (NR : joined n h -> st r' <> REJECTED).
  { intros X Y. assert (Z : rejected_last (h ++ items l o)).
    { apply RL. rewrite Q0 in Y. destruct e; try contradiction; try discriminate; cbn [st_after] in Y; auto. right. split; [|reflexivity]. apply r_rl. destruct (st (rl s)); try discriminate; reflexivity. }
    apply RL in Z. destruct Z as [Z|((g1 & k & g2 & -> & _) & _)].
    - destruct e; try discriminate. apply (EVT eq_refl XConnected). apply (joined_up _ _ _ _ i IE' X Hi).
    - assert (Ek : ev k XRejected (g1 ++ Did (Event k XRejected) :: g2)) by (apply in_app_iff; cbn; auto).
      assert (Lk : k < n). { destruct (Nat.lt_ge_cases k n) as [A|A]; [exact A|]. exfalso. apply (e_none k XRejected); [left; apply e_out; exact A|exact Ek]. }
      destruct (joined_up _ _ _ _ k IE' X Lk) as (B & _). destruct (e_excl k B). contradiction. }
  split; [|split].
  - constructor; unfold sf; cbn [set_rl set_pc set_tp rl at_pc tp found made has_ref].
    + congruence.
    + congruence.
    + exact e_pos.
    + intros j Hj. destruct (e_out j Hj) as (A & B & D & F). assert (N : j <> i) by (clear -Hj Hi; lia). rewrite !fupd_neq, EP', F by exact N. auto.
    + intros j f H. fuh H; [destruct H; discriminate|]. rewrite ev_items. intros [X|X]; [now apply (e_none j f)|unfold l in X; congruence].
    + intros j H. fuh H; [discriminate|]. destruct (e_up j H) as (A & B). split; [apply ev_items; auto|]. intros f Hf. rewrite ev_items. intros [X|X]; [now apply (B f)|unfold l in X; congruence].
    + intros j H. fuh H; [exists e; split; [exact Fe|apply ev_items; right; reflexivity]|]. destruct (e_done j H) as (f & A & B). exists f. split; [exact A|]. apply ev_items. auto.
    + intros j H. apply ev_items in H. destruct H as [H|H]; [|unfold l in H; destruct e; try contradiction; discriminate]. destruct (e_excl j H) as (A & B). rewrite !ev_items. unfold l.
      split; (intros [X|X]; [contradiction|]); injection X as -> <-; now apply (EVT eq_refl XConnected).
    + rewrite Q6, US. reflexivity.
    + rewrite Q7, e_cg, TS. zl.
    + rewrite Q8. destruct (isR e) eqn:R; cbn [ind].
      * destruct e; try discriminate. destruct e_rej as (A & _). split; [zl|]. split; [zl|]. intros X. contradiction.
      * rewrite SE, Z.add_0_r by (intros <-; discriminate). exact e_rej.
    + rewrite Q9. destruct (isE e) eqn:R; cbn [ind].
      * destruct e; try discriminate. destruct e_err as (A & _). split; [zl|]. split; [zl|]. intros X. contradiction.
      * rewrite SE, Z.add_0_r by (intros <-; discriminate). exact e_err.
    + intros j. specialize (e_st j). destruct (Nat.eq_dec j i) as [->|N].
      * rewrite fupd_eq, EP, Nat.eqb_refl. destruct e; try contradiction; cbn [ep_after]; auto. destruct (is _ _); auto.
      * rewrite fupd_neq, EP', K' by exact N. destruct (Nat.eqb_spec j i); [congruence|]. cbn [negb andb].
        destruct (tp s j) eqn:T; try (rewrite NUP by congruence; exact e_st). destruct e_st as [(A & B)|(A & B)]; rewrite A; cbn [is]; right; split; auto; zl.
    + intros j. rewrite K'. destruct (e_cl j) as (A & B). destruct (Nat.eq_dec j i) as [->|N].
      * rewrite fupd_eq, Nat.eqb_refl. cbn [negb andb]. rewrite Nat.add_0_r. split; [exact A|]. intros [X|X]; discriminate.
      * rewrite fupd_neq by exact N. destruct (Nat.eqb_spec j i); [congruence|]. cbn [negb andb]. specialize (e_st j). destruct (tp s j) eqn:T; try (rewrite NUP by congruence; rewrite Nat.add_0_r; auto).
        split; [|intros [X|X]; discriminate]. destruct e_st as [(A' & B')|(A' & B')]; rewrite A'; cbn [is]; zl.
    + intros j H. rewrite Q3. destruct (e_made j H) as (A & B). rewrite fupd_neq by (intros ->; clear -A Act H; tauto). auto.
    + intros j H. rewrite Q3. fuh H; [apply e_x; tauto|]. auto.
    + intros j b r H. fuh H.
      * rewrite fupd_eq. injection H as <- <-. destruct (isT a) eqn:TT; [destruct a as [[]|]; try discriminate; reflexivity|]. rewrite OTE by reflexivity. auto.
      * rewrite fupd_neq by assumption. apply e_pc. exact H.
    + intros j H. fuh H; [discriminate|]. rewrite fupd_neq by assumption. auto.
  - constructor; cbv zeta; unfold sf; cbn [rl at_pc tp set_tp set_pc set_rl].
    + clear -ST OC UPE CO CLO. destruct (st r') eqn:S; try contradiction; rewrite ?CO, ?CLO; tauto.
    + rewrite FS, CLO. intros X. destruct (r_fs X) as (A & B & D). split; [exact A|]. split; [destruct (st r'); try contradiction; discriminate|]. destruct D as [(k & D1 & D2)|D]; [left; exists k|auto]. split; [exact D1|]. rewrite fupd_neq by (intros ->; clear -D2 Act; tauto). exact D2.
    + rewrite RL, Q0, r_rl. destruct e; try contradiction; cbn [isR isE st_after]; [tauto|split; [intros [X|(_ & X)]; discriminate|discriminate]|].
      clear. destruct (st (rl s)); cbn [is]; intuition discriminate.
    + rewrite NC, PC, J. exact r_c.
    + rewrite NT, PT. destruct (st r') eqn:S; try contradiction; auto; destruct ST as (A & B & D); [destruct D as (D & E)|destruct D as (_ & D & E)]; rewrite E in r_t0; rewrite D; cbn [isT ind]; zl.
    + rewrite NT, PT, J, LA. intros H. specialize (T0 H). specialize (Z0 (MF H)). fold sf.
      assert (IT : isT a = true <-> allDone sf /\ settled n (h ++ items l o)).
      { rewrite <- Z0, Ea. unfold outcome. rewrite Q2, e_p. destruct (st r') eqn:S; try contradiction.
        - cbn. split; [discriminate|]. clear -ST. tauto.
        - cbn. split; [discriminate|]. clear -ST. tauto.
        - destruct (zero r'); [|cbn; split; [discriminate|intros (X & _); discriminate]]. split; [auto|]. intros _. destruct (negb (conn_error_eps r' =? 0)%Z); [reflexivity|]. destruct (negb (rejected_eps r' =? 0)%Z); reflexivity.
        - destruct H as [-> |H]; [|exfalso; now apply (NR H)]. destruct (zero r'); cbn; [clear -ST; tauto|]. split; [discriminate|intros (X & _); discriminate]. }
      rewrite <- IT. clear -T0. destruct (isT a); cbn [ind]; split; try zl; split; intros; try zl; try reflexivity; discriminate.
  - destruct IF. constructor; unfold sf; cbn [rl at_pc tp found made has_ref set_pc set_tp set_rl].
    + rewrite Q4, Q5, f_ref, TS, US, e_cc, (sum_pc _ busy), Hpc by exact Hi. cbn [busy ind]. destruct (isD e); cbn [negb ind]; zl.
    + intros Hp. destruct (f_act Hp) as (A & B & D). rewrite Q4. repeat split; auto. intros j. fu; [|apply D]. cbn [pRm]. rewrite Erm, Q2, e_p, Hp. reflexivity.
    + intros _ H. exfalso. now apply (H e Fe).
    + rewrite J. intros Hp H. specialize (f_tree Hp H). destruct f_tree as (A & B). rewrite Q4, sum_pc, Hpc by exact Hi. cbn [pRm]. cbn [ind]. specialize (Z0 (MF (or_intror H))). fold sf. rewrite <- Z0.
      assert (X : (sumz n (fun j => ind (pRm (at_pc s j))) + ind (negb (in_tree (rl s))) = 0)%Z).
      { pose proof (sumz_nonneg n (fun j => ind (pRm (at_pc s j))) ltac:(intros; apply ind_bound)). pose proof (ind_bound (negb (in_tree (rl s)))) as (I0 & I1).
        destruct (Z.eq_dec (sumz n (fun j => ind (pRm (at_pc s j))) + ind (negb (in_tree (rl s)))) 1) as [Y|Y]; [exfalso; apply ND; apply B; exact Y|]. zl. }
      assert (Y : rm = zero r') by (rewrite Erm, Q2, e_p, Hp; reflexivity). rewrite Y. clear -X. destruct (zero r'); cbn [ind]; split; try zl; split; intros; try zl; try reflexivity; discriminate.
Qed.

Lemma inv_step p n s h l s' o : Inv p n s h -> legal s l -> step s l = Ok s' o -> Inv p n s' (h ++ items l o).
Proof.
  destruct l as [c| | |i []|i|i| |i m b|i b].
  - apply step_connect.
  - apply step_close.
  - apply step_put.
  - apply step_up.
  - apply step_fin. exact I.
  - apply step_fin. exact I.
  - apply step_fin. exact I.
  - apply step_data.
  - apply step_call.
  - apply step_end.
  - apply step_find.
  - apply step_make.
  - apply step_accept.
Qed.
