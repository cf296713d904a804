From Verif Require Import Base M_Heap S_Heap.
From Coq Require Import ZifyBool ZifyNat.
Ltac Zify.zify_post_hook ::= Z.div_mod_to_equations.
Local Open Scope nat_scope.

(** Structure with a hole at [i] to be filled with [ev]. *)
Definition wf_hole (h : heap) (i ev : nat) (E : nat -> Prop) : Prop :=
  (forall j, j < sz h -> j <> i -> idx h (arr h j) = Z.of_nat j /\ arr h j <> ev /\ E (arr h j)) /\
  (forall n, E n -> n = ev \/ exists j, j < sz h /\ j <> i /\ arr h j = n) /\
  E ev.

Definition wf (h : heap) (E : nat -> Prop) : Prop :=
  (forall j, j < sz h -> idx h (arr h j) = Z.of_nat j /\ E (arr h j)) /\
  (forall n, E n -> exists j, j < sz h /\ arr h j = n).

Lemma wf_put h i ev E : i < sz h -> wf_hole h i ev E -> wf (put h i ev) E.
Proof.
  intros Hi (H1 & H2 & H3). split.
  - intros j Hj. simpl in *. destruct (Nat.eq_dec j i) as [->|Hne].
    + fupd_tac. auto.
    + rewrite (fupd_neq _ i ev j) by auto.
      destruct (H1 j Hj Hne) as (Ha & Hb & Hc).
      rewrite fupd_neq by auto. auto.
  - intros n Hn. simpl. destruct (H2 n Hn) as [->|(j & Hj & Hne & Ha)].
    + exists i. fupd_tac. auto.
    + exists j. rewrite fupd_neq by auto. auto.
Qed.

Lemma wf_hole_move h i p ev E :
  i < sz h -> p < sz h -> p <> i -> wf_hole h i ev E ->
  wf_hole (put h i (arr h p)) p ev E.
Proof.
  intros Hi Hp Hne (H1 & H2 & H3).
  destruct (H1 p Hp Hne) as (Hpi & Hpe & HpE).
  split; [|split]; simpl.
  - intros j Hj Hjp. destruct (Nat.eq_dec j i) as [->|Hji].
    + fupd_tac. auto.
    + rewrite (fupd_neq _ i _ j) by auto.
      destruct (H1 j Hj Hji) as (Ha & Hb & Hc).
      assert (arr h j <> arr h p) by (intros Heq; rewrite Heq, Hpi in Ha; lia).
      rewrite fupd_neq by auto. auto.
  - intros n Hn. destruct (H2 n Hn) as [->|(j & Hj & Hji & Ha)]; [now left|].
    right. destruct (Nat.eq_dec j p) as [->|Hjp].
    + exists i. fupd_tac. auto.
    + exists j. rewrite fupd_neq by auto. auto.
  - exact H3.
Qed.

(** Heap order with a hole. *)
Definition ord_hole (par : nat -> nat) (h : heap) (i : nat) : Prop :=
  (forall j, 0 < j < sz h -> j <> i -> par j <> i -> (key h (arr h (par j)) <= key h (arr h j))%Z) /\
  (0 < i -> forall j, 0 < j < sz h -> par j = i -> (key h (arr h (par i)) <= key h (arr h j))%Z).
Definition ord (par : nat -> nat) (h : heap) : Prop :=
  forall j, 0 < j < sz h -> (key h (arr h (par j)) <= key h (arr h j))%Z.
Definition above (par : nat -> nat) (h : heap) (i ev : nat) : Prop :=
  0 < i -> (key h (arr h (par i)) <= key h ev)%Z.
Definition below (par : nat -> nat) (h : heap) (i ev : nat) : Prop :=
  forall j, 0 < j < sz h -> par j = i -> (key h ev <= key h (arr h j))%Z.

Lemma ord_put par h i ev :
  (forall j, 0 < j -> par j < j) -> i < sz h ->
  ord_hole par h i -> above par h i ev -> below par h i ev -> ord par (put h i ev).
Proof.
  intros Hpar Hi (H1 & H2) Ha Hb j Hj. simpl in *.
  pose proof (Hpar j ltac:(lia)).
  destruct (Nat.eq_dec j i) as [->|Hji].
  - rewrite fupd_eq. rewrite fupd_neq by lia. apply Ha. lia.
  - rewrite (fupd_neq _ i ev j) by auto.
    destruct (Nat.eq_dec (par j) i) as [He|Hpi].
    + rewrite He, fupd_eq. apply Hb; auto.
    + rewrite fupd_neq by auto. apply H1; auto.
Qed.

Lemma float_sz par f ev h i : sz (float_loop par f ev h i) = sz h.
Proof. revert h i; induction f as [|f IH]; intros h i; cbn [float_loop];
  destruct (Nat.eqb i 0); try reflexivity; destruct (negb _); [reflexivity|]; rewrite IH; reflexivity. Qed.
Lemma float_cap par f ev h i : cap (float_loop par f ev h i) = cap h.
Proof. revert h i; induction f as [|f IH]; intros h i; cbn [float_loop];
  destruct (Nat.eqb i 0); try reflexivity; destruct (negb _); [reflexivity|]; rewrite IH; reflexivity. Qed.
Lemma float_key par f ev h i : key (float_loop par f ev h i) = key h.
Proof. revert h i; induction f as [|f IH]; intros h i; cbn [float_loop];
  destruct (Nat.eqb i 0); try reflexivity; destruct (negb _); [reflexivity|]; rewrite IH; reflexivity. Qed.
Lemma sink_sz f ev h i : sz (sink_loop f ev h i) = sz h.
Proof. revert h i; induction f as [|f IH]; intros h i; cbn [sink_loop];
  destruct (negb (Nat.ltb _ _)); try reflexivity; cbv zeta;
  match goal with |- context [if ?b then sink_loop _ _ _ _ else _] => destruct b end;
  [rewrite IH|]; reflexivity. Qed.
Lemma sink_cap f ev h i : cap (sink_loop f ev h i) = cap h.
Proof. revert h i; induction f as [|f IH]; intros h i; cbn [sink_loop];
  destruct (negb (Nat.ltb _ _)); try reflexivity; cbv zeta;
  match goal with |- context [if ?b then sink_loop _ _ _ _ else _] => destruct b end;
  [rewrite IH|]; reflexivity. Qed.
Lemma sink_key f ev h i : key (sink_loop f ev h i) = key h.
Proof. revert h i; induction f as [|f IH]; intros h i; cbn [sink_loop];
  destruct (negb (Nat.ltb _ _)); try reflexivity; cbv zeta;
  match goal with |- context [if ?b then sink_loop _ _ _ _ else _] => destruct b end;
  [rewrite IH|]; reflexivity. Qed.

(** Indices outside the element set are untouched. *)
Lemma float_idx_out par f ev h i E n :
  (forall j, 0 < j -> par j < j) -> i < sz h -> wf_hole h i ev E -> ~ E n ->
  idx (float_loop par f ev h i) n = idx h n.
Proof.
  intros Hpar. revert h i; induction f as [|f IH]; intros h i Hi Hw Hn; cbn [float_loop];
    destruct (Nat.eqb_spec i 0) as [H0|H0].
  1,3: simpl; apply fupd_neq; intros ->; apply Hn, Hw.
  - reflexivity.
  - pose proof (Hpar i ltac:(lia)). cbv zeta. destruct (negb _).
    + simpl; apply fupd_neq; intros ->; apply Hn, Hw.
    + rewrite IH; auto; simpl; try lia.
      * apply fupd_neq. intros ->. apply Hn. destruct Hw as (H1 & _). apply (H1 (par i)); lia.
      * apply wf_hole_move; auto; lia.
Qed.

Lemma float_wf par f ev h i E :
  (forall j, 0 < j -> par j < j) -> i <= f -> i < sz h -> wf_hole h i ev E ->
  wf (float_loop par f ev h i) E.
Proof.
  intros Hpar. revert h i; induction f as [|f IH]; intros h i Hf Hi Hw; cbn [float_loop];
    destruct (Nat.eqb_spec i 0) as [H0|H0].
  1,3: apply wf_put; auto.
  - lia.
  - pose proof (Hpar i ltac:(lia)). cbv zeta. destruct (negb _).
    + apply wf_put; auto.
    + apply IH; simpl; try lia. apply wf_hole_move; auto; lia.
Qed.

Lemma sink_wf f ev h i E :
  sz h <= f + i -> i < sz h -> wf_hole h i ev E -> wf (sink_loop f ev h i) E.
Proof.
  revert h i; induction f as [|f IH]; intros h i Hf Hi Hw; cbn [sink_loop];
    destruct (Nat.ltb_spec (2*i+1) (sz h)) as [Hl|Hl]; cbn [negb].
  2,4: apply wf_put; auto.
  - lia.
  - cbv zeta. set (x := if negb _ then _ else _).
    assert (Hx : (x = 2*i+1 \/ x = 2*i+1+1) /\ x < sz h).
    { subst x. destruct (Nat.ltb_spec (2*i+1+1) (sz h)); cbn [negb]; [|lia].
      destruct (lt _ _ _); lia. }
    clearbody x. destruct (lt h (arr h x) ev).
    + apply IH; simpl; try lia. apply wf_hole_move; auto; lia.
    + apply wf_put; auto.
Qed.

Lemma sink_idx_out f ev h i E n :
  i < sz h -> wf_hole h i ev E -> ~ E n ->
  idx (sink_loop f ev h i) n = idx h n.
Proof.
  revert h i; induction f as [|f IH]; intros h i Hi Hw Hn; cbn [sink_loop];
    destruct (Nat.ltb_spec (2*i+1) (sz h)) as [Hl|Hl]; cbn [negb].
  2,4: simpl; apply fupd_neq; intros ->; apply Hn, Hw.
  - reflexivity.
  - cbv zeta. set (x := if negb _ then _ else _).
    assert (Hx : (x = 2*i+1 \/ x = 2*i+1+1) /\ x < sz h).
    { subst x. destruct (Nat.ltb_spec (2*i+1+1) (sz h)); cbn [negb]; [|lia].
      destruct (lt _ _ _); lia. }
    clearbody x. destruct (lt h (arr h x) ev).
    + rewrite IH; auto; simpl; try lia.
      * apply fupd_neq. intros ->. apply Hn. destruct Hw as (H1 & _). apply (H1 x); lia.
      * apply wf_hole_move; auto; lia.
    + simpl; apply fupd_neq; intros ->; apply Hn, Hw.
Qed.

(** Float restores the order, or leaves the element where it was. *)
Lemma float_ord par f ev h i :
  (forall j, 0 < j -> par j < j) -> i <= f -> i < sz h ->
  ord_hole par h i -> below par h i ev -> ord par (float_loop par f ev h i).
Proof.
  intros Hpar. revert h i; induction f as [|f IH]; intros h i Hf Hi Ho Hb; cbn [float_loop];
    destruct (Nat.eqb_spec i 0) as [H0|H0].
  1,3: apply ord_put; auto; intros ?; lia.
  - lia.
  - pose proof (Hpar i ltac:(lia)) as Hpi. cbv zeta. unfold lt.
    destruct (Z.ltb_spec (key h ev) (key h (arr h (par i)))) as [Hlt|Hge]; cbn [negb].
    + destruct Ho as (Ho1 & Ho2).
      apply IH; simpl; try lia.
      * split; simpl.
        -- intros j Hj Hj1 Hj2. pose proof (Hpar j ltac:(lia)).
           destruct (Nat.eq_dec j i) as [->|Hji]; [congruence|].
           rewrite (fupd_neq _ i _ j) by auto.
           destruct (Nat.eq_dec (par j) i) as [He|Hne].
           ++ rewrite He, fupd_eq. apply Ho2; auto; lia.
           ++ rewrite fupd_neq by auto. apply Ho1; auto.
        -- intros Hp0 j Hj Hjp. pose proof (Hpar (par i) Hp0).
           rewrite (fupd_neq _ i _ (par (par i))) by lia.
           assert (Hg : (key h (arr h (par (par i))) <= key h (arr h (par i)))%Z)
             by (apply Ho1; lia).
           destruct (Nat.eq_dec j i) as [->|Hji].
           ++ rewrite fupd_eq. exact Hg.
           ++ rewrite fupd_neq by auto.
              assert (Hq : (key h (arr h (par j)) <= key h (arr h j))%Z) by (apply Ho1; auto; lia).
              rewrite Hjp in Hq. lia.
      * intros j Hj Hjp. simpl in *. destruct (Nat.eq_dec j i) as [->|Hji].
        -- rewrite fupd_eq. lia.
        -- rewrite fupd_neq by auto.
           assert (Hq : (key h (arr h (par j)) <= key h (arr h j))%Z) by (apply Ho1; auto; lia).
           rewrite Hjp in Hq. lia.
    + apply ord_put; auto. intros _. lia.
Qed.

Lemma float_fix par f ev h i :
  (forall j, 0 < j -> par j < j) -> i <= f -> i < sz h -> ord_hole par h i ->
  (float_loop par f ev h i = put h i ev /\ above par h i ev) \/
  (ord par (float_loop par f ev h i) /\ 0 < i /\ (key h ev < key h (arr h (par i)))%Z).
Proof.
  intros Hpar Hf Hi Ho.
  destruct (Nat.eq_dec i 0) as [H0|H0].
  - left. subst i. destruct f; cbn [float_loop Nat.eqb]; (split; [reflexivity|intros ?; lia]).
  - destruct (Z.ltb_spec (key h ev) (key h (arr h (par i)))) as [Hlt|Hge].
    + right. split; [|split; [lia|exact Hlt]]. apply float_ord; auto.
      intros j Hj Hjp. destruct Ho as (_ & Ho2). specialize (Ho2 ltac:(lia) j Hj Hjp). lia.
    + left. destruct f as [|f]; [lia|]. cbn [float_loop].
      rewrite (proj2 (Nat.eqb_neq i 0) H0). unfold lt. cbv zeta.
      rewrite (proj2 (Z.ltb_ge _ _) Hge). cbn [negb]. split; [reflexivity|]. intros _. exact Hge.
Qed.

Lemma e_par_lt j : 0 < j -> e_par j < j.
Proof. unfold e_par. lia. Qed.
Lemma o_par_lt j : 0 < j -> o_par j < j.
Proof. unfold o_par. lia. Qed.

Lemma sink_ord f ev h i :
  sz h <= f + i -> i < sz h -> ord_hole e_par h i -> above e_par h i ev ->
  ord e_par (sink_loop f ev h i).
Proof.
  revert h i; induction f as [|f IH]; intros h i Hf Hi Ho Ha; cbn [sink_loop];
    destruct (Nat.ltb_spec (2*i+1) (sz h)) as [Hl|Hl]; cbn [negb].
  2,4: apply ord_put; auto using e_par_lt; intros j Hj; unfold e_par; lia.
  - lia.
  - cbv zeta. set (x := if negb _ then _ else _).
    assert (Hx : (x = 2*i+1 \/ x = 2*i+1+1) /\ x < sz h /\
                 forall j, 0 < j < sz h -> e_par j = i -> (key h (arr h x) <= key h (arr h j))%Z).
    { subst x. unfold lt. destruct (Nat.ltb_spec (2*i+1+1) (sz h)); cbn [negb].
      - destruct (Z.ltb_spec (key h (arr h (2*i+1))) (key h (arr h (2*i+1+1)))); cbv iota; split; try lia;
        (split; [lia|]); intros j Hj Hp; unfold e_par in Hp;
        assert (Hc : j = 2*i+1 \/ j = 2*i+1+1) by lia; destruct Hc as [->| ->]; lia.
      - split; [lia|]. split; [lia|]. intros j Hj Hp. unfold e_par in Hp.
        replace j with (2*i+1) by lia. lia. }
    clearbody x. destruct Hx as (Hx1 & Hx2 & Hx3).
    assert (Hpx : e_par x = i) by (unfold e_par; lia).
    unfold lt. destruct (Z.ltb_spec (key h (arr h x)) (key h ev)) as [Hlt|Hge].
    + destruct Ho as (Ho1 & Ho2). apply IH; simpl; try lia.
      * split; simpl.
        -- intros j Hj Hj1 Hj2. pose proof (e_par_lt j ltac:(lia)).
           destruct (Nat.eq_dec j i) as [->|Hji].
           ++ rewrite fupd_eq. rewrite fupd_neq by lia. apply Ho2; auto; lia.
           ++ rewrite (fupd_neq _ i _ j) by auto.
              destruct (Nat.eq_dec (e_par j) i) as [He|Hne].
              ** rewrite He, fupd_eq. apply Hx3; auto.
              ** rewrite fupd_neq by auto. apply Ho1; auto.
        -- intros _ j Hj Hjp. rewrite Hpx, fupd_eq.
           pose proof (e_par_lt j ltac:(lia)).
           rewrite fupd_neq by lia.
           assert (Hq : (key h (arr h (e_par j)) <= key h (arr h j))%Z) by (apply Ho1; lia).
           rewrite Hjp in Hq. exact Hq.
      * intros _. simpl. rewrite Hpx, fupd_eq. lia.
    + apply ord_put; auto using e_par_lt.
      intros j Hj Hp. specialize (Hx3 j Hj Hp). lia.
Qed.

(** * From the structural facts to the client view *)
Definition inv (h : heap) (l : bag) : Prop :=
  sz h = length l /\ NoDup (members l) /\ wf h (fun n => In n (members l)) /\
  (forall n k, In (n, k) l -> key h n = k) /\
  (forall n, ~ In n (members l) -> (idx h n < 0)%Z).

Lemma inv_holds h l : inv h l -> holds h l.
Proof.
  intros (H1 & H2 & (H3 & H4) & H5 & _). split; [exact H1|]. split.
  - intros i Hi. destruct (H3 i Hi). split; assumption.
  - intros n k Hin. split; [auto|]. apply H4. apply (in_map fst) in Hin. exact Hin.
Qed.

Lemma wf_ext h E E' : (forall n, E n <-> E' n) -> wf h E -> wf h E'.
Proof.
  intros He (H1 & H2). split.
  - intros j Hj. destruct (H1 j Hj). split; [|apply He]; auto.
  - intros n Hn. apply H2. apply He. exact Hn.
Qed.

(** A well-formed heap seen as a heap with a hole at the slot of [ev]. *)
Lemma wf_open h E i : wf h E -> i < sz h -> wf_hole h i (arr h i) E.
Proof.
  intros (H1 & H2) Hi. split; [|split].
  - intros j Hj Hne. destruct (H1 j Hj) as (Ha & Hb). split; [|split]; auto.
    intros He. destruct (H1 i Hi) as (Hc & _). rewrite <- He, Ha in Hc. lia.
  - intros n Hn. destruct (H2 n Hn) as (j & Hj & Ha).
    destruct (Nat.eq_dec j i) as [->|Hne]; [left; congruence|right; eauto].
  - apply H1; auto.
Qed.

Lemma ord_open par h i : (forall j, 0 < j -> par j < j) -> i < sz h -> ord par h -> ord_hole par h i.
Proof.
  intros Hpar Hi Ho. split.
  - intros j Hj _ _. apply Ho, Hj.
  - intros H0 j Hj Hp. pose proof (Ho j Hj) as Ha. pose proof (Ho i ltac:(lia)) as Hb.
    rewrite Hp in Ha. lia.
Qed.

Lemma without_in n l n' k : In (n', k) (without n l) <-> In (n', k) l /\ n' <> n.
Proof.
  unfold without. rewrite filter_In. simpl. split; intros (Ha & Hb); split; auto.
  - intros ->. rewrite Nat.eqb_refl in Hb. discriminate.
  - apply negb_true_iff, Nat.eqb_neq. exact Hb.
Qed.
Lemma members_in n (l : bag) : In n (members l) <-> exists k, In (n, k) l.
Proof.
  unfold members. rewrite in_map_iff. split.
  - intros ((a, k) & Hf & Hi). simpl in Hf. subst. eauto.
  - intros (k & Hi). exists (n, k). auto.
Qed.
Lemma without_members n l n' : In n' (members (without n l)) <-> In n' (members l) /\ n' <> n.
Proof.
  rewrite !members_in. split.
  - intros (k & Hi). apply without_in in Hi. destruct Hi. eauto.
  - intros ((k & Hi) & Hne). exists k. apply without_in. auto.
Qed.
Lemma without_nodup n l : NoDup (members l) -> NoDup (members (without n l)).
Proof.
  induction l as [|(a, k) l IH]; simpl; intros Hn; [constructor|].
  inversion Hn as [|? ? Hni Hnd]; subst. destruct (Nat.eqb a n); simpl; auto.
  constructor; auto. intros Hin. apply Hni.
  apply without_members in Hin. apply Hin.
Qed.
Lemma without_notin n l : ~ In n (members l) -> without n l = l.
Proof.
  induction l as [|(a, k) l IH]; simpl; intros Hn; [reflexivity|].
  destruct (Nat.eqb_spec a n) as [->|Hne]; [tauto|]. simpl. f_equal. apply IH. tauto.
Qed.
Lemma without_length n l : NoDup (members l) -> In n (members l) -> S (length (without n l)) = length l.
Proof.
  induction l as [|(a, k) l IH]; simpl; [tauto|]. intros Hn Hin.
  inversion Hn as [|? ? Hni Hnd]; subst. destruct (Nat.eqb_spec a n) as [->|Hne]; simpl.
  - rewrite without_notin; auto.
  - f_equal. apply IH; auto. destruct Hin; [congruence|auto].
Qed.
Lemma nodup_key (l : bag) n k k' : NoDup (members l) -> In (n, k) l -> In (n, k') l -> k = k'.
Proof.
  induction l as [|(a, c) l IH]; simpl; [tauto|]. intros Hn H1 H2.
  inversion Hn as [|? ? Hni Hnd]; subst.
  destruct H1 as [H1|H1], H2 as [H2|H2]; try congruence.
  - inversion H1; subst. exfalso. apply Hni. apply members_in. eauto.
  - inversion H2; subst. exfalso. apply Hni. apply members_in. eauto.
  - eauto.
Qed.

Lemma set_key_inv h l n k : ~ In n (members l) -> inv h l -> inv (set_key h n k) l.
Proof.
  intros Hn (H1 & H2 & H3 & H4 & H5). split; [exact H1|]. split; [exact H2|]. split; [exact H3|].
  split; [|exact H5]. simpl.
  intros n' k' Hin. rewrite fupd_neq; auto. intros ->. apply Hn, members_in. eauto.
Qed.

(** Insert, shared: the element is placed in the first free slot and floats. *)
Lemma insert_inv par h l n k h1 :
  (forall j, 0 < j -> par j < j) -> inv h l -> ~ In n (members l) ->
  sz h1 = S (sz h) -> arr h1 = fupd (arr h) (sz h) n -> key h1 = fupd (key h) n k ->
  (forall n', n' <> n -> idx h1 n' = idx h n') ->
  inv (float_loop par (sz h) n h1 (sz h)) ((n, k) :: l) /\
  (ord par h -> ord par (float_loop par (sz h) n h1 (sz h))).
Proof.
  intros Hpar (H1 & H2 & (H3a & H3b) & H4 & H5) Hn Hs Ha Hk Hi.
  assert (Hw : wf_hole h1 (sz h) n (fun n' => In n' (members ((n, k) :: l)))).
  { split; [|split].
    - intros j Hj Hne. rewrite Ha, fupd_neq by auto.
      destruct (H3a j ltac:(lia)) as (Hx & Hy).
      assert (arr h j <> n) by (intros Heq; rewrite Heq in Hy; tauto).
      rewrite Hi by auto. repeat split; auto. simpl. auto.
    - intros n' [Heq|Hin]; [left; simpl in Heq; auto|right].
      destruct (H3b n' Hin) as (j & Hj & Hx). exists j.
      rewrite Ha, fupd_neq by lia. repeat split; auto; lia.
    - simpl. auto. }
  split.
  - split; [rewrite float_sz; simpl; lia|]. split; [simpl; constructor; auto|].
    split; [apply float_wf; auto; lia|]. split.
    + intros n' k' Hin. rewrite float_key, Hk. destruct Hin as [Heq|Hin].
      * injection Heq as <- <-. apply fupd_eq.
      * rewrite fupd_neq; auto. intros ->. apply Hn, members_in. eauto.
    + intros n' Hn'. erewrite float_idx_out; eauto; [|lia].
      rewrite Hi; [apply H5|]; simpl in Hn'; intuition.
  - intros Ho. apply float_ord; auto; [lia| |].
    + split.
      * intros j Hj Hj1 Hj2. pose proof (Hpar j ltac:(lia)).
        rewrite Ha, Hk. rewrite !(fupd_neq (arr h)) by lia.
        assert (Hf : forall x, x < sz h -> arr h x <> n).
        { intros x Hx Heq. destruct (H3a x Hx) as (_ & Hy). rewrite Heq in Hy. tauto. }
        rewrite !fupd_neq by (apply Hf; lia). apply Ho. lia.
      * intros _ j Hj Hp. pose proof (Hpar j ltac:(lia)). lia.
    + intros j Hj Hp. pose proof (Hpar j ltac:(lia)). lia.
Qed.

(** Key change followed by float/sink at the element's own slot. *)
Lemma update_inv par h l n k f :
  (forall j, 0 < j -> par j < j) -> inv h l -> In n (members l) ->
  let h0 := set_key h n k in
  let i := Z.to_nat (idx h n) in
  let h1 := float_loop par i n h0 i in
  let h2 := if Z.eqb (idx h1 n) (Z.of_nat i) then sink_loop f n h1 i else h1 in
  sz h <= f ->
  inv h2 ((n, k) :: without n l) /\ (ord e_par h -> par = e_par -> ord e_par h2).
Proof.
  intros Hpar (H1 & H2 & (H3a & H3b) & H4 & H5) Hn h0 i h1 h2 Hf.
  destruct (H3b n Hn) as (j & Hj & Hjn).
  assert (Hi : i = j).
  { subst i. destruct (H3a j Hj) as (Hx & _). rewrite Hjn in Hx. lia. }
  assert (Hisz : i < sz h) by lia.
  assert (HE : forall n', In n' (members l) <-> In n' (members ((n, k) :: without n l))).
  { intros n'. simpl. fold (members (without n l)). rewrite without_members.
    destruct (Nat.eq_dec n' n) as [->|Hx]; intuition congruence. }
  set (E := fun n' => In n' (members ((n, k) :: without n l))).
  assert (Hw : wf_hole h0 i n E).
  { assert (Hw0 : wf h0 E).
    { apply (wf_ext h0 (fun n' => In n' (members l))); auto. split; auto. }
    pose proof (wf_open h0 E i Hw0 Hisz) as Hw1.
    replace (arr h0 i) with n in Hw1; auto. simpl. congruence. }
  assert (Hw1 : wf h1 E) by (apply float_wf; auto).
  assert (Hsz1 : sz h1 = sz h) by (subst h1; rewrite float_sz; reflexivity).
  assert (Hkey1 : key h1 = fupd (key h) n k) by (subst h1; rewrite float_key; reflexivity).
  assert (Hout1 : forall n', ~ E n' -> idx h1 n' = idx h n').
  { intros n' Hn'. subst h1. erewrite float_idx_out with (E := E); eauto. }
  assert (Hopen : forall g, wf g E -> sz g = sz h -> idx g n = Z.of_nat i -> wf_hole g i n E).
  { intros g Hg Hgs Hgi. destruct Hg as (Hg1 & Hg2).
    assert (HEn : E n) by (unfold E; simpl; auto).
    destruct (Hg2 n HEn) as (jj & Hjj & Hx). destruct (Hg1 jj Hjj) as (Hy & _).
    rewrite Hx, Hgi in Hy. assert (jj = i) by lia. subst jj.
    pose proof (wf_open g E i (conj Hg1 Hg2) ltac:(lia)) as Hq. rewrite Hx in Hq. exact Hq. }
  split.
  - assert (Hw2 : wf h2 E).
    { subst h2. destruct (Z.eqb_spec (idx h1 n) (Z.of_nat i)); auto.
      apply sink_wf; [lia|lia|]. apply Hopen; auto. }
    assert (Hsz2 : sz h2 = sz h).
    { subst h2. destruct (Z.eqb _ _); rewrite ?sink_sz; auto. }
    assert (Hkey2 : key h2 = fupd (key h) n k).
    { subst h2. destruct (Z.eqb _ _); rewrite ?sink_key; auto. }
    split; [|split; [|split; [|split]]].
    + rewrite Hsz2, H1. simpl. rewrite without_length; auto.
    + simpl. constructor; [|apply without_nodup; auto].
      fold (members (without n l)). rewrite without_members. tauto.
    + exact Hw2.
    + intros n' k' Hin. rewrite Hkey2. destruct Hin as [Heq|Hin].
      * injection Heq as <- <-. apply fupd_eq.
      * apply without_in in Hin. rewrite fupd_neq by tauto. apply H4, Hin.
    + intros n' Hn'. replace (idx h2 n') with (idx h n').
      * apply H5. rewrite HE. exact Hn'.
      * subst h2. destruct (Z.eqb_spec (idx h1 n) (Z.of_nat i)).
        -- erewrite sink_idx_out with (E := E); eauto; [|lia]. symmetry. apply Hout1, Hn'.
        -- symmetry. apply Hout1, Hn'.
  - intros Ho ->.
    assert (Hoh : ord_hole e_par h0 i).
    { assert (Hkn : forall x, x < sz h -> x <> i -> fupd (key h) n k (arr h x) = key h (arr h x)).
      { intros x Hx Hxi. apply fupd_neq. intros Heq. destruct (H3a x Hx) as (Hy & _).
        destruct (H3a j Hj) as (Hz & _). rewrite Heq in Hy. rewrite Hjn in Hz. lia. }
      split; simpl.
      - intros x Hx Hx1 Hx2. pose proof (e_par_lt x ltac:(lia)). rewrite !Hkn by lia. apply Ho. lia.
      - intros Hi0 x Hx Hxp. pose proof (e_par_lt x ltac:(lia)). pose proof (e_par_lt i ltac:(lia)).
        rewrite !Hkn by lia. pose proof (Ho x Hx) as Hp1. rewrite Hxp in Hp1.
        pose proof (Ho i ltac:(lia)). lia. }
    subst h2. destruct (float_fix e_par i n h0 i Hpar ltac:(lia) Hisz Hoh) as [(Heq & Hab)|(Hod & Hi0 & Hlt)].
    + fold h1 in Heq. rewrite Heq. simpl. rewrite fupd_eq, Z.eqb_refl.
      assert (Hpe : put h0 i n = put h0 i n) by reflexivity.
      apply sink_ord; simpl; [lia|lia| |].
      * destruct Hoh as (Ho1 & Ho2).
        assert (Hq : forall x, fupd (arr h) i n x = arr h x).
        { intros x. unfold fupd. destruct (Nat.eqb_spec x i); congruence. }
        split; simpl; intros; rewrite !Hq; [apply Ho1|apply Ho2]; auto.
      * intros Hi0. simpl. pose proof (e_par_lt i Hi0).
        rewrite (fupd_neq (arr h)) by lia. apply Hab, Hi0.
    + fold h1 in Hod. destruct (Z.eqb_spec (idx h1 n) (Z.of_nat i)) as [He|He]; auto.
      (* the order already holds, sinking from the same slot keeps it *)
      assert (Hwh : wf_hole h1 i n E) by (apply Hopen; auto).
      assert (Han : arr h1 i = n).
      { destruct Hw1 as (Hg1 & Hg2). destruct (Hg2 n (proj2 (proj2 Hw))) as (jj & Hjj & Hx).
        destruct (Hg1 jj Hjj) as (Hy & _). rewrite Hx, He in Hy. assert (jj = i) by lia. congruence. }
      apply sink_ord; [lia|lia| |].
      * apply ord_open; auto using e_par_lt. lia.
      * intros Hp. pose proof (Hod i ltac:(lia)) as Hq. rewrite Han in Hq. exact Hq.
Qed.

Lemma set_idx_wf h n v E : ~ E n -> wf h E -> wf (set_idx h n v) E.
Proof.
  intros Hn (H1 & H2). split; simpl; auto.
  intros j Hj. destruct (H1 j Hj) as (Ha & Hb). split; auto.
  rewrite fupd_neq; auto. intros Heq. rewrite Heq in Hb. auto.
Qed.

(** Replacing slot [i] by the last element and sinking it. *)
Definition rm_at (h : heap) (n i : nat) : heap :=
  let m := Nat.pred (sz h) in
  set_idx (sink_loop m (arr h m) (put (set_sz h m) i (arr h m)) i) n (-1)%Z.

Lemma inv_slot h l n : inv h l -> In n (members l) ->
  exists i, i < sz h /\ arr h i = n /\ idx h n = Z.of_nat i.
Proof.
  intros (_ & _ & (H3a & H3b) & _) Hn. destruct (H3b n Hn) as (i & Hi & Ha).
  exists i. destruct (H3a i Hi) as (Hx & _). rewrite Ha in Hx. auto.
Qed.

Lemma rm_at_inv h l n i :
  inv h l -> In n (members l) -> i < sz h -> arr h i = n ->
  inv (rm_at h n i) (without n l) /\ (i = 0 -> ord e_par h -> ord e_par (rm_at h n i)).
Proof.
  intros Hinv Hn Hi Ha. pose proof Hinv as (H1 & H2 & (H3a & H3b) & H4 & H5).
  unfold rm_at. set (m := Nat.pred (sz h)). assert (Hm : sz h = S m) by lia.
  set (E := fun n' => In n' (members (without n l))).
  assert (HE : forall n', E n' <-> In n' (members l) /\ n' <> n) by (intros; apply without_members).
  assert (Hlen : m = length (without n l)).
  { pose proof (without_length n l H2 Hn). lia. }
  assert (Hinj : forall a b, a < sz h -> b < sz h -> arr h a = arr h b -> a = b).
  { intros a b Hla Hlb Hab. destruct (H3a a Hla) as (Hx & _). destruct (H3a b Hlb) as (Hy & _).
    rewrite Hab in Hx. lia. }
  set (h1 := put (set_sz h m) i (arr h m)).
  assert (Hcase : (i = m /\ sink_loop m (arr h m) h1 i = put h1 i (arr h m)) \/ i < m).
  { destruct (Nat.eq_dec i m) as [Him|Him]; [left|right; lia]. split; auto.
    subst i. destruct m as [|m']; cbn [sink_loop]; simpl sz;
    (destruct (Nat.ltb_spec (2 * m + 1) m) as [Hx|Hx]; [lia|]) || idtac.
    - reflexivity.
    - destruct (Nat.ltb_spec (2 * S m' + 1) (S m')); [lia|]. reflexivity. }
  assert (Hhole : i < m -> wf_hole h1 i (arr h m) E).
  { intros Him. split; [|split]; simpl.
    - intros j Hj Hne. rewrite (fupd_neq (arr h)) by auto.
      assert (Hjm : arr h j <> arr h m) by (intros Heq; apply Hinj in Heq; lia).
      rewrite fupd_neq by auto. destruct (H3a j ltac:(lia)) as (Hx & Hy).
      repeat split; auto. apply HE. split; auto.
      intros Heq. rewrite <- Ha in Heq. apply Hinj in Heq; lia.
    - intros n' Hn'. apply HE in Hn'. destruct Hn' as (Hx & Hy).
      destruct (H3b n' Hx) as (j & Hj & Hz).
      destruct (Nat.eq_dec j m) as [->|Hjm]; [now left|right].
      exists j. assert (j <> i) by (intros ->; congruence).
      rewrite fupd_neq by auto. repeat split; auto; lia.
    - apply HE. split; [apply H3a; lia|]. intros Heq. rewrite <- Ha in Heq. apply Hinj in Heq; lia. }
  assert (Hnm : i < m -> arr h m <> n) by (intros Him Heq; rewrite <- Ha in Heq; apply Hinj in Heq; lia).
  split.
  - split; [|split; [|split; [|split]]].
    + simpl. rewrite sink_sz. simpl. exact Hlen.
    + apply without_nodup, H2.
    + apply set_idx_wf; [intros Hx; apply HE in Hx; tauto|].
      destruct Hcase as [(Him & Heq)|Him].
      * rewrite Heq. split; simpl.
        -- intros j Hj. rewrite !(fupd_neq _ i _ j) by lia.
           assert (Hjm : arr h j <> arr h m) by (intros He; apply Hinj in He; lia).
           rewrite !fupd_neq by auto. destruct (H3a j ltac:(lia)) as (Hx & Hy). split; auto.
           apply HE. split; auto. intros He. rewrite <- Ha in He. apply Hinj in He; lia.
        -- intros n' Hn'. apply HE in Hn'. destruct Hn' as (Hx & Hy).
           destruct (H3b n' Hx) as (j & Hj & Hz). exists j.
           assert (j <> i) by (intros ->; congruence).
           rewrite !fupd_neq by auto. split; auto; lia.
      * apply sink_wf; simpl; try lia. apply Hhole, Him.
    + intros n' k' Hin. simpl. rewrite sink_key. simpl. apply without_in in Hin. apply H4, Hin.
    + intros n' Hn'. simpl. destruct (Nat.eq_dec n' n) as [->|Hne]; [rewrite fupd_eq; lia|].
      rewrite fupd_neq by auto.
      assert (Hnl : ~ In n' (members l)) by (intros Hx; apply Hn', HE; auto).
      assert (Hnm' : n' <> arr h m).
      { intros ->. apply Hnl. apply H3a. lia. }
      destruct Hcase as [(Him & Heq)|Him].
      * rewrite Heq. simpl. rewrite !fupd_neq by auto. apply H5, Hnl.
      * rewrite (sink_idx_out m (arr h m) h1 i E n'); [|simpl; lia|apply Hhole, Him|exact Hn'].
        simpl. rewrite fupd_neq by auto. apply H5, Hnl.
  - intros Hi0 Ho. intros j Hj. simpl in Hj. rewrite sink_sz in Hj. simpl in Hj.
    simpl. rewrite sink_key.
    assert (Hod : ord e_par (sink_loop m (arr h m) h1 i)).
    { apply sink_ord; simpl; try lia.
      - split; simpl.
        + intros x Hx Hx1 Hx2. rewrite !fupd_neq by auto. apply Ho. lia.
        + lia.
      - intros Hx. lia. }
    specialize (Hod j). rewrite sink_sz, sink_key in Hod. apply Hod. simpl. lia.
Qed.

Lemma e_remove_eq h l n : inv h l -> In n (members l) ->
  e_remove h n = rm_at h n (Z.to_nat (idx h n)).
Proof.
  intros Hinv Hn. destruct (inv_slot h l n Hinv Hn) as (i & Hi & Ha & Hx).
  unfold e_remove, rm_at, e_sink. rewrite Hx. rewrite (proj2 (Z.leb_le 0 (Z.of_nat i))) by lia.
  rewrite Nat2Z.id. cbv zeta. set (m := Nat.pred (sz h)). simpl.
  assert (Hidx : Z.to_nat (fupd (idx h) (arr h m) (Z.of_nat i) n) = i).
  { destruct (Nat.eq_dec n (arr h m)) as [->|Hne]; [rewrite fupd_eq|rewrite fupd_neq, Hx by auto]; lia. }
  rewrite Hidx, fupd_eq. reflexivity.
Qed.

Lemma e_remove_out h l n : inv h l -> ~ In n (members l) -> e_remove h n = h.
Proof.
  intros (_ & _ & _ & _ & H5) Hn. specialize (H5 n Hn). unfold e_remove.
  destruct (Z.leb_spec 0 (idx h n)); [lia|reflexivity].
Qed.

Lemma e_remove_inv h l n : inv h l -> inv (e_remove h n) (without n l).
Proof.
  intros Hinv. destruct (in_dec Nat.eq_dec n (members l)) as [Hn|Hn].
  - rewrite (e_remove_eq h l) by auto. destruct (inv_slot h l n Hinv Hn) as (i & Hi & Ha & Hx).
    rewrite Hx, Nat2Z.id. apply rm_at_inv; auto.
  - rewrite (e_remove_out h l), without_notin; auto.
Qed.

Lemma top_member h l : inv h l -> 0 < sz h -> In (arr h 0) (members l) /\ idx h (arr h 0) = 0%Z.
Proof. intros (_ & _ & (H3 & _) & _) Hs. destruct (H3 0 Hs). auto. Qed.

Lemma e_pop_inv h l n h' : inv h l -> e_pop h = (Some n, h') ->
  inv h' (without n l) /\ In n (members l) /\ (ord e_par h -> ord e_par h').
Proof.
  intros Hinv Hp. unfold e_pop in Hp. destruct (sz h) as [|m] eqn:Hs; [discriminate|].
  injection Hp as <- <-. destruct (top_member h l Hinv ltac:(lia)) as (Hm & Hx).
  split; [apply e_remove_inv; auto|]. split; [auto|].
  rewrite (e_remove_eq h l), Hx by auto. change (Z.to_nat 0) with 0.
  apply (rm_at_inv h l); auto; lia.
Qed.

Lemma o_pop_eq h l n h' : inv h l -> o_pop h = (Some n, h') -> h' = rm_at h n 0 /\ n = arr h 0 /\ 0 < sz h.
Proof.
  intros Hinv Hp. unfold o_pop in Hp. destruct (sz h) as [|m] eqn:Hs; [discriminate|].
  injection Hp as <- <-. unfold rm_at, o_sink. rewrite Hs. cbv zeta. simpl Nat.pred. simpl arr.
  rewrite !fupd_eq. simpl idx. rewrite fupd_eq. change (Z.to_nat (Z.of_nat 0)) with 0.
  split; [reflexivity|]. split; [reflexivity|lia].
Qed.

Lemma o_pop_inv h l n h' : inv h l -> o_pop h = (Some n, h') ->
  inv h' (without n l) /\ In n (members l).
Proof.
  intros Hinv Hp. destruct (o_pop_eq h l n h' Hinv Hp) as (-> & -> & Hs).
  destruct (top_member h l Hinv Hs) as (Hm & _). split; [|auto].
  apply rm_at_inv; auto.
Qed.

Lemma create_inv c : inv (create c) [].
Proof.
  split; [reflexivity|]. split; [constructor|]. split; [|split].
  - split; simpl; [lia|tauto].
  - simpl. tauto.
  - simpl. lia.
Qed.

Lemma e_insert_inv h l n k h' : inv h l -> ~ In n (members l) -> e_insert h n k = (0%Z, h') ->
  inv h' ((n, k) :: l) /\ (ord e_par h -> ord e_par h').
Proof.
  intros Hinv Hn. unfold e_insert. cbv zeta. simpl. destruct (Nat.eqb_spec (sz h) (cap h)); [discriminate|].
  intros Heq. injection Heq as <-. unfold e_float. simpl. rewrite fupd_eq.
  apply insert_inv; auto using e_par_lt.
Qed.

Lemma o_insert_inv h l n k h' : inv h l -> ~ In n (members l) -> o_insert h n k = (0%Z, h') ->
  inv h' ((n, k) :: l) /\ (ord o_par h -> ord o_par h').
Proof.
  intros Hinv Hn. unfold o_insert. cbv zeta. simpl. destruct (Nat.eqb_spec (sz h) (cap h)); [discriminate|].
  intros Heq. injection Heq as <-. unfold o_float. simpl. rewrite fupd_eq, Nat2Z.id.
  apply insert_inv; auto using o_par_lt. intros n' Hne. simpl. apply fupd_neq, Hne.
Qed.

Lemma e_full_inv h l n k h' : inv h l -> ~ In n (members l) -> e_insert h n k = (ENOMEM, h') ->
  inv h' l /\ (ord e_par h -> ord e_par h').
Proof.
  intros Hinv Hn. unfold e_insert. cbv zeta. simpl. destruct (Nat.eqb_spec (sz h) (cap h)); [|discriminate].
  intros Heq. injection Heq as <-. split; [apply set_key_inv; auto|].
  intros Ho j Hj. simpl in *. pose proof (e_par_lt j ltac:(lia)).
  destruct Hinv as (_ & _ & (H3 & _) & _).
  assert (Hf : forall x, x < sz h -> arr h x <> n)
    by (intros x Hx He; destruct (H3 x Hx) as (_ & Hy); rewrite He in Hy; auto).
  rewrite !fupd_neq by (apply Hf; lia). apply Ho, Hj.
Qed.

Lemma o_full_inv h l n k h' : inv h l -> ~ In n (members l) -> o_insert h n k = (ENOMEM, h') ->
  inv h' l /\ (ord o_par h -> ord o_par h').
Proof.
  intros Hinv Hn. unfold o_insert. cbv zeta. simpl. destruct (Nat.eqb_spec (sz h) (cap h)); [|discriminate].
  intros Heq. injection Heq as <-. split; [apply set_key_inv; auto|].
  intros Ho j Hj. simpl in *. pose proof (o_par_lt j ltac:(lia)).
  destruct Hinv as (_ & _ & (H3 & _) & _).
  assert (Hf : forall x, x < sz h -> arr h x <> n)
    by (intros x Hx He; destruct (H3 x Hx) as (_ & Hy); rewrite He in Hy; auto).
  rewrite !fupd_neq by (apply Hf; lia). apply Ho, Hj.
Qed.

Lemma e_update_inv h l n k : inv h l -> In n (members l) ->
  inv (e_update h n k) ((n, k) :: without n l) /\ (ord e_par h -> ord e_par (e_update h n k)).
Proof.
  intros Hinv Hn. destruct (inv_slot h l n Hinv Hn) as (i & Hi & Ha & Hx).
  pose proof (update_inv e_par h l n k (sz h) e_par_lt Hinv Hn) as Hu. cbv zeta in Hu.
  rewrite Hx, Nat2Z.id in Hu.
  unfold e_update, e_fix, e_float, e_sink. cbv zeta. rewrite Hx, Nat2Z.id. simpl arr. rewrite Ha.
  rewrite float_sz. simpl sz.
  specialize (Hu ltac:(lia)).
  match type of Hu with context [if ?b then _ else _] => destruct b eqn:Hb end.
  - assert (Hai : arr (float_loop e_par i n (set_key h n k) i) i = n).
    { apply Z.eqb_eq in Hb.
      assert (Hwf : wf (float_loop e_par i n (set_key h n k) i) (fun n' => In n' (members l))).
      { apply float_wf; auto using e_par_lt. destruct Hinv as (_ & _ & H3 & _).
        pose proof (wf_open (set_key h n k) _ i H3 Hi) as Hq. simpl in Hq. rewrite Ha in Hq. exact Hq. }
      destruct Hwf as (Hg1 & Hg2). destruct (Hg2 n Hn) as (jj & Hjj & Hz).
      destruct (Hg1 jj Hjj) as (Hy & _). rewrite Hz, Hb in Hy. assert (jj = i) by lia. congruence. }
    rewrite Hai. destruct Hu as (Hu1 & Hu2). split; auto.
  - destruct Hu as (Hu1 & Hu2). split; auto.
Qed.

Lemma o_update_inv h l n k : inv h l -> In n (members l) ->
  inv (o_update h n k) ((n, k) :: without n l).
Proof.
  intros Hinv Hn. destruct (inv_slot h l n Hinv Hn) as (i & Hi & Ha & Hx).
  pose proof (update_inv o_par h l n k (sz h) o_par_lt Hinv Hn) as Hu. cbv zeta in Hu.
  rewrite Hx, Nat2Z.id in Hu. specialize (Hu ltac:(lia)). destruct Hu as (Hu & _).
  unfold o_update, o_fix, o_float, o_sink. cbv zeta. simpl idx. rewrite Hx, Nat2Z.id.
  destruct (Z.eqb_spec (idx (float_loop o_par i n (set_key h n k) i) n) (Z.of_nat i)) as [He|He].
  - rewrite He, Nat2Z.id, float_sz. simpl sz. exact Hu.
  - exact Hu.
Qed.

Lemma e_reach_rm_inv h l : e_reach_rm h l -> inv h l.
Proof.
  induction 1 as [c|h l n k h' Hr IH Hn Hi|h l n k h' Hr IH Hn Hi|h l n h' Hr IH Hp|h l n k Hr IH Hn|h l n Hr IH].
  - apply create_inv.
  - eapply e_insert_inv; eauto.
  - eapply e_full_inv; eauto.
  - eapply e_pop_inv; eauto.
  - apply e_update_inv; auto.
  - apply e_remove_inv; auto.
Qed.

Lemma e_reach_inv h l : e_reach h l -> inv h l /\ ord e_par h.
Proof.
  induction 1 as [c|h l n k h' Hr IH Hn Hi|h l n k h' Hr IH Hn Hi|h l n h' Hr IH Hp|h l n k Hr IH Hn].
  - split; [apply create_inv|]. intros j Hj. simpl in Hj. lia.
  - destruct IH as (IH1 & IH2). destruct (e_insert_inv h l n k h'); auto.
  - destruct IH as (IH1 & IH2). destruct (e_full_inv h l n k h'); auto.
  - destruct IH as (IH1 & IH2). destruct (e_pop_inv h l n h') as (Ha & _ & Hb); auto.
  - destruct IH as (IH1 & IH2). destruct (e_update_inv h l n k); auto.
Qed.

Lemma o_reach_inv h l : o_reach h l -> inv h l.
Proof.
  induction 1 as [c|h l n k h' Hr IH Hn Hi|h l n k h' Hr IH Hn Hi|h l n h' Hr IH Hp|h l n k Hr IH Hn].
  - apply create_inv.
  - eapply o_insert_inv; eauto.
  - eapply o_full_inv; eauto.
  - eapply o_pop_inv; eauto.
  - apply o_update_inv; auto.
Qed.

Lemma o_reach_ins_inv h l : o_reach_ins h l -> inv h l /\ ord o_par h.
Proof.
  induction 1 as [c|h l n k h' Hr IH Hn Hi|h l n k h' Hr IH Hn Hi].
  - split; [apply create_inv|]. intros j Hj. simpl in Hj. lia.
  - destruct IH as (IH1 & IH2). destruct (o_insert_inv h l n k h'); auto.
  - destruct IH as (IH1 & IH2). destruct (o_full_inv h l n k h'); auto.
Qed.

Lemma ord_min par h : (forall j, 0 < j -> par j < j) -> ord par h ->
  forall j, j < sz h -> (key h (arr h 0) <= key h (arr h j))%Z.
Proof.
  intros Hpar Ho j. induction j as [j IH] using lt_wf_ind. intros Hj.
  destruct (Nat.eq_dec j 0) as [->|Hne]; [lia|].
  pose proof (Hpar j ltac:(lia)) as Hp. specialize (IH (par j) Hp ltac:(lia)).
  specialize (Ho j ltac:(lia)). lia.
Qed.

Lemma top_minimal par h l : (forall j, 0 < j -> par j < j) -> inv h l -> ord par h -> 0 < sz h ->
  minimal (arr h 0) l.
Proof.
  intros Hpar Hinv Ho Hs. destruct (top_member h l Hinv Hs) as (Hm & _).
  apply members_in in Hm. destruct Hm as (k & Hk). exists k. split; auto.
  intros n' k' Hin. destruct Hinv as (_ & _ & (H3a & H3b) & H4 & _).
  rewrite <- (H4 _ _ Hk), <- (H4 _ _ Hin).
  destruct (H3b n') as (j & Hj & Ha); [apply members_in; eauto|].
  rewrite <- Ha. apply (ord_min par); auto.
Qed.

Lemma e_pop_minimal h l n h' : e_reach h l -> e_pop h = (Some n, h') -> minimal n l.
Proof.
  intros Hr Hp. destruct (e_reach_inv h l Hr) as (Hi & Ho). unfold e_pop in Hp.
  destruct (sz h) eqn:Hs; [discriminate|]. injection Hp as <- <-.
  apply (top_minimal e_par); auto using e_par_lt. lia.
Qed.
Lemma e_pop_none h l h' : e_reach h l -> e_pop h = (None, h') -> l = [].
Proof.
  intros Hr Hp. destruct (e_reach_inv h l Hr) as ((Hl & _) & _). unfold e_pop in Hp.
  destruct (sz h) eqn:Hs; [|discriminate]. destruct l; [reflexivity|discriminate].
Qed.
Lemma e_top_minimal h l n : e_reach h l -> e_top h = Some n -> minimal n l.
Proof.
  intros Hr Hp. destruct (e_reach_inv h l Hr) as (Hi & Ho). unfold e_top in Hp.
  destruct (sz h) eqn:Hs; [discriminate|]. injection Hp as <-.
  apply (top_minimal e_par); auto using e_par_lt. lia.
Qed.
Lemma o_top_minimal h l n : o_reach_ins h l -> o_top h = Some n -> minimal n l.
Proof.
  intros Hr Hp. destruct (o_reach_ins_inv h l Hr) as (Hi & Ho). unfold o_top in Hp.
  destruct (sz h) eqn:Hs; [discriminate|]. injection Hp as <-.
  apply (top_minimal o_par); auto using o_par_lt. lia.
Qed.

Lemma e_pop_some h : sz h <> 0 -> e_pop h = (Some (arr h 0), snd (e_pop h)).
Proof. unfold e_pop. destruct (sz h); [congruence|reflexivity]. Qed.
Lemma o_pop_some h : sz h <> 0 -> o_pop h = (Some (arr h 0), snd (o_pop h)).
Proof. unfold o_pop. destruct (sz h); [congruence|reflexivity]. Qed.
Lemma e_insert_ok h n k : sz h <> cap h -> e_insert h n k = (0%Z, snd (e_insert h n k)).
Proof. unfold e_insert. cbv zeta. simpl. destruct (Nat.eqb_spec (sz h) (cap h)); [congruence|reflexivity]. Qed.
Lemma o_insert_ok h n k : sz h <> cap h -> o_insert h n k = (0%Z, snd (o_insert h n k)).
Proof. unfold o_insert. cbv zeta. simpl. destruct (Nat.eqb_spec (sz h) (cap h)); [congruence|reflexivity]. Qed.

(** Histories without removals seen as histories with them. *)
Lemma e_reach_sub h l : e_reach h l -> e_reach_rm h l.
Proof. induction 1; eauto using e_reach_rm. Qed.

(** Executable histories, to exhibit reachable states. *)
Inductive act := Ins (n : nat) (k : Z) | Pop | Upd (n : nat) (k : Z) | Rm (n : nat).
Definition e_act (s : heap * bag) (a : act) : heap * bag :=
  let (h, l) := s in
  match a with
  | Ins n k => (snd (e_insert h n k), (n, k) :: l)
  | Pop => match e_pop h with (Some n, h') => (h', without n l) | (None, h') => (h', l) end
  | Upd n k => (e_update h n k, (n, k) :: without n l)
  | Rm n => (e_remove h n, without n l)
  end.
Definition o_act (s : heap * bag) (a : act) : heap * bag :=
  let (h, l) := s in
  match a with
  | Ins n k => (snd (o_insert h n k), (n, k) :: l)
  | Pop => match o_pop h with (Some n, h') => (h', without n l) | (None, h') => (h', l) end
  | Upd n k => (o_update h n k, (n, k) :: without n l)
  | Rm n => (o_remove h n, without n l)
  end.
(** Side conditions of a step, decidable. *)
Definition memb (n : nat) (l : bag) : bool := existsb (Nat.eqb n) (members l).
Definition fits (s : heap * bag) (a : act) : bool :=
  match a with
  | Ins n _ => negb (memb n (snd s)) && negb (Nat.eqb (sz (fst s)) (cap (fst s)))
  | Pop => negb (Nat.eqb (sz (fst s)) 0)
  | Upd n _ => memb n (snd s)
  | Rm n => memb n (snd s)
  end.
Fixpoint all_fit (st : heap * bag -> act -> heap * bag) (s : heap * bag) (w : list act) : bool :=
  match w with [] => true | a :: w' => fits s a && all_fit st (st s a) w' end.

Lemma memb_in n l : memb n l = true <-> In n (members l).
Proof.
  unfold memb. rewrite existsb_exists. split.
  - intros (x & Hx & He). apply Nat.eqb_eq in He. congruence.
  - intros Hin. exists n. rewrite Nat.eqb_refl. auto.
Qed.
Lemma memb_notin n l : negb (memb n l) = true -> ~ In n (members l).
Proof. intros H Hin. apply memb_in in Hin. rewrite Hin in H. discriminate. Qed.

Lemma e_run_reach w s : all_fit e_act s w = true -> e_reach_rm (fst s) (snd s) ->
  let r := fold_left e_act w s in e_reach_rm (fst r) (snd r).
Proof.
  revert s. induction w as [|a w IH]; intros s Hf Hr; [exact Hr|].
  cbn [fold_left]. cbn [all_fit] in Hf. apply andb_true_iff in Hf. destruct Hf as (Ha & Hf).
  apply IH; [exact Hf|]. destruct s as (h, l). cbn [fst snd] in *.
  destruct a as [n k| |n k|n]; cbn [e_act fits fst snd] in *.
  - apply andb_true_iff in Ha. destruct Ha as (Ha & Hb). apply memb_notin in Ha.
    apply (em_insert h l n k); auto.
    unfold e_insert in *. cbv zeta in *. simpl sz. simpl cap.
    destruct (Nat.eqb (sz h) (cap h)); [discriminate|reflexivity].
  - destruct (e_pop h) as (o, h') eqn:Hp. destruct o as [n|]; cbn [fst snd].
    + apply (em_pop h l n h'); auto.
    + unfold e_pop in Hp. destruct (sz h); [discriminate|discriminate].
  - apply em_update; auto. apply memb_in, Ha.
  - apply em_remove; auto.
Qed.

Lemma o_run_reach w s : all_fit o_act s w = true -> o_reach_rm (fst s) (snd s) ->
  let r := fold_left o_act w s in o_reach_rm (fst r) (snd r).
Proof.
  revert s. induction w as [|a w IH]; intros s Hf Hr; [exact Hr|].
  cbn [fold_left]. cbn [all_fit] in Hf. apply andb_true_iff in Hf. destruct Hf as (Ha & Hf).
  apply IH; [exact Hf|]. destruct s as (h, l). cbn [fst snd] in *.
  destruct a as [n k| |n k|n]; cbn [o_act fits fst snd] in *.
  - apply andb_true_iff in Ha. destruct Ha as (Ha & Hb). apply memb_notin in Ha.
    apply (om_insert h l n k); auto.
    unfold o_insert in *. cbv zeta in *. simpl sz. simpl cap.
    destruct (Nat.eqb (sz h) (cap h)); [discriminate|reflexivity].
  - destruct (o_pop h) as (o, h') eqn:Hp. destruct o as [n|]; cbn [fst snd].
    + apply (om_pop h l n h'); auto.
    + unfold o_pop in Hp. destruct (sz h); [discriminate|discriminate].
  - apply om_update; auto. apply memb_in, Ha.
  - apply om_remove; auto. apply memb_in, Ha.
Qed.

