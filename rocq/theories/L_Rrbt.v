(** The relocatable tree behaves as the tree of offsets. *)
From Verif Require Export S_Rrbt L_RbtTop.
From Coq Require Import ZifyBool ZifyNat ZifyN.
Local Open Scope N_scope.

(** rrbt_ins after the node has been cleared *)
Definition rins_rest (base : N) (cmp : N -> N -> Z) (fuel : nat) (x : N) : prog unit :=
  r <- get_root ;;
  if r =? 0 then
    set_parent x 0 ;;; set_color x Black ;;; set_root (off base x) ;;; rrbt_verify base fuel
  else
    set_color x Red ;;;
    pc <- rins_descend base cmp fuel x (ptr base r) 0 0 ;;
    let '(par, c) := pc in
    assert_ (negb (par =? 0)) ;;;
    set_parent x (off base par) ;;;
    (if (0 <? c)%Z then rset_left par (off base x) else set_right par (off base x)) ;;;
    rins_fix base fuel x ;;;
    r <- get_root ;; set_color (ptr base r) Black ;;;
    rrbt_verify base fuel.
Definition oins_rest (cmp : N -> N -> Z) (fuel : nat) (x : N) : prog unit :=
  r <- get_root ;;
  if r =? 0 then
    set_parent x 0 ;;; set_color x Black ;;; set_root x ;;; gverify fuel
  else
    set_color x Red ;;;
    pc <- ins_descend cmp fuel x r 0 0 ;;
    let '(par, c) := pc in
    assert_ (negb (par =? 0)) ;;;
    set_parent x par ;;;
    (if (0 <? c)%Z then set_left par x else set_right par x) ;;;
    gins_fix true fuel x ;;;
    r <- get_root ;; set_color r Black ;;;
    gverify fuel.
Lemma rrbt_ins_split base cmp fuel x :
  rrbt_ins base cmp fuel x = rrbt_verify base fuel ;;; set_parent x 0 ;;; set_right x 0 ;;; rset_left x 0 ;;; rins_rest base cmp fuel x.
Proof. reflexivity. Qed.
Lemma oins_split cmp fuel x s :
  grbt_ins true cmp fuel x s = (gverify fuel ;;; set_parent x 0 ;;; set_right x 0 ;;; set_left x 0 ;;; oins_rest cmp fuel x) s.
Proof.
  unfold grbt_ins, gins_core, oins_rest. unfold bind.
  destruct (gverify fuel s) as [[? s1]|]; [|reflexivity].
  destruct (set_parent x 0 s1) as [[? s2]|]; [|reflexivity].
  destruct (set_right x 0 s2) as [[? s3]|]; [|reflexivity].
  destruct (set_left x 0 s3) as [[? s4]|]; [|reflexivity]. cbn [get_root].
  destruct (root s4 =? 0).
  - destruct (set_parent x 0 s4) as [[? s5]|]; [|reflexivity].
    destruct (set_color x Black s5) as [[? s6]|]; [|reflexivity]. reflexivity.
  - destruct (set_color x Red s4) as [[? s5]|]; [|reflexivity].
    destruct (ins_descend cmp fuel x (root s4) 0 0 s5) as [[[par c] s6]|]; [|reflexivity].
    destruct (assert_ (negb (par =? 0)) s6) as [[? s7]|]; [|reflexivity].
    destruct (set_parent x par s7) as [[? s8]|]; [|reflexivity].
    destruct ((if (0 <? c)%Z then set_left par x else set_right par x) s8) as [[? s9]|]; [|reflexivity].
    destruct (gins_fix true fuel x s9) as [[? s10]|]; [|reflexivity]. reflexivity.
Qed.

Section Sim.
Variables (base size : N) (T : N -> Prop) (F : N -> option node).
Hypothesis Hreg : region base size.
Hypothesis HT : forall o, T o -> 0 < o < size.

Definition T0 (o : N) : Prop := o = 0 \/ T o.
Record rel (s s' : st) : Prop := mkRel {
  rel_root : root s = root s'; rel_rootT : T0 (root s);
  rel_heap : forall o, T o -> heap s (base + o) = heap s' o;
  rel_nodes : forall o n, T o -> heap s' o = Some n -> T0 (left n) /\ T0 (right n) /\ T0 (parent n);
  rel_frame : forall a, (forall o, T o -> a <> base + o) -> heap s a = F a }.
Definition sim {A A'} (R : A -> A' -> Prop) (m : prog A) (m' : prog A') : Prop :=
  forall s s', rel s s' ->
  match m s, m' s' with
  | Some (a, s1), Some (a', s1') => R a a' /\ rel s1 s1'
  | None, None => True
  | _, _ => False
  end.

Lemma T0_lt o : T0 o -> o = 0 \/ 0 < o < size.
Proof. intros [->|H]; [now left|right; now apply HT]. Qed.
Lemma ptr_pos o : T o -> ptr base o = base + o.
Proof.
  intros H. apply HT in H. unfold ptr. rewrite (proj2 (N.eqb_neq o 0)) by lia. apply N.mod_small.
  destruct Hreg. lia.
Qed.
Lemma ptr_0 : ptr base 0 = 0. Proof. reflexivity. Qed.
Lemma ptr_eq0 o : T0 o -> (ptr base o =? 0) = (o =? 0).
Proof.
  intros [->|H]; [reflexivity|]. rewrite (ptr_pos o H). apply HT in H.
  rewrite (proj2 (N.eqb_neq o 0)) by lia. apply N.eqb_neq. lia.
Qed.
Lemma off_ptr o : T0 o -> off base (ptr base o) = o.
Proof.
  intros [->|H]; [reflexivity|]. unfold off. rewrite (ptr_eq0 o) by (now right). rewrite (ptr_pos o H). apply HT in H.
  rewrite (proj2 (N.eqb_neq o 0)) by lia. destruct Hreg as [R1 R2].
  replace (base + o + (W64 - base)) with (o + 1 * W64) by lia.
  rewrite N.mod_add by discriminate. apply N.mod_small. lia.
Qed.
Lemma ptr_eq a b : T0 a -> T0 b -> (ptr base a =? ptr base b) = (a =? b).
Proof.
  intros Ha Hb. destruct (N.eqb_spec a b) as [->|Hne]; [apply N.eqb_refl|]. apply N.eqb_neq. intros E. apply Hne.
  rewrite <- (off_ptr a Ha), <- (off_ptr b Hb). now rewrite E.
Qed.
Lemma T0_63 o : T0 o -> o mod W63 = o.
Proof. intros H. apply N.mod_small. apply T0_lt in H. destruct Hreg. unfold W63 in *. lia. Qed.
Lemma T0_0 : T0 0. Proof. now left. Qed.

(** ** Combinators *)
Lemma sim_bind {A A' B B'} (R : A -> A' -> Prop) (Q : B -> B' -> Prop) m m' k k' :
  sim R m m' -> (forall a a', R a a' -> sim Q (k a) (k' a')) -> sim Q (bind m k) (bind m' k').
Proof.
  intros Hm Hk s s' Hs. specialize (Hm s s' Hs). unfold bind.
  destruct (m s) as [[a s1]|], (m' s') as [[a' s1']|]; try contradiction; [|exact I].
  destruct Hm as [Ha H1]. exact (Hk a a' Ha s1 s1' H1).
Qed.
Lemma sim_ret {A A'} (R : A -> A' -> Prop) a a' : R a a' -> sim R (ret a) (ret a').
Proof. intros H s s' Hs. now split. Qed.
Lemma sim_fail {A A'} (R : A -> A' -> Prop) : sim R fail fail.
Proof. intros s s' Hs. exact I. Qed.
Lemma sim_assert b : sim eq (assert_ b) (assert_ b).
Proof. destruct b; [now apply sim_ret|apply sim_fail]. Qed.
Lemma sim_if {A A'} (R : A -> A' -> Prop) (b : bool) m1 m2 m1' m2' :
  sim R m1 m1' -> sim R m2 m2' -> sim R (if b then m1 else m2) (if b then m1' else m2').
Proof. now destruct b. Qed.
Lemma sim_weak {A A'} (R R' : A -> A' -> Prop) m m' : (forall a a', R a a' -> R' a a') -> sim R m m' -> sim R' m m'.
Proof.
  intros H Hm s s' Hs. specialize (Hm s s' Hs).
  destruct (m s) as [[a s1]|], (m' s') as [[a' s1']|]; try contradiction; [|exact I]. destruct Hm. split; auto.
Qed.

(** Offsets and pointers *)
Definition Ro (a b : N) : Prop := a = b /\ T0 b.
Definition Rp (p o : N) : Prop := p = ptr base o /\ T0 o.
Definition Rn (a b : node) : Prop := a = b /\ T0 (left b) /\ T0 (right b) /\ T0 (parent b).

Lemma sim_load o : T0 o -> sim Rn (load (ptr base o)) (load o).
Proof.
  intros Ho s s' Hs. unfold load. rewrite (ptr_eq0 o Ho). destruct (N.eqb_spec o 0) as [->|Hne]; [exact I|].
  destruct Ho as [->|Ho]; [congruence|]. rewrite (ptr_pos o Ho), (rel_heap _ _ Hs o Ho).
  destruct (heap s' o) as [n|] eqn:E; [|exact I]. split; [|exact Hs]. split; [reflexivity|].
  exact (rel_nodes _ _ Hs o n Ho E).
Qed.
Lemma sim_store o f : T0 o ->
  (forall n, T0 (left n) -> T0 (right n) -> T0 (parent n) -> T0 (left (f n)) /\ T0 (right (f n)) /\ T0 (parent (f n))) ->
  sim eq (store (ptr base o) f) (store o f).
Proof.
  intros Ho Hf s s' Hs. unfold store. rewrite (ptr_eq0 o Ho). destruct (N.eqb_spec o 0) as [->|Hne]; [exact I|].
  destruct Ho as [->|Ho]; [congruence|]. rewrite (ptr_pos o Ho), (rel_heap _ _ Hs o Ho).
  destruct (heap s' o) as [n|] eqn:E; [|exact I]. split; [reflexivity|]. destruct Hs as [R1 R2 R3 R4 R5].
  constructor; cbn [root heap]; [exact R1|exact R2| | |]; unfold upd.
  - intros o2 Ho2. replace (base + o2 =? base + o) with (o2 =? o) by lia. destruct (o2 =? o); [reflexivity|now apply R3].
  - intros o2 n2 Ho2. destruct (N.eqb_spec o2 o) as [->|_].
    + injection 1 as <-. destruct (R4 o n Ho E) as (H1 & H2 & H3). now apply Hf.
    + now apply R4.
  - intros a Ha. rewrite (proj2 (N.eqb_neq a (base + o)) (Ha o Ho)). now apply R5.
Qed.
Lemma sim_get {B B'} (R : B -> B' -> Prop) o (f : node -> B) (f' : node -> B') : T0 o ->
  (forall n, T0 (left n) -> T0 (right n) -> T0 (parent n) -> R (f n) (f' n)) ->
  sim R (bind (load (ptr base o)) (fun n => ret (f n))) (bind (load o) (fun n => ret (f' n))).
Proof.
  intros Ho H. eapply sim_bind; [now apply sim_load|]. intros a n (-> & H1 & H2 & H3). apply sim_ret. now apply H.
Qed.
Lemma sim_left o : T0 o -> sim Ro (get_left (ptr base o)) (get_left o).
Proof. intros Ho. apply sim_get; [exact Ho|]. now split. Qed.
Lemma sim_right o : T0 o -> sim Ro (get_right (ptr base o)) (get_right o).
Proof. intros Ho. apply sim_get; [exact Ho|]. now split. Qed.
Lemma sim_parent o : T0 o -> sim Ro (get_parent (ptr base o)) (get_parent o).
Proof. intros Ho. apply sim_get; [exact Ho|]. now split. Qed.
Lemma sim_key o : T0 o -> sim eq (get_key (ptr base o)) (get_key o).
Proof. intros Ho. apply sim_get; [exact Ho|]. reflexivity. Qed.
Lemma sim_color o : T0 o -> sim eq (get_color (ptr base o)) (get_color o).
Proof. intros Ho. apply sim_get; [exact Ho|]. reflexivity. Qed.
Lemma sim_set_left o v : T0 o -> T0 v -> sim eq (rset_left (ptr base o) v) (set_left o v).
Proof. intros Ho Hv. unfold rset_left. rewrite (T0_63 v Hv). apply sim_store; [exact Ho|]. intros n. cbn. auto. Qed.
Lemma sim_set_right o v : T0 o -> T0 v -> sim eq (set_right (ptr base o) v) (set_right o v).
Proof. intros Ho Hv. apply sim_store; [exact Ho|]. intros n. cbn. auto. Qed.
Lemma sim_set_parent o v : T0 o -> T0 v -> sim eq (set_parent (ptr base o) v) (set_parent o v).
Proof. intros Ho Hv. apply sim_store; [exact Ho|]. intros n. cbn. auto. Qed.
Lemma sim_set_color o c : T0 o -> sim eq (set_color (ptr base o) c) (set_color o c).
Proof. intros Ho. apply sim_store; [exact Ho|]. intros n. cbn. auto. Qed.
Lemma sim_get_root : sim Ro get_root get_root.
Proof. intros s s' Hs. split; [|exact Hs]. destruct Hs. unfold Ro. rewrite <- rel_root0. now split. Qed.
Lemma sim_set_root v : T0 v -> sim eq (set_root v) (set_root v).
Proof. intros Hv s s' Hs. split; [reflexivity|]. destruct Hs. constructor; cbn [root heap]; auto. Qed.
Lemma sim_is_red o : T0 o -> sim eq (is_red (ptr base o)) (is_red o).
Proof.
  intros Ho. unfold is_red. rewrite (ptr_eq0 o Ho). apply sim_if; [now apply sim_ret|].
  eapply sim_bind; [now apply sim_color|]. intros a ? ->. now apply sim_ret.
Qed.
Lemma sim_node_color o : T0 o -> sim eq (node_color (ptr base o)) (node_color o).
Proof. intros Ho. unfold node_color. rewrite (ptr_eq0 o Ho). apply sim_if; [now apply sim_ret|now apply sim_color]. Qed.

Ltac t0 := solve [exact T0_0 | eassumption | (match goal with |- T0 (if ?b then _ else _) => destruct b; assumption end)].
Ltac norm :=
  repeat first
    [ rewrite ptr_eq0 by t0 | rewrite ptr_eq by t0 | rewrite off_ptr by t0
    | change (off base 0) with 0 | change (ptr base 0) with 0 ].
Ltac unrel :=
  match goal with
  | H : Ro ?a ?b |- _ => destruct H as [-> ?]
  | H : Rp ?a ?b |- _ => destruct H as [-> ?]
  | H : Rn ?a ?b |- _ => destruct H as (-> & ? & ? & ?)
  | H : _ = _ :> unit |- _ => clear H
  | H : ?a = ?b :> Z |- _ => subst a
  | H : ?a = ?b :> N |- _ => subst a
  | H : ?a = ?b :> bool |- _ => subst a
  | H : ?a = ?b :> color |- _ => subst a
  end.
Create HintDb sims.
Ltac sims :=
  norm;
  lazymatch goal with
  | |- sim _ (bind (if _ then bind (_ base _) _ else _) _) _ =>
    eapply (sim_bind Rp); [solve [sims]|intros ? ? ?; repeat unrel; cbv zeta beta; sims]
  | |- sim _ (bind _ _) (bind _ _) => eapply sim_bind; [solve [sims]|intros ? ? ?; repeat unrel; cbv zeta beta; sims]
  | |- sim _ (if ?b then _ else _) (if ?b then _ else _) => apply sim_if; sims
  | |- sim _ (ret _) (ret _) => apply sim_ret; try first [reflexivity | (split; [reflexivity|t0])]
  | |- sim _ fail fail => apply sim_fail
  | |- sim _ (assert_ _) (assert_ _) => apply sim_assert
  | |- sim _ (load _) (load _) => apply sim_load; t0
  | |- sim _ (get_left _) _ => apply sim_left; t0
  | |- sim _ (get_right _) _ => apply sim_right; t0
  | |- sim _ (get_parent _) _ => apply sim_parent; t0
  | |- sim _ (get_key _) _ => apply sim_key; t0
  | |- sim _ (get_color _) _ => apply sim_color; t0
  | |- sim _ (rset_left _ _) _ => apply sim_set_left; t0
  | |- sim _ (set_right _ _) _ => apply sim_set_right; t0
  | |- sim _ (set_parent _ _) _ => apply sim_set_parent; t0
  | |- sim _ (set_color _ _) _ => apply sim_set_color; t0
  | |- sim _ get_root _ => apply sim_get_root
  | |- sim _ (set_root _) _ => apply sim_set_root; t0
  | |- sim _ (is_red _) _ => apply sim_is_red; t0
  | |- sim _ (node_color _) _ => apply sim_node_color; t0
  | |- sim _ _ _ => try solve [auto 3 with sims]
  end.

Lemma sim_rotate_left o : T0 o -> sim eq (rrotate_left base (ptr base o)) (grotate_left true o).
Proof. intros Ho. unfold rrotate_left, grotate_left. sims. Qed.
Lemma sim_rotate_right o : T0 o -> sim eq (rrotate_right base (ptr base o)) (grotate_right true o).
Proof. intros Ho. unfold rrotate_right, grotate_right. sims. Qed.
Local Hint Resolve sim_rotate_left sim_rotate_right : sims.

Lemma sim_verify1 fuel : forall o, T0 o -> sim eq (verify1 base fuel (ptr base o)) (gverify1 fuel o).
Proof. induction fuel as [|fuel IH]; intros o Ho; cbn [verify1 gverify1]; sims. Qed.
Lemma sim_verify2 o : T0 o -> sim eq (verify2 (ptr base o)) (gverify2 o).
Proof. intros Ho. unfold verify2, gverify2. sims. Qed.
Lemma sim_verify4 fuel : forall o, T0 o -> sim eq (verify4 base fuel (ptr base o)) (gverify4 fuel o).
Proof. induction fuel as [|fuel IH]; intros o Ho; cbn [verify4 gverify4]; sims. Qed.
Lemma sim_verify5 fuel : forall o c p, T0 o -> sim eq (verify5 base fuel (ptr base o) c p) (gverify5 fuel o c p).
Proof. induction fuel as [|fuel IH]; intros o c p Ho; cbn [verify5 gverify5]; sims. Qed.
Local Hint Resolve sim_verify1 sim_verify2 sim_verify4 sim_verify5 : sims.
Lemma sim_verify fuel : sim eq (rrbt_verify base fuel) (gverify fuel).
Proof. unfold rrbt_verify, gverify. sims. Qed.
Local Hint Resolve sim_verify : sims.

Section Cmp.
Variable cmp : N -> N -> Z.
Lemma sim_descend fuel : forall x o p c, T0 x -> T0 o -> T0 p ->
  sim (fun a b => Rp (fst a) (fst b) /\ snd a = snd b) (rins_descend base cmp fuel (ptr base x) (ptr base o) (ptr base p) c) (ins_descend cmp fuel x o p c).
Proof.
  induction fuel as [|fuel IH]; intros x o p c Hx Ho Hp; cbn [rins_descend ins_descend]; sims; cbn.
  repeat split; assumption.
Qed.
Lemma sim_ins_fix fuel : forall o, T0 o -> sim eq (rins_fix base fuel (ptr base o)) (gins_fix true fuel o).
Proof.
  induction fuel as [|fuel IH]; intros o Ho; cbn [rins_fix gins_fix]; sims.
Qed.
Local Hint Resolve sim_ins_fix : sims.
Lemma sim_ins_rest fuel o : T0 o -> sim eq (rins_rest base cmp fuel (ptr base o)) (oins_rest cmp fuel o).
Proof.
  intros Ho. unfold rins_rest, oins_rest. eapply sim_bind; [sims|]. intros ? ? ?; repeat unrel. apply sim_if; [sims|].
  eapply sim_bind; [sims|]. intros _ _ _. eapply sim_bind; [apply (sim_descend fuel o a' 0 0%Z); first [assumption|exact T0_0]|].
  intros [q c] [q' c'] [H1 H2]; cbn [fst snd] in *; repeat unrel. sims.
Qed.
Lemma sim_glb fuel : forall o k g, T0 o -> T0 g -> sim Rp (rglb_loop base cmp fuel (ptr base o) k (ptr base g)) (glb_loop cmp fuel o k g).
Proof. induction fuel as [|fuel IH]; intros o k g Ho Hg; cbn [rglb_loop glb_loop]; sims. Qed.
Lemma sim_lub fuel : forall o k g, T0 o -> T0 g -> sim Rp (rlub_loop base cmp fuel (ptr base o) k (ptr base g)) (lub_loop cmp fuel o k g).
Proof. induction fuel as [|fuel IH]; intros o k g Ho Hg; cbn [rlub_loop lub_loop]; sims. Qed.
Lemma sim_find fuel : forall o k, T0 o -> sim Rp (rfind_loop base cmp fuel (ptr base o) k) (find_loop cmp fuel o k).
Proof.
  induction fuel as [|fuel IH]; intros o k Ho; cbn [rfind_loop find_loop]; sims.
Qed.
Lemma sim_rrbt_find fuel k : sim Rp (rrbt_find base cmp fuel k) (rbt_find cmp fuel k).
Proof. unfold rrbt_find, rbt_find. eapply sim_bind; [sims|]. intros ? ? ?; repeat unrel. now apply sim_find. Qed.
Lemma sim_rrbt_glb fuel k : sim Rp (rrbt_find_glb base cmp fuel k) (rbt_find_glb cmp fuel k).
Proof. unfold rrbt_find_glb, rbt_find_glb. eapply sim_bind; [sims|]. intros ? ? ?; repeat unrel. apply (sim_glb fuel _ k 0); [assumption|apply T0_0]. Qed.
Lemma sim_rrbt_lub fuel k : sim Rp (rrbt_find_lub base cmp fuel k) (rbt_find_lub cmp fuel k).
Proof. unfold rrbt_find_lub, rbt_find_lub. eapply sim_bind; [sims|]. intros ? ? ?; repeat unrel. apply (sim_lub fuel _ k 0); [assumption|apply T0_0]. Qed.
End Cmp.

Lemma sim_min fuel : forall o, T0 o -> sim Rp (rrbn_min base fuel (ptr base o)) (rbn_min fuel o).
Proof. induction fuel as [|fuel IH]; intros o Ho; cbn [rrbn_min rbn_min]; sims. Qed.
Lemma sim_max fuel : forall o, T0 o -> sim Rp (rrbn_max base fuel (ptr base o)) (rbn_max fuel o).
Proof. induction fuel as [|fuel IH]; intros o Ho; cbn [rrbn_max rbn_max]; sims. Qed.
Lemma sim_rrbt_min fuel : sim Rp (rrbt_min base fuel) (rbt_min fuel).
Proof. unfold rrbt_min, rbt_min. eapply sim_bind; [sims|]. intros ? ? ?; repeat unrel. now apply sim_min. Qed.
Lemma sim_rrbt_max fuel : sim Rp (rrbt_max base fuel) (rbt_max fuel).
Proof. unfold rrbt_max, rbt_max. eapply sim_bind; [sims|]. intros ? ? ?; repeat unrel. now apply sim_max. Qed.
Lemma sim_succ_up fuel : forall o, T0 o -> sim Rp (rsucc_up base fuel (ptr base o)) (succ_up fuel o).
Proof. induction fuel as [|fuel IH]; intros o Ho; cbn [rsucc_up succ_up]; sims. Qed.
Lemma sim_pred_up fuel : forall o, T0 o -> sim Rp (rpred_up base fuel (ptr base o)) (pred_up fuel o).
Proof. induction fuel as [|fuel IH]; intros o Ho; cbn [rpred_up pred_up]; sims. Qed.
Lemma Rp_0 : Rp 0 0. Proof. split; [reflexivity|apply T0_0]. Qed.
Local Hint Resolve sim_min sim_max sim_succ_up sim_pred_up : sims.
Lemma sim_succ fuel o : T0 o -> sim Rp (rrbn_succ base fuel (ptr base o)) (rbn_succ fuel o).
Proof. intros Ho. unfold rrbn_succ, rbn_succ. sims. Qed.
Lemma sim_pred fuel o : T0 o -> sim Rp (rrbn_pred base fuel (ptr base o)) (rbn_pred fuel o).
Proof. intros Ho. unfold rrbn_pred, rbn_pred. sims. Qed.
Lemma sim_gle o : T0 o -> sim Rp (rrbt_greatest_lt_or_eq base (ptr base o)) (rbt_greatest_lt_or_eq o).
Proof. intros Ho. unfold rrbt_greatest_lt_or_eq, rbt_greatest_lt_or_eq. sims. Qed.
Lemma sim_lge o : T0 o -> sim Rp (rrbt_least_gt_or_eq base (ptr base o)) (rbt_least_gt_or_eq o).
Proof. intros Ho. unfold rrbt_least_gt_or_eq, rbt_least_gt_or_eq. sims. Qed.

Definition mlog : list (N * N) -> list (N * N) := map (fun e => (ptr base (fst e), snd e)).
Lemma sim_traverse_sub f fuel : forall o lv log, T0 o ->
  sim (fun a b => fst a = fst b /\ snd a = mlog (snd b))
    (rtraverse_sub base fuel f (ptr base o) lv (mlog log)) (traverse_sub fuel (fun l => f (mlog l)) o lv log).
Proof.
  induction fuel as [|fuel IH]; intros o lv log Ho; cbn [rtraverse_sub traverse_sub]; [apply sim_fail|]. norm.
  apply sim_if; [apply sim_ret; now split|].
  eapply sim_bind; [sims|]. intros ? l ?; repeat unrel. eapply sim_bind; [apply IH; assumption|].
  intros [rc lg] [rc' lg'] [H1 H2]; cbn [fst snd] in *; subst.
  apply sim_if; [apply sim_ret; now split|].
  replace (mlog lg' ++ [(ptr base o, lv)]) with (mlog (lg' ++ [(o, lv)])) by (unfold mlog; now rewrite map_app).
  apply sim_if; [apply sim_ret; now split|].
  eapply sim_bind; [sims|]. intros ? r ?; repeat unrel. now apply IH.
Qed.
Lemma sim_traverse f fuel :
  sim (fun a b => fst a = fst b /\ snd a = mlog (snd b)) (rrbt_traverse base fuel f) (rbt_traverse fuel (fun l => f (mlog l))).
Proof.
  unfold rrbt_traverse, rbt_traverse. eapply sim_bind; [sims|]. intros ? ? ?; repeat unrel.
  apply sim_if; [apply sim_ret; now split|]. now apply (sim_traverse_sub f fuel a' 0 []).
Qed.

Lemma sim_find_pred_loop fuel : forall o, T0 o -> sim Rp (rfind_pred_loop base fuel (ptr base o)) (find_pred_loop fuel o).
Proof. induction fuel as [|fuel IH]; intros o Ho; cbn [rfind_pred_loop find_pred_loop]; sims. Qed.
Local Hint Resolve sim_find_pred_loop : sims.
Lemma sim_find_pred fuel o : T0 o -> sim Rp (rfind_pred base fuel (ptr base o)) (find_pred fuel o).
Proof. intros Ho. unfold rfind_pred, find_pred. sims. Qed.
Lemma sim_sibling o : T0 o -> sim Rp (rsibling base (ptr base o)) (sibling o).
Proof.
  intros Ho. unfold rsibling, sibling. eapply sim_bind; [sims|]. intros _ _ _. eapply sim_bind; [sims|]. intros ? ? ?; repeat unrel.
  eapply sim_bind; [sims|]. intros _ _ _. eapply sim_bind; [sims|]. intros ? ? ?; repeat unrel. norm.
  assert (t : T0 a') by assumption.
  apply sim_if; intros s s' Hs; unfold bind.
  - pose proof (sim_right a' t s s' Hs) as K0. destruct (get_right (ptr base a') s) as [[x s1]|], (get_right a' s') as [[x' s1']|]; try contradiction; [|exact I].
    destruct K0 as [[-> K0] K1]. split; [now split|exact K1].
  - pose proof (sim_left a' t s s' Hs) as K0. destruct (get_left (ptr base a') s) as [[x s1]|], (get_left a' s') as [[x' s1']|]; try contradiction; [|exact I].
    destruct K0 as [[-> K0] K1]. split; [now split|exact K1].
Qed.
Lemma sim_replace_node o n : T0 o -> T0 n -> sim eq (rreplace_node base (ptr base o) (ptr base n)) (greplace_node true o n).
Proof. intros Ho Hn. unfold rreplace_node, greplace_node. sims. Qed.
Lemma sim_black_around c p x : T0 p -> T0 x -> sim eq (rblack_around base c (ptr base p) (ptr base x)) (black_around c p x).
Proof. intros Hp Hx. unfold rblack_around, black_around. sims. Qed.
Local Hint Resolve sim_find_pred sim_sibling sim_replace_node sim_black_around : sims.
Lemma sim_case6 o : T0 o -> sim eq (rcase6 base (ptr base o)) (gcase6 true o).
Proof. intros Ho. unfold rcase6, gcase6. sims. Qed.
Lemma sim_case5_left n p x : T0 n -> T0 p -> T0 x -> sim eq (rcase5_left base (ptr base n) (ptr base p) (ptr base x)) (case5_left n p x).
Proof. intros Hn Hp Hx. unfold rcase5_left, case5_left. sims. Qed.
Lemma sim_case5_right n p x : T0 n -> T0 p -> T0 x -> sim eq (rcase5_right base (ptr base n) (ptr base p) (ptr base x)) (case5_right n p x).
Proof. intros Hn Hp Hx. unfold rcase5_right, case5_right. sims. Qed.
Local Hint Resolve sim_case6 sim_case5_left sim_case5_right : sims.
Lemma sim_case5 o : T0 o -> sim eq (rcase5 base (ptr base o)) (gcase5 true o).
Proof. intros Ho. unfold rcase5, gcase5. sims. Qed.
Local Hint Resolve sim_case5 : sims.
Lemma sim_case4 o : T0 o -> sim eq (rcase4 base (ptr base o)) (gcase4 true o).
Proof. intros Ho. unfold rcase4, gcase4. sims. Qed.
Local Hint Resolve sim_case4 : sims.
Lemma sim_case2 fuel : forall o, T0 o -> sim eq (rcase2 base fuel (ptr base o)) (gcase2 true fuel o).
Proof. induction fuel as [|fuel IH]; intros o Ho; cbn [rcase2 gcase2 andb]; sims. Qed.
Local Hint Resolve sim_case2 : sims.
Lemma sim_unit m (m' : prog unit) : sim eq m m' -> sim eq m (m' ;;; ret tt).
Proof.
  intros H s s' Hs. specialize (H s s' Hs). unfold bind. destruct (m s) as [[[] s1]|], (m' s') as [[[] s1']|]; auto.
Qed.
Lemma sim_del_leaf fuel o : T0 o -> sim eq (rdel_leaf base fuel (ptr base o)) (gdel_leaf true fuel o).
Proof.
  intros Ho. unfold rdel_leaf, gdel_leaf, gdel_rest. cbv zeta.
  eapply sim_bind; [sims|]. intros ? l ?; repeat unrel.
  eapply sim_bind; [sims|]. intros ? r ?; repeat unrel.
  eapply sim_bind; [sims|]. intros _ _ _.
  assert (Hc : T0 (if r =? 0 then l else r)) by (destruct (r =? 0); assumption).
  set (ch := if r =? 0 then l else r) in *. clearbody ch. sims.
  apply sim_unit. auto with sims.
Qed.
Local Hint Resolve sim_del_leaf : sims.
Lemma sim_attach o n : T0 o -> T0 n -> sim eq (rattach base (ptr base o) (ptr base n)) (gattach true o n).
Proof. intros Ho Hn. unfold rattach, gattach. sims. Qed.
Local Hint Resolve sim_attach : sims.
Lemma sim_del_core fuel o : T0 o -> sim eq (rdel_core base fuel (ptr base o)) (gdel_core true fuel o).
Proof. intros Ho. unfold rdel_core, gdel_core. sims. Qed.
Local Hint Resolve sim_del_core : sims.
Lemma sim_rrbt_del fuel o : T0 o -> sim eq (rrbt_del base fuel (ptr base o)) (grbt_del true fuel o).
Proof. intros Ho. unfold rrbt_del, grbt_del. sims. Qed.
End Sim.
