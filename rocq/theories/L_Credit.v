From Verif Require Import S_Credit.
Local Open Scope N_scope.
Ltac Zify.zify_post_hook ::= Z.div_mod_to_equations.

Lemma held_upd l i t t0 : nth_error l i = Some t0 ->
  held (upd l i t) + held1 t0 = held l + held1 t.
Proof.
  revert i; induction l as [|x l IH]; intros [|i] H; simpl in *; try discriminate.
  - injection H as ->. lia.
  - specialize (IH _ H). lia.
Qed.

Lemma nth_upd l i t j t0 : nth_error (upd l i t) j = Some t0 ->
  t0 = t \/ nth_error l j = Some t0.
Proof.
  revert i j; induction l as [|x l IH]; intros [|i] [|j] H; simpl in *; try discriminate; auto.
  - injection H as ->; auto.
  - eapply IH; eauto.
Qed.

Lemma sent_app a b : sent (a ++ b) = sent a + sent b.
Proof. induction a as [|[] a IH]; simpl; rewrite ?IH; lia. Qed.
Lemma returned_app a b : returned (a ++ b) = returned a + returned b.
Proof. induction a as [|[] a IH]; simpl; rewrite ?IH; lia. Qed.
Lemma lost_app a b : lost (a ++ b) = lost a + lost b.
Proof. induction a as [|[] a IH]; simpl; rewrite ?IH; lia. Qed.

Definition cas_ok (s : cstate) := forall i v n k, nth_error (threads s) i = Some (Cas v n k) -> n <= v.

Definition inv (L : N) (es : list event) (s : cstate) : Prop :=
  credit s + held (threads s) + flight s + lost es = L /\
  flight s + returned es = sent es /\ cas_ok s.

Lemma cas_ok_upd s i t c f : cas_ok s -> (forall v n k, t = Cas v n k -> n <= v) ->
  cas_ok (mkC c (upd (threads s) i t) f).
Proof.
  intros H Ht j v n k Hj. simpl in Hj. destruct (nth_upd _ _ _ _ _ Hj) as [E|E]; eauto.
Qed.

Lemma inv_step L es s e s' : L < UNLIMITED -> inv L es s -> cstep s e s' -> inv L (es ++ [e]) s'.
Proof.
  intros HL (H1 & H2 & H3) Hs.
  assert (Hu : credit s < UNLIMITED) by lia.
  unfold inv. rewrite lost_app, sent_app, returned_app.
  destruct Hs as [s i n k Hi Hn Hc|s i n k Hi Hn Hc|s i v n k Hi Hc|s i v n k Hi Hc|s i n k Hi|s i n Hi|s i n Hi|s i n Hi|s i n Hi Hf|s i n Hi].
  - unfold after_read. destruct (N.ltb_spec (credit s) n); simpl;
    pose proof (fun t => held_upd _ _ t _ Hi) as Hu'; simpl in Hu';
    [specialize (Hu' Idle)|specialize (Hu' (Cas (credit s) n k))]; simpl in Hu'; repeat split; try lia;
    apply cas_ok_upd; auto; intros; try discriminate.
    injection H0 as <- <- <-. lia.
  - lia.
  - pose proof (held_upd _ _ (Hold n k) _ Hi) as Hu'; simpl in Hu'.
    pose proof (H3 _ _ _ _ Hi). simpl. repeat split; try lia.
    apply cas_ok_upd; auto; intros; discriminate.
  - unfold after_read. destruct (N.ltb_spec (credit s) n); simpl;
    pose proof (fun t => held_upd _ _ t _ Hi) as Hu'; simpl in Hu';
    [specialize (Hu' Idle)|specialize (Hu' (Cas (credit s) n k))]; simpl in Hu'; repeat split; try lia;
    apply cas_ok_upd; auto; intros; try discriminate.
    injection H0 as <- <- <-. lia.
  - pose proof (held_upd _ _ Idle _ Hi) as Hu'; simpl in Hu'. simpl. repeat split; try lia.
    apply cas_ok_upd; auto; intros; discriminate.
  - replace (N.eqb (credit s) UNLIMITED) with false by (symmetry; apply N.eqb_neq; lia).
    pose proof (held_upd _ _ (Rel n) _ Hi) as Hu'; simpl in Hu'. simpl. repeat split; try lia.
    apply cas_ok_upd; auto; intros; discriminate.
  - replace (N.eqb (credit s) UNLIMITED) with false by (symmetry; apply N.eqb_neq; lia).
    pose proof (held_upd _ _ (Rel n) _ Hi) as Hu'; simpl in Hu'. simpl. repeat split; try lia.
    apply cas_ok_upd; auto; intros; discriminate.
  - pose proof (held_upd _ _ Idle _ Hi) as Hu'; simpl in Hu'. simpl. repeat split; try lia.
    apply cas_ok_upd; auto; intros; discriminate.
  - replace (N.eqb (credit s) UNLIMITED) with false by (symmetry; apply N.eqb_neq; lia).
    pose proof (held_upd _ _ (Rel n) _ Hi) as Hu'; simpl in Hu'. simpl. repeat split; try lia.
    apply cas_ok_upd; auto; intros; discriminate.
  - pose proof (held_upd _ _ Idle _ Hi) as Hu'; simpl in Hu'. simpl.
    assert (credit s + n < two64) by (unfold two64, UNLIMITED in *; lia).
    rewrite N.mod_small by assumption. repeat split; try lia.
    apply cas_ok_upd; auto; intros; discriminate.
Qed.

Lemma held_repeat n : held (repeat Idle n) = 0.
Proof. induction n; simpl; auto. Qed.

Lemma inv_init L n : inv L [] (cinit L n).
Proof.
  unfold inv, cinit; simpl. rewrite held_repeat. repeat split; try lia.
  intros i v m k H. simpl in H.
  apply nth_error_In, repeat_spec in H. discriminate.
Qed.

Lemma inv_exec L n es s : L < UNLIMITED -> exec cstep (cinit L n) es s -> inv L es s.
Proof.
  intros HL H. remember (cinit L n) as s0 eqn:E. induction H; subst.
  - apply inv_init.
  - eapply inv_step; eauto.
Qed.

Lemma held_quiescent l : (forall t, In t l -> t = Idle) -> held l = 0.
Proof.
  induction l as [|x l IH]; simpl; intros H; auto.
  rewrite (H x), IH by auto. reflexivity.
Qed.

(** Unlimited credit *)
Lemma unlimited_exec n es s : exec cstep (cinit UNLIMITED n) es s ->
  credit s = UNLIMITED /\ (forall i v m k, nth_error (threads s) i <> Some (Cas v m k)) /\
  (forall i m, nth_error (threads s) i <> Some (Rel m)) /\
  (forall i m, ~ In (Refused i m) es).
Proof.
  intros H. remember (cinit UNLIMITED n) as s0 eqn:E. induction H; subst.
  - simpl. repeat split; auto; intros ? ** ?; apply nth_error_In, repeat_spec in H; discriminate.
  - destruct (IHexec eq_refl) as (H1 & H2 & H3 & H4). clear IHexec.
    assert (Hup : forall c f i t, (forall v m k, t <> Cas v m k) -> (forall m, t <> Rel m) ->
      (forall j v m k, nth_error (threads (mkC c (upd (threads s') i t) f)) j <> Some (Cas v m k)) /\
      (forall j m, nth_error (threads (mkC c (upd (threads s') i t) f)) j <> Some (Rel m))).
    { intros c f i t Ha Hb. split; intros j; intros; simpl; intros Hj;
      destruct (nth_upd _ _ _ _ _ Hj) as [Et|Et];
      solve [eapply Ha; eauto | eapply Hb; eauto | eapply H2; eauto | eapply H3; eauto]. }
    assert (Happ : forall e, (forall i m, e <> Refused i m) -> forall i m, ~ In (Refused i m) (es ++ [e])).
    { intros e' He i m Hi. apply in_app_or in Hi. destruct Hi as [Hi|[Hi|[]]]; [eapply H4; eauto|].
      eapply He; eauto. }
    destruct H0; try (exfalso; congruence); try (exfalso; eapply H2; eassumption);
      try (exfalso; eapply H3; eassumption); simpl;
      rewrite ?H1; rewrite ?N.eqb_refl; (split; [reflexivity|]);
      match goal with |- context [mkC _ (upd _ ?i ?t) ?f] => idtac | |- context [upd _ ?i ?t] =>
        destruct (Hup UNLIMITED 0 i t) as [Hx Hy]; [intros; discriminate|intros; discriminate|];
        repeat split; [exact Hx|exact Hy|apply Happ; intros; discriminate] end.
Qed.

(** * Rate *)
Lemma nth_rupd l i t j t0 : nth_error (rupd l i t) j = Some t0 ->
  t0 = t \/ nth_error l j = Some t0.
Proof.
  revert i j; induction l as [|x l IH]; intros [|i] [|j] H; simpl in *; try discriminate; auto.
  - injection H as ->; auto.
  - eapply IH; eauto.
Qed.

Lemma admitted_app sec a b : admitted sec (a ++ b) = admitted sec a + admitted sec b.
Proof. induction a as [|[] a IH]; simpl; rewrite ?IH; lia. Qed.

(** state of a thread that started after the second was stamped *)
Definition r_ok (T : N) (t : rtstate) : Prop :=
  match t with
  | RIdle => True
  | RLoadedSec _ sec => sec = T
  | RLoadedBoth _ sec _ => sec = T
  | RReset _ _ _ _ => False
  | RStamp _ _ _ => False
  | RTake n v0 now => now = T /\ n <= v0
  end.

Definition rinv (C T : N) (es : list revent) (s : rstate) : Prop :=
  rcredit s + admitted T es = C /\ rsec s = T /\ clock s = T /\
  forall i t, nth_error (rthreads s) i = Some t -> r_ok T t.

Lemma rinv_step R C T es s e s' : rinv C T es s -> rstep R s e s' -> clock s' = T ->
  rinv C T (es ++ [e]) s'.
Proof.
  intros (H1 & H2 & H3 & H4) Hs Hc.
  unfold rinv. rewrite admitted_app.
  assert (Hup : forall i t, r_ok T t -> forall j t', nth_error (rupd (rthreads s) i t) j = Some t' -> r_ok T t').
  { intros i t Ht j t' Hj. destruct (nth_rupd _ _ _ _ _ Hj) as [->|E]; eauto. }
  destruct Hs as [s t Ht|s i n Hi|s i n sec Hi|s i n sec v0 Hi Hx|s i n sec v0 Hi Hx Hy|s i n sec v0 Hi Hx Hy|s i n sec v0 now Hi Hx|s i n sec v0 now Hi Hx|s i n sec now Hi Hx Hy|s i n sec now Hi Hx Hy|s i n sec now Hi Hx|s i n v0 now Hi Hx|s i n v0 now Hi Hx];
  simpl in *; try (pose proof (H4 _ _ Hi) as Hr; simpl in Hr).
  1: (repeat split; auto; lia).
  all: try contradiction.
  all: try (exfalso; lia).
  all: try (match type of Hr with _ /\ _ => destruct Hr as [-> Hr] end; rewrite ?N.eqb_refl).
  all: try (repeat split; auto; try lia; eapply Hup; simpl; auto; lia).
Qed.

Lemma rinv_exec R s0 es s : rsec s0 = clock s0 ->
  (forall i t, nth_error (rthreads s0) i = Some t -> t = RIdle) ->
  exec (rstep R) s0 es s -> clock s = clock s0 ->
  rcredit s + admitted (clock s0) es = rcredit s0.
Proof.
  intros H1 H2 H Hc.
  assert (Hle : forall s e s', rstep R s e s' -> clock s <= clock s') by (intros ? ? ? []; simpl; lia).
  assert (Hmono : clock s0 <= clock s).
  { clear -H Hle. induction H; [lia|]. apply Hle in H0. lia. }
  assert (rinv (rcredit s0) (clock s0) es s).
  { remember s0 as s1. rewrite Heqs1 in H1, H2. rewrite Heqs1.
    assert (Hc' : clock s = clock s0) by congruence. clear Hc.
    revert Hc'. induction H; intros Hc'; subst.
    - unfold rinv; simpl. repeat split; auto; try lia. intros i t Hi. rewrite (H2 _ _ Hi). exact I.
    - assert (clock s' = clock s0).
      { pose proof (Hle _ _ _ H0). assert (clock s0 <= clock s').
        { clear -H Hle. induction H; [lia|]. apply Hle in H0. lia. } lia. }
      eapply rinv_step; eauto. apply IHexec; auto. lia. }
  destruct H0 as (Ha & _). exact Ha.
Qed.

(** Sequential *)
Lemma seq_bound R sec cs : forall s o s' t0, run_calls R s cs = (o, s') ->
  nondecreasing t0 cs -> qsec s <= t0 ->
  (qsec s = sec -> adm sec o <= qcredit s + giv sec o) /\
  (qsec s < sec -> adm sec o <= R + giv sec o) /\
  (sec < qsec s -> adm sec o = 0).
Proof.
  induction cs as [|c cs IH]; intros s o s' t0 H Hn Hq.
  - injection H as <- <-. simpl. lia.
  - destruct c as [t n|t n]; simpl in H, Hn; destruct Hn as [Hn1 Hn2].
    + unfold q_acquire in H.
      destruct (N.ltb_spec (qsec s) t) as [Hl|Hl].
      * destruct (N.ltb_spec (qcredit (mkQ R t)) n) as [Hr|Hr]; simpl in Hr;
        destruct (run_calls _ _ cs) as [o1 s1] eqn:E; injection H as <- <-; simpl;
        destruct (IH _ _ _ t E Hn2 ltac:(simpl; lia)) as (I1 & I2 & I3); simpl in *;
        destruct (N.eqb_spec t sec); repeat split; intros; try lia.
      * destruct (N.ltb_spec (qcredit s) n) as [Hr|Hr]; simpl in Hr;
        destruct (run_calls _ _ cs) as [o1 s1] eqn:E; injection H as <- <-; simpl;
        destruct (IH _ _ _ t E Hn2 ltac:(simpl; lia)) as (I1 & I2 & I3); simpl in *;
        destruct (N.eqb_spec t sec); repeat split; intros; try lia.
    + destruct (run_calls _ _ cs) as [o1 s1] eqn:E; injection H as <- <-; simpl.
      unfold q_release in E.
      destruct (N.eqb_spec (qsec s) t) as [Hl|Hl];
      destruct (IH _ _ _ t E Hn2 ltac:(simpl; lia)) as (I1 & I2 & I3); simpl in *;
      destruct (N.eqb_spec t sec); repeat split; intros; try lia.
      all: specialize (I1 ltac:(lia)); pose proof (N.mod_le (qcredit s + n) two64 ltac:(unfold two64; lia)); lia.
Qed.
