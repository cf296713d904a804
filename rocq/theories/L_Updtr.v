From Verif Require Import M_Updtr S_Updtr.
From Coq Require Import Lia.
Local Open Scope Z_scope.

Lemma hint_eqb_eq a b : hint_eqb a b = true <-> a = b.
Proof.
  unfold hint_eqb. destruct a, b; cbn [fst snd]. rewrite andb_true_iff, !Z.eqb_eq. split; [intros [-> ->]; reflexivity | intros [= -> ->]; auto].
Qed.
Lemma hint_eqb_refl a : hint_eqb a a = true. Proof. apply hint_eqb_eq; reflexivity. Qed.
Lemma hint_eqb_neq a b : hint_eqb a b = false <-> a <> b.
Proof. destruct (hint_eqb a b) eqn:E; [apply hint_eqb_eq in E | ]; split; intros; try congruence. intros ->. rewrite hint_eqb_refl in E; discriminate. Qed.

Lemma find_set_task_same h t l : find_task h l <> None -> find_task h (set_task h t l) = Some t.
Proof.
  induction l as [|[k u] r IH]; cbn; [congruence|]. destruct (hint_eqb k h) eqn:E; cbn; rewrite E; [reflexivity | exact IH].
Qed.
Lemma find_set_task_other h k t l : h <> k -> find_task k (set_task h t l) = find_task k l.
Proof.
  intros N. induction l as [|[j u] r IH]; cbn; [reflexivity|].
  destruct (hint_eqb j h) eqn:E; cbn.
  - apply hint_eqb_eq in E; subst j. destruct (hint_eqb h k) eqn:F; [apply hint_eqb_eq in F; congruence | reflexivity].
  - destruct (hint_eqb j k); [reflexivity | exact IH].
Qed.
Lemma find_ins_same h t l : find_task h l = None -> find_task h (ins_task h t l) = Some t.
Proof.
  induction l as [|[k u] r IH]; cbn; [intros _; rewrite hint_eqb_refl; reflexivity|].
  destruct (hint_eqb k h) eqn:E; [discriminate|]. intros K.
  destruct (before h k); cbn; [rewrite hint_eqb_refl; reflexivity | rewrite E; auto].
Qed.
Lemma find_ins_other h k t l : h <> k -> find_task k (ins_task h t l) = find_task k l.
Proof.
  intros N. apply hint_eqb_neq in N. induction l as [|[j u] r IH]; cbn; [rewrite N; reflexivity|].
  destruct (before h j); cbn; [rewrite N; reflexivity | destruct (hint_eqb j k); [reflexivity | exact IH]].
Qed.
Lemma set_task_keys h t l : map fst (set_task h t l) = map fst l.
Proof. induction l as [|[k u] r IH]; cbn; [reflexivity|]. destruct (hint_eqb k h); cbn; congruence. Qed.
Lemma ins_task_keys h t l k : In k (map fst (ins_task h t l)) <-> k = h \/ In k (map fst l).
Proof.
  induction l as [|[j u] r IH]; cbn; [intuition|]. destruct (before h j); cbn; [intuition|]. rewrite IH. intuition.
Qed.
Lemma find_task_none h l : find_task h l = None <-> ~ In h (map fst l).
Proof.
  induction l as [|[k u] r IH]; cbn; [tauto|]. destruct (hint_eqb k h) eqn:E.
  - apply hint_eqb_eq in E. split; [discriminate | tauto].
  - apply hint_eqb_neq in E. rewrite IH. tauto.
Qed.
Lemma ins_task_nodup h t l : NoDup (map fst l) -> find_task h l = None -> NoDup (map fst (ins_task h t l)).
Proof.
  intros N F. apply find_task_none in F. induction l as [|[j u] r IH]; cbn in *; [constructor; auto; constructor|].
  destruct (before h j); cbn; [constructor; auto|].
  inversion_clear N. constructor; [|apply IH; auto]. rewrite ins_task_keys. intros [->|]; tauto.
Qed.

Lemma put_set_names p l : map p_name (put_set p l) = map p_name l.
Proof.
  unfold put_set. rewrite map_map. apply map_ext. intros q. destruct (Nat.eqb (p_name q) (p_name p)) eqn:E; [apply Nat.eqb_eq in E; congruence | reflexivity].
Qed.
Lemma in_put_set p q l : In q (put_set p l) <-> (q = p /\ In (p_name p) (map p_name l)) \/ (In q l /\ p_name q <> p_name p).
Proof.
  unfold put_set. rewrite in_map_iff. split.
  - intros [x [H K]]. destruct (Nat.eqb (p_name x) (p_name p)) eqn:E; [apply Nat.eqb_eq in E | apply Nat.eqb_neq in E]; subst q.
    + left. split; [reflexivity|]. rewrite <- E. apply in_map; exact K.
    + right; auto.
  - intros [[-> H]|[H K]].
    + apply in_map_iff in H as [x [H K]]. exists x. rewrite H, Nat.eqb_refl; auto.
    + exists q. destruct (Nat.eqb (p_name q) (p_name p)) eqn:E; [apply Nat.eqb_eq in E; congruence | auto].
Qed.
Lemma find_set_some i l p : find_set i l = Some p -> In p l /\ p_name p = i.
Proof. unfold find_set. intros H. apply find_some in H as [H K]. apply Nat.eqb_eq in K. auto. Qed.
Lemma find_set_none i l : find_set i l = None -> ~ In i (map p_name l).
Proof.
  unfold find_set. intros H K. apply in_map_iff in K as [p [K L]]. apply (find_none _ _ H) in L. rewrite K, Nat.eqb_refl in L. discriminate.
Qed.
Lemma eligible_asked c i : eligible c i = true <-> asked c i.
Proof.
  unfold eligible, asked. destruct (matches c) as [|m ms] eqn:E; [tauto|]. rewrite existsb_exists. split; [right; auto | intros [H|H]; [discriminate | exact H]].
Qed.

(** ** The invariant *)
Definition chosen (c : conf) (h : hint) : hint := if auto c && negb (fst h =? 0) then h else dflt c.
Definition served (c : conf) (l : list (hint * tstate)) (h : hint) : Prop :=
  fst h = 0 \/ h = dflt c \/ find_task h l = Some Sched \/ find_task h l = Some (Busy false).
Record inv (c : conf) (open : list hint) (s : state) : Prop := {
  i_keys : NoDup (map fst (tasks s));
  i_key : forall h, In h (map fst (tasks s)) -> h <> dflt c /\ fst h <> 0 /\ auto c = true /\ up s = true;
  i_open : forall h, find_task h (tasks s) = Some (Busy true) -> In h open;
  i_dflt : up s = true -> dtask s = Sched \/ dtask s = Busy false;
  i_down : up s = false -> dtask s = Idle;
  i_names : NoDup (map p_name (sets s));
  i_served : auto c = true -> push c = false -> up s = true -> conn s = true ->
             forall p, In p (sets s) -> eligible c (p_name p) = true -> served c (tasks s) (p_hint p);
  i_told : push c = false -> up s = true -> forall p, In p (sets s) -> eligible c (p_name p) = true -> p_told p = Some (sched (skew c) (chosen c (p_hint p)))
}.

Record upd_ok (c : conf) (open : list hint) (p q : pset) (l l1 : list (hint * tstate)) : Prop := {
  u_name : p_name q = p_name p; u_hint : p_hint q = p_hint p;
  u_told : p_told q = Some (sched (skew c) (chosen c (p_hint p)));
  u_keys : NoDup (map fst l) -> NoDup (map fst l1);
  u_key : forall h, In h (map fst l1) -> In h (map fst l) \/ (h <> dflt c /\ fst h <> 0 /\ auto c = true);
  u_open : forall h, find_task h l1 = Some (Busy true) -> find_task h l = Some (Busy true);
  u_mono : forall h, served c l h -> served c l1 h;
  u_served : auto c = true -> find_task (p_hint p) l <> Some (Busy true) -> served c l1 (p_hint p)
}.
Lemma tasks_update_ok c open p l : upd_ok c open p (snd (tasks_update c p l)) l (fst (tasks_update c p l)).
Proof.
  unfold tasks_update, chosen, served. destruct (auto c) eqn:A; cbn [negb andb fst snd].
  2: { split; unfold chosen, served; rewrite ?A; cbn; auto; discriminate. }
  destruct (fst (p_hint p) =? 0) eqn:Z0; cbn [negb fst snd].
  { apply Z.eqb_eq in Z0. split; unfold chosen, served; rewrite ?A, ?Z0; cbn; auto. }
  destruct (hint_eqb (dflt c) (p_hint p)) eqn:D; cbn [fst snd].
  { apply hint_eqb_eq in D. split; unfold chosen, served; rewrite ?A, ?Z0; cbn; auto. rewrite D; reflexivity. }
  apply hint_eqb_neq in D. assert (K := Z0). apply Z.eqb_neq in K.
  destruct (find_task (p_hint p) l) as [t|] eqn:F; cbn [fst snd].
  - split; unfold chosen, served; rewrite ?A, ?Z0; cbn; auto.
    + intros H. rewrite set_task_keys; exact H.
    + intros h H. rewrite set_task_keys in H. left; exact H.
    + intros h H. destruct (hint_eqb (p_hint p) h) eqn:E; [apply hint_eqb_eq in E | apply hint_eqb_neq in E].
      * subst h. rewrite find_set_task_same in H by congruence. destruct t; cbn in H; congruence.
      * rewrite find_set_task_other in H by exact E. exact H.
    + intros h H. destruct (hint_eqb (p_hint p) h) eqn:E; [apply hint_eqb_eq in E | apply hint_eqb_neq in E].
      * subst h. rewrite find_set_task_same by congruence. rewrite F in H. destruct H as [H|[H|[H|H]]]; auto; injection H as ->; cbn; auto.
      * rewrite find_set_task_other by exact E. exact H.
    + intros _ H. rewrite find_set_task_same by congruence. destruct t as [| |[]]; cbn; auto. congruence.
  - split; unfold chosen, served; rewrite ?A, ?Z0; cbn; auto.
    + intros H. apply ins_task_nodup; auto.
    + intros h H. apply ins_task_keys in H as [->|H]; auto.
    + intros h H. destruct (hint_eqb (p_hint p) h) eqn:E; [apply hint_eqb_eq in E | apply hint_eqb_neq in E].
      * subst h. rewrite find_ins_same in H by exact F. discriminate.
      * rewrite find_ins_other in H by exact E. exact H.
    + intros h H. destruct (hint_eqb (p_hint p) h) eqn:E; [apply hint_eqb_eq in E | apply hint_eqb_neq in E].
      * subst h. rewrite find_ins_same by exact F. auto.
      * rewrite find_ins_other by exact E. exact H.
    + intros _ _. rewrite find_ins_same by exact F. auto.
Qed.

(** A set with a new hint, stored and announced *)
Lemma announce_inv c open p s :
  ~ In (p_hint p) open ->
  In p (sets s) ->
  inv c open (with_sets (filter (fun q => negb (Nat.eqb (p_name q) (p_name p))) (sets s)) s) -> NoDup (map p_name (sets s)) ->
  inv c open (announce c p s).
Proof.
  intros NO IN I ND. destruct I as [K1 K2 K3 K4 K5 _ K7 K8]. cbn [with_sets up dtask tasks conn sets] in *. unfold announce.
  assert (OTH : forall q, In q (sets s) -> p_name q <> p_name p -> In q (filter (fun q => negb (Nat.eqb (p_name q) (p_name p))) (sets s))).
  { intros q H N. apply filter_In. split; [exact H|]. apply Nat.eqb_neq in N. rewrite N. reflexivity. }
  assert (SAME : forall q, In q (sets s) -> p_name q = p_name p -> q = p).
  { clear -ND IN. induction (sets s) as [|x r IH]; cbn in *; [tauto|]. inversion_clear ND as [|? ? N1 N2].
    intros q [<-|H] E; destruct IN as [<-|IN]; auto; exfalso; apply N1; [rewrite E | rewrite <- E]; apply in_map; assumption. }
  destruct (up s && negb (push c) && eligible c (p_name p)) eqn:W.
  2: { split; auto.
       - intros A Q U C q H E. apply (K7 A Q U C q); [|exact E]. apply OTH; [exact H|]. intros N. rewrite N in E. rewrite U, Q, E in W. discriminate W.
       - intros Q U q H E. apply (K8 Q U q); [|exact E]. apply OTH; [exact H|]. intros N. rewrite N in E. rewrite U, Q, E in W. discriminate W. }
  apply andb_true_iff in W as [W EL]. apply andb_true_iff in W as [U P].
  pose proof (tasks_update_ok c open p (tasks s)) as T. destruct (tasks_update c p (tasks s)) as [l1 q]; cbn [fst snd] in T.
  destruct T as [T1 T2 T3 T4 T5 T6 T7 T8].
  split; cbn [up dtask tasks conn sets]; auto.
  - intros h H. destruct (T5 h H) as [G|(G1 & G2 & G3)]; auto.
  - rewrite put_set_names. exact ND.
  - intros A Q _ C x H E. apply in_put_set in H as [[-> _]|[H N]].
    + rewrite T2. apply T8; [exact A|]. intros B. apply NO. apply K3; exact B.
    + apply T7. apply (K7 A Q U C x); [|exact E]. apply OTH; [exact H|]. rewrite <- T1; exact N.
  - intros Q _ x H E. apply in_put_set in H as [[-> _]|[H N]].
    + rewrite T2. exact T3.
    + apply (K8 Q U x); [|exact E]. apply OTH; [exact H|]. rewrite <- T1; exact N.
Qed.

Lemma tasks_create_ok c todo l :
  let '(l1, ps) := tasks_create c todo l in
  map p_name ps = map p_name todo /\ (NoDup (map fst l) -> NoDup (map fst l1)) /\
  (forall h, In h (map fst l1) -> In h (map fst l) \/ (h <> dflt c /\ fst h <> 0 /\ auto c = true)) /\
  (forall h, find_task h l1 = Some (Busy true) -> find_task h l = Some (Busy true)) /\
  (forall h, served c l h -> served c l1 h) /\
  (forall p, In p ps -> eligible c (p_name p) = true -> p_told p = Some (sched (skew c) (chosen c (p_hint p)))) /\
  ((forall h, find_task h l <> Some (Busy true)) -> auto c = true -> forall p, In p ps -> eligible c (p_name p) = true -> served c l1 (p_hint p)).
Proof.
  revert l. induction todo as [|p r IH]; intros l; cbn [tasks_create].
  { cbn. repeat split; auto; tauto. }
  destruct (if eligible c (p_name p) then tasks_update c p l else (l, p)) as [l1 q] eqn:E.
  specialize (IH l1). destruct (tasks_create c r l1) as [l2 ps]. destruct IH as (A1 & A2 & A3 & A4 & A5 & A6 & A7).
  destruct (eligible c (p_name p)) eqn:EL.
  - pose proof (tasks_update_ok c [] p l) as T. rewrite E in T; cbn [fst snd] in T. destruct T as [T1 T2 T3 T4 T5 T6 T7 T8].
    split; [cbn; rewrite A1, T1; reflexivity|]. split; [auto|]. split.
    { intros h H. destruct (A3 h H) as [G|G]; [destruct (T5 h G) as [G2|G2]; auto | auto]. }
    split; [auto|]. split; [auto|]. split.
    { intros x [<-|H] EX; [rewrite T2; exact T3 | auto]. }
    intros NB A x [<-|H] EX.
    + apply A5. rewrite T2. apply T8; auto.
    + apply A7; auto. intros h B. apply (NB h). auto.
  - injection E as <- <-. split; [cbn; rewrite A1; reflexivity|]. repeat (split; [auto; fail|]). split.
    { intros x [<-|H] EX; [congruence | auto]. }
    intros NB A x [<-|H] EX; [congruence | auto].
Qed.

Lemma walk_in c h s m i : In i (walk c h s m) <-> conn s = true /\ selects m i = true /\ exists p, In p (sets s) /\ p_name p = i /\ (auto c = true -> fst (p_hint p) <> 0 /\ p_hint p = h).
Proof.
  unfold walk. destruct (conn s); [|split; [intros [] | intros [H _]; discriminate]].
  rewrite in_map_iff. split.
  - intros [p [<- H]]. apply filter_In in H as [H K]. apply andb_true_iff in K as [K1 K2]. split; [auto|]. split; [exact K2|].
    exists p. split; [exact H|]. split; [auto|]. intros A. rewrite A in K1. apply andb_true_iff in K1 as [K1 K3].
    apply hint_eqb_eq in K3. apply negb_true_iff, Z.eqb_neq in K1. auto.
  - intros (_ & SE & p & H & <- & K). exists p. split; [reflexivity|]. apply filter_In. split; [exact H|]. rewrite SE, andb_true_r.
    destruct (auto c); [|reflexivity]. destruct (K eq_refl) as [K1 <-]. rewrite hint_eqb_refl, andb_true_r.
    apply negb_true_iff, Z.eqb_neq; exact K1.
Qed.
Lemma visits_in c h s i : In i (visits c h s) <-> conn s = true /\ eligible c i = true /\ exists p, In p (sets s) /\ p_name p = i /\ (auto c = true -> fst (p_hint p) <> 0 /\ p_hint p = h).
Proof.
  unfold visits, eligible. destruct (matches c) as [|m ms].
  - rewrite walk_in. cbn. tauto.
  - rewrite in_flat_map. rewrite existsb_exists. split.
    + intros [x [H K]]. apply walk_in in K as (K1 & K2 & K3). eauto.
    + intros (K1 & [x [H K]] & K3). exists x. split; [exact H|]. apply walk_in. auto.
Qed.

Lemma step_inv c open s o s1 x :
  inv c open s -> match o with Add _ h | Upd _ h => ~ In h open | _ => True end -> step c s o = Some (s1, x) -> inv c (opens open o) s1.
Proof.
  intros I CALM H. pose proof I as I0. destruct I as [K1 K2 K3 K4 K5 K6 K7 K8]. destruct o; cbn [step opens] in *.
  - (* Add *)
    destruct (find_set i (sets s)) eqn:F; injection H as <- <-; [exact I0|].
    apply find_set_none in F. apply announce_inv; cbn [p_hint p_name with_sets sets]; [exact CALM | left; reflexivity | | constructor; assumption].
    cbn [filter p_name]. rewrite Nat.eqb_refl; cbn [negb].
    replace (filter (fun q => negb (Nat.eqb (p_name q) i)) (sets s)) with (sets s).
    { destruct s; exact I0. }
    symmetry. clear -F. induction (sets s) as [|q r IH]; cbn in *; [reflexivity|].
    destruct (Nat.eqb (p_name q) i) eqn:E; [apply Nat.eqb_eq in E; tauto|]. cbn. rewrite IH by tauto. reflexivity.
  - (* Upd *)
    destruct (find_set i (sets s)) as [p|] eqn:F; injection H as <- <-; [|exact I0].
    apply find_set_some in F as [F <-]. destruct (hint_eqb (p_hint p) h) eqn:E.
    + apply hint_eqb_eq in E; subst h.
      assert (EQ : put_set (mkP (p_name p) (p_hint p) (p_told p)) (sets s) = sets s).
      { clear -K6 F. unfold put_set; cbn [p_name]. induction (sets s) as [|q r IH]; cbn in *; [reflexivity|]. inversion_clear K6 as [|? ? N1 N2].
        destruct F as [->|F].
        - rewrite Nat.eqb_refl. f_equal; [destruct p; reflexivity|]. rewrite <- (map_id r) at 2. apply map_ext_in. intros y Y.
          destruct (Nat.eqb (p_name y) (p_name p)) eqn:E; [|reflexivity]. apply Nat.eqb_eq in E. exfalso; apply N1. rewrite <- E. apply in_map; exact Y.
        - destruct (Nat.eqb (p_name q) (p_name p)) eqn:E; [apply Nat.eqb_eq in E; exfalso; apply N1; rewrite E; apply in_map; exact F|]. f_equal; auto. }
      rewrite EQ. destruct s; exact I0.
    + apply announce_inv; cbn [p_hint p_name with_sets sets]; [exact CALM | | | rewrite put_set_names; exact K6].
      { apply in_put_set. left. split; [reflexivity|]. cbn. apply in_map; exact F. }
      assert (SUB : forall y, In y (filter (fun q => negb (Nat.eqb (p_name q) (p_name p))) (put_set (mkP (p_name p) h (p_told p)) (sets s))) -> In y (sets s)).
      { intros y Y. apply filter_In in Y as [Y N]. apply in_put_set in Y as [[-> _]|[Y _]]; [|exact Y]. cbn in N. rewrite Nat.eqb_refl in N. discriminate. }
      split; cbn [with_sets up dtask tasks conn sets]; auto.
      assert (G : NoDup (map p_name (put_set (mkP (p_name p) h (p_told p)) (sets s)))) by (rewrite put_set_names; exact K6).
      clear -G. induction (put_set (mkP (p_name p) h (p_told p)) (sets s)) as [|y r IH]; cbn in *; [constructor|]. inversion_clear G as [|? ? N1 N2].
      destruct (Nat.eqb (p_name y) (p_name p)); cbn; [auto|]. constructor; [|auto]. intros X. apply N1. apply in_map_iff in X as [z [Z1 Z2]]. apply filter_In in Z2 as [Z2 _]. rewrite <- Z1. apply in_map; exact Z2.
  - (* Del *)
    injection H as <- <-. assert (SUB : forall y, In y (filter (fun q => negb (Nat.eqb (p_name q) i)) (sets s)) -> In y (sets s)) by (intros y Y; apply filter_In in Y as [Y _]; exact Y).
    split; cbn [with_sets up dtask tasks conn sets]; auto.
    clear -K6. induction (sets s) as [|y r IH]; cbn in *; [constructor|]. inversion_clear K6 as [|? ? N1 N2].
    destruct (Nat.eqb (p_name y) i); cbn; [auto|]. constructor; [|auto]. intros X. apply N1. apply in_map_iff in X as [z [Z1 Z2]]. apply filter_In in Z2 as [Z2 _]. rewrite <- Z1. apply in_map; exact Z2.
  - (* Lost *) injection H as <- <-. split; cbn [up dtask tasks conn sets]; auto. discriminate.
  - (* Gone *) destruct (conn s); injection H as <- <-; [exact I0|]. split; cbn [with_sets up dtask tasks conn sets]; auto; try (constructor; fail); intros; contradiction.
  - (* Conn *) destruct (sets s) eqn:S; injection H as <- <-; [|exact I0]. split; cbn [up dtask tasks conn sets]; auto; try (constructor; fail); intros; contradiction.
  - (* Begin *)
    destruct (find_task h (tasks s)) as [[| |]|] eqn:F; injection H as <- <-;
      try (destruct I0; split; auto; intros k Q; right; auto).
    split; cbn [with_tasks up dtask tasks conn sets]; auto.
    + rewrite set_task_keys; exact K1.
    + intros k Q. rewrite set_task_keys in Q; auto.
    + intros k Q. destruct (hint_eqb h k) eqn:E; [apply hint_eqb_eq in E; left; exact E | apply hint_eqb_neq in E]. right.
      rewrite find_set_task_other in Q by exact E. auto.
    + intros A P U C p Q E. specialize (K7 A P U C p Q E). rewrite U; cbn [andb].
      destruct K7 as [Z0|[D|T]]; [left; exact Z0 | right; left; exact D|].
      destruct (hint_eqb h (p_hint p)) eqn:G; [apply hint_eqb_eq in G | apply hint_eqb_neq in G].
      2: { right; right. rewrite find_set_task_other by exact G. exact T. }
      right; right. rewrite <- G. rewrite find_set_task_same by congruence.
      right. f_equal. f_equal. apply Nat.eqb_neq. intros L.
      assert (IN : In (p_name p) (visits c h s)).
      { apply visits_in. split; [exact C|]. split; [exact E|]. exists p. split; [exact Q|]. split; [reflexivity|]. intros _. split; [|auto].
        assert (X : In h (map fst (tasks s))). { destruct (in_dec (fun a b => match hint_eqb a b as b0 return hint_eqb a b = b0 -> {a = b} + {a <> b} with true => fun Y => left (proj1 (hint_eqb_eq a b) Y) | false => fun Y => right (proj1 (hint_eqb_neq a b) Y) end eq_refl) h (map fst (tasks s))) as [Y|Y]; [exact Y|]. apply find_task_none in Y; congruence. }
        destruct (K2 h X) as (_ & X2 & _). rewrite <- G. exact X2. }
      destruct (visits c h s); [destruct IN | discriminate L].
  - (* End *)
    assert (OP : forall k, In k open -> h <> k -> In k (filter (fun k => negb (hint_eqb k h)) open)).
    { intros k Q N. apply filter_In. split; [exact Q|]. apply negb_true_iff, hint_eqb_neq. congruence. }
    destruct (find_task h (tasks s)) as [t|] eqn:F; injection H as <- <-.
    2: { split; auto. intros k Q. apply OP; [auto|]. congruence. }
    split; cbn [with_tasks up dtask tasks conn sets]; auto.
    + rewrite set_task_keys; exact K1.
    + intros k Q. rewrite set_task_keys in Q; auto.
    + intros k Q. destruct (hint_eqb h k) eqn:E; [apply hint_eqb_eq in E | apply hint_eqb_neq in E].
      * subst k. rewrite find_set_task_same in Q by congruence. destruct t as [| |[]]; discriminate Q.
      * rewrite find_set_task_other in Q by exact E. auto.
    + intros A P U C p Q E. specialize (K7 A P U C p Q E). destruct K7 as [Z0|[D|T]]; [left; exact Z0 | right; left; exact D|].
      right; right. destruct (hint_eqb h (p_hint p)) eqn:G; [apply hint_eqb_eq in G | apply hint_eqb_neq in G].
      * rewrite <- G in *. rewrite find_set_task_same by congruence. rewrite F in T. destruct T as [T|T]; injection T as ->; auto.
      * rewrite find_set_task_other by exact G. exact T.
  - (* BeginD *)
    destruct (dtask s) eqn:D; injection H as <- <-; try exact I0. split; cbn [up dtask tasks conn sets]; auto. intros U. specialize (K5 U). congruence.
  - (* EndD *)
    injection H as <- <-. split; cbn [up dtask tasks conn sets]; auto.
    + intros U. destruct (K4 U) as [E|E]; rewrite E; auto.
    + intros U. rewrite (K5 U). reflexivity.
  - (* Cleanup *)
    destruct (up s && auto c); [destruct (tasks s) as [|[k [| |[]]] r] eqn:T|]; try discriminate H; injection H as <- <-; exact I0.
  - (* UStart *)
    destruct (up s) eqn:U; [injection H as <- <-; exact I0|].
    assert (T0 : tasks s = []).
    { destruct (tasks s) as [|[k t] r] eqn:T; [reflexivity|]. destruct (K2 k (or_introl eq_refl)) as (_ & _ & _ & X). discriminate X. }
    rewrite T0 in *. destruct (negb (push c) || auto c) eqn:PA.
    + pose proof (tasks_create_ok c (sets s) []) as T. destruct (tasks_create c (sets s) []) as [l ps]. injection H as <- <-.
      destruct T as (A1 & A2 & A3 & A4 & A5 & A6 & A7).
      split; cbn [up dtask tasks conn sets]; auto.
      * intros h Q. destruct (A3 h Q) as [[]|(B1 & B2 & B3)]; auto.
      * intros _. rewrite (K5 eq_refl). left; reflexivity.
      * discriminate.
      * rewrite A1; exact K6.
      * intros A _ _ _ p Q E. apply A7; auto. cbn; discriminate.
    + injection H as <- <-. apply orb_false_iff in PA as [P A]. apply negb_false_iff in P.
      split; cbn [up dtask tasks conn sets]; auto; try congruence; try (constructor; fail).
      intros _. rewrite (K5 eq_refl). left; reflexivity.
  - (* UStop *)
    destruct (up s) eqn:U; injection H as <- <-.
    + split; cbn [up dtask tasks conn sets]; auto; try discriminate; try (constructor; fail).
    + assert (T0 : tasks s = []).
      { destruct (tasks s) as [|[k t] r] eqn:T; [reflexivity|]. destruct (K2 k (or_introl eq_refl)) as (_ & _ & _ & X). discriminate X. }
      split; rewrite ?T0, ?U; cbn [map find_task]; auto; try (intros; discriminate); try (intros ? []; fail).
      constructor.
Qed.
Lemma init_inv c : inv c [] init.
Proof. split; cbn; auto; try discriminate; try (constructor; fail); intros; contradiction. Qed.

Lemma run_inv c : forall l open s s1 xs,
  inv c open s -> along (fun open o => match o with Add _ h | Upd _ h => ~ In h open | _ => True end) open l -> run c s l = Some (s1, xs) -> exists open1, inv c open1 s1.
Proof.
  induction l as [|o r IH]; intros open s s1 xs I A H; cbn in *.
  { injection H as <- <-. eauto. }
  destruct (step c s o) as [[s2 x]|] eqn:E; [|discriminate]. destruct (run c s2 r) as [[s3 ys]|] eqn:R; [|discriminate]. injection H as <- <-.
  destruct A as [A B]. eapply IH; [eapply step_inv; eassumption | exact B | exact R].
Qed.
