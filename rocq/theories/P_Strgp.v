(** Storage policies (C59): what is stored, for which sets, and what starting and stopping leave behind *)
From Verif Require Import M_Strgp S_Strgp L_Strgp.
From Coq Require Import Lia.

(** What is stored of a set are the metrics of the policy, by name, whatever came before *)
Theorem strgp_stored_right l s xs i s1 j idx : run init l = (s, xs) -> step s (Update i) = (s1, Stored j idx) ->
  j = i /\ s1 = s /\ running s = true /\
  exists p, In p (sets s) /\ p_name p = i /\ p_match p = true /\ named (p_metrics p) idx (mlist s).
Proof.
  intros R H. pose proof (run_inv _ _ _ R) as [_ K2 K3]. cbn [step] in H.
  destruct (find_set i (sets s)) as [p|] eqn:F; [|discriminate H]. apply find_set_some in F as [F N].
  destruct (p_ref p && running s) eqn:E; [|discriminate H]. apply andb_true_iff in E as [E1 E2].
  destruct (K3 p F E1) as (M & _ & X & D). rewrite X in H. injection H as <- <- <-.
  destruct (K2 X) as (_ & d & D1 & D2). assert (d = p_metrics p) by congruence. subst d.
  repeat (split; [auto|]). exists p. repeat (split; [auto|]). exact (indices_named _ _ _ D2).
Qed.
(** A running policy stores each update of a set that it has taken up; it never stops by itself *)
Theorem strgp_taken_up_stored l s xs p : run init l = (s, xs) -> In p (sets s) -> p_ref p = true ->
  running s = true /\ exists idx, step s (Update (p_name p)) = (s, Stored (p_name p) idx).
Proof.
  intros R P F. pose proof (run_inv _ _ _ R) as [K1 K2 K3]. destruct (K3 p P F) as (_ & RN & H & _). split; [exact RN|].
  exists (arry s). cbn [step]. destruct (find_set (p_name p) (sets s)) as [q|] eqn:E.
  - apply find_set_some in E as [E N]. assert (q = p) by (eapply same_name; eauto). subst q. rewrite F, RN, H. reflexivity.
  - apply find_set_none in E. exfalso. apply E. apply in_map; exact P.
Qed.
Example strgp_stored_example : let '(s, xs) := run init [MetricAdd 7; MetricAdd 5; Start true; Ready 1 [5; 6; 7] true true; Ready 2 [5] true true] in
  map snd [step s (Update 1); step s (Update 2)] = [Stored 1 [2; 0]; Rc 0] /\ running s = true.
Proof. vm_compute. split; reflexivity. Qed.

(** A policy that is not running stores nothing until it is started *)
Lemma strgp_stopped_silent l : forall s s1 xs, inv s -> running s = false -> (forall ok, ~ In (Start ok) l) ->
  run s l = (s1, xs) -> running s1 = false /\ forall i idx, ~ In (Stored i idx) xs.
Proof.
  induction l as [|o r IH]; intros s s1 xs I R NS H; cbn in H; [injection H as <- <-; auto|].
  destruct (step s o) as [s2 x] eqn:E. destruct (run s2 r) as [s3 ys] eqn:RR. injection H as <- <-.
  assert (K : running s2 = false /\ forall i idx, x <> Stored i idx).
  { destruct o; cbn [step] in E.
    - exfalso. exact (NS ok (or_introl eq_refl)).
    - rewrite R in E. injection E as <- <-. split; [exact R | discriminate].
    - rewrite R in E. destruct (member m (mlist s)); injection E as <- <-; (split; [exact R | discriminate]).
    - rewrite R in E. destruct (member m (mlist s)); injection E as <- <-; (split; [exact R | discriminate]).
    - cbn [set_sets running] in E. rewrite R in E. destruct (find_set i (sets s)); injection E as <- <-; (split; [exact R | discriminate]).
    - destruct (find_set i (sets s)); injection E as <- <-; (split; [exact R | discriminate]).
    - destruct (find_set i (sets s)) as [p|]; [rewrite R, andb_false_r in E|]; injection E as <- <-; (split; [exact R | discriminate]). }
  destruct K as [K1 K2]. destruct (IH s2 s3 ys) as [J1 J2]; auto.
  - eapply step_inv; eassumption.
  - intros ok X. exact (NS ok (or_intror X)).
  - split; [exact J1|]. intros i idx [X|X]; [exact (K2 _ _ X) | exact (J2 _ _ X)].
Qed.
Theorem strgp_stop_final l1 l2 s0 xs0 s1 x1 s2 xs : run init l1 = (s0, xs0) -> step s0 Stop = (s1, x1) -> (forall ok, ~ In (Start ok) l2) ->
  run s1 l2 = (s2, xs) -> running s2 = false /\ forall i idx, ~ In (Stored i idx) xs.
Proof.
  intros R S NS R2. pose proof (run_inv _ _ _ R) as I. pose proof (step_inv _ _ _ _ I S) as I1.
  refine (strgp_stopped_silent l2 s1 s2 xs I1 _ NS R2). cbn [step] in S. destruct (running s0) eqn:E; injection S as <- <-; [reflexivity | exact E].
Qed.
Example strgp_stop_final_example : snd (run init [Start true; Ready 1 [5; 6] true true; Update 1; Stop; Update 1; Ready 2 [5; 6] true true; Update 2; Start true; Update 1; Update 2]) =
  [Rc 0; Rc 0; Stored 1 [0; 1]; Rc 0; Rc 0; Rc 0; Rc 0; Rc 0; Stored 1 [0; 1]; Stored 2 [0; 1]].
Proof. reflexivity. Qed.

(** * All selected sets are stored, when they have the same metrics and nothing fails *)
Record base (M : list nat) (nl : bool) (s : state) : Prop := {
  b_match : forall p, In p (sets s) -> p_match p = true -> p_metrics p = M;
  b_list : incl (mlist s) M;
  b_digest : digest s = None \/ digest s = Some M;
  b_nl : nl = true -> (mlist s = [] \/ mlist s = M) /\ (handle s = true -> mlist s = M)
}.
Lemma attach_base M nl p s : inv s -> base M nl s -> In p (sets s) -> running s = true ->
  base M nl (attach true p s) /\ forall q, In q (sets (attach true p s)) -> p_name q = p_name p -> p_match q = true -> p_ref q = true.
Proof.
  intros I B IN R. pose proof B as [B1 B2 B3 B4]. unfold attach. destruct (negb (p_match p) || p_ref p) eqn:E1.
  { split; [exact B|]. intros q Q N Mq. assert (q = p) by (eapply same_name; eauto; apply I). subst q. rewrite Mq in E1. exact E1. }
  apply orb_false_iff in E1 as [E1 E2]. apply negb_false_iff in E1. pose proof (B1 p IN E1) as PM. rewrite PM.
  assert (DM : match digest s with Some d => negb (eqs d M) | None => false end = false).
  { destruct B3 as [D|D]; rewrite D; [reflexivity|]. apply negb_false_iff, eqs_eq; reflexivity. }
  rewrite DM. destruct (handle s) eqn:H.
  - split; [split; cbn [add_cnt put_set mlist digest handle]; auto; [|intros X; destruct (B4 X) as [Y1 Y2]; auto]|].
    + intros q Q. change (In q (sets (put_set (with_ref true p) s))) in Q. apply in_put in Q as [[-> _]|[Q _]]; [intros _; exact PM | exact (B1 q Q)].
    + intros q Q N _. change (In q (sets (put_set (with_ref true p) s))) in Q. apply in_put in Q as [[-> _]|[_ Q]]; [reflexivity | cbn in Q; congruence].
  - unfold open. set (l := match mlist s with [] => p_metrics p | l => l end). rewrite PM.
    assert (L : incl l M) by (unfold l; destruct (mlist s); [rewrite PM; apply incl_refl | exact B2]).
    assert (LN : nl = true -> l = M) by (intros X; destruct (B4 X) as [[Y|Y] _]; unfold l; rewrite Y; [exact PM | destruct M; [exact PM | reflexivity]]).
    replace (match digest s with Some d => eqs d M | None => true end) with true
      by (destruct B3 as [D|D]; rewrite D; [reflexivity | symmetry; apply eqs_eq; reflexivity]).
    pose proof (indices_some M l L) as A. destruct (indices M l) as [a|]; [|congruence].
    set (s2 := mkSt (running s) true (Some M) l a (cnt s) (S (arrays s)) (sets s)).
    split; [split; cbn [s2 add_cnt put_set mlist digest handle]; auto|].
    + intros q Q. change (In q (sets (put_set (with_ref true p) s2))) in Q. apply in_put in Q as [[-> _]|[Q _]]; [intros _; exact PM | exact (B1 q Q)].
    + intros q Q N _. change (In q (sets (put_set (with_ref true p) s2))) in Q. apply in_put in Q as [[-> _]|[_ Q]]; [reflexivity | cbn in Q; congruence].
Qed.
Lemma attach_all_base M nl : forall l s, inv s -> base M nl s -> incl l (sets s) -> NoDup (map p_name l) -> running s = true ->
  base M nl (attach_all true l s) /\ (forall q, ~ In (p_name q) (map p_name l) -> In q (sets s) <-> In q (sets (attach_all true l s))) /\
  forall q, In q (sets (attach_all true l s)) -> In (p_name q) (map p_name l) -> p_match q = true -> p_ref q = true.
Proof.
  induction l as [|p r IH]; intros s I B IN ND R; cbn [attach_all map]; [split; [exact B|]; split; [tauto | intros q _ []]|]. inversion_clear ND as [|? ? N1 N2].
  destruct (attach_inv true p s I (IN p (or_introl eq_refl)) R) as (I1 & R1 & NM & OT).
  destruct (attach_base M nl p s I B (IN p (or_introl eq_refl)) R) as [B1 A1].
  destruct (IH (attach true p s)) as (B2 & O2 & A2); auto.
  { intros q Q. apply OT; [|apply IN; right; exact Q]. intros X. apply N1. rewrite <- X. apply in_map; exact Q. }
  split; [exact B2|]. split.
  - intros q X. rewrite <- O2; [|intros Y; apply X; right; exact Y]. apply OT. intros Y. apply X. left; congruence.
  - intros q Q [X|X] MQ; [|exact (A2 q Q X MQ)]. apply (A1 q); auto. apply O2; [|exact Q]. rewrite <- X. exact N1.
Qed.
Record good (M : list nat) (nl : bool) (s : state) : Prop := {
  g_inv : inv s;
  g_base : base M nl s;
  g_all : running s = true -> forall p, In p (sets s) -> p_match p = true -> p_ref p = true
}.
Definition is_list_op (o : op) : bool := match o with MetricAdd _ | MetricDel _ => true | _ => false end.
Lemma step_good M nl s o s1 x : good M nl s -> smooth_op M o /\ (nl = true -> is_list_op o = false) -> step s o = (s1, x) -> good M nl s1.
Proof.
  intros G [SM NL] H. pose proof G as [I B A]. pose proof (step_inv _ _ _ _ I H) as I1. pose proof B as [B1 B2 B3 B4]. pose proof I as [K1 K2 K3]. destruct o; cbn [step smooth_op is_list_op] in *.
  - subst ok. destruct (running s) eqn:R; injection H as <- <-; [exact G|].
    assert (HF : handle s = false) by (destruct (handle s); [destruct (K2 eq_refl) as [X _]; congruence | reflexivity]).
    destruct (attach_all_base M nl (sets s) (set_running true s)) as (Y1 & _ & Y2); [| | apply incl_refl | exact K1 | reflexivity|].
    + split; cbn [set_running sets running handle digest mlist arry]; [exact K1 | congruence|]. intros p P F. destruct (K3 p P F) as (_ & X & _). congruence.
    + split; cbn [set_running sets running handle digest mlist arry]; auto.
    + split; [exact I1 | exact Y1|]. intros _ p P MP. apply Y2; auto.
      assert (NMS : names (attach_all true (sets s) (set_running true s)) = names s).
      { apply (attach_all_inv true (sets s) (set_running true s)); [| apply incl_refl | exact K1 | reflexivity].
        split; cbn [set_running sets running handle digest mlist arry]; [exact K1 | congruence|]. intros p0 P0 F. destruct (K3 p0 P0 F) as (_ & X & _). congruence. }
      change (In (p_name p) (names s)). rewrite <- NMS. apply in_map; exact P.
  - destruct (running s) eqn:R; injection H as <- <-; [|exact G]. split; [exact I1 | |intros X; discriminate X].
    split; cbn [set_sets set_running set_handle sets running handle digest mlist arry]; auto.
    + intros q Q MQ. apply in_detach in Q as [p [P ->]]. unfold detach in *. destruct (p_match p && p_ref p) eqn:E; [|exact (B1 p P MQ)].
      apply andb_true_iff in E as [E _]. exact (B1 p P E).
    + intros X. destruct (B4 X) as [Y _]. split; [exact Y | discriminate].
  - destruct (running s) eqn:R; [injection H as <- <-; exact G|]. destruct (member m (mlist s)); injection H as <- <-; [exact G|].
    split; [exact I1 | | cbn [set_list running]; congruence]. split; cbn [set_list sets digest mlist handle]; auto.
    + intros y Y. apply in_app_or in Y as [Y|[<-|[]]]; [exact (B2 y Y) | exact SM].
    + intros X. discriminate (NL X).
  - destruct (running s) eqn:R; [injection H as <- <-; exact G|]. destruct (member m (mlist s)); injection H as <- <-; [|exact G].
    split; [exact I1 | | cbn [set_list running]; congruence]. split; cbn [set_list sets digest mlist handle]; auto.
    + intros y Y. apply B2. clear -Y. revert Y. generalize (mlist s). intros ml. induction ml as [|z r IH]; cbn; [tauto|]. destruct (Nat.eqb z m); cbn; tauto.
    + intros X. discriminate (NL X).
  - destruct SM as [-> SM]. destruct (find_set i (sets s)) eqn:F; injection H as <- <-; [exact G|]. apply find_set_none in F.
    set (p := mkP i ms match_ false) in *. set (s0 := set_sets (p :: sets s) s) in *.
    assert (I0 : inv s0).
    { split; cbn [s0 set_sets sets running handle digest mlist arry]; auto; [constructor; assumption|]. intros q [<-|P] X; [discriminate X | exact (K3 q P X)]. }
    assert (B0 : base M nl s0).
    { split; cbn [s0 set_sets sets running handle digest mlist arry]; auto. intros q [<-|P] X; [exact (SM X) | exact (B1 q P X)]. }
    change (running s0) with (running s) in *. destruct (running s) eqn:R.
    + destruct (attach_base M nl p s0 I0 B0 (or_introl eq_refl) R) as [Y1 Y2]. destruct (attach_inv true p s0 I0 (or_introl eq_refl) R) as (_ & _ & _ & OT).
      split; [exact I1 | exact Y1|]. intros _ q Q MQ. destruct (Nat.eq_dec (p_name q) (p_name p)) as [E|E]; [exact (Y2 q Q E MQ)|].
      apply OT in Q; [|exact E]. destruct Q as [<-|Q]; [congruence|]. exact (A eq_refl q Q MQ).
    + split; [exact I1 | exact B0|]. change (running s0) with (running s). congruence.
  - destruct (find_set i (sets s)) as [p|] eqn:F; injection H as <- <-; [|exact G].
    split; [exact I1 | split; cbn [add_cnt set_sets sets digest mlist handle]; auto|]; cbn [add_cnt set_sets sets running]; intros; apply A || apply B1; auto;
    match goal with X : In ?q (filter _ _) |- _ => apply filter_In in X as [X _]; exact X end.
  - destruct (find_set i (sets s)) as [p|] eqn:F; [|injection H as <- <-; exact G].
    apply find_set_some in F as [F _]. destruct (p_ref p && running s) eqn:E; [|injection H as <- <-; exact G].
    apply andb_true_iff in E as [E1 E2]. destruct (K3 p F E1) as (_ & _ & X & _). rewrite X in H. injection H as <- <-. exact G.
Qed.
Lemma init_good M nl : good M nl init.
Proof. split; [exact init_inv | split; cbn; auto; [intros p [] | intros x [] | intros _; split; [auto | discriminate]] | discriminate]. Qed.

(** When all selected sets have the same metrics, those asked for are among them, and the store opens, each
    update of a selected set is stored while the policy runs; all metrics when none were asked for *)
Theorem strgp_all_stored_partial M l s xs p : smooth M l -> run init l = (s, xs) -> running s = true -> In p (sets s) -> p_match p = true ->
  exists idx, step s (Update (p_name p)) = (s, Stored (p_name p) idx) /\ named (p_metrics p) idx (mlist s) /\
              (no_list l -> named (p_metrics p) idx (p_metrics p)).
Proof.
  intros SM R RN P MP.
  assert (G : forall nl, (nl = true -> no_list l) -> good M nl s).
  { intros nl NL. refine (run_step_inv (good M nl) (fun o => smooth_op M o /\ (nl = true -> is_list_op o = false)) _ l init s xs (init_good M nl) _ R).
    - intros s0 o s1 x A B C. eapply step_good; eassumption.
    - intros o O. split; [exact (SM o O)|]. intros X. specialize (NL X). destruct o; auto; destruct (NL m) as [Y1 Y2]; exfalso; [apply Y1 | apply Y2]; exact O. }
  destruct (strgp_taken_up_stored l s xs p R P (g_all _ _ _ (G false ltac:(discriminate)) RN p P MP)) as [_ [idx E]].
  exists idx. split; [exact E|]. destruct (strgp_stored_right l s xs _ _ _ _ R E) as (_ & _ & _ & q & Q & N & _ & NM).
  assert (q = p) by (eapply same_name; eauto; exact (i_names _ (run_inv _ _ _ R))). subst q. split; [exact NM|].
  intros NL. pose proof (G true (fun _ => NL)) as GT. destruct (g_base _ _ _ GT) as [Y1 _ _ Y4]. rewrite <- (Y1 p P MP) in Y4.
  pose proof (i_ref _ (g_inv _ _ _ GT) p P (g_all _ _ _ GT RN p P MP)) as (_ & _ & H & _). destruct (Y4 eq_refl) as [_ Y]. rewrite (Y H) in NM. exact NM.
Qed.
Example strgp_all_stored_example : let l := [Ready 1 [5; 6] true true; Ready 3 [8] false true; Start true; Ready 2 [5; 6] true true] in
  smooth [5; 6] l /\ no_list l /\ let '(s, _) := run init l in running s = true /\ map snd [step s (Update 1); step s (Update 2); step s (Update 3)] = [Stored 1 [0; 1]; Stored 2 [0; 1]; Rc 0].
Proof.
  cbn zeta. split; [|split; [|vm_compute; split; reflexivity]].
  - intros o. cbn. intros [<-|[<-|[<-|[<-|[]]]]]; cbn; auto. split; [reflexivity | discriminate].
  - intros m. cbn. split; intros [X|[X|[X|[X|[]]]]]; discriminate.
Qed.
(** In general it is not so: after an open that failed, a policy for all metrics keeps those of the first
    set, and stores only these of the next set, or nothing of it *)
Theorem strgp_all_metrics_refuted : exists l s xs p idx, no_list l /\ run init l = (s, xs) /\ running s = true /\ In p (sets s) /\ p_match p = true /\
  step s (Update (p_name p)) = (s, Stored (p_name p) idx) /\ ~ named (p_metrics p) idx (p_metrics p).
Proof.
  exists [Start true; Ready 1 [5; 6] true false; Gone 1; Ready 2 [4; 5; 6] true true]. do 4 eexists.
  split; [intros m; cbn; split; intros [X|[X|[X|[X|[]]]]]; discriminate|].
  split; [vm_compute; reflexivity|]. split; [reflexivity|]. split; [left; reflexivity|]. split; [reflexivity|]. split; [vm_compute; reflexivity|]. vm_compute. discriminate.
Qed.
Theorem strgp_never_stored_refuted : exists l s xs p, no_list l /\ run init l = (s, xs) /\ running s = true /\ In p (sets s) /\ p_match p = true /\
  (forall q, In q (sets s) -> q = p) /\ step s (Update (p_name p)) = (s, Rc 0) /\
  (forall ok, let '(s1, _) := run s [Stop; Start ok] in snd (step s1 (Update (p_name p))) = Rc 0).
Proof.
  exists [Start true; Ready 1 [5; 6] true false; Gone 1; Ready 2 [4; 5] true true]. do 3 eexists.
  split; [intros m; cbn; split; intros [X|[X|[X|[X|[]]]]]; discriminate|].
  split; [vm_compute; reflexivity|]. split; [reflexivity|]. split; [left; reflexivity|]. split; [reflexivity|].
  split; [intros q [<-|[]]; reflexivity|]. split; [vm_compute; reflexivity|]. intros []; vm_compute; reflexivity.
Qed.
(** ... and when the metrics of the sets change while the policy is stopped, it goes on refusing them *)
Theorem strgp_restart_refuted : exists l s xs p, no_list l /\ run init l = (s, xs) /\ running s = true /\ In p (sets s) /\ p_match p = true /\
  (forall q, In q (sets s) -> q = p) /\ step s (Update (p_name p)) = (s, Rc 0).
Proof.
  exists [Start true; Ready 1 [5; 6] true true; Stop; Gone 1; Ready 1 [5; 6; 7] true true; Start true]. do 3 eexists.
  split; [intros m; cbn; split; intros [X|[X|[X|[X|[X|[X|[]]]]]]]; discriminate|].
  split; [vm_compute; reflexivity|]. split; [reflexivity|]. split; [left; reflexivity|]. split; [reflexivity|].
  split; [intros q [<-|[]]; reflexivity | vm_compute; reflexivity].
Qed.

(** * The metrics asked for *)
Definition keeps_list (o : op) : bool := negb (is_list_op o).
Lemma attach_mlist ok p s : mlist s <> [] -> mlist (attach ok p s) = mlist s.
Proof.
  intros N. unfold attach. destruct (_ || _); [reflexivity|]. destruct (match digest s with Some _ => _ | None => _ end); [reflexivity|].
  destruct (handle s); [reflexivity|]. unfold open. destruct (mlist s) as [|m r] eqn:E; [congruence|].
  destruct (match digest s with Some _ => _ | None => _ end); [|reflexivity]. destruct (indices _ _); [|reflexivity]. destruct ok; reflexivity.
Qed.
Lemma attach_all_mlist ok : forall l s, mlist s <> [] -> mlist (attach_all ok l s) = mlist s.
Proof. induction l as [|p r IH]; intros s N; cbn; [reflexivity|]. rewrite IH; rewrite attach_mlist; auto. Qed.
Lemma step_mlist s o s1 x : mlist s <> [] -> keeps_list o = true -> step s o = (s1, x) -> mlist s1 = mlist s.
Proof.
  intros N K H. destruct o; cbn in K; try discriminate K; cbn [step] in H.
  - destruct (running s); injection H as <- <-; [reflexivity|]. exact (attach_all_mlist ok (sets s) (set_running true s) N).
  - destruct (running s); injection H as <- <-; reflexivity.
  - destruct (find_set i (sets s)); injection H as <- <-; [reflexivity|]. cbn [set_sets running]. destruct (running s); [|reflexivity]. apply (attach_mlist ok _ (set_sets _ s) N).
  - destruct (find_set i (sets s)); injection H as <- <-; reflexivity.
  - destruct (find_set i (sets s)); [|injection H as <- <-; reflexivity]. destruct (_ && _); [destruct (handle s)|]; injection H as <- <-; reflexivity.
Qed.
Lemma run_app s a b s1 xs : run s (a ++ b) = (s1, xs) -> exists s0 xs0 ys, run s a = (s0, xs0) /\ run s0 b = (s1, ys).
Proof.
  revert s xs. induction a as [|o r IH]; intros s xs H; cbn in *; [eauto|].
  destruct (step s o) as [s2 x]. destruct (run s2 (r ++ b)) as [s3 zs] eqn:E. injection H as -> _.
  destruct (IH _ _ E) as (s0 & xs0 & ys & A & B). rewrite A. eauto.
Qed.
Lemma member_in m l : member m l = true -> In m l.
Proof. unfold member. intros H. apply existsb_exists in H as [x [X E]]. apply Nat.eqb_eq in E. subst; exact X. Qed.
Lemma run_adds : forall a s s1 xs, running s = false -> NoDup (mlist s ++ a) -> run s (map MetricAdd a) = (s1, xs) -> mlist s1 = mlist s ++ a.
Proof.
  induction a as [|m r IH]; intros s s1 xs R ND H; cbn in H; [injection H as <- <-; symmetry; apply app_nil_r|].
  rewrite R in H. destruct (member m (mlist s)) eqn:E.
  - exfalso. apply member_in in E. apply (NoDup_remove_2 _ _ _ ND). apply in_or_app; left; exact E.
  - destruct (run _ (map MetricAdd r)) as [s2 ys] eqn:RR in H. injection H as <- <-.
    rewrite (IH _ _ _ (R : running (set_list (mlist s ++ [m]) s) = false)) with (2 := RR); cbn [set_list mlist]; rewrite <- app_assoc; [reflexivity | exact ND].
Qed.
(** Metrics that are asked for before all else are what is stored, in that order, in each set; as long as
    the list is not changed *)
Theorem strgp_list_stored_partial names rest s xs i s1 j idx : names <> [] -> NoDup names -> no_list rest ->
  run init (map MetricAdd names ++ rest) = (s, xs) -> step s (Update i) = (s1, Stored j idx) ->
  exists p, In p (sets s) /\ p_name p = i /\ named (p_metrics p) idx names.
Proof.
  intros NE ND NL H E. destruct (strgp_stored_right _ _ _ _ _ _ _ H E) as (_ & _ & _ & p & P & N & _ & NM).
  exists p. split; [exact P|]. split; [exact N|]. replace names with (mlist s); [exact NM|].
  destruct (run_app _ _ _ _ _ H) as (s0 & xs0 & ys & A & B). pose proof (run_adds names init s0 xs0 eq_refl ND A) as L. cbn in L.
  assert (K : mlist s = names /\ mlist s <> []); [|exact (proj1 K)].
  refine (run_step_inv (fun s => mlist s = names /\ mlist s <> []) (fun o => keeps_list o = true) _ rest s0 s ys _ _ B).
  - intros s2 o s3 x [Y1 Y2] KO ST. rewrite (step_mlist _ _ _ _ Y2 KO ST). auto.
  - rewrite L. auto.
  - intros o O. destruct o; auto; destruct (NL m) as [Y1 Y2]; exfalso; [apply Y1 | apply Y2]; exact O.
Qed.
Example strgp_list_example : let '(s, _) := run init (map MetricAdd [7; 5] ++ [Start false; Ready 1 [5; 6; 7] true false; Stop; Ready 2 [7; 5] true true; Start true]) in
  snd (step s (Update 2)) = Stored 2 [0; 1] /\ snd (step s (Update 1)) = Rc 0.
Proof. vm_compute. split; reflexivity. Qed.
(** After a run for all metrics, a metric cannot be asked for any more: all are still stored *)
Theorem strgp_list_late_refuted : exists m s xs s1 x s2 y idx, run init [Start true; Ready 1 [5; 6] true true; Stop] = (s, xs) /\
  step s (MetricAdd m) = (s1, x) /\ x <> Rc 0 /\ step s1 (Start true) = (s2, y) /\ snd (step s2 (Update 1)) = Stored 1 idx /\ ~ named [5; 6] idx [m].
Proof.
  exists 5. do 7 eexists. split; [vm_compute; reflexivity|]. split; [vm_compute; reflexivity|]. split; [discriminate|].
  split; [vm_compute; reflexivity|]. split; [vm_compute; reflexivity|]. vm_compute. discriminate.
Qed.

(** * What starting and stopping leave behind *)
(** The number of sets that the policy keeps (prdset_cnt, "Number of producer sets strgp stores"; no command shows it) is not that of the sets it stores after a stop *)
Theorem strgp_count_refuted : exists l s xs, run init l = (s, xs) /\ stored_sets s = 1 /\ cnt s = 2%Z.
Proof. exists [Start true; Ready 1 [5; 6] true true; Stop; Start true]. do 2 eexists. split; [vm_compute; reflexivity | split; reflexivity]. Qed.
(** Each restart keeps the former array of metric indices *)
Fixpoint restarts (n : nat) : list op := match n with O => [] | S k => Stop :: Start true :: restarts k end.
Theorem strgp_arrays_grow n : let '(s, _) := run init (Start true :: Ready 1 [5; 6] true true :: restarts n) in
  arrays s = S n /\ cnt s = Z.of_nat (S n) /\ stored_sets s = 1.
Proof.
  pose (st k := mkSt true true (Some [5; 6]) [5; 6] [0; 1] (Z.of_nat k) k [mkP 1 [5; 6] true true]).
  pose (sp k := mkSt false false (Some [5; 6]) [5; 6] [0; 1] (Z.of_nat k) k [mkP 1 [5; 6] true false]).
  assert (E1 : forall k, step (st k) Stop = (sp k, Rc 0)) by reflexivity.
  assert (E2 : forall k, step (sp k) (Start true) = (st (S k), Rc 0)).
  { intros k. unfold sp, st. rewrite Nat2Z.inj_succ. unfold Z.succ. reflexivity. }
  assert (G : forall n k, let '(s, _) := run (st k) (restarts n) in arrays s = n + k /\ cnt s = Z.of_nat (n + k) /\ stored_sets s = 1).
  { clear n. induction n as [|n IH]; intros k; [cbn; auto|]. cbn [restarts run]. rewrite E1, E2. specialize (IH (S k)).
    destruct (run (st (S k)) (restarts n)) as [s ys]. replace (S n + k) with (n + S k) by lia. exact IH. }
  specialize (G n 1). cbn [run]. change (step init (Start true)) with (set_running true init, Rc 0). cbn iota.
  change (step (set_running true init) (Ready 1 [5; 6] true true)) with (st 1, Rc 0). cbn iota.
  destruct (run (st 1) (restarts n)) as [s ys]. replace (S n) with (n + 1) by lia. exact G.
Qed.
Theorem strgp_arrays_refuted : exists l s xs, run init l = (s, xs) /\ running s = false /\ handle s = false /\ sets s = [] /\ arrays s = 2.
Proof. exists [Start true; Ready 1 [5; 6] true true; Stop; Start true; Stop; Gone 1]. do 2 eexists. split; [vm_compute; reflexivity | repeat split; reflexivity]. Qed.

(** A start that comes while a stop of the policy is under way: both wait for ever *)
Theorem strgp_deadlock_refuted : exists ts c, goes ts (mkC [] [stop_acts 1; start_acts 1] true) = Some c /\ deadlock c.
Proof.
  exists [0; 0; 0; 0; 0; 1; 1; 0]. eexists. split; [vm_compute; reflexivity|]. split.
  - intros [|[|t]]; [reflexivity | reflexivity|]. cbn. destruct t; reflexivity.
  - exists 0. do 2 eexists. vm_compute. reflexivity.
Qed.
(** One after the other they finish, here for two sets *)
Example strgp_serial : exists ts c, goes ts (mkC [] [stop_acts 2; start_acts 2] true) = Some c /\ todo c = [[]; []] /\ held c = [] /\ isrun c = true.
Proof. exists (repeat 0 15 ++ repeat 1 15). eexists. split; [vm_compute; reflexivity | repeat split; reflexivity]. Qed.

Print Assumptions strgp_stored_right.
Print Assumptions strgp_taken_up_stored.
Print Assumptions strgp_stop_final.
Print Assumptions strgp_all_stored_partial.
Print Assumptions strgp_all_metrics_refuted.
Print Assumptions strgp_never_stored_refuted.
Print Assumptions strgp_restart_refuted.
Print Assumptions strgp_count_refuted.
Print Assumptions strgp_arrays_grow.
Print Assumptions strgp_arrays_refuted.
Print Assumptions strgp_deadlock_refuted.
Print Assumptions strgp_list_stored_partial.
Print Assumptions strgp_list_late_refuted.
