(** The pointer programs on represented trees. *)
From Verif Require Export L_RbtTree L_RbtGen.
From Coq Require Import ZifyBool ZifyNat ZifyN.
Local Open Scope N_scope.

Definition wp {A} (m : prog A) (Q : A -> st -> Prop) (s : st) : Prop :=
  exists a s', m s = Some (a, s') /\ Q a s'.

Lemma wp_ret {A} (a : A) (Q : A -> st -> Prop) s : Q a s -> wp (ret a) Q s.
Proof. intros H. exists a, s. auto. Qed.
Lemma wp_bind {A B} (m : prog A) (k : A -> prog B) Q s : wp m (fun a s1 => wp (k a) Q s1) s -> wp (bind m k) Q s.
Proof. intros (a & s1 & E & b & s2 & E2 & H). exists b, s2. unfold bind. rewrite E. auto. Qed.
Lemma wp_mono {A} (m : prog A) (Q Q' : A -> st -> Prop) s : wp m Q s -> (forall a s', Q a s' -> Q' a s') -> wp m Q' s.
Proof. intros (a & s' & E & H) HQ. exists a, s'. auto. Qed.
Lemma wp_assert b (Q : unit -> st -> Prop) s : b = true -> Q tt s -> wp (assert_ b) Q s.
Proof. intros -> H. now apply wp_ret. Qed.
Lemma wp_load a n (Q : node -> st -> Prop) s : a <> 0 -> heap s a = Some n -> Q n s -> wp (load a) Q s.
Proof. intros Ha Hh HQ. exists n, s. unfold load. rewrite (proj2 (N.eqb_neq _ _) Ha), Hh. auto. Qed.
Lemma wp_store a f n (Q : unit -> st -> Prop) s : a <> 0 -> heap s a = Some n ->
  Q tt (mkSt (root s) (card s) (upd (heap s) a (f n))) -> wp (store a f) Q s.
Proof. intros Ha Hh HQ. eexists tt, _. unfold store. rewrite (proj2 (N.eqb_neq _ _) Ha), Hh. split; [reflexivity|exact HQ]. Qed.
Lemma wp_get_left a n (Q : N -> st -> Prop) s : a <> 0 -> heap s a = Some n -> Q (left n) s -> wp (get_left a) Q s.
Proof. intros. apply wp_bind. eapply wp_load; eauto. now apply wp_ret. Qed.
Lemma wp_get_right a n (Q : N -> st -> Prop) s : a <> 0 -> heap s a = Some n -> Q (right n) s -> wp (get_right a) Q s.
Proof. intros. apply wp_bind. eapply wp_load; eauto. now apply wp_ret. Qed.
Lemma wp_get_parent a n (Q : N -> st -> Prop) s : a <> 0 -> heap s a = Some n -> Q (parent n) s -> wp (get_parent a) Q s.
Proof. intros. apply wp_bind. eapply wp_load; eauto. now apply wp_ret. Qed.
Lemma wp_get_key a n (Q : N -> st -> Prop) s : a <> 0 -> heap s a = Some n -> Q (key n) s -> wp (get_key a) Q s.
Proof. intros. apply wp_bind. eapply wp_load; eauto. now apply wp_ret. Qed.
Lemma wp_get_color a n (Q : color -> st -> Prop) s : a <> 0 -> heap s a = Some n -> Q (col n) s -> wp (get_color a) Q s.
Proof. intros. apply wp_bind. eapply wp_load; eauto. now apply wp_ret. Qed.
Lemma wp_get_root (Q : N -> st -> Prop) s : Q (root s) s -> wp get_root Q s.
Proof. intros H. exists (root s), s. auto. Qed.
Lemma wp_set_root v (Q : unit -> st -> Prop) s : Q tt (mkSt v (card s) (heap s)) -> wp (set_root v) Q s.
Proof. intros H. eexists tt, _. split; [reflexivity|exact H]. Qed.
Lemma wp_get_card (Q : Z -> st -> Prop) s : Q (card s) s -> wp get_card Q s.
Proof. intros H. exists (card s), s. auto. Qed.
Lemma wp_set_card v (Q : unit -> st -> Prop) s : Q tt (mkSt (root s) v (heap s)) -> wp (set_card v) Q s.
Proof. intros H. eexists tt, _. split; [reflexivity|exact H]. Qed.

Lemma crep_root h C p rt : C <> [] -> crep h C p rt -> (1 <= ccnt rt C)%nat.
Proof.
  revert p. induction C as [|[d c a k s] C IH]; intros p Hne H; [congruence|].
  cbn [crep ccnt faddr] in *. destruct H as (_ & _ & _ & H). destruct C as [|f C].
  - cbn in H. subst rt. rewrite one_same. lia.
  - specialize (IH a ltac:(congruence) H). lia.
Qed.

(** Tactics.  [Hc] bounds the occurrences of each address. *)
Ltac cnt_lia Hc :=
  repeat match goal with H : _ |- _ => progress cbn [cnt ccnt app] in H end; rewrite ?one_same in *; lia.
Ltac cz Hc a := let Hv := fresh "Hv" in pose proof (Hc a) as Hv; cbn [cnt ccnt app] in Hv; rewrite ?one_same in Hv; clear - Hv; lia.
Ltac ne_tac Hc :=
  first [ assumption | apply not_eq_sym; assumption
        | let Hx := fresh "Hx" in let Hv := fresh "Hv" in
          match goal with |- ?u <> ?v =>
            intros Hx; pose proof (Hc v) as Hv; cbn [cnt ccnt] in Hv; rewrite ?Hx in Hv; rewrite ?one_same in Hv; clear - Hv; lia
          end ].
Ltac simp_eqb Hc :=
  repeat match goal with
  | |- context [?u =? ?u] => rewrite (N.eqb_refl u)
  | |- context [?u =? ?v] => rewrite (proj2 (N.eqb_neq u v)) by ne_tac Hc
  end.
Ltac nz := first [assumption | apply not_eq_sym; assumption].
Ltac look Hc := cbn [heap root card]; unfold upd; simp_eqb Hc; cbn [left right parent col key]; first [eassumption|reflexivity].
Ltac fr_tac Hc :=
  let b := fresh "b" in let Hb := fresh "Hb" in
  intros b Hb; try intros ?; cbn [heap root card]; unfold upd;
  repeat match goal with |- context [b =? ?a] =>
    let Eb := fresh "Eb" in
    destruct (N.eqb_spec b a) as [Eb|Eb];
      [exfalso; rewrite Eb in Hb; let Hv := fresh "Hv" in pose proof (Hc a) as Hv; cbn [cnt ccnt rootp cpar] in Hv, Hb; rewrite ?one_same in Hv; rewrite ?one_same in Hb; clear - Hv Hb; lia|]
  end; try reflexivity.
Ltac step Hc :=
  cbv beta;
  lazymatch goal with
  | |- wp (bind _ _) _ _ => apply wp_bind
  | |- wp (ret _) _ _ => apply wp_ret
  | |- wp (load _) _ _ => eapply wp_load; [ne_tac Hc|look Hc|cbn [left right parent col key]]
  | |- wp (get_left _) _ _ => eapply wp_get_left; [ne_tac Hc|look Hc|cbn [left right parent col key]]
  | |- wp (get_right _) _ _ => eapply wp_get_right; [ne_tac Hc|look Hc|cbn [left right parent col key]]
  | |- wp (get_parent _) _ _ => eapply wp_get_parent; [ne_tac Hc|look Hc|cbn [left right parent col key]]
  | |- wp (get_key _) _ _ => eapply wp_get_key; [ne_tac Hc|look Hc|cbn [left right parent col key]]
  | |- wp (get_color _) _ _ => eapply wp_get_color; [ne_tac Hc|look Hc|cbn [left right parent col key]]
  | |- wp (set_left _ _) _ _ => eapply wp_store; [ne_tac Hc|look Hc|cbn [left right parent col key root card heap]]
  | |- wp (set_right _ _) _ _ => eapply wp_store; [ne_tac Hc|look Hc|cbn [left right parent col key root card heap]]
  | |- wp (set_parent _ _) _ _ => eapply wp_store; [ne_tac Hc|look Hc|cbn [left right parent col key root card heap]]
  | |- wp (set_color _ _) _ _ => eapply wp_store; [ne_tac Hc|look Hc|cbn [left right parent col key root card heap]]
  | |- wp get_root _ _ => apply wp_get_root; cbn [root]
  | |- wp (set_root _) _ _ => apply wp_set_root; cbn [root card heap]
  | |- wp (assert_ _) _ _ => apply wp_assert; [simp_eqb Hc; reflexivity|]
  | |- wp (if ?b then _ else _) _ _ => progress (simp_eqb Hc; cbn [negb andb orb])
  end.


(** Finishing: the new state represents the new tree *)
Ltac out_tac HF HG :=
  let b := fresh "b" in let Hb := fresh "Hb" in
  intros b Hb; cbn [heap root card]; unfold upd;
  repeat match goal with |- context [b =? ?a] =>
    let Eb := fresh "Eb" in
    destruct (N.eqb_spec b a) as [Eb|Eb];
      [exfalso; rewrite Eb in Hb; rewrite <- HF in Hb; cbn [cnt ccnt] in Hb; rewrite ?one_same in Hb; clear - Hb; lia|]
  end; apply HG; exact Hb.
Ltac cell Hc := cbn [heap root card]; unfold upd; simp_eqb Hc; cbn [left right parent col key fnode]; first [reflexivity|assumption].
Ltac rep_fin Hc :=
  cbn [rep rootp crep faddr fsib fnode cpar];
  repeat match goal with |- _ /\ _ => split end;
  try nz; try (cell Hc);
  try (lazymatch goal with
       | |- rep _ _ _ => eapply rep_frame; [|eassumption]; fr_tac Hc
       | |- crep _ _ _ _ => eapply crep_frame; [|eassumption]; fr_tac Hc
       end);
  try exact I.
Ltac z_fin Hc HF HF1 HG :=
  unfold Z_; split; [|split; [|split; [|split; [|split]]]]; cbn [heap root card];
  [rep_fin Hc|rep_fin Hc|intros ?b; rewrite <- HF; cbn [cnt ccnt]; lia|exact HF1|out_tac HF HG|assumption].

Lemma rootp_ne t x : x <> 0 -> (cnt x t = 0)%nat -> rootp t <> x.
Proof. intros Hx Hc E0. destruct t as [|c l a k r]; cbn in *; [congruence|]. subst. rewrite one_same in Hc. lia. Qed.

Lemma rotate_left_spec v G s C cx l x kx cy m y ky r (Q : unit -> st -> Prop) :
  Z_ G s C (T cx l x kx (T cy m y ky r)) ->
  (forall s', Z_ G s' C (T cy (T cx l x kx m) y ky r) -> Q tt s') -> (C = [] -> cy = Black) -> wp (grotate_left v x) Q s.
Proof.
  destruct s as [rt cd h].
  intros (HC & (Hx & Ex & Rl & Hy & Ey & Rm & Rr) & HF & HF1 & HG & Hcard) HQ Hcy. cbn [heap root card] in *.
  assert (Hc : forall b, (ccnt b C + cnt b (T cx l x kx (T cy m y ky r)) <= 1)%nat) by (intros b; rewrite HF; apply HF1).
  cbn [rootp] in *.
  assert (Hroot : C <> [] -> rt <> x).
  { intros Hne E0. pose proof (crep_root _ _ _ _ Hne HC). rewrite E0 in *. pose proof (Hc x). cnt_lia Hc. }
  unfold grotate_left.
  destruct m as [|cm ml mx km mr]; [|destruct Rm as (Hm & Em & Rml & Rmr)];
  (destruct C as [|[[] c a k sb] C]; cbn [crep faddr fsib fnode cpar rootp] in *;
    [subst rt; rewrite (Hcy eq_refl) in *; destruct v|destruct HC as (Ha & Ea & Rs & HC); specialize (Hroot ltac:(congruence));
      assert (Hsb : rootp sb <> x) by (apply rootp_ne; [assumption|cz Hc x])..]);
  repeat step Hc; apply HQ; z_fin Hc HF HF1 HG.
Qed.
Lemma rotate_right_spec v G s C cx m x kx cy l y ky r (Q : unit -> st -> Prop) :
  Z_ G s C (T cx (T cy l y ky m) x kx r) ->
  (forall s', Z_ G s' C (T cy l y ky (T cx m x kx r)) -> Q tt s') -> (C = [] -> cy = Black) -> wp (grotate_right v x) Q s.
Proof.
  destruct s as [rt cd h].
  intros (HC & (Hx & Ex & (Hy & Ey & Rl & Rm) & Rr) & HF & HF1 & HG & Hcard) HQ Hcy. cbn [heap root card] in *.
  assert (Hc : forall b, (ccnt b C + cnt b (T cx (T cy l y ky m) x kx r) <= 1)%nat) by (intros b; rewrite HF; apply HF1).
  cbn [rootp] in *.
  assert (Hroot : C <> [] -> rt <> x).
  { intros Hne E0. pose proof (crep_root _ _ _ _ Hne HC). rewrite E0 in *. pose proof (Hc x). cnt_lia Hc. }
  unfold grotate_right.
  destruct m as [|cm ml mx km mr]; [|destruct Rm as (Hm & Em & Rml & Rmr)];
  (destruct C as [|[[] c a k sb] C]; cbn [crep faddr fsib fnode cpar rootp] in *;
    [subst rt; rewrite (Hcy eq_refl) in *; destruct v|destruct HC as (Ha & Ea & Rs & HC); specialize (Hroot ltac:(congruence));
      assert (Hsb : rootp sb <> x) by (apply rootp_ne; [assumption|cz Hc x])..]);
  repeat step Hc; apply HQ; z_fin Hc HF HF1 HG.
Qed.

Lemma Z_u G s f C t : Z_ G s (f :: C) t -> Z_ G s C (up f t).
Proof. apply Z_up. Qed.
Lemma Z_d G s f C t : Z_ G s C (up f t) -> Z_ G s (f :: C) t.
Proof. apply Z_up. Qed.

Lemma set_color_spec G s C c l a k r c' (Q : unit -> st -> Prop) :
  Z_ G s C (T c l a k r) -> (forall s', Z_ G s' C (T c' l a k r) -> Q tt s') -> wp (set_color a c') Q s.
Proof.
  destruct s as [rt cd h].
  intros (HC & (Hx & Ex & Rl & Rr) & HF & HF1 & HG & Hcard) HQ. cbn [heap root card] in *.
  assert (Hc : forall b, (ccnt b C + cnt b (T c l a k r) <= 1)%nat) by (intros b; rewrite HF; apply HF1).
  cbn [rootp] in *. repeat step Hc. apply HQ. z_fin Hc HF HF1 HG.
Qed.
Lemma set_color_par G s C d c a k x t c' (Q : unit -> st -> Prop) :
  Z_ G s (Fr d c a k x :: C) t -> (forall s', Z_ G s' (Fr d c' a k x :: C) t -> Q tt s') -> wp (set_color a c') Q s.
Proof.
  intros H HQ. apply Z_up in H. destruct d; cbn [up] in H; (eapply set_color_spec; [exact H|]);
  intros s' H'; apply HQ, Z_up; exact H'.
Qed.
Lemma set_color_sib G s C d c a k cu l u ku r t c' (Q : unit -> st -> Prop) :
  Z_ G s (Fr d c a k (T cu l u ku r) :: C) t -> (forall s', Z_ G s' (Fr d c a k (T c' l u ku r) :: C) t -> Q tt s') ->
  wp (set_color u c') Q s.
Proof.
  intros H HQ. apply Z_up in H. destruct d; cbn [up] in H.
  - apply (Z_up G s (Fr SR c a k t) C) in H. eapply set_color_spec; [exact H|]. intros s' H'. apply HQ.
    apply Z_up in H'. apply Z_up. exact H'.
  - apply (Z_up G s (Fr SL c a k t) C) in H. eapply set_color_spec; [exact H|]. intros s' H'. apply HQ.
    apply Z_up in H'. apply Z_up. exact H'.
Qed.
Lemma set_color_gpar G s C f d c a k x t c' (Q : unit -> st -> Prop) :
  Z_ G s (f :: Fr d c a k x :: C) t -> (forall s', Z_ G s' (f :: Fr d c' a k x :: C) t -> Q tt s') -> wp (set_color a c') Q s.
Proof.
  intros H HQ. apply Z_up in H. eapply set_color_par; [exact H|]. intros s' H'. apply HQ, Z_up, H'.
Qed.
Lemma set_color_uncle G s C f d c a k cu l u ku r t c' (Q : unit -> st -> Prop) :
  Z_ G s (f :: Fr d c a k (T cu l u ku r) :: C) t -> (forall s', Z_ G s' (f :: Fr d c a k (T c' l u ku r) :: C) t -> Q tt s') ->
  wp (set_color u c') Q s.
Proof.
  intros H HQ. apply Z_up in H. eapply set_color_sib; [exact H|]. intros s' H'. apply HQ, Z_up, H'.
Qed.

(** What the represented state says about single cells *)
Lemma Z_focus G s C c l a k r : Z_ G s C (T c l a k r) ->
  a <> 0 /\ heap s a = Some (mkN (rootp l) (rootp r) (cpar C) c k).
Proof. intros (_ & (H1 & H2 & _) & _). auto. Qed.
Lemma Z_frame G s f C t : Z_ G s (f :: C) t -> faddr f <> 0 /\ heap s (faddr f) = Some (fnode f (rootp t) (cpar C)).
Proof. intros ((H1 & H2 & _) & _). auto. Qed.
Lemma Z_gframe G s f g C t : Z_ G s (f :: g :: C) t -> faddr g <> 0 /\ heap s (faddr g) = Some (fnode g (faddr f) (cpar C)).
Proof. intros ((_ & _ & _ & H1 & H2 & _) & _). auto. Qed.
Lemma Z_sib G s d c a k cu l u ku r C t : Z_ G s (Fr d c a k (T cu l u ku r) :: C) t ->
  u <> 0 /\ heap s u = Some (mkN (rootp l) (rootp r) a cu ku).
Proof. intros ((_ & _ & (H1 & H2 & _) & _) & _). auto. Qed.
Lemma Z_uncle G s f d c a k cu l u ku r C t : Z_ G s (f :: Fr d c a k (T cu l u ku r) :: C) t ->
  u <> 0 /\ heap s u = Some (mkN (rootp l) (rootp r) a cu ku).
Proof. intros ((_ & _ & _ & _ & _ & (H1 & H2 & _) & _) & _). auto. Qed.
Lemma Z_cnt G s C t : Z_ G s C t -> forall b, (ccnt b C + cnt b t <= 1)%nat.
Proof. intros (_ & _ & H1 & H2 & _) b. rewrite H1. apply H2. Qed.
Lemma Z_root G s C t : Z_ G s C t -> root s = rootp (plug C t).
Proof. intros H. apply Z_plug in H. destruct H as (H & _). exact H. Qed.
Lemma Z_root_ne G s C t : C <> [] -> Z_ G s C t -> t <> E -> root s <> rootp t.
Proof.
  intros Hne H Ht E0. pose proof (Z_cnt _ _ _ _ H (rootp t)) as Hc. pose proof (cnt_rootp t Ht).
  destruct H as (HC & _). pose proof (crep_root _ _ _ _ Hne HC). rewrite E0 in *. lia.
Qed.

Lemma wp_is_red x (Q : bool -> st -> Prop) s c n : (x = 0 /\ c = Black \/ x <> 0 /\ heap s x = Some n /\ col n = c) ->
  Q (ceqb c Red) s -> wp (is_red x) Q s.
Proof.
  unfold is_red. intros [[-> ->]|(Hx & Hh & <-)] HQ; [now apply wp_ret|].
  rewrite (proj2 (N.eqb_neq _ _) Hx). apply wp_bind. eapply wp_get_color; eauto. now apply wp_ret.
Qed.
Lemma wp_node_color x (Q : color -> st -> Prop) s c n : (x = 0 /\ c = Black \/ x <> 0 /\ heap s x = Some n /\ col n = c) ->
  Q c s -> wp (node_color x) Q s.
Proof.
  unfold node_color. intros [[-> ->]|(Hx & Hh & <-)] HQ; [now apply wp_ret|].
  rewrite (proj2 (N.eqb_neq _ _) Hx). eapply wp_get_color; eauto.
Qed.
Definition tcol (t : tree) : color := match t with E => Black | T c _ _ _ _ => c end.
Lemma rb_tcol t c n : rb t c n -> tcol t = c.
Proof. destruct 1; reflexivity. Qed.

Lemma inorder_up f t : inorder (up f t) =
  match f with Fr SL _ a k s => inorder t ++ (a, k) :: inorder s | Fr SR _ a k s => inorder s ++ (a, k) :: inorder t end.
Proof. destruct f as [[] c a k s]; reflexivity. Qed.
Ltac in_tac := rewrite ?plug_inorder; cbn [plug up inorder cleft cright]; rewrite ?plug_inorder; cbn [plug up inorder cleft cright];
  repeat (rewrite <- app_assoc; cbn [app]); reflexivity.

Ltac bnd := cbv beta; repeat lazymatch goal with |- wp (bind _ _) _ _ => apply wp_bind end.
(** Running loads from known cells *)
Ltac fields := cbn [left right parent col key ceqb negb andb orb].
Ltac colcase := first [left; split; reflexivity | right; split; [nz|split; [eassumption|reflexivity]]].
Ltac eqs := repeat match goal with
  | |- context [?u =? ?u] => rewrite (N.eqb_refl u)
  | |- context [?u =? ?v] => rewrite (proj2 (N.eqb_neq u v)) by nz
  end; cbn [negb andb orb].
Ltac ld :=
  cbv beta;
  lazymatch goal with
  | |- wp (bind _ _) _ _ => apply wp_bind
  | |- wp (ret _) _ _ => apply wp_ret
  | |- wp (load _) _ _ => eapply wp_load; [nz|eassumption|fields]
  | |- wp (get_left _) _ _ => eapply wp_get_left; [nz|eassumption|fields]
  | |- wp (get_right _) _ _ => eapply wp_get_right; [nz|eassumption|fields]
  | |- wp (get_parent _) _ _ => eapply wp_get_parent; [nz|eassumption|fields]
  | |- wp (get_key _) _ _ => eapply wp_get_key; [nz|eassumption|fields]
  | |- wp (get_color _) _ _ => eapply wp_get_color; [nz|eassumption|fields]
  | |- wp (is_red _) _ _ => eapply wp_is_red; [colcase|fields]
  | |- wp (node_color _) _ _ => eapply wp_node_color; [colcase|fields]
  | |- wp get_root _ _ => apply wp_get_root
  | |- wp (assert_ _) _ _ => apply wp_assert; [eqs; reflexivity|]
  | |- wp (if ?b then _ else _) _ _ => progress eqs
  end.

Lemma tcol_case t x s q : rep (heap s) t q -> x = rootp t ->
  x = 0 /\ tcol t = Black \/ x <> 0 /\ heap s x = Some (mkN (match t with T _ l _ _ _ => rootp l | E => 0 end)
     (match t with T _ _ _ _ r => rootp r | E => 0 end) q (tcol t) (match t with T _ _ _ k _ => k | E => 0 end)) /\ tcol t = tcol t.
Proof. intros H ->. destruct t as [|c l a k r]; cbn in *; [now left|]. right. tauto. Qed.

Lemma ins_fix_spec v G fuel : forall s C l x k r n (Q : unit -> st -> Prop),
  Z_ G s C (T Red l x k r) -> rb l Black n -> rb r Black n -> rbc C Black n -> (length C < fuel)%nat ->
  (forall s' t', Z_ G s' [] t' -> inorder t' = inorder (plug C (T Red l x k r)) -> (exists c m, rb t' c m) -> t' <> E -> Q tt s') ->
  wp (gins_fix v fuel x) Q s.
Proof.
  induction fuel as [|fuel IH]; intros s C l x k r n Q HZ Hl Hr HC Hf HQ; [lia|]. cbn [gins_fix].
  pose proof (Z_focus _ _ _ _ _ _ _ _ HZ) as [Hx Ex].
  repeat ld.
  destruct C as [|[d1 c1 p kp sb] C].
  { rewrite (Z_root _ _ _ _ HZ). cbn [plug rootp]. repeat ld.
    eapply HQ; [exact HZ|reflexivity| |discriminate]. exists Red, n. now constructor. }
  assert (Hrt : x <> root s) by (apply not_eq_sym; refine (Z_root_ne _ _ _ _ _ HZ _); congruence).
  pose proof (Z_frame _ _ _ _ _ HZ) as [Hp Ep]. cbn [cpar] in Ex. cbn [faddr] in Hp, Ep.
  assert (Efp : exists lp rp, fnode (Fr d1 c1 p kp sb) (rootp (T Red l x k r)) (cpar C) = mkN lp rp (cpar C) c1 kp)
    by (destruct d1; eexists _, _; reflexivity).
  destruct Efp as (lp & rp & Efp). rewrite Efp in Ep. repeat ld.
  destruct c1; fields.
  2:{ (* black parent *)
      repeat ld. assert (HC' : rbc (Fr d1 Black p kp sb :: C) Red n) by (inversion HC; subst; econstructor; eassumption).
      destruct (rb_plug _ (T Red l x k r) _ _ ltac:(constructor; eassumption) HC') as (m & Hm).
      eapply HQ; [exact (proj1 (Z_plug G s _ _) HZ)|reflexivity|eauto|]. intros E0.
      pose proof (f_equal inorder E0) as E1. rewrite plug_inorder in E1. cbn [inorder] in E1.
      apply (f_equal (@length _)) in E1. rewrite !app_length in E1. cbn [length] in E1. lia. }
  inversion HC as [|? ? ? ? ? ? Hsb HC2|]; subst. inversion HC2 as [| |d2 g kg u C' ? cu ? Hu HC3]; subst.
  pose proof (Z_gframe _ _ _ _ _ _ HZ) as [Hg Eg]. cbn [cpar faddr] in *.
  pose proof (Z_cnt _ _ _ _ HZ) as Hc.
  destruct d2; cbn [fnode] in Eg.
  - (* p is the left child *)
    repeat ld. pose proof (tcol_case u (rootp u) s g ltac:(destruct HZ as ((_ & _ & _ & _ & _ & H & _) & _); exact H) eq_refl) as Hcu.
    bnd. eapply wp_is_red; [exact Hcu|]. rewrite (rb_tcol _ _ _ Hu). destruct cu; fields.
    + (* red uncle *)
      inversion Hu as [|ul u0 ku ur ? Hul Hur|]; subst. cbn [rootp].
      bnd. eapply set_color_par; [exact HZ|]. intros s1 Z1.
      bnd. eapply set_color_uncle; [exact Z1|]. intros s2 Z2.
      bnd. eapply set_color_gpar; [exact Z2|]. intros s3 Z3.
      apply Z_u in Z3. apply Z_u in Z3.
      assert (HP : rb (up (Fr d1 Black p kp sb) (T Red l x k r)) Black (S n))
        by (destruct d1; cbn [up]; econstructor; try constructor; eassumption).
      eapply IH; [exact Z3|exact HP|econstructor; eassumption|exact HC3|cbn [length] in Hf; lia|].
      intros s' t' Zt It Bt Ht. eapply HQ; [exact Zt| |exact Bt|exact Ht]. rewrite It.
      destruct d1; in_tac.
    + destruct d1; cbn [fnode] in Efp; injection Efp as <- <-.
      * (* x is the left child of p: single rotation *)
        assert (Hne : x <> rootp sb) by (apply not_eq_sym, rootp_ne; [exact Hx|cz Hc x]).
        repeat ld.
        eapply set_color_par; [exact HZ|]. intros s1 Z1. clear Ep Eg Ex.
        pose proof (Z_frame _ _ _ _ _ Z1) as [_ Ep]. cbn [faddr fnode] in Ep.
        repeat ld. eapply set_color_gpar; [exact Z1|]. intros s2 Z2.
        apply Z_u in Z2. apply Z_u in Z2. cbn [up] in Z2.
        bnd. eapply rotate_right_spec; [exact Z2| |reflexivity]. intros s3 Z3.
        apply (Z_d G s3 (Fr SL Black p kp (T Red sb g kg u))) in Z3.
        eapply IH; [exact Z3|exact Hl|exact Hr| |cbn [length] in *; lia|].
        { econstructor; [|exact HC3]. constructor; eassumption. }
        intros s' t' Zt It Bt Ht. eapply HQ; [exact Zt| |exact Bt|exact Ht]. rewrite It. in_tac.
      * (* x is the right child of p: double rotation *)
        repeat ld. apply Z_u in HZ. cbn [up] in HZ.
        eapply rotate_left_spec; [exact HZ| |discriminate]. intros s1 Z1.
        apply (Z_d G s1 (Fr SL Red x k r)) in Z1. clear Ep Eg Ex.
        pose proof (Z_focus _ _ _ _ _ _ _ _ Z1) as [_ Ep]. pose proof (Z_frame _ _ _ _ _ Z1) as [_ Ex]. cbn [faddr fnode cpar] in *.
        repeat ld. eapply set_color_par; [exact Z1|]. intros s2 Z2. clear Ep Ex.
        pose proof (Z_frame _ _ _ _ _ Z2) as [_ Ex]. cbn [faddr fnode cpar] in Ex.
        repeat ld. eapply set_color_gpar; [exact Z2|]. intros s3 Z3.
        apply Z_u in Z3. apply Z_u in Z3. cbn [up] in Z3.
        bnd. eapply rotate_right_spec; [exact Z3| |reflexivity]. intros s4 Z4.
        apply (Z_d G s4 (Fr SL Black x k (T Red r g kg u))) in Z4.
        eapply IH; [exact Z4|exact Hsb|exact Hl| |cbn [length] in *; lia|].
        { econstructor; [|exact HC3]. constructor; eassumption. }
        intros s' t' Zt It Bt Ht. eapply HQ; [exact Zt| |exact Bt|exact Ht]. rewrite It. in_tac.
  - (* p is the right child *)
    assert (Hpu : p <> rootp u) by (apply not_eq_sym, rootp_ne; [exact Hp|cz Hc p]).
    repeat ld. pose proof (tcol_case u (rootp u) s g ltac:(destruct HZ as ((_ & _ & _ & _ & _ & H & _) & _); exact H) eq_refl) as Hcu.
    bnd. eapply wp_is_red; [exact Hcu|]. rewrite (rb_tcol _ _ _ Hu). destruct cu; fields.
    + (* red uncle *)
      inversion Hu as [|ul u0 ku ur ? Hul Hur|]; subst. cbn [rootp].
      bnd. eapply set_color_par; [exact HZ|]. intros s1 Z1.
      bnd. eapply set_color_uncle; [exact Z1|]. intros s2 Z2.
      bnd. eapply set_color_gpar; [exact Z2|]. intros s3 Z3.
      apply Z_u in Z3. apply Z_u in Z3.
      assert (HP : rb (up (Fr d1 Black p kp sb) (T Red l x k r)) Black (S n))
        by (destruct d1; cbn [up]; econstructor; try constructor; eassumption).
      eapply IH; [exact Z3|econstructor; eassumption|exact HP|exact HC3|cbn [length] in Hf; lia|].
      intros s' t' Zt It Bt Ht. eapply HQ; [exact Zt| |exact Bt|exact Ht]. rewrite It.
      destruct d1; in_tac.
    + destruct d1; cbn [fnode] in Efp; injection Efp as <- <-.
      * (* x is the left child of p: double rotation *)
        repeat ld. apply Z_u in HZ. cbn [up] in HZ.
        eapply rotate_right_spec; [exact HZ| |discriminate]. intros s1 Z1.
        apply (Z_d G s1 (Fr SR Red x k l)) in Z1. clear Ep Eg Ex.
        pose proof (Z_focus _ _ _ _ _ _ _ _ Z1) as [_ Ep]. pose proof (Z_frame _ _ _ _ _ Z1) as [_ Ex]. cbn [faddr fnode cpar] in *.
        repeat ld. eapply set_color_par; [exact Z1|]. intros s2 Z2. clear Ep Ex.
        pose proof (Z_frame _ _ _ _ _ Z2) as [_ Ex]. cbn [faddr fnode cpar] in Ex.
        repeat ld. eapply set_color_gpar; [exact Z2|]. intros s3 Z3.
        apply Z_u in Z3. apply Z_u in Z3. cbn [up] in Z3.
        eapply rotate_left_spec; [exact Z3| |reflexivity]. intros s4 Z4.
        apply (Z_d G s4 (Fr SR Black x k (T Red u g kg l))) in Z4.
        eapply IH; [exact Z4|exact Hr|exact Hsb| |cbn [length] in *; lia|].
        { econstructor; [|exact HC3]. constructor; eassumption. }
        intros s' t' Zt It Bt Ht. eapply HQ; [exact Zt| |exact Bt|exact Ht]. rewrite It. in_tac.
      * (* x is the right child of p: single rotation *)
        assert (Hne : x <> rootp sb) by (apply not_eq_sym, rootp_ne; [exact Hx|cz Hc x]).
        repeat ld.
        eapply set_color_par; [exact HZ|]. intros s1 Z1. clear Ep Eg Ex.
        pose proof (Z_frame _ _ _ _ _ Z1) as [_ Ep]. cbn [faddr fnode cpar] in Ep.
        repeat ld. eapply set_color_gpar; [exact Z1|]. intros s2 Z2.
        apply Z_u in Z2. apply Z_u in Z2. cbn [up] in Z2.
        eapply rotate_left_spec; [exact Z2| |reflexivity]. intros s3 Z3.
        apply (Z_d G s3 (Fr SR Black p kp (T Red u g kg sb))) in Z3.
        eapply IH; [exact Z3|exact Hl|exact Hr| |cbn [length] in *; lia|].
        { econstructor; [|exact HC3]. constructor; eassumption. }
        intros s' t' Zt It Bt Ht. eapply HQ; [exact Zt| |exact Bt|exact Ht]. rewrite It. in_tac.
Qed.
