(** Deletion. *)
From Verif Require Export L_RbtIns.
From Coq Require Import ZifyBool ZifyNat ZifyN.
Local Open Scope N_scope.

(** A node seen from its sibling on side [d]: near and far child *)
Definition mk (d : side) (c : color) (near : tree) (a k : N) (far : tree) : tree :=
  match d with SL => T c near a k far | SR => T c far a k near end.
Lemma rootp_mk d c near a k far : rootp (mk d c near a k far) = a.
Proof. destruct d; reflexivity. Qed.
Lemma mk_of d c l a k r : exists near far, T c l a k r = mk d c near a k far /\
  (forall n c1 c2, rb l c1 n -> rb r c2 n -> exists c1' c2', rb near c1' n /\ rb far c2' n) /\
  (forall n, rb l Black n -> rb r Black n -> rb near Black n /\ rb far Black n).
Proof. destruct d; [exists l, r|exists r, l]; (split; [reflexivity|split; eauto]). Qed.
Lemma rb_mk_R d near a k far n : rb near Black n -> rb far Black n -> rb (mk d Red near a k far) Red n.
Proof. destruct d; constructor; assumption. Qed.
Lemma rb_mk_B d near a k far c1 c2 n : rb near c1 n -> rb far c2 n -> rb (mk d Black near a k far) Black (S n).
Proof. destruct d; econstructor; eassumption. Qed.

Lemma sibling_spec G s d c p kp sb C cn l n k r (Q : N -> st -> Prop) :
  Z_ G s (Fr d c p kp sb :: C) (T cn l n k r) -> Q (rootp sb) s -> wp (sibling n) Q s.
Proof.
  intros HZ HQ. pose proof (Z_focus _ _ _ _ _ _ _ _ HZ) as [Hn En]. pose proof (Z_frame _ _ _ _ _ HZ) as [Hp Ep].
  pose proof (Z_cnt _ _ _ _ HZ) as Hc. cbn [faddr cpar] in *. unfold sibling.
  destruct d; cbn [fnode rootp] in Ep.
  - repeat ld. exact HQ.
  - assert (Hne : n <> rootp sb) by (apply not_eq_sym, rootp_ne; [exact Hn|cz Hc n]).
    repeat ld. exact HQ.
Qed.
Lemma parent_spec G s f C cn l n k r (Q : N -> st -> Prop) :
  Z_ G s (f :: C) (T cn l n k r) -> Q (faddr f) s -> wp (get_parent n) Q s.
Proof. intros HZ HQ. pose proof (Z_focus _ _ _ _ _ _ _ _ HZ) as [Hn En]. repeat ld. exact HQ. Qed.
Lemma on_left_spec {A} G s d c p kp sb C cn l n k r (m1 m2 : prog A) Q :
  Z_ G s (Fr d c p kp sb :: C) (T cn l n k r) -> wp (match d with SL => m1 | SR => m2 end) Q s ->
  wp (pl <- get_left p ;; if n =? pl then m1 else m2) Q s.
Proof.
  intros HZ HQ. pose proof (Z_focus _ _ _ _ _ _ _ _ HZ) as [Hn En]. pose proof (Z_frame _ _ _ _ _ HZ) as [Hp Ep].
  pose proof (Z_cnt _ _ _ _ HZ) as Hc. cbn [faddr cpar] in *.
  destruct d; cbn [fnode rootp] in Ep.
  - ld. ld. eqs. exact HQ.
  - assert (Hne : n <> rootp sb) by (apply not_eq_sym, rootp_ne; [exact Hn|cz Hc n]).
    ld. ld. eqs. exact HQ.
Qed.

(** Rotation at the parent towards the focus *)
Lemma rot_par_spec v G s d c p kp cy near y ky far C t (Q : unit -> st -> Prop) :
  Z_ G s (Fr d c p kp (mk d cy near y ky far) :: C) t ->
  (forall s', Z_ G s' (Fr d c p kp near :: Fr d cy y ky far :: C) t -> Q tt s') ->
  (C = [] -> cy = Black) ->
  wp (match d with SL => grotate_left v p | SR => grotate_right v p end) Q s.
Proof.
  intros HZ HQ Hcy. apply Z_u in HZ. destruct d; cbn [mk up] in HZ.
  - eapply rotate_left_spec; [exact HZ| |exact Hcy]. intros s' H'. apply HQ. apply Z_d, Z_d. exact H'.
  - eapply rotate_right_spec; [exact HZ| |exact Hcy]. intros s' H'. apply HQ. apply Z_d, Z_d. exact H'.
Qed.
(** Rotation at the sibling away from the focus *)
Lemma rot_sib_spec v G s d c p kp cs ca nn a ka nf s0 ks far C t (Q : unit -> st -> Prop) :
  Z_ G s (Fr d c p kp (mk d cs (mk d ca nn a ka nf) s0 ks far) :: C) t ->
  (forall s', Z_ G s' (Fr d c p kp (mk d ca nn a ka (mk d cs nf s0 ks far)) :: C) t -> Q tt s') ->
  wp (match d with SL => grotate_right v s0 | SR => grotate_left v s0 end) Q s.
Proof.
  intros HZ HQ. apply Z_u in HZ. destruct d; cbn [mk up] in HZ.
  - apply (Z_d G s (Fr SR c p kp t)) in HZ. eapply rotate_right_spec; [exact HZ| |discriminate]. intros s' H'. apply HQ. apply Z_u in H'. apply Z_d. exact H'.
  - apply (Z_d G s (Fr SL c p kp t)) in HZ. eapply rotate_left_spec; [exact HZ| |discriminate]. intros s' H'. apply HQ. apply Z_u in H'. apply Z_d. exact H'.
Qed.
Lemma set_color_sib' G s C d c a k cu near u ku far t c' (Q : unit -> st -> Prop) :
  Z_ G s (Fr d c a k (mk d cu near u ku far) :: C) t -> (forall s', Z_ G s' (Fr d c a k (mk d c' near u ku far) :: C) t -> Q tt s') ->
  wp (set_color u c') Q s.
Proof. intros H HQ. destruct d; cbn [mk] in *; eapply set_color_sib; eauto. Qed.
Lemma set_color_far G s C d c a k cs near s0 ks cf fl f kf fr t c' (Q : unit -> st -> Prop) :
  Z_ G s (Fr d c a k (mk d cs near s0 ks (T cf fl f kf fr)) :: C) t ->
  (forall s', Z_ G s' (Fr d c a k (mk d cs near s0 ks (T c' fl f kf fr)) :: C) t -> Q tt s') ->
  wp (set_color f c') Q s.
Proof.
  intros H HQ. apply Z_u in H. destruct d; cbn [mk up] in H.
  - apply (Z_d G s (Fr SR c a k t) C) in H. apply (Z_d G s (Fr SR cs s0 ks near)) in H.
    eapply set_color_spec; [exact H|]. intros s' H'. apply HQ. apply Z_u, Z_u in H'. apply Z_d. exact H'.
  - apply (Z_d G s (Fr SL c a k t) C) in H. apply (Z_d G s (Fr SL cs s0 ks near)) in H.
    eapply set_color_spec; [exact H|]. intros s' H'. apply HQ. apply Z_u, Z_u in H'. apply Z_d. exact H'.
Qed.
Lemma set_color_near G s C d c a k cs far s0 ks cf nl nd nk nr t c' (Q : unit -> st -> Prop) :
  Z_ G s (Fr d c a k (mk d cs (T cf nl nd nk nr) s0 ks far) :: C) t ->
  (forall s', Z_ G s' (Fr d c a k (mk d cs (T c' nl nd nk nr) s0 ks far) :: C) t -> Q tt s') ->
  wp (set_color nd c') Q s.
Proof.
  intros H HQ. apply Z_u in H. destruct d; cbn [mk up] in H.
  - apply (Z_d G s (Fr SR c a k t) C) in H. apply (Z_d G s (Fr SL cs s0 ks far)) in H.
    eapply set_color_spec; [exact H|]. intros s' H'. apply HQ. apply Z_u, Z_u in H'. apply Z_d. exact H'.
  - apply (Z_d G s (Fr SL c a k t) C) in H. apply (Z_d G s (Fr SR cs s0 ks far)) in H.
    eapply set_color_spec; [exact H|]. intros s' H'. apply HQ. apply Z_u, Z_u in H'. apply Z_d. exact H'.
Qed.
Lemma node_color_sib G s d c p kp cs l s0 ks r C t (Q : color -> st -> Prop) :
  Z_ G s (Fr d c p kp (T cs l s0 ks r) :: C) t -> Q cs s -> wp (node_color s0) Q s.
Proof. intros HZ HQ. pose proof (Z_sib _ _ _ _ _ _ _ _ _ _ _ _ _ HZ) as [H1 H2]. repeat ld. exact HQ. Qed.
Lemma get_left_sib G s d c p kp cs l s0 ks r C t (Q : N -> st -> Prop) :
  Z_ G s (Fr d c p kp (T cs l s0 ks r) :: C) t -> Q (rootp l) s -> wp (get_left s0) Q s.
Proof. intros HZ HQ. pose proof (Z_sib _ _ _ _ _ _ _ _ _ _ _ _ _ HZ) as [H1 H2]. repeat ld. exact HQ. Qed.
Lemma get_right_sib G s d c p kp cs l s0 ks r C t (Q : N -> st -> Prop) :
  Z_ G s (Fr d c p kp (T cs l s0 ks r) :: C) t -> Q (rootp r) s -> wp (get_right s0) Q s.
Proof. intros HZ HQ. pose proof (Z_sib _ _ _ _ _ _ _ _ _ _ _ _ _ HZ) as [H1 H2]. repeat ld. exact HQ. Qed.
Lemma node_color_sl G s d c p kp cs l s0 ks r C t (Q : color -> st -> Prop) :
  Z_ G s (Fr d c p kp (T cs l s0 ks r) :: C) t -> Q (tcol l) s -> wp (node_color (rootp l)) Q s.
Proof.
  intros HZ HQ. pose proof (tcol_case l (rootp l) s s0 ltac:(destruct HZ as ((_ & _ & (_ & _ & H & _) & _) & _); exact H) eq_refl) as Hcl.
  eapply wp_node_color; [exact Hcl|exact HQ].
Qed.
Lemma node_color_sr G s d c p kp cs l s0 ks r C t (Q : color -> st -> Prop) :
  Z_ G s (Fr d c p kp (T cs l s0 ks r) :: C) t -> Q (tcol r) s -> wp (node_color (rootp r)) Q s.
Proof.
  intros HZ HQ. pose proof (tcol_case r (rootp r) s s0 ltac:(destruct HZ as ((_ & _ & (_ & _ & _ & H) & _) & _); exact H) eq_refl) as Hcl.
  eapply wp_node_color; [exact Hcl|exact HQ].
Qed.
Lemma color_par G s d c p kp sb C t (Q : color -> st -> Prop) :
  Z_ G s (Fr d c p kp sb :: C) t -> Q c s -> wp (get_color p) Q s /\ wp (node_color p) Q s.
Proof.
  intros HZ HQ. pose proof (Z_frame _ _ _ _ _ HZ) as [Hp Ep]. cbn [faddr] in *.
  destruct d; cbn [fnode] in Ep; split; ld; exact HQ.
Qed.

Lemma black_around_spec G s pc d c p kp cs l s0 ks r C t (Q : bool -> st -> Prop) :
  Z_ G s (Fr d c p kp (T cs l s0 ks r) :: C) t ->
  Q (ceqb c pc && ceqb cs Black && ceqb (tcol l) Black && ceqb (tcol r) Black)%bool s ->
  wp (black_around pc p s0) Q s.
Proof.
  intros HZ HQ. unfold black_around. bnd. eapply color_par; [exact HZ|].
  destruct (ceqb c pc); cbn [negb andb] in *; [|apply wp_ret; exact HQ].
  bnd. eapply node_color_sib; [exact HZ|]. destruct (ceqb cs Black); cbn [negb andb] in *; [|apply wp_ret; exact HQ].
  bnd. eapply get_left_sib; [exact HZ|]. bnd. eapply node_color_sl; [exact HZ|].
  destruct (ceqb (tcol l) Black); cbn [negb andb] in *; [|apply wp_ret; exact HQ].
  bnd. eapply get_right_sib; [exact HZ|]. bnd. eapply node_color_sr; [exact HZ|]. bnd; apply wp_ret; bnd. exact HQ.
Qed.

Lemma rbc_top d c a k t n c' C : rbc (Fr d c a k t :: C) c' n -> C = [] -> c = Black.
Proof. intros H ->. inversion H as [|? ? ? ? ? ? _ H2|]; subst; [inversion H2|reflexivity]. Qed.

Lemma case6_spec v G s d c p kp cs near s0 ks fl f kf fr C cn l n k r (Q : unit -> st -> Prop) :
  Z_ G s (Fr d c p kp (mk d cs near s0 ks (T Red fl f kf fr)) :: C) (T cn l n k r) ->
  (forall s', Z_ G s' (Fr d Black p kp near :: Fr d c s0 ks (T Black fl f kf fr) :: C) (T cn l n k r) -> Q tt s') ->
  (C = [] -> c = Black) ->
  wp (gcase6 v n) Q s.
Proof.
  intros HZ HQ Hroot. unfold gcase6.
  assert (Hs0 : s0 <> 0) by (destruct d; cbn [mk] in HZ; exact (proj1 (Z_sib _ _ _ _ _ _ _ _ _ _ _ _ _ HZ))).
  bnd. eapply sibling_spec; [exact HZ|]. rewrite rootp_mk.
  bnd. eapply parent_spec; [exact HZ|]. cbn [faddr].
  bnd. apply wp_assert; [eqs; reflexivity|].
  bnd. eapply color_par; [exact HZ|].
  bnd. eapply set_color_sib'; [exact HZ|]. intros s1 Z1.
  bnd. eapply set_color_par; [exact Z1|]. intros s2 Z2.
  eapply on_left_spec; [exact Z2|].
  destruct d; cbn [mk] in Z2.
  - bnd. eapply get_right_sib; [exact Z2|]. bnd. eapply node_color_sr; [exact Z2|]. cbn [tcol rootp].
    bnd. apply wp_assert; [reflexivity|]. bnd. eapply (set_color_far G s2 C SL); [exact Z2|]. intros s3 Z3.
    eapply (rot_par_spec _ _ _ SL); [exact Z3|exact HQ|exact Hroot].
  - bnd. eapply get_left_sib; [exact Z2|]. bnd. eapply node_color_sl; [exact Z2|]. cbn [tcol rootp].
    bnd. apply wp_assert; [reflexivity|]. bnd. eapply (set_color_far G s2 C SR); [exact Z2|]. intros s3 Z3.
    eapply (rot_par_spec _ _ _ SR); [exact Z3|exact HQ|exact Hroot].
Qed.

(** What the fix-up establishes: the same elements around the hole, which now fits a
    tree of black height [m] of any colour *)
Definition fixed (C C' : ctx) (m : nat) : Prop :=
  cleft C' = cleft C /\ cright C' = cright C /\ forall c, rbc C' c m.

Lemma cside d c p kp t C : cleft (Fr d c p kp t :: C) = (match d with SL => cleft C | SR => cleft C ++ inorder t ++ [(p, kp)] end) /\
  cright (Fr d c p kp t :: C) = (match d with SL => (p, kp) :: inorder t ++ cright C | SR => cright C end).
Proof. destruct d; split; reflexivity. Qed.
Lemma inorder_mk d c near a k far : inorder (mk d c near a k far) =
  match d with SL => inorder near ++ (a, k) :: inorder far | SR => inorder far ++ (a, k) :: inorder near end.
Proof. destruct d; reflexivity. Qed.
Ltac side_tac d := destruct d; cbn [cleft cright mk inorder]; repeat (rewrite <- app_assoc; cbn [app]); reflexivity.

Lemma tcol_red t : tcol t = Red -> exists l a k r, t = T Red l a k r.
Proof. destruct t as [|[] l a k r]; cbn; intros H; try discriminate. eauto. Qed.
Lemma rb_red t n : rb t Red n -> exists l a k r, t = T Red l a k r /\ rb l Black n /\ rb r Black n.
Proof. inversion 1; subst. eauto 10. Qed.

Lemma case6_fixed d c p kp near s0 ks fl f kf fr C m c1 c' : rb near c1 m -> rb fl Black m -> rb fr Black m ->
  rbc (Fr d c p kp (mk d Black near s0 ks (T Red fl f kf fr)) :: C) c' (S m) ->
  fixed (Fr d c p kp (mk d Black near s0 ks (T Red fl f kf fr)) :: C) (Fr d Black p kp near :: Fr d c s0 ks (T Black fl f kf fr) :: C) m.
Proof.
  intros H1 H2 H3 HC. split; [side_tac d|]. split; [side_tac d|]. intros c0.
  econstructor; [exact H1|]. inversion HC; subst; econstructor; try eassumption; econstructor; eassumption.
Qed.

Lemma case5_spec v G s d c p kp near s0 ks far C cn l n k r m c1 c2 c' (Q : unit -> st -> Prop) :
  Z_ G s (Fr d c p kp (mk d Black near s0 ks far) :: C) (T cn l n k r) ->
  rb near c1 m -> rb far c2 m -> c1 = Red \/ c2 = Red ->
  rbc (Fr d c p kp (mk d Black near s0 ks far) :: C) c' (S m) ->
  (forall s' C', Z_ G s' C' (T cn l n k r) -> fixed (Fr d c p kp (mk d Black near s0 ks far) :: C) C' m -> Q tt s') ->
  wp (gcase5 v n) Q s.
Proof.
  intros HZ Hn Hf Hor HC HQ. unfold gcase5.
  assert (Hs0 : s0 <> 0) by (destruct d; cbn [mk] in HZ; exact (proj1 (Z_sib _ _ _ _ _ _ _ _ _ _ _ _ _ HZ))).
  pose proof (Z_frame _ _ _ _ _ HZ) as [Hp Ep]. cbn [faddr] in *.
  pose proof (Z_focus _ _ _ _ _ _ _ _ HZ) as [Hn0 _]. pose proof (Z_cnt _ _ _ _ HZ) as Hc.
  bnd. eapply sibling_spec; [exact HZ|]. rewrite rootp_mk.
  bnd. eapply parent_spec; [exact HZ|]. cbn [faddr].
  bnd. apply wp_assert; [eqs; reflexivity|].
  destruct c2.
  - (* far child red *)
    destruct (rb_red _ _ Hf) as (fl & f & kf & fr & -> & Hfl & Hfr).
    assert (Hgo : wp (gcase6 v n) Q s).
    { eapply case6_spec; [exact HZ| |exact (rbc_top _ _ _ _ _ _ _ _ HC)]. intros s' Z'. eapply HQ; [exact Z'|]. eapply case6_fixed; eassumption. }
    destruct d; cbn [mk fnode rootp] in *.
    + unfold case5_left. bnd. eapply wp_get_left; [exact Hp|exact Ep|]. cbn [left]. eqs.
      bnd. eapply node_color_sib; [exact HZ|]. fields.
      bnd. eapply get_left_sib; [exact HZ|]. bnd. eapply node_color_sl; [exact HZ|].
      destruct (ceqb (tcol near) Red) eqn:E1; cbn [negb].
      * bnd. eapply get_right_sib; [exact HZ|]. bnd. eapply node_color_sr; [exact HZ|]. cbn [tcol ceqb]. bnd; apply wp_ret; bnd.
        unfold case5_right. bnd. eapply wp_get_right; [exact Hp|exact Ep|]. cbn [right].
        assert (Hne : n <> s0) by ne_tac Hc. eqs. bnd; apply wp_ret; bnd. bnd; apply wp_ret; bnd. exact Hgo.
      * bnd; apply wp_ret; bnd. unfold case5_right. bnd. eapply wp_get_right; [exact Hp|exact Ep|]. cbn [right].
        assert (Hne : n <> s0) by ne_tac Hc. eqs. bnd; apply wp_ret; bnd. bnd; apply wp_ret; bnd. exact Hgo.
    + assert (Hne : n <> s0) by ne_tac Hc.
      unfold case5_left. bnd. eapply wp_get_left; [exact Hp|exact Ep|]. cbn [left]. eqs. bnd; apply wp_ret; bnd.
      unfold case5_right. bnd. eapply wp_get_right; [exact Hp|exact Ep|]. cbn [right]. eqs.
      bnd. eapply node_color_sib; [exact HZ|]. fields.
      bnd. eapply get_right_sib; [exact HZ|]. bnd. eapply node_color_sr; [exact HZ|].
      destruct (ceqb (tcol near) Red) eqn:E1; cbn [negb].
      * bnd. eapply get_left_sib; [exact HZ|]. bnd. eapply node_color_sl; [exact HZ|]. cbn [tcol ceqb]. bnd; apply wp_ret; bnd. bnd; apply wp_ret; bnd. exact Hgo.
      * bnd; apply wp_ret; bnd. bnd; apply wp_ret; bnd. exact Hgo.
  - (* far child black: the near child is red *)
    destruct Hor as [->|]; [|discriminate].
    destruct (rb_red _ _ Hn) as (nl & a & ka & nr & -> & Hnl & Hnr).
    destruct (mk_of d Red nl a ka nr) as (nn & nf & Emk & _ & Hrb). destruct (Hrb _ Hnl Hnr) as [Hnn Hnf].
    assert (Hgo : forall s1, Z_ G s1 (Fr d c p kp (mk d Red (mk d Black nn a ka nf) s0 ks far) :: C) (T cn l n k r) ->
       wp (match d with SL => grotate_right v s0 | SR => grotate_left v s0 end) (fun _ s2 => wp (gcase6 v n) Q s2) s1).
    { intros s1 Z1. eapply rot_sib_spec; [exact Z1|]. intros s2 Z2.
      assert (E2 : exists fl fr, mk d Red nf s0 ks far = T Red fl s0 ks fr /\ rb fl Black m /\ rb fr Black m)
        by (destruct d; eexists _, _; (split; [reflexivity|split; assumption])).
      destruct E2 as (fl & fr & E2 & Hfl & Hfr). rewrite E2 in Z2.
      eapply case6_spec; [exact Z2| |exact (rbc_top _ _ _ _ _ _ _ _ HC)]. intros s3 Z3. eapply HQ; [exact Z3|].
      assert (F : fixed (Fr d c p kp (mk d Black nn a ka (T Red fl s0 ks fr)) :: C)
                        (Fr d Black p kp nn :: Fr d c a ka (T Black fl s0 ks fr) :: C) m).
      { eapply case6_fixed; [exact Hnn|exact Hfl|exact Hfr|].
        inversion HC; subst; econstructor; try eassumption;
          (eapply rb_mk_B; [exact Hnn|constructor; eassumption]). }
      destruct F as (F1 & F2 & F3). split; [|split; [|exact F3]].
      - rewrite F1. rewrite <- E2, Emk. side_tac d.
      - rewrite F2. rewrite <- E2, Emk. side_tac d. }
    destruct d; cbn [mk fnode rootp] in *.
    + injection Emk as -> ->.
      unfold case5_left. bnd. eapply wp_get_left; [exact Hp|exact Ep|]. cbn [left]. eqs.
      bnd. eapply node_color_sib; [exact HZ|]. fields.
      bnd. eapply get_left_sib; [exact HZ|]. bnd. eapply node_color_sl; [exact HZ|]. cbn [tcol]. fields.
      bnd. eapply get_right_sib; [exact HZ|]. bnd. eapply node_color_sr; [exact HZ|]. rewrite (rb_tcol _ _ _ Hf). fields. bnd; apply wp_ret; bnd.
      bnd. eapply set_color_sib; [exact HZ|]. intros s1 Z1.
      bnd. eapply get_left_sib; [exact Z1|]. cbn [rootp].
      bnd. eapply (set_color_near G s1 C SL); [exact Z1|]. intros s2 Z2. apply Hgo. exact Z2.
    + injection Emk as -> ->.
      assert (Hne : n <> s0) by ne_tac Hc.
      unfold case5_left. bnd. eapply wp_get_left; [exact Hp|exact Ep|]. cbn [left]. eqs. bnd; apply wp_ret; bnd.
      unfold case5_right. bnd. eapply wp_get_right; [exact Hp|exact Ep|]. cbn [right]. eqs.
      bnd. eapply node_color_sib; [exact HZ|]. fields.
      bnd. eapply get_right_sib; [exact HZ|]. bnd. eapply node_color_sr; [exact HZ|]. cbn [tcol]. fields.
      bnd. eapply get_left_sib; [exact HZ|]. bnd. eapply node_color_sl; [exact HZ|]. rewrite (rb_tcol _ _ _ Hf). fields. bnd; apply wp_ret; bnd.
      bnd. eapply set_color_sib; [exact HZ|]. intros s1 Z1.
      bnd. eapply get_right_sib; [exact Z1|]. cbn [rootp].
      bnd. eapply (set_color_near G s1 C SR); [exact Z1|]. intros s2 Z2. apply Hgo. exact Z2.
Qed.

Definition case3 v (rec : N -> prog unit) (n : N) : prog unit :=
  s <- sibling n ;;
  p <- get_parent n ;;
  assert_ (negb (s =? 0)) ;;;
  b <- black_around Black p s ;;
  if (b : bool) then
    set_color s Red ;;;
    pp <- get_parent p ;;
    if pp =? 0 then ret tt else rec p
  else gcase4 v n.

(** Cases 3 to 6, black sibling *)
Lemma case3_spec v G s rec d c p kp near s0 ks far C cn l n k r m c1 c2 (Q : unit -> st -> Prop) :
  Z_ G s (Fr d c p kp (mk d Black near s0 ks far) :: C) (T cn l n k r) ->
  rb near c1 m -> rb far c2 m ->
  rbc (Fr d c p kp (mk d Black near s0 ks far) :: C) Black (S m) ->
  (forall s1 f C1 l1 r1, c = Black -> C = f :: C1 -> Z_ G s1 C (T Black l1 p kp r1) -> rbc C Black (S (S m)) ->
     (forall s' C', Z_ G s' C' (T Black l1 p kp r1) -> fixed C C' (S m) -> Q tt s') -> wp (rec p) Q s1) ->
  (forall s' C', Z_ G s' C' (T cn l n k r) -> fixed (Fr d c p kp (mk d Black near s0 ks far) :: C) C' m -> Q tt s') ->
  wp (case3 v rec n) Q s.
Proof.
  intros HZ Hn Hf HC Hrec HQ. unfold case3.
  destruct (mk_of d Black near s0 ks far) as (x1 & x2 & Ex & _).
  assert (Esib : exists sl sr cl cr, mk d Black near s0 ks far = T Black sl s0 ks sr /\ rb sl cl m /\ rb sr cr m /\
                  (cl = Black /\ cr = Black \/ c1 = Red \/ c2 = Red)).
  { destruct d; [exists near, far, c1, c2|exists far, near, c2, c1]; (split; [reflexivity|]); (split; [assumption|]); (split; [assumption|]); destruct c1, c2; auto. }
  destruct Esib as (sl & sr & cl & cr & Esib & Hsl & Hsr & Hor).
  assert (Hs0 : s0 <> 0) by (rewrite Esib in HZ; exact (proj1 (Z_sib _ _ _ _ _ _ _ _ _ _ _ _ _ HZ))).
  bnd. eapply sibling_spec; [exact HZ|]. rewrite rootp_mk.
  bnd. eapply parent_spec; [exact HZ|]. cbn [faddr].
  bnd. apply wp_assert; [eqs; reflexivity|].
  pose proof HZ as HZ0. rewrite Esib in HZ0.
  bnd. eapply black_around_spec; [exact HZ0|]. rewrite (rb_tcol _ _ _ Hsl), (rb_tcol _ _ _ Hsr). cbn [ceqb].
  assert (H5 : c1 = Red \/ c2 = Red -> wp (gcase5 v n) Q s).
  { intros H. eapply case5_spec; [exact HZ|exact Hn|exact Hf|exact H|exact HC|exact HQ]. }
  (* after painting the sibling red *)
  assert (Hpaint : cl = Black -> cr = Black -> forall Q' : unit -> st -> Prop, (forall s1 sib, Z_ G s1 (Fr d c p kp sib :: C) (T cn l n k r) -> rb sib Red m ->
             inorder sib = inorder (mk d Black near s0 ks far) -> Q' tt s1) -> wp (set_color s0 Red) Q' s).
  { intros -> -> Q' HQ'. eapply set_color_sib; [exact HZ0|]. intros s1 Z1. eapply HQ'; [exact Z1|constructor; assumption|]. rewrite Esib. reflexivity. }
  assert (H4 : c = Red \/ c1 = Red \/ c2 = Red -> wp (gcase4 v n) Q s).
  { intros Hc4. unfold gcase4.
    bnd. eapply sibling_spec; [exact HZ|]. rewrite rootp_mk.
    bnd. eapply parent_spec; [exact HZ|]. cbn [faddr].
    bnd. apply wp_assert; [eqs; reflexivity|].
    bnd. eapply black_around_spec; [exact HZ0|]. rewrite (rb_tcol _ _ _ Hsl), (rb_tcol _ _ _ Hsr). cbn [ceqb].
    destruct c; cbn [ceqb andb].
    - destruct Hor as [[-> ->]|Hor].
      + cbn [ceqb andb]. bnd. apply Hpaint; [reflexivity|reflexivity|]. intros s1 sib Z1 B1 I1.
        bnd. eapply set_color_par; [exact Z1|]. intros s2 Z2. eapply HQ; [exact Z2|].
        inversion HC as [|? ? ? ? ? ? HS HC1|]; subst.
        split; [|split].
        * destruct d; cbn [cleft]; rewrite ?I1; reflexivity.
        * destruct d; cbn [cright]; rewrite ?I1; reflexivity.
        * intros c0. econstructor; [exact B1|]. apply rbc_weak. exact HC1.
      + destruct (ceqb cl Black && ceqb cr Black)%bool eqn:Eb; [|apply H5; exact Hor].
        exfalso. clear - Hor Eb Hn Hf Hsl Hsr Esib. destruct d; cbn [mk] in Esib; injection Esib as -> ->;
        rewrite <- (rb_tcol _ _ _ Hsl), <- (rb_tcol _ _ _ Hsr), (rb_tcol _ _ _ Hn), (rb_tcol _ _ _ Hf) in Eb;
        destruct Hor as [H|H]; rewrite H in Eb; destruct c1, c2; discriminate.
    - apply H5. destruct Hc4 as [|Hc4]; [discriminate|exact Hc4]. }
  destruct c; cbn [ceqb andb].
  - apply H4. now left.
  - destruct (ceqb cl Black && ceqb cr Black)%bool eqn:Eb.
    + destruct cl, cr; cbn in Eb; try discriminate.
      bnd. apply Hpaint; [reflexivity|reflexivity|]. intros s1 sib Z1 B1 I1.
      inversion HC as [| |? ? ? ? ? ? ? ? HS HC1]; subst.
      pose proof (Z_frame _ _ _ _ _ Z1) as [Hp Ep]. cbn [faddr] in *.
      bnd. eapply wp_get_parent; [exact Hp|exact Ep|].
      replace (parent (fnode (Fr d Black p kp sib) (rootp (T cn l n k r)) (cpar C))) with (cpar C) by (destruct d; reflexivity).
      destruct C as [|f C1].
      * cbn [cpar]. eqs. bnd; apply wp_ret; bnd. eapply HQ; [exact Z1|]. split; [|split].
        -- destruct d; cbn [cleft]; rewrite ?I1; reflexivity.
        -- destruct d; cbn [cright]; rewrite ?I1; reflexivity.
        -- intros c0. econstructor; [exact B1|constructor].
      * pose proof (Z_gframe _ _ _ _ _ _ Z1) as [Hg _]. cbn [cpar]. destruct f as [d2 c3 g kg u]. cbn [cpar faddr] in *. eqs.
        assert (Zu := Z_u _ _ _ _ _ Z1).
        assert (Eup : exists l1 r1, up (Fr d Black p kp sib) (T cn l n k r) = T Black l1 p kp r1) by (destruct d; eexists _, _; reflexivity).
        destruct Eup as (l1 & r1 & Eup). rewrite Eup in Zu.
        eapply Hrec; [reflexivity|reflexivity|exact Zu|exact HC1|].
        intros s' C' Z' (F1 & F2 & F3). rewrite <- Eup in Z'. apply Z_d in Z'.
        eapply HQ; [exact Z'|]. split; [|split].
        -- destruct d; cbn [cleft] in *; rewrite ?I1, F1; reflexivity.
        -- destruct d; cbn [cright] in *; rewrite ?I1, F2; reflexivity.
        -- intros c0. econstructor; [exact B1|apply F3].
    + apply H4. right. destruct Hor as [[-> ->]|Hor]; [discriminate|exact Hor].
Qed.

Lemma del2_spec v G : forall fuel s f C cn l n k r m (Q : unit -> st -> Prop),
  Z_ G s (f :: C) (T cn l n k r) -> rbc (f :: C) Black (S m) -> (length (f :: C) <= fuel)%nat ->
  (forall s' C', Z_ G s' C' (T cn l n k r) -> fixed (f :: C) C' m -> Q tt s') ->
  wp (gcase2 v fuel n) Q s.
Proof.
  induction fuel as [|fuel IH]; intros s [d c p kp sb] C cn l n k r m Q HZ HC Hf HQ; [cbn in Hf; lia|].
  assert (Hsb : exists csb, rb sb csb (S m)) by (inversion HC; subst; eauto). destruct Hsb as (csb & Hsb).
  cbn [gcase2].
  bnd. eapply sibling_spec; [exact HZ|].
  bnd. eapply parent_spec; [exact HZ|]. cbn [faddr].
  inversion Hsb as [|sl s0 ks sr ? Hsl Hsr|sl s0 ks sr cl cr ? Hsl Hsr]; subst; cbn [rootp].
  all: pose proof (proj1 (Z_sib _ _ _ _ _ _ _ _ _ _ _ _ _ HZ)) as Hs0; rewrite (proj2 (N.eqb_neq _ _) Hs0), andb_false_r; bnd.
  - (* red sibling *)
    bnd. eapply node_color_sib; [exact HZ|]. cbn [ceqb].
    inversion HC as [|? ? ? ? ? ? HS HC1|? ? ? ? ? ? ? ? HS HC1]; subst; [inversion HS|]. clear HS.
    bnd. eapply set_color_par; [exact HZ|]. intros s1 Z1.
    bnd. eapply set_color_sib; [exact Z1|]. intros s2 Z2.
    eapply on_left_spec; [exact Z2|].
    destruct (mk_of d Black sl s0 ks sr) as (near & far & Emk & _ & Hrb). destruct (Hrb _ Hsl Hsr) as [Hnear Hfar].
    rewrite Emk in Z2. eapply rot_par_spec; [exact Z2| |reflexivity]. intros s3 Z3.
    inversion Hnear as [| |l2 a2 k2 r2 c3 c4 ? Hl2 Hr2]; subst.
    destruct (mk_of d Black l2 a2 k2 r2) as (n2 & f2 & Emk2 & Hrb2 & _). destruct (Hrb2 _ _ _ Hl2 Hr2) as (c3' & c4' & Hn2 & Hf2).
    rewrite Emk2 in Z3.
    change (wp (case3 v (gcase2 v fuel) n) Q s3).
    eapply case3_spec; [exact Z3|exact Hn2|exact Hf2| |intros; discriminate|].
    + econstructor; [eapply rb_mk_B; eassumption|]. econstructor; eassumption.
    + intros s' C' Z' (F1 & F2 & F3). eapply HQ; [exact Z'|]. split; [|split; [|exact F3]].
      * rewrite F1. rewrite <- Emk2. apply (f_equal inorder) in Emk. cbn [inorder] in Emk. destruct d; cbn [cleft inorder mk] in *; rewrite ?Emk; repeat (rewrite <- app_assoc; cbn [app]); reflexivity.
      * rewrite F2. rewrite <- Emk2. apply (f_equal inorder) in Emk. cbn [inorder] in Emk. destruct d; cbn [cright inorder mk] in *; rewrite ?Emk; repeat (rewrite <- app_assoc; cbn [app]); reflexivity.
  - bnd. eapply node_color_sib; [exact HZ|]. cbn [ceqb]. bnd; apply wp_ret; cbv beta.
    destruct (mk_of d Black sl s0 ks sr) as (near & far & Emk & Hrb & _). destruct (Hrb _ _ _ Hsl Hsr) as (c3 & c4 & Hnear & Hfar).
    rewrite Emk in HZ, HC.
    change (wp (case3 v (gcase2 v fuel) n) Q s).
    eapply case3_spec; [exact HZ|exact Hnear|exact Hfar|exact HC| |cbn [rootp] in HQ; rewrite Emk in HQ; exact HQ].
    intros s1 f C1 l1 r1 -> -> Z1 HC1 HQ1. eapply IH; [exact Z1|exact HC1|cbn [length] in *; lia|exact HQ1].
Qed.
