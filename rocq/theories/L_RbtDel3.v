(** Deletion: exchange with a predecessor further down; rbt_del. *)
From Verif Require Export L_RbtDel2.
From Coq Require Import ZifyBool ZifyNat ZifyN.
Local Open Scope N_scope.

(** The predecessor's parent is the left child of [n] *)
Lemma swap_far1_spec v G fuel s C cn cb sb bo kb cp pl pred kp n kn cr rl ra kr rr (Q : unit -> st -> Prop) :
  Z_ G s C (T cn (T cb sb bo kb (T cp pl pred kp E)) n kn (T cr rl ra kr rr)) -> (cp = Red -> pl = E) ->
  (forall G' s', cp = Red -> remd G n G' -> Z_ G' s' C (T cn (T cb sb bo kb E) pred kp (T cr rl ra kr rr)) -> Q tt s') ->
  (forall s', cp = Black -> Z_ G s' C (T cn (T cb sb bo kb (T cp pl n kn E)) pred kp (T cr rl ra kr rr)) -> wp (gdel_leaf v fuel n) Q s') ->
  wp (swap_far v fuel n pred (mkN (rootp pl) 0 bo cp kp)) Q s.
Proof.
  destruct s as [rt cd h].
  intros (HC & HR & HF & HF1 & HG & Hcard) Hpl HQ1 HQ2. cbn [heap root card rep rootp] in *.
  destruct HR as (Hn & En & (Hbo & Ebo & Rsb & (Hpr & Epr & Rpl & _)) & (Hra & Era & Rrl & Rrr)).
  assert (Hc : forall b, (ccnt b C + cnt b (T cn (T cb sb bo kb (T cp pl pred kp E)) n kn (T cr rl ra kr rr)) <= 1)%nat) by (intros b; rewrite HF; apply HF1).
  unfold swap_far. cbn [left right parent col key].
  destruct cp; [clear HQ2|clear HQ1].
  - specialize (Hpl eq_refl). subst pl.
    destruct (Grem_facts G h n _ _ C (T cn (T cb sb bo kb E) pred kp (T cr rl ra kr rr)) HF HF1 HG) as (HF' & HF1' & _).
    { intros b. cbn [cnt]. lia. }
    destruct C as [|[[] c a k sf] C]; cbn [crep faddr fsib fnode cpar rootp] in *;
    [subst rt; ne_all Hc [n; pred; ra; bo]|destruct HC as (Ha & Ea & Rs & HC); ne_all Hc [n; pred; ra; bo; a];
      assert (Hsf : rootp sf <> n) by (apply rootp_ne; [assumption|cz Hc n])..];
    destruct v; repeat stp Hc; (lazymatch goal with |- Q tt ?s1 => eapply (HQ1 (Grem G (heap s1) n) s1) end; [reflexivity|apply Grem_remd|]);
    rem_fin Hc HF HF' HF1' HG.
  - destruct pl as [|c1 l1 a1 k1 r1]; [|destruct Rpl as (Ha1 & Ea1 & Rl1 & Rr1); ne_all Hc [a1; n; pred; ra; bo]];
    (destruct C as [|[[] c a k sf] C]; cbn [crep faddr fsib fnode cpar rootp] in *;
    [subst rt; ne_all Hc [n; pred; ra; bo]|destruct HC as (Ha & Ea & Rs & HC); ne_all Hc [n; pred; ra; bo; a];
      assert (Hsf : rootp sf <> n) by (apply rootp_ne; [assumption|cz Hc n])..]);
    destruct v; repeat stp Hc; (eapply HQ2; [reflexivity|]; z_fin Hc HF HF1 HG).
Qed.

Ltac fr_sg Hc :=
  let b := fresh "b" in let Hb := fresh "Hb" in
  intros b Hb; cbn [heap root card]; unfold upd;
  repeat match goal with |- context [b =? ?a] =>
    let Eb := fresh "Eb" in
    destruct (N.eqb_spec b a) as [Eb|Eb];
      [exfalso; rewrite Eb in Hb; let Hv := fresh "Hv" in pose proof (Hc a) as Hv; cbn [cnt ccnt] in Hv; rewrite ?one_same in Hv; clear - Hv Hb; lia|]
  end; reflexivity.
Ltac sg_rest Hc := 
  repeat match goal with |- _ /\ _ => split end; cbn [rootp rep];
  lazymatch goal with
  | |- sg _ _ _ _ => eapply sg_frame; [|eassumption]; fr_sg Hc
  | |- _ => idtac
  end.
Ltac rep_fin2 Hc Hu :=
  cbn [rep rootp crep faddr fsib fnode cpar]; rewrite ?Hu, ?rep_plug; cbn [rep rootp];
  repeat match goal with |- _ /\ _ => split end;
  try nz; try (cell Hc);
  try (lazymatch goal with
       | |- rep _ _ _ => eapply rep_frame; [|eassumption]; fr_tac Hc
       | |- crep _ _ _ _ => eapply crep_frame; [|eassumption]; fr_tac Hc
       | |- sg _ _ _ _ => eapply sg_frame; [|eassumption]; fr_sg Hc
       end);
  try exact I.
Ltac out_tac2 HF HG :=
  let b := fresh "b" in let Hb := fresh "Hb" in
  intros b Hb; cbn [heap root card]; unfold upd;
  repeat match goal with |- context [b =? ?a] =>
    let Eb := fresh "Eb" in
    destruct (N.eqb_spec b a) as [Eb|Eb];
      [exfalso; rewrite Eb in Hb; rewrite <- HF in Hb; clear - Hb; cnts; lia|]
  end; apply HG; exact Hb.
Ltac z_fin2 Hc HF HF1 HG Hu :=
  unfold Z_; split; [|split; [|split; [|split; [|split]]]]; cbn [heap root card];
  [rep_fin2 Hc Hu|rep_fin2 Hc Hu|intros ?b; rewrite <- HF; clear; cnts; lia|exact HF1|out_tac2 HF HG|assumption].
Ltac rem_fin2 Hc HF HF' HF1' HG Hu :=
  unfold Z_; split; [|split; [|split; [|split; [|split]]]]; cbn [heap root card];
  [rep_fin2 Hc Hu|rep_fin2 Hc Hu|exact HF'|exact HF1'|eapply out_rem; [exact HG|outr HF]|assumption].

(** The general case: a piece of context between the left child of [n] and the
    parent of the predecessor *)
Lemma swap_far2_spec v G fuel s C cn ct ts tp kt P1 cb sb bo kb cp pl pred kp n kn cr rl ra kr rr (Q : unit -> st -> Prop) :
  Z_ G s C (T cn (T ct ts tp kt (plug P1 (T cb sb bo kb (T cp pl pred kp E)))) n kn (T cr rl ra kr rr)) -> (cp = Red -> pl = E) ->
  (forall G' s', cp = Red -> remd G n G' -> Z_ G' s' C (T cn (T ct ts tp kt (plug P1 (T cb sb bo kb E))) pred kp (T cr rl ra kr rr)) -> Q tt s') ->
  (forall s', cp = Black -> Z_ G s' C (T cn (T ct ts tp kt (plug P1 (T cb sb bo kb (T cp pl n kn E)))) pred kp (T cr rl ra kr rr)) -> wp (gdel_leaf v fuel n) Q s') ->
  wp (swap_far v fuel n pred (mkN (rootp pl) 0 bo cp kp)) Q s.
Proof.
  destruct s as [rt cd h].
  intros (HC & HR & HF & HF1 & HG & Hcard) Hpl HQ1 HQ2. cbn [heap root card rep rootp] in *.
  destruct HR as (Hn & En & (Htp & Etp & Rts & RP) & (Hra & Era & Rrl & Rrr)).
  apply rep_plug in RP. cbn [rep rootp] in RP. destruct RP as (Hsg & (Hbo & Ebo & Rsb & (Hpr & Epr & Rpl & _))).
  assert (Hc : forall b, (ccnt b C + (cnt b ts + one b tp + (ccnt b P1 + (cnt b sb + one b bo + (cnt b pl + one b pred)))) + one b n +
                 cnt b (T cr rl ra kr rr) <= 1)%nat).
  { intros b. specialize (HF b). specialize (HF1 b). cbn [cnt] in *. rewrite cnt_plug in HF. cbn [cnt] in HF. lia. }
  pose (u := rootp (plug P1 (T cb sb bo kb (T cp pl pred kp E)))).
  assert (Hu : forall X, rootp (plug P1 (T cb sb bo kb X)) = u) by (intros X; apply rootp_plug; reflexivity).
  rewrite Hu in Etp. clearbody u.
  unfold swap_far. cbn [left right parent col key].
  destruct cp; [clear HQ2|clear HQ1].
  - specialize (Hpl eq_refl). subst pl.
    destruct (Grem_facts G h n _ _ C (T cn (T ct ts tp kt (plug P1 (T cb sb bo kb E))) pred kp (T cr rl ra kr rr)) HF HF1 HG) as (HF' & HF1' & _).
    { intros b. cbn [cnt]. rewrite !cnt_plug. cbn [cnt]. lia. }
    destruct C as [|[[] c a k sf] C]; cbn [crep faddr fsib fnode cpar rootp] in *;
    [subst rt; ne_all Hc [n; pred; ra; bo; tp]|destruct HC as (Ha & Ea & Rs & HC); ne_all Hc [n; pred; ra; bo; tp; a];
      assert (Hsf : rootp sf <> n) by (apply rootp_ne; [assumption|cz Hc n])..];
    destruct v; repeat stp Hc; (lazymatch goal with |- Q tt ?s1 => eapply (HQ1 (Grem G (heap s1) n) s1) end; [reflexivity|apply Grem_remd|]);
    rem_fin2 Hc HF HF' HF1' HG Hu.
  - destruct pl as [|c1 l1 a1 k1 r1]; [|destruct Rpl as (Ha1 & Ea1 & Rl1 & Rr1); ne_all Hc [a1; n; pred; ra; bo; tp]];
    (destruct C as [|[[] c a k sf] C]; cbn [crep faddr fsib fnode cpar rootp] in *;
    [subst rt; ne_all Hc [n; pred; ra; bo; tp]|destruct HC as (Ha & Ea & Rs & HC); ne_all Hc [n; pred; ra; bo; tp; a];
      assert (Hsf : rootp sf <> n) by (apply rootp_ne; [assumption|cz Hc n])..]);
    destruct v; repeat stp Hc; (eapply HQ2; [reflexivity|]; z_fin2 Hc HF HF1 HG Hu).
Qed.

Lemma rbc_rename P d c a k a' k' s C c0 m : rbc (P ++ Fr d c a k s :: C) c0 m -> rbc (P ++ Fr d c a' k' s :: C) c0 m.
Proof.
  revert c0 m. induction P as [|[d1 c1 a1 k1 s1] P IH]; intros c0 m H; cbn [app] in *; inversion H; subst; econstructor; eauto.
Qed.
Lemma cright_SR P : Forall (fun f => fside f = SR) P -> cright P = [].
Proof. induction 1 as [|[[] c a k s] P H _ IH]; [reflexivity|discriminate H|exact IH]. Qed.
Lemma cleft_app P C : cleft (P ++ C) = cleft C ++ cleft P.
Proof. induction P as [|[[] c a k s] P IH]; cbn [app cleft]; [now rewrite app_nil_r|exact IH|]. now rewrite IH, <- !app_assoc. Qed.
Lemma cright_app P C : cright (P ++ C) = cright P ++ cright C.
Proof. induction P as [|[[] c a k s] P IH]; cbn [app cright]; [reflexivity| |exact IH]. rewrite IH. now rewrite <- app_assoc. Qed.

Definition remd1 (G : ghost) (n : N) (G' : ghost) : Prop :=
  (forall b, gF G' b = (gF G b - one b n)%nat) /\ (forall b, b <> n -> gh G' b = gh G b) /\ gc G' = (gc G - 1)%Z.

(** Taking a node out, for either tree *)
Lemma del_core_spec v G1 s0 C c l n k r fuel m (Q : unit -> st -> Prop) :
  Z_ G1 s0 C (T c l n k r) -> rb (plug C (T c l n k r)) Black m -> (height (plug C (T c l n k r)) <= fuel)%nat ->
  (forall G' s' t', remd G1 n G' -> Z_ G' s' [] t' -> inorder t' = cleft C ++ (inorder l ++ inorder r) ++ cright C ->
     (exists m', rb t' Black m') -> Q tt s') ->
  wp (gdel_core v fuel n) Q s0.
Proof.
  intros HZ Hrb Hf HQ1. unfold gdel_core.
  pose proof (Z_focus _ _ _ _ _ _ _ _ HZ) as [Hn _].
  pose proof (Z_focus _ _ _ _ _ _ _ _ HZ) as [_ En].
  bnd. eapply wp_get_left; [exact Hn|exact En|]. cbn [left].
  bnd. eapply wp_get_right; [exact Hn|exact En|]. cbn [right].
  assert (HfC : (S (length C) <= fuel)%nat).
  { pose proof (height_plug C (T c l n k r)) as H. rewrite height_T in H. lia. }
  assert (Hleaf : l = E \/ r = E -> wp (gdel_leaf v fuel n) Q s0).
  { intros Hlr. destruct (rb_unplug _ _ _ Hrb) as (c0 & m0 & H1 & H2).
    assert (c0 = c) by (symmetry; exact (rb_tcol _ _ _ H1)). subst c0.
    eapply del_leaf_spec; [exact HZ|exact Hlr|exact H1|exact H2|lia|exact HQ1]. }
  destruct l as [|cl ll al kl lr]; [cbn [rootp]; rewrite N.eqb_refl; cbn [negb andb]; apply Hleaf; now left|].
  destruct r as [|cr rl ra kr rr]; [cbn [rootp]; rewrite N.eqb_refl; rewrite andb_false_r; apply Hleaf; now right|].
  clear Hleaf. set (l := T cl ll al kl lr) in *.
  assert (HZl : Z_ G1 s0 (Fr SL c n k (T cr rl ra kr rr) :: C) l) by (apply Z_d; exact HZ).
  assert (Hal : rootp l <> 0) by exact (proj1 (Z_focus _ _ _ _ _ _ _ _ HZl)).
  assert (Hra : ra <> 0) by exact (proj1 (Z_sib _ _ _ _ _ _ _ _ _ _ _ _ _ HZl)).
  rewrite (proj2 (N.eqb_neq _ _) Hal). change (rootp (T cr rl ra kr rr)) with ra. rewrite (proj2 (N.eqb_neq _ _) Hra). cbn [negb andb].
  bnd. unfold find_pred. bnd. eapply wp_get_left; [exact Hn|exact En|]. cbn [left].
  eapply find_pred_spec; [unfold l; congruence|exact HZl|let H := fresh in pose proof (height_plug C (T c l n k (T cr rl ra kr rr))) as H; rewrite height_T in H; clear - H Hf; lia|].
  intros P cp pl pred kp EP HP. clearbody l. subst l.
  assert (HZp : Z_ G1 s0 (P ++ Fr SL c n k (T cr rl ra kr rr) :: C) (T cp pl pred kp E)) by (apply Z_plugs; exact HZl).
  assert (Hrb2 : exists m1, rb (T cp pl pred kp E) cp m1 /\ rbc (P ++ Fr SL c n k (T cr rl ra kr rr) :: C) cp m1).
  { assert (H : plug C (T c (plug P (T cp pl pred kp E)) n k (T cr rl ra kr rr)) = plug (P ++ Fr SL c n k (T cr rl ra kr rr) :: C) (T cp pl pred kp E))
      by (now rewrite plug_app).
    rewrite H in Hrb. destruct (rb_unplug _ _ _ Hrb) as (c0 & m0 & H1 & H2).
    assert (c0 = cp) by (symmetry; exact (rb_tcol _ _ _ H1)). subst c0. eauto. }
  destruct Hrb2 as (m1 & Hp1 & Hp2).
  assert (Hred : cp = Red -> pl = E).
  { intros ->. inversion Hp1 as [|? ? ? ? ? H1 H2|]; subst. inversion H2; subst. inversion H1; reflexivity. }
  pose proof (Z_focus _ _ _ _ _ _ _ _ HZp) as [Hpr Epr]. cbn [rootp] in Epr.
  bnd. eapply wp_load; [exact Hpr|exact Epr|].
  bnd. eapply wp_get_right; [exact Hpr|exact Epr|]. cbn [right].
  bnd. apply wp_assert; [reflexivity|].
  bnd. eapply wp_get_parent; [exact Hpr|exact Epr|]. cbn [parent].
  assert (Hpp : cpar (P ++ Fr SL c n k (T cr rl ra kr rr) :: C) <> 0).
  { destruct P as [|f P]; cbn [app] in *; [exact Hn|]. destruct f; exact (proj1 (Z_frame _ _ _ _ _ HZp)). }
  bnd. apply wp_assert; [now rewrite (proj2 (N.eqb_neq _ _) Hpp)|].
  bnd. eapply wp_get_parent; [exact Hpr|exact Epr|]. cbn [parent].
  assert (Hlen : (length (P ++ Fr SL c pred kp (T cr rl ra kr rr) :: C) <= fuel)%nat).
  { pose proof (height_plug (P ++ Fr SL c n k (T cr rl ra kr rr) :: C) (T cp pl pred kp E)) as H.
    assert (E1 : plug C (T c (plug P (T cp pl pred kp E)) n k (T cr rl ra kr rr)) = plug (P ++ Fr SL c n k (T cr rl ra kr rr) :: C) (T cp pl pred kp E))
      by (now rewrite plug_app).
    rewrite <- E1 in H. rewrite app_length in *. cbn [length] in *. clear - H Hf. lia. }
  (* finishing from the exchanged tree *)
  assert (Hio : forall X Y, cleft C ++ (inorder (plug P X) ++ Y) ++ cright C = (cleft C ++ cleft P ++ inorder X) ++ Y ++ cright C).
  { intros X Y. rewrite plug_inorder, (cright_SR _ HP), app_nil_r. repeat rewrite <- app_assoc. reflexivity. }
  assert (Hfin : forall s', Z_ G1 s' (P ++ Fr SL c pred kp (T cr rl ra kr rr) :: C) (T cp pl n k E) -> wp (gdel_leaf v fuel n) Q s').
  { intros s' Z'. eapply del_leaf_spec; [exact Z'|now right| |eapply rbc_rename; exact Hp2|exact Hlen|].
    - inversion Hp1; subst; econstructor; eassumption.
    - intros G' s'' t' HG' Zt It Bt. eapply HQ1; [exact HG'|exact Zt| |exact Bt].
      rewrite It. rewrite cleft_app, cright_app. cbn [cleft cright inorder]. rewrite (cright_SR _ HP), Hio.
      cbn [inorder app]. repeat (rewrite <- app_assoc; cbn [app]). reflexivity. }
  assert (Hfin2 : forall G' s', cp = Red -> remd G1 n G' -> Z_ G' s' (P ++ Fr SL c pred kp (T cr rl ra kr rr) :: C) E -> Q tt s').
  { intros G' s' -> HG' Z'. specialize (Hred eq_refl). subst pl. inversion Hp1 as [|? ? ? ? ? H1 H2|]; subst. inversion H1; subst.
    apply rbc_weak in Hp2. apply (rbc_rename _ _ _ _ _ pred kp) in Hp2.
    destruct (rb_plug _ E _ _ ltac:(constructor) Hp2) as (m' & Hm').
    eapply HQ1; [exact HG'|exact (proj1 (Z_plug _ _ _ _) Z')| |eauto].
    rewrite plug_inorder, cleft_app, cright_app. cbn [cleft cright inorder]. rewrite (cright_SR _ HP), Hio.
    cbn [inorder app]. repeat (rewrite <- app_assoc; cbn [app]). reflexivity. }
  destruct P as [|[d0 cb bo kb sb] P].
  - (* the predecessor is the left child *)
    cbn [app cpar plug] in *. rewrite N.eqb_refl. cbn [negb].
    change (wp (swap_near v fuel n pred (mkN (rootp pl) 0 n cp kp)) Q s0).
    eapply swap_near_spec; [exact HZ|intros ->; cbn [plug] in Hrb; inversion Hrb; reflexivity| |intros s' -> Z'; apply Hfin, Z'].
    intros G' s' Ec HG' Z'. rewrite (Hred Ec) in Z'. apply (Hfin2 G' s' Ec HG'). apply Z_d. exact Z'.
  - inversion HP as [|? ? Hd HP']; subst. cbn [fside] in Hd. subst d0.
    assert (Hne : bo <> n).
    { pose proof (Z_cnt _ _ _ _ HZp) as Hc. intros ->. specialize (Hc n). cbn [app ccnt] in Hc. rewrite ccnt_app in Hc. cbn [ccnt] in Hc.
      rewrite one_same in Hc. clear - Hc. lia. }
    change (cpar ((Fr SR cb bo kb sb :: P) ++ Fr SL c n k (T cr rl ra kr rr) :: C)) with bo.
    rewrite (proj2 (N.eqb_neq _ _) Hne). cbn [negb].
    change (wp (swap_far v fuel n pred (mkN (rootp pl) 0 bo cp kp)) Q s0).
    assert (Hback : forall G' s' X, Z_ G' s' C (T c (plug (Fr SR cb bo kb sb :: P) X) pred kp (T cr rl ra kr rr)) ->
              Z_ G' s' ((Fr SR cb bo kb sb :: P) ++ Fr SL c pred kp (T cr rl ra kr rr) :: C) X).
    { intros G' s' X Z'. apply Z_plugs, Z_d. exact Z'. }
    assert (HPc : P = [] \/ exists P1 g, P = P1 ++ [g]).
    { destruct P as [|g P]; [now left|right]. destruct (exists_last (l := g :: P)) as (P1 & g' & E1); [congruence|eauto]. }
    destruct HPc as [->|(P1 & [d1 ct tp kt ts] & ->)].
    + eapply swap_far1_spec; [exact HZ|exact Hred| |].
      * intros G' s' Ec HG' Z'. apply (Hfin2 G' s' Ec HG'). apply Hback. exact Z'.
      * intros s' Ec Z'. apply Hfin, Hback. exact Z'.
    + apply Forall_app in HP' as [_ HP']. inversion HP' as [|? ? Hd _]; subst. cbn [fside] in Hd. subst d1.
      assert (Epl : forall X, plug (Fr SR cb bo kb sb :: P1 ++ [Fr SR ct tp kt ts]) X = T ct ts tp kt (plug P1 (T cb sb bo kb X))).
      { intros X. cbn [plug up]. rewrite plug_app. reflexivity. }
      rewrite Epl in HZ. eapply swap_far2_spec; [exact HZ|exact Hred| |].
      * intros G' s' Ec HG' Z'. apply (Hfin2 G' s' Ec HG'). apply Hback. rewrite Epl. exact Z'.
      * intros s' Ec Z'. apply Hfin, Hback. rewrite Epl. exact Z'.
Qed.

Lemma rbt_del_spec G s C c l n k r fuel m (Q : unit -> st -> Prop) :
  Z_ G s C (T c l n k r) -> rb (plug C (T c l n k r)) Black m -> gc G <> 0%Z -> (height (plug C (T c l n k r)) <= fuel)%nat ->
  (forall G' s' t', remd1 G n G' -> Z_ G' s' [] t' -> inorder t' = cleft C ++ (inorder l ++ inorder r) ++ cright C ->
     (exists m', rb t' Black m') -> Q tt s') ->
  wp (rbt_del fuel n) Q s.
Proof.
  intros HZ Hrb Hcd Hf HQ. rewrite <- del_false. unfold grbt_del.
  assert (Ecd : card s = gc G) by (destruct HZ as (_ & _ & _ & _ & _ & H); exact H).
  pose proof (Z_focus _ _ _ _ _ _ _ _ HZ) as [Hn _].
  bnd. apply wp_assert; [now rewrite (proj2 (N.eqb_neq _ _) Hn)|].
  bnd. apply wp_get_card. bnd. apply wp_assert. { rewrite Ecd. apply negb_true_iff. now apply Z.eqb_neq. }
  bnd. apply wp_set_card. rewrite Ecd.
  apply (Z_card _ _ _ _ (gc G - 1)) in HZ.
  eapply del_core_spec; [exact HZ|exact Hrb|exact Hf|].
  intros G' s' t' (R1 & R2 & R3). apply HQ. repeat split; assumption.
Qed.
