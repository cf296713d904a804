(** Deletion: taking the node out, and the exchange with the predecessor. *)
From Verif Require Export L_RbtDel.
From Coq Require Import ZifyBool ZifyNat ZifyN.
Local Open Scope N_scope.

(** [G'] is [G] without the node [n] *)
Definition remd (G : ghost) (n : N) (G' : ghost) : Prop :=
  (forall b, gF G' b = (gF G b - one b n)%nat) /\ (forall b, b <> n -> gh G' b = gh G b) /\ gc G' = gc G.

Definition other (l r : tree) : tree := match r with E => l | _ => r end.

(** Common start of the lemmas that remove [n] from the represented set *)
Definition Grem (G : ghost) (h : N -> option node) (n : N) : ghost :=
  mkG (fun b => (gF G b - one b n)%nat) (fun b => if b =? n then h n else gh G b) (gc G).
Lemma Grem_remd G h n : remd G n (Grem G h n).
Proof. repeat split; cbn. intros b Hb. now rewrite (proj2 (N.eqb_neq _ _) Hb). Qed.
Lemma Grem_facts G h n C t C' t' :
  (forall b, (ccnt b C + cnt b t)%nat = gF G b) -> (forall b, (gF G b <= 1)%nat) -> (forall b, gF G b = 0%nat -> h b = gh G b) ->
  (forall b, (ccnt b C' + cnt b t' + one b n = ccnt b C + cnt b t)%nat) ->
  (forall b, (ccnt b C' + cnt b t')%nat = gF (Grem G h n) b) /\ (forall b, (gF (Grem G h n) b <= 1)%nat) /\
  (forall b, gF (Grem G h n) b = 0%nat -> h b = gh (Grem G h n) b).
Proof.
  intros HF HF1 HG Hd. cbn [Grem gF gh]. split; [|split].
  - intros b. rewrite <- HF, <- Hd. lia.
  - intros b. specialize (HF1 b). lia.
  - intros b Hb. destruct (N.eqb_spec b n) as [->|Hne]; [reflexivity|]. apply HG.
    unfold one in Hb. rewrite (proj2 (N.eqb_neq _ _) Hne) in Hb. lia.
Qed.

Lemma replace_node_spec v G s f C c l n k r (Q : unit -> st -> Prop) :
  Z_ G s (f :: C) (T c l n k r) -> l = E \/ r = E ->
  (forall G' s', remd G n G' -> Z_ G' s' (f :: C) (other l r) -> heap s' n = heap s n -> Q tt s') ->
  wp (greplace_node v n (rootp (other l r))) Q s.
Proof.
  destruct s as [rt cd h], f as [d cf p kp sb].
  intros (HC & (Hx & Ex & Rl & Rr) & HF & HF1 & HG & Hcard) Hlr HQ. cbn [heap root card] in *.
  assert (Hc : forall b, (ccnt b (Fr d cf p kp sb :: C) + cnt b (T c l n k r) <= 1)%nat) by (intros b; rewrite HF; apply HF1).
  cbn [crep faddr fsib rootp cpar] in *. destruct HC as (Hp & Ep & Rs & HC).
  assert (Hsb : rootp sb <> n) by (apply rootp_ne; [assumption|cz Hc n]).
  destruct (Grem_facts G h n _ _ (Fr d cf p kp sb :: C) (other l r) HF HF1 HG) as (HF' & HF1' & HG').
  { intros b. cbn [cnt]. destruct Hlr as [->| ->]; [destruct r|]; cbn [other cnt]; lia. }
  unfold greplace_node, replace_node.
  assert (Eo : other l r = E \/ exists c2 l2 n2 k2 r2, other l r = T c2 l2 n2 k2 r2)
    by (destruct (other l r); [now left|right; eauto 10]).
  assert (Ro : rep h (other l r) n) by (destruct r; cbn [other]; assumption).
  assert (Hco : forall b, (cnt b (other l r) <= cnt b l + cnt b r)%nat) by (intros b; destruct r; cbn [other cnt]; lia).
  clear Hlr Rl Rr.
  assert (Hc2 : forall b, (ccnt b (Fr d cf p kp sb :: C) + (cnt b (other l r) + one b n) <= 1)%nat).
  { intros b. specialize (Hc b). cbn [cnt] in Hc. specialize (Hco b). lia. }
  assert (Hn2 : n <> 0) by exact Hx.
  destruct Eo as [Eo|(c2 & l2 & n2 & k2 & r2 & Eo)]; rewrite Eo in *; cbn [rootp rep] in *; [|destruct Ro as (H2 & E2 & Rl2 & Rr2)];
  destruct v, d; cbn [fnode] in *; repeat step Hc2;
  (eapply HQ; [apply Grem_remd| |cbn [heap]; unfold upd; simp_eqb Hc2; reflexivity]; z_fin Hc2 HF' HF1' HG').
Qed.

Definition blacken (t : tree) : tree := match t with E => E | T _ l a k r => T Black l a k r end.
Lemma root_del_spec G s c l n k r (Q : unit -> st -> Prop) :
  Z_ G s [] (T c l n k r) -> l = E \/ r = E ->
  (forall G' s', remd G n G' -> Z_ G' s' [] (blacken (other l r)) -> Q tt s') ->
  wp (set_root (rootp (other l r)) ;;;
      if negb (rootp (other l r) =? 0) then set_color (rootp (other l r)) Black ;;; set_parent (rootp (other l r)) 0 else ret tt) Q s.
Proof.
  destruct s as [rt cd h].
  intros (HC & (Hx & Ex & Rl & Rr) & HF & HF1 & HG & Hcard) Hlr HQ. cbn [heap root card] in *.
  assert (Hc : forall b, (ccnt b [] + cnt b (T c l n k r) <= 1)%nat) by (intros b; rewrite HF; apply HF1).
  cbn [crep rootp cpar] in *.
  destruct (Grem_facts G h n _ _ [] (blacken (other l r)) HF HF1 HG) as (HF' & HF1' & HG').
  { intros b. cbn [cnt]. destruct Hlr as [->| ->]; [destruct r|destruct l]; cbn [other blacken cnt]; lia. }
  assert (Eo : other l r = E \/ exists c2 l2 n2 k2 r2, other l r = T c2 l2 n2 k2 r2)
    by (destruct (other l r); [now left|right; eauto 10]).
  assert (Ro : rep h (other l r) n) by (destruct r; cbn [other]; assumption).
  assert (Hco : forall b, (cnt b (other l r) <= cnt b l + cnt b r)%nat) by (intros b; destruct r; cbn [other cnt]; lia).
  clear Hlr Rl Rr.
  assert (Hc2 : forall b, (cnt b (other l r) + one b n <= 1)%nat).
  { intros b. specialize (Hc b). cbn [cnt ccnt] in Hc. specialize (Hco b). lia. }
  destruct Eo as [Eo|(c2 & l2 & n2 & k2 & r2 & Eo)]; rewrite Eo in *; cbn [rootp rep blacken] in *; [|destruct Ro as (H2 & E2 & Rl2 & Rr2)];
  repeat step Hc2; (eapply HQ; [apply Grem_remd|]; z_fin Hc2 HF' HF1' HG').
Qed.

Lemma child_ptr s G C c l n k r : Z_ G s C (T c l n k r) -> (if rootp r =? 0 then rootp l else rootp r) = rootp (other l r).
Proof.
  intros (_ & (_ & _ & _ & Hr) & _). destruct r as [|c2 l2 a2 k2 r2]; cbn [rootp other]; [reflexivity|].
  destruct Hr as (Ha & _). now rewrite (proj2 (N.eqb_neq _ _) Ha).
Qed.
Lemma inorder_other l r : l = E \/ r = E -> inorder (other l r) = inorder l ++ inorder r.
Proof. intros [->| ->]; [now destruct r|]. cbn. now rewrite app_nil_r. Qed.

Lemma Z_root_ne G s f C c l n k r : Z_ G s (f :: C) (T c l n k r) -> root s <> n.
Proof.
  intros HZ E. pose proof (Z_cnt _ _ _ _ HZ n) as Hc. destruct HZ as (HC & _). apply (crep_root _ (f :: C)) in HC; [|discriminate]. rewrite E in HC.
  cbn [cnt] in Hc. rewrite one_same in Hc. lia.
Qed.
Lemma Z_root_nil G s c l n k r : Z_ G s [] (T c l n k r) -> root s = n.
Proof. intros (HC & _). cbn [crep rootp] in HC. congruence. Qed.

Lemma del_leaf_spec v G fuel s C c l n k r m (Q : unit -> st -> Prop) :
  Z_ G s C (T c l n k r) -> l = E \/ r = E -> rb (T c l n k r) c m -> rbc C c m -> (length C <= fuel)%nat ->
  (forall G' s' t', remd G n G' -> Z_ G' s' [] t' -> inorder t' = cleft C ++ (inorder l ++ inorder r) ++ cright C ->
     (exists m', rb t' Black m') -> Q tt s') ->
  wp (gdel_leaf v fuel n) Q s.
Proof.
  intros HZ Hlr Hrb HC Hf HQ. unfold gdel_leaf.
  pose proof (Z_focus _ _ _ _ _ _ _ _ HZ) as [Hn En].
  bnd. eapply wp_get_left; [exact Hn|exact En|]. cbn [left].
  bnd. eapply wp_get_right; [exact Hn|exact En|]. cbn [right].
  bnd. apply wp_assert. { destruct Hlr as [->| ->]; cbn [rootp]; rewrite N.eqb_refl; [reflexivity|apply orb_true_r]. }
  rewrite (child_ptr _ _ _ _ _ _ _ _ HZ). cbv zeta.
  assert (Hrest : wp (gdel_rest v fuel n (rootp (other l r))) Q s); cycle 1.
  { destruct v; [|exact Hrest]. bnd. apply wp_get_root.
    destruct C as [|f C]; [|rewrite (proj2 (N.eqb_neq _ _) (Z_root_ne _ _ _ _ _ _ _ _ _ HZ)), andb_false_r; exact Hrest].
    rewrite (Z_root_nil _ _ _ _ _ _ _ HZ), N.eqb_refl, andb_true_r.
    destruct (N.eqb_spec (rootp (other l r)) 0) as [E0|]; [|exact Hrest].
    assert (Eo : other l r = E).
    { destruct HZ as (_ & (_ & _ & Rl & Rr) & _). destruct r as [|c2 l2 a2 k2 r2]; cbn [other] in *;
      [destruct l as [|c3 l3 a3 k3 r3]; [reflexivity|destruct Rl as (H & _)]|destruct Rr as (H & _)]; cbn [rootp] in E0; congruence. }
    pose proof (root_del_spec G s c l n k r Q HZ Hlr) as HR. rewrite Eo in HR. cbn [rootp blacken] in HR.
    change (negb (0 =? 0)) with false in HR. cbv iota in HR.
    assert (HR2 : wp (set_root 0 ;;; ret tt) Q s).
    { apply HR. intros G' s' HG' Z'. eapply HQ; [exact HG'|exact Z'| |exists 0%nat; constructor].
      cbn [cleft cright app inorder]. rewrite app_nil_r, <- (inorder_other l r Hlr), Eo. reflexivity. }
    exact HR2. }
  unfold gdel_rest.
  bnd. eapply wp_node_color; [right; split; [exact Hn|split; [exact En|reflexivity]]|]. cbn [col].
  assert (Hio := inorder_other l r Hlr).
  destruct c; cbn [ceqb].
  - (* red *)
    destruct C as [|f C]; [inversion HC|].
    assert (Eo : other l r = E /\ m = 0%nat).
    { inversion Hrb as [|? ? ? ? ? Hl Hr|]; subst. destruct Hlr as [->| ->].
      - inversion Hl; subst. inversion Hr; subst. now split.
      - inversion Hr; subst. inversion Hl; subst. now split. }
    destruct Eo as [Eo ->].
    eapply replace_node_spec; [exact HZ|exact Hlr|]. intros G' s' HG' Z' _.
    rewrite Eo in Z'. destruct (rb_plug (f :: C) E Black 0 ltac:(constructor) ltac:(now apply rbc_weak)) as (m' & Hm').
    eapply HQ; [exact HG'|exact (proj1 (Z_plug _ _ _ _) Z')| |eauto].
    rewrite plug_inorder, <- Hio, Eo. reflexivity.
  - assert (Hm : exists co, m = 1%nat /\ rb (other l r) co 0).
    { inversion Hrb as [| |? ? ? ? ? ? ? Hl Hr]; subst. destruct Hlr as [->| ->].
      - inversion Hl; subst. destruct r; [exists Black; split; [reflexivity|constructor]|]. eexists; split; [reflexivity|exact Hr].
      - inversion Hr; subst. eexists; split; [reflexivity|exact Hl]. }
    destruct Hm as (co & -> & Ho).
    assert (Hco : rootp (other l r) = 0 /\ co = Black \/ rootp (other l r) <> 0 /\
              exists nd, heap s (rootp (other l r)) = Some nd /\ col nd = co).
    { destruct HZ as (_ & (_ & _ & Rl & Rr) & _).
      assert (Ro : rep (heap s) (other l r) n) by (destruct r; cbn [other]; assumption).
      destruct (other l r) as [|c2 l2 a2 k2 r2]; cbn [rootp rep] in *.
      - left. inversion Ho. now split.
      - right. destruct Ro as (H1 & H2 & _). split; [exact H1|]. eexists. split; [exact H2|]. cbn. inversion Ho; reflexivity. }
    bnd. eapply (wp_node_color _ _ _ co (match heap s (rootp (other l r)) with Some nd => nd | None => mkN 0 0 0 Black 0 end)).
    { destruct Hco as [H|(H1 & nd & H2 & H3)]; [left; exact H|right]. rewrite H2. auto. }
    bnd. eapply set_color_spec; [exact HZ|]. intros s1 Z1. clear En.
    pose proof (Z_focus _ _ _ _ _ _ _ _ Z1) as [_ En].
    bnd. eapply wp_get_parent; [exact Hn|exact En|]. cbn [parent].
    destruct C as [|f C].
    + cbn [cpar]. rewrite N.eqb_refl. eapply root_del_spec; [exact Z1|exact Hlr|]. intros G' s' HG' Z'.
      eapply HQ; [exact HG'|exact Z'| |].
      * cbn [cleft cright app]. rewrite app_nil_r, <- Hio. destruct (other l r); reflexivity.
      * inversion Ho; subst; cbn [blacken]; eexists; econstructor; eassumption.
    + assert (Hp : cpar (f :: C) <> 0) by (destruct f; exact (proj1 (Z_frame _ _ _ _ _ Z1))).
      rewrite (proj2 (N.eqb_neq _ _) Hp).
      bnd. eapply del2_spec; [exact Z1|exact HC|exact Hf|]. intros s2 C' Z2 (F1 & F2 & F3).
      destruct C' as [|f' C']; [specialize (F3 Red); inversion F3|].
      bnd. eapply replace_node_spec; [exact Z2|exact Hlr|]. intros G' s3 HG' Z3 E3.
      pose proof (Z_focus _ _ _ _ _ _ _ _ Z2) as [_ En2]. rewrite En2 in E3.
      assert (Hdone : Q tt s3).
      { destruct (rb_plug (f' :: C') (other l r) co 0 Ho (F3 co)) as (m' & Hm').
        eapply HQ; [exact HG'|exact (proj1 (Z_plug _ _ _ _) Z3)| |eauto].
        rewrite plug_inorder, F1, F2, Hio. reflexivity. }
      destruct v; [apply wp_ret; exact Hdone|].
      bnd. eapply wp_get_parent; [exact Hn|exact E3|]. cbn [parent].
      assert (Hp' : cpar (f' :: C') <> 0) by (destruct f'; exact (proj1 (Z_frame _ _ _ _ _ Z2))).
      rewrite (proj2 (N.eqb_neq _ _) Hp'). cbn [andb]. apply wp_ret. exact Hdone.
Qed.

(** The predecessor: the rightmost node of a tree *)
Lemma find_pred_spec G s : forall t fuel C (Q : N -> st -> Prop), t <> E -> Z_ G s C t -> (height t <= fuel)%nat ->
  (forall P cp pl pred kp, t = plug P (T cp pl pred kp E) -> Forall (fun f => fside f = SR) P -> Q pred s) ->
  wp (find_pred_loop fuel (rootp t)) Q s.
Proof.
  induction t as [|c l _ a k r IH]; intros fuel C Q Ht HZ Hf HQ; [congruence|].
  destruct fuel as [|fuel]; [rewrite height_T in Hf; lia|]. cbn [find_pred_loop rootp].
  pose proof (Z_focus _ _ _ _ _ _ _ _ HZ) as [Ha Ea]. rewrite height_T in Hf.
  bnd. eapply wp_get_right; [exact Ha|exact Ea|]. cbn [right].
  destruct r as [|c2 l2 a2 k2 r2].
  - cbn [rootp]. rewrite N.eqb_refl. apply wp_ret. apply (HQ [] c l a k); [reflexivity|constructor].
  - apply (Z_d G s (Fr SR c a k l)) in HZ. pose proof (Z_focus _ _ _ _ _ _ _ _ HZ) as [Ha2 _].
    change (rootp (T c2 l2 a2 k2 r2)) with a2. rewrite (proj2 (N.eqb_neq _ _) Ha2).
    eapply IH; [congruence|exact HZ|lia|].
    intros P cp pl pred kp EP HP. apply (HQ (P ++ [Fr SR c a k l]) cp pl pred kp).
    + rewrite plug_app, <- EP. reflexivity.
    + apply Forall_app. split; [exact HP|]. constructor; [reflexivity|constructor].
Qed.

(** A piece of context between two nodes *)
Fixpoint sg (h : N -> option node) (P : ctx) (hole q : N) : Prop :=
  match P with
  | [] => True
  | f :: P' => faddr f <> 0 /\ h (faddr f) = Some (fnode f hole (match P' with [] => q | g :: _ => faddr g end)) /\
               rep h (fsib f) (faddr f) /\ sg h P' (faddr f) q
  end.
Definition cparq (P : ctx) (q : N) : N := match P with [] => q | f :: _ => faddr f end.
Lemma rep_plug h P : forall t q, rep h (plug P t) q <-> sg h P (rootp t) q /\ rep h t (cparq P q).
Proof.
  induction P as [|[d c a k s] P IH]; intros t q; [cbn; tauto|].
  cbn [plug sg cparq faddr fsib]. rewrite IH. destruct d; cbn [up rep rootp fnode faddr]; unfold cparq; tauto.
Qed.
Lemma sg_frame h h' P p q : (forall b, (1 <= ccnt b P)%nat -> h' b = h b) -> sg h P p q -> sg h' P p q.
Proof.
  revert p. induction P as [|[d c a k s] P IH]; intros p Hf H; [exact H|].
  cbn [sg ccnt faddr fsib] in *. destruct H as (H1 & H2 & H3 & H4).
  split; [exact H1|]. split; [|split].
  - rewrite Hf; [exact H2|]. rewrite one_same. lia.
  - eapply rep_frame; [|exact H3]. intros b Hb. apply Hf. lia.
  - apply IH; [|exact H4]. intros b Hb. apply Hf. lia.
Qed.
Lemma rootp_plug P t t' : rootp t = rootp t' -> rootp (plug P t) = rootp (plug P t').
Proof.
  revert t t'. induction P as [|f P IH]; intros t t' H; [exact H|]. cbn [plug]. apply IH. destruct f as [[] ? ? ? ?]; reflexivity.
Qed.

(** The exchange with the predecessor.  [nd] is the predecessor's contents before. *)
Definition swap_far (v : bool) (fuel : nat) (n pred : N) (P : node) : prog unit :=
  nl <- get_left n ;; set_left pred nl ;;;
  nr <- get_right n ;; set_right pred nr ;;;
  np <- get_parent n ;; set_parent pred np ;;;
  nc <- get_color n ;; set_color pred nc ;;;
  set_color n (col P) ;;;
  nr <- get_right n ;; set_parent nr pred ;;;
  nl <- get_left n ;; set_parent nl pred ;;;
  gattach v n pred ;;;
  c <- node_color n ;;
  if ceqb c Red then set_right (parent P) (left P)
  else
    set_left n (left P) ;;; set_right n 0 ;;; set_parent n (parent P) ;;;
    (if left P =? 0 then ret tt else set_parent (left P) n) ;;;
    ppr <- get_right (parent P) ;; assert_ (ppr =? pred) ;;;
    set_right (parent P) n ;;;
    gdel_leaf v fuel n.
Definition swap_near (v : bool) (fuel : nat) (n pred : N) (P : node) : prog unit :=
  nc <- get_color n ;; set_color pred nc ;;;
  set_color n (col P) ;;;
  np <- get_parent n ;; set_parent pred np ;;;
  nr <- get_right n ;; set_right pred nr ;;;
  nr <- get_right n ;; set_parent nr pred ;;;
  (np <- get_parent n ;;
   if negb (np =? 0) then
     npl <- get_left np ;;
     (if n =? npl then set_left np pred else set_right np pred) ;;;
     np <- get_parent n ;; set_parent pred np
   else set_root pred ;;; if v then set_color pred Black ;;; set_parent pred 0 else set_parent pred 0) ;;;
  c <- node_color n ;;
  if ceqb c Red then ret tt
  else
    set_left n (left P) ;;;
    (if left P =? 0 then ret tt else set_parent (left P) n) ;;;
    set_left pred n ;;;
    set_parent n pred ;;;
    set_right n 0 ;;;
    set_parent n pred ;;;
    gdel_leaf v fuel n.

Ltac stp Hc :=
  cbv beta;
  lazymatch goal with
  | |- wp (node_color _) _ _ => eapply wp_node_color; [right; split; [ne_tac Hc|split; [look Hc|reflexivity]]|cbn [col ceqb]]
  | |- wp (gattach _ _ _) _ _ => unfold gattach
  | |- wp (if ceqb _ _ then _ else _) _ _ => progress cbn [ceqb col]
  | _ => step Hc
  end.
Lemma out_rem G h h' n : (forall b, gF G b = 0%nat -> h b = gh G b) ->
  (forall b, b <> n -> gF G b = 0%nat -> h' b = h b) ->
  forall b, gF (Grem G h' n) b = 0%nat -> h' b = gh (Grem G h' n) b.
Proof.
  intros HG Hh b Hb. cbn [Grem gF gh] in *. destruct (N.eqb_spec b n) as [->|Hne]; [reflexivity|].
  assert (gF G b = 0%nat) by (unfold one in Hb; rewrite (proj2 (N.eqb_neq _ _) Hne) in Hb; lia).
  rewrite Hh by assumption. now apply HG.
Qed.
Ltac cnts := cbn [cnt ccnt] in *; rewrite ?cnt_plug in *; cbn [cnt ccnt] in *; rewrite ?one_same in *.
Ltac outr HF :=
  let b := fresh "b" in let Hb := fresh "Hb" in let Hne := fresh "Hne" in
  intros b Hne Hb; cbn [heap root card]; unfold upd;
  repeat match goal with |- context [b =? ?a] =>
    let Eb := fresh "Eb" in
    destruct (N.eqb_spec b a) as [Eb|Eb];
      [exfalso; first [exact (Hne Eb)|rewrite Eb in Hb; rewrite <- HF in Hb; clear - Hb; cnts; lia]|]
  end; reflexivity.
Ltac rem_fin Hc HF HF' HF1' HG :=
  unfold Z_; split; [|split; [|split; [|split; [|split]]]]; cbn [heap root card];
  [rep_fin Hc|rep_fin Hc|exact HF'|exact HF1'|eapply out_rem; [exact HG|outr HF]|assumption].
(** Distinctness of the addresses of a list, as hypotheses *)
Ltac ne1 Hc a b := assert (a <> b) by ne_tac Hc.
Ltac ne_all Hc L :=
  lazymatch L with
  | ?a :: ?L' =>
    let rec go M := lazymatch M with ?b :: ?M' => ne1 Hc a b; go M' | _ => idtac end in
    go L'; ne_all Hc L'
  | _ => idtac
  end.
Lemma swap_near_spec v G fuel s C cn cp pl pred kp n kn cr rl ra kr rr q0 (Q : unit -> st -> Prop) :
  Z_ G s C (T cn (T cp pl pred kp E) n kn (T cr rl ra kr rr)) -> (C = [] -> cn = Black) ->
  (forall G' s', cp = Red -> remd G n G' -> Z_ G' s' C (T cn pl pred kp (T cr rl ra kr rr)) -> Q tt s') ->
  (forall s', cp = Black -> Z_ G s' (Fr SL cn pred kp (T cr rl ra kr rr) :: C) (T cp pl n kn E) -> wp (gdel_leaf v fuel n) Q s') ->
  wp (swap_near v fuel n pred (mkN (rootp pl) 0 q0 cp kp)) Q s.
Proof.
  destruct s as [rt cd h].
  intros (HC & HR & HF & HF1 & HG & Hcard) Hcn HQ1 HQ2. cbn [heap root card rep rootp] in *.
  destruct HR as (Hn & En & (Hpr & Epr & Rpl & _) & (Hra & Era & Rrl & Rrr)).
  assert (Hc : forall b, (ccnt b C + cnt b (T cn (T cp pl pred kp E) n kn (T cr rl ra kr rr)) <= 1)%nat) by (intros b; rewrite HF; apply HF1).
  destruct (Grem_facts G h n _ _ C (T cn pl pred kp (T cr rl ra kr rr)) HF HF1 HG) as (HF' & HF1' & _).
  { intros b. cbn [cnt]. lia. }
  unfold swap_near. cbn [left right parent col key].
  destruct cp; [clear HQ2|clear HQ1 HF' HF1'].
  - destruct C as [|[[] c a k sb] C]; cbn [crep faddr fsib fnode cpar rootp] in *;
    [subst rt; specialize (Hcn eq_refl); subst cn; ne_all Hc [n; pred; ra]|destruct HC as (Ha & Ea & Rs & HC); ne_all Hc [n; pred; ra; a];
      assert (Hsb : rootp sb <> n) by (apply rootp_ne; [assumption|cz Hc n])..];
    destruct v; repeat stp Hc; (lazymatch goal with |- Q tt ?s1 => eapply (HQ1 (Grem G (heap s1) n) s1) end; [reflexivity|apply Grem_remd|]);
    rem_fin Hc HF HF' HF1' HG.
  - destruct pl as [|c1 l1 a1 k1 r1]; [|destruct Rpl as (Ha1 & Ea1 & Rl1 & Rr1); ne_all Hc [a1; n; pred; ra]];
    (destruct C as [|[[] c a k sb] C]; cbn [crep faddr fsib fnode cpar rootp] in *;
    [subst rt; specialize (Hcn eq_refl); subst cn; ne_all Hc [n; pred; ra]|destruct HC as (Ha & Ea & Rs & HC); ne_all Hc [n; pred; ra; a];
      assert (Hsb : rootp sb <> n) by (apply rootp_ne; [assumption|cz Hc n])..]);
    destruct v; repeat stp Hc; (eapply HQ2; [reflexivity|]; z_fin Hc HF HF1 HG).
Qed.
