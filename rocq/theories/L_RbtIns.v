(** Insertion. *)
From Verif Require Export L_Rbt.
From Coq Require Import ZifyBool ZifyNat ZifyN Sorting.Sorted.
Local Open Scope N_scope.

Fixpoint height (t : tree) : nat := match t with E => 0 | T _ l _ _ r => S (Nat.max (height l) (height r)) end.
Lemma height_T c l a k r : height (T c l a k r) = S (Nat.max (height l) (height r)).
Proof. reflexivity. Qed.
Lemma height_plug C : forall t, (length C + height t <= height (plug C t))%nat.
Proof.
  induction C as [|[d c a k s] C IH]; intros t; cbn [length plug]; [lia|].
  specialize (IH (up (Fr d c a k s) t)). destruct d; cbn [up] in *; rewrite height_T in IH; lia.
Qed.

Lemma Z_upd_out G s C t a n : Z_ G s C t -> gF G a = 0%nat ->
  Z_ (mkG (gF G) (upd (gh G) a n) (gc G)) (mkSt (root s) (card s) (upd (heap s) a n)) C t.
Proof.
  intros (H1 & H2 & H3 & H4 & H5 & H6) Ha. unfold Z_. cbn [heap root card gF gh gc].
  assert (Hf : forall b, (1 <= ccnt b C + cnt b t)%nat -> upd (heap s) a n b = heap s b).
  { intros b Hb. unfold upd. destruct (N.eqb_spec b a) as [->|]; [|reflexivity]. rewrite H3 in Hb. lia. }
  split; [eapply crep_frame; [|exact H1]; intros b Hb; apply Hf; lia|].
  split; [eapply rep_frame; [|exact H2]; intros b Hb; apply Hf; lia|].
  split; [exact H3|]. split; [exact H4|]. split; [|exact H6].
  intros b Hb. unfold upd. destruct (b =? a); [reflexivity|now apply H5].
Qed.
Lemma Z_card G s C t v : Z_ G s C t -> Z_ (mkG (gF G) (gh G) v) (mkSt (root s) v (heap s)) C t.
Proof. intros (H1 & H2 & H3 & H4 & H5 & H6). unfold Z_. cbn [heap root card gF gh gc]. auto 10. Qed.

Section Ins.
Variable cmp : N -> N -> Z.

Definition goes (kx : N) (f : frame) : Prop :=
  match f with Fr SL _ _ k _ => (0 < cmp k kx)%Z | Fr SR _ _ k _ => (cmp k kx <= 0)%Z end.
Definition fside (f : frame) : side := match f with Fr d _ _ _ _ => d end.

Lemma descend_spec G s x nx : x <> 0 -> heap s x = Some nx -> forall t fuel C par c (Q : N * Z -> st -> Prop),
  Z_ G s C t -> Forall (goes (key nx)) C -> (height t < fuel)%nat ->
  (match C with [] => True | f :: _ => par = cpar C /\ fside f = (if (0 <? c)%Z then SL else SR) end) ->
  (forall C' par' c', Z_ G s C' E -> Forall (goes (key nx)) C' -> plug C' E = plug C t ->
     (match C' with [] => True | f :: _ => par' = cpar C' /\ fside f = (if (0 <? c')%Z then SL else SR) end) -> Q (par', c') s) ->
  wp (ins_descend cmp fuel x (rootp t) par c) Q s.
Proof.
  intros Hx Ex. induction t as [|ct l IHl a k r IHr]; intros fuel C par c Q HZ HG Hf Hm HQ.
  - destruct fuel; [lia|]. cbn [ins_descend rootp]. repeat ld. apply (HQ C); auto.
  - destruct fuel as [|fuel]; [lia|]. cbn [ins_descend rootp]. rewrite height_T in Hf.
    pose proof (Z_focus _ _ _ _ _ _ _ _ HZ) as [Ha Ea]. repeat ld.
    destruct (Z.ltb_spec 0 (cmp k (key nx))) as [Hlt|Hge]; repeat ld.
    + apply (IHl fuel (Fr SL ct a k r :: C)); [now apply Z_d|constructor; assumption|lia| |].
      * cbn. split; [reflexivity|]. now destruct (Z.ltb_spec 0 (cmp k (key nx))); [|lia].
      * intros C' par' c' H1 H2 H3 H4. apply (HQ C'); auto.
    + apply (IHr fuel (Fr SR ct a k l :: C)); [now apply Z_d|constructor; assumption|lia| |].
      * cbn. split; [reflexivity|]. now destruct (Z.ltb_spec 0 (cmp k (key nx))); [lia|].
      * intros C' par' c' H1 H2 H3 H4. apply (HQ C'); auto.
Qed.

Definition add_node (G : ghost) (x : N) : ghost := mkG (fun b => (gF G b + one b x)%nat) (gh G) (gc G).

(** Hanging the new node at a leaf *)
Lemma link_spec G s d c p kp sb C x kx lx rx px cx (Q : unit -> st -> Prop) :
  Z_ G s (Fr d c p kp sb :: C) E -> gF G x = 0%nat -> x <> 0 -> heap s x = Some (mkN 0 0 px cx kx) -> lx = 0 -> rx = 0 ->
  (forall s', Z_ (add_node G x) s' (Fr d c p kp sb :: C) (T cx E x kx E) -> Q tt s') ->
  wp (set_parent x p ;;; match d with SL => set_left p x | SR => set_right p x end) Q s.
Proof.
  destruct s as [rt cd h]. intros (HC & _ & HF & HF1 & HG & Hcard) Hfx Hx Ex _ _ HQ.
  cbn [heap root card crep faddr fsib fnode rootp] in *. destruct HC as (Hp & Ep & Rs & HC).
  assert (HF' : forall b, (ccnt b (Fr d c p kp sb :: C) + cnt b (T cx E x kx E))%nat = gF (add_node G x) b).
  { intros b. cbn [add_node gF]. rewrite <- HF. cbn [cnt]. lia. }
  assert (HF1' : forall b, (gF (add_node G x) b <= 1)%nat).
  { intros b. cbn [add_node gF]. unfold one. destruct (N.eqb_spec b x) as [->|]; [rewrite Hfx; lia|].
    specialize (HF1 b). lia. }
  assert (Hc : forall b, (ccnt b (Fr d c p kp sb :: C) + cnt b (T cx E x kx E) <= 1)%nat)
    by (intros b; rewrite HF'; apply HF1').
  assert (HG' : forall b, gF (add_node G x) b = 0%nat -> h b = gh (add_node G x) b).
  { intros b Hb. cbn [add_node gF gh] in *. apply HG. lia. }
  destruct d; cbn [fnode] in *; repeat step Hc; apply HQ; z_fin Hc HF' HF1' HG'.
Qed.

Lemma ins_core_spec v G s t x nx fuel m (Q : unit -> st -> Prop) :
  Z_ G s [] t -> rb t Black m -> gF G x = 0%nat -> x <> 0 -> heap s x = Some nx -> (height t < fuel)%nat ->
  (forall s' t' C, Z_ (mkG (fun b => (gF G b + one b x)%nat) (fun b => if b =? x then heap s' x else gh G b) (gc G)) s' [] t' ->
     plug C E = t -> inorder t' = cleft C ++ (x, key nx) :: cright C -> Forall (goes (key nx)) C ->
     (exists m', rb t' Black m') -> Q tt s') ->
  wp (gins_core v cmp fuel x) Q s.
Proof.
  intros HZ Hrb Hfx Hx Ex Hf HQ. unfold gins_core.
  apply wp_bind. eapply wp_store; [exact Hx|exact Ex|]. apply (Z_upd_out _ _ _ _ x (mkN (left nx) 0 (parent nx) (col nx) (key nx))) in HZ; [|exact Hfx].
  set (s1 := mkSt (root s) _ _) in *.
  assert (E1 : heap s1 x = Some (mkN (left nx) 0 (parent nx) (col nx) (key nx))) by (unfold s1, upd; cbn [heap]; now rewrite N.eqb_refl).
  apply wp_bind. eapply wp_store; [exact Hx|exact E1|]. apply (Z_upd_out _ _ _ _ x (mkN 0 0 (parent nx) (col nx) (key nx))) in HZ; [|exact Hfx].
  cbn [left right parent col key].
  set (s2 := mkSt (root s1) _ _) in *.
  assert (E2 : heap s2 x = Some (mkN 0 0 (parent nx) (col nx) (key nx))) by (unfold s2, upd; cbn [heap]; now rewrite N.eqb_refl).
  cbn [gF gh gc] in HZ. apply wp_bind, wp_get_root.
  rewrite (Z_root _ _ _ _ HZ). cbn [plug].
  set (G2 := mkG (gF G) _ (gc G)) in HZ.
  destruct t as [|ct tl ta tk tr].
  - cbn [rootp]. eqs. destruct HZ as (_ & _ & HF & HF1 & HG & HCd). cbn [card] in HCd.
    assert (Hc : forall b, (ccnt b [] + cnt b (T Black E x (key nx) E) <= 1)%nat).
    { intros b. cbn [ccnt cnt]. unfold one. destruct (b =? x); lia. }
    clearbody s2. destruct s2 as [rt2 cd2 h2]. cbn [heap root card] in *.
    cbn [ccnt cnt] in HF.
    assert (Hout : forall b h', (forall b', b' <> x -> h' b' = h2 b') -> (gF G b + one b x)%nat = 0%nat -> h' b = gh G b).
    { intros b h' Hh Hb. assert (b <> x) by (intros ->; rewrite one_same in Hb; lia).
      rewrite Hh by assumption. rewrite HG by (cbn [gF G2]; lia). cbn [G2 gh]. unfold upd.
      rewrite (proj2 (N.eqb_neq b x)) by assumption. reflexivity. }
    destruct v; repeat step Hc; (apply (HQ _ (T Black E x (key nx) E) []); [|reflexivity|reflexivity|constructor|exists 1%nat; econstructor; constructor]);
      (unfold Z_; cbn [heap root card crep rootp rep cpar gF gh gc ccnt cnt];
       split; [reflexivity|]; split; [repeat split; [exact Hx|unfold upd; now rewrite !N.eqb_refl]|];
       split; [intros b; specialize (HF b); cbn [gF G2] in HF; lia|];
       split; [intros b; specialize (HF b); cbn [gF G2] in HF; unfold one; destruct (b =? x); lia|];
       split; [|exact HCd]; intros b Hb;
       assert (Hbx : b <> x) by (intros ->; rewrite one_same in Hb; lia);
       rewrite (proj2 (N.eqb_neq b x) Hbx); apply Hout; [|exact Hb];
       intros b' Hb'; unfold upd; rewrite (proj2 (N.eqb_neq b' x) Hb'); reflexivity).
  - cbn [rootp]. pose proof (Z_focus _ _ _ _ _ _ _ _ HZ) as [Hta Eta]. repeat ld.
    eapply wp_store; [exact Hx|exact E2|]. cbn [left right parent col key].
    apply (Z_upd_out _ _ _ _ x (mkN 0 0 (parent nx) Red (key nx))) in HZ; [|exact Hfx].
    set (s3 := mkSt (root s2) _ _) in *.
    assert (E3 : heap s3 x = Some (mkN 0 0 (parent nx) Red (key nx))) by (unfold s3, upd; cbn [heap]; now rewrite N.eqb_refl).
    set (t := T ct tl ta tk tr) in *. change ta with (rootp t).
    bnd. eapply (descend_spec _ _ x (mkN 0 0 (parent nx) Red (key nx)) Hx E3 t fuel []); [exact HZ|constructor|exact Hf|exact I|].
    intros C' par c Z3 Hgo Hpl Hside. cbn [plug] in Hpl. cbn [key] in Hgo.
    destruct C' as [|[d cf p kp sb] C']; [cbn [plug] in Hpl; discriminate|]. destruct Hside as [-> Hd]. cbn [fside cpar] in *.
    pose proof (Z_frame _ _ _ _ _ Z3) as [Hp Ep]. cbn [faddr] in *.
    repeat ld.
    assert (Hlink : forall (Q' : unit -> st -> Prop),
      (forall s', Z_ (add_node (mkG (gF G2) (upd (gh G2) x (mkN 0 0 (parent nx) Red (key nx))) (gc G2)) x) s' (Fr d cf p kp sb :: C') (T Red E x (key nx) E) -> Q' tt s') ->
      wp (set_parent x p) (fun _ s1 => wp (if (0 <? c)%Z then set_left p x else set_right p x) Q' s1) s3).
    { intros Q' HQ'. assert (W := link_spec _ s3 d cf p kp sb C' x (key nx) 0 0 (parent nx) Red Q' Z3 Hfx Hx E3 eq_refl eq_refl HQ').
      destruct W as (u & s4 & Ew & Hw). unfold bind in Ew. destruct (set_parent x p s3) as [[[] s5]|] eqn:Es; [|discriminate].
      exists tt, s5. split; [exact Es|]. exists u, s4. split; [|exact Hw]. destruct (0 <? c)%Z; subst d; exact Ew. }
    clearbody s3. eapply wp_mono.
    { apply (Hlink (fun _ s4 => Z_ (add_node (mkG (gF G2) (upd (gh G2) x (mkN 0 0 (parent nx) Red (key nx))) (gc G2)) x) s4 (Fr d cf p kp sb :: C') (T Red E x (key nx) E))). intros s4 Z4. exact Z4. }
    cbv beta. intros [] s4 W4. bnd. eapply wp_mono; [exact W4|]. cbv beta. intros [] s5 Z5.
    pose proof (f_equal inorder Hpl) as Hin. rewrite plug_inorder in Hin. cbn [inorder app] in Hin.
    rewrite <- Hpl in Hrb. destruct (rb_unplug _ _ _ Hrb) as (c0 & n0 & HrE & HrC). inversion HrE; subst c0 n0.
    bnd. eapply ins_fix_spec; [exact Z5|constructor|constructor|exact HrC| |].
    { pose proof (height_plug (Fr d cf p kp sb :: C') E) as HL. rewrite Hpl in HL. lia. }
    intros s6 t6 Z6 I6 (c6 & m6 & B6) N6. cbv beta. bnd. apply wp_get_root. rewrite (Z_root _ _ _ _ Z6). cbn [plug].
    destruct t6 as [|c7 l7 a7 k7 r7]; [congruence|]. cbn [rootp].
    eapply set_color_spec; [exact Z6|]. intros s7 Z7. apply (HQ _ (T Black l7 a7 k7 r7) (Fr d cf p kp sb :: C')).
    + destruct Z7 as (H1 & H2 & H3 & H4 & H5 & H6). unfold Z_. cbn [gF gh gc add_node G2] in *.
      split; [exact H1|]. split; [exact H2|]. split; [exact H3|]. split; [exact H4|]. split; [|exact H6].
      intros b Hb. rewrite (H5 b Hb). assert (b <> x) by (intros ->; rewrite one_same in Hb; lia).
      unfold upd. rewrite (proj2 (N.eqb_neq b x)) by assumption. reflexivity.
    + exact Hpl.
    + cbn [inorder] in I6. cbn [inorder]. rewrite I6, plug_inorder. cbn [inorder app]. reflexivity.
    + exact Hgo.
    + inversion B6; subst; eexists; econstructor; eassumption.
Qed.
End Ins.

Lemma rbt_ins_spec cmp G s t x nx fuel m (Q : unit -> st -> Prop) :
  Z_ G s [] t -> rb t Black m -> gF G x = 0%nat -> x <> 0 -> heap s x = Some nx -> (height t < fuel)%nat ->
  (forall s' t' C, Z_ (mkG (fun b => (gF G b + one b x)%nat) (fun b => if b =? x then heap s' x else gh G b) (gc G + 1)) s' [] t' ->
     plug C E = t -> inorder t' = cleft C ++ (x, key nx) :: cright C -> Forall (goes cmp (key nx)) C ->
     (exists m', rb t' Black m') -> Q tt s') ->
  wp (rbt_ins cmp fuel x) Q s.
Proof.
  intros HZ Hrb Hfx Hx Ex Hf HQ. rewrite <- ins_false. unfold grbt_ins.
  apply wp_bind, wp_get_card. apply wp_bind, wp_set_card.
  assert (Hcd : card s = gc G) by (destruct HZ as (_ & _ & _ & _ & _ & H); exact H). rewrite Hcd.
  apply (Z_card _ _ _ _ (gc G + 1)) in HZ.
  eapply ins_core_spec; [exact HZ|exact Hrb|exact Hfx|exact Hx|exact Ex|exact Hf|]. exact HQ.
Qed.
