(** Queries. *)
From Verif Require Export L_RbtDel3.
From Coq Require Import ZifyBool ZifyNat ZifyN Sorting.Sorted.
Local Open Scope N_scope.

(** * Structure only: min, max, succ, pred, traversal *)
Lemma hd_app {A} (d : A) l1 l2 : l1 <> [] -> hd d (l1 ++ l2) = hd d l1.
Proof. now destruct l1. Qed.
Lemma inorder_ne c l a k r : map fst (inorder (T c l a k r)) <> [].
Proof. cbn [inorder]. rewrite map_app. destruct (map fst (inorder l)); discriminate. Qed.

Lemma rbn_min_spec s : forall t fuel q (Q : N -> st -> Prop), rep (heap s) t q -> (height t < fuel)%nat ->
  Q (hd 0 (map fst (inorder t))) s -> wp (rbn_min fuel (rootp t)) Q s.
Proof.
  induction t as [|c l IH a k r _]; intros fuel q Q HR Hf HQ; (destruct fuel as [|fuel]; [lia|]); cbn [rbn_min rootp].
  - repeat ld. exact HQ.
  - rewrite height_T in Hf. cbn [rep] in HR. destruct HR as (Ha & Ea & Rl & Rr). repeat ld.
    destruct l as [|c2 l2 a2 k2 r2].
    + cbn [rootp]. repeat ld. exact HQ.
    + pose proof (proj1 Rl) as Ha2. change (rootp (T c2 l2 a2 k2 r2)) with a2 at 1. repeat ld.
      eapply IH; [exact Rl|lia|].
      cbn [inorder] in HQ. rewrite map_app in HQ. rewrite hd_app in HQ by apply (inorder_ne c2 l2 a2 k2 r2). exact HQ.
Qed.
Lemma last_cons2 {A} (d a : A) l : l <> [] -> last (a :: l) d = last l d.
Proof. destruct l; [congruence|reflexivity]. Qed.
Lemma last_app2 {A} (d : A) l1 l2 : l2 <> [] -> last (l1 ++ l2) d = last l2 d.
Proof. intros H. induction l1 as [|a l1 IH]; [reflexivity|]. cbn [app]. rewrite last_cons2; [exact IH|]. destruct l1, l2; cbn; congruence. Qed.
Lemma rbn_max_spec s : forall t fuel q (Q : N -> st -> Prop), rep (heap s) t q -> (height t < fuel)%nat ->
  Q (last (map fst (inorder t)) 0) s -> wp (rbn_max fuel (rootp t)) Q s.
Proof.
  induction t as [|c l _ a k r IH]; intros fuel q Q HR Hf HQ; (destruct fuel as [|fuel]; [lia|]); cbn [rbn_max rootp].
  - repeat ld. exact HQ.
  - rewrite height_T in Hf. cbn [rep] in HR. destruct HR as (Ha & Ea & Rl & Rr). repeat ld.
    cbn [inorder] in HQ. rewrite map_app, last_app2 in HQ by discriminate. cbn [map fst] in HQ.
    destruct r as [|c2 l2 a2 k2 r2].
    + cbn [rootp]. repeat ld. exact HQ.
    + pose proof (proj1 Rr) as Ha2. change (rootp (T c2 l2 a2 k2 r2)) with a2 at 1. repeat ld.
      eapply IH; [exact Rr|lia|]. rewrite last_cons2 in HQ by apply (inorder_ne c2 l2 a2 k2 r2). exact HQ.
Qed.

Lemma succ_up_spec G s : forall C fuel c l n k r (Q : N -> st -> Prop), Z_ G s C (T c l n k r) -> (length C < fuel)%nat ->
  Q (hd 0 (map fst (cright C))) s -> wp (succ_up fuel n) Q s.
Proof.
  induction C as [|[d cf a kf sb] C IH]; intros fuel c l n k r Q HZ Hf HQ; (destruct fuel as [|fuel]; [cbn in Hf; lia|]); cbn [succ_up].
  - pose proof (Z_focus _ _ _ _ _ _ _ _ HZ) as [Hn En]. cbn [cpar] in En. repeat ld. exact HQ.
  - pose proof (Z_focus _ _ _ _ _ _ _ _ HZ) as [Hn En]. cbn [cpar] in En.
    pose proof (Z_frame _ _ _ _ _ HZ) as [Ha Ea]. cbn [faddr] in *.
    pose proof (Z_cnt _ _ _ _ HZ) as Hc. repeat ld.
    destruct d; cbn [fnode rootp right] in *.
    + assert (Hne : n <> rootp sb) by (apply not_eq_sym, rootp_ne; [exact Hn|cz Hc n]). repeat ld.
      exact HQ.
    + repeat ld. eapply IH; [exact (Z_u _ _ _ _ _ HZ)|cbn [length] in Hf; lia|exact HQ].
Qed.
Lemma pred_up_spec G s : forall C fuel c l n k r (Q : N -> st -> Prop), Z_ G s C (T c l n k r) -> (length C < fuel)%nat ->
  Q (last (map fst (cleft C)) 0) s -> wp (pred_up fuel n) Q s.
Proof.
  induction C as [|[d cf a kf sb] C IH]; intros fuel c l n k r Q HZ Hf HQ; (destruct fuel as [|fuel]; [cbn in Hf; lia|]); cbn [pred_up].
  - pose proof (Z_focus _ _ _ _ _ _ _ _ HZ) as [Hn En]. cbn [cpar] in En. repeat ld. exact HQ.
  - pose proof (Z_focus _ _ _ _ _ _ _ _ HZ) as [Hn En]. cbn [cpar] in En.
    pose proof (Z_frame _ _ _ _ _ HZ) as [Ha Ea]. cbn [faddr] in *.
    pose proof (Z_cnt _ _ _ _ HZ) as Hc. repeat ld.
    destruct d; cbn [fnode rootp left] in *.
    + repeat ld. eapply IH; [exact (Z_u _ _ _ _ _ HZ)|cbn [length] in Hf; lia|exact HQ].
    + assert (Hne : n <> rootp sb) by (apply not_eq_sym, rootp_ne; [exact Hn|cz Hc n]). repeat ld.
      cbn [cleft] in HQ. rewrite !map_app in HQ. rewrite app_assoc in HQ. rewrite last_app2 in HQ by discriminate. exact HQ.
Qed.

Lemma rbn_succ_spec G s C fuel c l n k r (Q : N -> st -> Prop) : Z_ G s C (T c l n k r) -> (height (plug C (T c l n k r)) < fuel)%nat ->
  Q (hd 0 (map fst (inorder r ++ cright C))) s -> wp (rbn_succ fuel n) Q s.
Proof.
  intros HZ Hf HQ. unfold rbn_succ. pose proof (Z_focus _ _ _ _ _ _ _ _ HZ) as [Hn En].
  pose proof (height_plug C (T c l n k r)) as Hp. rewrite height_T in Hp. rewrite map_app in HQ.
  destruct r as [|c2 l2 a2 k2 r2].
  - cbn [rootp inorder map app] in *. repeat ld. destruct C as [|f C].
    + cbn [cpar]. repeat ld. exact HQ.
    + assert (Hne : cpar (f :: C) <> 0) by (destruct f; exact (proj1 (Z_frame _ _ _ _ _ HZ))). repeat ld.
      eapply succ_up_spec; [exact HZ|lia|exact HQ].
  - assert (Rr : rep (heap s) (T c2 l2 a2 k2 r2) n) by (destruct HZ as (_ & (_ & _ & _ & H) & _); exact H).
    pose proof (proj1 Rr) as Ha2. repeat ld. change (rootp (T c2 l2 a2 k2 r2)) with a2 at 1. repeat ld.
    eapply (rbn_min_spec s (T c2 l2 a2 k2 r2)); [exact Rr|lia|]. rewrite hd_app in HQ by apply inorder_ne. exact HQ.
Qed.
Lemma rbn_pred_spec G s C fuel c l n k r (Q : N -> st -> Prop) : Z_ G s C (T c l n k r) -> (height (plug C (T c l n k r)) < fuel)%nat ->
  Q (last (map fst (cleft C ++ inorder l)) 0) s -> wp (rbn_pred fuel n) Q s.
Proof.
  intros HZ Hf HQ. unfold rbn_pred. pose proof (Z_focus _ _ _ _ _ _ _ _ HZ) as [Hn En].
  pose proof (height_plug C (T c l n k r)) as Hp. rewrite height_T in Hp. rewrite map_app in HQ.
  destruct l as [|c2 l2 a2 k2 r2].
  - cbn [rootp inorder map] in *. rewrite app_nil_r in HQ. repeat ld. destruct C as [|f C].
    + cbn [cpar]. repeat ld. exact HQ.
    + assert (Hne : cpar (f :: C) <> 0) by (destruct f; exact (proj1 (Z_frame _ _ _ _ _ HZ))). repeat ld.
      eapply pred_up_spec; [exact HZ|lia|exact HQ].
  - assert (Rr : rep (heap s) (T c2 l2 a2 k2 r2) n) by (destruct HZ as (_ & (_ & _ & H & _) & _); exact H).
    pose proof (proj1 Rr) as Ha2. repeat ld. change (rootp (T c2 l2 a2 k2 r2)) with a2 at 1. repeat ld.
    eapply (rbn_max_spec s (T c2 l2 a2 k2 r2)); [exact Rr|lia|]. rewrite last_app2 in HQ by apply inorder_ne. exact HQ.
Qed.

(** Traversal.  The levels: *)
Fixpoint levels (lv : N) (t : tree) : list (N * N) :=
  match t with E => [] | T _ l a _ r => levels (lv + 1) l ++ (a, lv) :: levels (lv + 1) r end.
Lemma levels_fst lv t : map fst (levels lv t) = map fst (inorder t).
Proof. revert lv. induction t as [|c l IHl a k r IHr]; intros lv; [reflexivity|]. cbn [levels inorder]. rewrite !map_app. cbn [map fst]. now rewrite IHl, IHr. Qed.
(** The calls made: a prefix of all, ending at the first non-zero return *)
Definition stops (f : list (N * N) -> Z) (log0 all : list (N * N)) (rc : Z) (log : list (N * N)) : Prop :=
  exists done rest, all = done ++ rest /\ log = log0 ++ done /\
    (forall p q, done = p ++ q -> p <> [] -> q <> [] -> f (log0 ++ p) = 0%Z) /\
    (rc = 0%Z -> rest = [] /\ (done <> [] -> f log = 0%Z)) /\ (rc <> 0%Z -> done <> [] /\ f log = rc).
Lemma stops_nil f log0 : stops f log0 [] 0 log0.
Proof.
  exists [], []. split; [reflexivity|]. split; [now rewrite app_nil_r|]. split; [|split].
  - intros p q H Hp. symmetry in H. apply app_eq_nil in H as [-> _]. congruence.
  - intros _. split; congruence.
  - congruence.
Qed.
Lemma app_cut {A} (x y p q : list A) : x ++ y = p ++ q -> (exists z, p = x ++ z /\ y = z ++ q) \/ (exists z, x = p ++ z /\ q = z ++ y).
Proof.
  revert p. induction x as [|a x IH]; intros p H; cbn [app] in H.
  - left. exists p. now split.
  - destruct p as [|b p]; cbn [app] in H.
    + right. exists (a :: x). now split.
    + injection H as <- H. destruct (IH _ H) as [(z & -> & ->)|(z & -> & ->)]; [left|right]; exists z; now split.
Qed.
Lemma stops_go f log0 all1 all2 rc log : forall log1, stops f log0 all1 0 log1 -> stops f log1 all2 rc log -> stops f log0 (all1 ++ all2) rc log.
Proof.
  intros log1 (d1 & r1 & -> & -> & F1 & Z1 & _) (d2 & r2 & -> & -> & F2 & Z2 & N2).
  destruct (Z1 eq_refl) as [-> G1]. rewrite app_nil_r.
  exists (d1 ++ d2), r2. rewrite !app_assoc. split; [reflexivity|]. split; [reflexivity|]. split; [|split].
  - intros p q H Hp Hq. destruct (app_cut _ _ _ _ H) as [(z & -> & ->)|(z & -> & ->)].
    + destruct z as [|y z].
      * rewrite app_nil_r in *. apply G1. exact Hp.
      * rewrite app_assoc. apply (F2 (y :: z) q); [reflexivity|discriminate|exact Hq].
    + destruct z as [|y z].
      * rewrite app_nil_r in *. apply G1. exact Hp.
      * apply (F1 p (y :: z)); [reflexivity|exact Hp|discriminate].
  - intros H0. destruct (Z2 H0) as [-> G2]. split; [reflexivity|]. intros Hne.
    destruct d2 as [|y d2]; [|apply G2; discriminate]. rewrite app_nil_r in *. apply G1. exact Hne.
  - intros H0. destruct (N2 H0) as [Hne HH]. split; [destruct d1, d2; cbn; congruence|exact HH].
Qed.
Lemma stops_cut f log0 all1 all2 rc log : rc <> 0%Z -> stops f log0 all1 rc log -> stops f log0 (all1 ++ all2) rc log.
Proof.
  intros H0 (d & r & -> & -> & F & _ & N1). exists d, (r ++ all2). rewrite app_assoc.
  split; [reflexivity|]. split; [reflexivity|]. split; [exact F|]. split; [congruence|exact N1].
Qed.
Lemma stops_one f log0 x : stops f log0 [x] (f (log0 ++ [x])) (log0 ++ [x]).
Proof.
  exists [x], []. split; [reflexivity|]. split; [reflexivity|]. split; [|split].
  - intros p q H Hp Hq. destruct p as [|y p]; [congruence|]. injection H as <- H. symmetry in H. apply app_eq_nil in H as [_ ->]. congruence.
  - intros H. split; [reflexivity|intros _; exact H].
  - intros _. split; [discriminate|reflexivity].
Qed.
Lemma traverse_spec s f : forall t fuel q lv log (Q : Z * list (N * N) -> st -> Prop), rep (heap s) t q -> (height t < fuel)%nat ->
  (forall rc log', stops f log (levels lv t) rc log' -> Q (rc, log') s) -> wp (traverse_sub fuel f (rootp t) lv log) Q s.
Proof.
  induction t as [|c l IHl a k r IHr]; intros fuel q lv log Q HR Hf HQ; (destruct fuel as [|fuel]; [lia|]); cbn [traverse_sub rootp].
  - repeat ld. apply HQ, stops_nil.
  - rewrite height_T in Hf. cbn [rep] in HR. destruct HR as (Ha & Ea & Rl & Rr). repeat ld.
    eapply IHl; [exact Rl|lia|]. intros rc log1 S1. cbv beta. destruct (Z.eqb_spec rc 0) as [->|Hrc]; cbn [negb].
    2:{ apply wp_ret. apply HQ. cbn [levels]. now apply stops_cut. }
    destruct (Z.eqb_spec (f (log1 ++ [(a, lv)])) 0) as [E1|E1]; cbn [negb].
    + repeat ld. eapply IHr; [exact Rr|lia|]. intros rc log2 S2. apply HQ. cbn [levels].
      change ((a, lv) :: levels (lv + 1) r) with ([(a, lv)] ++ levels (lv + 1) r).
      eapply stops_go; [exact S1|]. eapply stops_go; [|exact S2]. rewrite <- E1. apply stops_one.
    + apply wp_ret. apply HQ. cbn [levels]. change ((a, lv) :: levels (lv + 1) r) with ([(a, lv)] ++ levels (lv + 1) r).
      eapply stops_go; [exact S1|]. apply stops_cut; [exact E1|]. apply stops_one.
Qed.

(** * Searching *)
Section Search.
Variable cmp : N -> N -> Z.
Hypothesis Hpre : preorder cmp.

Lemma sorted_app L1 x L2 : sorted cmp (L1 ++ x :: L2) ->
  sorted cmp L1 /\ sorted cmp L2 /\ Forall (fun e => (cmp (snd e) (snd x) <= 0)%Z) L1 /\ Forall (fun e => (cmp (snd x) (snd e) <= 0)%Z) L2.
Proof.
  unfold sorted. induction L1 as [|y L1 IH]; cbn [app]; intros H; apply StronglySorted_inv in H as [H1 H2].
  - repeat split; try assumption; constructor.
  - destruct (IH H1) as (I1 & I2 & I3 & I4). split; [|split; [exact I2|split; [|exact I4]]].
    + constructor; [exact I1|]. rewrite Forall_app in H2. tauto.
    + constructor; [|exact I3]. rewrite Forall_app in H2. destruct H2 as [_ H2]. now inversion H2.
Qed.
Lemma gt_right a b k : (0 < cmp a k)%Z -> (cmp a b <= 0)%Z -> (0 < cmp b k)%Z.
Proof. intros H1 H2. destruct (Z_lt_le_dec 0 (cmp b k)) as [|H]; [assumption|]. pose proof (pre_trans _ Hpre _ _ _ H2 H). lia. Qed.
Lemma lt_left a b k : (cmp a k < 0)%Z -> (cmp b a <= 0)%Z -> (cmp b k < 0)%Z.
Proof.
  intros H1 H2. apply (pre_anti _ Hpre). apply (pre_anti _ Hpre) in H1.
  destruct (Z_lt_le_dec 0 (cmp k b)) as [|H]; [assumption|]. pose proof (pre_trans _ Hpre _ _ _ H H2). lia.
Qed.
Lemma eq_sym0 a b : cmp a b = 0%Z -> cmp b a = 0%Z.
Proof.
  intros H. destruct (Z_lt_le_dec 0 (cmp b a)) as [H1|H1]; [apply (pre_anti _ Hpre) in H1; lia|].
  destruct (Z_lt_le_dec (cmp b a) 0) as [H2|H2]; [apply (pre_anti _ Hpre) in H2; lia|lia].
Qed.

Lemma find_spec s k : forall t fuel q (Q : N -> st -> Prop), rep (heap s) t q -> sorted cmp (inorder t) -> (height t < fuel)%nat ->
  (forall kr r, In (r, kr) (inorder t) -> cmp kr k = 0%Z -> Q r s) ->
  ((forall e, In e (inorder t) -> cmp (snd e) k <> 0%Z) -> Q 0 s) ->
  wp (find_loop cmp fuel (rootp t) k) Q s.
Proof.
  induction t as [|c l IHl a ka r IHr]; intros fuel q Q HR HS Hf HQ1 HQ2; (destruct fuel as [|fuel]; [lia|]); cbn [find_loop rootp].
  - repeat ld. apply HQ2. intros e [].
  - rewrite height_T in Hf. cbn [rep] in HR. destruct HR as (Ha & Ea & Rl & Rr). cbn [inorder] in *.
    destruct (sorted_app _ _ _ HS) as (S1 & S2 & S3 & S4). cbn [snd] in *. repeat ld.
    destruct (Z.eqb_spec (cmp ka k) 0) as [E0|E0].
    { apply wp_ret. apply (HQ1 ka); [apply in_elt|exact E0]. }
    destruct (Z.ltb_spec 0 (cmp ka k)) as [E1|E1].
    + repeat ld. eapply IHl; [exact Rl|exact S1|lia| |].
      * intros kr r0 Hin. apply HQ1. apply in_or_app. now left.
      * intros Hno. apply HQ2. intros e He. apply in_app_or in He as [He|[<-|He]]; [now apply Hno|exact E0|].
        rewrite Forall_forall in S4. pose proof (gt_right _ _ _ E1 (S4 _ He)). lia.
    + repeat ld. eapply IHr; [exact Rr|exact S2|lia| |].
      * intros kr r0 Hin. apply HQ1. apply in_or_app. right. now right.
      * intros Hno. apply HQ2. intros e He. apply in_app_or in He as [He|[<-|He]]; [|exact E0|now apply Hno].
        rewrite Forall_forall in S3. assert (E2 : (cmp ka k < 0)%Z) by lia. pose proof (lt_left _ _ _ E2 (S3 _ He)). lia.
Qed.

Lemma glb_spec s k : forall t fuel q g Lb (Q : N -> st -> Prop), rep (heap s) t q -> sorted cmp (inorder t) -> (height t < fuel)%nat ->
  is_glb cmp Lb k g -> (forall e e', In e Lb -> In e' (inorder t) -> (cmp (snd e) (snd e') <= 0)%Z) ->
  (forall r, is_glb cmp (Lb ++ inorder t) k r -> Q r s) ->
  wp (glb_loop cmp fuel (rootp t) k g) Q s.
Proof.
  induction t as [|c l IHl a ka r IHr]; intros fuel q g Lb Q HR HS Hf Hg Hb HQ; (destruct fuel as [|fuel]; [lia|]); cbn [glb_loop rootp].
  - repeat ld. apply HQ. cbn [inorder]. now rewrite app_nil_r.
  - rewrite height_T in Hf. cbn [rep] in HR. destruct HR as (Ha & Ea & Rl & Rr). cbn [inorder] in *.
    destruct (sorted_app _ _ _ HS) as (S1 & S2 & S3 & S4). cbn [snd] in *. repeat ld.
    destruct (Z.eqb_spec (cmp ka k) 0) as [E0|E0].
    { apply wp_ret. apply HQ. right. exists ka. split; [apply in_or_app; right; apply in_elt|]. split; [lia|].
      intros e _ He. eapply (pre_trans _ Hpre); [exact He|]. rewrite (eq_sym0 _ _ E0). lia. }
    destruct (Z.ltb_spec 0 (cmp ka k)) as [E1|E1].
    + repeat ld. eapply (IHl fuel a g Lb); [exact Rl|exact S1|lia|exact Hg| |].
      * intros e e' H1 H2. apply Hb; [exact H1|]. apply in_or_app. now left.
      * intros r0 Hr0. apply HQ.
        assert (Hgt : forall e, In e ((a, ka) :: inorder r) -> (0 < cmp (snd e) k)%Z).
        { intros e [<-|He]; [exact E1|]. rewrite Forall_forall in S4. exact (gt_right _ _ _ E1 (S4 _ He)). }
        rewrite app_assoc. destruct Hr0 as [[-> Hall]|(kg & Hin & Hle & Hmax)].
        -- left. split; [reflexivity|]. intros e He. apply in_app_or in He as [He|He]; [now apply Hall|now apply Hgt].
        -- right. exists kg. split; [apply in_or_app; now left|]. split; [exact Hle|].
           intros e He Hek. apply in_app_or in He as [He|He]; [now apply Hmax|]. specialize (Hgt _ He). lia.
    + repeat ld. eapply (IHr fuel a a (Lb ++ inorder l ++ [(a, ka)])); [exact Rr|exact S2|lia| | |].
      * right. exists ka. split; [apply in_or_app; right; apply in_elt|]. split; [exact E1|].
        intros e He _. apply in_app_or in He as [He|He]; [apply (Hb e (a, ka) He); apply in_elt|].
        apply in_app_or in He as [He|[<-|[]]]; [rewrite Forall_forall in S3; exact (S3 _ He)|].
        destruct (Z_lt_le_dec 0 (cmp ka ka)) as [H|H]; [|exact H]. pose proof (proj1 (pre_anti _ Hpre _ _) H). lia.
      * intros e e' He He'. apply in_app_or in He as [He|He].
        { apply Hb; [exact He|]. apply in_or_app. right. now right. }
        rewrite Forall_forall in S4. specialize (S4 _ He'). apply in_app_or in He as [He|[<-|[]]]; [|exact S4].
        rewrite Forall_forall in S3. exact (pre_trans _ Hpre _ _ _ (S3 _ He) S4).
      * intros r0 Hr0. apply HQ. rewrite <- !app_assoc in Hr0. exact Hr0.
Qed.

Lemma lub_spec s k : forall t fuel q g Lb (Q : N -> st -> Prop), rep (heap s) t q -> sorted cmp (inorder t) -> (height t < fuel)%nat ->
  is_lub cmp Lb k g -> (forall e e', In e (inorder t) -> In e' Lb -> (cmp (snd e) (snd e') <= 0)%Z) ->
  (forall r, is_lub cmp (inorder t ++ Lb) k r -> Q r s) ->
  wp (lub_loop cmp fuel (rootp t) k g) Q s.
Proof.
  induction t as [|c l IHl a ka r IHr]; intros fuel q g Lb Q HR HS Hf Hg Hb HQ; (destruct fuel as [|fuel]; [lia|]); cbn [lub_loop rootp].
  - repeat ld. apply HQ. exact Hg.
  - rewrite height_T in Hf. cbn [rep] in HR. destruct HR as (Ha & Ea & Rl & Rr). cbn [inorder] in *.
    destruct (sorted_app _ _ _ HS) as (S1 & S2 & S3 & S4). cbn [snd] in *. repeat ld.
    destruct (Z.eqb_spec (cmp ka k) 0) as [E0|E0].
    { apply wp_ret. apply HQ. right. exists ka. split; [apply in_or_app; left; apply in_elt|]. split; [lia|].
      intros e _ He. apply (pre_trans _ Hpre ka k); [lia|].
      destruct (Z_lt_le_dec 0 (cmp k (snd e))) as [H|H]; [|exact H]. apply (pre_anti _ Hpre) in H. lia. }
    destruct (Z.ltb_spec (cmp ka k) 0) as [E1|E1].
    + repeat ld. eapply (IHr fuel a g Lb); [exact Rr|exact S2|lia|exact Hg| |].
      * intros e e' H1 H2. apply Hb; [|exact H2]. apply in_or_app. right. now right.
      * intros r0 Hr0. apply HQ.
        assert (Hlt : forall e, In e (inorder l ++ [(a, ka)]) -> (cmp (snd e) k < 0)%Z).
        { intros e He. apply in_app_or in He as [He|[<-|[]]]; [|exact E1]. rewrite Forall_forall in S3. exact (lt_left _ _ _ E1 (S3 _ He)). }
        replace ((inorder l ++ (a, ka) :: inorder r) ++ Lb) with ((inorder l ++ [(a, ka)]) ++ inorder r ++ Lb)
          by (rewrite <- !app_assoc; reflexivity).
        destruct Hr0 as [[-> Hall]|(kg & Hin & Hle & Hmax)].
        -- left. split; [reflexivity|]. intros e He. apply in_app_or in He as [He|He]; [now apply Hlt|now apply Hall].
        -- right. exists kg. split; [apply in_or_app; now right|]. split; [exact Hle|].
           intros e He Hek. apply in_app_or in He as [He|He]; [specialize (Hlt _ He); lia|now apply Hmax].
    + repeat ld. eapply (IHl fuel a a ((a, ka) :: inorder r ++ Lb)); [exact Rl|exact S1|lia| | |].
      * right. exists ka. split; [now left|]. split; [exact E1|].
        intros e He _. destruct He as [<-|He].
        { cbn [snd]. destruct (Z_lt_le_dec 0 (cmp ka ka)) as [H|H]; [|exact H]. pose proof (proj1 (pre_anti _ Hpre _ _) H). lia. }
        apply in_app_or in He as [He|He]; [rewrite Forall_forall in S4; exact (S4 _ He)|].
        apply (Hb (a, ka) e); [apply in_elt|exact He].
      * intros e e' He He'. rewrite Forall_forall in S3. destruct He' as [<-|He']; [exact (S3 _ He)|].
        apply in_app_or in He' as [He'|He'].
        { rewrite Forall_forall in S4. exact (pre_trans _ Hpre _ _ _ (S3 _ He) (S4 _ He')). }
        apply Hb; [|exact He']. apply in_or_app. now left.
      * intros r0 Hr0. apply HQ. rewrite <- app_assoc. exact Hr0.
Qed.

(** Where an inserted key ends up *)
Lemma goes_left C kx : Forall (goes cmp kx) C -> sorted cmp (cleft C) -> Forall (fun e => (cmp (snd e) kx <= 0)%Z) (cleft C).
Proof.
  induction 1 as [|[[] c a k s] C Hg _ IH]; cbn [cleft]; intros HS; [constructor|now apply IH|]. cbn [goes] in Hg.
  rewrite app_assoc in HS. destruct (sorted_app _ _ _ HS) as (S1 & _ & S3 & _). cbn [snd] in S3.
  rewrite Forall_app. split.
  - apply IH. clear - S1. unfold sorted in *. induction (cleft C) as [|x L IHL]; [constructor|].
    cbn [app] in S1. apply StronglySorted_inv in S1 as [H1 H2]. constructor; [now apply IHL|]. rewrite Forall_app in H2. tauto.
  - rewrite Forall_app in *. split; [|constructor; [exact Hg|constructor]]. destruct S3 as [_ S3].
    eapply Forall_impl; [|exact S3]. intros e He. exact (pre_trans _ Hpre _ _ _ He Hg).
Qed.
Lemma goes_right C kx : Forall (goes cmp kx) C -> sorted cmp (cright C) -> Forall (fun e => (0 < cmp (snd e) kx)%Z) (cright C).
Proof.
  induction 1 as [|[[] c a k s] C Hg _ IH]; cbn [cright]; intros HS; [constructor| |now apply IH]. cbn [goes] in Hg.
  destruct (sorted_app [] _ _ HS) as (_ & S2 & _ & S4). cbn [snd] in S4.
  constructor; [exact Hg|]. rewrite Forall_app in *. split.
  - destruct S4 as [S4 _]. eapply Forall_impl; [|exact S4]. intros e He. exact (gt_right _ _ _ Hg He).
  - apply IH. clear - S2. unfold sorted in *. induction (inorder s) as [|x L IHL]; [exact S2|].
    cbn [app] in S2. apply StronglySorted_inv in S2 as [H1 _]. now apply IHL.
Qed.
End Search.
