(** Trees and contexts, and how memory represents them. *)
From Verif Require Export S_Rbt.
From Coq Require Import ZifyBool ZifyNat ZifyN.
Local Open Scope N_scope.

Inductive tree := E | T (c : color) (l : tree) (a k : N) (r : tree).
Inductive side := SL | SR.
Inductive frame := Fr (d : side) (c : color) (a k : N) (sib : tree).
Notation ctx := (list frame) (only parsing).

Definition up (f : frame) (t : tree) : tree :=
  match f with Fr SL c a k s => T c t a k s | Fr SR c a k s => T c s a k t end.
Fixpoint plug (C : ctx) (t : tree) : tree :=
  match C with [] => t | f :: C' => plug C' (up f t) end.
Lemma plug_app C1 C2 t : plug (C1 ++ C2) t = plug C2 (plug C1 t).
Proof. revert t. induction C1 as [|f C1 IH]; intros t; cbn; auto. Qed.

Definition rootp (t : tree) : N := match t with E => 0 | T _ _ a _ _ => a end.
Definition cpar (C : ctx) : N := match C with [] => 0 | Fr _ _ a _ _ :: _ => a end.

Fixpoint inorder (t : tree) : list (N * N) :=
  match t with E => [] | T _ l a k r => inorder l ++ (a, k) :: inorder r end.
Fixpoint cleft (C : ctx) : list (N * N) :=
  match C with
  | [] => []
  | Fr SL _ _ _ _ :: C' => cleft C'
  | Fr SR _ a k s :: C' => cleft C' ++ inorder s ++ [(a, k)]
  end.
Fixpoint cright (C : ctx) : list (N * N) :=
  match C with
  | [] => []
  | Fr SL _ a k s :: C' => (a, k) :: inorder s ++ cright C'
  | Fr SR _ _ _ _ :: C' => cright C'
  end.
Lemma plug_inorder C t : inorder (plug C t) = cleft C ++ inorder t ++ cright C.
Proof.
  revert t. induction C as [|[[] c a k s] C IH]; intros t; cbn [plug cleft cright up].
  - now rewrite app_nil_r.
  - rewrite IH. cbn [inorder]. now rewrite <- app_assoc.
  - rewrite IH. cbn [inorder]. rewrite <- !app_assoc. reflexivity.
Qed.

(** Occurrences of an address *)
Definition one (b a : N) : nat := if b =? a then 1%nat else 0%nat.
Fixpoint cnt (b : N) (t : tree) : nat :=
  match t with E => 0 | T _ l a _ r => cnt b l + one b a + cnt b r end%nat.
Fixpoint ccnt (b : N) (C : ctx) : nat :=
  match C with [] => 0 | Fr _ _ a _ s :: C' => one b a + cnt b s + ccnt b C' end%nat.
Lemma cnt_plug b C t : cnt b (plug C t) = (ccnt b C + cnt b t)%nat.
Proof. revert t. induction C as [|[[] c a k s] C IH]; intros t; cbn [plug ccnt up]; [lia|rewrite IH; cbn [cnt]; lia ..]. Qed.
Lemma ccnt_app b C1 C2 : ccnt b (C1 ++ C2) = (ccnt b C1 + ccnt b C2)%nat.
Proof. induction C1 as [|[d c a k s] C1 IH]; cbn [app ccnt]; [lia|rewrite IH; lia]. Qed.
Lemma one_same a : one a a = 1%nat.
Proof. unfold one. now rewrite N.eqb_refl. Qed.
Lemma cnt_rootp t : t <> E -> (1 <= cnt (rootp t) t)%nat.
Proof. destruct t as [|c l a k r]; [congruence|]. intros _. cbn [rootp cnt]. rewrite one_same. lia. Qed.
Lemma cnt_inorder b t : cnt b t = count_occ N.eq_dec (map fst (inorder t)) b.
Proof.
  induction t as [|c l IHl a k r IHr]; [reflexivity|]. cbn [cnt inorder].
  rewrite map_app, count_occ_app, IHl, IHr. cbn [map fst count_occ]. unfold one.
  destruct (N.eqb_spec b a) as [Hn|Hn]; destruct (N.eq_dec a b) as [Hm|Hm]; try (exfalso; congruence); lia.
Qed.
Lemma nodup_cnt t : NoDup (map fst (inorder t)) <-> forall b, (cnt b t <= 1)%nat.
Proof.
  rewrite (NoDup_count_occ N.eq_dec). split; intros H b; [rewrite cnt_inorder|rewrite <- cnt_inorder]; apply H.
Qed.

(** Memory *)
Fixpoint rep (h : N -> option node) (t : tree) (q : N) : Prop :=
  match t with
  | E => True
  | T c l a k r => a <> 0 /\ h a = Some (mkN (rootp l) (rootp r) q c k) /\ rep h l a /\ rep h r a
  end.
Definition fnode (f : frame) (hole q : N) : node :=
  match f with
  | Fr SL c a k s => mkN hole (rootp s) q c k
  | Fr SR c a k s => mkN (rootp s) hole q c k
  end.
Definition faddr (f : frame) : N := match f with Fr _ _ a _ _ => a end.
Definition fsib (f : frame) : tree := match f with Fr _ _ _ _ s => s end.
Fixpoint crep (h : N -> option node) (C : ctx) (hole rt : N) : Prop :=
  match C with
  | [] => rt = hole
  | f :: C' => faddr f <> 0 /\ h (faddr f) = Some (fnode f hole (cpar C')) /\ rep h (fsib f) (faddr f) /\
               crep h C' (faddr f) rt
  end.
(** [Z_ G s C t]: the state is the tree [t] in the context [C].  [G] holds what
    stays the same: the set of nodes, the memory outside them, the cardinality. *)
Record ghost := mkG { gF : N -> nat; gh : N -> option node; gc : Z }.
Definition Z_ (G : ghost) (s : st) (C : ctx) (t : tree) : Prop :=
  crep (heap s) C (rootp t) (root s) /\ rep (heap s) t (cpar C) /\
  (forall b, (ccnt b C + cnt b t)%nat = gF G b) /\ (forall b, (gF G b <= 1)%nat) /\
  (forall b, gF G b = 0%nat -> heap s b = gh G b) /\ card s = gc G.

Lemma Z_up G s f C t : Z_ G s (f :: C) t <-> Z_ G s C (up f t).
Proof.
  unfold Z_. destruct f as [[] c a k x]; cbn [crep rep up rootp faddr fnode fsib ccnt cnt cpar];
  (split; [intros ((H1 & H2 & H3 & H4) & H5 & H6 & H7)|intros (H1 & (H2 & H3 & H4 & H5) & H6 & H7)]);
  (split; [|split; [|split]]; auto; intros b; specialize (H6 b); lia).
Qed.
Lemma Z_plugs G s C1 C2 t : Z_ G s (C1 ++ C2) t <-> Z_ G s C2 (plug C1 t).
Proof. revert t. induction C1 as [|f C1 IH]; intros t; [reflexivity|]. cbn [app]. rewrite Z_up. apply IH. Qed.
Lemma Z_plug G s C t : Z_ G s C t <-> Z_ G s [] (plug C t).
Proof. rewrite <- Z_plugs. now rewrite app_nil_r. Qed.

(** Frame lemmas *)
Lemma rep_frame h h' t q : (forall b, (1 <= cnt b t)%nat -> h' b = h b) -> rep h t q -> rep h' t q.
Proof.
  revert q. induction t as [|c l IHl a k r IHr]; intros q Hf H; [exact I|].
  cbn [rep cnt] in *. destruct H as (H1 & H2 & H3 & H4). split; [exact H1|]. split.
  - rewrite Hf; [exact H2|]. rewrite one_same. lia.
  - split; [apply IHl|apply IHr]; auto; intros b Hb; apply Hf; lia.
Qed.
(** The same tree under another parent *)
Lemma rep_move h h' t q q' :
  (forall b, (1 <= cnt b t)%nat -> b <> rootp t -> h' b = h b) ->
  (t <> E -> forall n, h (rootp t) = Some n -> h' (rootp t) = Some (mkN (left n) (right n) q' (col n) (key n))) ->
  (forall b, (cnt b t <= 1)%nat) ->
  rep h t q -> rep h' t q'.
Proof.
  destruct t as [|c l a k r]; intros Hf Hr Hc H; [exact I|]. cbn [rep rootp] in *.
  destruct H as (H1 & H2 & H3 & H4). split; [exact H1|]. split.
  - now rewrite (Hr ltac:(congruence) _ H2).
  - pose proof (Hc a) as Ha. cbn [cnt] in Ha. rewrite one_same in Ha.
    split; (eapply rep_frame; [|eassumption]); intros b Hb; apply Hf; [cbn [cnt]; lia| |cbn [cnt]; lia| ];
    intros ->; lia.
Qed.
Lemma crep_frame h h' C p rt : (forall b, (1 <= ccnt b C)%nat -> h' b = h b) -> crep h C p rt -> crep h' C p rt.
Proof.
  revert p. induction C as [|[d c a k s] C IH]; intros p Hf H; [exact H|].
  cbn [crep ccnt faddr fsib] in *. destruct H as (H1 & H2 & H3 & H4).
  split; [exact H1|]. split; [|split].
  - rewrite Hf; [exact H2|]. rewrite one_same. lia.
  - eapply rep_frame; [|exact H3]. intros b Hb. apply Hf. lia.
  - apply IH; [|exact H4]. intros b Hb. apply Hf. lia.
Qed.
(** The same context around another root pointer *)
Definition fset (f : frame) (v : N) (n : node) : node :=
  match f with
  | Fr SL _ _ _ _ => mkN v (right n) (parent n) (col n) (key n)
  | Fr SR _ _ _ _ => mkN (left n) v (parent n) (col n) (key n)
  end.
Lemma crep_move h h' C p p' rt rt' :
  (forall b, (1 <= ccnt b C)%nat -> b <> cpar C -> h' b = h b) ->
  (match C with
   | [] => rt' = p'
   | f :: _ => rt' = rt /\ forall n, h (faddr f) = Some n -> h' (faddr f) = Some (fset f p' n)
   end) ->
  (forall b, (ccnt b C <= 1)%nat) ->
  crep h C p rt -> crep h' C p' rt'.
Proof.
  destruct C as [|[d c a k s] C]; intros Hf Hm Hc H; [exact Hm|].
  cbn [crep faddr fsib ccnt cpar] in *. destruct Hm as [-> Hm]. destruct H as (H1 & H2 & H3 & H4).
  pose proof (Hc a) as Ha. rewrite one_same in Ha.
  split; [exact H1|]. split; [|split].
  - rewrite (Hm _ H2). destruct d; reflexivity.
  - eapply rep_frame; [|exact H3]. intros b Hb. apply Hf; [lia|]. intros ->. lia.
  - eapply crep_frame; [|exact H4]. intros b Hb. apply Hf; [lia|]. intros ->. lia.
Qed.

(** * Colours *)
Inductive rb : tree -> color -> nat -> Prop :=
| rb_E : rb E Black 0
| rb_R l a k r n : rb l Black n -> rb r Black n -> rb (T Red l a k r) Red n
| rb_B l a k r c1 c2 n : rb l c1 n -> rb r c2 n -> rb (T Black l a k r) Black (S n).
(** [rbc C c n]: a tree of colour [c] and black height [n] fits the hole *)
Inductive rbc : ctx -> color -> nat -> Prop :=
| rbc_nil n : rbc [] Black n
| rbc_R d a k s C n : rb s Black n -> rbc C Red n -> rbc (Fr d Red a k s :: C) Black n
| rbc_B d a k s C c c' n : rb s c' n -> rbc C Black (S n) -> rbc (Fr d Black a k s :: C) c n.

Lemma rb_plug C : forall t c n, rb t c n -> rbc C c n -> exists n', rb (plug C t) Black n'.
Proof.
  induction C as [|[d c a k s] C IH]; intros t c0 n Ht HC; inversion HC; subst; cbn [plug].
  - eauto.
  - eapply IH; [|eassumption]. destruct d; cbn [up]; constructor; assumption.
  - eapply IH; [|eassumption]. destruct d; cbn [up]; econstructor; eassumption.
Qed.
Lemma rb_unplug C : forall t n, rb (plug C t) Black n -> exists c n', rb t c n' /\ rbc C c n'.
Proof.
  induction C as [|[d c a k s] C IH]; intros t n H; cbn [plug] in H.
  - exists Black, n. split; [exact H|constructor].
  - destruct (IH _ _ H) as (c1 & n1 & H1 & H2). destruct d; cbn [up] in H1; inversion H1; subst.
    + exists Black, n1. split; [assumption|now constructor].
    + eexists _, _. split; [eassumption|]. econstructor; eassumption.
    + exists Black, n1. split; [assumption|now constructor].
    + eexists _, _. split; [eassumption|]. econstructor; eassumption.
Qed.
Lemma rbc_weak C n : rbc C Red n -> rbc C Black n.
Proof. intros H. inversion H; subst. econstructor; eassumption. Qed.
Lemma rb_black_any C c n t : rbc C c n -> rb t Black n -> rbc C Black n.
Proof. intros H _. destruct c; [now apply rbc_weak|exact H]. Qed.

(** Agreement with the specification *)
Lemma tree_at_rep h t q c n : rep h t q -> rb t c n -> tree_at h (rootp t) q (inorder t) n c.
Proof.
  revert q c n. induction t as [|c0 l IHl a k r IHr]; intros q c n H Hrb; cbn [rep rootp inorder] in *.
  - inversion Hrb; subst. constructor.
  - destruct H as (H1 & H2 & H3 & H4). inversion Hrb; subst.
    + econstructor; eauto.
    + econstructor; eauto.
Qed.
Lemma rep_tree_at h p q L n c : tree_at h p q L n c -> exists t, rootp t = p /\ rep h t q /\ inorder t = L /\ rb t c n.
Proof.
  induction 1 as [q|p q l r k L1 L2 b Hp Hh H1 (t1 & E1 & R1 & I1 & B1) H2 (t2 & E2 & R2 & I2 & B2)
                 |p q l r k L1 L2 b c1 c2 Hp Hh H1 (t1 & E1 & R1 & I1 & B1) H2 (t2 & E2 & R2 & I2 & B2)].
  - exists E. repeat split. constructor.
  - exists (T Red t1 p k t2). subst. cbn [rootp rep inorder]. repeat split; auto. now constructor.
  - exists (T Black t1 p k t2). subst. cbn [rootp rep inorder]. repeat split; auto. econstructor; eauto.
Qed.
