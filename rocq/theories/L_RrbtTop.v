(** The relocatable tree: verification, operations, histories, relocation. *)
From Verif Require Export L_Rrbt.
From Coq Require Import ZifyBool ZifyNat ZifyN Sorting.Sorted Permutation.
Local Open Scope N_scope.

(** ** verify_tree accepts every red/black tree *)
Lemma color_rep s t q c b : rep (heap s) t q -> rb t c b ->
  forall Q : color -> st -> Prop, Q c s -> wp (node_color (rootp t)) Q s.
Proof.
  intros HR HB Q HQ. destruct t as [|c0 l a k r]; cbn [rootp rep] in *.
  - inversion HB; subst. now apply wp_ret.
  - destruct HR as (Ha & Ea & _). eapply wp_node_color; [right; split; [exact Ha|split; [exact Ea|reflexivity]]|].
    inversion HB; subst; exact HQ.
Qed.
Lemma gverify1_spec s : forall t q fuel (Q : unit -> st -> Prop), rep (heap s) t q -> (forall b, (cnt b t <= 1)%nat) ->
  (height t < fuel)%nat -> Q tt s -> wp (gverify1 fuel (rootp t)) Q s.
Proof.
  induction t as [|c l IHl a k r IHr]; intros q fuel Q HR Hc Hf HQ; (destruct fuel as [|fuel]; [lia|]); cbn [gverify1 rootp].
  - rewrite N.eqb_refl. now apply wp_ret.
  - cbn [rep] in HR. destruct HR as (Ha & Ea & Rl & Rr). rewrite height_T in Hf. rewrite (proj2 (N.eqb_neq _ _) Ha).
    assert (Hl : rootp l <> a) by (apply rootp_ne; [exact Ha|cz Hc a]).
    assert (Hr : rootp r <> a) by (apply rootp_ne; [exact Ha|cz Hc a]).
    bnd. eapply wp_get_left; [exact Ha|exact Ea|]. cbn [left].
    bnd. apply wp_assert; [rewrite (proj2 (N.eqb_neq _ _)) by (now apply not_eq_sym); reflexivity|].
    bnd. eapply wp_get_right; [exact Ha|exact Ea|]. cbn [right].
    bnd. apply wp_assert; [rewrite (proj2 (N.eqb_neq _ _)) by (now apply not_eq_sym); reflexivity|].
    bnd. eapply wp_get_left; [exact Ha|exact Ea|]. cbn [left].
    bnd. eapply IHl; [exact Rl|intros b; specialize (Hc b); cbn [cnt] in Hc; lia|lia|].
    bnd. eapply wp_get_right; [exact Ha|exact Ea|]. cbn [right].
    eapply IHr; [exact Rr|intros b; specialize (Hc b); cbn [cnt] in Hc; lia|lia|exact HQ].
Qed.
Lemma gverify4_spec s : forall t q c b fuel (Q : unit -> st -> Prop), rep (heap s) t q -> rb t c b ->
  (c = Red -> q <> 0 -> exists n, heap s q = Some n /\ col n = Black) ->
  (height t < fuel)%nat -> Q tt s -> wp (gverify4 fuel (rootp t)) Q s.
Proof.
  induction t as [|c l IHl a k r IHr]; intros q c1 b fuel Q HR HB Hq Hf HQ; (destruct fuel as [|fuel]; [lia|]); cbn [gverify4 rootp].
  - rewrite N.eqb_refl. now apply wp_ret.
  - cbn [rep] in HR. destruct HR as (Ha & Ea & Rl & Rr). rewrite height_T in Hf. rewrite (proj2 (N.eqb_neq _ _) Ha).
    bnd. eapply wp_node_color; [right; split; [exact Ha|split; [exact Ea|reflexivity]]|]. cbn [col].
    inversion HB as [|? ? ? ? ? Bl Br|? ? ? ? cl cr ? Bl Br]; subst; cbn [ceqb]; bnd.
    + bnd. eapply wp_get_left; [exact Ha|exact Ea|]. cbn [left].
      bnd. eapply color_rep; [exact Rl|exact Bl|]. bnd. apply wp_assert; [reflexivity|].
      bnd. eapply wp_get_right; [exact Ha|exact Ea|]. cbn [right].
      bnd. eapply color_rep; [exact Rr|exact Br|]. bnd. apply wp_assert; [reflexivity|].
      bnd. eapply wp_get_parent; [exact Ha|exact Ea|]. cbn [parent].
      bnd. eapply (wp_node_color _ _ _ Black (match heap s q with Some n => n | None => mkN 0 0 0 Black 0 end)).
      { destruct (N.eq_dec q 0) as [->|Hne]; [now left|right]. destruct (Hq eq_refl Hne) as (n & En & Cn). rewrite En. auto. }
      apply wp_assert; [reflexivity|].
      bnd. eapply wp_get_left; [exact Ha|exact Ea|]. cbn [left].
      bnd. eapply IHl; [exact Rl|exact Bl|discriminate|lia|].
      bnd. eapply wp_get_right; [exact Ha|exact Ea|]. cbn [right].
      eapply IHr; [exact Rr|exact Br|discriminate|lia|exact HQ].
    + apply wp_ret.
      assert (Hb : forall c, c = Red -> a <> 0 -> exists n, heap s a = Some n /\ col n = Black) by (intros; eexists; split; [exact Ea|reflexivity]).
      bnd. eapply wp_get_left; [exact Ha|exact Ea|]. cbn [left].
      bnd. eapply IHl; [exact Rl|exact Bl|apply Hb|lia|].
      bnd. eapply wp_get_right; [exact Ha|exact Ea|]. cbn [right].
      eapply IHr; [exact Rr|exact Br|apply Hb|lia|exact HQ].
Qed.
Lemma gverify5_spec s : forall t q c b fuel count path (Q : Z -> st -> Prop), rep (heap s) t q -> rb t c b ->
  (0 <= count)%Z -> (path = -1 \/ path = count + Z.of_nat b)%Z ->
  (height t < fuel)%nat -> Q (count + Z.of_nat b)%Z s -> wp (gverify5 fuel (rootp t) count path) Q s.
Proof.
  induction t as [|c l IHl a k r IHr]; intros q c1 b fuel count path Q HR HB H0 Hp Hf HQ; (destruct fuel as [|fuel]; [lia|]); cbn [gverify5 rootp].
  - rewrite N.eqb_refl. inversion HB; subst. rewrite Z.add_0_r in *. destruct (Z.eqb_spec path (-1)) as [|Hne]; [now apply wp_ret|].
    bnd. apply wp_assert; [lia|]. apply wp_ret. destruct Hp as [Hp| ->]; [congruence|exact HQ].
  - cbn [rep] in HR. destruct HR as (Ha & Ea & Rl & Rr). rewrite height_T in Hf. rewrite (proj2 (N.eqb_neq _ _) Ha).
    bnd. eapply wp_node_color; [right; split; [exact Ha|split; [exact Ea|reflexivity]]|]. cbn [col]. cbv zeta.
    assert (W : forall m cl cr, rb l cl m -> rb r cr m -> forall cnt', (0 <= cnt')%Z -> (cnt' + Z.of_nat m = count + Z.of_nat b)%Z ->
      wp (l <- get_left a ;; path <- gverify5 fuel l cnt' path ;; r <- get_right a ;; gverify5 fuel r cnt' path) Q s).
    { intros m cl cr Bl Br cnt' Hc Hs.
      bnd. eapply wp_get_left; [exact Ha|exact Ea|]. cbn [left].
      bnd. eapply IHl; [exact Rl|exact Bl|exact Hc|rewrite Hs; exact Hp|lia|].
      bnd. eapply wp_get_right; [exact Ha|exact Ea|]. cbn [right].
      eapply IHr; [exact Rr|exact Br|exact Hc|right; lia|lia|]. rewrite Hs. exact HQ. }
    inversion HB as [|? ? ? ? ? Bl Br|? ? ? ? cl cr ? Bl Br]; subst; cbn [ceqb].
    + exact (W _ _ _ Bl Br count H0 eq_refl).
    + apply (W _ _ _ Bl Br); lia.
Qed.
Lemma gverify_spec G s t b fuel (Q : unit -> st -> Prop) : Z_ G s [] t -> rb t Black b -> (height t < fuel)%nat -> Q tt s -> wp (gverify fuel) Q s.
Proof.
  intros HZ HB Hf HQ. pose proof (Z_cnt _ _ _ _ HZ) as Hc. cbn [ccnt] in Hc. destruct HZ as (HR & HP & _). cbn [crep cpar] in *.
  unfold gverify. bnd. apply wp_get_root. rewrite HR. destruct t as [|c l a k r]; [cbn [rootp]; rewrite N.eqb_refl; now apply wp_ret|].
  set (t := T c l a k r) in *. assert (Ha : rootp t <> 0) by exact (proj1 HP). rewrite (proj2 (N.eqb_neq _ _) Ha).
  bnd. eapply gverify1_spec; [exact HP|exact Hc|exact Hf|].
  bnd. unfold gverify2. rewrite (proj2 (N.eqb_neq _ _) Ha).
  bnd. eapply wp_get_parent; [exact Ha|exact (proj1 (proj2 HP))|]. cbn [parent]. bnd. apply wp_assert; [reflexivity|].
  bnd. eapply color_rep; [exact HP|exact HB|]. apply wp_assert; [reflexivity|].
  bnd. eapply gverify4_spec; [exact HP|exact HB|discriminate|exact Hf|].
  bnd. eapply gverify5_spec; [exact HP|exact HB|lia|now left|exact Hf|]. apply wp_ret. exact HQ.
Qed.

(** ** Operations on offsets *)
Definition tholds (s : st) (L : list (N * N)) : Prop := (exists b, tree_at (heap s) (root s) 0 L b Black) /\ NoDup (map fst L).
Definition recard (s : st) (L : list (N * N)) : st := mkSt (root s) (Z.of_nat (length L)) (heap s).
Lemma tholds_Z s L : tholds s L -> exists t b, Z_ (Gof s t) s [] t /\ inorder t = L /\ rb t Black b.
Proof.
  intros ([b H] & HN). destruct (rep_tree_at _ _ _ _ _ _ H) as (t & E1 & R1 & I1 & B1).
  exists t, b. split; [|now split]. rewrite <- I1 in HN. rewrite nodup_cnt in HN.
  unfold Z_, Gof. cbn [crep gF gh gc cpar ccnt]. now repeat split.
Qed.
Lemma Z_tholds G s t : Z_ G s [] t -> (exists b, rb t Black b) -> tholds s (inorder t).
Proof.
  intros (H1 & H2 & H3 & H4 & H5 & H6) [b Hb]. cbn [crep cpar] in *. split.
  - exists b. rewrite H1. now apply tree_at_rep.
  - rewrite nodup_cnt. intros b0. specialize (H3 b0). specialize (H4 b0). cbn [ccnt] in H3. lia.
Qed.
Lemma rb_fuel t b L fuel : rb t Black b -> inorder t = L -> enough (length L) fuel -> (height t < fuel)%nat.
Proof. intros Hb <- Hf. pose proof (rb_log _ _ Hb). unfold enough in Hf. lia. Qed.
Lemma tholds_verify s L fuel : tholds s L -> enough (length L) fuel -> gverify fuel s = Some (tt, s).
Proof.
  intros H Hf. destruct (tholds_Z _ _ H) as (t & b & HZ & EL & Hb).
  assert (W : wp (gverify fuel) (fun _ s' => s' = s) s) by (eapply gverify_spec; [exact HZ|exact Hb|eapply rb_fuel; eassumption|reflexivity]).
  destruct W as ([] & s' & E1 & ->). exact E1.
Qed.

Lemma tholds_ins cmp s L x nx fuel : tholds s L -> x <> 0 -> heap s x = Some nx -> ~ In x (map fst L) -> enough (S (length L)) fuel ->
  exists s' L1 L2, grbt_ins true cmp fuel x s = Some (tt, s') /\ L = L1 ++ L2 /\ tholds s' (L1 ++ (x, key nx) :: L2) /\
    (preorder cmp -> sorted cmp L -> Forall (fun e => (cmp (snd e) (key nx) <= 0)%Z) L1 /\ Forall (fun e => (0 < cmp (snd e) (key nx))%Z) L2).
Proof.
  intros H Hx Ex Hni Hf. destruct (tholds_Z _ _ H) as (t & b & HZ & EL & Hb).
  assert (Hf0 : enough (length L) fuel) by (eapply enough_le; [|exact Hf]; lia).
  assert (Hh := rb_fuel _ _ _ _ Hb EL Hf0).
  assert (W : wp (grbt_ins true cmp fuel x) (fun _ s' => exists L1 L2, L = L1 ++ L2 /\ tholds s' (L1 ++ (x, key nx) :: L2) /\
    (preorder cmp -> sorted cmp L -> Forall (fun e => (cmp (snd e) (key nx) <= 0)%Z) L1 /\ Forall (fun e => (0 < cmp (snd e) (key nx))%Z) L2)) s).
  { unfold grbt_ins. bnd. eapply gverify_spec; [exact HZ|exact Hb|exact Hh|].
    bnd. eapply wp_store; [exact Hx|exact Ex|].
    assert (Hgx : gF (Gof s t) x = 0%nat) by (cbn [Gof gF]; rewrite <- EL in Hni; now apply cnt_notin).
    apply (Z_upd_out _ _ _ _ x (mkN (left nx) (right nx) 0 (col nx) (key nx))) in HZ; [|exact Hgx].
    bnd. eapply ins_core_spec; [exact HZ|exact Hb|exact Hgx|exact Hx|cbn [heap]; unfold upd; rewrite N.eqb_refl; reflexivity|exact Hh|].
    intros s' t' C HZ' EC Ei HG [b' Hb']. cbn [key] in *.
    assert (EL2 : L = cleft C ++ cright C) by (rewrite <- EL, <- EC, plug_inorder; reflexivity).
    eapply gverify_spec; [exact HZ'|exact Hb'| |].
    { eapply rb_fuel; [exact Hb'|exact Ei|]. eapply enough_le; [|exact Hf]. rewrite EL2, !app_length. cbn [length]. lia. }
    exists (cleft C), (cright C). split; [exact EL2|]. split; [rewrite <- Ei; eapply Z_tholds; [exact HZ'|now exists b']|].
    intros Hpre HS. rewrite EL2 in HS. split.
    * eapply goes_left; [exact Hpre|exact HG|]. clear - HS. unfold sorted in *. induction (cleft C) as [|y l IH]; [constructor|].
      cbn [app] in HS. apply StronglySorted_inv in HS as [H1 H2]. constructor; [now apply IH|]. rewrite Forall_app in H2. tauto.
    * eapply goes_right; [exact Hpre|exact HG|]. clear - HS. unfold sorted in *. induction (cleft C) as [|y l IH]; [exact HS|].
      cbn [app] in HS. apply StronglySorted_inv in HS as [H1 _]. now apply IH. }
  destruct W as ([] & s' & Hr & L1 & L2 & HH). exists s', L1, L2. now split.
Qed.

Lemma tholds_del s L1 n k L2 fuel : tholds s (L1 ++ (n, k) :: L2) -> enough (length (L1 ++ (n, k) :: L2)) fuel ->
  exists s', grbt_del true fuel n s = Some (tt, s') /\ tholds s' (L1 ++ L2).
Proof.
  intros H Hf. destruct (tholds_Z _ _ H) as (t & b & HZ & EL & Hb).
  assert (Hh := rb_fuel _ _ _ _ Hb EL Hf). pose proof HZ as HZ0.
  destruct (inorder_focus _ _ _ _ _ EL) as (C & c & l & r & -> & -> & ->).
  assert (W : wp (grbt_del true fuel n) (fun _ s' => tholds s' ((cleft C ++ inorder l) ++ inorder r ++ cright C)) s).
  { apply Z_plug in HZ. pose proof (Z_focus _ _ _ _ _ _ _ _ HZ) as [Hn _]. unfold grbt_del.
    bnd. apply wp_assert; [now rewrite (proj2 (N.eqb_neq _ _) Hn)|].
    bnd. eapply gverify_spec; [exact HZ0|exact Hb|exact Hh|].
    bnd. eapply del_core_spec; [exact HZ|exact Hb|lia|]. intros G' s' t' _ HZ' Ei [b' Hb'].
    assert (Ei2 : inorder t' = (cleft C ++ inorder l) ++ inorder r ++ cright C) by (rewrite Ei, <- !app_assoc; reflexivity).
    assert (Hh' : (height t' < fuel)%nat).
    { eapply rb_fuel; [exact Hb'|exact Ei2|]. eapply enough_le; [|exact Hf]. rewrite !app_length. cbn [length]. rewrite !app_length. lia. }
    assert (Hroot : root s' = rootp t') by exact (proj1 HZ').
    bnd. apply wp_get_root. rewrite Hroot. bnd.
    destruct t' as [|c' l' a' k' r'].
    - cbn [rootp]. rewrite N.eqb_refl. apply wp_ret. eapply gverify_spec; [exact HZ'|exact Hb'|exact Hh'|].
      rewrite <- Ei2. eapply Z_tholds; [exact HZ'|now exists b'].
    - pose proof (Z_focus _ _ _ _ _ _ _ _ HZ') as [Ha' _]. cbn [rootp]. rewrite (proj2 (N.eqb_neq _ _) Ha').
      eapply set_color_spec; [exact HZ'|]. intros s2 HZ2.
      assert (Ec : c' = Black) by (inversion Hb'; reflexivity). subst c'.
      eapply gverify_spec; [exact HZ2|exact Hb'|exact Hh'|]. rewrite <- Ei2. eapply Z_tholds; [exact HZ2|now exists b']. }
  destruct W as ([] & s' & Hr & HH). exists s'. now split.
Qed.

(** ** From offsets to addresses *)
Lemma tree_at_frame h h' p q L b c : tree_at h p q L b c -> (forall o, In o (map fst L) -> h' o = h o) -> tree_at h' p q L b c.
Proof.
  induction 1 as [q|p q l r k L1 L2 b Hp Ep _ IH1 _ IH2|p q l r k L1 L2 b c1 c2 Hp Ep _ IH1 _ IH2]; intros Hf; [constructor| |];
  rewrite map_app in Hf; cbn [map fst] in Hf;
  (econstructor; [exact Hp|rewrite Hf; [exact Ep|apply in_or_app; right; now left]
    |apply IH1; intros o Ho; apply Hf, in_or_app; now left|apply IH2; intros o Ho; apply Hf, in_or_app; right; now right]).
Qed.
Lemma tree_at_closed h p q L b c : tree_at h p q L b c ->
  (p = 0 \/ In p (map fst L)) /\
  forall o, In o (map fst L) -> o <> 0 /\ forall n, h o = Some n ->
    (left n = 0 \/ In (left n) (map fst L)) /\ (right n = 0 \/ In (right n) (map fst L)) /\ (parent n = q \/ In (parent n) (map fst L)).
Proof.
  intros H. induction H as [q|p q l r k L1 L2 b Hp Ep _ IH1 _ IH2|p q l r k L1 L2 b c1 c2 Hp Ep _ IH1 _ IH2]; [split; [now left|intros o []]|..];
  destruct IH1 as [P1 IH1], IH2 as [P2 IH2]; rewrite map_app; cbn [map fst];
  (split; [right; apply in_or_app; right; now left|]); intros o Ho; rewrite !in_app_iff in *; cbn [In] in *;
  (destruct Ho as [Ho|[<-|Ho]];
   [destruct (IH1 o Ho) as [Hz Hn]; split; [exact Hz|]; intros n En; destruct (Hn n En) as (A1 & A2 & A3);
    rewrite !in_app_iff; cbn [In]; intuition congruence
   |split; [exact Hp|]; intros n En; rewrite Ep in En; injection En as <-; cbn [left right parent]; rewrite !in_app_iff; cbn [In]; intuition congruence
   |destruct (IH2 o Ho) as [Hz Hn]; split; [exact Hz|]; intros n En; destruct (Hn n En) as (A1 & A2 & A3);
    rewrite !in_app_iff; cbn [In]; intuition congruence]).
Qed.
Definition vw (base : N) (s : st) : st := mkSt (root s) (card s) (fun o => heap s (base + o)).
Lemma rholds_vw base size s L : rholds base size s L <-> tholds (vw base s) L /\ Forall (fun e => fst e < size) L.
Proof. unfold rholds, tholds. cbn [vw heap root]. tauto. Qed.
Definition inL (L : list (N * N)) (o : N) : Prop := In o (map fst L).
Lemma rholds_lt base size s L o : rholds base size s L -> inL L o -> 0 < o < size.
Proof.
  intros ([b H] & _ & HF) Ho. pose proof (proj1 (proj2 (tree_at_closed _ _ _ _ _ _ H) o Ho)) as H0.
  rewrite Forall_forall in HF. apply in_map_iff in Ho as (e & <- & He). specialize (HF e He). lia.
Qed.
Lemma rholds_rel base size s L : rholds base size s L -> rel base (inL L) (heap s) s (vw base s).
Proof.
  intros ([b H] & _ & HF). destruct (tree_at_closed _ _ _ _ _ _ H) as [H1 H2].
  constructor; cbn [vw root heap]; [reflexivity|exact H1|reflexivity| |reflexivity].
  intros o n Ho En. destruct (H2 o Ho) as [_ H3]. destruct (H3 n En) as (A1 & A2 & A3). split; [exact A1|]. split; [exact A2|exact A3].
Qed.
Lemma rel_rholds base size (T : N -> Prop) F s v L : rel base T F s v -> tholds v L -> (forall o, inL L o -> T o) ->
  Forall (fun e => fst e < size) L -> rholds base size s L.
Proof.
  intros HR ([b H] & HN) HT HF. split; [|now split]. exists b. rewrite (rel_root _ _ _ _ _ HR).
  eapply tree_at_frame; [exact H|]. intros o Ho. apply (rel_heap _ _ _ _ _ HR). now apply HT.
Qed.

(** Programs that change nothing *)
Definition pure {A} (m : prog A) : Prop := forall s a s', m s = Some (a, s') -> s' = s.
Lemma pure_bind {A B} (m : prog A) (k : A -> prog B) : pure m -> (forall a, pure (k a)) -> pure (bind m k).
Proof.
  intros Hm Hk s b s' E. unfold bind in E. destruct (m s) as [[a s1]|] eqn:E1; [|discriminate].
  apply Hm in E1. subst s1. exact (Hk a s b s' E).
Qed.
Lemma pure_ret {A} (a : A) : pure (ret a). Proof. intros s b s' E. now injection E. Qed.
Lemma pure_fail {A} : pure (@fail A). Proof. intros s b s' E. discriminate. Qed.
Lemma pure_assert b : pure (assert_ b). Proof. destruct b; [apply pure_ret|apply pure_fail]. Qed.
Lemma pure_load a : pure (load a).
Proof. intros s b s' E. unfold load in E. destruct (a =? 0); [discriminate|]. destruct (heap s a); [now injection E|discriminate]. Qed.
Lemma pure_get_root : pure get_root. Proof. intros s b s' E. now injection E. Qed.
Ltac pures :=
  repeat (cbv zeta; match goal with
  | |- pure (bind _ _) => apply pure_bind; [|intros ?]
  | |- pure (ret _) => apply pure_ret
  | |- pure fail => apply pure_fail
  | |- pure (assert_ _) => apply pure_assert
  | |- pure (load _) => apply pure_load
  | |- pure get_root => apply pure_get_root
  | |- pure (if ?b then _ else _) => destruct b
  | |- pure (let '(_, _) := ?p in _) => destruct p
  | |- pure (get_left _) => unfold get_left
  | |- pure (get_right _) => unfold get_right
  | |- pure (get_parent _) => unfold get_parent
  | |- pure (get_key _) => unfold get_key
  | |- pure (get_color _) => unfold get_color
  | |- pure (node_color _) => unfold node_color
  | H : forall _, _ |- _ => solve [apply H]
  end).
Lemma pure_verify base fuel : pure (rrbt_verify base fuel).
Proof.
  assert (P1 : forall fuel n, pure (verify1 base fuel n)) by (clear fuel; induction fuel as [|fuel IH]; intros n; cbn [verify1]; pures).
  assert (P4 : forall fuel n, pure (verify4 base fuel n)) by (clear fuel; induction fuel as [|fuel IH]; intros n; cbn [verify4]; pures).
  assert (P5 : forall fuel n c p, pure (verify5 base fuel n c p)) by (clear fuel; induction fuel as [|fuel IH]; intros n c p; cbn [verify5]; pures).
  unfold rrbt_verify, verify2. pures.
Qed.
Lemma pure_find base cmp fuel k : pure (rrbt_find base cmp fuel k).
Proof.
  assert (P : forall fuel n, pure (rfind_loop base cmp fuel n k)) by (clear fuel; induction fuel as [|fuel IH]; intros n; cbn [rfind_loop]; pures).
  unfold rrbt_find. pures.
Qed.
Lemma pure_glb base cmp fuel k : pure (rrbt_find_glb base cmp fuel k).
Proof.
  assert (P : forall fuel n g, pure (rglb_loop base cmp fuel n k g)) by (clear fuel; induction fuel as [|fuel IH]; intros n g; cbn [rglb_loop]; pures).
  unfold rrbt_find_glb. pures.
Qed.
Lemma pure_lub base cmp fuel k : pure (rrbt_find_lub base cmp fuel k).
Proof.
  assert (P : forall fuel n g, pure (rlub_loop base cmp fuel n k g)) by (clear fuel; induction fuel as [|fuel IH]; intros n g; cbn [rlub_loop]; pures).
  unfold rrbt_find_lub. pures.
Qed.
Lemma pure_min base fuel : forall n, pure (rrbn_min base fuel n).
Proof. induction fuel as [|fuel IH]; intros n; cbn [rrbn_min]; pures. Qed.
Lemma pure_max base fuel : forall n, pure (rrbn_max base fuel n).
Proof. induction fuel as [|fuel IH]; intros n; cbn [rrbn_max]; pures. Qed.
Lemma pure_succ base fuel n : pure (rrbn_succ base fuel n).
Proof.
  assert (P : forall fuel n, pure (rsucc_up base fuel n)) by (clear fuel n; induction fuel as [|fuel IH]; intros n; cbn [rsucc_up]; pures).
  pose proof (pure_min base fuel) as P2. unfold rrbn_succ. pures.
Qed.
Lemma pure_pred base fuel n : pure (rrbn_pred base fuel n).
Proof.
  assert (P : forall fuel n, pure (rpred_up base fuel n)) by (clear fuel n; induction fuel as [|fuel IH]; intros n; cbn [rpred_up]; pures).
  pose proof (pure_max base fuel) as P2. unfold rrbn_pred. pures.
Qed.
Lemma pure_traverse base fuel f : pure (rrbt_traverse base fuel f).
Proof.
  assert (P : forall fuel n lv log, pure (rtraverse_sub base fuel f n lv log)) by (clear fuel; induction fuel as [|fuel IH]; intros n lv log; cbn [rtraverse_sub]; pures).
  unfold rrbt_traverse. pures.
Qed.

(** ** Queries at addresses *)
Definition view (base : N) (s : st) (L : list (N * N)) : st := mkSt (root s) (Z.of_nat (length L)) (fun o => heap s (base + o)).
Lemma view_holds base size s L : rholds base size s L -> holds (view base s L) L.
Proof. intros (H & HN & _). split; [exact H|]. now split. Qed.
Lemma view_rel base size s L : rholds base size s L -> rel base (inL L) (heap s) s (view base s L).
Proof. intros H. destruct (rholds_rel _ _ _ _ H). now constructor. Qed.
Lemma ptr_at base size (T : N -> Prop) : region base size -> (forall o, T o -> 0 < o < size) -> forall o, T o -> ptr base o = base + o.
Proof. exact (ptr_pos base size T (fun _ => None)). Qed.
Lemma addr_ptr base size (T : N -> Prop) o : region base size -> (forall o, T o -> 0 < o < size) -> T0 T o -> ptr base o = addr base o.
Proof.
  intros Hr HT [->|Ho]; [reflexivity|]. rewrite (ptr_at base size T Hr HT o Ho). unfold addr.
  apply HT in Ho. now rewrite (proj2 (N.eqb_neq o 0)) by lia.
Qed.
Lemma query {A A'} (R : A -> A' -> Prop) base size s L (m : prog A) (m' : prog A') a' : region base size -> rholds base size s L -> pure m ->
  sim base (inL L) (heap s) R m m' -> m' (view base s L) = Some (a', view base s L) -> exists a, m s = Some (a, s) /\ R a a'.
Proof.
  intros Hreg H Hp Hs E. pose proof (Hs _ _ (view_rel _ _ _ _ H)) as HH. rewrite E in HH.
  destruct (m s) as [[a s1]|] eqn:E1; [|contradiction]. rewrite (Hp _ _ _ E1). exists a. split; [reflexivity|exact (proj1 HH)].
Qed.
Lemma query_p base size s L (m m' : prog N) r : region base size -> rholds base size s L -> pure m ->
  sim base (inL L) (heap s) (Rp base (inL L)) m m' -> m' (view base s L) = Some (r, view base s L) -> m s = Some (addr base r, s).
Proof.
  intros Hreg H Hp Hs E. destruct (query _ _ _ _ _ _ _ _ Hreg H Hp Hs E) as (a & E1 & -> & Hr).
  rewrite <- (addr_ptr base size (inL L)) by (try assumption; intros; eapply rholds_lt; eassumption). exact E1.
Qed.
Section Queries.
Variables (base size : N) (s : st) (L : list (N * N)) (fuel : nat).
Hypothesis Hreg : region base size.
Hypothesis H : rholds base size s L.
Hypothesis Hf : enough (length L) fuel.
Let HT : forall o, inL L o -> 0 < o < size := fun o => rholds_lt base size s L o H.
Let Hv := view_holds _ _ _ _ H.
Lemma r_find cmp k : preorder cmp -> sorted cmp L -> exists r, rrbt_find base cmp fuel k s = Some (addr base r, s) /\
    ((r = 0 /\ forall e, In e L -> cmp (snd e) k <> 0%Z) \/ exists kr, In (r, kr) L /\ cmp kr k = 0%Z).
Proof.
  intros Hpre HS. destruct (holds_find cmp _ _ k fuel Hpre Hv HS Hf) as (r & E1 & E2). exists r. split; [|exact E2].
  eapply query_p; [exact Hreg|exact H|apply pure_find|apply (sim_rrbt_find base size); [exact Hreg|exact HT]|exact E1].
Qed.
Lemma r_glb cmp k : preorder cmp -> sorted cmp L -> exists r, rrbt_find_glb base cmp fuel k s = Some (addr base r, s) /\ is_glb cmp L k r.
Proof.
  intros Hpre HS. destruct (holds_glb cmp _ _ k fuel Hpre Hv HS Hf) as (r & E1 & E2). exists r. split; [|exact E2].
  eapply query_p; [exact Hreg|exact H|apply pure_glb|apply (sim_rrbt_glb base size); [exact Hreg|exact HT]|exact E1].
Qed.
Lemma r_lub cmp k : preorder cmp -> sorted cmp L -> exists r, rrbt_find_lub base cmp fuel k s = Some (addr base r, s) /\ is_lub cmp L k r.
Proof.
  intros Hpre HS. destruct (holds_lub cmp _ _ k fuel Hpre Hv HS Hf) as (r & E1 & E2). exists r. split; [|exact E2].
  eapply query_p; [exact Hreg|exact H|apply pure_lub|apply (sim_rrbt_lub base size); [exact Hreg|exact HT]|exact E1].
Qed.
Lemma r_min : rrbt_min base fuel s = Some (addr base (hd 0 (map fst L)), s).
Proof.
  eapply query_p; [exact Hreg|exact H|unfold rrbt_min; pose proof (pure_min base fuel); pures|apply (sim_rrbt_min base size); [exact Hreg|exact HT]|].
  exact (holds_min _ _ _ Hv Hf).
Qed.
Lemma r_max : rrbt_max base fuel s = Some (addr base (last (map fst L) 0), s).
Proof.
  eapply query_p; [exact Hreg|exact H|unfold rrbt_max; pose proof (pure_max base fuel); pures|apply (sim_rrbt_max base size); [exact Hreg|exact HT]|].
  exact (holds_max _ _ _ Hv Hf).
Qed.
Lemma r_node n k L1 L2 : L = L1 ++ (n, k) :: L2 -> inL L n /\ ptr base n = base + n.
Proof.
  intros E. assert (Hn : inL L n) by (unfold inL; rewrite E, map_app; apply in_or_app; right; now left).
  split; [exact Hn|]. now apply (ptr_at base size (inL L) Hreg HT).
Qed.
Lemma r_succ L1 n k L2 : L = L1 ++ (n, k) :: L2 -> rrbn_succ base fuel (base + n) s = Some (addr base (hd 0 (map fst L2)), s).
Proof.
  intros E. destruct (r_node _ _ _ _ E) as [Hn <-].
  eapply query_p; [exact Hreg|exact H|apply pure_succ|apply (sim_succ base size); [exact Hreg|exact HT|now right]|].
  rewrite E in Hv, Hf |- *. exact (holds_succ _ _ _ _ _ _ Hv Hf).
Qed.
Lemma r_pred L1 n k L2 : L = L1 ++ (n, k) :: L2 -> rrbn_pred base fuel (base + n) s = Some (addr base (last (map fst L1) 0), s).
Proof.
  intros E. destruct (r_node _ _ _ _ E) as [Hn <-].
  eapply query_p; [exact Hreg|exact H|apply pure_pred|apply (sim_pred base size); [exact Hreg|exact HT|now right]|].
  rewrite E in Hv, Hf |- *. exact (holds_pred _ _ _ _ _ _ Hv Hf).
Qed.
Lemma r_verify : rrbt_verify base fuel s = Some (tt, s).
Proof.
  destruct (query eq base size s L (rrbt_verify base fuel) (gverify fuel) tt) as (a & E1 & E2);
    [exact Hreg|exact H|apply pure_verify|apply (sim_verify base size); [exact Hreg|exact HT]| |].
  - apply (tholds_verify _ L); [|exact Hf]. destruct Hv as (A & B & _). now split.
  - now destruct a.
Qed.
Lemma r_empty : rrbt_empty s = true <-> L = [].
Proof. exact (holds_empty _ _ Hv). Qed.
Lemma r_traverse f : exists rc log, rrbt_traverse base fuel f s = Some ((rc, log), s) /\
    (exists rest, map (fun e => base + fst e) L = map fst log ++ rest /\ (rc = 0%Z -> rest = [])) /\
    (forall p q, log = p ++ q -> p <> [] -> q <> [] -> f p = 0%Z) /\ (log <> [] -> f log = rc) /\ (log = [] -> rc = 0%Z).
Proof.
  destruct (holds_traverse _ _ (fun l => f (mlog base l)) fuel Hv Hf) as (rc & log & E1 & (rest & E2 & E2') & _ & E3 & E4 & E5).
  destruct (query _ base size s L _ _ _ Hreg H (pure_traverse base fuel f) (sim_traverse base size (inL L) (heap s) Hreg HT f fuel) E1) as ([rc' log'] & F1 & F2 & F3).
  cbn [fst snd] in F2, F3. subst rc' log'. exists rc, (mlog base log). split; [exact F1|].
  split; [|split; [|split]].
  - exists (map (fun o => base + o) rest). split; [|intros Hrc; now rewrite (E2' Hrc)].
    rewrite <- (map_map fst (fun o => base + o)), E2, map_app. f_equal. unfold mlog. rewrite !map_map. cbn [fst].
    apply map_ext_in. intros e He. symmetry. apply (ptr_at base size (inL L) Hreg HT). unfold inL. rewrite E2. apply in_or_app. left. now apply in_map.
  - intros p q Epq Hp Hq. unfold mlog in Epq. apply map_eq_app in Epq as (p' & q' & -> & <- & <-). apply (E3 p' q'); [reflexivity|now intros ->|now intros ->].
  - intros Hl. apply E4. now intros ->.
  - intros Hl. apply E5. now destruct log.
Qed.
Lemma r_depth x d : depth (fun o => heap s (base + o)) (root s) x d -> (S d <= 2 * Nat.log2 (S (length L)))%nat.
Proof. exact (holds_depth _ _ x d Hv). Qed.
End Queries.

(** ** Insertion and removal at addresses *)
Lemma sim_run {A A'} (R : A -> A' -> Prop) base (T : N -> Prop) F (m : prog A) (m' : prog A') s v a' v' :
  sim base T F R m m' -> rel base T F s v -> m' v = Some (a', v') -> exists a s', m s = Some (a, s') /\ R a a' /\ rel base T F s' v'.
Proof.
  intros Hs HR E. pose proof (Hs _ _ HR) as HH. rewrite E in HH. destruct (m s) as [[a s1]|]; [|contradiction]. exists a, s1. now split.
Qed.
Definition cleared (n : node) : node := mkN 0 0 0 (col n) (key n).
Definition put (s : st) (a : N) (n : node) : st := mkSt (root s) (card s) (upd (heap s) a n).
Lemma store_put a f s n : a <> 0 -> heap s a = Some n -> store a f s = Some (tt, put s a (f n)).
Proof. intros Ha E. unfold store. rewrite (proj2 (N.eqb_neq _ _) Ha), E. reflexivity. Qed.
Lemma put_same s a n : heap (put s a n) a = Some n.
Proof. cbn [put heap]. unfold upd. now rewrite N.eqb_refl. Qed.
Lemma clear_eq {B} s a n (m : prog B) : a <> 0 -> heap s a = Some n -> 
  exists s', (set_parent a 0 ;;; set_right a 0 ;;; set_left a 0 ;;; m) s = m s' /\ root s' = root s /\ heap s' a = Some (cleared n) /\ 
    forall b, b <> a -> heap s' b = heap s b.
Proof.
  intros Ha E. unfold bind. unfold set_parent. rewrite (store_put _ _ _ _ Ha E). 
  unfold set_right. erewrite store_put; [|exact Ha|apply put_same]. 
  unfold set_left. erewrite store_put; [|exact Ha|apply put_same]. 
  eexists. split; [reflexivity|]. split; [reflexivity|]. split; [apply put_same|].
  intros b Hb. cbn [put heap]. unfold upd. now rewrite (proj2 (N.eqb_neq _ _) Hb).
Qed.

Lemma r_ins base size cmp s L o nx fuel : region base size -> rholds base size s L -> 0 < o < size -> heap s (base + o) = Some nx ->
  ~ inL L o -> enough (S (length L)) fuel ->
  exists s' L1 L2, rrbt_ins base cmp fuel (base + o) s = Some (tt, s') /\ L = L1 ++ L2 /\ rholds base size s' (L1 ++ (o, key nx) :: L2) /\
    (forall a, a <> base + o -> (forall e, In e L -> a <> base + fst e) -> heap s' a = heap s a) /\
    (preorder cmp -> sorted cmp L -> Forall (fun e => (cmp (snd e) (key nx) <= 0)%Z) L1 /\ Forall (fun e => (0 < cmp (snd e) (key nx))%Z) L2).
Proof.
  intros Hreg H Ho Eo Hni Hf. pose proof (proj1 (rholds_vw _ _ _ _) H) as [HV HF].
  assert (Hf0 : enough (length L) fuel) by (eapply enough_le; [|exact Hf]; lia).
  destruct (tholds_ins cmp _ _ o nx fuel HV ltac:(lia) Eo Hni Hf) as (v' & L1 & L2 & E1 & EL & HV' & HO).
  rewrite oins_split in E1. unfold bind in E1 at 1. rewrite (tholds_verify _ _ _ HV Hf0) in E1.
  destruct (clear_eq (vw base s) o nx (oins_rest cmp fuel o) ltac:(lia) Eo) as (v3 & Ev & Rv & Nv & Fv). rewrite Ev in E1. clear Ev.
  assert (Hbo : base + o <> 0) by lia.
  destruct (clear_eq s (base + o) nx (rins_rest base cmp fuel (base + o)) Hbo Eo) as (s3 & Es & Rs & Ns & Fs).
  set (T := fun a => a = o \/ inL L a).
  assert (HT : forall a, T a -> 0 < a < size) by (intros a [->|Ha]; [exact Ho|eapply rholds_lt; eassumption]).
  assert (HR : rel base T (heap s) s3 v3).
  { pose proof (rholds_rel _ _ _ _ H) as [R1 R2 R3 R4 R5]. constructor.
    - rewrite Rs, Rv. exact R1.
    - rewrite Rs. destruct R2 as [->|R2]; [now left|right; now right].
    - intros a [->|Ha]; [now rewrite Ns, Nv|]. assert (Hne : a <> o) by (intros ->; contradiction). rewrite Fs, Fv by lia. now apply R3.
    - intros a n [->|Ha] En.
      + rewrite Nv in En. injection En as <-. cbn [cleared left right parent]. repeat split; now left.
      + assert (Hne : a <> o) by (intros ->; contradiction). rewrite Fv in En by exact Hne. destruct (R4 a n Ha En) as (A1 & A2 & A3).
        assert (W : forall z, T0 (inL L) z -> T0 T z) by (intros z [->|Hz]; [now left|right; now right]). now repeat split; apply W.
    - intros a Ha. apply Fs. apply Ha. now left. }
  assert (Eptr : ptr base o = base + o) by (apply (ptr_at base size T Hreg HT); now left).
  destruct (sim_run _ _ _ _ _ _ _ _ _ _ (sim_ins_rest base size T (heap s) Hreg HT cmp fuel o (or_intror (or_introl eq_refl))) HR E1) as ([] & s' & E2 & _ & HR').
  rewrite Eptr in E2. exists s', L1, L2. split.
  { rewrite rrbt_ins_split. unfold bind at 1. rewrite (r_verify base size s L fuel Hreg H Hf0). unfold rset_left.
    replace (0 mod W63) with 0 by reflexivity. rewrite Es. exact E2. }
  split; [exact EL|]. split.
  { eapply rel_rholds; [exact HR'|exact HV'| |].
    - intros a Ha. unfold inL in Ha. rewrite map_app, in_app_iff in Ha. cbn [map fst In] in Ha. unfold T, inL. rewrite EL, map_app, in_app_iff. intuition.
    - rewrite EL in HF. rewrite Forall_app in HF. rewrite Forall_app. split; [tauto|]. constructor; [cbn [fst]; lia|tauto]. }
  split; [|exact HO]. intros a Ha Hall. apply (rel_frame _ _ _ _ _ HR'). intros z [->|Hz]; [exact Ha|].
  unfold inL in Hz. apply in_map_iff in Hz as (e & <- & He). now apply Hall.
Qed.

Lemma r_del base size s L1 o k L2 fuel : region base size -> rholds base size s (L1 ++ (o, k) :: L2) -> enough (length (L1 ++ (o, k) :: L2)) fuel ->
  exists s', rrbt_del base fuel (base + o) s = Some (tt, s') /\ rholds base size s' (L1 ++ L2) /\
    (forall a, (forall e, In e (L1 ++ (o, k) :: L2) -> a <> base + fst e) -> heap s' a = heap s a).
Proof.
  intros Hreg H Hf. pose proof (proj1 (rholds_vw _ _ _ _) H) as [HV HF]. set (L := L1 ++ (o, k) :: L2) in *.
  destruct (tholds_del _ _ _ _ _ _ HV Hf) as (v' & E1 & HV').
  assert (HT : forall a, inL L a -> 0 < a < size) by (intros a Ha; eapply rholds_lt; eassumption).
  assert (Hin : inL L o) by (unfold inL, L; rewrite map_app; apply in_or_app; right; now left).
  destruct (sim_run _ _ _ _ _ _ _ _ _ _ (sim_rrbt_del base size (inL L) (heap s) Hreg HT fuel o (or_intror Hin)) (rholds_rel _ _ _ _ H) E1) as ([] & s' & E2 & _ & HR').
  rewrite (ptr_at base size (inL L) Hreg HT o Hin) in E2. exists s'. split; [exact E2|]. split.
  - eapply rel_rholds; [exact HR'|exact HV'| |].
    + intros a Ha. unfold inL, L in *. rewrite map_app, in_app_iff in *. cbn [map fst In]. tauto.
    + unfold L in HF. rewrite Forall_app in *. destruct HF as [F1 F2]. inversion F2; subst. now split.
  - intros a Ha. apply (rel_frame _ _ _ _ _ HR'). intros z Hz. unfold inL in Hz. apply in_map_iff in Hz as (e & <- & He). now apply Ha.
Qed.

(** ** Histories *)
Lemma rholds_put base size s L o nd : rholds base size s L -> ~ inL L o ->
  rholds base size (mkSt (root s) (card s) (upd (heap s) (base + o) nd)) L.
Proof.
  intros ([b H] & HN & HF) Ho. split; [|now split]. exists b. cbn [root heap]. eapply tree_at_frame; [exact H|].
  intros a Ha. cbv beta. unfold upd. destruct (N.eqb_spec (base + a) (base + o)) as [E1|_]; [|reflexivity]. exfalso. apply Ho. now replace o with a by lia.
Qed.
Lemma rholds_move base size s L base' g : region base' size -> rholds base size s L -> rholds base' size (move base size base' g s) L.
Proof.
  intros Hreg H. pose proof (fun o => rholds_lt base size s L o H) as HT. destruct H as ([b H] & HN & HF). split; [|now split].
  exists b. cbn [move root heap]. eapply tree_at_frame; [exact H|]. intros o Ho. cbv beta. apply HT in Ho.
  rewrite (proj2 (N.leb_le _ _)) by lia. rewrite (proj2 (N.ltb_lt _ _)) by lia. cbn [andb]. f_equal. lia.
Qed.
Lemma rdo_ok cmp size op base s L fuel : preorder cmp -> region base size -> rholds base size s L -> sorted cmp L -> rlegal size op L -> enough (S (length L)) fuel ->
  exists base' s', rdo cmp fuel size op (base, s) = Some (base', s') /\ region base' size /\ rholds base' size s' (rwant cmp op L) /\
    sorted cmp (rwant cmp op L) /\ (length (rwant cmp op L) <= S (length L))%nat.
Proof.
  intros Hpre Hreg H HS HL Hf. destruct op as [o nd|o|base' g]; cbn [rdo rwant rlegal] in *.
  - destruct HL as [Ho Hni]. pose proof (rholds_put _ _ _ _ _ nd H Hni) as H'.
    destruct (r_ins base size cmp _ L o nd fuel Hreg H' Ho) as (s' & L1 & L2 & E1 & -> & E3 & _ & E5); [cbn [heap]; unfold upd; now rewrite N.eqb_refl|exact Hni|exact Hf|].
    destruct (E5 Hpre HS) as [F1 F2]. exists base, s'. rewrite (place_eq cmp (o, key nd) _ _ F1 F2). rewrite E1. split; [reflexivity|]. split; [exact Hreg|]. split; [exact E3|].
    split; [now apply sorted_join|]. rewrite !app_length. cbn [length]. lia.
  - apply in_map_iff in HL as ([o' k] & E & Hin). cbn [fst] in E. subst o'. apply in_split in Hin as (L1 & L2 & ->).
    destruct (r_del base size s L1 o k L2 fuel Hreg H) as (s' & E1 & E2 & _); [eapply enough_le; [|exact Hf]; lia|].
    rewrite (filter_out o k L1 L2 (proj1 (proj2 H))). exists base, s'. rewrite E1. split; [reflexivity|]. split; [exact Hreg|]. split; [exact E2|].
    split; [eapply sorted_drop; exact HS|]. rewrite !app_length. cbn [length]. lia.
  - exists base', (move base size base' g s). split; [reflexivity|]. split; [exact HL|]. split; [now apply rholds_move|]. split; [exact HS|lia].
Qed.
Lemma rrun_ok cmp size fuel : preorder cmp -> forall L ops L', rhistory cmp size L ops L' -> forall base s, region base size -> rholds base size s L -> sorted cmp L ->
  enough (length L + length ops) fuel ->
  exists base' s', rrun cmp fuel size ops (base, s) = Some (base', s') /\ region base' size /\ rholds base' size s' L' /\ sorted cmp L' /\ (length L' <= length L + length ops)%nat.
Proof.
  intros Hpre L ops L' HH. induction HH as [L|L op ops L' HL HH IH]; intros base s Hreg H HS Hf; cbn [rrun length] in *.
  - exists base, s. split; [reflexivity|]. split; [exact Hreg|]. split; [exact H|]. split; [exact HS|lia].
  - destruct (rdo_ok cmp size op base s L fuel Hpre Hreg H HS HL) as (b1 & s1 & E1 & E2 & E3 & E4 & E5); [eapply enough_le; [|exact Hf]; lia|].
    destruct (IH b1 s1 E2 E3 E4) as (b2 & s2 & F1 & F2 & F3 & F4 & F5); [eapply enough_le; [|exact Hf]; lia|].
    exists b2, s2. rewrite E1. split; [exact F1|]. split; [exact F2|]. split; [exact F3|]. split; [exact F4|lia].
Qed.
Lemma rholds_init base size h : rholds base size (rrbt_init h) [].
Proof. split; [exists 0%nat; constructor|]. split; constructor. Qed.

(** ** Relocation of anything *)
Definition ocall (cmp : N -> N -> Z) (fuel : nat) (c : call) : prog N :=
  match c with
  | CIns o => nothing (gverify fuel ;;; set_parent o 0 ;;; set_right o 0 ;;; set_left o 0 ;;; oins_rest cmp fuel o)
  | CDel o => nothing (grbt_del true fuel o)
  | CFind k => rbt_find cmp fuel k
  | CGlb k => rbt_find_glb cmp fuel k
  | CLub k => rbt_find_lub cmp fuel k
  | CMin => rbt_min fuel
  | CMax => rbt_max fuel
  | CSucc o => rbn_succ fuel o
  | CPred o => rbn_pred fuel o
  | CVerify => nothing (gverify fuel)
  | CGle o => rbt_greatest_lt_or_eq o
  | CLge o => rbt_least_gt_or_eq o
  end.
Lemma sim_call base size (T : N -> Prop) F cmp fuel c : region base size -> (forall o, T o -> 0 < o < size) -> on_node T c ->
  sim base T F (Rp base T) (do_call base cmp fuel c) (ocall cmp fuel c).
Proof.
  intros Hreg HT Hn.
  assert (N0 : forall m m' : prog unit, sim base T F eq m m' -> sim base T F (Rp base T) (nothing m) (nothing m')).
  { intros m m' Hs. unfold nothing. eapply sim_bind; [exact Hs|]. intros _ _ _. apply sim_ret. split; [reflexivity|now left]. }
  destruct c as [o|o|k|k|k| | |o|o| |o|o]; cbn [do_call ocall on_node] in *;
    try (rewrite <- (ptr_at base size T Hreg HT o Hn); assert (Ho : T0 T o) by (now right)).
  - apply N0. rewrite rrbt_ins_split. eapply sim_bind; [eapply sim_verify; eassumption|]. intros _ _ _.
    eapply sim_bind; [eapply sim_set_parent; [eassumption..|now left]|]. intros _ _ _.
    eapply sim_bind; [eapply sim_set_right; [eassumption..|now left]|]. intros _ _ _.
    eapply sim_bind; [eapply sim_set_left; [eassumption..|now left]|]. intros _ _ _.
    eapply sim_ins_rest; eassumption.
  - apply N0. eapply sim_rrbt_del; eassumption.
  - eapply sim_rrbt_find; eassumption.
  - eapply sim_rrbt_glb; eassumption.
  - eapply sim_rrbt_lub; eassumption.
  - eapply sim_rrbt_min; eassumption.
  - eapply sim_rrbt_max; eassumption.
  - eapply sim_succ; eassumption.
  - eapply sim_pred; eassumption.
  - apply N0. eapply sim_verify; eassumption.
  - eapply sim_gle; eassumption.
  - eapply sim_lge; eassumption.
Qed.
Fixpoint ocalls (cmp : N -> N -> Z) (fuel : nat) (cs : list call) : prog (list N) :=
  match cs with
  | [] => ret []
  | c :: cs => r <- ocall cmp fuel c ;; l <- ocalls cmp fuel cs ;; ret (r :: l)
  end.
Lemma sim_calls base size (T : N -> Prop) F cmp fuel cs : region base size -> (forall o, T o -> 0 < o < size) -> Forall (on_node T) cs ->
  sim base T F (Forall2 (Rp base T)) (do_calls base cmp fuel cs) (ocalls cmp fuel cs).
Proof.
  intros Hreg HT. induction 1 as [|c cs Hc _ IH]; cbn [do_calls ocalls]; [apply sim_ret; constructor|].
  eapply sim_bind; [eapply sim_call; eassumption|]. intros r r' Hr. eapply sim_bind; [exact IH|]. intros l l' Hl. apply sim_ret. now constructor.
Qed.
Lemma relocate (T : N -> Prop) b1 s1 b2 s2 size cmp fuel cs : region b1 size -> region b2 size -> (forall o, T o -> 0 < o < size) ->
  copies T b1 s1 b2 s2 -> closed T b1 s1 -> Forall (on_node T) cs ->
  match do_calls b1 cmp fuel cs s1, do_calls b2 cmp fuel cs s2 with
  | Some (l1, s1'), Some (l2, s2') => Forall2 (same b1 b2) l1 l2 /\ copies T b1 s1' b2 s2' /\ closed T b1 s1' /\
      (forall a, (forall o, T o -> a <> b1 + o) -> heap s1' a = heap s1 a) /\
      (forall a, (forall o, T o -> a <> b2 + o) -> heap s2' a = heap s2 a)
  | None, None => True
  | _, _ => False
  end.
Proof.
  intros R1 R2 HT [C1 C2] [D1 D2] Hcs.
  assert (A1 : rel b1 T (heap s1) s1 (vw b1 s1)) by (constructor; cbn [vw root heap]; [reflexivity|exact D1|reflexivity|exact D2|reflexivity]).
  assert (A2 : rel b2 T (heap s2) s2 (vw b1 s1)).
  { constructor; cbn [vw root heap]; [now symmetry|rewrite <- C1; exact D1|intros o Ho; symmetry; now apply C2|exact D2|reflexivity]. }
  pose proof (sim_calls b1 size T (heap s1) cmp fuel cs R1 HT Hcs _ _ A1) as B1.
  pose proof (sim_calls b2 size T (heap s2) cmp fuel cs R2 HT Hcs _ _ A2) as B2.
  destruct (ocalls cmp fuel cs (vw b1 s1)) as [[l v]|].
  - destruct (do_calls b1 cmp fuel cs s1) as [[l1 s1']|]; [|contradiction].
    destruct (do_calls b2 cmp fuel cs s2) as [[l2 s2']|]; [|contradiction].
    destruct B1 as [Bl1 Q1], B2 as [Bl2 Q2]. split.
    { clear - Bl1 Bl2 R1 R2 HT. revert l2 Bl2. induction Bl1 as [|p1 o l1 l [-> Ho] _ IH]; intros l2 Bl2; inversion Bl2 as [|p2 o2 l2' l' [-> Ho2] Hl2]; subst; constructor.
      - destruct Ho as [->|Ho]; [left; split; reflexivity|right]. exists o. rewrite (ptr_at b1 size T R1 HT o Ho), (ptr_at b2 size T R2 HT o Ho).
        split; [apply (HT o Ho)|now split].
      - now apply IH. }
    split.
    { split; [rewrite (rel_root _ _ _ _ _ Q1), (rel_root _ _ _ _ _ Q2); reflexivity|]. intros o Ho.
      rewrite (rel_heap _ _ _ _ _ Q1 o Ho), (rel_heap _ _ _ _ _ Q2 o Ho). reflexivity. }
    split.
    { split; [exact (rel_rootT _ _ _ _ _ Q1)|]. intros o n Ho En. rewrite (rel_heap _ _ _ _ _ Q1 o Ho) in En. exact (rel_nodes _ _ _ _ _ Q1 o n Ho En). }
    split; [exact (rel_frame _ _ _ _ _ Q1)|exact (rel_frame _ _ _ _ _ Q2)].
  - destruct (do_calls b1 cmp fuel cs s1) as [[l1 s1']|]; [contradiction|].
    destruct (do_calls b2 cmp fuel cs s2) as [[l2 s2']|]; [contradiction|]. exact I.
Qed.
