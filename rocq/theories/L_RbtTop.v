(** From the zipper lemmas to statements about [holds]. *)
From Verif Require Export L_RbtQ.
From Coq Require Import ZifyBool ZifyNat ZifyN Sorting.Sorted Permutation.
Local Open Scope N_scope.

Lemma wp_run {A} (p : prog A) (Q : A -> st -> Prop) s : wp p Q s <-> exists a s', p s = Some (a, s') /\ Q a s'.
Proof. reflexivity. Qed.

Definition Gof (s : st) (t : tree) : ghost := mkG (fun b => cnt b t) (heap s) (card s).
Lemma holds_Z s L : holds s L -> exists t b, Z_ (Gof s t) s [] t /\ inorder t = L /\ rb t Black b.
Proof.
  intros ([b H] & HN & HC). destruct (rep_tree_at _ _ _ _ _ _ H) as (t & E1 & R1 & I1 & B1).
  exists t, b. split; [|now split]. rewrite <- I1 in HN. rewrite nodup_cnt in HN.
  unfold Z_, Gof. cbn [crep gF gh gc cpar ccnt]. now repeat split.
Qed.
Lemma Z_holds G s t : Z_ G s [] t -> (exists b, rb t Black b) -> gc G = Z.of_nat (length (inorder t)) -> holds s (inorder t).
Proof.
  intros (H1 & H2 & H3 & H4 & H5 & H6) [b Hb] Hc. cbn [crep cpar] in *. split; [|split].
  - exists b. rewrite H1. now apply tree_at_rep.
  - rewrite nodup_cnt. intros b0. specialize (H3 b0). specialize (H4 b0). cbn [ccnt] in H3. lia.
  - now rewrite H6.
Qed.

(** Height *)
Lemma rb_height t c b : rb t c b -> (height t <= 2 * b + (if c then 1 else 0))%nat.
Proof.
  induction 1 as [|l a k r n _ IH1 _ IH2|l a k r c1 c2 n _ IH1 _ IH2]; rewrite ?height_T; [cbn; lia|lia|].
  destruct c1, c2; lia.
Qed.
Lemma rb_size t c b : rb t c b -> (2 ^ b <= S (length (inorder t)))%nat.
Proof.
  induction 1 as [|l a k r n _ IH1 _ IH2|l a k r c1 c2 n _ IH1 _ IH2]; cbn [inorder]; rewrite ?app_length; cbn [length].
  - cbn. lia.
  - lia.
  - rewrite Nat.pow_succ_r'. lia.
Qed.
Lemma rb_log t b : rb t Black b -> (height t <= 2 * Nat.log2 (S (length (inorder t))))%nat.
Proof.
  intros H. pose proof (rb_height _ _ _ H) as H1. pose proof (rb_size _ _ _ H) as H2.
  apply Nat.log2_le_pow2 in H2; [|lia]. cbv iota in H1. lia.
Qed.
Lemma depth_height h : forall t q x d, rep h t q -> depth h (rootp t) x d -> (S d <= height t)%nat.
Proof.
  induction t as [|c l IHl a k r IHr]; intros q x d HR HD.
  - inversion HD; subst; cbn [rootp] in *; congruence.
  - cbn [rep] in HR. destruct HR as (Ha & Ea & Rl & Rr). rewrite height_T. inversion HD; subst.
    + lia.
    + cbn [rootp] in *. rewrite Ea in *. injection H0 as <-. cbn [left] in *. specialize (IHl _ _ _ Rl H1). lia.
    + cbn [rootp] in *. rewrite Ea in *. injection H0 as <-. cbn [right] in *. specialize (IHr _ _ _ Rr H1). lia.
Qed.
Lemma holds_depth s L x d : holds s L -> depth (heap s) (root s) x d -> (S d <= 2 * Nat.log2 (S (length L)))%nat.
Proof.
  intros H HD. destruct (holds_Z _ _ H) as (t & b & HZ & <- & Hb). pose proof (rb_log _ _ Hb) as Hl.
  destruct HZ as (H1 & H2 & _). cbn [crep] in H1. rewrite H1 in HD. pose proof (depth_height _ _ _ _ _ H2 HD). lia.
Qed.
(** every node of the tree is on a path *)
Lemma rep_depth h : forall t q x, rep h t q -> In x (map fst (inorder t)) -> exists d, depth h (rootp t) x d.
Proof.
  induction t as [|c l IHl a k r IHr]; intros q x HR Hin; [easy|].
  cbn [rep] in HR. destruct HR as (Ha & Ea & Rl & Rr). cbn [inorder] in Hin. rewrite map_app in Hin. cbn [map fst rootp] in *.
  apply in_app_or in Hin as [Hin|[<-|Hin]].
  - destruct (IHl _ _ Rl Hin) as [d Hd]. exists (S d). eapply dp_left; [exact Ha|exact Ea|exact Hd].
  - exists 0%nat. now apply dp_here.
  - destruct (IHr _ _ Rr Hin) as [d Hd]. exists (S d). eapply dp_right; [exact Ha|exact Ea|exact Hd].
Qed.

(** Finding a node *)
Lemma inorder_focus n k : forall t L1 L2, inorder t = L1 ++ (n, k) :: L2 ->
  exists C c l r, t = plug C (T c l n k r) /\ L1 = cleft C ++ inorder l /\ L2 = inorder r ++ cright C.
Proof.
  induction t as [|c l IHl a ka r IHr]; intros L1 L2 H; cbn [inorder] in H.
  - destruct L1; discriminate.
  - destruct (app_cut _ _ _ _ H) as [(z & -> & E1)|(z & E1 & E2)].
    + destruct z as [|y z].
      * cbn [app] in E1. injection E1 as -> -> <-. exists [], c, l, r. cbn [plug cleft cright]. rewrite !app_nil_r. now repeat split.
      * cbn [app] in E1. injection E1 as <- E1. destruct (IHr _ _ E1) as (C & c2 & l2 & r2 & -> & -> & ->).
        exists (C ++ [Fr SR c a ka l]), c2, l2, r2. rewrite plug_app, cleft_app, cright_app. cbn [plug up cleft cright].
        rewrite !app_nil_r, <- !app_assoc. now repeat split.
    + destruct z as [|y z].
      * rewrite app_nil_r in E1. cbn [app] in E2. injection E2 as -> -> ->. exists [], c, l, r. cbn [plug cleft cright]. rewrite !app_nil_r, E1. now repeat split.
      * cbn [app] in E2. injection E2 as <- ->. destruct (IHl _ _ E1) as (C & c2 & l2 & r2 & -> & -> & ->).
        exists (C ++ [Fr SL c a ka r]), c2, l2, r2. rewrite plug_app, cleft_app, cright_app. cbn [plug up cleft cright].
        rewrite !app_nil_r, <- !app_assoc. now repeat split.
Qed.

Lemma cnt_notin b t : ~ In b (map fst (inorder t)) <-> cnt b t = 0%nat.
Proof. rewrite cnt_inorder. apply count_occ_not_In. Qed.

Lemma holds_ins cmp s L x nx fuel : holds s L -> x <> 0 -> heap s x = Some nx -> ~ In x (map fst L) -> enough (length L) fuel ->
  exists s' L1 L2, rbt_ins cmp fuel x s = Some (tt, s') /\ L = L1 ++ L2 /\ holds s' (L1 ++ (x, key nx) :: L2) /\
    (forall b, b <> x -> ~ In b (map fst L) -> heap s' b = heap s b) /\
    (preorder cmp -> sorted cmp L -> Forall (fun e => (cmp (snd e) (key nx) <= 0)%Z) L1 /\ Forall (fun e => (0 < cmp (snd e) (key nx))%Z) L2).
Proof.
  intros H Hx Ex Hni Hf. pose proof H as (_ & _ & Hcard). destruct (holds_Z _ _ H) as (t & b & HZ & EL & Hb).
  pose proof (rb_log _ _ Hb) as Hl. rewrite EL in Hl. unfold enough in Hf.
  assert (W : wp (rbt_ins cmp fuel x) (fun _ s' => exists L1 L2, L = L1 ++ L2 /\ holds s' (L1 ++ (x, key nx) :: L2) /\
    (forall b, b <> x -> ~ In b (map fst L) -> heap s' b = heap s b) /\
    (preorder cmp -> sorted cmp L -> Forall (fun e => (cmp (snd e) (key nx) <= 0)%Z) L1 /\ Forall (fun e => (0 < cmp (snd e) (key nx))%Z) L2)) s).
  { eapply rbt_ins_spec; [exact HZ|exact Hb| |exact Hx|exact Ex|lia|].
    - cbn [Gof gF]. rewrite <- EL in Hni. now apply cnt_notin.
    - intros s' t' C HZ' EC Ei HG Hb'.
      assert (EL2 : L = cleft C ++ cright C) by (rewrite <- EL, <- EC, plug_inorder; reflexivity).
      exists (cleft C), (cright C). split; [exact EL2|]. split; [|split].
      + rewrite <- Ei. eapply Z_holds; [exact HZ'|exact Hb'|]. cbn [gc Gof]. rewrite Hcard, Ei, EL2, !app_length. cbn [length]. lia.
      + intros b0 Hb0 Hn0. destruct HZ' as (_ & _ & _ & _ & Ho & _). rewrite <- EL in Hn0. apply cnt_notin in Hn0.
        rewrite Ho; cbn [gF gh Gof].
        * destruct (N.eqb_spec b0 x); [congruence|reflexivity].
        * unfold one. rewrite Hn0. destruct (N.eqb_spec b0 x); [congruence|reflexivity].
      + intros Hpre HS. rewrite EL2 in HS. split.
        * eapply goes_left; [exact Hpre|exact HG|]. clear - HS. unfold sorted in *. induction (cleft C) as [|y l IH]; [constructor|].
          cbn [app] in HS. apply StronglySorted_inv in HS as [H1 H2]. constructor; [now apply IH|]. rewrite Forall_app in H2. tauto.
        * eapply goes_right; [exact Hpre|exact HG|]. clear - HS. unfold sorted in *. induction (cleft C) as [|y l IH]; [exact HS|].
          cbn [app] in HS. apply StronglySorted_inv in HS as [H1 _]. now apply IH. }
  destruct W as ([] & s' & Hr & L1 & L2 & HH). exists s', L1, L2. now split.
Qed.

Lemma holds_del s L1 n k L2 fuel : holds s (L1 ++ (n, k) :: L2) -> enough (length (L1 ++ (n, k) :: L2)) fuel ->
  exists s', rbt_del fuel n s = Some (tt, s') /\ holds s' (L1 ++ L2) /\
    (forall b, ~ In b (map fst (L1 ++ (n, k) :: L2)) -> heap s' b = heap s b).
Proof.
  intros H Hf. pose proof H as (_ & _ & Hcard). destruct (holds_Z _ _ H) as (t & b & HZ & EL & Hb).
  pose proof (rb_log _ _ Hb) as Hl. rewrite EL in Hl. unfold enough in Hf.
  destruct (inorder_focus _ _ _ _ _ EL) as (C & c & l & r & -> & -> & ->).
  assert (W : wp (rbt_del fuel n) (fun _ s' => holds s' ((cleft C ++ inorder l) ++ inorder r ++ cright C) /\
    (forall b, ~ In b (map fst ((cleft C ++ inorder l) ++ (n, k) :: inorder r ++ cright C)) -> heap s' b = heap s b)) s).
  { pose proof HZ as HZ0. apply Z_plug in HZ. eapply rbt_del_spec; [exact HZ|exact Hb| |lia|].
    - cbn [Gof gc]. rewrite Hcard, !app_length. cbn [length]. lia.
    - intros G' s' t' (R1 & R2 & R3) HZ' Ei Hb'. cbn [Gof gF gh gc] in *. split.
      + replace ((cleft C ++ inorder l) ++ inorder r ++ cright C) with (inorder t') by (rewrite Ei, <- !app_assoc; reflexivity).
        eapply Z_holds; [exact HZ'|exact Hb'|]. rewrite R3, Hcard, Ei, !app_length. cbn [length]. rewrite !app_length. lia.
      + intros b0 Hn0. rewrite <- EL in Hn0. apply cnt_notin in Hn0. destruct HZ' as (_ & _ & _ & _ & Ho & _).
        rewrite Ho by (rewrite R1; lia). apply R2. intros ->. rewrite cnt_plug in Hn0. cbn [cnt] in Hn0. rewrite one_same in Hn0. lia. }
  destruct W as ([] & s' & Hr & HH). exists s'. now split.
Qed.

(** Queries *)
Lemma wp_pure {A} (p : prog A) s (P : A -> Prop) : wp p (fun a s' => P a /\ s' = s) s -> exists a, p s = Some (a, s) /\ P a.
Proof. intros (a & s' & H & HP & ->). now exists a. Qed.
Ltac qstart H t Hl :=
  let b := fresh "b" in let HZ := fresh "HZ" in let Hb := fresh "Hb" in
  destruct (holds_Z _ _ H) as (t & b & HZ & <- & Hb); pose proof (rb_log _ _ Hb) as Hl;
  destruct HZ as (?HR & ?HP & _); cbn [crep cpar] in *; unfold enough in *; apply wp_pure.
Lemma holds_find cmp s L k fuel : preorder cmp -> holds s L -> sorted cmp L -> enough (length L) fuel ->
  exists r, rbt_find cmp fuel k s = Some (r, s) /\
    ((r = 0 /\ forall e, In e L -> cmp (snd e) k <> 0%Z) \/ exists kr, In (r, kr) L /\ cmp kr k = 0%Z).
Proof.
  intros Hpre H HS Hf. qstart H t Hl. unfold rbt_find. repeat ld. rewrite HR. eapply find_spec; [exact Hpre|exact HP|exact HS|lia| |].
  - intros kr r H1 H2. split; [right; now exists kr|reflexivity].
  - intros Hno. split; [left; now split|reflexivity].
Qed.
Lemma holds_glb cmp s L k fuel : preorder cmp -> holds s L -> sorted cmp L -> enough (length L) fuel ->
  exists r, rbt_find_glb cmp fuel k s = Some (r, s) /\ is_glb cmp L k r.
Proof.
  intros Hpre H HS Hf. qstart H t Hl. unfold rbt_find_glb. repeat ld. rewrite HR.
  eapply (glb_spec cmp Hpre s k t fuel 0 0 []); [exact HP|exact HS|lia| |easy|].
  - left. split; [reflexivity|]. intros e [].
  - intros r Hr. now split.
Qed.
Lemma holds_lub cmp s L k fuel : preorder cmp -> holds s L -> sorted cmp L -> enough (length L) fuel ->
  exists r, rbt_find_lub cmp fuel k s = Some (r, s) /\ is_lub cmp L k r.
Proof.
  intros Hpre H HS Hf. qstart H t Hl. unfold rbt_find_lub. repeat ld. rewrite HR.
  eapply (lub_spec cmp Hpre s k t fuel 0 0 []); [exact HP|exact HS|lia| | |].
  - left. split; [reflexivity|]. intros e [].
  - intros e e' _ [].
  - intros r Hr. rewrite app_nil_r in Hr. now split.
Qed.
Lemma holds_min s L fuel : holds s L -> enough (length L) fuel -> rbt_min fuel s = Some (hd 0 (map fst L), s).
Proof.
  intros H Hf. assert (W : exists a, rbt_min fuel s = Some (a, s) /\ a = hd 0 (map fst L)); [|destruct W as (a & -> & ->); reflexivity].
  qstart H t Hl. unfold rbt_min. repeat ld. rewrite HR. eapply rbn_min_spec; [exact HP|lia|now split].
Qed.
Lemma holds_max s L fuel : holds s L -> enough (length L) fuel -> rbt_max fuel s = Some (last (map fst L) 0, s).
Proof.
  intros H Hf. assert (W : exists a, rbt_max fuel s = Some (a, s) /\ a = last (map fst L) 0); [|destruct W as (a & -> & ->); reflexivity].
  qstart H t Hl. unfold rbt_max. repeat ld. rewrite HR. eapply rbn_max_spec; [exact HP|lia|now split].
Qed.
Lemma holds_succ s L1 n k L2 fuel : holds s (L1 ++ (n, k) :: L2) -> enough (length (L1 ++ (n, k) :: L2)) fuel ->
  rbn_succ fuel n s = Some (hd 0 (map fst L2), s).
Proof.
  intros H Hf. assert (W : exists a, rbn_succ fuel n s = Some (a, s) /\ a = hd 0 (map fst L2)); [|destruct W as (a & -> & ->); reflexivity].
  destruct (holds_Z _ _ H) as (t & b & HZ & EL & Hb). pose proof (rb_log _ _ Hb) as Hl. rewrite EL in Hl. unfold enough in Hf.
  destruct (inorder_focus _ _ _ _ _ EL) as (C & c & l & r & -> & -> & ->). apply Z_plug in HZ. apply wp_pure.
  eapply rbn_succ_spec; [exact HZ|lia|now split].
Qed.
Lemma holds_pred s L1 n k L2 fuel : holds s (L1 ++ (n, k) :: L2) -> enough (length (L1 ++ (n, k) :: L2)) fuel ->
  rbn_pred fuel n s = Some (last (map fst L1) 0, s).
Proof.
  intros H Hf. assert (W : exists a, rbn_pred fuel n s = Some (a, s) /\ a = last (map fst L1) 0); [|destruct W as (a & -> & ->); reflexivity].
  destruct (holds_Z _ _ H) as (t & b & HZ & EL & Hb). pose proof (rb_log _ _ Hb) as Hl. rewrite EL in Hl. unfold enough in Hf.
  destruct (inorder_focus _ _ _ _ _ EL) as (C & c & l & r & -> & -> & ->). apply Z_plug in HZ. apply wp_pure.
  eapply rbn_pred_spec; [exact HZ|lia|now split].
Qed.
Lemma foreach_from s L fuel : holds s L -> enough (length L) fuel -> forall L2 L1 m, L = L1 ++ L2 -> (length L2 < m)%nat ->
  foreach_loop m fuel (hd 0 (map fst L2)) s = Some (map fst L2, s).
Proof.
  intros H Hf. induction L2 as [|[n k] L2 IH]; intros L1 m EL Hm; (destruct m as [|m]; [cbn in Hm; lia|]); cbn [foreach_loop map hd fst].
  - reflexivity.
  - assert (Hn : n <> 0).
    { destruct (holds_Z _ _ H) as (t & b & HZ & EI & Hb). rewrite EL in EI.
      destruct (inorder_focus _ _ _ _ _ EI) as (C & c & l & r & -> & _ & _). apply Z_plug in HZ. exact (proj1 (Z_focus _ _ _ _ _ _ _ _ HZ)). }
    destruct (N.eqb_spec n 0); [congruence|]. unfold bind at 1.
    pose proof H as H'. pose proof Hf as Hf'. rewrite EL in H', Hf'. rewrite (holds_succ _ _ _ _ _ _ H' Hf').
    unfold bind. rewrite (IH (L1 ++ [(n, k)]) m); [reflexivity|now rewrite <- app_assoc|cbn in Hm; lia].
Qed.
Lemma holds_foreach s L m fuel : holds s L -> enough (length L) fuel -> (length L < m)%nat ->
  rbt_foreach m fuel s = Some (map fst L, s).
Proof.
  intros H Hf Hm. unfold rbt_foreach, bind. rewrite (holds_min _ _ _ H Hf). exact (foreach_from s L fuel H Hf L [] m eq_refl Hm).
Qed.
Lemma holds_empty s L : holds s L -> rbt_empty s = true <-> L = [].
Proof.
  intros H. destruct (holds_Z _ _ H) as (t & b & (HR & HP & _) & <- & _). cbn [crep] in HR. unfold rbt_empty. rewrite N.eqb_eq, HR.
  destruct t as [|c l a k r]; cbn [rootp inorder rep] in *.
  - split; reflexivity.
  - split; [intros ->; now destruct HP|]. intros E1. destruct (inorder l); discriminate.
Qed.

Lemma levels_depth h : forall t q lv x d, rep h t q -> In (x, d) (levels lv t) -> exists e, d = lv + N.of_nat e /\ depth h (rootp t) x e.
Proof.
  induction t as [|c l IHl a k r IHr]; intros q lv x d HR Hin; [easy|].
  cbn [rep] in HR. destruct HR as (Ha & Ea & Rl & Rr). cbn [levels rootp] in *.
  apply in_app_or in Hin as [Hin|[Hin|Hin]].
  - destruct (IHl _ _ _ _ Rl Hin) as (e & -> & He). exists (S e). split; [lia|]. eapply dp_left; [exact Ha|exact Ea|exact He].
  - injection Hin as <- <-. exists 0%nat. split; [lia|]. now apply dp_here.
  - destruct (IHr _ _ _ _ Rr Hin) as (e & -> & He). exists (S e). split; [lia|]. eapply dp_right; [exact Ha|exact Ea|exact He].
Qed.
Lemma holds_traverse s L f fuel : holds s L -> enough (length L) fuel ->
  exists rc log, rbt_traverse fuel f s = Some ((rc, log), s) /\
    (exists rest, map fst L = map fst log ++ rest /\ (rc = 0%Z -> rest = [])) /\
    (forall x d, In (x, d) log -> depth (heap s) (root s) x (N.to_nat d)) /\
    (forall p q, log = p ++ q -> p <> [] -> q <> [] -> f p = 0%Z) /\
    (log <> [] -> f log = rc) /\ (log = [] -> rc = 0%Z).
Proof.
  intros H Hf.
  assert (W : exists a, rbt_traverse fuel f s = Some (a, s) /\ (exists rest, map fst L = map fst (snd a) ++ rest /\ (fst a = 0%Z -> rest = [])) /\
    (forall x d, In (x, d) (snd a) -> depth (heap s) (root s) x (N.to_nat d)) /\
    (forall p q, snd a = p ++ q -> p <> [] -> q <> [] -> f p = 0%Z) /\
    (snd a <> [] -> f (snd a) = fst a) /\ (snd a = [] -> fst a = 0%Z)); [|destruct W as ([rc log] & W1 & W2); exists rc, log; now split].
  qstart H t Hl. unfold rbt_traverse. repeat ld. rewrite HR. destruct t as [|c l a k r].
  { cbn [rootp inorder]. repeat ld. cbn [fst snd map]. split; [|reflexivity]. split; [exists []; now split|].
    split; [intros x d []|]. split; [|split; [congruence|reflexivity]]. intros p q E0 Hp. symmetry in E0. apply app_eq_nil in E0 as [-> _]. congruence. }
  pose proof (proj1 HP) as Ha. change (rootp (T c l a k r)) with a at 1. repeat ld.
  eapply (traverse_spec s f (T c l a k r)); [exact HP|lia|]. intros rc log (done & rest & E1 & -> & F1 & Z1 & N1). cbn [app fst snd] in *.
  split; [|reflexivity]. split; [|split; [|split; [exact F1|split]]].
  - exists (map fst rest). rewrite <- map_app, <- E1, levels_fst. split; [reflexivity|]. intros E0. destruct (Z1 E0) as [-> _]. reflexivity.
  - intros x d Hin. destruct (levels_depth (heap s) (T c l a k r) 0 0 x d HP) as (e & -> & He); [rewrite E1; apply in_or_app; now left|].
    rewrite N.add_0_l, Nat2N.id. exact He.
  - intros Hne. destruct (Z.eq_dec rc 0) as [->|Hrc]; [now apply Z1|now apply N1].
  - intros ->. destruct (Z.eq_dec rc 0) as [|Hrc]; [assumption|]. destruct (N1 Hrc). congruence.
Qed.

(** Histories *)
Lemma place_split cmp e L : exists L1 L2, place cmp e L = L1 ++ e :: L2 /\ L = L1 ++ L2.
Proof.
  induction L as [|y L (L1 & L2 & E1 & E2)]; cbn [place]; [now exists [], []|]. destruct (0 <? _)%Z.
  - now exists [], (y :: L).
  - exists (y :: L1), L2. rewrite E1, E2. now split.
Qed.
Lemma place_eq cmp e L1 L2 : Forall (fun y => (cmp (snd y) (snd e) <= 0)%Z) L1 -> Forall (fun y => (0 < cmp (snd y) (snd e))%Z) L2 ->
  place cmp e (L1 ++ L2) = L1 ++ e :: L2.
Proof.
  intros H1 H2. induction H1 as [|y L1 Hy _ IH]; cbn [app place].
  - destruct L2 as [|y L2]; [reflexivity|]. cbn [place]. inversion H2; subst. now rewrite (proj2 (Z.ltb_lt _ _)).
  - rewrite (proj2 (Z.ltb_ge _ _)) by exact Hy. now rewrite IH.
Qed.
Lemma filter_out n k L1 L2 : NoDup (map fst (L1 ++ (n, k) :: L2)) -> filter (fun e : N * N => negb (fst e =? n)) (L1 ++ (n, k) :: L2) = L1 ++ L2.
Proof.
  rewrite map_app. cbn [map fst]. intros H. pose proof (NoDup_remove_2 _ _ _ H) as H2. rewrite filter_app. cbn [filter fst].
  rewrite N.eqb_refl. cbn [negb].
  assert (HH : forall L, ~ In n (map fst L) -> filter (fun e : N * N => negb (fst e =? n)) L = L).
  { induction L as [|[a ka] L IH]; intros Hn; [reflexivity|]. cbn [filter fst map] in *. destruct (N.eqb_spec a n) as [->|Hne].
    - exfalso. apply Hn. now left.
    - cbn [negb]. rewrite IH; [reflexivity|]. intros Hi. apply Hn. now right. }
  rewrite !HH; [reflexivity| |]; intros Hi; apply H2; apply in_or_app; [now right|now left].
Qed.
Lemma sorted_join cmp (Hpre : preorder cmp) e L1 L2 : sorted cmp (L1 ++ L2) ->
  Forall (fun y => (cmp (snd y) (snd e) <= 0)%Z) L1 -> Forall (fun y => (0 < cmp (snd y) (snd e))%Z) L2 -> sorted cmp (L1 ++ e :: L2).
Proof.
  unfold sorted. intros HS H1 H2. induction H1 as [|y L1 Hy H1 IH]; cbn [app] in *.
  - constructor; [exact HS|]. eapply Forall_impl; [|exact H2]. intros a Ha. cbv beta in Ha. apply (pre_anti _ Hpre) in Ha. lia.
  - apply StronglySorted_inv in HS as [S1 S2]. constructor; [now apply IH|]. rewrite Forall_app in *. destruct S2 as [S2 S3].
    split; [exact S2|]. constructor; assumption.
Qed.
Lemma sorted_drop cmp L1 e L2 : sorted cmp (L1 ++ e :: L2) -> sorted cmp (L1 ++ L2).
Proof.
  unfold sorted. induction L1 as [|y L1 IH]; cbn [app]; intros HS; apply StronglySorted_inv in HS as [S1 S2]; [exact S1|].
  constructor; [now apply IH|]. rewrite Forall_app in *. destruct S2 as [S2 S3]. split; [exact S2|]. now inversion S3.
Qed.

Lemma do_op_ok cmp s L o fuel : preorder cmp -> holds s L -> sorted cmp L -> legal o L -> enough (length L) fuel ->
  exists s', do_op cmp fuel o s = Some (tt, s') /\ holds s' (want cmp o L) /\ sorted cmp (want cmp o L) /\ (length (want cmp o L) <= S (length L))%nat.
Proof.
  intros Hpre H HS HL Hf. destruct o as [x nd|x]; cbn [do_op want legal] in *.
  - destruct HL as [Hx Hni]. unfold bind at 1.
    assert (H' : holds (mkSt (root s) (card s) (upd (heap s) x nd)) L).
    { destruct (holds_Z _ _ H) as (t & b & HZ & EL & Hb). rewrite <- EL in *.
      eapply Z_holds; [eapply Z_upd_out; [exact HZ|]|now exists b|].
      - cbn [Gof gF]. now apply cnt_notin.
      - cbn [gc Gof]. exact (proj2 (proj2 H)). }
    destruct (holds_ins cmp _ L x nd fuel H' Hx) as (s' & L1 & L2 & E1 & -> & E3 & _ & E5); [cbn [heap]; unfold upd; now rewrite N.eqb_refl|exact Hni|exact Hf|].
    destruct (E5 Hpre HS) as [F1 F2]. exists s'. rewrite (place_eq cmp (x, key nd) _ _ F1 F2). split; [exact E1|]. split; [exact E3|].
    split; [now apply sorted_join|]. rewrite !app_length. cbn [length]. lia.
  - apply in_map_iff in HL as ([x' k] & <- & Hin). cbn [fst]. apply in_split in Hin as (L1 & L2 & ->).
    destruct (holds_del s L1 x' k L2 fuel H Hf) as (s' & E1 & E2 & _). exists s'. split; [exact E1|].
    rewrite filter_out by exact (proj1 (proj2 H)). split; [exact E2|]. split; [now apply sorted_drop in HS|]. rewrite !app_length. cbn [length]. lia.
Qed.
Lemma enough_le n m fuel : (n <= m)%nat -> enough m fuel -> enough n fuel.
Proof. unfold enough. intros H1 H2. pose proof (Nat.log2_le_mono (S n) (S m)). lia. Qed.
Lemma run_ok cmp fuel : preorder cmp -> forall L os L', history cmp L os L' -> forall s, holds s L -> sorted cmp L -> enough (length L + length os) fuel ->
  exists s', run cmp fuel os s = Some (tt, s') /\ holds s' L' /\ sorted cmp L' /\ (length L' <= length L + length os)%nat.
Proof.
  intros Hpre L os L' HH. induction HH as [L|L o os L' HL HH IH]; intros s H HS Hf; cbn [run length] in *.
  - exists s. split; [reflexivity|]. split; [exact H|]. split; [exact HS|lia].
  - destruct (do_op_ok cmp s L o fuel Hpre H HS HL) as (s1 & E1 & E2 & E3 & E4); [eapply enough_le; [|exact Hf]; lia|].
    destruct (IH s1 E2 E3) as (s2 & F1 & F2 & F3 & F4); [eapply enough_le; [|exact Hf]; lia|].
    exists s2. unfold bind. rewrite E1. split; [exact F1|]. split; [exact F2|]. split; [exact F3|lia].
Qed.
Lemma holds_init h : holds (rbt_init h) [].
Proof. split; [exists 0%nat; constructor|]. split; [constructor|reflexivity]. Qed.

(** Any comparator at all: the order is not promised, the rest is. *)
Lemma perm_in (L M : list (N * N)) x : Permutation L M -> In x (map fst L) <-> In x (map fst M).
Proof. intros H. apply (Permutation_map fst) in H. split; apply Permutation_in; [exact H|now symmetry]. Qed.
Lemma perm_filter (f : N * N -> bool) L M : Permutation L M -> Permutation (filter f L) (filter f M).
Proof.
  induction 1 as [|x L M _ IH|x y L|L M M' _ IH1 _ IH2]; cbn [filter]; [constructor| | |now rewrite IH1].
  - destruct (f x); [now constructor|exact IH].
  - destruct (f x), (f y); try apply Permutation_refl. apply perm_swap.
Qed.
Lemma run_any cmp fuel : forall L os L', history cmp L os L' -> forall s M, holds s M -> Permutation M L -> enough (length L + length os) fuel ->
  exists s' M', run cmp fuel os s = Some (tt, s') /\ holds s' M' /\ Permutation M' L'.
Proof.
  intros L os L' HH. induction HH as [L|L o os L' HL HH IH]; intros s M H HP Hf; cbn [run length] in *.
  - exists s, M. now split.
  - assert (W : exists s1 M1, do_op cmp fuel o s = Some (tt, s1) /\ holds s1 M1 /\ Permutation M1 (want cmp o L) /\ (length (want cmp o L) <= S (length L))%nat).
    { assert (Hf1 : enough (length M) fuel) by (eapply enough_le; [|exact Hf]; rewrite (Permutation_length HP); lia).
      destruct o as [x nd|x]; cbn [do_op want legal] in *.
      - destruct HL as [Hx Hni]. rewrite <- (perm_in _ _ _ HP) in Hni. unfold bind at 1.
        assert (H' : holds (mkSt (root s) (card s) (upd (heap s) x nd)) M).
        { destruct (holds_Z _ _ H) as (t & b & HZ & EL & Hb). rewrite <- EL in *.
          eapply Z_holds; [eapply Z_upd_out; [exact HZ|]|now exists b|].
          - cbn [Gof gF]. now apply cnt_notin.
          - cbn [gc Gof]. exact (proj2 (proj2 H)). }
        destruct (holds_ins cmp _ M x nd fuel H' Hx) as (s' & L1 & L2 & E1 & -> & E3 & _); [cbn [heap]; unfold upd; now rewrite N.eqb_refl|exact Hni|exact Hf1|].
        destruct (place_split cmp (x, key nd) L) as (P1 & P2 & -> & ->).
        exists s', (L1 ++ (x, key nd) :: L2). split; [exact E1|]. split; [exact E3|]. split.
        + rewrite <- !Permutation_middle. now constructor.
        + rewrite !app_length. cbn [length]. lia.
      - pose proof HL as HL'. rewrite <- (perm_in _ _ _ HP) in HL'. apply in_map_iff in HL' as ([x' k] & Ex & Hin). cbn [fst] in Ex. subst x'.
        apply in_split in Hin as (L1 & L2 & ->).
        destruct (holds_del s L1 x k L2 fuel H Hf1) as (s' & E1 & E2 & _). exists s', (L1 ++ L2). split; [exact E1|]. split; [exact E2|]. split.
        + rewrite <- (filter_out x k L1 L2) by exact (proj1 (proj2 H)). now apply perm_filter.
        + clear. induction L as [|y L IH]; cbn [filter length]; [lia|]. destruct (negb _); cbn [length]; lia. }
    destruct W as (s1 & M1 & E1 & E2 & E3 & E4).
    destruct (IH s1 M1 E2 E3) as (s2 & M2 & F1 & F2 & F3); [eapply enough_le; [|exact Hf]; lia|].
    exists s2, M2. unfold bind. rewrite E1. now split.
Qed.
