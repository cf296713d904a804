(** Proofs about the allocator of pinned memory. *)
From Verif Require Import S_MM L_RbtTop.
From Coq Require Import Sorting.Permutation Sorting.Sorted.
From Coq Require Import Lia ZifyBool ZifyNat ZifyN.
Local Open Scope N_scope.

(** ** Operations on the trees keep the keys *)
Definition pure {A} (m : prog A) : Prop := forall s a s', m s = Some (a, s') -> s' = s.
Definition keeps {A} (m : prog A) : Prop :=
  forall s a s', m s = Some (a, s') -> forall x, option_map key (heap s' x) = option_map key (heap s x).
Lemma keeps_bind {A B} (m : prog A) (k : A -> prog B) : keeps m -> (forall a, keeps (k a)) -> keeps (bind m k).
Proof.
  intros H1 H2 s b s' E x. unfold bind in E. destruct (m s) as [[a s1]|] eqn:E1; [|discriminate].
  rewrite (H2 a _ _ _ E x). exact (H1 _ _ _ E1 x).
Qed.
Lemma keeps_ret {A} (a : A) : keeps (ret a). Proof. intros s b s' E x. now injection E as <- <-. Qed.
Lemma keeps_fail {A} : keeps (@fail A). Proof. intros s b s' E. discriminate. Qed.
Lemma keeps_assert b : keeps (assert_ b). Proof. destruct b; [apply keeps_ret|apply keeps_fail]. Qed.
Lemma keeps_load a : keeps (load a).
Proof. intros s n s' E x. unfold load in E. destruct (a =? 0); [discriminate|]. destruct (heap s a); [|discriminate]. now injection E as <- <-. Qed.
Lemma keeps_store a f : (forall n, key (f n) = key n) -> keeps (store a f).
Proof.
  intros Hf s u s' E x. unfold store in E. destruct (a =? 0); [discriminate|]. destruct (heap s a) as [n|] eqn:Ea; [|discriminate].
  injection E as <- <-. cbn [heap]. unfold upd. destruct (N.eqb_spec x a) as [->|_]; [|reflexivity]. rewrite Ea. cbn [option_map]. now rewrite Hf.
Qed.
Lemma keeps_groot : keeps get_root. Proof. intros s u s' E x. now injection E as <- <-. Qed.
Lemma keeps_gcard : keeps get_card. Proof. intros s u s' E x. now injection E as <- <-. Qed.
Lemma keeps_root v : keeps (set_root v). Proof. intros s u s' E x. now injection E as <- <-. Qed.
Lemma keeps_card v : keeps (set_card v). Proof. intros s u s' E x. now injection E as <- <-. Qed.
Lemma keeps_if {A} (b : bool) (m n : prog A) : keeps m -> keeps n -> keeps (if b then m else n).
Proof. now destruct b. Qed.
Ltac keepss :=
  repeat (cbv zeta; match goal with
  | |- keeps (bind _ _) => apply keeps_bind; [|intros ?]
  | |- keeps (ret _) => apply keeps_ret
  | |- keeps fail => apply keeps_fail
  | |- keeps (assert_ _) => apply keeps_assert
  | |- keeps (load _) => apply keeps_load
  | |- keeps get_root => apply keeps_groot
  | |- keeps (set_root _) => apply keeps_root
  | |- keeps get_card => apply keeps_gcard
  | |- keeps (set_card _) => apply keeps_card
  | |- keeps (if ?b then _ else _) => apply keeps_if
  | |- keeps (let '(_, _) := ?p in _) => destruct p
  | |- keeps (store _ _) => apply keeps_store; intros; reflexivity
  | |- keeps (get_left _) => unfold get_left
  | |- keeps (get_right _) => unfold get_right
  | |- keeps (get_parent _) => unfold get_parent
  | |- keeps (get_key _) => unfold get_key
  | |- keeps (get_color _) => unfold get_color
  | |- keeps (node_color _) => unfold node_color
  | |- keeps (is_red _) => unfold is_red
  | |- keeps (set_left _ _) => unfold set_left
  | |- keeps (set_right _ _) => unfold set_right
  | |- keeps (set_parent _ _) => unfold set_parent
  | |- keeps (set_color _ _) => unfold set_color
  | H : forall _, _ |- _ => solve [apply H]
  end).
Lemma keeps_rotl x : keeps (rotate_left x). Proof. unfold rotate_left. keepss. Qed.
Lemma keeps_rotr x : keeps (rotate_right x). Proof. unfold rotate_right. keepss. Qed.
Lemma keeps_ins cmp fuel x : keeps (rbt_ins cmp fuel x).
Proof.
  pose proof keeps_rotl as RL. pose proof keeps_rotr as RR.
  assert (P1 : forall fuel x n p c, keeps (ins_descend cmp fuel x n p c)) by (clear fuel; induction fuel as [|fuel IH]; intros; cbn [ins_descend]; keepss).
  assert (P2 : forall fuel x, keeps (ins_fix fuel x)) by (clear fuel; induction fuel as [|fuel IH]; intros; cbn [ins_fix]; keepss).
  unfold rbt_ins. keepss.
Qed.
Lemma keeps_del fuel x : keeps (rbt_del fuel x).
Proof.
  pose proof keeps_rotl as RL. pose proof keeps_rotr as RR.
  assert (P1 : forall fuel n, keeps (find_pred_loop fuel n)) by (clear fuel; induction fuel as [|fuel IH]; intros; cbn [find_pred_loop]; keepss).
  assert (P2 : forall n, keeps (sibling n)) by (intros; unfold sibling; keepss).
  assert (P3 : forall o n, keeps (replace_node o n)) by (intros; unfold replace_node; keepss).
  assert (P4 : forall c p s, keeps (black_around c p s)) by (intros; unfold black_around; keepss).
  assert (P6 : forall n, keeps (delete_case6 n)) by (intros; unfold delete_case6; keepss).
  assert (P5 : forall n, keeps (delete_case5 n)) by (intros; unfold delete_case5, case5_left, case5_right; keepss).
  assert (P7 : forall n, keeps (delete_case4 n)) by (intros; unfold delete_case4; keepss).
  assert (P8 : forall fuel n, keeps (delete_case2 fuel n)) by (clear fuel; induction fuel as [|fuel IH]; intros; cbn [delete_case2]; keepss).
  assert (P9 : forall n, keeps (del_leaf fuel n)) by (intros; unfold del_leaf; keepss).
  assert (P10 : forall o n, keeps (attach o n)) by (intros; unfold attach; keepss).
  unfold rbt_del, find_pred. keepss.
Qed.

(** ** Comparators *)
Lemma cmpa_le a b : (compare_addr a b <= 0)%Z <-> a <= b.
Proof. unfold compare_addr. destruct (N.ltb_spec b a), (N.ltb_spec a b); lia. Qed.
Lemma cmpa_gt a b : (0 < compare_addr a b)%Z <-> b < a.
Proof. unfold compare_addr. destruct (N.ltb_spec b a), (N.ltb_spec a b); lia. Qed.
Lemma cmpa_lt a b : (compare_addr a b < 0)%Z <-> a < b.
Proof. unfold compare_addr. destruct (N.ltb_spec b a), (N.ltb_spec a b); lia. Qed.
Lemma cmpa_ge a b : (0 <= compare_addr a b)%Z <-> b <= a.
Proof. unfold compare_addr. destruct (N.ltb_spec b a), (N.ltb_spec a b); lia. Qed.
Lemma cmpa_pre : preorder compare_addr.
Proof.
  constructor.
  - intros a b. now rewrite cmpa_gt, cmpa_lt.
  - intros a b c. rewrite !cmpa_le. lia.
Qed.
(** compare_count is the difference where it is used; a comparator that is the
    difference everywhere gives the same results *)
Definition diff (a b : N) : Z := (Z.of_N a - Z.of_N b)%Z.
Lemma diff_pre : preorder diff.
Proof. constructor; unfold diff; lia. Qed.
Lemma count_diff a b : a < W31 -> b < W31 -> compare_count a b = diff a b.
Proof.
  intros Ha Hb. unfold compare_count, diff. cbv zeta. rewrite (N.mod_small b) by (unfold W31, W64 in *; lia).
  destruct (N.le_gt_cases b a) as [H|H].
  - replace ((a + (W64 - b)) mod W32) with (a - b).
    + destruct (N.ltb_spec (a - b) W31) as [H1|H1]; unfold W31, W32 in *; lia.
    + apply (N.mod_unique _ _ 4294967296); unfold W31, W32, W64 in *; lia.
  - replace ((a + (W64 - b)) mod W32) with (W32 - (b - a)).
    + destruct (N.ltb_spec (W32 - (b - a)) W31) as [H1|H1]; unfold W31, W32 in *; lia.
    + apply (N.mod_unique _ _ 4294967295); unfold W31, W32, W64 in *; lia.
Qed.
Section Cong.
Variables c1 c2 : N -> N -> Z.
Lemma lub_cong k s : forall fuel x q L b c lub, tree_at (heap s) x q L b c -> (forall e, In e L -> c1 (snd e) k = c2 (snd e) k) ->
  lub_loop c1 fuel x k lub s = lub_loop c2 fuel x k lub s.
Proof.
  induction fuel as [|fuel IH]; intros x q L b c lub H HC; cbn [lub_loop]; [reflexivity|].
  destruct H as [q|x q l r kx L1 L2 b Hx E H1 H2|x q l r kx L1 L2 b d1 d2 Hx E H1 H2]; [reflexivity| |];
  rewrite (proj2 (N.eqb_neq _ _) Hx); unfold get_key, get_left, get_right, load, bind, ret; rewrite (proj2 (N.eqb_neq _ _) Hx), E; cbn [key left right];
  pose proof (HC (x, kx) (in_elt _ _ _)) as HE; cbn [snd] in HE; rewrite HE; destruct (c2 kx k =? 0)%Z; [reflexivity| |reflexivity|];
  (destruct (c2 kx k <? 0)%Z; rewrite ?(proj2 (N.eqb_neq _ _) Hx), ?E; cbn [left right];
   [eapply IH; [exact H2|intros e He; apply HC, in_or_app; right; now right]|eapply IH; [exact H1|intros e He; apply HC, in_or_app; now left]]).
Qed.
Lemma descend_cong xx nx s : xx <> 0 -> heap s xx = Some nx -> forall fuel x q L b c par d, tree_at (heap s) x q L b c -> (forall e, In e L -> c1 (snd e) (key nx) = c2 (snd e) (key nx)) ->
  ins_descend c1 fuel xx x par d s = ins_descend c2 fuel xx x par d s.
Proof.
  intros Hxx Enx. induction fuel as [|fuel IH]; intros x q L b c par d H HC; cbn [ins_descend]; [reflexivity|].
  destruct H as [q|x q l r kx L1 L2 b Hx E H1 H2|x q l r kx L1 L2 b d1 d2 Hx E H1 H2]; [reflexivity| |];
  rewrite (proj2 (N.eqb_neq _ _) Hx); unfold get_key, get_left, get_right, load, bind, ret; rewrite (proj2 (N.eqb_neq _ _) Hx), E, (proj2 (N.eqb_neq _ _) Hxx), Enx; cbn [key left right];
  pose proof (HC (x, kx) (in_elt _ _ _)) as HE; cbn [snd] in HE; rewrite HE;
  (destruct (0 <? c2 kx (key nx))%Z; rewrite ?(proj2 (N.eqb_neq _ _) Hx), ?E; cbn [left right];
   [eapply IH; [exact H1|intros e He; apply HC, in_or_app; now left]|eapply IH; [exact H2|intros e He; apply HC, in_or_app; right; now right]]).
Qed.
End Cong.
Lemma tree_frame h h' p q L b c : tree_at h p q L b c -> (forall o, In o (map fst L) -> h' o = h o) -> tree_at h' p q L b c.
Proof.
  induction 1 as [q|p q l r k L1 L2 b Hp E H1 IH1 H2 IH2|p q l r k L1 L2 b d1 d2 Hp E H1 IH1 H2 IH2]; intros HF.
  - constructor.
  - apply ta_red with (l := l) (r := r); [exact Hp|rewrite HF; [exact E|rewrite map_app; apply in_elt]|apply IH1|apply IH2];
      intros o Ho; apply HF; rewrite map_app, in_app_iff; [now left|right; now right].
  - eapply ta_black with (l := l) (r := r); [exact Hp|rewrite HF; [exact E|rewrite map_app; apply in_elt]|apply IH1|apply IH2];
      intros o Ho; apply HF; rewrite map_app, in_app_iff; [now left|right; now right].
Qed.
Lemma holds_frame r c h h' L : holds (mkSt r c h) L -> (forall e, In e L -> h' (fst e) = h (fst e)) -> holds (mkSt r c h') L.
Proof.
  intros ([b H] & HN & HF) He. split; [|now split]. exists b. cbn [root heap] in *. eapply tree_frame; [exact H|].
  intros o Ho. apply in_map_iff in Ho as (e & <- & Hin). now apply He.
Qed.
Lemma holds_key s L o k : holds s L -> In (o, k) L -> exists nd, heap s o = Some nd /\ key nd = k.
Proof.
  intros ([b H] & _). revert H. generalize (root s) 0 Black. intros r q c H. induction H as [q|p q l r k' L1 L2 b Hp E H1 IH1 H2 IH2|p q l r k' L1 L2 b c1 c2 Hp E H1 IH1 H2 IH2];
    intros Hin; [destruct Hin| |]; cbv beta in *; apply in_app_iff in Hin as [Hin|[Hin|Hin]]; try (now apply IH1); try (now apply IH2);
    injection Hin as <- <-; eexists; (split; [exact E|reflexivity]).
Qed.
Lemma find_lub_cong c1 c2 k s L fuel : holds s L -> (forall e, In e L -> c1 (snd e) k = c2 (snd e) k) ->
  rbt_find_lub c1 fuel k s = rbt_find_lub c2 fuel k s.
Proof. intros ([b H] & _) HC. unfold rbt_find_lub, get_root, bind. exact (lub_cong c1 c2 k s fuel _ _ _ _ _ 0 H HC). Qed.
Lemma ins_cong c1 c2 x nx s L fuel : holds s L -> x <> 0 -> heap s x = Some nx -> ~ In x (map fst L) -> (forall e, In e L -> c1 (snd e) (key nx) = c2 (snd e) (key nx)) ->
  rbt_ins c1 fuel x s = rbt_ins c2 fuel x s.
Proof.
  intros ([b H] & _) Hx HX Hni HC. assert (Ex : (x =? 0) = false) by now apply N.eqb_neq.
  assert (ST : forall f s n, heap s x = Some n -> store x f s = Some (tt, mkSt (root s) (card s) (upd (heap s) x (f n)))).
  { intros f s0 n Hn. unfold store. now rewrite Ex, Hn. }
  assert (UX : forall h n, upd h x n x = Some n) by (intros h n; unfold upd; now rewrite N.eqb_refl).
  assert (BD : forall A C (p : prog A) (k : A -> prog C) s0 a s1, p s0 = Some (a, s1) -> bind p k s0 = k a s1).
  { intros A C p k s0 a s1 Hp. unfold bind. now rewrite Hp. }
  unfold rbt_ins. rewrite !(BD _ _ _ _ _ _ _ (eq_refl : get_card s = Some (card s, s))).
  set (s1 := mkSt (root s) (card s + 1) (heap s)). rewrite !(BD _ _ _ _ _ _ _ (eq_refl : set_card (card s + 1) s = Some (tt, s1))).
  rewrite !(BD _ _ _ _ _ _ _ (ST _ s1 nx HX : set_right x 0 s1 = _)). set (s2 := mkSt _ _ _).
  rewrite !(BD _ _ _ _ _ _ _ (ST _ s2 _ (UX _ _) : set_left x 0 s2 = _)). set (s3 := mkSt _ _ _).
  rewrite !(BD _ _ _ _ _ _ _ (eq_refl : get_root s3 = Some (root s3, s3))). destruct (root s3 =? 0); [reflexivity|].
  rewrite !(BD _ _ _ _ _ _ _ (ST _ s3 _ (UX _ _) : set_color x Red s3 = _)). set (s4 := mkSt _ _ _).
  assert (E : ins_descend c1 fuel x (root s3) 0 0 s4 = ins_descend c2 fuel x (root s3) 0 0 s4).
  { eapply descend_cong; [exact Hx|apply UX| |].
    - cbn [s4 s3 s2 s1 heap root]. eapply tree_frame; [exact H|]. intros o Ho. unfold upd. destruct (N.eqb_spec o x) as [->|_]; [contradiction|reflexivity].
    - cbn [key]. exact HC. }
  unfold bind at 1. symmetry. unfold bind at 1. rewrite E. reflexivity.
Qed.

(** ** Programs on the region *)
Lemma mbind_eq {A B} (m : mprog A) (k : A -> mprog B) h a h' : m h = Some (a, h') -> mbind m k h = k a h'.
Proof. intros E. unfold mbind. now rewrite E. Qed.
Lemma on_size_eq {A} (m : prog A) h a s : m (mkSt (sroot h) (scard h) (mem h)) = Some (a, s) -> on_size m h = Some (a, put_size h s).
Proof. intros E. unfold on_size. now rewrite E. Qed.
Lemma on_addr_eq {A} (m : prog A) h a s : m (mkSt (aroot h) (acard h) (mem h)) = Some (a, s) -> on_addr m h = Some (a, put_addr h s).
Proof. intros E. unfold on_addr. now rewrite E. Qed.
Lemma key_of_eq a h n : a <> 0 -> mem h a = Some n -> key_of a h = Some (key n, h).
Proof.
  intros Ha E. unfold key_of, on_size, get_key, bind, load. cbn [heap]. rewrite (proj2 (N.eqb_neq _ _) Ha), E. cbn. now destruct h.
Qed.
Definition hput (h : mm) (a : N) (n : node) : mm := set_mem h (upd (mem h) a n).
Definition rekey (n : node) (k : N) : node := mkN (left n) (right n) (parent n) (col n) k.
Lemma set_key_eq a k h n : a <> 0 -> mem h a = Some n -> set_key a k h = Some (tt, hput h a (rekey n k)).
Proof.
  intros Ha E. unfold set_key, on_size, store. cbn [heap]. rewrite (proj2 (N.eqb_neq _ _) Ha), E. reflexivity.
Qed.

(** The fields the trees do not touch *)
Definition same_head (h h' : mm) : Prop := gbits h' = gbits h /\ grain h' = grain h /\ msize h' = msize h /\ start h' = start h /\ locked h' = locked h.
Definition same_keys (h h' : mm) : Prop := forall x, option_map key (mem h' x) = option_map key (mem h x).

(** ** The two trees *)
Section Trees.
Variables (at_ q hs T : N) (fuel : nat).
Hypothesis Hq : 1 <= q.
Hypothesis Hat : 0 < at_.
Hypothesis HT : T * (128 * q) <= hs.
Hypothesis Hwrap : at_ + hs <= W64.
Hypothesis HT31 : T < W31.
Hypothesis Hfuel : enough (S (N.to_nat T)) fuel.

Definition ao (i : N) : N := at_ + i * (128 * q).
Definition so (i : N) : N := at_ + i * (128 * q) + 40.
Definition anode (e : N * N) : N * N := (ao (fst e), ao (fst e)).
Definition snode (e : N * N) : N * N := (so (fst e), snd e).
Definition asc (F : list (N * N)) : Prop := StronglySorted (fun x y => fst x < fst y) F.
Record trees (h : mm) (F : list (N * N)) : Prop := mkTrees {
  tr_size : exists LS, holds (mkSt (sroot h) (scard h) (mem h)) LS /\ sorted diff LS /\ Permutation LS (map snode F);
  tr_addr : holds (mkSt (aroot h) (acard h) (mem h)) (map anode F);
  tr_asc : asc F;
  tr_in : Forall (fun e => fst e < T) F;
  tr_cnt : Forall (fun e => snd e <= T) F }.
Definition is_node (F : list (N * N)) (a : N) : Prop := exists e, In e F /\ (a = ao (fst e) \/ a = so (fst e)).

Lemma ao_so i j : ao i <> so j.
Proof using Hq. clear - Hq. unfold ao, so. assert (forall a b, at_ + a * (128 * b) = at_ + 128 * (a * b)) as R by (intros; lia). rewrite !R. generalize (i * q) (j * q). intros. lia. Qed.
Lemma ao_inj i j : ao i = ao j -> i = j.
Proof using Hq. clear - Hq. unfold ao. intros E. assert (i * (128 * q) = j * (128 * q)) as E' by lia. apply N.mul_cancel_r in E'; [exact E'|lia]. Qed.
Lemma so_inj i j : so i = so j -> i = j.
Proof using Hq. clear - Hq. unfold so. intros E. apply ao_inj. unfold ao. lia. Qed.
Lemma ao_mono i j : i < j -> ao i + 128 * q <= ao j.
Proof using Hq. clear - Hq. unfold ao. intros H. pose proof (N.mul_le_mono_r (i + 1) j (128 * q)). lia. Qed.
Lemma ao_lt_iff i j : ao i < ao j <-> i < j.
Proof using Hq. clear - Hq. unfold ao. rewrite (N.mul_lt_mono_pos_r (128 * q) i j) by lia. lia. Qed.
Lemma ao_bound i : i < T -> ao i + 128 * q <= at_ + hs.
Proof. intros H. apply ao_mono in H. unfold ao in *. lia. Qed.
Lemma ao_hs i : i < T -> ao i + 128 <= at_ + hs /\ so i + 88 <= at_ + hs.
Proof. intros H. apply ao_bound in H. unfold ao, so in *. lia. Qed.
Lemma ao_pos i : ao i <> 0. Proof. unfold ao. lia. Qed.
Lemma so_pos i : so i <> 0. Proof. unfold so. lia. Qed.

Lemma asc_app F1 e F2 : asc (F1 ++ e :: F2) <-> asc (F1 ++ F2) /\ Forall (fun y => fst y < fst e) F1 /\ Forall (fun y => fst e < fst y) F2.
Proof.
  unfold asc. induction F1 as [|y F1 IH]; cbn [app].
  - split.
    + intros H. apply StronglySorted_inv in H as [H1 H2]. split; [exact H1|]. split; [constructor|exact H2].
    + intros (H1 & _ & H2). now constructor.
  - split.
    + intros H. apply StronglySorted_inv in H as [H1 H2]. apply IH in H1 as (H3 & H4 & H5). apply Forall_app in H2 as [H6 H7]. apply Forall_cons_iff in H7 as [H7 H8].
      split; [constructor; [exact H3|apply Forall_app; now split]|]. split; [now constructor|exact H5].
    + intros (H1 & H2 & H3). apply StronglySorted_inv in H1 as [H4 H5]. apply Forall_cons_iff in H2 as [H2 H8]. apply Forall_app in H5 as [H6 H7].
      constructor; [apply IH; now repeat split|]. apply Forall_app. split; [exact H6|]. now constructor.
Qed.
Lemma asc_length : forall F b, asc F -> Forall (fun e => fst e < T) F -> Forall (fun e => b <= fst e) F -> b <= T -> (length F <= N.to_nat (T - b))%nat.
Proof.
  induction F as [|e F IH]; intros b H1 H2 H3 Hb; cbn [length]; [lia|].
  apply StronglySorted_inv in H1 as [H1 H4]. apply Forall_cons_iff in H2 as [H2 H6]. apply Forall_cons_iff in H3 as [H3 H7].
  specialize (IH (fst e + 1) H1 H6). enough (length F <= N.to_nat (T - (fst e + 1)))%nat by lia. apply IH; [|lia].
  eapply Forall_impl; [|exact H4]. cbv beta. intros. lia.
Qed.
Lemma trees_fuel h F : trees h F -> enough (S (length F)) fuel.
Proof.
  intros H. eapply enough_le; [|exact Hfuel]. apply le_n_S. pose proof (asc_length F 0 (tr_asc _ _ H) (tr_in _ _ H)) as HL.
  replace (T - 0) with T in HL by lia. apply HL; [|lia]. apply Forall_forall. intros. lia.
Qed.
Lemma trees_small h F e : trees h F -> In e F -> fst e < T.
Proof. intros H. apply (proj1 (Forall_forall _ _) (tr_in _ _ H)). Qed.

(** the cells of the nodes *)
Lemma trees_node h F i n : trees h F -> In (i, n) F ->
  (exists nd, mem h (so i) = Some nd /\ key nd = n) /\ (exists nd, mem h (ao i) = Some nd /\ key nd = ao i).
Proof.
  intros [(LS & H1 & _ & HP) H2 _ _ _] Hin. split.
  - apply (holds_key _ _ _ _ H1). eapply Permutation_in; [symmetry; exact HP|]. change (so i, n) with (snode (i, n)). now apply in_map.
  - apply (holds_key _ _ _ _ H2). change (ao i, ao i) with (anode (i, n)). now apply in_map.
Qed.

Lemma trees_frame h h' F : trees h F -> sroot h' = sroot h -> scard h' = scard h -> aroot h' = aroot h -> acard h' = acard h ->
  (forall a, is_node F a -> mem h' a = mem h a) -> trees h' F.
Proof.
  intros [(LS & H1 & H2 & HP) H3 H4 H5 H6] E1 E1' E2 E2' E3. constructor; [| |exact H4|exact H5|exact H6].
  - exists LS. split; [|now split]. rewrite E1, E1'. eapply holds_frame; [exact H1|]. intros e He. apply E3.
    eapply Permutation_in in He; [|exact HP]. apply in_map_iff in He as (e' & <- & He'). exists e'. split; [exact He'|]. now right.
  - rewrite E2, E2'. eapply holds_frame; [exact H3|]. intros e He. apply E3. apply in_map_iff in He as (e' & <- & He'). exists e'. split; [exact He'|]. now left.
Qed.

Lemma in_anodes F a : In a (map fst (map anode F)) -> exists e, In e F /\ a = ao (fst e).
Proof. rewrite map_map. intros H. apply in_map_iff in H as (e & <- & He). now exists e. Qed.
Lemma in_snodes F LS a : Permutation LS (map snode F) -> In a (map fst LS) -> exists e, In e F /\ a = so (fst e).
Proof.
  intros HP H. eapply Permutation_in in H; [|exact (Permutation_map fst HP)]. rewrite map_map in H. apply in_map_iff in H as (e & <- & He). now exists e.
Qed.

(** removing a chunk from both trees *)
Lemma ptr_so i : i < T -> add64 (ao i) SIZE_NODE = so i.
Proof. intros H. pose proof (ao_hs i H). unfold add64, SIZE_NODE. rewrite N.mod_small; unfold so, ao in *; lia. Qed.
Lemma t_del h F1 i n F2 : trees h (F1 ++ (i, n) :: F2) ->
  exists h', del_chunk fuel (ao i) h = Some (tt, h') /\
    trees h' (F1 ++ F2) /\ same_head h h' /\ same_keys h h' /\
    (forall a, ~ is_node (F1 ++ (i, n) :: F2) a -> mem h' a = mem h a).
Proof.
  intros H. pose proof (trees_fuel _ _ H) as Hf. assert (HiT : i < T) by exact (trees_small _ _ (i, n) H (in_elt _ _ _)).
  destruct H as [(LS & H1 & H2 & HP) H3 H4 H5 H6].
  assert (Hin : In (so i, n) LS) by (eapply Permutation_in; [symmetry; exact HP|]; change (so i, n) with (snode (i, n)); apply in_map, in_elt).
  apply in_split in Hin as (L1 & L2 & ->).
  assert (HP' : Permutation (L1 ++ L2) (map snode (F1 ++ F2))).
  { rewrite map_app in *. cbn [map] in HP. change (snode (i, n)) with (so i, n) in HP. now apply Permutation_app_inv in HP. }
  assert (HL : length (L1 ++ (so i, n) :: L2) = length (F1 ++ (i, n) :: F2)) by (rewrite (Permutation_length HP), map_length; reflexivity).
  destruct (holds_del _ L1 (so i) n L2 fuel H1) as (s1 & E1 & H1' & E1').
  { eapply enough_le; [|exact Hf]. rewrite HL. lia. }
  pose proof (keeps_del _ _ _ _ _ E1) as K1. cbn [heap] in *.
  set (h1 := put_size h s1).
  assert (EA : map anode (F1 ++ (i, n) :: F2) = map anode F1 ++ (ao i, ao i) :: map anode F2) by now rewrite map_app.
  assert (H3' : holds (mkSt (aroot h1) (acard h1) (mem h1)) (map anode F1 ++ (ao i, ao i) :: map anode F2)).
  { rewrite <- EA. eapply holds_frame; [exact H3|]. intros e He. apply E1'. intros He'. destruct (in_snodes _ _ _ HP He') as (y & _ & Ey).
    destruct (in_anodes _ _ (in_map fst _ _ He)) as (z & _ & Ez). rewrite Ez in Ey. exact (ao_so _ _ Ey). }
  destruct (holds_del _ _ _ _ _ fuel H3') as (s2 & E2 & H2' & E2').
  { eapply enough_le; [|exact Hf]. rewrite <- EA, map_length. lia. }
  pose proof (keeps_del _ _ _ _ _ E2) as K2. cbn [heap h1 put_size mem] in *.
  exists (put_addr h1 s2). split; [|split; [|split; [|split]]].
  - unfold del_chunk. rewrite ptr_so by exact HiT. rewrite (mbind_eq _ _ _ _ _ (on_size_eq _ _ _ _ E1)). exact (on_addr_eq _ h1 _ _ E2).
  - constructor; cbn [put_addr put_size h1 sroot scard aroot acard mem].
    + exists (L1 ++ L2). split; [|split; [now apply sorted_drop in H2|exact HP']].
      destruct s1 as [r1 k1 m1]. eapply holds_frame; [exact H1'|]. cbn [heap]. intros e He. apply E2'. rewrite <- EA. intros He'.
      destruct (in_anodes _ _ He') as (z & _ & Ez). destruct (in_snodes _ _ _ HP' (in_map fst _ _ He)) as (y & _ & Ey). rewrite Ez in Ey. exact (ao_so _ _ Ey).
    + rewrite map_app. destruct s2 as [r2 k2 m2]. exact H2'.
    + now apply asc_app in H4.
    + apply Forall_app in H5 as [H5 H7]. apply Forall_cons_iff in H7 as [_ H7]. apply Forall_app. now split.
    + apply Forall_app in H6 as [H6 H7]. apply Forall_cons_iff in H7 as [_ H7]. apply Forall_app. now split.
  - now repeat split.
  - intros x. cbn [put_addr put_size h1 mem]. now rewrite K2, K1.
  - intros a Ha. cbn [put_addr put_size h1 mem]. rewrite E2', E1'.
    + reflexivity.
    + intros He. destruct (in_snodes _ _ _ HP He) as (x & Hx & ->). apply Ha. exists x. split; [exact Hx|now right].
    + rewrite <- EA. intros He. destruct (in_anodes _ _ He) as (x & Hx & ->). apply Ha. exists x. split; [exact Hx|now left].
Qed.

Lemma anodes_sorted F : asc F -> sorted compare_addr (map anode F).
Proof.
  intros H. unfold sorted. unfold asc in H. induction H as [|e F H IH H5]; cbn [map]; constructor; [exact IH|].
  rewrite Forall_map. eapply Forall_impl; [|exact H5]. intros y Hy. cbn [anode snd]. apply cmpa_le. apply ao_lt_iff in Hy. lia.
Qed.
(** inserting a chunk into both trees *)
Definition ins_both (i : N) : mprog unit :=
  on_size (rbt_ins compare_count fuel (add64 (ao i) SIZE_NODE)) ;;- on_addr (rbt_ins compare_addr fuel (ao i)).
Lemma t_ins h F1 i n F2 na ns : trees h (F1 ++ F2) -> asc (F1 ++ (i, n) :: F2) -> i < T -> n <= T ->
  mem h (ao i) = Some na -> key na = ao i -> mem h (so i) = Some ns -> key ns = n ->
  exists h', ins_both i h = Some (tt, h') /\
    trees h' (F1 ++ (i, n) :: F2) /\ same_head h h' /\ same_keys h h' /\
    (forall a, ~ is_node (F1 ++ (i, n) :: F2) a -> mem h' a = mem h a).
Proof.
  intros H Ha Hi HnT Ea Ka Es Ks. pose proof (trees_fuel _ _ H) as Hf. destruct H as [(LS & H1 & H2 & HP) H3 H4 H5 H6].
  apply asc_app in Ha as Ha'. destruct Ha' as (_ & Hlo & Hhi).
  assert (Hni : ~ In i (map fst (F1 ++ F2))).
  { rewrite map_app, in_app_iff, !in_map_iff. intros [(e & <- & He)|(e & <- & He)].
    - apply (proj1 (Forall_forall _ _) Hlo) in He. cbn [fst] in He. lia.
    - apply (proj1 (Forall_forall _ _) Hhi) in He. cbn [fst] in He. lia. }
  assert (HL : length LS = length (F1 ++ F2)) by (rewrite (Permutation_length HP), map_length; reflexivity).
  assert (Hns : ~ In (so i) (map fst LS)).
  { intros He. destruct (in_snodes _ _ _ HP He) as (e & He' & E). apply so_inj in E. subst i. apply Hni. now apply in_map. }
  assert (Hna : ~ In (ao i) (map fst (map anode (F1 ++ F2)))).
  { intros He. destruct (in_anodes _ _ He) as (e & He' & E). apply ao_inj in E. subst i. apply Hni. now apply in_map. }
  destruct (holds_ins diff _ LS (so i) ns fuel H1 (so_pos i) Es Hns) as (s1 & L1 & L2 & E1 & -> & H1' & E1' & HO).
  { eapply enough_le; [|exact Hf]. lia. }
  rewrite <- (ins_cong compare_count diff (so i) ns _ _ fuel H1 (so_pos i) Es Hns) in E1.
  2: { intros e He. apply count_diff; [|rewrite Ks; lia]. eapply Permutation_in in He; [|exact HP]. apply in_map_iff in He as (x & <- & Hx). cbn [snode snd].
       apply (proj1 (Forall_forall _ _) H6) in Hx. lia. }
  pose proof (keeps_ins _ _ _ _ _ _ E1) as K1. cbn [heap] in *.
  destruct (HO diff_pre H2) as [HO1 HO2]. rewrite Ks in *. clear HO.
  set (h1 := put_size h s1).
  assert (H3' : holds (mkSt (aroot h1) (acard h1) (mem h1)) (map anode (F1 ++ F2))).
  { eapply holds_frame; [exact H3|]. intros e He. destruct (in_anodes _ _ (in_map fst _ _ He)) as (z & _ & Ez). rewrite Ez. apply E1'.
    - apply ao_so.
    - intros He'. destruct (in_snodes _ _ _ HP He') as (y & _ & Ey). exact (ao_so _ _ Ey). }
  destruct (holds_ins compare_addr (mkSt (aroot h1) (acard h1) (mem h1)) (map anode (F1 ++ F2)) (ao i) na fuel H3' (ao_pos i)) as (s2 & M1 & M2 & E2 & EM & H2' & E2' & HO).
  { cbn [heap h1 put_size mem]. rewrite E1'; [exact Ea|apply ao_so|]. intros He. destruct (in_snodes _ _ _ HP He) as (y & _ & Ey). exact (ao_so _ _ Ey). }
  { exact Hna. }
  { rewrite map_length. eapply enough_le; [|exact Hf]. lia. }
  pose proof (keeps_ins _ _ _ _ _ _ E2) as K2. cbn [heap h1 put_size mem] in *. rewrite Ka in *.
  destruct (HO cmpa_pre (anodes_sorted _ H4)) as [HO3 HO4].
  assert (EE : M1 ++ (ao i, ao i) :: M2 = map anode F1 ++ (ao i, ao i) :: map anode F2).
  { rewrite <- (place_eq compare_addr (ao i, ao i) M1 M2), <- (place_eq compare_addr (ao i, ao i) (map anode F1) (map anode F2)).
    - now rewrite <- EM, map_app.
    - rewrite Forall_map. eapply Forall_impl; [|exact Hlo]. intros y Hy. cbn [anode snd fst] in *. apply cmpa_le. apply ao_lt_iff in Hy. lia.
    - rewrite Forall_map. eapply Forall_impl; [|exact Hhi]. intros y Hy. cbn [anode snd fst] in *. apply cmpa_gt. now apply ao_lt_iff in Hy.
    - exact HO3.
    - exact HO4. }
  rewrite EE in H2'.
  assert (HPn : Permutation (L1 ++ (so i, n) :: L2) (map snode (F1 ++ (i, n) :: F2))).
  { rewrite map_app in *. cbn [map]. change (snode (i, n)) with (so i, n). rewrite <- !Permutation_middle. now constructor. }
  exists (put_addr h1 s2). split; [|split; [|split; [|split]]].
  - unfold ins_both. rewrite ptr_so by exact Hi. rewrite (mbind_eq _ _ _ _ _ (on_size_eq _ _ _ _ E1)). exact (on_addr_eq _ h1 _ _ E2).
  - constructor; cbn [put_addr put_size h1 sroot scard aroot acard mem].
    + exists (L1 ++ (so i, n) :: L2). split; [|split; [apply (sorted_join _ diff_pre); assumption|exact HPn]].
      destruct s1 as [r1 k1 m1]. eapply holds_frame; [exact H1'|]. cbn [heap]. intros e He.
      destruct (in_snodes _ _ _ HPn (in_map fst _ _ He)) as (y & _ & Ey). rewrite Ey. apply E2'.
      * intros E. symmetry in E. exact (ao_so _ _ E).
      * intros He'. destruct (in_anodes _ _ He') as (z & _ & Ez). symmetry in Ez. exact (ao_so _ _ Ez).
    + rewrite map_app. cbn [map]. change (anode (i, n)) with (ao i, ao i). destruct s2 as [r2 k2 m2]. exact H2'.
    + exact Ha.
    + apply Forall_app in H5 as [H5 H7]. apply Forall_app. split; [exact H5|now constructor].
    + apply Forall_app in H6 as [H6 H7]. apply Forall_app. split; [exact H6|now constructor].
  - now repeat split.
  - intros x. cbn [put_addr put_size h1 mem]. now rewrite K2, K1.
  - intros a Hna'. cbn [put_addr put_size h1 mem]. rewrite E2', E1'.
    + reflexivity.
    + intros ->. apply Hna'. exists (i, n). split; [apply in_elt|now right].
    + intros He. destruct (in_snodes _ _ _ HP He) as (x & Hx & ->). apply Hna'. exists x. split; [|now right].
      rewrite in_app_iff in *. cbn [In]. tauto.
    + intros ->. apply Hna'. exists (i, n). split; [apply in_elt|now left].
    + intros He. destruct (in_anodes _ _ He) as (x & Hx & ->). apply Hna'. exists x. split; [|now left].
      rewrite in_app_iff in *. cbn [In]. tauto.
Qed.

(** ** Chunks *)
Notation chunk := (N * N * bool)%type (only parsing).
Fixpoint frees (C : list chunk) : list (N * N) :=
  match C with [] => [] | (e, u) :: C => if u then frees C else e :: frees C end.
Fixpoint tiles (s : N) (C : list chunk) (e : N) : Prop :=
  match C with [] => s = e | (i, n, _) :: C => i = s /\ 1 <= n /\ tiles (s + n) C e end.
Fixpoint calm (prev : bool) (C : list chunk) : Prop :=
  match C with [] => True | (_, u) :: C => (prev = true \/ u = true) /\ calm u C end.
Fixpoint lastu (b : bool) (C : list chunk) : bool := match C with [] => b | (_, u) :: C => lastu u C end.
Lemma frees_app C1 C2 : frees (C1 ++ C2) = frees C1 ++ frees C2.
Proof. induction C1 as [|[e u] C1 IH]; [reflexivity|]. cbn [app frees]. destruct u; [exact IH|]. cbn [app]. now rewrite IH. Qed.
Lemma in_frees C e : In e (frees C) <-> In (e, false) C.
Proof.
  induction C as [|[e' u] C IH]; [reflexivity|]. cbn [frees In]. destruct u; cbn [In]; rewrite IH.
  - split; [now right|]. intros [E|E]; [discriminate|exact E].
  - split; intros [E|E]; try (now right); left; [now subst|now injection E].
Qed.
Lemma tiles_app C1 C2 : forall s e, tiles s (C1 ++ C2) e <-> exists m, tiles s C1 m /\ tiles m C2 e.
Proof.
  induction C1 as [|[[i n] u] C1 IH]; intros s e; cbn [app tiles].
  - split; [intros H; now exists s|]. now intros (m & -> & H).
  - rewrite IH. split.
    + intros (H1 & H2 & m & H3 & H4). exists m. now repeat split.
    + intros (m & (H1 & H2 & H3) & H4). split; [exact H1|]. split; [exact H2|]. now exists m.
Qed.
Lemma tiles_le C : forall s e, tiles s C e -> s <= e.
Proof. induction C as [|[[i n] u] C IH]; intros s e; cbn [tiles]; [lia|]. intros (_ & H1 & H2). apply IH in H2. lia. Qed.
Lemma tiles_in C : forall s e i n u, tiles s C e -> In (i, n, u) C -> s <= i /\ 1 <= n /\ i + n <= e.
Proof.
  induction C as [|[[j m] v] C IH]; intros s e i n u H Hin; [destruct Hin|]. cbn [tiles] in H. destruct Hin as [E|Hin].
  - injection E as -> -> ->. destruct H as (-> & H1 & H2). apply tiles_le in H2. lia.
  - destruct H as (-> & H1 & H2). destruct (IH _ _ _ _ _ H2 Hin). lia.
Qed.
Lemma tiles_two C s e i n u j m v : tiles s C e -> In (i, n, u) C -> In (j, m, v) C -> (i, n, u) = (j, m, v) \/ i + n <= j \/ j + m <= i.
Proof.
  revert s. induction C as [|[[k l] w] C IH]; intros s H H1 H2; [destruct H1|]. cbn [tiles] in H. destruct H as (-> & H3 & H4).
  destruct H1 as [E1|H1], H2 as [E2|H2].
  - left. now rewrite <- E1, <- E2.
  - injection E1 as -> -> ->. right. left. destruct (tiles_in _ _ _ _ _ _ H4 H2). lia.
  - injection E2 as -> -> ->. right. right. destruct (tiles_in _ _ _ _ _ _ H4 H1). lia.
  - exact (IH _ H4 H1 H2).
Qed.
Lemma tiles_asc C : forall s e, tiles s C e -> asc (frees C) /\ Forall (fun x => s <= fst x) (frees C).
Proof.
  induction C as [|[[i n] u] C IH]; intros s e H; cbn [frees tiles] in *; [now repeat constructor|].
  destruct H as (-> & H1 & H2). destruct (IH _ _ H2) as [H3 H4]. destruct u.
  - split; [exact H3|]. eapply Forall_impl; [|exact H4]. cbv beta. lia.
  - split; [constructor; [exact H3|]|constructor; [cbn; lia|]]; (eapply Forall_impl; [|exact H4]); cbv beta; cbn [fst]; lia.
Qed.
Lemma calm_app C1 C2 : forall b, calm b (C1 ++ C2) <-> calm b C1 /\ calm (lastu b C1) C2.
Proof. induction C1 as [|[e u] C1 IH]; intros b; cbn [app calm lastu]; [tauto|]. rewrite IH. tauto. Qed.
Lemma lastu_app C1 C2 : forall b, lastu b (C1 ++ C2) = lastu (lastu b C1) C2.
Proof. induction C1 as [|[e u] C1 IH]; intros b; cbn [app lastu]; [reflexivity|]. apply IH. Qed.
Lemma calm_weak C : forall b, calm b C -> calm true C.
Proof. destruct C as [|[e u] C]; [now cbn|]. intros b [_ H]. split; [now left|exact H]. Qed.

Variable bits : N.
Hypothesis Hbits : 2 ^ bits = 128 * q.

Definition solid (h : mm) : Prop := forall i, i < T -> mem h (ao i) <> None /\ mem h (so i) <> None.
Definition head (lk : bool) (h : mm) : Prop := gbits h = bits /\ grain h = 128 * q /\ msize h = hs /\ start h = at_ /\ locked h = lk.
(** the prefix of a chunk that is in no tree *)
Definition used (h : mm) (i n : N) : Prop :=
  (exists nd, mem h (so i) = Some nd /\ key nd = n) /\ (exists nd, mem h (ao i) = Some nd /\ key nd = ao i).
Definition within (i n a : N) : Prop := ao i <= a < ao i + n * (128 * q).
Record inv (lk : bool) (h : mm) (C : list chunk) : Prop := mkInv {
  in_head : head lk h;
  in_tiles : tiles 0 C T;
  in_calm : calm true C;
  in_trees : trees h (frees C);
  in_used : forall i n, In (i, n, true) C -> used h i n;
  in_solid : solid h }.
(** a chunk is missing *)
Record hole (lk : bool) (h : mm) (C1 : list chunk) (i n : N) (C2 : list chunk) : Prop := mkHole {
  ho_head : head lk h;
  ho_left : tiles 0 C1 i; ho_pos : 1 <= n; ho_right : tiles (i + n) C2 T;
  ho_calm1 : calm true C1; ho_calm2 : calm true C2;
  ho_trees : trees h (frees C1 ++ frees C2);
  ho_used : forall j m, In (j, m, true) (C1 ++ C2) -> used h j m;
  ho_solid : solid h }.

Lemma head_same lk h h' : same_head h h' -> head lk h -> head lk h'.
Proof. unfold same_head, head. intros (? & ? & ? & ? & ?) (? & ? & ? & ? & ?). repeat split; congruence. Qed.
Lemma same_trans h h' h'' : same_head h h' -> same_head h' h'' -> same_head h h''.
Proof. unfold same_head. intros (? & ? & ? & ? & ?) (? & ? & ? & ? & ?). repeat split; congruence. Qed.
Lemma same_put h a n : same_head h (hput h a n).
Proof. now repeat split. Qed.
Lemma cell_ao h i : solid h -> i < T -> exists nd, mem h (ao i) = Some nd.
Proof. intros H Hi. destruct (mem h (ao i)) as [nd|] eqn:E; [now exists nd|]. now destruct (H i Hi). Qed.
Lemma cell_so h i : solid h -> i < T -> exists nd, mem h (so i) = Some nd.
Proof. intros H Hi. destruct (mem h (so i)) as [nd|] eqn:E; [now exists nd|]. now destruct (H i Hi). Qed.
Lemma solid_keys h h' : solid h -> same_keys h h' -> solid h'.
Proof.
  intros H K i Hi. destruct (H i Hi) as [H1 H2]. pose proof (K (ao i)) as K1. pose proof (K (so i)) as K2.
  split; intros E; [rewrite E in K1; now destruct (mem h (ao i))|rewrite E in K2; now destruct (mem h (so i))].
Qed.
Lemma put_eq h a n : mem (hput h a n) a = Some n.
Proof. unfold hput, set_mem, upd. cbn [mem]. now rewrite N.eqb_refl. Qed.
Lemma put_ne h a n x : x <> a -> mem (hput h a n) x = mem h x.
Proof. intros H. unfold hput, set_mem, upd. cbn [mem]. now rewrite (proj2 (N.eqb_neq _ _) H). Qed.
Lemma solid_put h a n : solid h -> solid (hput h a n).
Proof.
  intros H i Hi. destruct (H i Hi) as [H1 H2]. unfold hput, set_mem, upd. cbn [mem].
  split; [destruct (ao i =? a)|destruct (so i =? a)]; congruence.
Qed.
Lemma trees_put h F a n : trees h F -> ~ is_node F a -> trees (hput h a n) F.
Proof.
  intros H Ha. apply (trees_frame h); [exact H|reflexivity|reflexivity|reflexivity|reflexivity|]. intros x Hx. unfold hput, set_mem, upd. cbn [mem].
  destruct (N.eqb_spec x a) as [->|_]; [contradiction|reflexivity].
Qed.
Lemma within_ao i n : 1 <= n -> within i n (ao i).
Proof. intros H. pose proof (N.mul_le_mono_r 1 n (128 * q) H). unfold within. lia. Qed.
Lemma within_so i n : 1 <= n -> within i n (so i).
Proof. intros H. pose proof (N.mul_le_mono_r 1 n (128 * q) H). unfold within, so, ao in *. lia. Qed.
Lemma within_sub i n j m a : i <= j -> j + m <= i + n -> within j m a -> within i n a.
Proof.
  unfold within, ao. intros H1 H2 H3. pose proof (N.mul_le_mono_r _ _ (128 * q) H1). pose proof (N.mul_le_mono_r _ _ (128 * q) H2). lia.
Qed.
Lemma node_in_chunk C s e a : tiles s C e -> is_node (frees C) a -> exists i n, In (i, n, false) C /\ within i n a.
Proof.
  intros HTl ([i n] & Hin & Ha). cbn [fst] in Ha. apply in_frees in Hin. exists i, n. split; [exact Hin|].
  destruct (tiles_in _ _ _ _ _ _ HTl Hin) as (_ & Hn & _). destruct Ha as [->| ->]; [now apply within_ao|now apply within_so].
Qed.
Lemma blocks_apart i n j m a : i + n <= j \/ j + m <= i -> within i n a -> within j m a -> False.
Proof.
  unfold within, ao. intros [H|H] H1 H2; [pose proof (N.mul_le_mono_r _ _ (128 * q) H)|pose proof (N.mul_le_mono_r _ _ (128 * q) H)]; lia.
Qed.
Lemma used_not_node C i n a : tiles 0 C T -> In (i, n, true) C -> within i n a -> ~ is_node (frees C) a.
Proof.
  intros HTl Hin Ha Hn. destruct (node_in_chunk _ _ _ _ HTl Hn) as (j & m & Hj & Hm).
  destruct (tiles_two _ _ _ _ _ _ _ _ _ HTl Hin Hj) as [E|E]; [discriminate|]. exact (blocks_apart _ _ _ _ _ E Ha Hm).
Qed.
Lemma used_frame h h' i n : used h i n -> mem h' (so i) = mem h (so i) -> mem h' (ao i) = mem h (ao i) -> used h' i n.
Proof. unfold used. now intros H -> ->. Qed.
Lemma used_keys h h' i n : used h i n -> same_keys h h' -> used h' i n.
Proof.
  intros [(a & Ea & Ka) (b & Eb & Kb)] K. pose proof (K (so i)) as K1. pose proof (K (ao i)) as K2. rewrite Ea in K1. rewrite Eb in K2. split.
  - destruct (mem h' (so i)) as [x|]; [|discriminate]. exists x. split; [reflexivity|]. cbn in K1. injection K1. congruence.
  - destruct (mem h' (ao i)) as [x|]; [|discriminate]. exists x. split; [reflexivity|]. cbn in K2. injection K2. congruence.
Qed.

(** Arithmetic on pointers into the region *)
Lemma sub_ptr i x : i < T -> x <= 128 -> sub64 (ao i + x) x = ao i.
Proof.
  intros H1 H2. pose proof (ao_hs i H1). unfold sub64, W64 in *. rewrite (N.mod_small x) by lia.
  replace (ao i + x + (18446744073709551616 - x)) with (ao i + 1 * 18446744073709551616) by lia.
  rewrite N.mod_add by lia. apply N.mod_small. lia.
Qed.
Lemma ptr_so' i : i < T -> sub64 (so i) SIZE_NODE = ao i.
Proof. intros H. change (so i) with (ao i + SIZE_NODE). apply sub_ptr; [exact H|unfold SIZE_NODE; lia]. Qed.
Lemma add_ptr i x : i < T -> x < 128 -> add64 (ao i) x = ao i + x.
Proof. intros H1 H2. pose proof (ao_hs i H1). unfold add64. apply N.mod_small. lia. Qed.
Lemma shl_bits n : n <= T -> shl64 n bits = n * (128 * q).
Proof.
  intros H. unfold shl64. rewrite N.shiftl_mul_pow2, Hbits. apply N.mod_small. pose proof (N.mul_le_mono_r _ _ (128 * q) H). lia.
Qed.
Lemma sub_small a b : b <= a -> a <= T -> sub64 a b = a - b.
Proof.
  intros H1 H2. assert (a < W64) by (unfold W64, W31 in *; lia). unfold sub64, W64 in *. rewrite (N.mod_small b) by lia.
  replace (a + (18446744073709551616 - b)) with ((a - b) + 1 * 18446744073709551616) by lia. rewrite N.mod_add by lia. apply N.mod_small. lia.
Qed.
Lemma add_small a b : a + b <= T -> add64 a b = a + b.
Proof. intros H. unfold add64. apply N.mod_small. unfold W64, W31 in *. lia. Qed.
Lemma end_of k l : k + l < T -> add64 (ao k) (shl64 l bits) = ao (k + l).
Proof.
  intros H. rewrite shl_bits by lia. pose proof (ao_hs (k + l) H). unfold add64. unfold ao in *. rewrite N.mod_small by lia. lia.
Qed.
(** the end of the last chunk may be the end of the address space *)
Lemma end_hit k l j : 1 <= l -> k + l <= T -> j < T -> (add64 (ao k) (shl64 l bits) =? ao j) = (k + l =? j).
Proof.
  intros H0 H1 H2. destruct (N.eq_dec (k + l) T) as [E|E].
  - rewrite (proj2 (N.eqb_neq (k + l) j)) by lia. apply N.eqb_neq. rewrite shl_bits by lia. pose proof (ao_hs j H2). unfold add64.
    assert (Ex : ao k + l * (128 * q) = ao T) by (rewrite <- E; unfold ao; lia). rewrite Ex.
    pose proof (ao_mono j T H2). assert (Hle : ao T <= W64) by (unfold ao; lia).
    destruct (N.eq_dec (ao T) W64) as [E2|E2].
    + rewrite E2, N.mod_same by discriminate. pose proof (ao_pos j). lia.
    + rewrite N.mod_small by lia. lia.
  - rewrite end_of by lia. destruct (N.eqb_spec (k + l) j) as [->|Hne]; [apply N.eqb_refl|]. apply N.eqb_neq. intros Ex. apply ao_inj in Ex. lia.
Qed.
Lemma find_glb_eq h F k : trees h F -> exists r, on_addr (rbt_find_glb compare_addr fuel k) h = Some (r, h) /\ is_glb compare_addr (map anode F) k r.
Proof.
  intros H. pose proof (trees_fuel _ _ H) as Hf. destruct H as [_ H1 H2 _ _].
  destruct (holds_glb compare_addr _ (map anode F) k fuel cmpa_pre H1 (anodes_sorted _ H2)) as (r & E & Hr).
  { rewrite map_length. eapply enough_le; [|exact Hf]. lia. }
  exists r. split; [|exact Hr]. rewrite (on_addr_eq _ _ _ _ E). now destruct h.
Qed.
Lemma find_lub_eq h F k : trees h F -> exists r, on_addr (rbt_find_lub compare_addr fuel k) h = Some (r, h) /\ is_lub compare_addr (map anode F) k r.
Proof.
  intros H. pose proof (trees_fuel _ _ H) as Hf. destruct H as [_ H1 H2 _ _].
  destruct (holds_lub compare_addr _ (map anode F) k fuel cmpa_pre H1 (anodes_sorted _ H2)) as (r & E & Hr).
  { rewrite map_length. eapply enough_le; [|exact Hf]. lia. }
  exists r. split; [|exact Hr]. rewrite (on_addr_eq _ _ _ _ E). now destruct h.
Qed.
Lemma find_size_eq h F k : trees h F -> k < W31 -> exists r, on_size (rbt_find_lub compare_count fuel k) h = Some (r, h) /\
  ((r = 0 /\ forall i n, In (i, n) F -> n < k) \/
   exists i n, In (i, n) F /\ r = so i /\ k <= n /\ forall j m, In (j, m) F -> k <= m -> n <= m).
Proof.
  intros H Hk. pose proof (trees_fuel _ _ H) as Hf. destruct H as [(LS & H1 & H2 & HP) _ _ _ H6].
  assert (HL : length LS = length F) by (rewrite (Permutation_length HP), map_length; reflexivity).
  destruct (holds_lub diff _ LS k fuel diff_pre H1 H2) as (r & E & Hr).
  { eapply enough_le; [|exact Hf]. lia. }
  rewrite <- (find_lub_cong compare_count diff k _ _ fuel H1) in E.
  2: { intros e He. apply count_diff; [|exact Hk]. eapply Permutation_in in He; [|exact HP]. apply in_map_iff in He as (x & <- & Hx). cbn [snode snd].
       apply (proj1 (Forall_forall _ _) H6) in Hx. lia. }
  exists r. split; [rewrite (on_size_eq _ _ _ _ E); now destruct h|].
  assert (Hall : forall i n, In (i, n) F -> In (so i, n) LS).
  { intros i n Hi. eapply Permutation_in; [symmetry; exact HP|]. change (so i, n) with (snode (i, n)). now apply in_map. }
  destruct Hr as [[-> Hr]|(kr & Hin & Hle & Hr)].
  - left. split; [reflexivity|]. intros i n Hi. specialize (Hr _ (Hall _ _ Hi)). cbn [snd] in Hr. unfold diff in Hr. lia.
  - right. eapply Permutation_in in Hin; [|exact HP]. apply in_map_iff in Hin as ([i n] & E2 & Hin). unfold snode in E2. cbn [fst snd] in E2.
    injection E2 as <- <-. exists i, n. split; [exact Hin|]. split; [reflexivity|]. unfold diff in *. split; [lia|].
    intros j m Hj Hm. specialize (Hr _ (Hall _ _ Hj)). cbn [snd] in Hr. lia.
Qed.

(** ** Cutting and filling holes *)
Definition same_used (h h' : mm) (C : list chunk) : Prop := forall a j m, In (j, m, true) C -> within j m a -> mem h' a = mem h a.
Lemma hole_tiles lk h C1 i n C2 u : hole lk h C1 i n C2 -> tiles 0 (C1 ++ (i, n, u) :: C2) T.
Proof. intros H. apply tiles_app. exists i. split; [exact (ho_left _ _ _ _ _ _ H)|]. cbn [tiles]. split; [reflexivity|]. split; [exact (ho_pos _ _ _ _ _ _ H)|exact (ho_right _ _ _ _ _ _ H)]. Qed.
Lemma hole_T lk h C1 i n C2 : hole lk h C1 i n C2 -> i + n <= T.
Proof. intros H. exact (tiles_le _ _ _ (ho_right _ _ _ _ _ _ H)). Qed.
Lemma hole_fresh lk h C1 i n C2 a : hole lk h C1 i n C2 -> within i n a -> ~ is_node (frees C1 ++ frees C2) a.
Proof.
  intros H Ha. pose proof (used_not_node _ i n a (hole_tiles _ _ _ _ _ _ true H) (in_elt _ _ _) Ha) as HH. rewrite frees_app in HH. exact HH.
Qed.
Lemma hole_away lk h C1 i n C2 j m u a : hole lk h C1 i n C2 -> In (j, m, u) (C1 ++ C2) -> within j m a -> ~ within i n a.
Proof.
  intros H Hj Ha Hi. apply in_app_iff in Hj as [Hj|Hj].
  - destruct (tiles_in _ _ _ _ _ _ (ho_left _ _ _ _ _ _ H) Hj) as (_ & _ & Hx). apply (blocks_apart j m i n a); [lia|exact Ha|exact Hi].
  - destruct (tiles_in _ _ _ _ _ _ (ho_right _ _ _ _ _ _ H) Hj) as (Hx & _ & _). apply (blocks_apart j m i n a); [lia|exact Ha|exact Hi].
Qed.
Lemma hole_pos lk h C1 i n C2 j m u : hole lk h C1 i n C2 -> In (j, m, u) (C1 ++ C2) -> 1 <= m.
Proof.
  intros H Hj. apply in_app_iff in Hj as [Hj|Hj].
  - now destruct (tiles_in _ _ _ _ _ _ (ho_left _ _ _ _ _ _ H) Hj).
  - now destruct (tiles_in _ _ _ _ _ _ (ho_right _ _ _ _ _ _ H) Hj).
Qed.
Lemma hole_not_node lk h C1 i n C2 j m a : hole lk h C1 i n C2 -> In (j, m, true) (C1 ++ C2) -> within j m a -> ~ is_node (frees C1 ++ frees C2) a.
Proof.
  intros H Hj Ha. assert (Hin : In (j, m, true) (C1 ++ (i, n, true) :: C2)) by (rewrite in_app_iff in *; cbn [In]; tauto).
  pose proof (used_not_node _ j m a (hole_tiles _ _ _ _ _ _ true H) Hin Ha) as HH. rewrite frees_app in HH. exact HH.
Qed.
(** a cell of the hole is written *)
Lemma hole_put lk h C1 i n C2 a nd : hole lk h C1 i n C2 -> within i n a -> hole lk (hput h a nd) C1 i n C2.
Proof.
  intros H Ha. pose proof (hole_away lk h C1 i n C2) as HA. constructor; try apply H.
  - apply trees_put; [apply H|]. now apply (hole_fresh _ _ _ _ _ _ _ H).
  - intros j m Hj. pose proof (hole_pos _ _ _ _ _ _ _ _ _ H Hj) as Hm. apply (used_frame h); [now apply (ho_used _ _ _ _ _ _ H)|apply put_ne|apply put_ne]; intros <-.
    + exact (HA _ _ _ _ H Hj (within_so j m Hm) Ha).
    + exact (HA _ _ _ _ H Hj (within_ao j m Hm) Ha).
  - apply solid_put, H.
Qed.
Lemma hole_fill lk h C1 i n C2 : hole lk h C1 i n C2 -> used h i n -> inv lk h (C1 ++ (i, n, true) :: C2).
Proof.
  intros H Hu. constructor.
  - apply H.
  - exact (hole_tiles _ _ _ _ _ _ true H).
  - apply calm_app. split; [apply H|]. cbn [calm]. split; [now right|]. apply H.
  - rewrite frees_app. cbn [frees]. apply H.
  - intros j m Hj. apply in_app_iff in Hj as [Hj|[Hj|Hj]].
    + apply (ho_used _ _ _ _ _ _ H). apply in_app_iff. now left.
    + injection Hj as <- <-. exact Hu.
    + apply (ho_used _ _ _ _ _ _ H). apply in_app_iff. now right.
  - apply H.
Qed.
Lemma hole_cut lk h C1 i n C2 : inv lk h (C1 ++ (i, n, true) :: C2) -> hole lk h C1 i n C2 /\ used h i n.
Proof.
  intros H. pose proof (in_tiles _ _ _ H) as HTl. apply tiles_app in HTl as (m0 & HT_1 & HT_2). cbn [tiles] in HT_2. destruct HT_2 as (<- & Hn & HT_2).
  pose proof (in_calm _ _ _ H) as HC. apply calm_app in HC as [HC1 HC2]. cbn [calm] in HC2. destruct HC2 as [_ HC2].
  split; [|apply (in_used _ _ _ H), in_elt]. constructor; try assumption; try apply H.
  - pose proof (in_trees _ _ _ H) as HTr. rewrite frees_app in HTr. exact HTr.
  - intros j m Hj. apply (in_used _ _ _ H). rewrite in_app_iff in *. cbn [In]. tauto.
Qed.
(** a free chunk is taken out of the trees *)
Lemma del_hole lk h C1 i n C2 : inv lk h (C1 ++ (i, n, false) :: C2) ->
  exists h', del_chunk fuel (ao i) h = Some (tt, h') /\ hole lk h' C1 i n C2 /\ calm false C2 /\ lastu true C1 = true /\ used h' i n /\ same_used h h' (C1 ++ C2).
Proof.
  intros H. pose proof (in_tiles _ _ _ H) as HTl. apply tiles_app in HTl as (m0 & HT_1 & HT_2). cbn [tiles] in HT_2. destruct HT_2 as (<- & Hn & HT_2).
  pose proof (in_calm _ _ _ H) as HC. apply calm_app in HC as [HC1 HC2]. cbn [calm] in HC2. destruct HC2 as [HC3 HC2].
  pose proof (in_trees _ _ _ H) as HTr. rewrite frees_app in HTr. cbn [frees] in HTr.
  destruct (t_del _ _ _ _ _ HTr) as (h1 & E1 & HT1 & HH1 & K1 & F1).
  exists h1. split; [exact E1|]. split; [constructor|split; [|split; [|split]]].
  - exact (head_same _ _ _ HH1 (in_head _ _ _ H)).
  - exact HT_1.
  - exact Hn.
  - exact HT_2.
  - exact HC1.
  - now apply calm_weak in HC2.
  - exact HT1.
  - intros j m Hj. apply (used_keys h); [|exact K1]. apply (in_used _ _ _ H). rewrite in_app_iff in *. cbn [In]. tauto.
  - exact (solid_keys _ _ (in_solid _ _ _ H) K1).
  - exact HC2.
  - destruct HC3 as [HC3|HC3]; [exact HC3|discriminate].
  - apply (used_keys h); [|exact K1]. exact (trees_node _ _ _ _ HTr (in_elt _ _ _)).
  - intros a j m Hj Ha. apply F1. assert (Hj' : In (j, m, true) (C1 ++ (i, n, false) :: C2)) by (rewrite in_app_iff in *; cbn [In]; tauto).
    pose proof (used_not_node _ _ _ _ (in_tiles _ _ _ H) Hj' Ha) as HN. rewrite frees_app in HN. exact HN.
Qed.
(** the end of a hole becomes a free chunk *)
Lemma carve_ok lk h C1 i n C2 cnt : hole lk h C1 i n C2 -> calm false C2 -> 1 <= cnt -> cnt <= n ->
  exists h', (if n - cnt =? 0 then mret tt else add_chunk fuel (add64 (ao i) (shl64 cnt bits)) (n - cnt)) h = Some (tt, h') /\
    hole lk h' C1 i cnt (if n =? cnt then C2 else (i + cnt, n - cnt, false) :: C2) /\ same_used h h' (C1 ++ (i, cnt, true) :: C2).
Proof.
  intros H Hc H1 H2. pose proof (hole_T _ _ _ _ _ _ H) as HinT.
  destruct (N.eqb_spec (n - cnt) 0) as [E0|E0]; [rewrite (proj2 (N.eqb_eq n cnt)) by lia|rewrite (proj2 (N.eqb_neq n cnt)) by lia].
  { exists h. split; [reflexivity|]. assert (n = cnt) as <- by lia. split; [exact H|]. now intros a j m _ _. }
  set (j := i + cnt). assert (HjT : j < T) by (unfold j; lia). rewrite end_of by lia. fold j.
  assert (Wj : forall a, within j (n - cnt) a -> within i n a) by (intros a; apply within_sub; unfold j; lia).
  assert (Wa : within i n (ao j)) by (apply Wj, within_ao; lia). assert (Ws : within i n (so j)) by (apply Wj, within_so; lia).
  destruct (cell_so h j (ho_solid _ _ _ _ _ _ H) HjT) as (cs & Ecs).
  set (h1 := hput h (so j) (rekey cs (n - cnt))).
  assert (HL1 : hole lk h1 C1 i n C2) by now apply hole_put.
  destruct (cell_ao h1 j (ho_solid _ _ _ _ _ _ HL1) HjT) as (ca & Eca).
  set (h2 := hput h1 (ao j) (rekey ca (ao j))).
  assert (HL2 : hole lk h2 C1 i n C2) by now apply hole_put.
  set (C2' := (j, n - cnt, false) :: C2).
  assert (HTl' : tiles 0 (C1 ++ (i, cnt, true) :: C2') T).
  { apply tiles_app. exists i. split; [apply H|]. cbn [tiles C2']. fold j. replace (j + (n - cnt)) with (i + n) by (unfold j; lia).
    split; [reflexivity|]. split; [exact H1|]. split; [reflexivity|]. split; [lia|]. apply H. }
  destruct (tiles_asc _ _ _ HTl') as [Hasc _]. rewrite frees_app in Hasc. cbn [frees C2'] in Hasc.
  destruct (t_ins h2 (frees C1) j (n - cnt) (frees C2) (rekey ca (ao j)) (rekey cs (n - cnt)) (ho_trees _ _ _ _ _ _ HL2) Hasc HjT) as (h3 & E3 & HT3 & HH3 & K3 & F3).
  { lia. } { apply put_eq. } { reflexivity. }
  { unfold h2. rewrite put_ne by (pose proof (ao_so j j); lia). apply put_eq. } { reflexivity. }
  assert (HTc : tiles j C2' T).
  { cbn [tiles C2']. replace (j + (n - cnt)) with (i + n) by (unfold j; lia). split; [reflexivity|]. split; [lia|]. apply H. }
  exists h3. split; [|split; [constructor|]].
  - unfold add_chunk. rewrite ptr_so by exact HjT. rewrite (mbind_eq _ _ _ _ _ (set_key_eq _ _ _ _ (so_pos j) Ecs)). fold h1.
    rewrite (mbind_eq _ _ _ _ _ (set_key_eq _ _ _ _ (ao_pos j) Eca)). fold h2. unfold ins_both in E3. rewrite ptr_so in E3 by exact HjT. exact E3.
  - apply (head_same _ h2); [exact HH3|]. apply HL2.
  - apply H.
  - exact H1.
  - fold j. exact HTc.
  - apply H.
  - cbn [calm C2']. split; [now left|exact Hc].
  - cbn [frees C2']. exact HT3.
  - intros k l Hk. assert (Hk' : In (k, l, true) (C1 ++ C2)).
    { rewrite in_app_iff in *. cbn [In C2'] in Hk. destruct Hk as [Hk|[Hk|Hk]]; [tauto|discriminate|tauto]. }
    apply (used_keys h2); [|exact K3]. now apply (ho_used _ _ _ _ _ _ HL2).
  - apply (solid_keys h2); [apply HL2|exact K3].
  - intros a k l Hk Ha. assert (Hk' : In (k, l, true) (C1 ++ (i, cnt, true) :: C2')).
    { rewrite in_app_iff in *. cbn [In C2'] in *. tauto. }
    rewrite F3.
    2: { pose proof (used_not_node _ _ _ _ HTl' Hk' Ha) as HN. rewrite frees_app in HN. exact HN. }
    assert (Hna : ~ within j (n - cnt) a).
    { intros Hw. assert (Hjin : In (j, n - cnt, false) (C1 ++ (i, cnt, true) :: C2')) by (rewrite in_app_iff; cbn [In C2']; tauto).
      destruct (tiles_two _ _ _ _ _ _ _ _ _ HTl' Hk' Hjin) as [E|E]; [discriminate|]. exact (blocks_apart _ _ _ _ _ E Ha Hw). }
    unfold h2, h1. rewrite !put_ne; [reflexivity|..]; intros ->; apply Hna; [apply within_so|apply within_ao]; lia.
Qed.

(** ** The lock *)
Lemma lock_inv lk lk' h C : inv lk h C -> inv lk' (set_lock lk' h) C.
Proof.
  intros H. destruct H as [(H1 & H2 & H3 & H4 & H5) H6 H7 H8 H9 H10]. constructor; try assumption.
  - now repeat split.
  - eapply trees_frame; [exact H8|reflexivity|reflexivity|reflexivity|reflexivity|reflexivity].
Qed.
Lemma lock_id h : locked h = false -> set_lock false (set_lock true h) = h.
Proof. destruct h. cbn. now intros ->. Qed.
Lemma lock_eq h : locked h = false -> lock h = Some (tt, set_lock true h).
Proof. intros E. unfold lock. now rewrite E. Qed.

(** ** Allocation *)
Lemma alloc_ok h C cnt sz : inv false h C -> N.shiftr (roundup (add64 sz PREFIX) (grain h)) (gbits h) = cnt -> 1 <= cnt -> cnt < W31 ->
  ((forall i n, In (i, n, false) C -> n < cnt) /\ mm_alloc fuel sz h = Some (0, h)) \/
  exists C1 i n C2 h', C = C1 ++ (i, n, false) :: C2 /\ cnt <= n /\ (forall j m, In (j, m, false) C -> cnt <= m -> n <= m) /\
    mm_alloc fuel sz h = Some (ao i + 96, h') /\
    inv false h' (C1 ++ (i, cnt, true) :: (if n =? cnt then C2 else (i + cnt, n - cnt, false) :: C2)) /\ same_used h h' C.
Proof.
  intros H Ecnt H1 H31. pose proof (in_head _ _ _ H) as (Hb & Hg & Hs & Hst & Hlk).
  set (h0 := set_lock true h). assert (H0 : inv true h0 C) by exact (lock_inv _ _ _ _ H).
  destruct (find_size_eq h0 _ cnt (in_trees _ _ _ H0) H31) as (r & Er & Hr).
  destruct Hr as [[-> Hr]|(i & n & Hin & -> & Hk & Hbest)].
  { left. split; [intros i n Hi; apply (Hr i n); now apply in_frees|].
    unfold mm_alloc. cbv zeta. rewrite Ecnt, (mbind_eq _ _ _ _ _ (lock_eq _ Hlk)). fold h0. rewrite (mbind_eq _ _ _ _ _ Er). cbn [N.eqb].
    unfold mbind, unlock, mret, h0. now rewrite lock_id. }
  right. apply in_frees in Hin. assert (Hbest' : forall j m, In (j, m, false) C -> cnt <= m -> n <= m) by (intros j m Hj; apply (Hbest j m); now apply in_frees).
  destruct (tiles_in _ _ _ _ _ _ (in_tiles _ _ _ H) Hin) as (_ & Hn & Hend). assert (HiT : i < T) by lia.
  apply in_split in Hin as (C1 & C2 & ->). exists C1, i, n, C2.
  destruct (del_hole _ _ _ _ _ _ H0) as (h1 & E1 & HL1 & Hc2 & _ & [(ns & Ens & Kns) _] & U1).
  destruct (carve_ok _ _ _ _ _ _ cnt HL1 Hc2 H1 Hk) as (h2 & E2 & HL2 & U2).
  set (C2' := if n =? cnt then C2 else (i + cnt, n - cnt, false) :: C2) in *.
  destruct (cell_so h2 i (ho_solid _ _ _ _ _ _ HL2) HiT) as (cs & Ecs).
  set (h3 := hput h2 (so i) (rekey cs cnt)).
  assert (HL3 : hole true h3 C1 i cnt C2') by (apply hole_put; [exact HL2|now apply within_so]).
  destruct (cell_ao h3 i (ho_solid _ _ _ _ _ _ HL3) HiT) as (ca & Eca).
  set (h4 := hput h3 (ao i) (rekey ca (ao i))).
  assert (HL4 : hole true h4 C1 i cnt C2') by (apply hole_put; [exact HL3|now apply within_ao]).
  exists (set_lock false h4). split; [reflexivity|]. split; [exact Hk|]. split; [exact Hbest'|]. split; [|split].
  - unfold mm_alloc. cbv zeta. rewrite Ecnt, Hb, (mbind_eq _ _ _ _ _ (lock_eq _ Hlk)). fold h0. rewrite (mbind_eq _ _ _ _ _ Er).
    rewrite (proj2 (N.eqb_neq _ _) (so_pos i)). rewrite ptr_so', ptr_so by exact HiT. rewrite (mbind_eq _ _ _ _ _ E1).
    rewrite (mbind_eq _ _ _ _ _ (key_of_eq (so i) h1 ns (so_pos i) Ens)). rewrite Kns, (sub_small n cnt) by lia.
    rewrite (mbind_eq _ _ _ _ _ E2). rewrite (mbind_eq _ _ _ _ _ (set_key_eq _ _ _ _ (so_pos i) Ecs)). fold h3.
    rewrite (mbind_eq _ _ _ _ _ (set_key_eq _ _ _ _ (ao_pos i) Eca)). fold h4. unfold mbind, unlock, mret.
    rewrite add_ptr by (unfold PREFIX; lia). reflexivity.
  - apply (lock_inv true). apply hole_fill; [exact HL4|]. split.
    + exists (rekey cs cnt). split; [|reflexivity]. unfold h4. rewrite put_ne by (pose proof (ao_so i i); lia). apply put_eq.
    + eexists. split; [apply put_eq|reflexivity].
  - intros a j m Hj Ha. cbn [set_lock mem].
    assert (Hj2 : In (j, m, true) (C1 ++ C2)) by (rewrite in_app_iff in *; cbn [In] in Hj; destruct Hj as [Hj|[Hj|Hj]]; [tauto|discriminate|tauto]).
    pose proof (hole_away _ _ _ _ _ _ _ _ _ _ HL1 Hj2 Ha) as Hna.
    unfold h4, h3. rewrite !put_ne; [|intros ->; apply Hna; now apply within_so|intros ->; apply Hna; now apply within_ao].
    rewrite (U2 a j m); [|rewrite in_app_iff in *; cbn [In]; tauto|exact Ha]. rewrite (U1 a j m Hj2 Ha). reflexivity.
Qed.

(** ** Release *)
Fixpoint uses (C : list chunk) : list (N * N) :=
  match C with [] => [] | (e, u) :: C => if u then e :: uses C else uses C end.
Lemma uses_app C1 C2 : uses (C1 ++ C2) = uses C1 ++ uses C2.
Proof. induction C1 as [|[e u] C1 IH]; [reflexivity|]. cbn [app uses]. destruct u; [|exact IH]. cbn [app]. now rewrite IH. Qed.
Lemma in_uses C e : In e (uses C) <-> In (e, true) C.
Proof.
  induction C as [|[e' u] C IH]; [reflexivity|]. cbn [uses In]. destruct u; cbn [In]; rewrite IH.
  - split; intros [E|E]; try (now right); left; [now subst|now injection E].
  - split; [now right|]. intros [E|E]; [discriminate|exact E].
Qed.
Lemma keys_some h h' x nd : same_keys h h' -> mem h x = Some nd -> exists nd', mem h' x = Some nd' /\ key nd' = key nd.
Proof.
  intros K E. specialize (K x). rewrite E in K. destruct (mem h' x) as [nd'|]; [|discriminate]. exists nd'. split; [reflexivity|].
  cbn [option_map] in K. now injection K.
Qed.
Lemma lastu_end C i iq nq : tiles 0 C i -> lastu true C = true -> In (iq, nq, false) C -> iq + nq < i.
Proof.
  destruct C as [|[[j m] u] C] using rev_ind; [now intros|]. clear IHC. rewrite lastu_app. cbn [lastu]. intros H -> Hin.
  apply tiles_app in H as (x & H1 & H2). cbn [tiles] in H2. destruct H2 as (-> & H2 & <-).
  apply in_app_iff in Hin as [Hin|[Hin|[]]]; [|discriminate]. destruct (tiles_in _ _ _ _ _ _ H1 Hin). lia.
Qed.

Lemma join_left_ok lk h C1 i n C2 : hole lk h C1 i n C2 -> used h i n ->
  exists h' C1' i' n', join_left fuel (ao i) bits h = Some (ao i', h') /\
    hole lk h' C1' i' n' C2 /\ used h' i' n' /\ lastu true C1' = true /\ uses C1' = uses C1 /\
    (forall a, ~ is_node (frees C1 ++ frees C2) a -> mem h' a = mem h a).
Proof.
  intros H [(ns & Ens & Kns) (na & Ena & Kna)]. pose proof (hole_T _ _ _ _ _ _ H) as HinT. pose proof (ho_trees _ _ _ _ _ _ H) as HTr.
  pose proof (ho_left _ _ _ _ _ _ H) as HT1. pose proof (ho_right _ _ _ _ _ _ H) as HT2. pose proof (ho_pos _ _ _ _ _ _ H) as Hn. pose proof (ho_calm1 _ _ _ _ _ _ H) as Hc1.
  destruct (find_glb_eq _ _ (ao i) HTr) as (r & Er & Hr).
  assert (Hgo : forall k, join_left fuel (ao i) bits h = Some (k, h) <->
     (if r =? 0 then mret (ao i) else qc <-- key_of (add64 r SIZE_NODE) ;; if add64 r (shl64 qc bits) =? ao i then
        del_chunk fuel r ;;- qc <-- key_of (add64 r SIZE_NODE) ;; pc <-- key_of (add64 (ao i) SIZE_NODE) ;;
        set_key (add64 r SIZE_NODE) (add64 qc pc) ;;- mret r else mret (ao i)) h = Some (k, h)).
  { intros k. unfold join_left. rewrite (mbind_eq _ _ _ _ _ (key_of_eq (ao i) h na (ao_pos i) Ena)). rewrite Kna, (mbind_eq _ _ _ _ _ Er). reflexivity. }
  destruct (lastu true C1) eqn:EL.
  { exists h, C1, i, n. split; [|split; [exact H|]; split; [split; [now exists ns|now exists na]|]; split; [exact EL|]; now split].
    apply Hgo. clear Hgo. destruct Hr as [[-> _]|(kr & Hin & Hle & _)]; [reflexivity|].
    apply in_map_iff in Hin as ([iq nq] & E & Hin). unfold anode in E. cbn [fst] in E. injection E as <- <-. apply cmpa_le in Hle.
    rewrite (proj2 (N.eqb_neq _ _) (ao_pos iq)).
    pose proof (trees_small _ _ _ HTr Hin) as HiqT. cbn [fst] in HiqT.
    destruct (trees_node _ _ _ _ HTr Hin) as [(xs & Exs & Kxs) _]. rewrite ptr_so by exact HiqT.
    rewrite (mbind_eq _ _ _ _ _ (key_of_eq (so iq) h xs (so_pos iq) Exs)). rewrite Kxs.
    assert (Hend : iq + nq < i /\ 1 <= nq).
    { apply in_app_iff in Hin as [Hin|Hin]; apply in_frees in Hin.
      - split; [exact (lastu_end _ _ _ _ HT1 EL Hin)|now destruct (tiles_in _ _ _ _ _ _ HT1 Hin)].
      - destruct (tiles_in _ _ _ _ _ _ HT2 Hin) as (Hx & _ & _). assert (ao i < ao iq) by (apply ao_lt_iff; lia). lia. }
    rewrite end_hit by lia. rewrite (proj2 (N.eqb_neq _ _)) by lia. reflexivity. }
  (* the chunk before is free *)
  clear Hgo. destruct C1 as [|[[iq nq] u] C0 _] using rev_ind; [discriminate|]. rewrite lastu_app in EL. cbn [lastu] in EL. subst u.
  apply tiles_app in HT1 as (x & HT0 & HT1). cbn [tiles] in HT1. destruct HT1 as (<- & Hnq & Eiq).
  apply calm_app in Hc1 as [Hc0 Hc1]. cbn [calm] in Hc1. destruct Hc1 as [Hc1 _].
  rewrite frees_app in HTr. cbn [frees] in HTr. rewrite <- app_assoc in HTr. cbn [app] in HTr.
  assert (Hin : In (iq, nq) (frees C0 ++ (iq, nq) :: frees C2)) by apply in_elt.
  assert (r = ao iq) as ->.
  { rewrite frees_app in Hr. cbn [frees] in Hr. rewrite <- app_assoc in Hr. cbn [app] in Hr.
    destruct Hr as [[-> Hno]|(kr & Hr & Hle & Hmax)].
    - specialize (Hno (anode (iq, nq)) (in_map _ _ _ Hin)). cbn [anode fst snd] in Hno. apply cmpa_gt in Hno. apply (proj1 (ao_lt_iff _ _)) in Hno. lia.
    - apply in_map_iff in Hr as ([ir nr] & E & Hr). unfold anode in E. cbn [fst] in E. injection E as <- <-. apply cmpa_le in Hle.
      specialize (Hmax (anode (iq, nq)) (in_map _ _ _ Hin)). cbn [anode fst snd] in Hmax. rewrite !cmpa_le in Hmax.
      assert (Hle2 : ao iq <= ao ir) by (apply Hmax; assert (ao iq < ao i) by (apply ao_lt_iff; lia); lia).
      f_equal. apply in_app_iff in Hr as [Hr|[Hr|Hr]]; [apply in_frees in Hr|now injection Hr|apply in_frees in Hr].
      + destruct (tiles_in _ _ _ _ _ _ HT0 Hr) as (_ & Hx1 & Hx2). assert (ao ir < ao iq) by (apply ao_lt_iff; lia). lia.
      + destruct (tiles_in _ _ _ _ _ _ HT2 Hr) as (Hx & _ & _). assert (ao i < ao ir) by (apply ao_lt_iff; lia). lia. }
  destruct (trees_node _ _ _ _ HTr Hin) as [(xs & Exs & Kxs) (xa & Exa & Kxa)].
  destruct (t_del _ _ _ _ _ HTr) as (h1 & E2 & HTr1 & HH1 & K1 & F1).
  destruct (keys_some _ _ _ _ K1 Exs) as (xs1 & Exs1 & Kxs1). destruct (keys_some _ _ _ _ K1 Exa) as (xa1 & Exa1 & Kxa1).
  destruct (keys_some _ _ _ _ K1 Ens) as (ns1 & Ens1 & Kns1).
  assert (HL1 : hole lk h1 C0 iq (nq + n) C2).
  { constructor; try assumption.
    - exact (head_same _ _ _ HH1 (ho_head _ _ _ _ _ _ H)).
    - lia.
    - replace (iq + (nq + n)) with (i + n) by lia. exact HT2.
    - apply H.
    - intros j m Hj. apply (used_keys h); [|exact K1]. apply (ho_used _ _ _ _ _ _ H). rewrite !in_app_iff in *. tauto.
    - exact (solid_keys _ _ (ho_solid _ _ _ _ _ _ H) K1). }
  exists (hput h1 (so iq) (rekey xs1 (nq + n))), C0, iq, (nq + n).
  split; [|split; [|split; [|split; [|split]]]].
  - unfold join_left. rewrite (mbind_eq _ _ _ _ _ (key_of_eq (ao i) h na (ao_pos i) Ena)). rewrite Kna, (mbind_eq _ _ _ _ _ Er).
    rewrite (proj2 (N.eqb_neq _ _) (ao_pos iq)). cbv zeta. rewrite !ptr_so by lia.
    rewrite (mbind_eq _ _ _ _ _ (key_of_eq (so iq) h xs (so_pos iq) Exs)). rewrite Kxs.
    rewrite end_hit by lia. rewrite (proj2 (N.eqb_eq _ _)) by lia. rewrite (mbind_eq _ _ _ _ _ E2).
    rewrite (mbind_eq _ _ _ _ _ (key_of_eq (so iq) h1 xs1 (so_pos iq) Exs1)).
    rewrite (mbind_eq _ _ _ _ _ (key_of_eq (so i) h1 ns1 (so_pos i) Ens1)).
    rewrite Kxs1, Kns1, Kxs, Kns. rewrite add_small by lia.
    rewrite (mbind_eq _ _ _ _ _ (set_key_eq (so iq) (nq + n) h1 xs1 (so_pos iq) Exs1)). reflexivity.
  - apply hole_put; [exact HL1|apply within_so; lia].
  - split.
    + eexists. split; [apply put_eq|reflexivity].
    + exists xa1. split; [|congruence]. rewrite put_ne by (pose proof (ao_so iq iq); lia). exact Exa1.
  - destruct Hc1 as [Hc1|Hc1]; [exact Hc1|discriminate].
  - rewrite uses_app. cbn [uses]. now rewrite app_nil_r.
  - rewrite frees_app. cbn [frees]. rewrite <- app_assoc. cbn [app]. intros a Ha. rewrite put_ne; [now apply F1|].
    intros ->. apply Ha. exists (iq, nq). split; [exact Hin|now right].
Qed.

(** what the search for the chunk after finds *)
Lemma next_ok lk h C1 i n C2 r : hole lk h C1 i n C2 -> is_lub compare_addr (map anode (frees C1 ++ frees C2)) (ao i) r ->
  (forall k l, In (k, l) (frees C2) -> i + n < k) /\ (r = 0 \/ exists iq nq, In (iq, nq) (frees C1 ++ frees C2) /\ r = ao iq /\ iq <> i + n) \/
  exists nq C2', C2 = (i + n, nq, false) :: C2' /\ r = ao (i + n) /\ 1 <= nq /\ i + n + nq <= T.
Proof.
  intros H Hr. pose proof (ho_left _ _ _ _ _ _ H) as HT1. pose proof (ho_right _ _ _ _ _ _ H) as HT2. pose proof (ho_pos _ _ _ _ _ _ H) as Hn.
  assert (Hstop : (forall k l, In (k, l) (frees C2) -> i + n < k) -> r = 0 \/ exists iq nq, In (iq, nq) (frees C1 ++ frees C2) /\ r = ao iq /\ iq <> i + n).
  { intros HL. destruct Hr as [[-> _]|(kr & Hin & Hle & _)]; [now left|right].
    apply in_map_iff in Hin as ([iq nq] & E & Hin). unfold anode in E. cbn [fst] in E. injection E as <- <-. exists iq, nq. split; [exact Hin|]. split; [reflexivity|].
    apply in_app_iff in Hin as [Hin|Hin].
    - apply in_frees in Hin. destruct (tiles_in _ _ _ _ _ _ HT1 Hin). lia.
    - apply HL in Hin. lia. }
  destruct C2 as [|[[iq nq] u] C2].
  { left. assert (HL : forall k l, In (k, l) (frees []) -> i + n < k) by (intros k l []). split; [exact HL|now apply Hstop]. }
  cbn [tiles] in HT2. destruct HT2 as (-> & Hnq & HT2). destruct u.
  { left. assert (HL : forall k l, In (k, l) (frees ((i + n, nq, true) :: C2)) -> i + n < k).
    { cbn [frees]. intros k l Hk. apply in_frees in Hk. destruct (tiles_in _ _ _ _ _ _ HT2 Hk). lia. }
    split; [exact HL|now apply Hstop]. }
  right. exists nq, C2. split; [reflexivity|]. split; [|split; [exact Hnq|now apply tiles_le in HT2]].
  clear Hstop. set (iq := i + n) in *. cbn [frees] in Hr. assert (Hin : In (iq, nq) (frees C1 ++ (iq, nq) :: frees C2)) by apply in_elt.
  destruct Hr as [[-> Hno]|(kr & Hr & Hle & Hmax)].
  - specialize (Hno (anode (iq, nq)) (in_map _ _ _ Hin)). cbn [anode fst snd] in Hno. apply cmpa_lt in Hno. apply (proj1 (ao_lt_iff _ _)) in Hno. lia.
  - apply in_map_iff in Hr as ([ir nr] & E & Hr). unfold anode in E. cbn [fst] in E. injection E as <- <-. apply cmpa_ge in Hle.
    specialize (Hmax (anode (iq, nq)) (in_map _ _ _ Hin)). cbn [anode fst snd] in Hmax. rewrite cmpa_ge, cmpa_le in Hmax.
    assert (Hle2 : ao ir <= ao iq) by (apply Hmax; assert (ao i < ao iq) by (apply ao_lt_iff; lia); lia).
    f_equal. apply in_app_iff in Hr as [Hr|[Hr|Hr]]; [apply in_frees in Hr|now injection Hr|apply in_frees in Hr].
    + destruct (tiles_in _ _ _ _ _ _ HT1 Hr) as (_ & Hx1 & Hx2). assert (ao ir < ao i) by (apply ao_lt_iff; lia). lia.
    + destruct (tiles_in _ _ _ _ _ _ HT2 Hr) as (Hx & _ & _). assert (ao iq < ao ir) by (apply ao_lt_iff; lia). lia.
Qed.
(** the chunk after is taken out of the trees, and the hole grows *)
Lemma del_next lk h C1 i n nq C2 : hole lk h C1 i n ((i + n, nq, false) :: C2) -> used h i n ->
  exists h' ns xs, del_chunk fuel (ao (i + n)) h = Some (tt, h') /\ hole lk h' C1 i (n + nq) C2 /\ used h' i n /\ calm false C2 /\
    mem h' (so i) = Some ns /\ key ns = n /\ mem h' (so (i + n)) = Some xs /\ key xs = nq /\
    (forall a, ~ is_node (frees C1 ++ (i + n, nq) :: frees C2) a -> mem h' a = mem h a).
Proof.
  intros H Hu. pose proof (ho_right _ _ _ _ _ _ H) as HT2. cbn [tiles] in HT2. destruct HT2 as (_ & Hnq & HT2).
  pose proof (ho_calm2 _ _ _ _ _ _ H) as Hc2. cbn [calm] in Hc2. destruct Hc2 as [_ Hc2].
  pose proof (ho_trees _ _ _ _ _ _ H) as HTr. cbn [frees] in HTr.
  destruct (trees_node _ _ _ _ HTr (in_elt _ _ _)) as [(xs & Exs & Kxs) _].
  destruct (t_del _ _ _ _ _ HTr) as (h1 & E2 & HTr1 & HH1 & K1 & F1).
  destruct (keys_some _ _ _ _ K1 Exs) as (xs1 & Exs1 & Kxs1).
  pose proof (used_keys _ _ _ _ Hu K1) as Hu1. destruct Hu1 as [(ns1 & Ens1 & Kns1) Hu1].
  pose proof (ho_pos _ _ _ _ _ _ H) as Hn.
  exists h1, ns1, xs1. split; [exact E2|]. split.
  { constructor; try apply H; try assumption.
    - exact (head_same _ _ _ HH1 (ho_head _ _ _ _ _ _ H)).
    - lia.
    - replace (i + (n + nq)) with (i + n + nq) by lia. exact HT2.
    - now apply calm_weak in Hc2.
    - intros j m Hj. apply (used_keys h); [|exact K1]. apply (ho_used _ _ _ _ _ _ H). rewrite !in_app_iff in *. cbn [In]. tauto.
    - exact (solid_keys _ _ (ho_solid _ _ _ _ _ _ H) K1). }
  split; [split; [now exists ns1|exact Hu1]|]. split; [exact Hc2|]. split; [exact Ens1|]. split; [exact Kns1|]. split; [exact Exs1|]. split; [congruence|exact F1].
Qed.

Lemma join_right_ok lk h C1 i n C2 : hole lk h C1 i n C2 -> used h i n ->
  exists h' n' C2', join_right fuel (ao i) bits h = Some (tt, h') /\
    hole lk h' C1 i n' C2' /\ used h' i n' /\ calm false C2' /\ uses C2' = uses C2 /\
    (forall a, ~ is_node (frees C1 ++ frees C2) a -> a <> so i -> mem h' a = mem h a).
Proof.
  intros H Hu. pose proof Hu as [(ns & Ens & Kns) (na & Ena & Kna)]. pose proof (hole_T _ _ _ _ _ _ H) as HinT. pose proof (ho_trees _ _ _ _ _ _ H) as HTr.
  pose proof (ho_pos _ _ _ _ _ _ H) as Hn. destruct (find_lub_eq _ _ (ao i) HTr) as (r & Er & Hr).
  destruct (next_ok _ _ _ _ _ _ _ H Hr) as [[HL Hs]|(nq & C2' & -> & -> & Hnq & HqT)].
  - exists h, n, C2. split; [|split; [exact H|split; [exact Hu|split; [|split; [reflexivity|reflexivity]]]]].
    + unfold join_right. rewrite (mbind_eq _ _ _ _ _ (key_of_eq (ao i) h na (ao_pos i) Ena)). rewrite Kna, (mbind_eq _ _ _ _ _ Er).
      destruct Hs as [->|(iq & nq & Hin & -> & Hne)]; [reflexivity|]. rewrite (proj2 (N.eqb_neq _ _) (ao_pos iq)). cbv zeta.
      rewrite ptr_so by lia. rewrite (mbind_eq _ _ _ _ _ (key_of_eq (so i) h ns (so_pos i) Ens)). rewrite Kns.
      rewrite end_hit; [|lia|lia|exact (trees_small _ _ _ HTr Hin)]. rewrite (proj2 (N.eqb_neq _ _)) by lia. reflexivity.
    + pose proof (ho_calm2 _ _ _ _ _ _ H) as Hc. pose proof (ho_right _ _ _ _ _ _ H) as HT2. destruct C2 as [|[[iq nq] u] C2]; [exact I|].
      cbn [calm tiles] in *. destruct Hc as [_ Hc]. split; [|exact Hc]. right. destruct u; [reflexivity|exfalso]. destruct HT2 as (-> & _).
      assert (i + n < i + n) by (apply (HL _ nq); now left). lia.
  - destruct (del_next _ _ _ _ _ _ _ H Hu) as (h1 & ns1 & xs1 & E1 & HL1 & Hu1 & Hc1 & Ens1 & Kns1 & Exs1 & Kxs1 & F1).
    exists (hput h1 (so i) (rekey ns1 (n + nq))), (n + nq), C2'. split; [|split; [|split; [|split; [|split]]]].
    + unfold join_right. rewrite (mbind_eq _ _ _ _ _ (key_of_eq (ao i) h na (ao_pos i) Ena)). rewrite Kna, (mbind_eq _ _ _ _ _ Er).
      rewrite (proj2 (N.eqb_neq _ _) (ao_pos (i + n))). cbv zeta. rewrite !ptr_so by lia.
      rewrite (mbind_eq _ _ _ _ _ (key_of_eq (so i) h ns (so_pos i) Ens)). rewrite Kns.
      rewrite end_hit by lia. rewrite N.eqb_refl. rewrite (mbind_eq _ _ _ _ _ E1).
      rewrite (mbind_eq _ _ _ _ _ (key_of_eq (so i) h1 ns1 (so_pos i) Ens1)).
      rewrite (mbind_eq _ _ _ _ _ (key_of_eq (so (i + n)) h1 xs1 (so_pos (i + n)) Exs1)).
      rewrite Kxs1, Kns1. rewrite add_small by lia. apply (set_key_eq (so i) (n + nq) h1 ns1 (so_pos i) Ens1).
    + apply hole_put; [exact HL1|apply within_so; lia].
    + split; [eexists; split; [apply put_eq|reflexivity]|]. destruct Hu1 as [_ (na1 & Ena1 & Kna1)]. exists na1. split; [|exact Kna1].
      rewrite put_ne by (pose proof (ao_so i i); lia). exact Ena1.
    + exact Hc1.
    + reflexivity.
    + cbn [frees]. intros a Ha Hne. rewrite put_ne by exact Hne. now apply F1.
Qed.

Lemma free_ok h C1 i n C2 : inv false h (C1 ++ (i, n, true) :: C2) ->
  exists h' C', mm_free fuel (ao i + 96) h = Some (tt, h') /\ inv false h' C' /\ uses C' = uses C1 ++ uses C2 /\ same_used h h' (C1 ++ C2).
Proof.
  intros H. pose proof (in_head _ _ _ H) as (Hb & Hg & Hs & Hst & Hlk). pose proof (in_tiles _ _ _ H) as HTl.
  set (h0 := set_lock true h). assert (H0 : inv true h0 (C1 ++ (i, n, true) :: C2)) by exact (lock_inv _ _ _ _ H).
  destruct (hole_cut _ _ _ _ _ _ H0) as [HL Hu]. pose proof (hole_T _ _ _ _ _ _ HL) as HinT. pose proof (ho_pos _ _ _ _ _ _ HL) as Hn.
  destruct (join_left_ok _ _ _ _ _ _ HL Hu) as (h3 & C1' & i' & n' & E3 & HL3 & Hu3 & HU1 & U1 & F3).
  destruct (join_right_ok _ _ _ _ _ _ HL3 Hu3) as (h4 & n'' & C2' & E4 & HL4 & Hu4 & Hc4 & U2 & F4).
  pose proof (hole_T _ _ _ _ _ _ HL4) as HT4. pose proof (ho_pos _ _ _ _ _ _ HL4) as Hp4. assert (Hi' : i' < T) by lia.
  destruct Hu4 as [(xs & Exs & Kxs) (xa & Exa & Kxa)].
  set (h5 := hput h4 (ao i') (rekey xa (ao i'))).
  assert (HL5 : hole true h5 C1' i' n'' C2') by (apply hole_put; [exact HL4|now apply within_ao]).
  set (C' := C1' ++ (i', n'', false) :: C2').
  assert (Fnew : frees C' = frees C1' ++ (i', n'') :: frees C2') by (unfold C'; now rewrite frees_app).
  assert (HTl' : tiles 0 C' T) by (apply (hole_tiles _ _ _ _ _ _ _ HL4)).
  destruct (tiles_asc _ _ _ HTl') as [Hasc _]. rewrite Fnew in Hasc.
  destruct (t_ins h5 (frees C1') i' n'' (frees C2') (rekey xa (ao i')) xs (ho_trees _ _ _ _ _ _ HL5) Hasc Hi') as (h6 & E6 & HT6 & HH6 & K6 & F6).
  { lia. } { apply put_eq. } { reflexivity. } { unfold h5. rewrite put_ne by (pose proof (ao_so i' i'); lia). exact Exs. } { exact Kxs. }
  assert (Hused : same_used h h6 (C1 ++ C2)).
  { intros a j m Hj Ha. assert (HinU : In (j, m) (uses C1' ++ uses C2')).
    { rewrite U1, U2, in_app_iff, !in_uses. apply in_app_iff in Hj. tauto. }
    assert (Hj4 : In (j, m, true) (C1' ++ C2')) by (rewrite in_app_iff in *; rewrite !in_uses in HinU; tauto).
    assert (Hj3 : In (j, m, true) (C1' ++ C2)).
    { rewrite in_app_iff in *. rewrite !in_uses in HinU. rewrite <- (in_uses C2' (j, m)), U2, in_uses in HinU. tauto. }
    pose proof (hole_away _ _ _ _ _ _ _ _ _ _ HL4 Hj4 Ha) as Haway. pose proof (hole_not_node _ _ _ _ _ _ _ _ _ HL4 Hj4 Ha) as Hno4.
    rewrite F6.
    2: { intros (e & He & Hea). apply in_app_iff in He as [He|[<-|He]].
         - apply Hno4. exists e. split; [apply in_app_iff; now left|exact Hea].
         - apply Haway. cbn [fst] in Hea. destruct Hea as [->| ->]; [now apply within_ao|now apply within_so].
         - apply Hno4. exists e. split; [apply in_app_iff; now right|exact Hea]. }
    unfold h5. rewrite put_ne by (intros ->; apply Haway; now apply within_ao).
    rewrite F4; [|exact (hole_not_node _ _ _ _ _ _ _ _ _ HL3 Hj3 Ha)|intros ->; apply Haway; now apply within_so].
    rewrite F3; [reflexivity|exact (hole_not_node _ _ _ _ _ _ _ _ _ HL Hj Ha)]. }
  exists (set_lock false h6), C'. split; [|split; [apply (lock_inv true); constructor|split]].
  - unfold mm_free. rewrite (proj2 (N.eqb_neq (ao i + 96) 0)) by lia. cbv zeta. change 96 with PREFIX. rewrite (sub_ptr i PREFIX) by (unfold PREFIX; lia).
    rewrite Hb, (mbind_eq _ _ _ _ _ (lock_eq _ Hlk)). fold h0. rewrite (mbind_eq _ _ _ _ _ E3). rewrite (mbind_eq _ _ _ _ _ E4).
    rewrite (mbind_eq _ _ _ _ _ (set_key_eq _ _ _ _ (ao_pos i') Exa)). fold h5. unfold ins_both in E6.
    unfold mbind in E6 |- *. destruct (on_size _ h5) as [[[] s1]|]; [|discriminate]. rewrite E6. reflexivity.
  - exact (head_same _ _ _ HH6 (ho_head _ _ _ _ _ _ HL5)).
  - exact HTl'.
  - unfold C'. apply calm_app. split; [exact (ho_calm1 _ _ _ _ _ _ HL3)|]. rewrite HU1. cbn [calm]. split; [now left|exact Hc4].
  - rewrite Fnew. exact HT6.
  - intros j m Hj. apply (used_keys h5); [|exact K6]. apply (ho_used _ _ _ _ _ _ HL5). unfold C' in Hj. rewrite in_app_iff in *. cbn [In] in Hj. destruct Hj as [Hj|[Hj|Hj]]; [tauto|discriminate|tauto].
  - exact (solid_keys _ _ (ho_solid _ _ _ _ _ _ HL5) K6).
  - unfold C'. rewrite uses_app. cbn [uses]. now rewrite U1, U2.
  - exact Hused.
Qed.

(** ** Resizing *)
Lemma realloc_ok h C1 i n C2 sz cnt : inv false h (C1 ++ (i, n, true) :: C2) -> N.shiftr (roundup sz (grain h)) (gbits h) = cnt -> 1 <= cnt ->
  ((forall m C2', C2 = (i + n, m, false) :: C2' -> n + m < cnt) /\ mm_realloc fuel (ao i + 96) sz h = None) \/
  exists m C2' h' C2'', C2 = (i + n, m, false) :: C2' /\ cnt <= n + m /\
    mm_realloc fuel (ao i + 96) sz h = Some (ao i + 96, h') /\ inv false h' (C1 ++ (i, cnt, true) :: C2'') /\ uses C2'' = uses C2 /\
    same_used h h' (C1 ++ C2) /\
    (forall a, within i n a -> within i cnt a -> a <> so i -> mem h' a = mem h a).
Proof.
  intros H Ecnt H1. pose proof (in_head _ _ _ H) as (Hb & Hg & Hs & Hst & Hlk).
  set (h0 := set_lock true h). assert (H0 : inv true h0 (C1 ++ (i, n, true) :: C2)) by exact (lock_inv _ _ _ _ H).
  destruct (hole_cut _ _ _ _ _ _ H0) as [HL Hu]. pose proof (hole_T _ _ _ _ _ _ HL) as HinT. pose proof (ho_pos _ _ _ _ _ _ HL) as Hn.
  pose proof Hu as [(ns & Ens & Kns) (na & Ena & Kna)]. pose proof (ho_trees _ _ _ _ _ _ HL) as HTr.
  destruct (find_lub_eq _ _ (ao i) HTr) as (r & Er & Hr).
  assert (Hstart : forall k, resize fuel (ao i) cnt bits h0 = Some (false, h0) -> mm_realloc fuel (ao i + 96) sz h = k -> k = None).
  { intros k E <-. unfold mm_realloc. cbv zeta. change 96 with PREFIX. rewrite (sub_ptr i PREFIX) by (unfold PREFIX; lia).
    rewrite Ecnt, Hb, (mbind_eq _ _ _ _ _ (lock_eq _ Hlk)). fold h0. rewrite (mbind_eq _ _ _ _ _ E). unfold mbind at 1. unfold mm_alloc. reflexivity. }
  destruct (next_ok _ _ _ _ _ _ _ HL Hr) as [[HX Hsx]|(m & C2' & -> & -> & Hm & HqT)].
  { left. split.
    - intros m C2' ->. exfalso. assert (i + n < i + n) by (apply (HX _ m); now left). lia.
    - eapply Hstart; [|reflexivity]. unfold resize. rewrite (mbind_eq _ _ _ _ _ (key_of_eq (ao i) h0 na (ao_pos i) Ena)). rewrite Kna, (mbind_eq _ _ _ _ _ Er).
      destruct Hsx as [->|(iq & nq & Hin & -> & Hne)]; [reflexivity|]. rewrite (proj2 (N.eqb_neq _ _) (ao_pos iq)). cbv zeta.
      rewrite ptr_so by lia. rewrite (mbind_eq _ _ _ _ _ (key_of_eq (so i) h0 ns (so_pos i) Ens)). rewrite Kns.
      rewrite end_hit; [|lia|lia|exact (trees_small _ _ _ HTr Hin)]. rewrite (proj2 (N.eqb_neq _ _)) by lia. reflexivity. }
  assert (HTr' := HTr). cbn [frees] in HTr'. destruct (trees_node _ _ _ _ HTr' (in_elt _ _ _)) as [(xs & Exs & Kxs) _].
  assert (HiT : i < T) by lia. assert (HqT' : i + n < T) by lia.
  destruct (N.lt_ge_cases (n + m) cnt) as [Hlt|Hge].
  { left. split.
    - intros m' C2'' E. injection E as <- _. exact Hlt.
    - eapply Hstart; [|reflexivity]. unfold resize. rewrite (mbind_eq _ _ _ _ _ (key_of_eq (ao i) h0 na (ao_pos i) Ena)). rewrite Kna, (mbind_eq _ _ _ _ _ Er).
      rewrite (proj2 (N.eqb_neq _ _) (ao_pos (i + n))). cbv zeta. rewrite (ptr_so i), (ptr_so (i + n)) by assumption.
      rewrite (mbind_eq _ _ _ _ _ (key_of_eq (so i) h0 ns (so_pos i) Ens)). rewrite Kns.
      rewrite end_hit by lia. rewrite N.eqb_refl. rewrite (mbind_eq _ _ _ _ _ (key_of_eq (so (i + n)) h0 xs (so_pos (i + n)) Exs)). rewrite Kxs.
      rewrite add_small by lia. rewrite (proj2 (N.leb_gt _ _)) by exact Hlt. reflexivity. }
  right. destruct (del_next _ _ _ _ _ _ _ HL Hu) as (h1 & ns1 & xs1 & E1 & HL1 & Hu1 & Hc1 & Ens1 & Kns1 & Exs1 & Kxs1 & F1).
  destruct (carve_ok _ _ _ _ _ _ cnt HL1 Hc1 H1 Hge) as (h2 & E2 & HL2 & U2).
  set (C2'' := if n + m =? cnt then C2' else (i + cnt, n + m - cnt, false) :: C2') in *.
  destruct (cell_so h2 i (ho_solid _ _ _ _ _ _ HL2) HiT) as (cs & Ecs).
  set (h3 := hput h2 (so i) (rekey cs cnt)).
  assert (HL3 : hole true h3 C1 i cnt C2'') by (apply hole_put; [exact HL2|now apply within_so]).
  exists m, C2', (set_lock false h3), C2''. split; [reflexivity|]. split; [exact Hge|]. split; [|split; [|split; [|split]]].
  - unfold mm_realloc. cbv zeta. change 96 with PREFIX. rewrite (sub_ptr i PREFIX) by (unfold PREFIX; lia).
    rewrite Ecnt, Hb, (mbind_eq _ _ _ _ _ (lock_eq _ Hlk)). fold h0.
    assert (ER : resize fuel (ao i) cnt bits h0 = Some (true, h3)).
    { unfold resize. rewrite (mbind_eq _ _ _ _ _ (key_of_eq (ao i) h0 na (ao_pos i) Ena)). rewrite Kna, (mbind_eq _ _ _ _ _ Er).
      rewrite (proj2 (N.eqb_neq _ _) (ao_pos (i + n))). cbv zeta. rewrite (ptr_so i), (ptr_so (i + n)) by assumption.
      rewrite (mbind_eq _ _ _ _ _ (key_of_eq (so i) h0 ns (so_pos i) Ens)). rewrite Kns.
      rewrite end_hit by lia. rewrite N.eqb_refl. rewrite (mbind_eq _ _ _ _ _ (key_of_eq (so (i + n)) h0 xs (so_pos (i + n)) Exs)). rewrite Kxs.
      rewrite add_small by lia. rewrite (proj2 (N.leb_le _ _)) by exact Hge. rewrite (mbind_eq _ _ _ _ _ E1).
      rewrite (mbind_eq _ _ _ _ _ (key_of_eq (so i) h1 ns1 (so_pos i) Ens1)).
      rewrite (mbind_eq _ _ _ _ _ (key_of_eq (so (i + n)) h1 xs1 (so_pos (i + n)) Exs1)). rewrite Kns1, Kxs1.
      rewrite (add_small n m), (sub_small (n + m) cnt) by lia. rewrite (mbind_eq _ _ _ _ _ E2).
      rewrite (mbind_eq _ _ _ _ _ (set_key_eq _ _ _ _ (so_pos i) Ecs)). reflexivity. }
    rewrite (mbind_eq _ _ _ _ _ ER). unfold mbind, unlock, mret. rewrite add_ptr by (unfold PREFIX; lia). reflexivity.
  - apply (lock_inv true). apply hole_fill; [exact HL3|]. split.
    + eexists. split; [apply put_eq|reflexivity].
    + destruct Hu1 as [_ (na1 & Ena1 & Kna1)]. exists na1. split; [|exact Kna1]. unfold h3. rewrite put_ne by (pose proof (ao_so i i); lia).
      rewrite (U2 (ao i) i cnt (in_elt _ _ _) (within_ao i cnt H1)). exact Ena1.
  - unfold C2''. cbn [uses]. now destruct (n + m =? cnt).
  - intros a j l Hj Ha. cbn [set_lock mem]. assert (Hj' : In (j, l, true) (C1 ++ C2')).
    { rewrite in_app_iff in *. cbn [In] in Hj. destruct Hj as [Hj|[Hj|Hj]]; [tauto|discriminate|tauto]. }
    pose proof (hole_away _ _ _ _ _ _ _ _ _ _ HL Hj Ha) as Hna. unfold h3. rewrite put_ne by (intros ->; apply Hna; now apply within_so).
    rewrite (U2 a j l); [|rewrite in_app_iff in *; cbn [In]; tauto|exact Ha]. rewrite F1; [reflexivity|].
    exact (hole_not_node _ _ _ _ _ _ _ _ _ HL Hj Ha).
  - intros a Ha Hc Hne. cbn [set_lock mem]. unfold h3. rewrite put_ne by exact Hne. rewrite (U2 a i cnt (in_elt _ _ _) Hc).
    rewrite F1; [reflexivity|]. exact (hole_fresh _ _ _ _ _ _ _ HL Ha).
Qed.
(** ** Gaps *)
Definition vac (C : list chunk) (i n : N) : Prop := i + n <= T /\ forall j m, In (j, m, true) C -> i + n <= j \/ j + m <= i.
Lemma lookup C : forall s i, tiles s C T -> s <= i < T -> exists j m u, In (j, m, u) C /\ j <= i < j + m.
Proof.
  induction C as [|[[j m] u] C IH]; intros s i H Hi; cbn [tiles] in H; [lia|]. destruct H as (-> & Hm & H).
  destruct (N.lt_ge_cases i (s + m)) as [Hl|Hl].
  - exists s, m, u. split; [now left|lia].
  - destruct (IH (s + m) i H ltac:(lia)) as (k & l & v & Hk & Hr). exists k, l, v. split; [now right|exact Hr].
Qed.
Lemma calm_adj C : forall s e b j m n, tiles s C e -> calm b C -> In (j, m, false) C -> In (j + m, n, false) C -> False.
Proof.
  induction C as [|[[k l] u] C IH]; intros s e b j m n H Hc H1 H2; [destruct H1|]. cbn [tiles calm] in *. destruct H as (-> & Hl & H), Hc as [Hc1 Hc2].
  destruct H1 as [E1|H1], H2 as [E2|H2].
  - injection E1 as -> -> ->. injection E2 as E2 _. lia.
  - injection E1 as -> -> ->. destruct C as [|[[k' l'] u'] C]; [destruct H2|]. cbn [tiles] in H. destruct H as (-> & Hl' & H). cbn [calm] in Hc2.
    destruct Hc2 as [[E|E] _]; [discriminate|]. subst u'. destruct H2 as [E2|H2]; [discriminate|]. destruct (tiles_in _ _ _ _ _ _ H H2). lia.
  - injection E2 as E2 _ _. destruct (tiles_in _ _ _ _ _ _ H H1). lia.
  - exact (IH _ _ _ _ _ _ H Hc2 H1 H2).
Qed.
Lemma vac_free C i : tiles 0 C T -> i < T -> vac C i 1 <-> exists j m, In (j, m, false) C /\ j <= i < j + m.
Proof.
  intros H Hi. split.
  - intros [_ Hv]. destruct (lookup C 0 i H ltac:(lia)) as (j & m & [] & Hj & Hr); [|now exists j, m]. destruct (Hv _ _ Hj); lia.
  - intros (j & m & Hj & Hr). split; [lia|]. intros k l Hk. destruct (tiles_two _ _ _ _ _ _ _ _ _ H Hj Hk) as [E|E]; [discriminate|lia].
Qed.
(** a vacant range lies in one free chunk *)
Lemma vac_chunk C i n : tiles 0 C T -> calm true C -> 1 <= n -> vac C i n -> exists j m, In (j, m, false) C /\ j <= i /\ i + n <= j + m.
Proof.
  intros H Hc Hn [HiT Hv]. destruct (lookup C 0 i H ltac:(lia)) as (j & m & [] & Hj & Hr).
  { destruct (Hv _ _ Hj); lia. }
  exists j, m. split; [exact Hj|]. split; [lia|]. destruct (N.le_gt_cases (i + n) (j + m)) as [Hl|Hl]; [exact Hl|exfalso].
  destruct (lookup C 0 (j + m) H ltac:(lia)) as (k & l & [] & Hk & Hr2).
  { destruct (Hv _ _ Hk); [lia|]. lia. }
  assert (k = j + m) as -> by (destruct (tiles_two _ _ _ _ _ _ _ _ _ H Hj Hk) as [E|E]; [injection E as -> ->; lia|lia]).
  exact (calm_adj _ _ _ _ _ _ _ H Hc Hj Hk).
Qed.
Lemma chunk_vac C i n k : tiles 0 C T -> In (i, n, false) C -> k <= n -> vac C i k.
Proof.
  intros H Hin Hk. destruct (tiles_in _ _ _ _ _ _ H Hin) as (_ & _ & Hb). split; [lia|]. intros j m Hj.
  destruct (tiles_two _ _ _ _ _ _ _ _ _ H Hin Hj) as [E|E]; [discriminate|lia].
Qed.
Lemma gap_chunk C i n : tiles 0 C T -> calm true C ->
  In (i, n, false) C <-> 1 <= n /\ vac C i n /\ (i = 0 \/ ~ vac C (i - 1) 1) /\ (i + n = T \/ ~ vac C (i + n) 1).
Proof.
  intros H Hc. split.
  - intros Hin. destruct (tiles_in _ _ _ _ _ _ H Hin) as (_ & Hn & Hb). split; [exact Hn|]. split; [now apply (chunk_vac _ _ n)|]. split.
    + destruct (N.eq_dec i 0) as [E|E]; [now left|right]. rewrite (vac_free _ _ H) by lia. intros (j & m & Hj & Hr).
      destruct (tiles_two _ _ _ _ _ _ _ _ _ H Hj Hin) as [E'|E']; [injection E' as -> ->; lia|].
      assert (i = j + m) as -> by lia. exact (calm_adj _ _ _ _ _ _ _ H Hc Hj Hin).
    + destruct (N.eq_dec (i + n) T) as [E|E]; [now left|right]. rewrite (vac_free _ _ H) by lia. intros (j & m & Hj & Hr).
      destruct (tiles_two _ _ _ _ _ _ _ _ _ H Hj Hin) as [E'|E']; [injection E' as -> ->; lia|].
      assert (j = i + n) as -> by lia. exact (calm_adj _ _ _ _ _ _ _ H Hc Hin Hj).
  - intros (Hn & Hv & Hlo & Hhi). destruct (vac_chunk _ _ _ H Hc Hn Hv) as (j & m & Hj & Hji & Hend).
    destruct (tiles_in _ _ _ _ _ _ H Hj) as (_ & Hm & Hb).
    assert (j = i) as ->.
    { destruct Hlo as [->|Hlo]; [lia|]. destruct (N.eq_dec j i) as [E|E]; [exact E|exfalso]. apply Hlo. apply (vac_free _ _ H); [lia|]. exists j, m. split; [exact Hj|lia]. }
    replace n with m; [exact Hj|]. destruct Hhi as [E|Hhi]; [lia|]. destruct (N.eq_dec m n) as [E|E]; [exact E|exfalso].
    apply Hhi. apply (vac_free _ _ H); [lia|]. exists i, m. split; [exact Hj|lia].
Qed.
(** ** The allocations of the users *)
Definition off (i : N) : N := i * (128 * q) + 96.
Lemma off_ao i : at_ + off i = ao i + 96. Proof. unfold off, ao. lia. Qed.
Lemma ao_off i : ao i + 96 - at_ = off i. Proof. unfold off, ao. lia. Qed.
Definition live (A : list (N * N)) (C : list chunk) : Prop :=
  Permutation (map (fun e => (fst e, need (128 * q) (snd e))) A) (map (fun e => (off (fst e), snd e)) (uses C)).
Lemma live_in A C d sz : live A C -> In (d, sz) A -> exists i, In (i, need (128 * q) sz, true) C /\ d = off i.
Proof.
  intros H Hin. apply (in_map (fun e => (fst e, need (128 * q) (snd e)))) in Hin. cbn [fst snd] in Hin. eapply Permutation_in in Hin; [|exact H].
  apply in_map_iff in Hin as ([i n] & E & Hin). assert (E1 := f_equal fst E). assert (E2 := f_equal snd E). cbn [fst snd] in E1, E2. exists i. split; [|now symmetry]. rewrite <- E2. now apply in_uses.
Qed.
Lemma live_of A C i n : live A C -> In (i, n, true) C -> exists sz, In (off i, sz) A /\ n = need (128 * q) sz.
Proof.
  intros H Hin. apply in_uses in Hin. apply (in_map (fun e => (off (fst e), snd e))) in Hin. cbn [fst snd] in Hin.
  eapply Permutation_in in Hin; [|symmetry; exact H]. apply in_map_iff in Hin as ([d sz] & E & Hin). assert (E1 := f_equal fst E). assert (E2 := f_equal snd E). cbn [fst snd] in E1, E2. exists sz. split; [now rewrite <- E1|now symmetry].
Qed.
Lemma scale a b : ao a <= ao b -> a <= b.
Proof. intros H. destruct (N.le_gt_cases a b) as [E|E]; [exact E|]. apply ao_mono in E. lia. Qed.
Lemma vacant_vac A C i n : live A C -> vacant T (128 * q) A i n <-> vac C i n.
Proof.
  intros HL. unfold vacant, vac. split; intros [H1 H2]; (split; [exact H1|]).
  - intros j m Hj. destruct (live_of _ _ _ _ HL Hj) as (sz & Hin & ->). destruct (H2 _ _ Hin) as [H|H]; [left|right].
    + apply scale. unfold off, ao in *. lia.
    + apply scale. unfold off, ao in *. lia.
  - intros d sz Hin. destruct (live_in _ _ _ _ HL Hin) as (j & Hj & ->). destruct (H2 _ _ Hj) as [H|H]; [left|right].
    + apply (N.mul_le_mono_r _ _ (128 * q)) in H. unfold off. lia.
    + apply (N.mul_le_mono_r _ _ (128 * q)) in H. unfold off. lia.
Qed.
Lemma gap_free A C i n : tiles 0 C T -> calm true C -> live A C -> In (i, n) (frees C) <-> gap T (128 * q) A i n.
Proof.
  intros H Hc HL. rewrite in_frees, (gap_chunk _ _ _ H Hc). unfold gap. now rewrite !(vacant_vac _ _ _ _ HL).
Qed.
Lemma need_pos sz : 1 <= need (128 * q) sz.
Proof. unfold need. apply N.div_le_lower_bound; lia. Qed.
Lemma need_fits sz : sz + 96 <= need (128 * q) sz * (128 * q).
Proof.
  unfold need. pose proof (N.div_mod (sz + 96 + (128 * q - 1)) (128 * q) ltac:(lia)) as H. pose proof (N.mod_lt (sz + 96 + (128 * q - 1)) (128 * q) ltac:(lia)). lia.
Qed.
Lemma block_iff e i a : fst e = off i -> in_block at_ (128 * q) e a = true <-> within i (need (128 * q) (snd e)) a.
Proof. intros E. unfold in_block, within. rewrite E. replace (at_ + (off i - 96)) with (ao i) by (unfold off, ao; lia). rewrite Bool.andb_true_iff, N.leb_le, N.ltb_lt. reflexivity. Qed.
Lemma same_undisturbed h h' C A : (forall d sz, In (d, sz) A -> exists i, In (i, need (128 * q) sz, true) C /\ d = off i) -> same_used h h' C ->
  undisturbed at_ (128 * q) A (mem h) (mem h').
Proof.
  intros HL HU [d sz] a Hin Ha. destruct (HL _ _ Hin) as (i & Hi & ->). apply (block_iff (off i, sz) i a eq_refl) in Ha. exact (HU a _ _ Hi Ha).
Qed.

Lemma two_places C i n u j m v : tiles 0 C T -> In (i, n, u) C -> In (j, m, v) C -> i = j -> (n, u) = (m, v).
Proof.
  intros H H1 H2 ->. destruct (tiles_two _ _ _ _ _ _ _ _ _ H H1 H2) as [E|E]; [now injection E as -> ->|].
  destruct (tiles_in _ _ _ _ _ _ H H1) as (_ & Hn & _). destruct (tiles_in _ _ _ _ _ _ H H2) as (_ & Hm & _). lia.
Qed.
Lemma apart_chunks i n sz j m sz' : n = need (128 * q) sz -> m = need (128 * q) sz' -> i + n <= j \/ j + m <= i -> apart (off i, sz) (off j, sz').
Proof.
  intros -> -> H. unfold apart. cbn [fst snd]. pose proof (need_fits sz). pose proof (need_fits sz').
  destruct H as [H|H]; apply (N.mul_le_mono_r _ _ (128 * q)) in H; unfold off; [left|right]; lia.
Qed.


Lemma alloc_live h A C sz : inv false h C -> live A C -> N.shiftr (roundup (add64 sz PREFIX) (grain h)) (gbits h) = need (128 * q) sz -> need (128 * q) sz < W31 ->
  (mm_alloc fuel sz h = Some (0, h) /\ forall i, ~ vacant T (128 * q) A i (need (128 * q) sz)) \/
  exists i n h' C', mm_alloc fuel sz h = Some (ao i + 96, h') /\ gap T (128 * q) A i n /\ need (128 * q) sz <= n /\
    (forall j m, gap T (128 * q) A j m -> need (128 * q) sz <= m -> n <= m) /\
    inv false h' C' /\ live ((off i, sz) :: A) C' /\ undisturbed at_ (128 * q) A (mem h) (mem h').
Proof.
  intros Hi HL Ec H31. set (cnt := need (128 * q) sz) in *. pose proof (need_pos sz) as Hcnt. fold cnt in Hcnt.
  pose proof (in_tiles _ _ _ Hi) as HTl. pose proof (in_calm _ _ _ Hi) as Hc.
  destruct (alloc_ok _ _ _ _ Hi Ec Hcnt H31) as [[H1 H2]|(C1 & i & n & C2 & h' & -> & Hle & Hbest & E & Hi' & HU)].
  - left. split; [exact H2|]. intros i Hv. apply (vacant_vac _ _ _ _ HL) in Hv. destruct (vac_chunk _ _ _ HTl Hc Hcnt Hv) as (j & m & Hj & Hji & Hend). apply H1 in Hj. lia.
  - right. eexists i, n, h', _. split; [exact E|]. split; [|split; [exact Hle|split; [|split; [exact Hi'|split]]]].
    + apply (gap_free _ _ _ _ HTl Hc HL). apply in_frees, in_elt.
    + intros j m Hj. apply (gap_free _ _ _ _ HTl Hc HL) in Hj. apply in_frees in Hj. now apply (Hbest j m).
    + unfold live in *. rewrite uses_app in *. cbn [uses] in *.
      assert (Eu : uses (if n =? cnt then C2 else (i + cnt, n - cnt, false) :: C2) = uses C2) by now destruct (n =? cnt).
      rewrite Eu, map_app. cbn [map fst snd]. fold cnt. rewrite <- Permutation_middle. constructor. now rewrite map_app in HL.
    + eapply same_undisturbed; [|exact HU]. intros d s Hin. exact (live_in _ _ _ _ HL Hin).
Qed.

Lemma free_live h A1 d sz A2 C : inv false h C -> live (A1 ++ (d, sz) :: A2) C ->
  exists h' C', mm_free fuel (at_ + d) h = Some (tt, h') /\ inv false h' C' /\ live (A1 ++ A2) C' /\ undisturbed at_ (128 * q) (A1 ++ A2) (mem h) (mem h').
Proof.
  intros Hi HL. destruct (live_in _ _ _ _ HL (in_elt _ _ _)) as (i & Hin & ->).
  apply in_split in Hin as (C1 & C2 & ->). destruct (free_ok _ _ _ _ _ Hi) as (h' & C' & E & Hi' & HU & HS).
  assert (HL' : live (A1 ++ A2) C').
  { unfold live in *. rewrite HU. rewrite uses_app in HL. cbn [uses] in HL. rewrite !map_app in *. cbn [map fst snd] in HL. now apply Permutation_app_inv in HL. }
  exists h', C'. split; [rewrite off_ao; exact E|]. split; [exact Hi'|]. split; [exact HL'|].
  eapply same_undisturbed; [|exact HS]. intros d s Hd. destruct (live_in _ _ _ _ HL' Hd) as (j & Hj & ->). exists j. split; [|reflexivity].
  apply in_uses in Hj. rewrite HU in Hj. apply in_app_iff. rewrite in_app_iff, !in_uses in Hj. exact Hj.
Qed.

Lemma need_whole k : 1 <= k -> need (128 * q) (k * (128 * q) - 96) = k.
Proof.
  intros Hk. unfold need. pose proof (N.mul_le_mono_r 1 k (128 * q) Hk). replace (k * (128 * q) - 96 + 96 + (128 * q - 1)) with ((128 * q - 1) + k * (128 * q)) by lia.
  rewrite N.div_add by lia. rewrite N.div_small by lia. lia.
Qed.
Lemma resize_live h A1 d sz A2 C cnt newsize : inv false h C -> live (A1 ++ (d, sz) :: A2) C ->
  N.shiftr (roundup newsize (grain h)) (gbits h) = cnt -> 1 <= cnt ->
  exists i, d = off i /\ In (i, need (128 * q) sz, true) C /\
  ((mm_realloc fuel (at_ + d) newsize h = None /\
    forall m, gap T (128 * q) (A1 ++ (d, sz) :: A2) (i + need (128 * q) sz) m -> need (128 * q) sz + m < cnt) \/
   exists m h' C', mm_realloc fuel (at_ + d) newsize h = Some (at_ + d, h') /\
    gap T (128 * q) (A1 ++ (d, sz) :: A2) (i + need (128 * q) sz) m /\ cnt <= need (128 * q) sz + m /\
    inv false h' C' /\ live (A1 ++ (d, cnt * (128 * q) - 96) :: A2) C' /\ undisturbed at_ (128 * q) (A1 ++ A2) (mem h) (mem h') /\
    (forall a, in_block at_ (128 * q) (d, sz) a = true -> in_block at_ (128 * q) (d, cnt * (128 * q) - 96) a = true -> at_ + d <= a -> mem h' a = mem h a)).
Proof.
  intros Hi HL Ec Hcnt. destruct (live_in _ _ _ _ HL (in_elt _ _ _)) as (i & Hin & ->). exists i. split; [reflexivity|]. split; [exact Hin|].
  pose proof (in_tiles _ _ _ Hi) as HTl. pose proof (in_calm _ _ _ Hi) as Hc. set (n := need (128 * q) sz) in *.
  destruct (in_split _ _ Hin) as (C1 & C2 & EC). rewrite EC in Hi. rewrite off_ao.
  destruct (realloc_ok _ _ _ _ _ _ _ Hi Ec Hcnt) as [[H1 H2]|(m & C2' & h' & C2'' & E2 & Hle & E & Hi' & HU & HS & HK)].
  - left. split; [exact H2|]. intros m Hm. apply (gap_free _ _ _ _ HTl Hc HL) in Hm. apply in_frees in Hm. rewrite EC in Hm, HTl.
    destruct (in_split _ _ Hm) as (D1 & D2 & ED). apply tiles_app in HTl as (x & T1 & T2). cbn [tiles] in T2. destruct T2 as (<- & Hn & T2).
    apply in_app_iff in Hm as [Hm|[Hm|Hm]].
    + destruct (tiles_in _ _ _ _ _ _ T1 Hm) as (_ & Hx & Hy). lia.
    + discriminate.
    + destruct C2 as [|[[k l] u] C2]; [destruct Hm|]. cbn [tiles] in T2. destruct T2 as (-> & Hl & T2). destruct Hm as [Hm|Hm].
      * injection Hm as -> ->. exact (H1 m C2 eq_refl).
      * destruct (tiles_in _ _ _ _ _ _ T2 Hm). lia.
  - right. exists m, h', (C1 ++ (i, cnt, true) :: C2''). split; [exact E|]. split; [|split; [exact Hle|split; [exact Hi'|split; [|split]]]].
    + apply (gap_free _ _ _ _ HTl Hc HL). apply in_frees. rewrite EC, E2. rewrite in_app_iff. cbn [In]. tauto.
    + unfold live in *. rewrite uses_app. cbn [uses]. rewrite HU. rewrite EC, uses_app in HL. cbn [uses] in HL. rewrite !map_app in *. cbn [map fst snd] in *.
      fold n in HL. apply Permutation_app_inv in HL. rewrite (need_whole cnt Hcnt). rewrite <- !Permutation_middle. now constructor.
    + eapply same_undisturbed; [|exact HS]. intros d s Hd.
      assert (HL' : live (A1 ++ A2) (C1 ++ C2)).
      { unfold live in *. rewrite EC, uses_app in HL. rewrite uses_app. cbn [uses] in HL. rewrite !map_app in *. cbn [map fst snd] in *. fold n in HL. now apply Permutation_app_inv in HL. }
      exact (live_in _ _ _ _ HL' Hd).
    + intros a Ha Hb Hd. apply (block_iff (off i, sz) i a eq_refl) in Ha. apply (block_iff (off i, cnt * (128 * q) - 96) i a eq_refl) in Hb. cbn [snd] in Ha, Hb.
      rewrite need_whole in Hb by exact Hcnt. apply HK; [exact Ha|exact Hb|]. intros ->. unfold so, off, ao in *. lia.
Qed.

Lemma write_live h A C e f : inv false h C -> live A C -> In e A -> inv false (set_mem h (scribble at_ (128 * q) e f (mem h))) C.
Proof.
  intros [Hh HTl HC HTr Hcnt Hsol] HL Hin. destruct e as [d sz]. destruct (live_in _ _ _ _ HL Hin) as (i & Hi & ->).
  assert (Hout : forall a, ~ (within i (need (128 * q) sz) a /\ ao i + 96 <= a) -> scribble at_ (128 * q) (off i, sz) f (mem h) a = mem h a).
  { intros a Ha. unfold scribble. destruct (in_block at_ (128 * q) (off i, sz) a) eqn:E; [|reflexivity]. apply (block_iff (off i, sz) i _ eq_refl) in E. cbn [fst snd] in *.
    rewrite off_ao. destruct (N.leb_spec (ao i + 96) a) as [E2|E2]; [|reflexivity]. exfalso. now apply Ha. }
  constructor; try assumption.
  - eapply trees_frame; [exact HTr|reflexivity|reflexivity|reflexivity|reflexivity|]. intros a Ha. cbn [set_mem mem]. apply Hout. intros [H1 _].
    exact (used_not_node _ _ _ _ HTl Hi H1 Ha).
  - intros j m Hj. destruct (tiles_in _ _ _ _ _ _ HTl Hj) as (_ & Hm & _).
    assert (Hx : forall a, (a = ao j \/ a = so j) -> ~ (within i (need (128 * q) sz) a /\ ao i + 96 <= a)).
    { intros a Ha [H1 H2]. assert (Hw : within j m a) by (destruct Ha as [->| ->]; [now apply within_ao|now apply within_so]).
      destruct (tiles_two _ _ _ _ _ _ _ _ _ HTl Hi Hj) as [Ex|Ex]; [|exact (blocks_apart _ _ _ _ _ Ex H1 Hw)].
      injection Ex as <- _. unfold so, ao in *. destruct Ha as [->| ->]; lia. }
    apply (used_frame h); [now apply Hcnt| |]; cbn [set_mem mem]; apply Hout; apply Hx; [now right|now left].
  - intros k Hk. cbn [set_mem mem]. destruct (Hsol k Hk) as [H1 H2]. unfold scribble.
    split; (destruct (_ && _); [|assumption]); [destruct (mem h (ao k))|destruct (mem h (so k))]; congruence.
Qed.

(** ** Statistics *)
Lemma counts_ok h F : trees h F -> forall F', incl F' F -> counts_of (map (fun e => ao (fst e)) F') h = Some (map snd F', h).
Proof.
  intros H. induction F' as [|[i n] F' IH]; intros Hi; cbn [map counts_of fst snd]; [reflexivity|].
  assert (Hin : In (i, n) F) by (apply Hi; now left). destruct (trees_node _ _ _ _ H Hin) as [(ns & Ens & Kns) _].
  rewrite ptr_so by exact (trees_small _ _ _ H Hin). rewrite (mbind_eq _ _ _ _ _ (key_of_eq (so i) h ns (so_pos i) Ens)). rewrite Kns.
  rewrite (mbind_eq _ _ _ _ _ (IH (fun e He => Hi e (or_intror He)))). reflexivity.
Qed.
Definition total (l : list N) : N := fold_right N.add 0 l.
Lemma tiles_total C : forall s e, tiles s C e -> s + total (map snd (frees C)) + total (map snd (uses C)) = e.
Proof.
  induction C as [|[[i n] u] C IH]; intros s e H; cbn [tiles frees uses] in *; [cbn; lia|]. destruct H as (-> & Hn & H). apply IH in H.
  destruct u; cbn [map snd total fold_right]; unfold total in *; lia.
Qed.
Lemma stat_ok : forall ns i, chunks i + N.of_nat (length ns) < W64 -> bytes i + total ns < W64 ->
  fold_left heap_stat ns i = mkStat (chunks i + N.of_nat (length ns)) (bytes i + total ns) (fold_left N.min ns (smallest i)) (fold_left N.max ns (largest i)).
Proof.
  clear. induction ns as [|n ns IH]; intros i H1 H2; cbn [fold_left length total fold_right] in *.
  - destruct i as [c1 c2 c3 c4]. cbn [chunks bytes smallest largest]. f_equal; lia.
  - fold (total ns) in *. unfold heap_stat at 2. unfold add64. rewrite !N.mod_small by (unfold W64 in *; lia).
    rewrite IH; cbn [chunks bytes smallest largest]; [|lia|lia]. f_equal; [lia|lia| |].
    + f_equal. unfold N.min. destruct (N.ltb_spec n (smallest i)), (N.compare_spec (smallest i) n); lia.
    + f_equal. unfold N.max. destruct (N.ltb_spec (largest i) n), (N.compare_spec (largest i) n); lia.
Qed.
Lemma stats_ok h C : inv false h C -> hs + 1 < W64 -> mm_stats fuel h =
  Some (mkStat (N.of_nat (length (frees C))) (total (map snd (frees C))) (fold_left N.min (map snd (frees C)) (hs + 1)) (fold_left N.max (map snd (frees C)) 0), h).
Proof.
  intros H Hhs. pose proof (in_head _ _ _ H) as (Hb & Hg & Hs & Hst & Hlk).
  set (h0 := set_lock true h). assert (H0 : inv true h0 C) by exact (lock_inv _ _ _ _ H). pose proof (in_trees _ _ _ H0) as HTr.
  unfold mm_stats. cbv zeta. pose proof (trees_fuel _ _ HTr) as Hf.
  pose proof (asc_length (frees C) 0 (tr_asc _ _ HTr) (tr_in _ _ HTr)) as HL. replace (T - 0) with T in HL by lia.
  assert (HL' : (length (frees C) <= N.to_nat T)%nat) by (apply HL; [apply Forall_forall; intros; lia|lia]). clear HL.
  destruct (holds_traverse _ (map anode (frees C)) (fun _ : list (N * N) => 0%Z) fuel (tr_addr _ _ HTr)) as (rc & log & E & (rest & E1 & E2) & _ & E4 & E5).
  { rewrite map_length. eapply enough_le; [|exact Hf]. lia. }
  assert (rc = 0%Z) as -> by (destruct log; [now apply (proj2 E5)|symmetry; now apply (proj1 E5)]). rewrite (E2 eq_refl), app_nil_r in E1.
  assert (Et : on_addr (rbt_traverse fuel (fun _ => 0%Z)) h0 = Some ((0%Z, log), h0)) by (rewrite (on_addr_eq _ _ _ _ E); now destruct h0).
  rewrite (mbind_eq _ _ _ _ _ (lock_eq _ Hlk)). fold h0. rewrite (mbind_eq _ _ _ _ _ Et). cbn [snd]. rewrite <- E1, map_map. cbn [anode fst].
  rewrite (mbind_eq _ _ _ _ _ (counts_ok h0 (frees C) HTr (frees C) (incl_refl _))). pose proof (tiles_total _ _ _ (in_tiles _ _ _ H)) as Ht.
  unfold mbind, unlock, mret. unfold h0. rewrite lock_id by exact Hlk.
  rewrite stat_ok; cbn [chunks bytes smallest largest].
  - rewrite Hs. unfold add64. rewrite N.mod_small by exact Hhs. rewrite !N.add_0_l, map_length. reflexivity.
  - rewrite map_length. unfold W31, W64 in *. lia.
  - unfold W31, W64 in *. lia.
Qed.
Lemma live_total A C : live A C -> total (map (fun e => need (128 * q) (snd e)) A) = total (map snd (uses C)).
Proof.
  intros H. apply (Permutation_map snd) in H. rewrite !map_map in H. cbn [snd] in H. unfold total.
  assert (G : forall l l', Permutation l l' -> fold_right N.add 0 l = fold_right N.add 0 l') by (clear; induction 1; cbn [fold_right]; lia).
  now apply G.
Qed.

(** ** Initialisation *)
Lemma init_chunk m : 1 <= T -> (forall i, i < T -> m (ao i) <> None /\ m (so i) <> None) ->
  exists h', add_chunk fuel at_ T (mkMM bits (128 * q) hs at_ false 0 0 0 0 m) = Some (tt, h') /\ inv false h' [((0, T), false)].
Proof.
  intros H1 Hsol. assert (H0T : 0 < T) by lia. set (h := mkMM bits (128 * q) hs at_ false 0 0 0 0 m).
  assert (E0 : at_ = ao 0) by (unfold ao; lia). rewrite E0.
  assert (Hs : solid h) by exact Hsol.
  destruct (cell_so h 0 Hs H0T) as (cs & Ecs).
  set (h1 := hput h (so 0) (rekey cs T)).
  destruct (cell_ao h1 0 (solid_put _ _ _ Hs) H0T) as (ca & Eca).
  set (h2 := hput h1 (ao 0) (rekey ca (ao 0))).
  assert (HT0 : trees h2 ([] ++ [])).
  { assert (Hempty : forall m', holds (mkSt 0 0 m') []) by (intros m'; split; [exists 0%nat; constructor|split; constructor]).
    constructor; try constructor.
    - exists []. split; [apply Hempty|]. split; constructor.
    - apply (Hempty (mem h2)).
    - split; constructor. }
  destruct (t_ins h2 [] 0 T [] (rekey ca (ao 0)) (rekey cs T) HT0) as (h3 & E3 & HT3 & HH3 & K3 & F3).
  { repeat constructor. } { exact H0T. } { lia. } { apply put_eq. } { reflexivity. }
  { unfold h2. rewrite put_ne by (pose proof (ao_so 0 0); lia). apply put_eq. } { reflexivity. }
  exists h3. split; [|constructor].
  - unfold add_chunk. rewrite ptr_so by exact H0T. rewrite (mbind_eq _ _ _ _ _ (set_key_eq _ _ _ _ (so_pos 0) Ecs)). fold h1.
    rewrite (mbind_eq _ _ _ _ _ (set_key_eq _ _ _ _ (ao_pos 0) Eca)). fold h2. unfold ins_both in E3. rewrite ptr_so in E3 by exact H0T. exact E3.
  - apply (head_same _ h2); [exact HH3|]. now repeat split.
  - cbn [tiles]. split; [reflexivity|]. split; lia.
  - cbn [calm]. split; [now left|exact I].
  - exact HT3.
  - intros i n [E|[]]. discriminate.
  - apply (solid_keys h2); [|exact K3]. apply solid_put, solid_put, Hs.
Qed.
End Trees.
