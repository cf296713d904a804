(** Proofs about the heap inside a metric set. *)
From Verif Require Import S_LHeap S_Rrbt L_RrbtTop L_RbtTop.
From Coq Require Import Sorting.Permutation Sorting.Sorted.
From Coq Require Import ZifyBool ZifyNat ZifyN.
Local Open Scope N_scope.

(** ** Operations on the trees keep the keys *)
Definition keeps {A} (m : prog A) : Prop :=
  forall s a s', m s = Some (a, s') -> forall x, option_map key (heap s' x) = option_map key (heap s x).
Lemma keeps_bind {A B} (m : prog A) (k : A -> prog B) : keeps m -> (forall a, keeps (k a)) -> keeps (bind m k).
Proof.
  intros H1 H2 s b s' E x. unfold bind in E. destruct (m s) as [[a s1]|] eqn:E1; [|discriminate].
  rewrite (H2 a _ _ _ E x). exact (H1 _ _ _ E1 x).
Qed.
Lemma keeps_pure {A} (m : prog A) : pure m -> keeps m.
Proof. intros H s a s' E x. now rewrite (H _ _ _ E). Qed.
Lemma keeps_ret {A} (a : A) : keeps (ret a). Proof. apply keeps_pure, pure_ret. Qed.
Lemma keeps_fail {A} : keeps (@fail A). Proof. apply keeps_pure, pure_fail. Qed.
Lemma keeps_store a f : (forall n, key (f n) = key n) -> keeps (store a f).
Proof.
  intros Hf s u s' E x. unfold store in E. destruct (a =? 0); [discriminate|]. destruct (heap s a) as [n|] eqn:Ea; [|discriminate].
  injection E as <- <-. cbn [heap]. unfold upd. destruct (N.eqb_spec x a) as [->|_]; [|reflexivity]. rewrite Ea. cbn [option_map]. now rewrite Hf.
Qed.
Lemma keeps_root v : keeps (set_root v). Proof. intros s u s' E x. now injection E as <- <-. Qed.
Lemma keeps_if {A} (b : bool) (m n : prog A) : keeps m -> keeps n -> keeps (if b then m else n).
Proof. now destruct b. Qed.
Ltac keepss :=
  repeat (cbv zeta; match goal with
  | |- keeps (bind _ _) => apply keeps_bind; [|intros ?]
  | |- keeps (ret _) => apply keeps_ret
  | |- keeps fail => apply keeps_fail
  | |- keeps (assert_ _) => apply keeps_pure, pure_assert
  | |- keeps (load _) => apply keeps_pure, pure_load
  | |- keeps get_root => apply keeps_pure, pure_get_root
  | |- keeps (set_root _) => apply keeps_root
  | |- keeps (rrbt_verify _ _) => apply keeps_pure, pure_verify
  | |- keeps (if ?b then _ else _) => apply keeps_if
  | |- keeps (let '(_, _) := ?p in _) => destruct p
  | |- keeps (store _ _) => apply keeps_store; intros; reflexivity
  | |- keeps (get_left _) => unfold get_left
  | |- keeps (get_right _) => unfold get_right
  | |- keeps (get_parent _) => unfold get_parent
  | |- keeps (get_key _) => unfold get_key
  | |- keeps (get_color _) => unfold get_color
  | |- keeps (node_color _) => unfold node_color
  | |- keeps (is_red _) => unfold is_red
  | |- keeps (rset_left _ _) => unfold rset_left
  | |- keeps (set_left _ _) => unfold set_left
  | |- keeps (set_right _ _) => unfold set_right
  | |- keeps (set_parent _ _) => unfold set_parent
  | |- keeps (set_color _ _) => unfold set_color
  | H : forall _, _ |- _ => solve [apply H]
  end).
Lemma keeps_rotl base x : keeps (rrotate_left base x). Proof. unfold rrotate_left. keepss. Qed.
Lemma keeps_rotr base x : keeps (rrotate_right base x). Proof. unfold rrotate_right. keepss. Qed.
Lemma keeps_ins base cmp fuel x : keeps (rrbt_ins base cmp fuel x).
Proof.
  pose proof keeps_rotl as RL. pose proof keeps_rotr as RR.
  assert (P1 : forall fuel x n p c, keeps (rins_descend base cmp fuel x n p c)) by (clear fuel; induction fuel as [|fuel IH]; intros; cbn [rins_descend]; keepss).
  assert (P2 : forall fuel x, keeps (rins_fix base fuel x)) by (clear fuel; induction fuel as [|fuel IH]; intros; cbn [rins_fix]; keepss).
  unfold rrbt_ins. keepss.
Qed.
Lemma keeps_del base fuel x : keeps (rrbt_del base fuel x).
Proof.
  pose proof keeps_rotl as RL. pose proof keeps_rotr as RR.
  assert (P1 : forall fuel n, keeps (rfind_pred_loop base fuel n)) by (clear fuel; induction fuel as [|fuel IH]; intros; cbn [rfind_pred_loop]; keepss).
  assert (P2 : forall n, keeps (rsibling base n)) by (intros; unfold rsibling; keepss).
  assert (P3 : forall o n, keeps (rreplace_node base o n)) by (intros; unfold rreplace_node; keepss).
  assert (P4 : forall c p s, keeps (rblack_around base c p s)) by (intros; unfold rblack_around; keepss).
  assert (P6 : forall n, keeps (rcase6 base n)) by (intros; unfold rcase6; keepss).
  assert (P5 : forall n, keeps (rcase5 base n)) by (intros; unfold rcase5, rcase5_left, rcase5_right; keepss).
  assert (P7 : forall n, keeps (rcase4 base n)) by (intros; unfold rcase4; keepss).
  assert (P8 : forall fuel n, keeps (rcase2 base fuel n)) by (clear fuel; induction fuel as [|fuel IH]; intros; cbn [rcase2]; keepss).
  assert (P9 : forall n, keeps (rdel_leaf base fuel n)) by (intros; unfold rdel_leaf; keepss).
  assert (P10 : forall o n, keeps (rattach base o n)) by (intros; unfold rattach; keepss).
  assert (P11 : forall n, keeps (rdel_core base fuel n)) by (intros; unfold rdel_core, rfind_pred; keepss).
  unfold rrbt_del. keepss.
Qed.

(** ** Comparing 64 bit keys *)
Lemma cmp64_le a b : (cmp64 a b <= 0)%Z <-> a <= b.
Proof. unfold cmp64. destruct (N.ltb_spec b a), (N.ltb_spec a b); lia. Qed.
Lemma cmp64_gt a b : (0 < cmp64 a b)%Z <-> b < a.
Proof. unfold cmp64. destruct (N.ltb_spec b a), (N.ltb_spec a b); lia. Qed.
Lemma cmp64_lt a b : (cmp64 a b < 0)%Z <-> a < b.
Proof. unfold cmp64. destruct (N.ltb_spec b a), (N.ltb_spec a b); lia. Qed.
Lemma cmp64_ge a b : (0 <= cmp64 a b)%Z <-> b <= a.
Proof. unfold cmp64. destruct (N.ltb_spec b a), (N.ltb_spec a b); lia. Qed.
Lemma cmp64_pre : preorder cmp64.
Proof.
  constructor.
  - intros a b. now rewrite cmp64_gt, cmp64_lt.
  - intros a b c. rewrite !cmp64_le. lia.
Qed.

(** ** Programs on the heap *)
Lemma hbind_eq {A B} (m : hprog A) (k : A -> hprog B) h a h' : m h = Some (a, h') -> hbind m k h = k a h'.
Proof. intros E. unfold hbind. now rewrite E. Qed.
Lemma on_size_eq {A} (m : prog A) h a s : m (mkSt (sroot h) 0 (mem h)) = Some (a, s) ->
  on_size m h = Some (a, mkHp (grain_bits h) (grain h) (hsize h) (hgn h) (root s) (aroot h) (heap s)).
Proof. intros E. unfold on_size. now rewrite E. Qed.
Lemma on_addr_eq {A} (m : prog A) h a s : m (mkSt (aroot h) 0 (mem h)) = Some (a, s) ->
  on_addr m h = Some (a, mkHp (grain_bits h) (grain h) (hsize h) (hgn h) (sroot h) (root s) (heap s)).
Proof. intros E. unfold on_addr. now rewrite E. Qed.
Lemma key_of_eq a h n : a <> 0 -> mem h a = Some n -> key_of a h = Some (key n, h).
Proof.
  intros Ha E. unfold key_of, on_size, get_key, bind, load. cbn [heap]. rewrite (proj2 (N.eqb_neq _ _) Ha), E. cbn. now destruct h.
Qed.
Lemma get_count_eq a h n : a <> 0 -> mem h a = Some n -> get_count a h = Some (word0 n mod W32, h).
Proof.
  intros Ha E. unfold get_count, on_size, bind, load. cbn [heap]. rewrite (proj2 (N.eqb_neq _ _) Ha), E. cbn. now destruct h.
Qed.
Definition hput (h : hp) (a : N) (n : node) : hp := set_mem h (upd (mem h) a n).
Definition rekey (n : node) (k : N) : node := mkN (left n) (right n) (parent n) (col n) k.
Lemma set_key_eq a k h n : a <> 0 -> mem h a = Some n -> set_key a k h = Some (tt, hput h a (rekey n k)).
Proof.
  intros Ha E. unfold set_key, on_size, store. cbn [heap]. rewrite (proj2 (N.eqb_neq _ _) Ha), E. reflexivity.
Qed.
Lemma set_count_eq a c h n : a <> 0 -> mem h a = Some n ->
  set_count a c h = Some (tt, hput h a (with_word0 n (word0 n - word0 n mod W32 + c mod W32))).
Proof.
  intros Ha E. unfold set_count, on_size, store. cbn [heap]. rewrite (proj2 (N.eqb_neq _ _) Ha), E. reflexivity.
Qed.
Lemma with_word0_word n w : word0 (with_word0 n w) = w.
Proof.
  unfold word0, with_word0. cbn [left col]. pose proof (N.div_mod w 2 ltac:(lia)) as H.
  rewrite <- N.bit0_mod, N.bit0_odd in H. destruct (N.odd w); cbn [N.b2n] in H; lia.
Qed.
Lemma count_back w c : c < W32 -> (w - w mod W32 + c mod W32) mod W32 = c.
Proof.
  intros Hc. rewrite (N.mod_small c) by exact Hc. unfold W32 in *.
  replace (w - w mod 4294967296) with (w / 4294967296 * 4294967296).
  - rewrite N.add_comm, N.mod_add by lia. now apply N.mod_small.
  - pose proof (N.div_mod w 4294967296). lia.
Qed.

(** The fields the trees do not touch *)
Definition same_head (h h' : hp) : Prop := grain_bits h' = grain_bits h /\ grain h' = grain h /\ hsize h' = hsize h.
Definition same_keys (h h' : hp) : Prop := forall x, option_map key (mem h' x) = option_map key (mem h x).

Lemma rholds_key base size s L o k : rholds base size s L -> In (o, k) L -> exists nd, heap s (base + o) = Some nd /\ key nd = k.
Proof.
  intros ([b H] & _). revert H. generalize (root s) 0 Black. intros r q c H. induction H as [q|p q l r k' L1 L2 b Hp E H1 IH1 H2 IH2|p q l r k' L1 L2 b c1 c2 Hp E H1 IH1 H2 IH2];
    intros Hin; [destruct Hin| |]; cbv beta in *; apply in_app_iff in Hin as [Hin|[Hin|Hin]]; try (now apply IH1); try (now apply IH2);
    injection Hin as <- <-; eexists; (split; [exact E|reflexivity]).
Qed.
Lemma rholds_frame base size r h h' L : rholds base size (mkSt r 0 h) L -> (forall e, In e L -> h' (base + fst e) = h (base + fst e)) ->
  rholds base size (mkSt r 0 h') L.
Proof.
  intros ([b H] & HN & HF) He. split; [|now split]. exists b. cbn [root heap] in *. eapply tree_at_frame; [exact H|].
  intros o Ho. apply in_map_iff in Ho as (e & <- & Hin). now apply He.
Qed.
Lemma st_card base size s L r h : root s = r -> heap s = h -> rholds base size s L -> rholds base size (mkSt r 0 h) L.
Proof. intros <- <- H. exact H. Qed.

(** ** The two trees *)
Section Trees.
Variables (base q hs T : N) (fuel : nat).
Notation g := (64 * q) (only parsing).
Hypothesis Hq : 1 <= q.
Hypothesis HT : T * (64 * q) <= hs.
Hypothesis Hwrap : base + hs + 8 <= W64.
Hypothesis Hhalf : hs + 8 <= W63.
Hypothesis Hfuel : enough (S (N.to_nat T)) fuel.

Definition ao (i : N) : N := 8 + i * (64 * q).
Definition so (i : N) : N := 8 + i * (64 * q) + 32.
Definition anode (e : N * N) : N * N := (ao (fst e), ao (fst e)).
Definition snode (e : N * N) : N * N := (so (fst e), snd e).
Definition asc (F : list (N * N)) : Prop := StronglySorted (fun x y => fst x < fst y) F.
Record trees (h : hp) (F : list (N * N)) : Prop := mkTrees {
  tr_size : exists LS, rholds base (hs + 8) (mkSt (sroot h) 0 (mem h)) LS /\ sorted cmp64 LS /\ Permutation LS (map snode F);
  tr_addr : rholds base (hs + 8) (mkSt (aroot h) 0 (mem h)) (map anode F);
  tr_asc : asc F;
  tr_in : Forall (fun e => fst e < T) F }.
Definition is_node (F : list (N * N)) (a : N) : Prop := exists e, In e F /\ (a = base + ao (fst e) \/ a = base + so (fst e)).

Lemma Hreg : region base (hs + 8).
Proof. unfold region. lia. Qed.
Lemma ao_so i j : ao i <> so j.
Proof using Hq. clear - Hq. unfold ao, so. assert (forall a b, 8 + a * (64 * b) = 8 + 64 * (a * b)) as R by (intros; lia). rewrite !R. generalize (i * q) (j * q). intros. lia. Qed.
Lemma ao_inj i j : ao i = ao j -> i = j.
Proof using Hq. clear - Hq. unfold ao. intros E. assert (i * (64 * q) = j * (64 * q)) as E' by lia. apply N.mul_cancel_r in E'; [exact E'|lia]. Qed.
Lemma so_inj i j : so i = so j -> i = j.
Proof using Hq. clear - Hq. unfold so. intros E. apply ao_inj. unfold ao. lia. Qed.
Lemma ao_mono i j : i < j -> ao i + 64 * q <= ao j.
Proof using Hq. clear - Hq. unfold ao. intros H. pose proof (N.mul_le_mono_r (i + 1) j (64 * q)). lia. Qed.
Lemma ao_lt_iff i j : ao i < ao j <-> i < j.
Proof using Hq. clear - Hq. unfold ao. rewrite (N.mul_lt_mono_pos_r (64 * q) i j) by lia. lia. Qed.
Lemma ao_bound i : i < T -> ao i + 64 * q <= hs + 8.
Proof. intros H. apply ao_mono in H. unfold ao in *. lia. Qed.
Lemma ao_hs i : i < T -> 0 < ao i < hs /\ so i < hs + 8.
Proof. intros H. apply ao_bound in H. unfold ao, so in *. lia. Qed.
Lemma base_neq x : 0 < x -> base + x <> 0. Proof. lia. Qed.

Lemma asc_app F1 e F2 : asc (F1 ++ e :: F2) <-> asc (F1 ++ F2) /\ Forall (fun y => fst y < fst e) F1 /\ Forall (fun y => fst e < fst y) F2.
Proof.
  unfold asc. induction F1 as [|y F1 IH]; cbn [app].
  - split.
    + intros H. apply StronglySorted_inv in H as [H1 H2]. split; [exact H1|]. split; [constructor|exact H2].
    + intros (H1 & _ & H2). now constructor.
  - split.
    + intros H. apply StronglySorted_inv in H as [H1 H2]. apply IH in H1 as (H3 & H4 & H5). apply Forall_app in H2 as [H6 H7]. apply Forall_cons_iff in H7 as [H7 H8].
      split; [constructor; [exact H3|apply Forall_app; now split]|]. split; [now constructor|exact H5].
    + intros (H1 & H2 & H3). apply StronglySorted_inv in H1 as [H4 H5]. apply Forall_cons_iff in H2 as [H2 H8]. apply Forall_app in H5 as [H6 H7].
      constructor; [apply IH; now repeat split|]. apply Forall_app. split; [exact H6|]. now constructor.
Qed.
Lemma asc_length : forall F b, asc F -> Forall (fun e => fst e < T) F -> Forall (fun e => b <= fst e) F -> b <= T -> (length F <= N.to_nat (T - b))%nat.
Proof.
  induction F as [|e F IH]; intros b H1 H2 H3 Hb; cbn [length]; [lia|].
  apply StronglySorted_inv in H1 as [H1 H4]. apply Forall_cons_iff in H2 as [H2 H6]. apply Forall_cons_iff in H3 as [H3 H7].
  specialize (IH (fst e + 1) H1 H6). enough (length F <= N.to_nat (T - (fst e + 1)))%nat by lia. apply IH; [|lia].
  eapply Forall_impl; [|exact H4]. cbv beta. intros. lia.
Qed.
Lemma trees_fuel h F : trees h F -> enough (S (length F)) fuel.
Proof.
  intros H. eapply enough_le; [|exact Hfuel]. apply le_n_S. pose proof (asc_length F 0 (tr_asc _ _ H) (tr_in _ _ H)) as HL.
  replace (T - 0) with T in HL by lia. apply HL; [|lia]. apply Forall_forall. intros. lia.
Qed.
Lemma trees_small h F e : trees h F -> In e F -> fst e < T.
Proof. intros H. apply (proj1 (Forall_forall _ _) (tr_in _ _ H)). Qed.

(** the cells of the nodes *)
Lemma trees_node h F i n : trees h F -> In (i, n) F ->
  (exists nd, mem h (base + so i) = Some nd /\ key nd = n) /\ (exists nd, mem h (base + ao i) = Some nd /\ key nd = ao i).
Proof.
  intros [(LS & H1 & _ & HP) H2 _ _] Hin. split.
  - apply (rholds_key _ _ _ _ _ _ H1). eapply Permutation_in; [symmetry; exact HP|]. change (so i, n) with (snode (i, n)). now apply in_map.
  - apply (rholds_key _ _ _ _ _ _ H2). change (ao i, ao i) with (anode (i, n)). now apply in_map.
Qed.

Lemma trees_frame h h' F : trees h F -> sroot h' = sroot h -> aroot h' = aroot h -> (forall a, is_node F a -> mem h' a = mem h a) -> trees h' F.
Proof.
  intros [(LS & H1 & H2 & HP) H3 H4 H5] E1 E2 E3. constructor; [|..|exact H4|exact H5]; [|rewrite E2].
  - exists LS. split; [|now split]. rewrite E1. eapply rholds_frame; [exact H1|]. intros e He. apply E3. cbn [mem].
    eapply Permutation_in in He; [|exact HP]. apply in_map_iff in He as (e' & <- & He'). exists e'. split; [exact He'|]. now right.
  - eapply rholds_frame; [exact H3|]. intros e He. apply E3. apply in_map_iff in He as (e' & <- & He'). exists e'. split; [exact He'|]. now left.
Qed.

(** removing a chunk from both trees *)
Lemma t_del h F1 i n F2 : trees h (F1 ++ (i, n) :: F2) ->
  exists h', (forall B (k : unit -> hprog B), (on_size (rrbt_del base fuel (base + so i)) ;;- hbind (on_addr (rrbt_del base fuel (base + ao i))) k) h = k tt h') /\
    trees h' (F1 ++ F2) /\ same_head h h' /\ hgn h' = hgn h /\ same_keys h h' /\
    (forall a, ~ is_node (F1 ++ (i, n) :: F2) a -> mem h' a = mem h a).
Proof.
  intros H. pose proof (trees_fuel _ _ H) as Hf. destruct H as [(LS & H1 & H2 & HP) H3 H4 H5].
  assert (Hin : In (so i, n) LS) by (eapply Permutation_in; [symmetry; exact HP|]; change (so i, n) with (snode (i, n)); apply in_map, in_elt).
  apply in_split in Hin as (L1 & L2 & ->).
  assert (HP' : Permutation (L1 ++ L2) (map snode (F1 ++ F2))).
  { rewrite map_app in *. cbn [map] in HP. change (snode (i, n)) with (so i, n) in HP. now apply Permutation_app_inv in HP. }
  assert (HL : length (L1 ++ (so i, n) :: L2) = length (F1 ++ (i, n) :: F2)) by (rewrite (Permutation_length HP), map_length; reflexivity).
  destruct (r_del base (hs + 8) _ L1 (so i) n L2 fuel Hreg H1) as (s1 & E1 & H1' & E1').
  { eapply enough_le; [|exact Hf]. rewrite HL. lia. }
  pose proof (keeps_del _ _ _ _ _ _ E1) as K1. cbn [heap] in *.
  rewrite map_app in H3. cbn [map] in H3. change (anode (i, n)) with (ao i, ao i) in H3.
  assert (Hlen : length (map anode F1 ++ (ao i, ao i) :: map anode F2) = length (F1 ++ (i, n) :: F2)) by (rewrite !app_length; cbn [length]; now rewrite !map_length).
  assert (H3' : rholds base (hs + 8) (mkSt (aroot h) 0 (heap s1)) (map anode F1 ++ (ao i, ao i) :: map anode F2)).
  { eapply rholds_frame; [exact H3|]. intros e He. apply E1'. intros e' He'. eapply Permutation_in in He'; [|exact HP].
    apply in_map_iff in He' as (x' & <- & _). assert (exists x, fst e = ao x) as [x ->].
    { apply in_app_iff in He as [He|[<-|He]]; [apply in_map_iff in He as (y & <- & _)| |apply in_map_iff in He as (y & <- & _)]; eexists; reflexivity. }
    unfold snode. cbn [fst]. pose proof (ao_so x (fst x')). lia. }
  destruct (r_del base (hs + 8) _ _ _ _ _ fuel Hreg H3') as (s2 & E2 & H2' & E2').
  { eapply enough_le; [|exact Hf]. rewrite Hlen. lia. }
  pose proof (keeps_del _ _ _ _ _ _ E2) as K2. cbn [heap] in *.
  set (h' := mkHp (grain_bits h) (grain h) (hsize h) (hgn h) (root s1) (root s2) (heap s2)).
  exists h'. split; [|split; [|split; [|split; [|split]]]].
  - intros B k. rewrite (hbind_eq _ _ _ _ _ (on_size_eq _ _ _ _ E1)). cbn [root]. 
    rewrite (hbind_eq _ _ _ _ _ (on_addr_eq _ (mkHp (grain_bits h) (grain h) (hsize h) (hgn h) (root s1) (aroot h) (heap s1)) _ _ E2)). reflexivity.
  - constructor; cbn [h' sroot aroot mem].
    + exists (L1 ++ L2). split; [|split; [now apply sorted_drop in H2|exact HP']].
      eapply rholds_frame; [eapply st_card; [reflexivity|reflexivity|exact H1']|]. intros e He. apply E2'. intros e' He'.
      eapply Permutation_in in He; [|exact HP']. apply in_map_iff in He as (x & <- & _).
      assert (exists x, fst e' = ao x) as [x' ->].
      { apply in_app_iff in He' as [He'|[<-|He']]; [apply in_map_iff in He' as (y & <- & _)| |apply in_map_iff in He' as (y & <- & _)]; eexists; reflexivity. }
      unfold snode. cbn [fst]. pose proof (ao_so x' (fst x)). lia.
    + rewrite map_app. eapply st_card; [reflexivity|reflexivity|exact H2'].
    + now apply asc_app in H4.
    + apply Forall_app in H5 as [H5 H6]. apply Forall_cons_iff in H6 as [_ H6]. apply Forall_app. now split.
  - now repeat split.
  - reflexivity.
  - intros x. cbn [h' mem]. now rewrite K2, K1.
  - intros a Ha. cbn [h' mem]. rewrite E2', E1'.
    + reflexivity.
    + intros e He Ea. apply Ha. eapply Permutation_in in He; [|exact HP]. apply in_map_iff in He as (x & <- & Hx). exists x. split; [exact Hx|now right].
    + intros e He Ea. apply Ha. subst a.
      assert (In e (map anode (F1 ++ (i, n) :: F2))) as He' by (rewrite map_app; exact He).
      apply in_map_iff in He' as (x & <- & Hx). exists x. split; [exact Hx|now left].
Qed.

(** inserting a chunk into both trees *)
Lemma t_ins h F1 i n F2 na ns : trees h (F1 ++ F2) -> asc (F1 ++ (i, n) :: F2) -> i < T ->
  mem h (base + ao i) = Some na -> key na = ao i -> mem h (base + so i) = Some ns -> key ns = n ->
  exists h', (forall B (k : unit -> hprog B), (on_size (rrbt_ins base cmp64 fuel (base + so i)) ;;- hbind (on_addr (rrbt_ins base cmp64 fuel (base + ao i))) k) h = k tt h') /\
    trees h' (F1 ++ (i, n) :: F2) /\ same_head h h' /\ hgn h' = hgn h /\ same_keys h h' /\
    (forall a, ~ is_node (F1 ++ (i, n) :: F2) a -> mem h' a = mem h a).
Proof.
  intros H Ha Hi Ea Ka Es Ks. pose proof (trees_fuel _ _ H) as Hf. destruct H as [(LS & H1 & H2 & HP) H3 H4 H5].
  apply asc_app in Ha as Ha'. destruct Ha' as (_ & Hlo & Hhi).
  assert (Hni : ~ In i (map fst (F1 ++ F2))).
  { rewrite map_app, in_app_iff, !in_map_iff. intros [(e & <- & He)|(e & <- & He)].
    - apply (proj1 (Forall_forall _ _) Hlo) in He. cbn [fst] in He. lia.
    - apply (proj1 (Forall_forall _ _) Hhi) in He. cbn [fst] in He. lia. }
  assert (HL : length LS = length (F1 ++ F2)) by (rewrite (Permutation_length HP), map_length; reflexivity).
  pose proof (ao_hs i Hi) as Hb.
  destruct (r_ins base (hs + 8) cmp64 _ LS (so i) ns fuel Hreg H1) as (s1 & L1 & L2 & E1 & -> & H1' & E1' & HO).
  { unfold so in *. lia. }
  { exact Es. }
  { unfold inL. rewrite (Permutation_in' eq_refl (Permutation_map fst HP)), map_map, in_map_iff. intros (e & E & He). apply so_inj in E. subst i. apply Hni. now apply in_map. }
  { now rewrite HL. }
  pose proof (keeps_ins _ _ _ _ _ _ _ E1) as K1. cbn [heap] in *.
  destruct (HO cmp64_pre H2) as [HO1 HO2]. rewrite Ks in *. clear HO.
  assert (H3' : rholds base (hs + 8) (mkSt (aroot h) 0 (heap s1)) (map anode (F1 ++ F2))).
  { eapply rholds_frame; [exact H3|]. intros e He. apply in_map_iff in He as (x & <- & _). apply E1'.
    - unfold anode. cbn [fst]. pose proof (ao_so (fst x) i). lia.
    - intros e' He'. eapply Permutation_in in He'; [|exact HP]. apply in_map_iff in He' as (x' & <- & _).
      unfold anode, snode. cbn [fst]. pose proof (ao_so (fst x) (fst x')). lia. }
  destruct (r_ins base (hs + 8) cmp64 _ (map anode (F1 ++ F2)) (ao i) na fuel Hreg H3') as (s2 & M1 & M2 & E2 & EM & H2' & E2' & HO).
  { lia. }
  { cbn [heap]. rewrite E1'; [exact Ea|pose proof (ao_so i i); lia|]. intros e He. eapply Permutation_in in He; [|exact HP]. apply in_map_iff in He as (x & <- & _).
    unfold snode. cbn [fst]. pose proof (ao_so i (fst x)). lia. }
  { unfold inL. rewrite map_map, in_map_iff. intros (e & E & He). apply ao_inj in E. subst i. apply Hni. now apply in_map. }
  { rewrite map_length. exact Hf. }
  pose proof (keeps_ins _ _ _ _ _ _ _ E2) as K2. cbn [heap] in *. rewrite Ka in *.
  assert (HS : sorted cmp64 (map anode (F1 ++ F2))).
  { clear - H4 Hq. unfold sorted. unfold asc in H4. induction H4 as [|e F H4 IH H5]; cbn [map]; constructor; [exact IH|].
    rewrite Forall_map. eapply Forall_impl; [|exact H5]. intros y Hy. cbn [anode snd]. apply cmp64_le. apply ao_lt_iff in Hy. lia. }
  destruct (HO cmp64_pre HS) as [HO3 HO4].
  assert (EE : M1 ++ (ao i, ao i) :: M2 = map anode F1 ++ (ao i, ao i) :: map anode F2).
  { rewrite <- (place_eq cmp64 (ao i, ao i) M1 M2), <- (place_eq cmp64 (ao i, ao i) (map anode F1) (map anode F2)).
    - now rewrite <- EM, map_app.
    - rewrite Forall_map. eapply Forall_impl; [|exact Hlo]. intros y Hy. cbn [anode snd fst] in *. apply cmp64_le. apply ao_lt_iff in Hy. lia.
    - rewrite Forall_map. eapply Forall_impl; [|exact Hhi]. intros y Hy. cbn [anode snd fst] in *. apply cmp64_gt. now apply ao_lt_iff in Hy.
    - exact HO3.
    - exact HO4. }
  rewrite EE in H2'.
  set (h' := mkHp (grain_bits h) (grain h) (hsize h) (hgn h) (root s1) (root s2) (heap s2)).
  exists h'. split; [|split; [|split; [|split; [|split]]]].
  - intros B k. rewrite (hbind_eq _ _ _ _ _ (on_size_eq _ _ _ _ E1)). cbn [root]. 
    rewrite (hbind_eq _ _ _ _ _ (on_addr_eq _ (mkHp (grain_bits h) (grain h) (hsize h) (hgn h) (root s1) (aroot h) (heap s1)) _ _ E2)). reflexivity.
  - constructor; cbn [h' sroot aroot mem].
    + assert (HPn : Permutation (L1 ++ (so i, n) :: L2) (map snode (F1 ++ (i, n) :: F2))).
      { rewrite map_app in *. cbn [map]. change (snode (i, n)) with (so i, n). rewrite <- !Permutation_middle. now constructor. }
      exists (L1 ++ (so i, n) :: L2). split; [|split; [apply (sorted_join _ cmp64_pre); assumption|exact HPn]].
      eapply rholds_frame; [eapply st_card; [reflexivity|reflexivity|exact H1']|]. intros e He.
      eapply Permutation_in in He; [|exact HPn]. apply in_map_iff in He as (x & <- & _). apply E2'.
      * unfold snode. cbn [fst]. pose proof (ao_so i (fst x)). lia.
      * intros e' He'. apply in_map_iff in He' as (x' & <- & _). unfold anode, snode. cbn [fst]. pose proof (ao_so (fst x') (fst x)). lia.
    + rewrite map_app. cbn [map]. change (anode (i, n)) with (ao i, ao i). eapply st_card; [reflexivity|reflexivity|exact H2'].
    + exact Ha.
    + apply Forall_app in H5 as [H5 H6]. apply Forall_app. split; [exact H5|now constructor].
  - now repeat split.
  - reflexivity.
  - intros x. cbn [h' mem]. now rewrite K2, K1.
  - intros a Hna. cbn [h' mem]. rewrite E2', E1'.
    + reflexivity.
    + intros ->. apply Hna. exists (i, n). split; [apply in_elt|now right].
    + intros e He ->. apply Hna. eapply Permutation_in in He; [|exact HP]. apply in_map_iff in He as (x & <- & Hx). exists x. split; [|now right].
      rewrite in_app_iff in *. cbn [In]. tauto.
    + intros ->. apply Hna. exists (i, n). split; [apply in_elt|now left].
    + intros e He ->. apply Hna. apply in_map_iff in He as (x & <- & Hx). exists x. split; [|now left].
      rewrite in_app_iff in *. cbn [In]. tauto.
Qed.

(** ** Chunks *)
Notation chunk := (N * N * bool)%type (only parsing).
Fixpoint frees (C : list chunk) : list (N * N) :=
  match C with [] => [] | (e, u) :: C => if u then frees C else e :: frees C end.
Fixpoint tiles (s : N) (C : list chunk) (e : N) : Prop :=
  match C with [] => s = e | (i, n, _) :: C => i = s /\ 1 <= n /\ tiles (s + n) C e end.
Fixpoint calm (prev : bool) (C : list chunk) : Prop :=
  match C with [] => True | (_, u) :: C => (prev = true \/ u = true) /\ calm u C end.
Fixpoint lastu (b : bool) (C : list chunk) : bool := match C with [] => b | (_, u) :: C => lastu u C end.
Lemma frees_app C1 C2 : frees (C1 ++ C2) = frees C1 ++ frees C2.
Proof. induction C1 as [|[e u] C1 IH]; [reflexivity|]. cbn [app frees]. destruct u; [exact IH|]. cbn [app]. now rewrite IH. Qed.
Lemma in_frees C e : In e (frees C) <-> In (e, false) C.
Proof.
  induction C as [|[e' u] C IH]; [reflexivity|]. cbn [frees In]. destruct u; cbn [In]; rewrite IH.
  - split; [now right|]. intros [E|E]; [discriminate|exact E].
  - split; intros [E|E]; try (now right); left; [now subst|now injection E].
Qed.
Lemma tiles_app C1 C2 : forall s e, tiles s (C1 ++ C2) e <-> exists m, tiles s C1 m /\ tiles m C2 e.
Proof.
  induction C1 as [|[[i n] u] C1 IH]; intros s e; cbn [app tiles].
  - split; [intros H; now exists s|]. now intros (m & -> & H).
  - rewrite IH. split.
    + intros (H1 & H2 & m & H3 & H4). exists m. now repeat split.
    + intros (m & (H1 & H2 & H3) & H4). split; [exact H1|]. split; [exact H2|]. now exists m.
Qed.
Lemma tiles_le C : forall s e, tiles s C e -> s <= e.
Proof. induction C as [|[[i n] u] C IH]; intros s e; cbn [tiles]; [lia|]. intros (_ & H1 & H2). apply IH in H2. lia. Qed.
Lemma tiles_in C : forall s e i n u, tiles s C e -> In (i, n, u) C -> s <= i /\ 1 <= n /\ i + n <= e.
Proof.
  induction C as [|[[j m] v] C IH]; intros s e i n u H Hin; [destruct Hin|]. cbn [tiles] in H. destruct Hin as [E|Hin].
  - injection E as -> -> ->. destruct H as (-> & H1 & H2). apply tiles_le in H2. lia.
  - destruct H as (-> & H1 & H2). destruct (IH _ _ _ _ _ H2 Hin). lia.
Qed.
Lemma tiles_two C s e i n u j m v : tiles s C e -> In (i, n, u) C -> In (j, m, v) C -> (i, n, u) = (j, m, v) \/ i + n <= j \/ j + m <= i.
Proof.
  revert s. induction C as [|[[k l] w] C IH]; intros s H H1 H2; [destruct H1|]. cbn [tiles] in H. destruct H as (-> & H3 & H4).
  destruct H1 as [E1|H1], H2 as [E2|H2].
  - left. now rewrite <- E1, <- E2.
  - injection E1 as -> -> ->. right. left. destruct (tiles_in _ _ _ _ _ _ H4 H2). lia.
  - injection E2 as -> -> ->. right. right. destruct (tiles_in _ _ _ _ _ _ H4 H1). lia.
  - exact (IH _ H4 H1 H2).
Qed.
Lemma tiles_asc C : forall s e, tiles s C e -> asc (frees C) /\ Forall (fun x => s <= fst x) (frees C).
Proof.
  induction C as [|[[i n] u] C IH]; intros s e H; cbn [frees tiles] in *; [now repeat constructor|].
  destruct H as (-> & H1 & H2). destruct (IH _ _ H2) as [H3 H4]. destruct u.
  - split; [exact H3|]. eapply Forall_impl; [|exact H4]. cbv beta. lia.
  - split; [constructor; [exact H3|]|constructor; [cbn; lia|]]; (eapply Forall_impl; [|exact H4]); cbv beta; cbn [fst]; lia.
Qed.
Lemma calm_app C1 C2 : forall b, calm b (C1 ++ C2) <-> calm b C1 /\ calm (lastu b C1) C2.
Proof. induction C1 as [|[e u] C1 IH]; intros b; cbn [app calm lastu]; [tauto|]. rewrite IH. tauto. Qed.
Lemma lastu_app C1 C2 : forall b, lastu b (C1 ++ C2) = lastu (lastu b C1) C2.
Proof. induction C1 as [|[e u] C1 IH]; intros b; cbn [app lastu]; [reflexivity|]. apply IH. Qed.
Lemma calm_weak C : forall b, calm b C -> calm true C.
Proof. destruct C as [|[e u] C]; [now cbn|]. intros b [_ H]. split; [now left|exact H]. Qed.

Hypothesis HT32 : T < W32.
Variable bits : N.
Hypothesis Hbits : 2 ^ bits = 64 * q.

Definition solid (h : hp) : Prop := forall k, 32 * k < hs -> mem h (base + 8 + 32 * k) <> None.
Record inv (h : hp) (C : list chunk) : Prop := mkInv {
  in_bits : grain_bits h = bits; in_grain : grain h = 64 * q; in_size : hsize h = hs;
  in_tiles : tiles 0 C T;
  in_calm : calm true C;
  in_trees : trees h (frees C);
  in_count : forall i n, In (i, n, true) C -> exists nd, mem h (base + ao i) = Some nd /\ word0 nd mod W32 = n;
  in_solid : solid h }.

Lemma cell_ao h i : solid h -> i < T -> exists nd, mem h (base + ao i) = Some nd.
Proof.
  intros H Hi. apply ao_bound in Hi as Hb. specialize (H (2 * q * i)). unfold ao in *. replace (base + 8 + 32 * (2 * q * i)) with (base + (8 + i * (64 * q))) in H by lia.
  destruct (mem h (base + (8 + i * (64 * q)))) as [nd|]; [now exists nd|]. exfalso. apply H; [lia|reflexivity].
Qed.
Lemma cell_so h i : solid h -> i < T -> exists nd, mem h (base + so i) = Some nd.
Proof.
  intros H Hi. apply ao_bound in Hi as Hb. specialize (H (2 * q * i + 1)). unfold so, ao in *.
  replace (base + 8 + 32 * (2 * q * i + 1)) with (base + (8 + i * (64 * q) + 32)) in H by lia.
  destruct (mem h (base + (8 + i * (64 * q) + 32))) as [nd|]; [now exists nd|]. exfalso. apply H; [lia|reflexivity].
Qed.
Lemma solid_keys h h' : solid h -> same_keys h h' -> solid h'.
Proof. intros H K k Hk E. apply (H k Hk). specialize (K (base + 8 + 32 * k)). rewrite E in K. now destruct (mem h (base + 8 + 32 * k)). Qed.
Lemma solid_put h a n : solid h -> solid (hput h a n).
Proof. intros H k Hk. unfold hput, set_mem, upd. cbn [mem]. destruct (_ =? a); [discriminate|]. now apply H. Qed.
Lemma trees_put h F a n : trees h F -> ~ is_node F a -> trees (hput h a n) F.
Proof.
  intros H Ha. apply (trees_frame h); [exact H|reflexivity|reflexivity|]. intros x Hx. unfold hput, set_mem, upd. cbn [mem].
  destruct (N.eqb_spec x a) as [->|_]; [contradiction|reflexivity].
Qed.
Lemma put_eq h a n : mem (hput h a n) a = Some n.
Proof. unfold hput, set_mem, upd. cbn [mem]. now rewrite N.eqb_refl. Qed.
Lemma put_ne h a n x : x <> a -> mem (hput h a n) x = mem h x.
Proof. intros H. unfold hput, set_mem, upd. cbn [mem]. now rewrite (proj2 (N.eqb_neq _ _) H). Qed.
Lemma node_in_chunk C a : tiles 0 C T -> is_node (frees C) a -> exists i n, In (i, n, false) C /\ base + ao i <= a < base + ao i + n * (64 * q).
Proof.
  intros HTl ([i n] & Hin & Ha). cbn [fst] in Ha. apply in_frees in Hin. exists i, n. split; [exact Hin|].
  destruct (tiles_in _ _ _ _ _ _ HTl Hin) as (_ & Hn & _). pose proof (N.mul_le_mono_r 1 n (64 * q)).
  destruct Ha as [->| ->]; unfold ao, so in *; lia.
Qed.
Lemma blocks_apart i n j m a : i + n <= j \/ j + m <= i -> base + ao i <= a < base + ao i + n * (64 * q) -> base + ao j <= a < base + ao j + m * (64 * q) -> False.
Proof.
  unfold ao. intros [H|H] H1 H2; [pose proof (N.mul_le_mono_r _ _ (64 * q) H)|pose proof (N.mul_le_mono_r _ _ (64 * q) H)]; lia.
Qed.
Lemma used_not_node C i n a : tiles 0 C T -> In (i, n, true) C -> base + ao i <= a < base + ao i + n * (64 * q) -> ~ is_node (frees C) a.
Proof.
  intros HTl Hin Ha Hn. destruct (node_in_chunk _ _ HTl Hn) as (j & m & Hj & Hm).
  destruct (tiles_two _ _ _ _ _ _ _ _ _ HTl Hin Hj) as [E|E]; [discriminate|]. exact (blocks_apart _ _ _ _ _ E Ha Hm).
Qed.

(** Arithmetic on pointers into the heap *)
Lemma add_ptr x y : x + y < hs + 8 -> add64 (base + x) y = base + x + y.
Proof. intros H. unfold add64. apply N.mod_small. lia. Qed.
Lemma sub_ptr x y : x < hs + 8 -> y <= x -> sub64 (base + x) y = base + x - y.
Proof.
  intros H1 H2. unfold sub64, W64 in *. rewrite (N.mod_small y) by lia.
  replace (base + x + (18446744073709551616 - y)) with ((base + x - y) + 1 * 18446744073709551616) by lia.
  rewrite N.mod_add by lia. apply N.mod_small. lia.
Qed.
Lemma off_ptr_ x : 0 < x < hs -> forall h, hsize h = hs -> heap_off base (base + x) h = Some (x, h).
Proof.
  intros H h Eh. unfold heap_off. rewrite (proj2 (N.eqb_neq (base + x) 0)) by lia. cbv zeta.
  assert (E : sub64 (base + x) base = x).
  { unfold sub64, W64 in *. rewrite (N.mod_small base) by lia.
    replace (base + x + (18446744073709551616 - base)) with (x + 1 * 18446744073709551616) by lia. rewrite N.mod_add by lia. apply N.mod_small. lia. }
  rewrite E, Eh, (proj2 (N.ltb_lt _ _)) by lia. reflexivity.
Qed.
Lemma shl_bits n : n <= T -> shl64 n bits = n * (64 * q).
Proof.
  intros H. unfold shl64. rewrite N.shiftl_mul_pow2, Hbits. apply N.mod_small. pose proof (N.mul_le_mono_r _ _ (64 * q) H). lia.
Qed.
Lemma sub_small a b : b <= a -> a <= T -> sub64 a b = a - b.
Proof.
  intros H1 H2. assert (a < W64) by (unfold W64, W32 in *; lia). unfold sub64, W64 in *. rewrite (N.mod_small b) by lia.
  replace (a + (18446744073709551616 - b)) with ((a - b) + 1 * 18446744073709551616) by lia. rewrite N.mod_add by lia. apply N.mod_small. lia.
Qed.
Lemma add_small a b : a + b <= T -> add64 a b = a + b.
Proof. intros H. unfold add64. apply N.mod_small. unfold W64, W32 in *. lia. Qed.
Lemma so_ao_ i : so i = ao i + 32. Proof. reflexivity. Qed.
Lemma ptr_so i : i < T -> add64 (base + ao i) SIZE_NODE = base + so i.
Proof. intros H. pose proof (ao_hs i H). rewrite add_ptr; unfold SIZE_NODE; unfold so, ao in *; lia. Qed.
Lemma ptr_so' i : i < T -> sub64 (base + so i) SIZE_NODE = base + ao i.
Proof. intros H. pose proof (ao_hs i H). rewrite sub_ptr; unfold SIZE_NODE, so, ao in *; lia. Qed.

(** ** Allocation *)
Ltac sp := repeat match goal with |- _ /\ _ => split end.
Definition same_used (h h' : hp) (C : list chunk) : Prop :=
  forall a j m, In (j, m, true) C -> base + ao j <= a < base + ao j + m * (64 * q) -> mem h' a = mem h a.
Lemma alloc_ok h C cnt sz : inv h C -> N.shiftr (alloc_size (grain h) sz) (grain_bits h) = cnt -> 1 <= cnt ->
  ((forall i n, In (i, n, false) C -> n < cnt) /\ heap_alloc base fuel sz h = Some (0, h)) \/
  exists C1 i n C2 h', C = C1 ++ (i, n, false) :: C2 /\ cnt <= n /\ (forall j m, In (j, m, false) C -> cnt <= m -> n <= m) /\
    heap_alloc base fuel sz h = Some (base + ao i + 4, h') /\
    inv h' (C1 ++ (i, cnt, true) :: (if n =? cnt then C2 else (i + cnt, n - cnt, false) :: C2)) /\ same_used h h' C.
Proof.
  intros [Hb Hg Hs HTl HC HTr Hcnt Hsol] Ecnt H1. pose proof (trees_fuel _ _ HTr) as Hf.
  destruct (tr_size _ _ HTr) as (LS & R1 & R2 & HP).
  destruct (r_lub base (hs + 8) _ LS fuel Hreg R1) with (cmp := cmp64) (k := cnt) as (r & E1 & Hl).
  { eapply enough_le; [|exact Hf]. rewrite (Permutation_length HP), map_length. lia. }
  { exact cmp64_pre. } { exact R2. }
  assert (E1' : on_size (rrbt_find_lub base cmp64 fuel cnt) h = Some (addr base r, h)).
  { rewrite (on_size_eq _ _ _ _ E1). cbn [root heap]. now destruct h. }
  destruct Hl as [[-> Hl]|(kr & Hin & Hk & Hl)].
  { left. split.
    - intros i n Hin. apply in_frees in Hin. specialize (Hl (snode (i, n))). rewrite cmp64_lt in Hl. apply Hl.
      eapply Permutation_in; [symmetry; exact HP|]. now apply in_map.
    - unfold heap_alloc. cbv zeta. rewrite Ecnt. rewrite (hbind_eq _ _ _ _ _ E1'). reflexivity. }
  right. rewrite cmp64_ge in Hk. eapply Permutation_in in Hin; [|exact HP]. apply in_map_iff in Hin as ([i n] & E & Hin).
  unfold snode in E. cbn [fst snd] in E. injection E as <- <-.
  assert (Hbest : forall j m, In (j, m, false) C -> cnt <= m -> n <= m).
  { intros j m Hj Hm. apply in_frees in Hj. specialize (Hl (snode (j, m))). cbn [snode snd] in Hl. rewrite cmp64_ge, cmp64_le in Hl. apply Hl; [|exact Hm].
    eapply Permutation_in; [symmetry; exact HP|]. change (so j, m) with (snode (j, m)). now apply in_map. }
  assert (Hin' : In (i, n, false) C) by now apply in_frees.
  apply in_split in Hin' as (C1 & C2 & ->). exists C1, i, n, C2.
  destruct (tiles_in _ _ _ _ _ _ HTl (in_elt _ _ _)) as (_ & Hn & Hend). assert (HiT : i < T) by lia.
  pose proof HTr as HTr0. rewrite frees_app in HTr. cbn [frees] in HTr.
  destruct (t_del _ _ _ _ _ HTr) as (h1 & E2 & HT1 & (Sb1 & Sg1 & Ss1) & _ & K1 & F1).
  destruct (trees_node _ _ _ _ HTr (in_elt _ _ _)) as [(ns & Ens & Kns) (na & Ena & Kna)].
  assert (Esz : exists nd, mem h1 (base + so i) = Some nd /\ key nd = n).
  { specialize (K1 (base + so i)). rewrite Ens in K1. destruct (mem h1 (base + so i)) as [nd|]; [|discriminate]. exists nd. split; [reflexivity|].
    cbn [option_map] in K1. injection K1 as K1. congruence. }
  destruct Esz as (ns1 & Ens1 & Kns1).
  pose proof (solid_keys _ _ Hsol K1) as Hsol1. pose proof (ao_hs i HiT) as Hai.
  assert (Ea : heap_alloc base fuel sz h =
    ((if n - cnt =? 0 then hret tt
      else let n' := add64 (base + ao i) (shl64 cnt bits) in
         offset <-- heap_off base n' ;;
         set_key (add64 n' SIZE_NODE) (n - cnt) ;;-
         set_key n' offset ;;-
         on_size (rrbt_ins base cmp64 fuel (add64 n' SIZE_NODE)) ;;-
         on_addr (rrbt_ins base cmp64 fuel n')) ;;-
     set_count (base + ao i) cnt ;;-
     inc_gn ;;-
     hret (add64 (base + ao i) MM_ALLOC)) h1).
  { unfold heap_alloc. cbv zeta. rewrite Ecnt, Hb. rewrite (hbind_eq _ _ _ _ _ E1').
    assert (Er : addr base (so i) = base + so i) by (unfold addr; rewrite (proj2 (N.eqb_neq (so i) 0)) by (unfold so; lia); reflexivity).
    rewrite Er. rewrite (proj2 (N.eqb_neq (base + so i) 0)) by (unfold so; lia). rewrite ptr_so', ptr_so by exact HiT.
    rewrite E2. rewrite (hbind_eq _ _ _ _ _ (key_of_eq (base + so i) h1 ns1 ltac:(unfold so; lia) Ens1)). rewrite Kns1.
    rewrite (sub_small n cnt) by lia. reflexivity. }
  assert (Hptr : add64 (base + ao i) MM_ALLOC = base + ao i + 4) by (apply add_ptr; unfold MM_ALLOC; lia).
  rewrite Hptr in Ea.
  assert (HTl1 := HTl). apply tiles_app in HTl1 as (m0 & HT_1 & HT_2). cbn [tiles] in HT_2. destruct HT_2 as (<- & _ & HT_2).
  apply calm_app in HC as HC'. destruct HC' as [HC1 HC2]. cbn [calm] in HC2. destruct HC2 as [HC2 HC3].
  (* what happens with the remainder *)
  assert (Hrem : exists h2, (if n - cnt =? 0 then hret tt
      else let n' := add64 (base + ao i) (shl64 cnt bits) in
         offset <-- heap_off base n' ;;
         set_key (add64 n' SIZE_NODE) (n - cnt) ;;-
         set_key n' offset ;;-
         on_size (rrbt_ins base cmp64 fuel (add64 n' SIZE_NODE)) ;;-
         on_addr (rrbt_ins base cmp64 fuel n')) h1 = Some (tt, h2) /\
     let C' := C1 ++ (i, cnt, true) :: (if n =? cnt then C2 else (i + cnt, n - cnt, false) :: C2) in
     tiles 0 C' T /\ calm true C' /\ trees h2 (frees C') /\ solid h2 /\ grain_bits h2 = bits /\ grain h2 = 64 * q /\ hsize h2 = hs /\
     forall a j m, In (j, m, true) (C1 ++ (i, n, false) :: C2) -> base + ao j <= a < base + ao j + m * (64 * q) -> mem h2 a = mem h a).
  { assert (FR : forall a j m, In (j, m, true) (C1 ++ (i, n, false) :: C2) -> base + ao j <= a < base + ao j + m * (64 * q) -> mem h1 a = mem h a).
    { intros a j m Hj Ha. apply F1. pose proof (used_not_node _ _ _ _ HTl Hj Ha) as HH. rewrite frees_app in HH. exact HH. }
    destruct (N.eqb_spec (n - cnt) 0) as [E0|E0]; [rewrite (proj2 (N.eqb_eq n cnt)) by lia|rewrite (proj2 (N.eqb_neq n cnt)) by lia].
    - exists h1. split; [reflexivity|]. cbv zeta. assert (n = cnt) as <- by lia. sp; try congruence.
      + apply tiles_app. exists i. split; [exact HT_1|]. cbn [tiles]. now repeat split.
      + apply calm_app. split; [exact HC1|]. cbn [calm]. split; [now right|]. now apply calm_weak in HC3.
      + rewrite frees_app. exact HT1.
      + exact Hsol1.
      + exact FR.
    - cbv zeta. rewrite shl_bits by lia. set (j := i + cnt).
      assert (HjT : j < T) by (unfold j; lia). pose proof (ao_hs j HjT) as Haj.
      assert (Ej : add64 (base + ao i) (cnt * (64 * q)) = base + ao j).
      { rewrite add_ptr; unfold ao, j in *; lia. }
      rewrite Ej. rewrite (hbind_eq _ _ _ _ _ (off_ptr_ (ao j) ltac:(lia) h1 ltac:(congruence))). rewrite ptr_so by exact HjT.
      destruct (cell_so h1 j Hsol1 HjT) as (cs & Ecs).
      rewrite (hbind_eq _ _ _ _ _ (set_key_eq _ _ _ _ (base_neq (so j) ltac:(unfold so; lia)) Ecs)).
      set (h1' := hput h1 (base + so j) (rekey cs (n - cnt))).
      destruct (cell_ao h1' j (solid_put _ _ _ Hsol1) HjT) as (ca & Eca).
      rewrite (hbind_eq _ _ _ _ _ (set_key_eq _ _ _ _ (base_neq (ao j) ltac:(unfold ao; lia)) Eca)).
      set (h1'' := hput h1' (base + ao j) (rekey ca (ao j))).
      set (C' := C1 ++ (i, cnt, true) :: (j, n - cnt, false) :: C2).
      assert (HTl' : tiles 0 C' T).
      { apply tiles_app. exists i. split; [exact HT_1|]. cbn [tiles]. unfold j. replace (i + cnt + (n - cnt)) with (i + n) by lia. repeat split; try lia. exact HT_2. }
      assert (HC' : calm true C').
      { apply calm_app. split; [exact HC1|]. cbn [calm]. split; [now right|]. split; [now left|]. exact HC3. }
      assert (Fnew : frees C' = frees C1 ++ (j, n - cnt) :: frees C2) by (unfold C'; rewrite frees_app; reflexivity).
      destruct (tiles_asc _ _ _ HTl') as [Hasc _]. rewrite Fnew in Hasc.
      (* the cells of the new chunk are in no tree *)
      assert (Hfresh : forall a, base + ao i <= a < base + ao i + n * (64 * q) -> ~ is_node (frees C1 ++ frees C2) a).
      { intros a Ha ([k l] & Hk' & Hka). assert (Hkin : In (k, l, false) (C1 ++ (i, n, false) :: C2)).
        { apply in_frees. rewrite frees_app. cbn [frees]. rewrite in_app_iff in *. cbn [In]. tauto. }
        assert (Hki : k <> i).
        { intros ->.           pose proof (tr_asc _ _ HTr) as A3. apply asc_app in A3 as (_ & A3 & A4). apply in_app_iff in Hk' as [Hk'|Hk'].
          - apply (proj1 (Forall_forall _ _) A3) in Hk'. cbn [fst] in Hk'. lia.
          - apply (proj1 (Forall_forall _ _) A4) in Hk'. cbn [fst] in Hk'. lia. }
        destruct (tiles_two _ _ _ _ _ _ _ _ _ HTl Hkin (in_elt _ _ _)) as [E|E]; [congruence|].
        destruct (tiles_in _ _ _ _ _ _ HTl Hkin) as (_ & Hl' & _). pose proof (N.mul_le_mono_r 1 l (64 * q)) as HH.
        apply (blocks_apart k l i n a E); [|exact Ha]. cbn [fst] in Hka. destruct Hka as [->| ->]; unfold ao, so in *; lia. }
      assert (Hja : base + ao i <= base + ao j /\ base + so j < base + ao i + n * (64 * q)).
      { unfold ao, so, j in *. pose proof (N.mul_le_mono_r (i + cnt + 1) (i + n) (64 * q)). lia. }
      assert (HT1'' : trees h1'' (frees C1 ++ frees C2)).
      { apply trees_put; [apply trees_put; [exact HT1|]|]; apply Hfresh; unfold so, ao in *; lia. }
      destruct (t_ins h1'' (frees C1) j (n - cnt) (frees C2) (rekey ca (ao j)) (rekey cs (n - cnt)) HT1'' Hasc HjT) as (h2 & E3 & HT2 & (Sb2 & Sg2 & Ss2) & _ & K2 & F2).
      { apply put_eq. } { reflexivity. }
      { unfold h1''. rewrite put_ne by (pose proof (ao_so j j); lia). apply put_eq. } { reflexivity. }
      exists h2. split; [|rewrite Fnew; sp; try assumption].
      + pose proof (E3 unit (fun _ => hret tt)) as E4. unfold hbind, hret in E4 |- *. destruct (on_size _ h1'') as [[[] s1]|]; [|discriminate].
        destruct (on_addr _ s1) as [[[] s2]|]; [|discriminate]. exact E4.
      + eapply solid_keys; [|exact K2]. apply solid_put, solid_put, Hsol1.
      + unfold h1'', h1', hput in *. cbn [set_mem grain_bits grain hsize] in *. congruence.
      + unfold h1'', h1', hput in *. cbn [set_mem grain_bits grain hsize] in *. congruence.
      + unfold h1'', h1', hput in *. cbn [set_mem grain_bits grain hsize] in *. congruence.
      + intros a k l Hkl Ha. rewrite F2.
        * assert (Hka : ~ (base + ao i <= a < base + ao i + n * (64 * q))).
          { intros Hai'. destruct (tiles_two _ _ _ _ _ _ _ _ _ HTl Hkl (in_elt _ _ _)) as [E|E]; [discriminate|]. exact (blocks_apart _ _ _ _ _ E Ha Hai'). }
          unfold h1'', h1'. rewrite !put_ne; [now apply (FR a k l)|..]; intros ->; apply Hka; unfold so, ao in *; lia.
        * rewrite <- Fnew. apply (used_not_node C' k l); [exact HTl'| |exact Ha]. unfold C'. rewrite in_app_iff in Hkl |- *. cbn [In] in Hkl |- *.
          destruct Hkl as [Hkl|[Hkl|Hkl]]; [now left|discriminate|]. right. right. now right. }
  destruct Hrem as (h2 & E4 & HTl2 & HC2' & HT2 & Hsol2 & Sb2 & Sg2 & Ss2 & F2).
  destruct (cell_ao h2 i Hsol2 HiT) as (nd & End).
  rewrite Ea. rewrite (hbind_eq _ _ _ _ _ E4). rewrite (hbind_eq _ _ _ _ _ (set_count_eq _ _ _ _ (base_neq (ao i) ltac:(lia)) End)).
  set (h3 := hput h2 (base + ao i) _). unfold hbind at 1, inc_gn. cbn [hret].
  eexists. split; [reflexivity|]. split; [exact Hk|]. split; [exact Hbest|]. split; [reflexivity|].
  set (C' := C1 ++ (i, cnt, true) :: _) in *.
  assert (Hnn : ~ is_node (frees C') (base + ao i)).
  { apply (used_not_node C' i cnt); [exact HTl2|unfold C'; apply in_elt|]. pose proof (N.mul_le_mono_r 1 cnt (64 * q)). lia. }
  assert (HT3 : trees h3 (frees C')) by (apply trees_put; assumption).
  split; [constructor|].
  - exact Sb2.
  - exact Sg2.
  - exact Ss2.
  - exact HTl2.
  - exact HC2'.
  - eapply trees_frame; [exact HT3|reflexivity|reflexivity|reflexivity].
  - intros j m Hj. cbn [mem]. assert (Hj' : (j, m) = (i, cnt) \/ In (j, m, true) (C1 ++ (i, n, false) :: C2)).
    { unfold C' in Hj. rewrite in_app_iff in *. cbn [In] in *. destruct Hj as [Hj|[Hj|Hj]]; [now right; left|left; congruence|].
      destruct (n =? cnt); [now right; right; right|]. destruct Hj as [Hj|Hj]; [discriminate|now right; right; right]. }
    destruct Hj' as [E|Hj'].
    + injection E as -> ->. exists (with_word0 nd (word0 nd - word0 nd mod W32 + cnt mod W32)). split; [apply put_eq|].
      rewrite with_word0_word. apply count_back. lia.
    + destruct (Hcnt _ _ Hj') as (nd' & E' & Ec). exists nd'. split; [|exact Ec].
      destruct (tiles_in _ _ _ _ _ _ HTl Hj') as (_ & Hm & _). pose proof (N.mul_le_mono_r 1 m (64 * q)).
      unfold h3. rewrite put_ne; [rewrite (F2 _ j m Hj') by lia; exact E'|].
      intros Eq. destruct (tiles_two _ _ _ _ _ _ _ _ _ HTl Hj' (in_elt _ _ _)) as [Ex|Ex]; [discriminate|].
      assert (j = i) as -> by (apply ao_inj; lia). lia.
  - intros k Hkk. cbn [mem]. unfold h3. now apply solid_put.
  - intros a j m Hj Ha. cbn [mem]. unfold h3. rewrite put_ne; [now apply (F2 _ j m)|].
    intros ->. destruct (tiles_two _ _ _ _ _ _ _ _ _ HTl Hj (in_elt _ _ _)) as [Ex|Ex]; [discriminate|].
    apply (blocks_apart _ _ _ _ _ Ex Ha). pose proof (N.mul_le_mono_r 1 n (64 * q)). lia.
Qed.

(** ** Release *)
Fixpoint uses (C : list chunk) : list (N * N) :=
  match C with [] => [] | (e, u) :: C => if u then e :: uses C else uses C end.
Lemma uses_app C1 C2 : uses (C1 ++ C2) = uses C1 ++ uses C2.
Proof. induction C1 as [|[e u] C1 IH]; [reflexivity|]. cbn [app uses]. destruct u; [|exact IH]. cbn [app]. now rewrite IH. Qed.
Lemma in_uses C e : In e (uses C) <-> In (e, true) C.
Proof.
  induction C as [|[e' u] C IH]; [reflexivity|]. cbn [uses In]. destruct u; cbn [In]; rewrite IH.
  - split; intros [E|E]; try (now right); left; [now subst|now injection E].
  - split; [now right|]. intros [E|E]; [discriminate|exact E].
Qed.

(** a chunk out of the trees, its nodes holding its offset and size *)
Record loose (h : hp) (C1 : list chunk) (i n : N) (C2 : list chunk) : Prop := mkLoose {
  lo_bits : grain_bits h = bits; lo_grain : grain h = 64 * q; lo_size : hsize h = hs;
  lo_left : tiles 0 C1 i; lo_pos : 1 <= n; lo_right : tiles (i + n) C2 T;
  lo_calm1 : calm true C1; lo_calm2 : calm true C2;
  lo_trees : trees h (frees C1 ++ frees C2);
  lo_ao : exists na, mem h (base + ao i) = Some na /\ key na = ao i;
  lo_so : exists ns, mem h (base + so i) = Some ns /\ key ns = n;
  lo_solid : solid h }.
Lemma loose_tiles h C1 i n C2 u : loose h C1 i n C2 -> tiles 0 (C1 ++ (i, n, u) :: C2) T.
Proof. intros H. apply tiles_app. exists i. split; [exact (lo_left _ _ _ _ _ H)|]. cbn [tiles]. split; [reflexivity|]. split; [exact (lo_pos _ _ _ _ _ H)|exact (lo_right _ _ _ _ _ H)]. Qed.
Lemma loose_T h C1 i n C2 : loose h C1 i n C2 -> i + n <= T.
Proof. intros H. exact (tiles_le _ _ _ (lo_right _ _ _ _ _ H)). Qed.
Lemma loose_fresh h C1 i n C2 a : loose h C1 i n C2 -> base + ao i <= a < base + ao i + n * (64 * q) -> ~ is_node (frees C1 ++ frees C2) a.
Proof.
  intros H Ha. pose proof (used_not_node _ i n a (loose_tiles _ _ _ _ _ true H) (in_elt _ _ _) Ha) as HH. rewrite frees_app in HH. exact HH.
Qed.
Lemma end_of k l : k + l <= T -> add64 (ao k) (shl64 l bits) = ao (k + l).
Proof.
  intros H. rewrite shl_bits by lia. unfold add64. pose proof (N.mul_le_mono_r _ _ (64 * q) H). unfold ao. rewrite N.mod_small by (unfold W63, W64 in *; lia). lia.
Qed.
Lemma addr_ao r : addr base (ao r) = base + ao r.
Proof. unfold addr. rewrite (proj2 (N.eqb_neq (ao r) 0)) by (unfold ao; lia). reflexivity. Qed.
Lemma anodes_sorted F : asc F -> sorted cmp64 (map anode F).
Proof.
  intros H. unfold sorted. unfold asc in H. induction H as [|e F H IH H5]; cbn [map]; constructor; [exact IH|].
  rewrite Forall_map. eapply Forall_impl; [|exact H5]. intros y Hy. cbn [anode snd]. apply cmp64_le. apply ao_lt_iff in Hy. lia.
Qed.
Lemma find_glb_eq h F k : trees h F -> exists r, on_addr (rrbt_find_glb base cmp64 fuel k) h = Some (addr base r, h) /\ is_glb cmp64 (map anode F) k r.
Proof.
  intros H. pose proof (trees_fuel _ _ H) as Hf. destruct H as [_ H1 H2 _].
  destruct (r_glb base (hs + 8) _ (map anode F) fuel Hreg H1) with (cmp := cmp64) (k := k) as (r & E & Hr).
  { rewrite map_length. eapply enough_le; [|exact Hf]. lia. } { exact cmp64_pre. } { now apply anodes_sorted. }
  exists r. split; [|exact Hr]. rewrite (on_addr_eq _ _ _ _ E). cbn [root heap]. now destruct h.
Qed.
Lemma find_lub_eq h F k : trees h F -> exists r, on_addr (rrbt_find_lub base cmp64 fuel k) h = Some (addr base r, h) /\ is_lub cmp64 (map anode F) k r.
Proof.
  intros H. pose proof (trees_fuel _ _ H) as Hf. destruct H as [_ H1 H2 _].
  destruct (r_lub base (hs + 8) _ (map anode F) fuel Hreg H1) with (cmp := cmp64) (k := k) as (r & E & Hr).
  { rewrite map_length. eapply enough_le; [|exact Hf]. lia. } { exact cmp64_pre. } { now apply anodes_sorted. }
  exists r. split; [|exact Hr]. rewrite (on_addr_eq _ _ _ _ E). cbn [root heap]. now destruct h.
Qed.
Lemma keys_some h h' x nd : same_keys h h' -> mem h x = Some nd -> exists nd', mem h' x = Some nd' /\ key nd' = key nd.
Proof.
  intros K E. specialize (K x). rewrite E in K. destruct (mem h' x) as [nd'|]; [|discriminate]. exists nd'. split; [reflexivity|].
  cbn [option_map] in K. now injection K.
Qed.
Lemma lastu_end C i iq nq : tiles 0 C i -> lastu true C = true -> In (iq, nq, false) C -> iq + nq < i.
Proof.
  destruct C as [|[[j m] u] C] using rev_ind; [now intros|]. clear IHC. rewrite lastu_app. cbn [lastu]. intros H -> Hin.
  apply tiles_app in H as (x & H1 & H2). cbn [tiles] in H2. destruct H2 as (-> & H2 & <-).
  apply in_app_iff in Hin as [Hin|[Hin|[]]]; [|discriminate]. destruct (tiles_in _ _ _ _ _ _ H1 Hin). lia.
Qed.

Lemma join_left_ok h C1 i n C2 : loose h C1 i n C2 ->
  exists h' C1' i' n', join_left base fuel (base + ao i) (ao i) bits h = Some (base + ao i', h') /\
    loose h' C1' i' n' C2 /\ lastu true C1' = true /\ uses C1' = uses C1 /\
    (forall a, ~ is_node (frees C1 ++ frees C2) a -> mem h' a = mem h a).
Proof.
  intros H. pose proof (loose_T _ _ _ _ _ H) as HinT. pose proof H as H0. destruct H as [Hb Hg Hs HT1 Hn HT2 Hc1 Hc2 HTr (na & Ena & Kna) (ns & Ens & Kns) Hsol].
  destruct (find_glb_eq _ _ (ao i) HTr) as (r & Er & Hr).
  assert (Hstop : lastu true C1 = true -> join_left base fuel (base + ao i) (ao i) bits h = Some (base + ao i, h)).
  { intros HL. unfold join_left. rewrite (hbind_eq _ _ _ _ _ Er). destruct Hr as [[-> _]|(kr & Hin & Hle & _)]; [reflexivity|].
    apply in_map_iff in Hin as ([iq nq] & E & Hin). unfold anode in E. cbn [fst] in E. injection E as <- <-. apply cmp64_le in Hle.
    rewrite addr_ao. rewrite (proj2 (N.eqb_neq (base + ao iq) 0)) by (unfold ao; lia). cbv zeta.
    pose proof (trees_small _ _ _ HTr Hin) as HiqT. cbn [fst] in HiqT.
    destruct (trees_node _ _ _ _ HTr Hin) as [(xs & Exs & Kxs) (xa & Exa & Kxa)].
    rewrite (hbind_eq _ _ _ _ _ (key_of_eq (base + ao iq) h xa ltac:(unfold ao; lia) Exa)). rewrite ptr_so by exact HiqT.
    rewrite (hbind_eq _ _ _ _ _ (key_of_eq (base + so iq) h xs ltac:(unfold so; lia) Exs)).
    rewrite (hbind_eq _ _ _ _ _ (key_of_eq (base + ao i) h na ltac:(unfold ao; lia) Ena)). rewrite Kna, Kxa, Kxs.
    assert (Hend : iq + nq < i).
    { apply in_app_iff in Hin as [Hin|Hin]; apply in_frees in Hin.
      - exact (lastu_end _ _ _ _ HT1 HL Hin).
      - destruct (tiles_in _ _ _ _ _ _ HT2 Hin) as (Hx & _ & _). assert (ao i < ao iq) by (apply ao_lt_iff; lia). lia. }
    rewrite end_of by lia. rewrite (proj2 (N.eqb_neq _ _)); [reflexivity|]. intros E. apply ao_inj in E. lia. }
  destruct (lastu true C1) eqn:EL.
  { exists h, C1, i, n. split; [now apply Hstop|]. split; [exact H0|]. split; [exact EL|]. now split. }
  clear Hstop.
  (* the chunk before is free *)
  destruct C1 as [|[[iq nq] u] C0 _] using rev_ind; [discriminate|]. rewrite lastu_app in EL. cbn [lastu] in EL. subst u.
  apply tiles_app in HT1 as (x & HT0 & HT1). cbn [tiles] in HT1. destruct HT1 as (<- & Hnq & Eiq).
  apply calm_app in Hc1 as [Hc0 Hc1]. cbn [calm] in Hc1. destruct Hc1 as [Hc1 _].
  rewrite frees_app in HTr. cbn [frees] in HTr. rewrite <- app_assoc in HTr. cbn [app] in HTr.
  assert (Hin : In (iq, nq) (frees C0 ++ (iq, nq) :: frees C2)) by apply in_elt.
  assert (r = ao iq) as ->.
  { rewrite frees_app in Hr. cbn [frees] in Hr. rewrite <- app_assoc in Hr. cbn [app] in Hr.
    destruct Hr as [[-> Hno]|(kr & Hr & Hle & Hmax)].
    - specialize (Hno (anode (iq, nq)) (in_map _ _ _ Hin)). cbn [anode fst snd] in Hno. apply cmp64_gt in Hno. change (ao i < ao iq) in Hno. apply (proj1 (ao_lt_iff _ _)) in Hno. lia.
    - apply in_map_iff in Hr as ([ir nr] & E & Hr). unfold anode in E. cbn [fst] in E. injection E as <- <-. apply cmp64_le in Hle.
      specialize (Hmax (anode (iq, nq)) (in_map _ _ _ Hin)). cbn [anode fst snd] in Hmax. rewrite !cmp64_le in Hmax.
      assert (Hle2 : ao iq <= ao ir) by (apply Hmax; assert (ao iq < ao i) by (apply ao_lt_iff; lia); lia).
      f_equal. apply in_app_iff in Hr as [Hr|[Hr|Hr]]; [apply in_frees in Hr|now injection Hr|apply in_frees in Hr].
      + destruct (tiles_in _ _ _ _ _ _ HT0 Hr) as (_ & Hx1 & Hx2). assert (ao ir < ao iq) by (apply ao_lt_iff; lia). lia.
      + destruct (tiles_in _ _ _ _ _ _ HT2 Hr) as (Hx & _ & _). assert (ao i < ao ir) by (apply ao_lt_iff; lia). lia. }
  destruct (trees_node _ _ _ _ HTr Hin) as [(xs & Exs & Kxs) (xa & Exa & Kxa)].
  destruct (t_del _ _ _ _ _ HTr) as (h1 & E2 & HTr1 & (Sb1 & Sg1 & Ss1) & _ & K1 & F1).
  destruct (keys_some _ _ _ _ K1 Exs) as (xs1 & Exs1 & Kxs1). destruct (keys_some _ _ _ _ K1 Exa) as (xa1 & Exa1 & Kxa1).
  destruct (keys_some _ _ _ _ K1 Ens) as (ns1 & Ens1 & Kns1).
  exists (hput h1 (base + so iq) (rekey xs1 (nq + n))), C0, iq, (nq + n).
  split; [|split; [constructor|split; [|split]]].
  - unfold join_left. rewrite (hbind_eq _ _ _ _ _ Er). rewrite addr_ao. rewrite (proj2 (N.eqb_neq (base + ao iq) 0)) by (unfold ao; lia). cbv zeta.
    rewrite (hbind_eq _ _ _ _ _ (key_of_eq (base + ao iq) h xa ltac:(unfold ao; lia) Exa)). rewrite !ptr_so by lia.
    rewrite (hbind_eq _ _ _ _ _ (key_of_eq (base + so iq) h xs ltac:(unfold so; lia) Exs)).
    rewrite (hbind_eq _ _ _ _ _ (key_of_eq (base + ao i) h na ltac:(unfold ao; lia) Ena)). rewrite Kna, Kxa, Kxs.
    rewrite end_of by lia. rewrite Eiq, N.eqb_refl. rewrite E2.
    rewrite (hbind_eq _ _ _ _ _ (key_of_eq (base + so iq) h1 xs1 ltac:(unfold so; lia) Exs1)).
    rewrite (hbind_eq _ _ _ _ _ (key_of_eq (base + so i) h1 ns1 ltac:(unfold so; lia) Ens1)).
    rewrite Kxs1, Kns1, Kxs, Kns. rewrite add_small by lia.
    rewrite (hbind_eq _ _ _ _ _ (set_key_eq (base + so iq) (nq + n) h1 xs1 ltac:(unfold so; lia) Exs1)). reflexivity.
  - cbn [hput set_mem grain_bits]. congruence.
  - cbn [hput set_mem grain]. congruence.
  - cbn [hput set_mem hsize]. congruence.
  - exact HT0.
  - lia.
  - replace (iq + (nq + n)) with (i + n) by lia. exact HT2.
  - exact Hc0.
  - exact Hc2.
  - apply trees_put; [exact HTr1|]. intros ([k l] & Hk & Ek). cbn [fst] in Ek. pose proof (ao_so k iq).
    assert (k = iq) as -> by (destruct Ek as [Ek|Ek]; [lia|apply so_inj; lia]).
    pose proof (tr_asc _ _ HTr) as Has. apply asc_app in Has as (_ & A1 & A2). apply in_app_iff in Hk as [Hk|Hk];
      [apply (proj1 (Forall_forall _ _) A1) in Hk|apply (proj1 (Forall_forall _ _) A2) in Hk]; cbn [fst] in Hk; lia.
  - exists xa1. split; [|congruence]. rewrite put_ne by (pose proof (ao_so iq iq); lia). exact Exa1.
  - eexists. split; [apply put_eq|reflexivity].
  - apply solid_put. eapply solid_keys; eassumption.
  - destruct Hc1 as [Hc1|Hc1]; [exact Hc1|discriminate].
  - rewrite uses_app. cbn [uses]. now rewrite app_nil_r.
  - rewrite frees_app. cbn [frees]. rewrite <- app_assoc. cbn [app]. intros a Ha. rewrite put_ne; [now apply F1|].
    intros ->. apply Ha. exists (iq, nq). split; [exact Hin|now right].
Qed.

Lemma join_right_ok h C1 i n C2 : loose h C1 i n C2 ->
  exists h' n' C2', join_right base fuel (base + ao i) (ao i) bits h = Some (tt, h') /\
    loose h' C1 i n' C2' /\ calm false C2' /\ uses C2' = uses C2 /\
    (forall a, ~ is_node (frees C1 ++ frees C2) a -> a <> base + so i -> mem h' a = mem h a).
Proof.
  intros H. pose proof (loose_T _ _ _ _ _ H) as HinT. pose proof H as H0. destruct H as [Hb Hg Hs HT1 Hn HT2 Hc1 Hc2 HTr (na & Ena & Kna) (ns & Ens & Kns) Hsol].
  destruct (find_lub_eq _ _ (ao i) HTr) as (r & Er & Hr).
  assert (Hstop : (forall k l, In (k, l) (frees C2) -> i + n < k) -> join_right base fuel (base + ao i) (ao i) bits h = Some (tt, h)).
  { intros HL. unfold join_right. rewrite (hbind_eq _ _ _ _ _ Er). destruct Hr as [[-> _]|(kr & Hin & Hle & _)]; [reflexivity|].
    apply in_map_iff in Hin as ([iq nq] & E & Hin). unfold anode in E. cbn [fst] in E. injection E as <- <-. apply cmp64_ge in Hle.
    rewrite addr_ao. rewrite (proj2 (N.eqb_neq (base + ao iq) 0)) by (unfold ao; lia). cbv zeta.
    pose proof (trees_small _ _ _ HTr Hin) as HiqT. cbn [fst] in HiqT.
    destruct (trees_node _ _ _ _ HTr Hin) as [(xs & Exs & Kxs) (xa & Exa & Kxa)].
    rewrite (hbind_eq _ _ _ _ _ (key_of_eq (base + ao i) h na ltac:(unfold ao; lia) Ena)). rewrite ptr_so by lia.
    rewrite (hbind_eq _ _ _ _ _ (key_of_eq (base + so i) h ns ltac:(unfold so; lia) Ens)).
    rewrite (hbind_eq _ _ _ _ _ (key_of_eq (base + ao iq) h xa ltac:(unfold ao; lia) Exa)). rewrite Kna, Kxa, Kns.
    rewrite end_of by lia. rewrite (proj2 (N.eqb_neq _ _)); [reflexivity|]. intros E. apply ao_inj in E.
    apply in_app_iff in Hin as [Hin|Hin].
    - apply in_frees in Hin. destruct (tiles_in _ _ _ _ _ _ HT1 Hin). lia.
    - apply HL in Hin. lia. }
  destruct C2 as [|[[iq nq] u] C2].
  { exists h, n, []. split; [apply Hstop; intros k l []|]. split; [exact H0|]. now split. }
  cbn [tiles] in HT2. destruct HT2 as (-> & Hnq & HT2). cbn [calm] in Hc2. destruct Hc2 as [_ Hc2]. destruct u.
  { exists h, n, ((i + n, nq, true) :: C2). split.
    - apply Hstop. cbn [frees]. intros k l Hk. apply in_frees in Hk. destruct (tiles_in _ _ _ _ _ _ HT2 Hk). lia.
    - split; [exact H0|]. split; [split; [now right|exact Hc2]|]. now split. }
  clear Hstop. set (iq := i + n) in *.
  cbn [frees] in HTr, Hr. assert (Hin : In (iq, nq) (frees C1 ++ (iq, nq) :: frees C2)) by apply in_elt.
  assert (r = ao iq) as ->.
  { destruct Hr as [[-> Hno]|(kr & Hr & Hle & Hmax)].
    - specialize (Hno (anode (iq, nq)) (in_map _ _ _ Hin)). cbn [anode fst snd] in Hno. apply cmp64_lt in Hno. change (ao iq < ao i) in Hno. apply (proj1 (ao_lt_iff _ _)) in Hno. lia.
    - apply in_map_iff in Hr as ([ir nr] & E & Hr). unfold anode in E. cbn [fst] in E. injection E as <- <-. apply cmp64_ge in Hle.
      specialize (Hmax (anode (iq, nq)) (in_map _ _ _ Hin)). cbn [anode fst snd] in Hmax. rewrite cmp64_ge, cmp64_le in Hmax.
      assert (Hle2 : ao ir <= ao iq) by (apply Hmax; assert (ao i < ao iq) by (apply ao_lt_iff; lia); lia).
      f_equal. apply in_app_iff in Hr as [Hr|[Hr|Hr]]; [apply in_frees in Hr|now injection Hr|apply in_frees in Hr].
      + destruct (tiles_in _ _ _ _ _ _ HT1 Hr) as (_ & Hx1 & Hx2). assert (ao ir < ao i) by (apply ao_lt_iff; lia). lia.
      + destruct (tiles_in _ _ _ _ _ _ HT2 Hr) as (Hx & _ & _). assert (ao iq < ao ir) by (apply ao_lt_iff; lia). lia. }
  assert (HiqT : iq < T) by (apply tiles_le in HT2; lia).
  destruct (trees_node _ _ _ _ HTr Hin) as [(xs & Exs & Kxs) (xa & Exa & Kxa)].
  destruct (t_del _ _ _ _ _ HTr) as (h1 & E2 & HTr1 & (Sb1 & Sg1 & Ss1) & _ & K1 & F1).
  destruct (keys_some _ _ _ _ K1 Exs) as (xs1 & Exs1 & Kxs1). destruct (keys_some _ _ _ _ K1 Ena) as (na1 & Ena1 & Kna1).
  destruct (keys_some _ _ _ _ K1 Ens) as (ns1 & Ens1 & Kns1).
  assert (Hle : i + n + nq <= T) by (apply tiles_le in HT2; lia).
  exists (hput h1 (base + so i) (rekey ns1 (n + nq))), (n + nq), C2.
  split; [|split; [constructor|split; [|split]]].
  - unfold join_right. rewrite (hbind_eq _ _ _ _ _ Er). rewrite addr_ao. rewrite (proj2 (N.eqb_neq (base + ao iq) 0)) by (unfold ao; lia). cbv zeta.
    rewrite (hbind_eq _ _ _ _ _ (key_of_eq (base + ao i) h na ltac:(unfold ao; lia) Ena)). rewrite !ptr_so by lia.
    rewrite (hbind_eq _ _ _ _ _ (key_of_eq (base + so i) h ns ltac:(unfold so; lia) Ens)).
    rewrite (hbind_eq _ _ _ _ _ (key_of_eq (base + ao iq) h xa ltac:(unfold ao; lia) Exa)). rewrite Kna, Kxa, Kns.
    rewrite end_of by lia. fold iq. rewrite N.eqb_refl. rewrite E2.
    rewrite (hbind_eq _ _ _ _ _ (key_of_eq (base + so i) h1 ns1 ltac:(unfold so; lia) Ens1)).
    rewrite (hbind_eq _ _ _ _ _ (key_of_eq (base + so iq) h1 xs1 ltac:(unfold so; lia) Exs1)).
    rewrite Kxs1, Kns1, Kxs, Kns. rewrite add_small by lia.
    apply (set_key_eq (base + so i) (n + nq) h1 ns1 ltac:(unfold so; lia) Ens1).
  - cbn [hput set_mem grain_bits]. congruence.
  - cbn [hput set_mem grain]. congruence.
  - cbn [hput set_mem hsize]. congruence.
  - exact HT1.
  - lia.
  - replace (i + (n + nq)) with (iq + nq) by lia. exact HT2.
  - exact Hc1.
  - now apply calm_weak in Hc2.
  - apply trees_put; [exact HTr1|]. intros HH. apply (loose_fresh _ _ _ _ _ (base + so i) H0).
    + unfold so, ao. pose proof (N.mul_le_mono_r 1 n (64 * q)). lia.
    + destruct HH as (e & He & Ea). exists e. split; [|exact Ea]. cbn [frees]. rewrite in_app_iff in *. cbn [In]. tauto.
  - exists na1. split; [|congruence]. rewrite put_ne by (pose proof (ao_so i i); lia). exact Ena1.
  - eexists. split; [apply put_eq|reflexivity].
  - apply solid_put. eapply solid_keys; eassumption.
  - exact Hc2.
  - reflexivity.
  - cbn [frees]. intros a Ha Hne. rewrite put_ne by exact Hne. now apply F1.
Qed.

Lemma free_ok h C1 i n C2 : inv h (C1 ++ (i, n, true) :: C2) ->
  exists h' C', heap_free base fuel (base + ao i + 4) h = Some (tt, h') /\ inv h' C' /\ uses C' = uses C1 ++ uses C2 /\ same_used h h' (C1 ++ C2).
Proof.
  intros [Hb Hg Hs HTl HC HTr Hcnt Hsol]. destruct (tiles_in _ _ _ _ _ _ HTl (in_elt _ _ _)) as (_ & Hn & Hend). assert (HiT : i < T) by lia.
  pose proof (ao_hs i HiT) as Hai. destruct (Hcnt i n (in_elt _ _ _)) as (na & Ena & Kna). destruct (cell_so h i Hsol HiT) as (ns & Ens).
  assert (HTl1 := HTl). apply tiles_app in HTl1 as (m0 & HT_1 & HT_2). cbn [tiles] in HT_2. destruct HT_2 as (<- & _ & HT_2).
  apply calm_app in HC as HC'. destruct HC' as [HC1 HC2]. cbn [calm] in HC2. destruct HC2 as [_ HC2].
  set (h1 := hput h (base + so i) (rekey ns n)). set (h2 := hput h1 (base + ao i) (rekey na (ao i))).
  assert (Hblk : base + ao i <= base + so i < base + ao i + n * (64 * q)) by (unfold so, ao; pose proof (N.mul_le_mono_r 1 n (64 * q)); lia).
  assert (Hna : forall a, base + ao i <= a < base + ao i + n * (64 * q) -> ~ is_node (frees C1 ++ frees C2) a).
  { intros a Ha. pose proof (used_not_node _ i n a HTl (in_elt _ _ _) Ha) as HH. rewrite frees_app in HH. exact HH. }
  assert (HL : loose h2 C1 i n C2).
  { constructor; try assumption.
    - rewrite frees_app in HTr. cbn [frees] in HTr. apply trees_put; [apply trees_put; [exact HTr|]|]; apply Hna; lia.
    - eexists. split; [apply put_eq|reflexivity].
    - exists (rekey ns n). split; [|reflexivity]. unfold h2. rewrite put_ne by (pose proof (ao_so i i); lia). apply put_eq.
    - apply solid_put, solid_put, Hsol. }
  destruct (join_left_ok _ _ _ _ _ HL) as (h3 & C1' & i' & n' & E3 & HL3 & HU1 & U1 & F3).
  destruct (join_right_ok _ _ _ _ _ HL3) as (h4 & n'' & C2' & E4 & HL4 & Hc4 & U2 & F4).
  pose proof (loose_T _ _ _ _ _ HL4) as HT4. pose proof (lo_pos _ _ _ _ _ HL4) as Hp4. assert (Hi' : i' < T) by lia. pose proof (ao_hs i' Hi') as Hai'.
  destruct (lo_ao _ _ _ _ _ HL4) as (xa & Exa & Kxa). destruct (lo_so _ _ _ _ _ HL4) as (xs & Exs & Kxs).
  set (C' := C1' ++ (i', n'', false) :: C2').
  assert (Fnew : frees C' = frees C1' ++ (i', n'') :: frees C2') by (unfold C'; now rewrite frees_app).
  assert (HTl' : tiles 0 C' T) by (apply (loose_tiles _ _ _ _ _ _ HL4)).
  destruct (tiles_asc _ _ _ HTl') as [Hasc _]. rewrite Fnew in Hasc.
  destruct (t_ins _ _ _ _ _ _ _ (lo_trees _ _ _ _ _ HL4) Hasc Hi' Exa Kxa Exs Kxs) as (h5 & E5 & HT5 & (Sb5 & Sg5 & Ss5) & _ & K5 & F5).
  assert (Hused : same_used h h5 (C1 ++ C2)).
  { intros a j m Hj Ha. assert (HinU : In (j, m) (uses C1' ++ uses C2')).
    { rewrite U1, U2, in_app_iff, !in_uses. apply in_app_iff in Hj. tauto. }
    assert (HinC' : In (j, m, true) C').
    { unfold C'. rewrite in_app_iff in *. cbn [In]. rewrite !in_uses in HinU. tauto. }
    assert (HinC : In (j, m, true) (C1 ++ (i, n, true) :: C2)) by (rewrite in_app_iff in *; cbn [In]; tauto).
    assert (HinX : In (j, m, true) (C1' ++ (i', n', true) :: C2)).
    { rewrite in_app_iff in *. cbn [In]. rewrite !in_uses in HinU. rewrite <- (in_uses C2' (j, m)), U2, in_uses in HinU. tauto. }
    rewrite F5; [rewrite F4; [rewrite F3|..]|].
    - assert (Hnb : ~ (base + ao i <= a < base + ao i + n * (64 * q))).
      { intros Hb'. destruct (tiles_in _ _ _ _ _ _ HTl HinC) as (_ & Hm & _).
        apply in_app_iff in Hj as [Hj|Hj].
        - destruct (tiles_in _ _ _ _ _ _ HT_1 Hj) as (_ & _ & Hx). apply (blocks_apart j m i n a); [lia|exact Ha|exact Hb'].
        - destruct (tiles_in _ _ _ _ _ _ HT_2 Hj) as (Hx & _ & _). apply (blocks_apart j m i n a); [lia|exact Ha|exact Hb']. }
      unfold h2, h1. rewrite !put_ne; [reflexivity|..]; intros ->; apply Hnb; lia.
    - pose proof (used_not_node _ j m a HTl HinC Ha) as HH. rewrite frees_app in HH. exact HH.
    - pose proof (used_not_node _ j m a (loose_tiles _ _ _ _ _ true HL3) HinX Ha) as HH. rewrite frees_app in HH. exact HH.
    - intros ->. apply (used_not_node _ j m _ HTl' HinC' Ha). exists (i', n''). split; [rewrite Fnew; apply in_elt|now right].
    - rewrite <- Fnew. exact (used_not_node _ j m a HTl' HinC' Ha). }
  exists (mkHp (grain_bits h5) (grain h5) (hsize h5) ((hgn h5 + 1) mod W32) (sroot h5) (aroot h5) (mem h5)), C'.
  split; [|split; [constructor|split]].
  - unfold heap_free. cbv zeta. assert (Ed : sub64 (base + ao i + 4) MM_ALLOC = base + ao i).
    { rewrite <- N.add_assoc, sub_ptr; unfold MM_ALLOC; unfold so, ao in *; lia. }
    rewrite Ed, Hb. rewrite (hbind_eq _ _ _ _ _ (off_ptr_ (ao i) (proj1 Hai) h Hs)).
    rewrite (hbind_eq _ _ _ _ _ (get_count_eq _ h na (base_neq (ao i) ltac:(unfold ao; lia)) Ena)). rewrite Kna. rewrite ptr_so by exact HiT.
    rewrite (hbind_eq _ _ _ _ _ (set_key_eq _ _ _ _ (base_neq (so i) ltac:(unfold so; lia)) Ens)). fold h1.
    assert (Ena1 : mem h1 (base + ao i) = Some na) by (unfold h1; rewrite put_ne by (pose proof (ao_so i i); lia); exact Ena).
    rewrite (hbind_eq _ _ _ _ _ (set_key_eq _ _ _ _ (base_neq (ao i) ltac:(unfold ao; lia)) Ena1)). fold h2.
    rewrite (hbind_eq _ _ _ _ _ E3). rewrite (hbind_eq _ _ _ _ _ (off_ptr_ (ao i') (proj1 Hai') h3 (lo_size _ _ _ _ _ HL3))).
    rewrite (hbind_eq _ _ _ _ _ E4). rewrite (hbind_eq _ _ _ _ _ (off_ptr_ (ao i') (proj1 Hai') h4 (lo_size _ _ _ _ _ HL4))).
    rewrite ptr_so by exact Hi'. rewrite E5. reflexivity.
  - cbn [grain_bits]. rewrite Sb5. exact (lo_bits _ _ _ _ _ HL4).
  - cbn [grain]. rewrite Sg5. exact (lo_grain _ _ _ _ _ HL4).
  - cbn [hsize]. rewrite Ss5. exact (lo_size _ _ _ _ _ HL4).
  - exact HTl'.
  - unfold C'. apply calm_app. split; [exact (lo_calm1 _ _ _ _ _ HL3)|]. rewrite HU1. cbn [calm]. split; [now left|exact Hc4].
  - rewrite Fnew. eapply trees_frame; [exact HT5|reflexivity|reflexivity|reflexivity].
  - intros j m Hj. cbn [mem]. assert (HinX : In (j, m, true) (C1 ++ C2)).
    { unfold C' in Hj. rewrite in_app_iff in *. cbn [In] in Hj. rewrite <- !in_uses in *. rewrite U1, U2 in Hj. destruct Hj as [Hj|[Hj|Hj]]; [tauto|discriminate|tauto]. }
    assert (HinC : In (j, m, true) (C1 ++ (i, n, true) :: C2)) by (rewrite in_app_iff in *; cbn [In]; tauto).
    destruct (Hcnt _ _ HinC) as (nd & End & Knd). exists nd. split; [|exact Knd].
    destruct (tiles_in _ _ _ _ _ _ HTl HinC) as (_ & Hm & _). pose proof (N.mul_le_mono_r 1 m (64 * q)).
    rewrite (Hused (base + ao j) j m HinX) by lia. exact End.
  - eapply solid_keys; [|exact K5]. exact (lo_solid _ _ _ _ _ HL4).
  - unfold C'. rewrite uses_app. cbn [uses]. now rewrite U1, U2.
  - exact Hused.
Qed.

(** ** Gaps *)
Definition vac (C : list chunk) (i n : N) : Prop := i + n <= T /\ forall j m, In (j, m, true) C -> i + n <= j \/ j + m <= i.
Lemma lookup C : forall s i, tiles s C T -> s <= i < T -> exists j m u, In (j, m, u) C /\ j <= i < j + m.
Proof.
  induction C as [|[[j m] u] C IH]; intros s i H Hi; cbn [tiles] in H; [lia|]. destruct H as (-> & Hm & H).
  destruct (N.lt_ge_cases i (s + m)) as [Hl|Hl].
  - exists s, m, u. split; [now left|lia].
  - destruct (IH (s + m) i H ltac:(lia)) as (k & l & v & Hk & Hr). exists k, l, v. split; [now right|exact Hr].
Qed.
Lemma calm_adj C : forall s e b j m n, tiles s C e -> calm b C -> In (j, m, false) C -> In (j + m, n, false) C -> False.
Proof.
  induction C as [|[[k l] u] C IH]; intros s e b j m n H Hc H1 H2; [destruct H1|]. cbn [tiles calm] in *. destruct H as (-> & Hl & H), Hc as [Hc1 Hc2].
  destruct H1 as [E1|H1], H2 as [E2|H2].
  - injection E1 as -> -> ->. injection E2 as E2 _. lia.
  - injection E1 as -> -> ->. destruct C as [|[[k' l'] u'] C]; [destruct H2|]. cbn [tiles] in H. destruct H as (-> & Hl' & H). cbn [calm] in Hc2.
    destruct Hc2 as [[E|E] _]; [discriminate|]. subst u'. destruct H2 as [E2|H2]; [discriminate|]. destruct (tiles_in _ _ _ _ _ _ H H2). lia.
  - injection E2 as E2 _ _. destruct (tiles_in _ _ _ _ _ _ H H1). lia.
  - exact (IH _ _ _ _ _ _ H Hc2 H1 H2).
Qed.
Lemma vac_free C i : tiles 0 C T -> i < T -> vac C i 1 <-> exists j m, In (j, m, false) C /\ j <= i < j + m.
Proof.
  intros H Hi. split.
  - intros [_ Hv]. destruct (lookup C 0 i H ltac:(lia)) as (j & m & [] & Hj & Hr); [|now exists j, m]. destruct (Hv _ _ Hj); lia.
  - intros (j & m & Hj & Hr). split; [lia|]. intros k l Hk. destruct (tiles_two _ _ _ _ _ _ _ _ _ H Hj Hk) as [E|E]; [discriminate|lia].
Qed.
(** a vacant range lies in one free chunk *)
Lemma vac_chunk C i n : tiles 0 C T -> calm true C -> 1 <= n -> vac C i n -> exists j m, In (j, m, false) C /\ j <= i /\ i + n <= j + m.
Proof.
  intros H Hc Hn [HiT Hv]. destruct (lookup C 0 i H ltac:(lia)) as (j & m & [] & Hj & Hr).
  { destruct (Hv _ _ Hj); lia. }
  exists j, m. split; [exact Hj|]. split; [lia|]. destruct (N.le_gt_cases (i + n) (j + m)) as [Hl|Hl]; [exact Hl|exfalso].
  destruct (lookup C 0 (j + m) H ltac:(lia)) as (k & l & [] & Hk & Hr2).
  { destruct (Hv _ _ Hk); [lia|]. lia. }
  assert (k = j + m) as -> by (destruct (tiles_two _ _ _ _ _ _ _ _ _ H Hj Hk) as [E|E]; [injection E as -> ->; lia|lia]).
  exact (calm_adj _ _ _ _ _ _ _ H Hc Hj Hk).
Qed.
Lemma chunk_vac C i n k : tiles 0 C T -> In (i, n, false) C -> k <= n -> vac C i k.
Proof.
  intros H Hin Hk. destruct (tiles_in _ _ _ _ _ _ H Hin) as (_ & _ & Hb). split; [lia|]. intros j m Hj.
  destruct (tiles_two _ _ _ _ _ _ _ _ _ H Hin Hj) as [E|E]; [discriminate|lia].
Qed.
Lemma gap_chunk C i n : tiles 0 C T -> calm true C ->
  In (i, n, false) C <-> 1 <= n /\ vac C i n /\ (i = 0 \/ ~ vac C (i - 1) 1) /\ (i + n = T \/ ~ vac C (i + n) 1).
Proof.
  intros H Hc. split.
  - intros Hin. destruct (tiles_in _ _ _ _ _ _ H Hin) as (_ & Hn & Hb). split; [exact Hn|]. split; [now apply (chunk_vac _ _ n)|]. split.
    + destruct (N.eq_dec i 0) as [E|E]; [now left|right]. rewrite (vac_free _ _ H) by lia. intros (j & m & Hj & Hr).
      destruct (tiles_two _ _ _ _ _ _ _ _ _ H Hj Hin) as [E'|E']; [injection E' as -> ->; lia|].
      assert (i = j + m) as -> by lia. exact (calm_adj _ _ _ _ _ _ _ H Hc Hj Hin).
    + destruct (N.eq_dec (i + n) T) as [E|E]; [now left|right]. rewrite (vac_free _ _ H) by lia. intros (j & m & Hj & Hr).
      destruct (tiles_two _ _ _ _ _ _ _ _ _ H Hj Hin) as [E'|E']; [injection E' as -> ->; lia|].
      assert (j = i + n) as -> by lia. exact (calm_adj _ _ _ _ _ _ _ H Hc Hin Hj).
  - intros (Hn & Hv & Hlo & Hhi). destruct (vac_chunk _ _ _ H Hc Hn Hv) as (j & m & Hj & Hji & Hend).
    destruct (tiles_in _ _ _ _ _ _ H Hj) as (_ & Hm & Hb).
    assert (j = i) as ->.
    { destruct Hlo as [->|Hlo]; [lia|]. destruct (N.eq_dec j i) as [E|E]; [exact E|exfalso]. apply Hlo. apply (vac_free _ _ H); [lia|]. exists j, m. split; [exact Hj|lia]. }
    replace n with m; [exact Hj|]. destruct Hhi as [E|Hhi]; [lia|]. destruct (N.eq_dec m n) as [E|E]; [exact E|exfalso].
    apply Hhi. apply (vac_free _ _ H); [lia|]. exists i, m. split; [exact Hj|lia].
Qed.

(** ** The allocations of the users *)
Definition live (A : list (N * N)) (C : list chunk) : Prop :=
  Permutation (map (fun e => (fst e, need (64 * q) (snd e))) A) (map (fun e => (ao (fst e) + 4, snd e)) (uses C)).
Lemma live_in A C d sz : live A C -> In (d, sz) A -> exists i, In (i, need (64 * q) sz, true) C /\ d = ao i + 4.
Proof.
  intros H Hin. apply (in_map (fun e => (fst e, need (64 * q) (snd e)))) in Hin. cbn [fst snd] in Hin. eapply Permutation_in in Hin; [|exact H].
  apply in_map_iff in Hin as ([i n] & E & Hin). assert (E1 := f_equal fst E). assert (E2 := f_equal snd E). cbn [fst snd] in E1, E2. exists i. split; [|now symmetry]. rewrite <- E2. now apply in_uses.
Qed.
Lemma live_of A C i n : live A C -> In (i, n, true) C -> exists sz, In (ao i + 4, sz) A /\ n = need (64 * q) sz.
Proof.
  intros H Hin. apply in_uses in Hin. apply (in_map (fun e => (ao (fst e) + 4, snd e))) in Hin. cbn [fst snd] in Hin.
  eapply Permutation_in in Hin; [|symmetry; exact H]. apply in_map_iff in Hin as ([d sz] & E & Hin). assert (E1 := f_equal fst E). assert (E2 := f_equal snd E). cbn [fst snd] in E1, E2. exists sz. split; [now rewrite <- E1|now symmetry].
Qed.
Lemma scale a b x : ao a + x <= ao b + x -> a <= b.
Proof. intros H. destruct (N.le_gt_cases a b) as [E|E]; [exact E|]. apply ao_mono in E. lia. Qed.
Lemma vacant_vac A C i n : live A C -> vacant T (64 * q) A i n <-> vac C i n.
Proof.
  intros HL. unfold vacant, vac. split; intros [H1 H2]; (split; [exact H1|]).
  - intros j m Hj. destruct (live_of _ _ _ _ HL Hj) as (sz & Hin & ->). destruct (H2 _ _ Hin) as [H|H]; [left|right].
    + apply (scale _ _ 4). unfold ao in *. lia.
    + apply (scale _ _ 4). unfold ao in *. lia.
  - intros d sz Hin. destruct (live_in _ _ _ _ HL Hin) as (j & Hj & ->). destruct (H2 _ _ Hj) as [H|H]; [left|right].
    + apply (N.mul_le_mono_r _ _ (64 * q)) in H. unfold ao. lia.
    + apply (N.mul_le_mono_r _ _ (64 * q)) in H. unfold ao. lia.
Qed.
Lemma gap_free A C i n : tiles 0 C T -> calm true C -> live A C -> In (i, n) (frees C) <-> gap T (64 * q) A i n.
Proof.
  intros H Hc HL. rewrite in_frees, (gap_chunk _ _ _ H Hc). unfold gap. now rewrite !(vacant_vac _ _ _ _ HL).
Qed.
Lemma need_pos sz : 1 <= need (64 * q) sz.
Proof. unfold need. apply N.div_le_lower_bound; lia. Qed.
Lemma need_fits sz : sz + 4 <= need (64 * q) sz * (64 * q).
Proof.
  unfold need. pose proof (N.div_mod (sz + 4 + (64 * q - 1)) (64 * q) ltac:(lia)) as H. pose proof (N.mod_lt (sz + 4 + (64 * q - 1)) (64 * q) ltac:(lia)). lia.
Qed.
Lemma block_iff e i a : fst e = ao i + 4 -> in_block base (64 * q) e a = true <-> base + ao i <= a < base + ao i + need (64 * q) (snd e) * (64 * q).
Proof. intros E. unfold in_block. rewrite E. replace (ao i + 4 - 4) with (ao i) by lia. rewrite Bool.andb_true_iff, N.leb_le, N.ltb_lt. reflexivity. Qed.
Lemma same_undisturbed h h' C A : (forall d sz, In (d, sz) A -> exists i, In (i, need (64 * q) sz, true) C /\ d = ao i + 4) -> same_used h h' C ->
  undisturbed base (64 * q) A (mem h) (mem h').
Proof.
  intros HL HU [d sz] a Hin Ha. destruct (HL _ _ Hin) as (i & Hi & ->). apply (block_iff (ao i + 4, sz) i a eq_refl) in Ha. exact (HU a _ _ Hi Ha).
Qed.

Lemma two_places C i n u j m v : tiles 0 C T -> In (i, n, u) C -> In (j, m, v) C -> i = j -> (n, u) = (m, v).
Proof.
  intros H H1 H2 ->. destruct (tiles_two _ _ _ _ _ _ _ _ _ H H1 H2) as [E|E]; [now injection E as -> ->|].
  destruct (tiles_in _ _ _ _ _ _ H H1) as (_ & Hn & _). destruct (tiles_in _ _ _ _ _ _ H H2) as (_ & Hm & _). lia.
Qed.
Lemma apart_chunks i n sz j m sz' : n = need (64 * q) sz -> m = need (64 * q) sz' -> i + n <= j \/ j + m <= i -> apart (ao i + 4, sz) (ao j + 4, sz').
Proof.
  intros -> -> H. unfold apart. cbn [fst snd]. pose proof (need_fits sz). pose proof (need_fits sz').
  destruct H as [H|H]; apply (N.mul_le_mono_r _ _ (64 * q)) in H; unfold ao; [left|right]; lia.
Qed.

Lemma alloc_live h A C sz : inv h C -> live A C -> N.shiftr (alloc_size (grain h) sz) (grain_bits h) = need (64 * q) sz ->
  (heap_alloc base fuel sz h = Some (0, h) /\ forall i, ~ vacant T (64 * q) A i (need (64 * q) sz)) \/
  exists i n h' C', heap_alloc base fuel sz h = Some (base + (ao i + 4), h') /\ gap T (64 * q) A i n /\ need (64 * q) sz <= n /\
    (forall j m, gap T (64 * q) A j m -> need (64 * q) sz <= m -> n <= m) /\
    inv h' C' /\ live ((ao i + 4, sz) :: A) C' /\ undisturbed base (64 * q) A (mem h) (mem h').
Proof.
  intros Hi HL Ec. set (cnt := need (64 * q) sz) in *. pose proof (need_pos sz) as Hcnt. fold cnt in Hcnt.
  pose proof (in_tiles _ _ Hi) as HTl. pose proof (in_calm _ _ Hi) as Hc.
  destruct (alloc_ok _ _ _ _ Hi Ec Hcnt) as [[H1 H2]|(C1 & i & n & C2 & h' & -> & Hle & Hbest & E & Hi' & HU)].
  - left. split; [exact H2|]. intros i Hv. apply (vacant_vac _ _ _ _ HL) in Hv. destruct (vac_chunk _ _ _ HTl Hc Hcnt Hv) as (j & m & Hj & Hji & Hend). apply H1 in Hj. lia.
  - right. eexists i, n, h', _. split; [rewrite N.add_assoc; exact E|]. split; [|split; [exact Hle|split; [|split; [exact Hi'|split]]]].
    + apply (gap_free _ _ _ _ HTl Hc HL). apply in_frees, in_elt.
    + intros j m Hj. apply (gap_free _ _ _ _ HTl Hc HL) in Hj. apply in_frees in Hj. now apply (Hbest j m).
    + unfold live in *. rewrite uses_app in *. cbn [uses] in *.
      assert (Eu : uses (if n =? cnt then C2 else (i + cnt, n - cnt, false) :: C2) = uses C2) by now destruct (n =? cnt).
      rewrite Eu, map_app. cbn [map fst snd]. fold cnt. rewrite <- Permutation_middle. constructor. now rewrite map_app in HL.
    + eapply same_undisturbed; [|exact HU]. intros d s Hin. exact (live_in _ _ _ _ HL Hin).
Qed.

Lemma free_live h A1 d sz A2 C : inv h C -> live (A1 ++ (d, sz) :: A2) C ->
  exists h' C', heap_free base fuel (base + d) h = Some (tt, h') /\ inv h' C' /\ live (A1 ++ A2) C' /\ undisturbed base (64 * q) (A1 ++ A2) (mem h) (mem h').
Proof.
  intros Hi HL. destruct (live_in _ _ _ _ HL (in_elt _ _ _)) as (i & Hin & ->). pose proof (in_tiles _ _ Hi) as HTl.
  apply in_split in Hin as (C1 & C2 & ->). destruct (free_ok _ _ _ _ _ Hi) as (h' & C' & E & Hi' & HU & HS).
  assert (HL' : live (A1 ++ A2) C').
  { unfold live in *. rewrite HU. rewrite uses_app in HL. cbn [uses] in HL. rewrite !map_app in *. cbn [map fst snd] in HL. now apply Permutation_app_inv in HL. }
  exists h', C'. split; [rewrite N.add_assoc; exact E|]. split; [exact Hi'|]. split; [exact HL'|].
  eapply same_undisturbed; [|exact HS]. intros d s Hd. destruct (live_in _ _ _ _ HL' Hd) as (j & Hj & ->). exists j. split; [|reflexivity].
  apply in_uses in Hj. rewrite HU in Hj. apply in_app_iff. rewrite in_app_iff, !in_uses in Hj. exact Hj.
Qed.

Lemma write_live h A C e f : inv h C -> live A C -> In e A -> inv (set_mem h (scribble base (64 * q) e f (mem h))) C.
Proof.
  intros [Hb Hg Hs HTl HC HTr Hcnt Hsol] HL Hin. destruct e as [d sz]. destruct (live_in _ _ _ _ HL Hin) as (i & Hi & ->).
  assert (Hout : forall a, in_block base (64 * q) (ao i + 4, sz) a = false -> scribble base (64 * q) (ao i + 4, sz) f (mem h) a = mem h a).
  { intros a Ha. unfold scribble. now rewrite Ha. }
  constructor; try assumption.
  - eapply trees_frame; [exact HTr|reflexivity|reflexivity|]. intros a Ha. cbn [set_mem mem]. apply Hout.
    destruct (in_block base (64 * q) (ao i + 4, sz) a) eqn:E; [|reflexivity]. exfalso. apply (block_iff (ao i + 4, sz) i _ eq_refl) in E. exact (used_not_node _ _ _ _ HTl Hi E Ha).
  - intros j m Hj. destruct (Hcnt _ _ Hj) as (nd & End & Knd). cbn [set_mem mem].
    destruct (in_block base (64 * q) (ao i + 4, sz) (base + ao j)) eqn:E.
    + apply (block_iff (ao i + 4, sz) i _ eq_refl) in E. cbn [snd] in E. destruct (tiles_in _ _ _ _ _ _ HTl Hj) as (_ & Hm & _). pose proof (N.mul_le_mono_r 1 m (64 * q)) as Hmm.
      assert (j = i) as ->.
      { destruct (tiles_two _ _ _ _ _ _ _ _ _ HTl Hi Hj) as [Ex|Ex]; [now injection Ex|]. exfalso. apply (blocks_apart _ _ _ _ _ Ex E). lia. }
      unfold scribble. rewrite (proj2 (block_iff (ao i + 4, sz) i _ eq_refl) E). cbn [fst]. replace (ao i + 4 - 4) with (ao i) by lia. rewrite N.eqb_refl, End.
      eexists. split; [reflexivity|]. rewrite with_word0_word. rewrite Knd. rewrite <- (N.mod_small m W32) at 1; [apply count_back|].
      * rewrite <- Knd. apply N.mod_lt. discriminate.
      * rewrite <- Knd. apply N.mod_lt. discriminate.
    + exists nd. split; [|exact Knd]. now rewrite Hout.
  - intros k Hk. cbn [set_mem mem]. specialize (Hsol k Hk). unfold scribble. destruct (in_block _ _ _ _); [|exact Hsol].
    destruct (_ =? _); destruct (mem h _); congruence.
Qed.

(** ** Statistics *)
Lemma sizes_ok h F : trees h F -> forall F', incl F' F -> sizes_of (map (fun e => base + ao (fst e)) F') h = Some (map snd F', h).
Proof.
  intros H. induction F' as [|[i n] F' IH]; intros Hi; cbn [map sizes_of fst snd]; [reflexivity|].
  assert (Hin : In (i, n) F) by (apply Hi; now left). destruct (trees_node _ _ _ _ H Hin) as [(ns & Ens & Kns) _].
  rewrite ptr_so by exact (trees_small _ _ _ H Hin). rewrite (hbind_eq _ _ _ _ _ (key_of_eq (base + so i) h ns ltac:(unfold so; lia) Ens)). rewrite Kns.
  rewrite (hbind_eq _ _ _ _ _ (IH (fun e He => Hi e (or_intror He)))). reflexivity.
Qed.
Definition total (l : list N) : N := fold_right N.add 0 l.
Lemma tiles_total C : forall s e, tiles s C e -> s + total (map snd (frees C)) + total (map snd (uses C)) = e.
Proof.
  induction C as [|[[i n] u] C IH]; intros s e H; cbn [tiles frees uses] in *; [cbn; lia|]. destruct H as (-> & Hn & H). apply IH in H.
  destruct u; cbn [map snd total fold_right]; unfold total in *; lia.
Qed.
Lemma stat_ok : forall ns i, free_chunks i + N.of_nat (length ns) < W64 -> free_bytes i + total ns < W64 ->
  fold_left heap_stat ns i = mkInfo (free_chunks i + N.of_nat (length ns)) (free_bytes i + total ns) (fold_left N.min ns (smallest i)) (fold_left N.max ns (largest i)).
Proof.
  clear. induction ns as [|n ns IH]; intros i H1 H2; cbn [fold_left length total fold_right] in *.
  - destruct i as [c1 c2 c3 c4]. cbn [free_chunks free_bytes smallest largest]. f_equal; lia.
  - fold (total ns) in *. unfold heap_stat at 2. unfold add64. rewrite !N.mod_small by (unfold W64 in *; lia).
    rewrite IH; cbn [free_chunks free_bytes smallest largest]; [|lia|lia]. f_equal; [lia|lia| |].
    + f_equal. unfold N.min. destruct (N.ltb_spec n (smallest i)), (N.compare_spec (smallest i) n); lia.
    + f_equal. unfold N.max. destruct (N.ltb_spec (largest i) n), (N.compare_spec (largest i) n); lia.
Qed.
Lemma info_ok h C : inv h C -> heap_get_info base fuel h =
  Some (mkInfo (N.of_nat (length (frees C))) (total (map snd (frees C))) (fold_left N.min (map snd (frees C)) (hs + 1)) (fold_left N.max (map snd (frees C)) 0), h).
Proof.
  intros [Hb Hg Hs HTl HC HTr Hcnt Hsol]. unfold heap_get_info. cbv zeta. pose proof (trees_fuel _ _ HTr) as Hf.
  pose proof (asc_length (frees C) 0 (tr_asc _ _ HTr) (tr_in _ _ HTr)) as HL. replace (T - 0) with T in HL by lia.
  assert (HL' : (length (frees C) <= N.to_nat T)%nat) by (apply HL; [apply Forall_forall; intros; lia|lia]). clear HL.
  destruct (r_traverse base (hs + 8) _ (map anode (frees C)) fuel Hreg (tr_addr _ _ HTr)) with (f := fun _ : list (N * N) => 0%Z) as (rc & log & E & (rest & E1 & E2) & _ & E4 & E5).
  { rewrite map_length. eapply enough_le; [|exact Hf]. lia. }
  assert (rc = 0%Z) as -> by (destruct log; [now apply E5|symmetry; now apply E4]). rewrite (E2 eq_refl), app_nil_r in E1.
  assert (Et : on_addr (rrbt_traverse base fuel (fun _ => 0%Z)) h = Some ((0%Z, log), h)) by (rewrite (on_addr_eq _ _ _ _ E); cbn [root heap]; now destruct h).
  rewrite (hbind_eq _ _ _ _ _ Et). cbn [snd]. rewrite <- E1, map_map. cbn [anode fst].
  rewrite (hbind_eq _ _ _ _ _ (sizes_ok h (frees C) HTr (frees C) (incl_refl _))). unfold hret. pose proof (tiles_total _ _ _ HTl) as Ht.
  rewrite stat_ok; cbn [free_chunks free_bytes smallest largest].
  - rewrite Hs. unfold add64. rewrite N.mod_small by (unfold W63, W64 in *; lia). rewrite !N.add_0_l, map_length. reflexivity.
  - rewrite map_length. unfold W32, W64 in *. lia.
  - unfold W32, W64 in *. lia.
Qed.
Lemma live_total A C : live A C -> total (map (fun e => need (64 * q) (snd e)) A) = total (map snd (uses C)).
Proof.
  intros H. apply (Permutation_map snd) in H. rewrite !map_map in H. cbn [snd] in H. unfold total.
  assert (G : forall l l', Permutation l l' -> fold_right N.add 0 l = fold_right N.add 0 l') by (clear; induction 1; cbn [fold_right]; lia).
  now apply G.
Qed.

(** ** Initialisation *)
Lemma init_ok h : 1 <= T -> grain_bits h = bits -> grain h = 64 * q -> hsize h = hs -> sroot h = 0 -> aroot h = 0 -> solid h ->
  exists h', (set_key (base + so 0) T ;;- on_size (rrbt_ins base cmp64 fuel (base + so 0)) ;;-
     set_key (base + ao 0) (ao 0) ;;- on_addr (rrbt_ins base cmp64 fuel (base + ao 0))) h = Some (tt, h') /\ inv h' [((0, T), false)].
Proof.
  intros H1 Hb Hg Hs Hr1 Hr2 Hsol. assert (H0T : 0 < T) by lia. pose proof (ao_hs 0 H0T) as Hb0.
  destruct (cell_so h 0 Hsol H0T) as (cs & Ecs).
  set (h1 := hput h (base + so 0) (rekey cs T)).
  assert (Hempty : forall m, rholds base (hs + 8) (mkSt 0 0 m) []).
  { intros m. split; [exists 0%nat; constructor|]. split; constructor. }
  assert (Hf0 : enough 1 fuel) by (eapply enough_le; [|exact Hfuel]; lia).
  destruct (r_ins base (hs + 8) cmp64 (mkSt (sroot h1) 0 (mem h1)) [] (so 0) (rekey cs T) fuel Hreg) as (s1 & L1 & L2 & E1 & EL & R1 & F1 & _).
  { cbn [h1 hput set_mem sroot]. rewrite Hr1. apply Hempty. }
  { unfold so, ao in *. lia. }
  { apply put_eq. }
  { intros []. }
  { exact Hf0. }
  symmetry in EL. apply app_eq_nil in EL as [-> ->]. cbn [app] in R1. pose proof (keeps_ins _ _ _ _ _ _ _ E1) as K1. cbn [heap] in *.
  set (h2 := mkHp (grain_bits h1) (grain h1) (hsize h1) (hgn h1) (root s1) (aroot h1) (heap s1)).
  assert (Hsol2 : solid h2) by (eapply solid_keys; [apply (solid_put h (base + so 0) (rekey cs T)), Hsol|exact K1]).
  destruct (cell_ao h2 0 Hsol2 H0T) as (ca & Eca).
  set (h3 := hput h2 (base + ao 0) (rekey ca (ao 0))).
  destruct (r_ins base (hs + 8) cmp64 (mkSt (aroot h3) 0 (mem h3)) [] (ao 0) (rekey ca (ao 0)) fuel Hreg) as (s2 & L1 & L2 & E2 & EL & R2 & F2 & _).
  { cbn [h3 h2 h1 hput set_mem aroot]. rewrite Hr2. apply Hempty. }
  { lia. }
  { apply put_eq. }
  { intros []. }
  { exact Hf0. }
  symmetry in EL. apply app_eq_nil in EL as [-> ->]. cbn [app] in R2. pose proof (keeps_ins _ _ _ _ _ _ _ E2) as K2. cbn [heap] in *.
  eexists. split.
  - rewrite (hbind_eq _ _ _ _ _ (set_key_eq _ _ _ _ (base_neq (so 0) ltac:(unfold so; lia)) Ecs)). fold h1.
    rewrite (hbind_eq _ _ _ _ _ (on_size_eq _ h1 _ _ E1)). fold h2.
    rewrite (hbind_eq _ _ _ _ _ (set_key_eq _ _ _ _ (base_neq (ao 0) ltac:(unfold ao; lia)) Eca)). fold h3. exact (on_addr_eq _ h3 _ _ E2).
  - constructor; cbn [grain_bits grain hsize mem h3 h2 h1 hput set_mem frees].
    + exact Hb.
    + exact Hg.
    + exact Hs.
    + cbn [tiles]. split; [reflexivity|]. split; lia.
    + cbn [calm]. split; [now left|exact I].
    + constructor; cbn [sroot aroot mem].
      * exists [(so 0, T)]. split; [|split; [repeat constructor|apply Permutation_refl]].
        eapply rholds_frame; [eapply st_card; [reflexivity|reflexivity|exact R1]|]. intros e [<-|[]]. cbn [fst]. rewrite F2.
        -- unfold h3. rewrite put_ne by (pose proof (ao_so 0 0); lia). reflexivity.
        -- pose proof (ao_so 0 0). lia.
        -- intros e [].
      * eapply st_card; [reflexivity|reflexivity|exact R2].
      * repeat constructor.
      * repeat constructor. cbn [fst]. lia.
    + intros i n [E|[]]. discriminate.
    + eapply solid_keys; [apply (solid_put h2 (base + ao 0) (rekey ca (ao 0))), Hsol2|exact K2].
Qed.
End Trees.

(** ** Moving the heap *)
Lemma move_ok base base' q hs T bits h C o : 1 <= q -> T * (64 * q) <= hs -> base' + hs + 8 <= W64 -> hs + 8 <= W63 -> 
  inv base q hs T bits h C -> inv base' q hs T bits (moved base base' o h) C.
Proof.
  intros Hq HT Hw Hh [Hb Hg Hs HTl HC HTr Hcnt Hsol].
  assert (Hm : forall x, x < hs + 8 -> mem (moved base base' o h) (base' + x) = mem h (base + x)).
  { intros x Hx. unfold moved, set_mem. cbn [mem]. rewrite (proj2 (N.leb_le _ _)) by lia. rewrite Hs, (proj2 (N.ltb_lt _ _)) by lia. cbn [andb]. f_equal. lia. }
  assert (Hreg' : region base' (hs + 8)) by (unfold region; lia).
  constructor; try assumption.
  - destruct HTr as [(LS & R1 & R2 & R3) R4 R5 R6]. constructor; [| |exact R5|exact R6].
    + exists LS. split; [|now split]. pose proof (rholds_move base (hs + 8) _ LS base' o Hreg' R1) as H. unfold moved, set_mem. cbn [sroot mem]. rewrite Hs. exact H.
    + pose proof (rholds_move base (hs + 8) _ _ base' o Hreg' R4) as H. unfold moved, set_mem. cbn [aroot mem]. rewrite Hs. exact H.
  - intros i n Hin. destruct (Hcnt _ _ Hin) as (nd & E & K). exists nd. split; [|exact K]. rewrite Hm; [exact E|].
    destruct (tiles_in base' q hs T Hq HT Hw Hh _ _ _ _ _ _ HTl Hin) as (_ & Hn & Hend). pose proof (N.mul_le_mono_r _ _ (64 * q) Hend). pose proof (N.mul_le_mono_r _ _ (64 * q) Hn). unfold ao. lia.
  - intros k Hk. replace (base' + 8 + 32 * k) with (base' + (8 + 32 * k)) by lia. rewrite Hm by lia. replace (base + (8 + 32 * k)) with (base + 8 + 32 * k) by lia. now apply Hsol.
Qed.
