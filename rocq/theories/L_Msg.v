(** The message table on the red/black tree (C40). *)
From Verif Require Import S_Rbt L_RbtTree L_RbtTop S_Msg.
From Coq Require Import Lia ZifyBool ZifyN ZifyNat Permutation.
Local Open Scope N_scope.

(** ** The comparator *)
Definition cmpx (a b : N) : Z :=
  let k n := mkKey (f_flags n) (f_conn n) (f_msg n) in
  if closeb (k a) (k b) then msg_comparator a b else (Z.of_N a - Z.of_N b)%Z.

Lemma dec_eq n : n = f_flags n * 79228162514264337593543950336 + f_conn n * 4294967296 + f_msg n.
Proof.
  unfold f_flags, f_conn, f_msg. pose proof (N.div_mod' n 4294967296) as H1.
  pose proof (N.div_mod' (n / 4294967296) 18446744073709551616) as H2. rewrite N.div_div in H2 by discriminate.
  change (4294967296 * 18446744073709551616) with 79228162514264337593543950336 in H2. lia.
Qed.
Lemma f_conn_lt n : f_conn n < 18446744073709551616. Proof. apply N.mod_lt. discriminate. Qed.
Lemma f_msg_lt n : f_msg n < 4294967296. Proof. apply N.mod_lt. discriminate. Qed.

Lemma i32_small z : (-2147483648 < z < 2147483648)%Z -> i32 z = z.
Proof.
  intros H. unfold i32. destruct (Z.leb_spec 0 z).
  - rewrite Z.mod_small by lia. destruct (Z.ltb_spec z 2147483648); lia.
  - replace (z mod 4294967296)%Z with (z + 4294967296)%Z by (apply (Z.mod_unique z 4294967296 (-1)); lia).
    destruct (Z.ltb_spec (z + 4294967296) 2147483648); lia.
Qed.

Lemma cmpx_sign a b : ((0 < cmpx a b)%Z <-> b < a) /\ ((cmpx a b < 0)%Z <-> a < b).
Proof.
  unfold cmpx. destruct (closeb _ _) eqn:HC; [|lia].
  unfold closeb in HC. cbn [k_flags k_conn k_msg] in HC. unfold msg_comparator.
  pose proof (dec_eq a). pose proof (dec_eq b). pose proof (f_conn_lt a). pose proof (f_conn_lt b). pose proof (f_msg_lt a). pose proof (f_msg_lt b).
  generalize dependent (f_flags a). generalize dependent (f_flags b). generalize dependent (f_conn a). generalize dependent (f_conn b).
  generalize dependent (f_msg a). generalize dependent (f_msg b). intros ma Hma mb Hmb ca Hca cb Hcb fa Hfa fb HC Hfb.
  destruct (Z.eqb_spec (Z.of_N fb - Z.of_N fa) 0) as [E|E]; cbn [negb]; [|lia].
  assert (fb = fa) by lia. subst fb. rewrite N.eqb_refl in HC. cbn [negb orb] in HC.
  apply andb_true_iff in HC as [HC1 HC2]. rewrite (i32_small (Z.of_N cb - Z.of_N ca)) by lia.
  destruct (Z.eqb_spec (Z.of_N cb - Z.of_N ca) 0) as [E2|E2]; cbn [negb]; [|lia].
  assert (cb = ca) by lia. subst cb. rewrite N.eqb_refl in HC2. cbn [negb orb] in HC2.
  rewrite i32_small by lia. lia.
Qed.
Lemma cmpx_pre : preorder cmpx.
Proof.
  split; intros.
  - destruct (cmpx_sign a b), (cmpx_sign b a). lia.
  - destruct (cmpx_sign a b), (cmpx_sign b c), (cmpx_sign a c). lia.
Qed.
Lemma cmpx_0 a b : cmpx a b = 0%Z <-> a = b.
Proof. destruct (cmpx_sign a b). lia. Qed.

Lemma enc_dec k : fits_key k = true -> f_flags (enc k) = k_flags k /\ f_conn (enc k) = k_conn k /\ f_msg (enc k) = k_msg k.
Proof.
  unfold fits_key. intros H. destruct k as [f c m]. unfold enc, f_flags, f_conn, f_msg. cbn [k_flags k_conn k_msg] in *.
  assert (E : f * 79228162514264337593543950336 + c * 4294967296 + m = m + (f * 18446744073709551616 + c) * 4294967296) by lia.
  split; [|split].
  - symmetry. apply (N.div_unique _ _ _ (c * 4294967296 + m)); lia.
  - rewrite E. rewrite N.div_add by discriminate. rewrite N.div_small by lia. rewrite N.add_0_l.
    symmetry. apply (N.mod_unique _ _ f); lia.
  - rewrite E. rewrite N.mod_add by discriminate. apply N.mod_small. lia.
Qed.
Lemma enc_key k : fits_key k = true -> mkKey (f_flags (enc k)) (f_conn (enc k)) (f_msg (enc k)) = k.
Proof. intros H. destruct (enc_dec k H) as (-> & -> & ->). now destruct k. Qed.
Lemma same_enc a b : fits_key a = true -> fits_key b = true -> (same a b = true <-> enc a = enc b).
Proof.
  intros Ha Hb. split.
  - unfold same. intros H. destruct a as [x y z], b as [x' y' z']. cbn [k_flags k_conn k_msg] in H.
    assert (x = x') by lia. assert (y = y') by lia. assert (z = z') by lia. now subst.
  - intros E. assert (a = b) by (rewrite <- (enc_key a Ha), E; now apply enc_key). subst. unfold same. rewrite !N.eqb_refl. reflexivity.
Qed.
Lemma close_cmp a b : fits_key a = true -> fits_key b = true -> closeb a b = true -> msg_comparator (enc a) (enc b) = cmpx (enc a) (enc b).
Proof. intros Ha Hb H. unfold cmpx. rewrite (enc_key a Ha), (enc_key b Hb), H. reflexivity. Qed.

(** ** The tree with one comparator or the other *)
Lemma tree_agree h h' p q L b c : tree_at h p q L b c -> (forall a, In a (map fst L) -> h' a = h a) -> tree_at h' p q L b c.
Proof.
  intros T. induction T as [q|p q l r k L1 L2 b Hp Hh T1 IH1 T2 IH2|p q l r k L1 L2 b c1 c2 Hp Hh T1 IH1 T2 IH2]; intros HA.
  - constructor.
  - rewrite map_app in HA. cbn [map fst] in HA. econstructor; [exact Hp| | |].
    + rewrite HA; [exact Hh|]. apply in_elt.
    + apply IH1. intros a Ha. apply HA. apply in_or_app. now left.
    + apply IH2. intros a Ha. apply HA. apply in_or_app. right. now right.
  - rewrite map_app in HA. cbn [map fst] in HA. econstructor; [exact Hp| | |].
    + rewrite HA; [exact Hh|]. apply in_elt.
    + apply IH1. intros a Ha. apply HA. apply in_or_app. now left.
    + apply IH2. intros a Ha. apply HA. apply in_or_app. right. now right.
Qed.
Lemma tree_node h p q L b c a k : tree_at h p q L b c -> In (a, k) L -> a <> 0 /\ exists n, h a = Some n /\ key n = k.
Proof.
  intros T. induction T as [q|p q l r k' L1 L2 b Hp Hh T1 IH1 T2 IH2|p q l r k' L1 L2 b c1 c2 Hp Hh T1 IH1 T2 IH2]; intros HI.
  - destruct HI.
  - apply in_app_or in HI as [HI|[HI|HI]]; [now apply IH1| |now apply IH2]. injection HI as <- <-. split; [exact Hp|]. eexists; split; [exact Hh|reflexivity].
  - apply in_app_or in HI as [HI|[HI|HI]]; [now apply IH1| |now apply IH2]. injection HI as <- <-. split; [exact Hp|]. eexists; split; [exact Hh|reflexivity].
Qed.

Lemma find_cong cmp cmp' k s : (forall a n, heap s a = Some n -> cmp (key n) k = cmp' (key n) k) ->
  forall fuel x, find_loop cmp fuel x k s = find_loop cmp' fuel x k s.
Proof.
  intros HC fuel. induction fuel as [|fuel IH]; intros x; cbn [find_loop]; [reflexivity|].
  destruct (x =? 0) eqn:Ex; [reflexivity|]. unfold get_key, get_left, get_right, load, bind, ret. rewrite Ex.
  destruct (heap s x) as [n|] eqn:Eh; [|reflexivity]. rewrite (HC x n Eh).
  destruct (cmp' (key n) k =? 0)%Z; [reflexivity|]. destruct (0 <? cmp' (key n) k)%Z; rewrite ?Ex, ?Eh; apply IH.
Qed.
Lemma descend_cong cmp cmp' x nx s : heap s x = Some nx -> (forall a n, heap s a = Some n -> cmp (key n) (key nx) = cmp' (key n) (key nx)) ->
  forall fuel n p c, ins_descend cmp fuel x n p c s = ins_descend cmp' fuel x n p c s.
Proof.
  intros HX HC fuel. induction fuel as [|fuel IH]; intros n p c; cbn [ins_descend]; [reflexivity|].
  destruct (n =? 0) eqn:Ex; [reflexivity|]. unfold get_key, get_left, get_right, load, bind, ret. rewrite Ex.
  destruct (heap s n) as [nn|] eqn:Eh; [|reflexivity]. destruct (x =? 0) eqn:Ex0; [reflexivity|]. rewrite HX. cbn [key]. rewrite (HC n nn Eh).
  destruct (0 <? cmp' (key nn) (key nx))%Z; rewrite ?Ex, ?Eh; apply IH.
Qed.
Lemma bind_cong {A C} (p p' : prog A) (k : A -> prog C) s : p s = p' s -> bind p k s = bind p' k s.
Proof. unfold bind. now intros ->. Qed.
Lemma ins_cong cmp cmp' x nx s fuel : x <> 0 -> heap s x = Some nx ->
  (forall a n, heap s a = Some n -> cmp (key n) (key nx) = cmp' (key n) (key nx)) ->
  rbt_ins cmp fuel x s = rbt_ins cmp' fuel x s.
Proof.
  intros Hx HX HC. assert (Ex : (x =? 0) = false) by now apply N.eqb_neq.
  assert (ST : forall f s n, heap s x = Some n -> store x f s = Some (tt, mkSt (root s) (card s) (upd (heap s) x (f n)))).
  { intros f s0 n Hn. unfold store. now rewrite Ex, Hn. }
  assert (UX : forall h n, upd h x n x = Some n) by (intros h n; unfold upd; now rewrite N.eqb_refl).
  assert (BD : forall A C (p : prog A) (k : A -> prog C) s0 a s1, p s0 = Some (a, s1) -> bind p k s0 = k a s1).
  { intros A C p k s0 a s1 Hp. unfold bind. now rewrite Hp. }
  unfold rbt_ins. rewrite !(BD _ _ _ _ _ _ _ (eq_refl : get_card s = Some (card s, s))).
  set (s1 := mkSt (root s) (card s + 1) (heap s)). rewrite !(BD _ _ _ _ _ _ _ (eq_refl : set_card (card s + 1) s = Some (tt, s1))).
  rewrite !(BD _ _ _ _ _ _ _ (ST _ s1 nx HX : set_right x 0 s1 = _)). set (s2 := mkSt _ _ _).
  rewrite !(BD _ _ _ _ _ _ _ (ST _ s2 _ (UX _ _) : set_left x 0 s2 = _)). set (s3 := mkSt _ _ _).
  rewrite !(BD _ _ _ _ _ _ _ (eq_refl : get_root s3 = Some (root s3, s3))).
  destruct (root s3 =? 0) eqn:Er; [reflexivity|].
  rewrite !(BD _ _ _ _ _ _ _ (ST _ s3 _ (UX _ _) : set_color x Red s3 = _)). set (s4 := mkSt _ _ _).
  apply bind_cong. eapply descend_cong; [apply UX|].
  cbn [key]. intros a n. unfold s4, s3, s2, s1, upd. cbn [heap]. destruct (N.eqb_spec a x) as [->|Ha].
  - intros Q. injection Q as <-. cbn [key]. exact (HC x nx HX).
  - intros Q. exact (HC a n Q).
Qed.

(** ** The table *)
Section Table.
Variables B R : Type.
Variable fresh : B.
Variable gather : B -> R -> option B.
Variable valid : B -> option bool.
Variables som eom : R -> bool.
Variable fuel : nat.
Notation entry := (entry B). Notation mst := (mst B).
Notation e_at := (e_at B). Notation e_key := (e_key B). Notation e_buf := (e_buf B). Notation e_open := (e_open B). Notation e_held := (e_held B).

Definition row (e : entry) : N * N := (e_at e, enc (e_key e)).
Definition refs_of (e : entry) : Z := Z.of_nat ((if e_open e then 1 else 0) + e_held e).
Record trees (m : mst) (T : list entry) : Prop := mkT {
  t_tree : exists L, holds (m_tree _ m) L /\ sorted cmpx L /\ Permutation L (map row T);
  t_none : forall a, ~ In a (map e_at T) -> heap (m_tree _ m) a = None;
  t_fits : Forall (fun e => fits_key (e_key e) = true) T;
  t_keys : NoDup (map (fun e => enc (e_key e)) T) }.
Definition ctxs (m : mst) (T : list entry) : Prop :=
  forall e, In e T -> m_ctx _ m (e_at e) = Some (mkC _ (e_buf e) (refs_of e)).

Lemma map_row T : map fst (map row T) = map e_at T. Proof. rewrite map_map. reflexivity. Qed.
Lemma trees_perm m T T' : Permutation T T' -> trees m T -> trees m T'.
Proof.
  intros P [(L & H1 & H2 & H3) H4 H5 H6]. constructor.
  - exists L. split; [exact H1|]. split; [exact H2|]. rewrite H3. now apply Permutation_map.
  - intros a Ha. apply H4. intros Q. apply Ha. eapply Permutation_in; [apply Permutation_map; exact P|exact Q].
  - eapply Permutation_Forall; [exact P|exact H5].
  - eapply Permutation_NoDup; [apply Permutation_map; exact P|exact H6].
Qed.
Lemma ctxs_perm m T T' : Permutation T T' -> ctxs m T -> ctxs m T'.
Proof. intros P H e He. apply H. eapply Permutation_in; [symmetry; exact P|exact He]. Qed.
Lemma trees_ats m T : trees m T -> NoDup (map e_at T).
Proof.
  intros [(L & H1 & _ & H3) _ _ _]. rewrite <- map_row. eapply Permutation_NoDup; [apply Permutation_map; exact H3|]. exact (proj1 (proj2 H1)).
Qed.
Lemma trees_len m T : trees m T -> exists L, holds (m_tree _ m) L /\ length L = length T.
Proof. intros [(L & H1 & _ & H3) _ _ _]. exists L. split; [exact H1|]. rewrite (Permutation_length H3). apply map_length. Qed.
Lemma trees_node m T e : trees m T -> In e T -> e_at e <> 0 /\ exists n, heap (m_tree _ m) (e_at e) = Some n /\ key n = enc (e_key e).
Proof.
  intros [(L & ((b & T1) & _) & _ & H3) _ _ _] He. apply (tree_node _ _ _ _ _ _ _ _ T1).
  apply (Permutation_in _ (Permutation_sym H3)). now apply (in_map row).
Qed.

Lemma nodup_inj {A} (f : A -> N) l x y : NoDup (map f l) -> In x l -> In y l -> f x = f y -> x = y.
Proof.
  induction l as [|a l IH]; cbn [map]; intros ND Hx Hy E; [destruct Hx|]. apply NoDup_cons_iff in ND as [N1 N2].
  destruct Hx as [->|Hx], Hy as [->|Hy]; [reflexivity| | |now apply IH].
  - exfalso. apply N1. rewrite E. now apply in_map.
  - exfalso. apply N1. rewrite <- E. now apply in_map.
Qed.
Lemma without_notin x (T : list entry) : ~ In x (map e_at T) -> without B x T = T.
Proof.
  induction T as [|e T IH]; cbn [without filter map]; intros H; [reflexivity|].
  destruct (N.eqb_spec (e_at e) x) as [Hx|Hx]; cbn [negb]; [exfalso; apply H; now left|]. f_equal. apply IH. intros Q. apply H. now right.
Qed.
Lemma without_perm (T : list entry) e : NoDup (map e_at T) -> In e T -> Permutation T (e :: without B (e_at e) T).
Proof.
  induction T as [|x T IH]; cbn [map]; intros ND HI; [destruct HI|]. apply NoDup_cons_iff in ND as [N1 N2]. unfold without. cbn [filter].
  destruct HI as [->|HI].
  - rewrite N.eqb_refl. cbn [negb]. fold (without B (e_at e) T). now rewrite without_notin.
  - destruct (N.eqb_spec (e_at x) (e_at e)) as [Q|Q]; cbn [negb].
    + exfalso. apply N1. rewrite Q. now apply in_map.
    + fold (without B (e_at e) T). rewrite (IH N2 HI) at 1. apply perm_swap.
Qed.
Lemma lookup_in k T e : lookup B k T = Some e -> In e T /\ same (e_key e) k = true.
Proof. intros H. apply find_some in H. exact H. Qed.

Lemma find_ok m T k : trees m T -> fits_key k = true -> forallb (fun e => closeb (e_key e) k) T = true -> enough (length T) fuel ->
  find_req_ctxt B fuel k m = Some (match lookup B k T with Some e => e_at e | None => 0 end, m).
Proof.
  intros HT HF HC HE. unfold find_req_ctxt, on_tree. rewrite forallb_forall in HC.
  assert (CG : forall a n, heap (m_tree _ m) a = Some n -> msg_comparator (key n) (enc k) = cmpx (key n) (enc k)).
  { intros a n Hn. destruct (in_dec N.eq_dec a (map e_at T)) as [HI|HI]; [|rewrite (t_none _ _ HT a HI) in Hn; discriminate].
    apply in_map_iff in HI as (e & <- & He). destruct (trees_node _ _ _ HT He) as (_ & n' & Hn' & Hk). rewrite Hn in Hn'. injection Hn' as <-.
    rewrite Hk. apply close_cmp; [|exact HF|now apply HC]. pose proof (t_fits _ _ HT) as F. rewrite Forall_forall in F. now apply F. }
  unfold rbt_find, get_root, bind. rewrite (find_cong _ _ _ _ CG). change (find_loop cmpx fuel (root (m_tree B m)) (enc k) (m_tree B m)) with (rbt_find cmpx fuel (enc k) (m_tree B m)).
  destruct (t_tree _ _ HT) as (L & H1 & H2 & H3).
  destruct (holds_find cmpx _ L (enc k) fuel cmpx_pre H1 H2) as (r & E & C).
  { rewrite (Permutation_length H3), map_length. exact HE. }
  rewrite E. assert (ET : mkM B (m_tree B m) (m_ctx B m) (m_lock B m) = m) by now destruct m. rewrite ET. f_equal. f_equal.
  pose proof (t_fits _ _ HT) as F. rewrite Forall_forall in F.
  destruct (lookup B k T) as [e|] eqn:HL.
  - apply lookup_in in HL as [He Hs]. apply (same_enc _ _ (F e He) HF) in Hs.
    destruct C as [[-> C]|(kr & HI & C)].
    + exfalso. apply (C (row e)); [apply (Permutation_in _ (Permutation_sym H3)); now apply in_map|]. cbn [row snd]. rewrite Hs. now apply cmpx_0.
    + apply cmpx_0 in C. subst kr. apply (Permutation_in _ H3) in HI. apply in_map_iff in HI as (e' & Q & He'). injection Q as Q1 Q2.
      assert (e' = e). { apply (nodup_inj (fun e => enc (e_key e)) T); [exact (t_keys _ _ HT)|exact He'|exact He|]. cbn beta. congruence. }
      subst. reflexivity.
  - destruct C as [[-> C]|(kr & HI & C)]; [reflexivity|]. exfalso. apply cmpx_0 in C. subst kr. apply (Permutation_in _ H3) in HI.
    apply in_map_iff in HI as (e' & Q & He'). injection Q as Q1 Q2. pose proof (find_none _ _ HL e' He') as Q3. cbn beta in Q3.
    apply (same_enc _ _ (F e' He') HF) in Q2. rewrite Q2 in Q3. discriminate.
Qed.

Lemma alloc_ok m T k x mm : trees m T -> ctxs m T -> fits_key k = true -> forallb (fun e => closeb (e_key e) k) T = true ->
  enough (S (length T)) fuel -> lookup B k T = None -> x <> 0 -> ~ In x (map e_at T) -> mm = MAll ->
  exists m', alloc_req_ctxt B fresh fuel mm x k m = Some (x, m') /\ trees m' (mkE B x k fresh true 0 :: T) /\
             ctxs m' (mkE B x k fresh true 0 :: T) /\ m_lock _ m' = m_lock _ m.
Proof.
  intros HT HX HF HC HE HL Hx Hni ->. rewrite forallb_forall in HC. pose proof (t_fits _ _ HT) as F. rewrite Forall_forall in F.
  unfold alloc_req_ctxt, mbind, set_ctx, on_tree. cbn [m_tree m_ctx m_lock].
  assert (Ex : (x =? 0) = false) by now apply N.eqb_neq.
  unfold rbn_init, store. rewrite Ex. cbn [heap root card]. unfold upd at 1. rewrite N.eqb_refl. cbn [left right parent col key].
  set (s0 := m_tree _ m). set (nd := mkN 0 0 0 Red (enc k)). set (s1 := mkSt _ _ _).
  destruct (t_tree _ _ HT) as (L & H1 & H2 & H3).
  assert (HH : forall a, heap s1 a = if a =? x then Some nd else heap s0 a).
  { intros a. unfold s1. cbn [heap]. unfold upd. destruct (a =? x); reflexivity. }
  assert (NI : ~ In x (map fst L)). { intros Q. apply Hni. rewrite <- map_row. eapply Permutation_in; [apply Permutation_map; exact H3|exact Q]. }
  assert (H1' : holds s1 L).
  { destruct H1 as ((b & T1) & N1 & C1). split; [|split; [exact N1|exact C1]]. exists b. eapply tree_agree; [exact T1|].
    intros a Ha. rewrite HH. destruct (N.eqb_spec a x) as [->|]; [contradiction|reflexivity]. }
  assert (HX1 : heap s1 x = Some nd) by (rewrite HH, N.eqb_refl; reflexivity).
  assert (CG : forall a n, heap s1 a = Some n -> msg_comparator (key n) (key nd) = cmpx (key n) (key nd)).
  { intros a n. rewrite HH. destruct (N.eqb_spec a x) as [->|Ha].
    - intros Q. injection Q as <-. apply close_cmp; [exact HF|exact HF|]. unfold closeb. rewrite !N.eqb_refl. cbn [negb orb].
      rewrite !(proj2 (N.ltb_lt _ _)); [reflexivity|lia..].
    - intros Hn. destruct (in_dec N.eq_dec a (map e_at T)) as [HI|HI]; [|unfold s0 in Hn; rewrite (t_none _ _ HT a HI) in Hn; discriminate].
      apply in_map_iff in HI as (e & <- & He). destruct (trees_node _ _ _ HT He) as (_ & n' & Hn' & Hk). unfold s0 in Hn. rewrite Hn in Hn'. injection Hn' as <-.
      rewrite Hk. apply close_cmp; [now apply F|exact HF|now apply HC]. }
  cbn [m_tree m_ctx m_lock]. rewrite (ins_cong _ cmpx x nd s1 fuel Hx HX1 CG).
  assert (LE : length L = length T) by (rewrite (Permutation_length H3); apply map_length).
  destruct (holds_ins cmpx s1 L x nd fuel H1' Hx HX1 NI) as (s' & L1 & L2 & E1 & -> & E3 & E4 & E5).
  { eapply enough_le; [|exact HE]. lia. }
  rewrite E1. cbn beta. eexists. split; [reflexivity|]. destruct (E5 cmpx_pre H2) as [F1 F2]. split; [constructor|split; [|reflexivity]].
  - exists (L1 ++ (x, key nd) :: L2). split; [exact E3|]. split; [exact (sorted_join cmpx cmpx_pre (x, key nd) L1 L2 H2 F1 F2)|].
    cbn [map]. rewrite <- Permutation_middle. unfold row at 1. cbn [S_Msg.e_at S_Msg.e_key]. change (key nd) with (enc k). now apply perm_skip.
  - cbn [map S_Msg.e_at m_tree]. intros a Ha. assert (a <> x) by (intros ->; apply Ha; now left).
    rewrite E4; [|exact H|].
    + rewrite HH. rewrite (proj2 (N.eqb_neq a x) H). apply (t_none _ _ HT). intros Q. apply Ha. now right.
    + intros Q. apply Ha. right. rewrite <- map_row. eapply Permutation_in; [apply Permutation_map; exact H3|exact Q].
  - constructor; [exact HF|exact (t_fits _ _ HT)].
  - cbn [map S_Msg.e_key]. constructor; [|exact (t_keys _ _ HT)]. intros Q. apply in_map_iff in Q as (e & Q & He).
    apply (same_enc _ _ (F e He) HF) in Q. pose proof (find_none _ _ HL e He) as Q3. cbn beta in Q3. congruence.
  - intros e [<-|He]; cbn [m_ctx S_Msg.e_at S_Msg.e_buf].
    + rewrite N.eqb_refl. reflexivity.
    + destruct (N.eqb_spec (e_at e) x) as [Q|Q]; [exfalso; apply Hni; rewrite <- Q; now apply in_map|]. now apply HX.
Qed.

Lemma free_ok m T e : trees m (e :: T) -> ctxs m T -> enough (S (length T)) fuel ->
  exists m', free_req_ctxt B fuel (e_at e) m = Some (tt, m') /\ trees m' T /\ ctxs m' T /\ m_lock _ m' = m_lock _ m.
Proof.
  intros HT HX HE. pose proof (trees_ats _ _ HT) as ND. cbn [map] in ND. apply NoDup_cons_iff in ND as [N1 N2].
  destruct (t_tree _ _ HT) as (L & H1 & H2 & H3). cbn [map] in H3.
  assert (HI : In (row e) L) by (apply (Permutation_in _ (Permutation_sym H3)); now left).
  apply in_split in HI as (L1 & L2 & ->).
  assert (LE : length (L1 ++ row e :: L2) = S (length T)) by (rewrite (Permutation_length H3); cbn [length]; now rewrite map_length).
  apply (Permutation_trans (Permutation_middle L1 L2 (row e))) in H3. apply Permutation_cons_inv in H3.
  destruct (holds_del (m_tree _ m) L1 (e_at e) (enc (e_key e)) L2 fuel H1) as (s' & E1 & E2 & E3).
  { unfold row in LE. rewrite LE. exact HE. }
  assert (NI : ~ In (e_at e) (map fst (L1 ++ L2))).
  { intros Q. apply N1. rewrite <- map_row. eapply Permutation_in; [apply Permutation_map; exact H3|exact Q]. }
  unfold free_req_ctxt, mbind, on_tree, set_ctx. rewrite E1. cbn [m_tree m_ctx m_lock]. eexists. split; [reflexivity|]. split; [constructor|split; [|reflexivity]].
  - cbn [m_tree]. exists (L1 ++ L2). split; [|split; [exact (sorted_drop _ _ _ _ H2)|exact H3]].
    destruct E2 as ((b & T1) & ND & C). split; [exists b|split; [exact ND|exact C]]. cbn [heap root]. eapply tree_agree; [exact T1|].
    intros a Ha. cbn beta. destruct (N.eqb_spec a (e_at e)) as [->|]; [contradiction|reflexivity].
  - cbn [m_tree heap]. intros a Ha. destruct (N.eqb_spec a (e_at e)) as [->|Q]; [reflexivity|]. rewrite E3.
    + apply (t_none _ _ HT). cbn [map]. intros [Q2|Q2]; [congruence|now apply Ha].
    + rewrite map_app. cbn [map]. intros Q2. apply Ha. rewrite <- map_row. eapply Permutation_in; [apply Permutation_map; exact H3|].
      rewrite map_app. apply in_app_or in Q2 as [Q2|[Q2|Q2]]; apply in_or_app; [now left|cbn [fst row] in Q2; congruence|now right].
  - pose proof (t_fits _ _ HT) as F. now inversion F.
  - pose proof (t_keys _ _ HT) as F. cbn [map] in F. now apply NoDup_cons_iff in F.
  - intros e' He'. cbn [m_ctx]. destruct (N.eqb_spec (e_at e') (e_at e)) as [Q|Q]; [exfalso; apply N1; rewrite <- Q; now apply in_map|]. now apply HX.
Qed.

Definition tab (lk : bool) (m : mst) (T : list entry) : Prop := trees m T /\ ctxs m T /\ m_lock _ m = lk.
Lemma trees_keep m m' T T' : m_tree _ m' = m_tree _ m -> map row T' = map row T -> map e_key T' = map e_key T -> trees m T -> trees m' T'.
Proof.
  intros E ER EK [(L & H1 & H2 & H3) H4 H5 H6]. rewrite <- E in *. constructor.
  - exists L. rewrite ER. auto.
  - intros a Ha. apply H4. rewrite <- map_row, <- ER, map_row. exact Ha.
  - apply Forall_map with (P := fun k => fits_key k = true) (f := e_key). rewrite EK. now apply Forall_map.
  - rewrite <- (map_map e_key enc). rewrite EK. now rewrite map_map.
Qed.
(** Writing the context of the first entry *)
Lemma set_ok lk m T e b n o : tab lk m (e :: T) ->
  let e' := mkE B (e_at e) (e_key e) b o n in
  exists m', set_ctx B (e_at e) (Some (mkC _ b (refs_of e'))) m = Some (tt, m') /\ tab lk m' (e' :: T).
Proof.
  intros (HT & HX & HK) e'. eexists. split; [reflexivity|]. pose proof (trees_ats _ _ HT) as ND. cbn [map] in ND. apply NoDup_cons_iff in ND as [N1 N2].
  split; [|split; [|exact HK]].
  - eapply trees_keep; [| | |exact HT]; reflexivity.
  - intros x [<-|Hx]; cbn [m_ctx S_Msg.e_at S_Msg.e_buf].
    + unfold e'. cbn [S_Msg.e_at S_Msg.e_buf]. rewrite N.eqb_refl. reflexivity.
    + destruct (N.eqb_spec (e_at x) (e_at e)) as [Q|Q]; [exfalso; apply N1; rewrite <- Q; now apply in_map|]. apply HX. now right.
Qed.
Lemma get_ok lk m T e : tab lk m (e :: T) -> get_ctx B (e_at e) m = Some (mkC _ (e_buf e) (refs_of e), m).
Proof. intros (_ & HX & _). unfold get_ctx. rewrite (HX e) by now left. reflexivity. Qed.
Lemma lock_ok m T : tab false m T -> exists m', tree_lock B m = Some (tt, m') /\ tab true m' T.
Proof.
  intros (HT & HX & HK). unfold tree_lock. rewrite HK. eexists. split; [reflexivity|].
  split; [eapply trees_keep; [| | |exact HT]; reflexivity|]. split; [exact HX|reflexivity].
Qed.
Lemma unlock_ok m T : tab true m T -> exists m', tree_unlock B m = Some (tt, m') /\ tab false m' T.
Proof.
  intros (HT & HX & HK). unfold tree_unlock. rewrite HK. eexists. split; [reflexivity|].
  split; [eapply trees_keep; [| | |exact HT]; reflexivity|]. split; [exact HX|reflexivity].
Qed.
Lemma tab_perm lk m T T' : Permutation T T' -> tab lk m T -> tab lk m T'.
Proof. intros P (H1 & H2 & H3). split; [now apply (trees_perm m T)|]. split; [now apply (ctxs_perm m T)|exact H3]. Qed.

Lemma gets_ok n : forall lk m T e, tab lk m (e :: T) -> (0 < refs_of e)%Z ->
  exists m', ref_gets B n (e_at e) m = Some (tt, m') /\ tab lk m' (mkE B (e_at e) (e_key e) (e_buf e) (e_open e) (e_held e + n) :: T).
Proof.
  induction n as [|n IH]; intros lk m T e HT HR.
  - exists m. split; [reflexivity|]. rewrite Nat.add_0_r. now destruct e.
  - cbn [ref_gets]. unfold mbind at 1. unfold ref_get, mbind at 1. rewrite (get_ok _ _ _ _ HT). cbn [c_refs c_buf].
    destruct (Z.eqb_spec (refs_of e) 0); [lia|].
    destruct (set_ok lk m T e (e_buf e) (S (e_held e)) (e_open e) HT) as (m1 & E1 & H1).
    replace (refs_of e + 1)%Z with (refs_of (mkE B (e_at e) (e_key e) (e_buf e) (e_open e) (S (e_held e)))) by (unfold refs_of; cbn [S_Msg.e_open S_Msg.e_held]; lia).
    rewrite E1. destruct (IH lk m1 T _ H1) as (m2 & E2 & H2); [unfold refs_of in *; cbn [S_Msg.e_open S_Msg.e_held]; lia|].
    cbn [S_Msg.e_at S_Msg.e_key S_Msg.e_buf S_Msg.e_open S_Msg.e_held] in *. exists m2. split; [exact E2|].
    replace (e_held e + S n)%nat with (S (e_held e) + n)%nat by lia. exact H2.
Qed.
(** Dropping one reference: [o], [n] what remains *)
Lemma put_ok lk m T e o n : tab lk m (e :: T) -> enough (S (length T)) fuel ->
  let e' := mkE B (e_at e) (e_key e) (e_buf e) o n in refs_of e = (refs_of e' + 1)%Z ->
  exists m', ref_put B fuel (e_at e) m = Some (tt, m') /\ tab lk m' (if (refs_of e' =? 0)%Z then T else e' :: T).
Proof.
  intros HT HE e' HR. unfold ref_put, mbind at 1. rewrite (get_ok _ _ _ _ HT). cbn [c_refs c_buf].
  replace (refs_of e - 1)%Z with (refs_of e') by lia. destruct (set_ok lk m T e (e_buf e) n o HT) as (m1 & E1 & H1).
  unfold mbind. fold e' in E1, H1. rewrite E1. destruct (refs_of e' =? 0)%Z.
  - destruct H1 as (A1 & A2 & A3). destruct (free_ok m1 T e' A1) as (m2 & E2 & B1 & B2 & B3); [intros x Hx; apply A2; now right|exact HE|].
    exists m2. split; [exact E2|]. split; [exact B1|]. split; [exact B2|congruence].
  - exists m1. split; [reflexivity|exact H1].
Qed.

Local Notation "x <~ p ;; k" := (mbind B p (fun x => k)) (at level 61, p at next level, right associativity).
Local Notation "p ~;; k" := (mbind B p (fun _ => k)) (at level 61, right associativity).
Definition handling (h : N -> mprog B unit) (r : R) (c : N) : mprog B (reply B) :=
  cc <~ get_ctx B c ;;
  match gather (c_buf B cc) r with
  | None => mfail B
  | Some b =>
    set_ctx B c (Some (mkC B b (c_refs B cc))) ~;;
    tree_unlock B ~;;
    if negb (eom r) then mret B More else
    match valid b with
    | None => mfail B
    | Some false => tree_unlock B ~;; mret B Done
    | Some true => h c ~;; tree_lock B ~;; ref_put B fuel c ~;; tree_unlock B ~;; mret B (Delivered b)
    end
  end.
Lemma run_bind {A C} (p : mprog B A) (k : A -> mprog B C) m a m1 : p m = Some (a, m1) -> mbind B p k m = k a m1.
Proof. unfold mbind. now intros ->. Qed.

Lemma take_ok h m T e r keep a T' :
  (forall lk m T e, tab lk m (e :: T) -> (0 < refs_of e)%Z ->
     exists m', h (e_at e) m = Some (tt, m') /\ tab lk m' (mkE B (e_at e) (e_key e) (e_buf e) (e_open e) (e_held e + keep) :: T)) ->
  tab true m (e :: T) -> e_open e = true -> e_held e = O -> enough (S (length T)) fuel ->
  take B R gather valid eom e T r keep = Some (a, T') ->
  exists m', handling h r (e_at e) m = Some (a, m') /\ tab false m' T' /\ (length T' <= S (length T))%nat.
Proof.
  intros Hh HT HO HZ HE HW. unfold take in HW. unfold handling. rewrite (run_bind _ _ _ _ _ (get_ok _ _ _ _ HT)). cbn [c_buf c_refs].
  destruct (gather (e_buf e) r) as [b|]; [|discriminate].
  destruct (set_ok true m T e b (e_held e) (e_open e) HT) as (m1 & E1 & H1). rewrite (run_bind _ _ _ _ _ E1).
  set (e1 := mkE B (e_at e) (e_key e) b (e_open e) (e_held e)) in *.
  destruct (unlock_ok m1 _ H1) as (m2 & E2 & H2). rewrite (run_bind _ _ _ _ _ E2).
  destruct (eom r); cbn [negb] in *.
  - destruct (valid b) as [[]|]; try discriminate.
    destruct (Hh false m2 T e1 H2) as (m3 & E3 & H3); [unfold refs_of, e1; cbn [S_Msg.e_open S_Msg.e_held]; rewrite HO; lia|].
    change (e_at e) with (e_at e1). rewrite (run_bind _ _ _ _ _ E3). destruct (lock_ok m3 _ H3) as (m4 & E4 & H4). rewrite (run_bind _ _ _ _ _ E4).
    set (e2 := mkE B (e_at e1) _ _ _ _) in *.
    destruct (put_ok true m4 T e2 false keep H4 HE) as (m5 & E5 & H5).
    { unfold refs_of, e2, e1. cbn [S_Msg.e_open S_Msg.e_held]. rewrite HO, HZ. lia. }
    change (e_at e1) with (e_at e2). rewrite (run_bind _ _ _ _ _ E5). destruct (unlock_ok m5 _ H5) as (m6 & E6 & H6). rewrite (run_bind _ _ _ _ _ E6).
    exists m6. injection HW as <- <-. split; [reflexivity|]. unfold refs_of in H6. cbn [S_Msg.e_open S_Msg.e_held] in H6.
    destruct keep as [|keep].
    + cbn in H6. split; [exact H6|lia].
    + destruct (Z.eqb_spec (Z.of_nat (0 + S keep)) 0); [lia|]. split; [exact H6|]. cbn [length]. lia.
  - injection HW as <- <-. exists m2. split; [reflexivity|]. unfold e1 in H2. rewrite HO in H2. split; [exact H2|cbn [length]; lia].
Qed.

Lemma step_ok o m T a T' : tab false m T -> enough (S (length T)) fuel -> want B R fresh gather valid som eom o T = Some (a, T') ->
  exists m', act B R fresh gather valid som eom fuel o m = Some (a, m') /\ tab false m' T' /\ (length T' <= S (length T))%nat.
Proof.
  intros HT HE HW. assert (HE0 : enough (length T) fuel) by (eapply enough_le; [|exact HE]; lia).
  destruct o as [mm x mark k r keep|mm x k|mark k r|x]; cbn [want act] in *.
  - unfold process_request. destruct mark; cbn [negb] in *; [|injection HW as <- <-; exists m; split; [reflexivity|split; [exact HT|lia]]].
    destruct (fits_key k) eqn:HF; cbn [andb negb] in HW; [|discriminate].
    destruct (forallb (fun e => closeb (e_key e) k) T) eqn:HC; cbn [negb] in HW; [|discriminate].
    destruct (lock_ok m T HT) as (m1 & E1 & H1). rewrite (run_bind _ _ _ _ _ E1).
    rewrite (run_bind _ _ _ _ _ (find_ok m1 T k (proj1 H1) HF HC HE0)). cbv zeta.
    destruct (lookup B k T) as [e|] eqn:HL.
    + destruct (lookup_in _ _ _ HL) as [He _]. destruct (trees_node _ _ _ (proj1 H1) He) as [Hn _]. rewrite (proj2 (N.eqb_neq _ _) Hn). cbn [negb].
      destruct (som r).
      * injection HW as <- <-. destruct (unlock_ok m1 T H1) as (m2 & E2 & H2). rewrite (run_bind _ _ _ _ _ E2). exists m2. split; [reflexivity|]. split; [exact H2|lia].
      * destruct (e_open e) eqn:HO; [|discriminate]. destruct (Nat.eqb_spec (e_held e) 0) as [HZ|]; [|discriminate]. cbn [andb] in HW.
        pose proof (without_perm T e (trees_ats _ _ (proj1 H1)) He) as P.
        assert (LE : length T = S (length (without B (e_at e) T))) by (rewrite (Permutation_length P) at 1; reflexivity).
        destruct (take_ok (fun c => ref_gets B keep c) m1 (without B (e_at e) T) e r keep a T') as (m2 & E2 & H2 & H3);
          [intros; now apply gets_ok|exact (tab_perm _ _ _ _ P H1)|exact HO|exact HZ|rewrite <- LE; exact HE0|exact HW|].
        exists m2. split; [exact E2|]. split; [exact H2|lia].
    + rewrite N.eqb_refl. cbn [negb]. destruct (som r).
      * destruct mm; try discriminate.
        -- destruct (negb (x =? 0)) eqn:Hx; cbn [andb] in HW; [|discriminate]. destruct (forallb (fun e => negb (e_at e =? x)) T) eqn:HA; [|discriminate].
           destruct (alloc_ok m1 T k x MAll (proj1 H1) (proj1 (proj2 H1)) HF HC HE HL) as (m2 & E2 & A1 & A2 & A3); [lia| |reflexivity|].
           { intros Q. apply in_map_iff in Q as (e & Q & He). rewrite forallb_forall in HA. specialize (HA e He). lia. }
           rewrite (run_bind _ _ _ _ _ E2). destruct (N.eqb_spec x 0); [lia|].
           destruct (take_ok (fun c => ref_gets B keep c) m2 T (mkE B x k fresh true 0) r keep a T') as (m3 & E3 & H3 & H4);
             [intros; now apply gets_ok|split; [exact A1|split; [exact A2|rewrite A3; exact (proj2 (proj2 H1))]]|reflexivity|reflexivity|exact HE|exact HW|].
           exists m3. split; [exact E3|]. split; [exact H3|exact H4].
        -- injection HW as <- <-. unfold alloc_req_ctxt. rewrite (run_bind _ _ m1 0 m1 eq_refl). cbn [N.eqb].
           destruct (unlock_ok m1 T H1) as (m2 & E2 & H2). rewrite (run_bind _ _ _ _ _ E2). exists m2. split; [reflexivity|]. split; [exact H2|lia].
      * injection HW as <- <-. destruct (unlock_ok m1 T H1) as (m2 & E2 & H2). rewrite (run_bind _ _ _ _ _ E2). exists m2. split; [reflexivity|]. split; [exact H2|lia].
  - unfold req_cmd_new. destruct (fits_key k) eqn:HF; cbn [andb negb] in HW; [|discriminate].
    destruct (forallb (fun e => closeb (e_key e) k) T) eqn:HC; cbn [negb] in HW; [|discriminate].
    destruct (lock_ok m T HT) as (m1 & E1 & H1). rewrite (run_bind _ _ _ _ _ E1).
    destruct (lookup B k T) as [e|] eqn:HL; [discriminate|]. destruct mm; try discriminate.
    + destruct (negb (x =? 0)) eqn:Hx; cbn [andb] in HW; [|discriminate]. destruct (forallb (fun e => negb (e_at e =? x)) T) eqn:HA; [|discriminate]. injection HW as <- <-.
      destruct (alloc_ok m1 T k x MAll (proj1 H1) (proj1 (proj2 H1)) HF HC HE HL) as (m2 & E2 & A1 & A2 & A3); [lia| |reflexivity|].
      { intros Q. apply in_map_iff in Q as (e & Q & He). rewrite forallb_forall in HA. specialize (HA e He). lia. }
      rewrite (run_bind _ _ _ _ _ E2). destruct (unlock_ok m2 (mkE B x k fresh true 0 :: T)) as (m3 & E3 & H3); [split; [exact A1|split; [exact A2|rewrite A3; exact (proj2 (proj2 H1))]]|].
      rewrite (run_bind _ _ _ _ _ E3). destruct (N.eqb_spec x 0); [lia|]. exists m3. split; [reflexivity|]. split; [exact H3|cbn [length]; lia].
    + injection HW as <- <-. unfold alloc_req_ctxt. rewrite (run_bind _ _ m1 0 m1 eq_refl).
      destruct (unlock_ok m1 T H1) as (m2 & E2 & H2). rewrite (run_bind _ _ _ _ _ E2). exists m2. split; [reflexivity|]. split; [exact H2|lia].
  - unfold process_response. destruct mark; cbn [negb] in *; [|injection HW as <- <-; exists m; split; [reflexivity|split; [exact HT|lia]]].
    destruct (fits_key k) eqn:HF; cbn [andb negb] in HW; [|discriminate].
    destruct (forallb (fun e => closeb (e_key e) k) T) eqn:HC; cbn [negb] in HW; [|discriminate].
    destruct (lock_ok m T HT) as (m1 & E1 & H1). rewrite (run_bind _ _ _ _ _ E1).
    rewrite (run_bind _ _ _ _ _ (find_ok m1 T k (proj1 H1) HF HC HE0)).
    destruct (lookup B k T) as [e|] eqn:HL.
    + destruct (lookup_in _ _ _ HL) as [He _]. destruct (trees_node _ _ _ (proj1 H1) He) as [Hn _]. rewrite (proj2 (N.eqb_neq _ _) Hn).
      destruct (e_open e) eqn:HO; [|discriminate]. destruct (Nat.eqb_spec (e_held e) 0) as [HZ|]; [|discriminate]. cbn [andb] in HW.
      pose proof (without_perm T e (trees_ats _ _ (proj1 H1)) He) as P.
      assert (LE : length T = S (length (without B (e_at e) T))) by (rewrite (Permutation_length P) at 1; reflexivity).
      destruct (take_ok (fun c => mret B tt) m1 (without B (e_at e) T) e r 0 a T') as (m2 & E2 & H2 & H3);
        [intros lk m0 T0 e0 H0 _; exists m0; split; [reflexivity|]; rewrite Nat.add_0_r; now destruct e0|exact (tab_perm _ _ _ _ P H1)|exact HO|exact HZ|rewrite <- LE; exact HE0|exact HW|].
      exists m2. split; [exact E2|]. split; [exact H2|lia].
    + injection HW as <- <-. cbn [N.eqb]. destruct (unlock_ok m1 T H1) as (m2 & E2 & H2). rewrite (run_bind _ _ _ _ _ E2). exists m2. split; [reflexivity|]. split; [exact H2|lia].
  - unfold drop. destruct (at_ B x T) as [e|] eqn:HL; [|discriminate]. apply find_some in HL as [He Hx]. apply N.eqb_eq in Hx. subst x.
    destruct (lock_ok m T HT) as (m1 & E1 & H1). rewrite (run_bind _ _ _ _ _ E1).
    pose proof (without_perm T e (trees_ats _ _ (proj1 H1)) He) as P.
    assert (LE : length T = S (length (without B (e_at e) T))) by (rewrite (Permutation_length P) at 1; reflexivity).
    destruct (e_open e) eqn:HO; [discriminate|]. destruct (e_held e) as [|n] eqn:HH; [discriminate|].
    destruct (put_ok true m1 (without B (e_at e) T) e false n) as (m2 & E2 & H2); [exact (tab_perm _ _ _ _ P H1)|rewrite <- LE; exact HE0| |].
    { unfold refs_of. cbn [S_Msg.e_open S_Msg.e_held]. rewrite HO, HH. lia. }
    rewrite (run_bind _ _ _ _ _ E2). destruct (unlock_ok m2 _ H2) as (m3 & E3 & H3). rewrite (run_bind _ _ _ _ _ E3). exists m3.
    unfold refs_of in H3. cbn [S_Msg.e_open S_Msg.e_held] in H3. destruct n as [|n].
    + injection HW as <- <-. split; [reflexivity|]. split; [exact H3|lia].
    + injection HW as <- <-. split; [reflexivity|]. destruct (Z.eqb_spec (Z.of_nat (0 + S n)) 0); [lia|]. split; [exact H3|cbn [length]; lia].
Qed.

Lemma tab_empty : tab false (mempty B) [].
Proof.
  split; [constructor|].
  - exists []. split; [apply holds_init|]. split; [constructor|constructor].
  - reflexivity.
  - constructor.
  - constructor.
  - split; [intros e []|reflexivity].
Qed.
Lemma session_ok l : forall m T as_ T', tab false m T -> enough (length T + length l) fuel ->
  wants B R fresh gather valid som eom l T = Some (as_, T') ->
  exists m', acts B R fresh gather valid som eom fuel l m = Some (as_, m') /\ tab false m' T'.
Proof.
  induction l as [|o l IH]; intros m T as_ T' HT HE HW; cbn [wants acts] in *.
  - injection HW as <- <-. exists m. auto.
  - destruct (want B R fresh gather valid som eom o T) as [[a T1]|] eqn:H1; [|discriminate].
    destruct (wants B R fresh gather valid som eom l T1) as [[as1 T2]|] eqn:H2; [|discriminate]. injection HW as <- <-.
    destruct (step_ok o m T a T1 HT) as (m1 & E1 & H3 & H4); [eapply enough_le; [|exact HE]; cbn [length]; lia|exact H1|].
    rewrite E1. destruct (IH m1 T1 as1 T2 H3) as (m2 & E2 & H5); [eapply enough_le; [|exact HE]; cbn [length]; lia|exact H2|].
    rewrite E2. exists m2. auto.
Qed.

(** ** What a delivered message is made of *)
Notation gathers := (gathers B R gather).
Notation collect := (collect B R som).
Lemma gathers_app l r b b1 b2 : gathers b l = Some b1 -> gather b1 r = Some b2 -> gathers b (l ++ [r]) = Some b2.
Proof.
  revert b. induction l as [|x l IH]; intros b; cbn [S_Msg.gathers app].
  - intros Q. injection Q as ->. now intros ->.
  - destruct (gather b x); [|discriminate]. apply IH.
Qed.
Lemma same_refl k : same k k = true. Proof. unfold same. now rewrite !N.eqb_refl. Qed.
Lemma same_eq a b : same a b = true -> a = b.
Proof. unfold same. destruct a as [x y z], b as [x1 y1 z1]. cbn [k_flags k_conn k_msg]. intros H. f_equal; lia. Qed.
(** [c]: the records collected per key *)
Definition faithful (c : mkey -> list R) (T : list entry) : Prop :=
  forall e, In e T -> e_open e = true -> gathers fresh (c (e_key e)) = Some (e_buf e).
Lemma take_made c r e T a T' keep k : gathers fresh c = Some (e_buf e) ->
  take B R gather valid eom e T r keep = Some (a, T') -> e_key e = k ->
  exists b, gathers fresh (c ++ [r]) = Some b /\ (a = More \/ a = Delivered b) /\
    forall x, In x T' -> In x T \/ (e_key x = k /\ e_buf x = b).
Proof.
  intros HG HW HK. unfold take in HW. destruct (gather (e_buf e) r) as [b|] eqn:Eg; [|discriminate].
  exists b. split; [exact (gathers_app _ _ _ _ _ HG Eg)|]. destruct (negb (eom r)).
  - injection HW as <- <-. split; [now left|]. intros x [<-|Hx]; [right; split; [exact HK|reflexivity]|now left].
  - destruct (valid b) as [[]|]; try discriminate. injection HW as <- <-. split; [now right|].
    destruct keep; intros x Hx; [now left|]. destruct Hx as [<-|Hx]; [right; split; [exact HK|reflexivity]|now left].
Qed.
Lemma lookup_other k T x : lookup B k T = None -> In x T -> same k (e_key x) = false.
Proof.
  intros HL Hx. pose proof (find_none _ _ HL x Hx) as Q. cbn beta in Q. destruct (same k (e_key x)) eqn:E; [|reflexivity].
  apply same_eq in E. subst k. rewrite same_refl in Q. discriminate.
Qed.
Lemma without_other (m : mst) T e x : trees m T -> In e T -> In x (without B (e_at e) T) -> In x T /\ same (e_key e) (e_key x) = false.
Proof.
  intros HT He Hx. apply filter_In in Hx as [Hx Hn]. split; [exact Hx|]. destruct (same (e_key e) (e_key x)) eqn:E; [|reflexivity].
  apply same_eq in E. assert (e = x). { apply (nodup_inj (fun e => enc (e_key e)) T); [exact (t_keys _ _ HT)|exact He|exact Hx|]. cbn beta. now rewrite E. }
  subst x. rewrite N.eqb_refl in Hn. discriminate.
Qed.
Lemma faithful_step c o m T a T' : tab false m T -> faithful c T -> want B R fresh gather valid som eom o T = Some (a, T') ->
  faithful (fun k => collect k (c k) (o, a)) T' /\
  (forall b k, a = Delivered b -> op_key R o = Some k -> gathers fresh (collect k (c k) (o, a)) = Some b).
Proof.
  intros HT HF HW. assert (HTT : forall x, In x T -> e_open x = true -> gathers fresh (c (e_key x)) = Some (e_buf x)) by exact HF.
  destruct o as [mm x mark k r keep|mm x k|mark k r|x]; cbn [want op_key] in *; unfold collect, S_Msg.collect, faithful; cbn [fst snd].
  - destruct mark; cbn [negb] in HW;
      [|injection HW as <- <-; split; [intros e He Ho; destruct (same k (e_key e)); now apply HTT|intros b k0 Q; discriminate]].
    destruct (_ && _) in HW; cbn [negb] in HW; [|discriminate].
    destruct (lookup B k T) as [e|] eqn:HL.
    + destruct (lookup_in _ _ _ HL) as [He Hs]. apply same_eq in Hs. subst k.
      destruct (som r) eqn:Hsom; [injection HW as <- <-; split; [intros y Hy Ho; destruct (same _ (e_key y)); now apply HTT|intros b k0 Q; discriminate]|].
      destruct (e_open e) eqn:HO; [|discriminate]. destruct (Nat.eqb_spec (e_held e) 0) as [HZ|]; [|discriminate]. cbn [andb] in HW.
      destruct (take_made _ r e _ a T' keep _ (HTT e He HO) HW eq_refl) as (b & HB & HA & HI). split.
      * intros y Hy Ho. destruct (HI y Hy) as [Hw|[Ek Eb]].
        -- destruct (without_other _ _ _ _ (proj1 HT) He Hw) as [Hy' Hd]. rewrite Hd. now apply HTT.
        -- rewrite Ek, same_refl, Eb. destruct HA as [->| ->]; exact HB.
      * intros b' k0 Q Q2. injection Q2 as <-. rewrite same_refl. destruct HA as [->| ->]; [discriminate|]. injection Q as <-. exact HB.
    + destruct (som r) eqn:Hsom; [|injection HW as <- <-; split; [intros y Hy Ho; destruct (same _ (e_key y)); now apply HTT|intros b k0 Q; discriminate]].
      destruct mm; try discriminate; [|injection HW as <- <-; split; [intros y Hy Ho; destruct (same _ (e_key y)); now apply HTT|intros b k0 Q; discriminate]].
      destruct (_ && _) in HW; [|discriminate].
      destruct (take_made [] r (mkE B x k fresh true 0) _ a T' keep _ eq_refl HW eq_refl) as (b & HB & HA & HI). split.
      * intros y Hy Ho. destruct (HI y Hy) as [Hw|[Ek Eb]].
        -- rewrite (lookup_other _ _ _ HL Hw). now apply HTT.
        -- rewrite Ek, Eb. cbn [S_Msg.e_key]. rewrite same_refl. destruct HA as [->| ->]; exact HB.
      * intros b' k0 Q Q2. injection Q2 as <-. rewrite same_refl. destruct HA as [->| ->]; [discriminate|]. injection Q as <-. exact HB.
  - destruct (_ && _) in HW; cbn [negb] in HW; [|discriminate].
    destruct (lookup B k T) as [e|] eqn:HL; [discriminate|]. destruct mm; try discriminate.
    + destruct (_ && _) in HW; [|discriminate]. injection HW as <- <-. split; [|intros b k0 Q; discriminate].
      intros y [<-|Hy] Ho.
      * cbn [S_Msg.e_key S_Msg.e_buf]. rewrite same_refl. reflexivity.
      * rewrite (lookup_other _ _ _ HL Hy). now apply HTT.
    + injection HW as <- <-. split; [|intros b k0 Q; discriminate]. intros y Hy Ho. destruct (same k (e_key y)); now apply HTT.
  - destruct mark; cbn [negb] in HW;
      [|injection HW as <- <-; split; [intros e He Ho; destruct (same k (e_key e)); now apply HTT|intros b k0 Q; discriminate]].
    destruct (_ && _) in HW; cbn [negb] in HW; [|discriminate].
    destruct (lookup B k T) as [e|] eqn:HL; [|injection HW as <- <-; split; [intros y Hy Ho; destruct (same _ (e_key y)); now apply HTT|intros b k0 Q; discriminate]].
    destruct (lookup_in _ _ _ HL) as [He Hs]. apply same_eq in Hs. subst k.
    destruct (e_open e) eqn:HO; [|discriminate]. destruct (Nat.eqb_spec (e_held e) 0) as [HZ|]; [|discriminate]. cbn [andb] in HW.
    destruct (take_made _ r e _ a T' 0 _ (HTT e He HO) HW eq_refl) as (b & HB & HA & HI). split.
    + intros y Hy Ho. destruct (HI y Hy) as [Hw|[Ek Eb]].
      * destruct (without_other _ _ _ _ (proj1 HT) He Hw) as [Hy' Hd]. rewrite Hd. now apply HTT.
      * rewrite Ek, same_refl, Eb. destruct HA as [->| ->]; exact HB.
    + intros b' k0 Q Q2. injection Q2 as <-. rewrite same_refl. destruct HA as [->| ->]; [discriminate|]. injection Q as <-. exact HB.
  - split; [|intros b k0 Q Q2; discriminate]. intros y Hy Ho. destruct (at_ B x T) as [e|] eqn:HL; [|discriminate].
    destruct (e_open e) eqn:HO; [discriminate|]. destruct (e_held e) as [|[|n]]; [discriminate| |].
    + injection HW as <- <-. apply filter_In in Hy as [Hy _]. now apply HTT.
    + injection HW as <- <-. destruct Hy as [<-|Hy]; [discriminate|]. apply filter_In in Hy as [Hy _]. now apply HTT.
Qed.
Lemma assembled l : forall m T c as_ T' o a b k, tab false m T -> faithful c T -> enough (length T + S (length l)) fuel ->
  wants B R fresh gather valid som eom (l ++ [o]) T = Some (as_ ++ [a], T') -> length as_ = length l -> a = Delivered b -> op_key R o = Some k ->
  gathers fresh (fold_left (collect k) (combine l as_ ++ [(o, a)]) (c k)) = Some b.
Proof.
  induction l as [|o1 l IH]; intros m T c as_ T' o a b k HT HF HE HW HL HA HK; destruct as_ as [|a1 as_]; try discriminate; cbn [app wants combine fold_left length] in *.
  - destruct (want B R fresh gather valid som eom o T) as [[a0 T1]|] eqn:H1; [|discriminate]. injection HW as <- <-.
    exact (proj2 (faithful_step c o m T a0 T1 HT HF H1) b k HA HK).
  - destruct (want B R fresh gather valid som eom o1 T) as [[a0 T1]|] eqn:H1; [|discriminate].
    destruct (wants B R fresh gather valid som eom (l ++ [o]) T1) as [[as0 T2]|] eqn:H2; [|discriminate]. injection HW as <- -> <-.
    destruct (step_ok o1 m T a0 T1 HT) as (m1 & _ & H3 & H4); [eapply enough_le; [|exact HE]; lia|exact H1|].
    apply (IH m1 T1 (fun k => collect k (c k) (o1, a0)) as_ T2 o a b k); [exact H3|exact (proj1 (faithful_step c o1 m T a0 T1 HT HF H1))| |exact H2|lia|exact HA|exact HK].
    eapply enough_le; [|exact HE]. lia.
Qed.
End Table.
