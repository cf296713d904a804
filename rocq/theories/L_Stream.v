From Verif Require Import S_Stream.
From Coq Require Import List. Import ListNotations.
Local Open Scope N_scope.

Lemma list_eqb_spec a b : list_eqb a b = true <-> a = b.
Proof. unfold list_eqb. destruct (list_eq_dec N.eq_dec a b); split; congruence. Qed.
Lemma list_eqb_refl a : list_eqb a a = true.
Proof. now apply list_eqb_spec. Qed.
Lemma list_eqb_neq a b : a <> b -> list_eqb a b = false.
Proof. intros H. destruct (list_eqb a b) eqn:E; auto. apply list_eqb_spec in E. contradiction. Qed.

Lemma full_hdr_length m len pad pres : length (m_src m) = 20%nat -> length pad = 4%nat -> length pres = 4%nat ->
  length (full_hdr m len pad pres) = 56%nat.
Proof. intros H1 H2 H3. unfold full_hdr, be64. rewrite !app_length, !be32_length. lia. Qed.

Lemma word32_at a b v rest : length a = b -> v < 4294967296 -> word32 (a ++ be32 v ++ rest) b = v.
Proof.
  intros H Hv. unfold word32. rewrite slice_app_r by lia. replace (b - length a)%nat with 0%nat by lia.
  rewrite slice_app_l by (rewrite be32_length; lia). rewrite slice_all by reflexivity.
  now apply of_be32_be32.
Qed.

Lemma hdr_fields m len pad pres rest (x := full_hdr m len pad pres ++ rest) :
  length (m_src m) = 20%nat -> length pad = 4%nat -> length pres = 4%nat ->
  m_gn m < 18446744073709551616 -> len < 4294967296 -> m_type m < 4294967296 ->
  m_uid m < 4294967296 -> m_gid m < 4294967296 -> m_perm m < 4294967296 ->
  word64 x 24 = m_gn m /\ word32 x 32 = len /\ word32 x 36 = m_type m /\ word32 x 40 = m_uid m /\
  word32 x 44 = m_gid m /\ word32 x 48 = m_perm m.
Proof.
  intros H1 H2 H3 Hg Hl Ht Hu Hgi Hp. subst x. unfold full_hdr, be64.
  set (g1 := m_gn m / 4294967296 mod 4294967296). set (g2 := m_gn m mod 4294967296).
  assert (Hg1 : g1 = m_gn m / 4294967296).
  { unfold g1. apply N.mod_small. apply N.div_lt_upper_bound; lia. }
  assert (Hg1' : g1 < 4294967296) by (rewrite Hg1; apply N.div_lt_upper_bound; lia).
  assert (Hg2 : g2 < 4294967296) by (apply N.mod_lt; lia).
  rewrite <- !app_assoc.
  repeat split.
  - unfold word64. rewrite (app_assoc (m_src m)). rewrite word32_at by (rewrite ?app_length; lia).
    rewrite (app_assoc (m_src m ++ pad)). rewrite word32_at by (rewrite ?app_length, ?be32_length; lia).
    rewrite Hg1. unfold g2. rewrite N.mul_comm. symmetry. apply N.div_mod. lia.
  - rewrite (app_assoc (m_src m)), (app_assoc (m_src m ++ pad)), (app_assoc ((m_src m ++ pad) ++ _)).
    now rewrite word32_at by (rewrite ?app_length, ?be32_length; lia).
  - do 4 rewrite app_assoc. now rewrite word32_at by (rewrite ?app_length, ?be32_length; lia).
  - do 5 rewrite app_assoc. now rewrite word32_at by (rewrite ?app_length, ?be32_length; lia).
  - do 6 rewrite app_assoc. now rewrite word32_at by (rewrite ?app_length, ?be32_length; lia).
  - do 7 rewrite app_assoc. now rewrite word32_at by (rewrite ?app_length, ?be32_length; lia).
Qed.

Lemma split_nul_ok a b : ~ In 0 a -> split_nul (a ++ 0 :: b) = Some (a, b).
Proof.
  induction a as [|x a IH]; intros H; cbn [app split_nul].
  - reflexivity.
  - destruct (N.eqb_spec x 0) as [->|Hx]; [exfalso; apply H; now left|].
    rewrite IH by (intros Hi; apply H; now right). reflexivity.
Qed.

Definition the_part (m : message) : part :=
  mkP (m_src (g_meta m)) (m_gn (g_meta m)) false true (g_resv m) (wire_bytes m).


Lemma send_one fuel cap m : msg_ok m -> (msg_size m <= cap)%nat -> (57 + length (g_name m) < cap)%nat ->
  (4 <= fuel)%nat -> send fuel cap m = Some [the_part m].
Proof.
  intros (H1 & H2 & H3 & _) Hs Hn Hf. unfold msg_size in Hs.
  destruct fuel as [|[|[|[|fuel]]]]; try lia.
  unfold send, publish, the_part, wire_bytes. rewrite app_length. cbn [length].
  pose proof (full_hdr_length (g_meta m) (N.of_nat (length (g_name m) + 1 + length (g_data m))) (g_pad m) (g_pres m) H1 H2 H3) as Hl.
  set (h := full_hdr _ _ _ _) in *.
  cbn [part_send length app].
  assert (E : forall k, (k < cap)%nat -> (true && Nat.eqb (cap - k) 0)%bool = false).
  { intros k Hk. cbn [andb]. apply Nat.eqb_neq. lia. }
  rewrite E by lia. replace (Nat.leb (length h) (cap - 0)) with true by (symmetry; apply Nat.leb_le; lia).
  rewrite E by lia.
  replace (Nat.leb (length (g_name m ++ [0])) (cap - length h)) with true
    by (symmetry; apply Nat.leb_le; rewrite app_length; cbn [length]; lia).
  rewrite app_length, app_length. cbn [length].
  rewrite E by lia.
  replace (Nat.leb (length (g_data m)) (cap - (length h + (length (g_name m) + 1)))) with true
    by (symmetry; apply Nat.leb_le; lia).
  rewrite <- !app_assoc. reflexivity.
Qed.

Lemma drop_key_self k s : s_key s = k -> drop_key k [s] = [].
Proof. intros E. unfold drop_key. cbn [filter]. now rewrite E, list_eqb_refl. Qed.

Lemma recv_one pad m : msg_ok m -> recv pad [] (the_part m) = ROk [] [expected m].
Proof.
  intros (H1 & H2 & H3 & Hg & Ht & Hu & Hgi & Hp & Hn & Hl).
  unfold recv. cbn [find the_part p_first negb p_data p_src p_gn].
  pose proof (full_hdr_length (g_meta m) (N.of_nat (length (g_name m) + 1 + length (g_data m))) (g_pad m) (g_pres m) H1 H2 H3) as Hlen.
  destruct (hdr_fields (g_meta m) (N.of_nat (length (g_name m) + 1 + length (g_data m))) (g_pad m) (g_pres m)
     (g_name m ++ [0] ++ g_data m)) as (F1 & F2 & F3 & F4 & F5 & F6); auto; try lia.
  fold (wire_bytes m) in F1, F2, F3, F4, F5, F6.
  assert (Hw : length (wire_bytes m) = (57 + length (g_name m) + length (g_data m))%nat).
  { unfold wire_bytes. rewrite !app_length, Hlen. cbn [length]. lia. }
  replace (Nat.ltb (length (wire_bytes m)) (MSG_LEN_OFF + 4)) with false
    by (symmetry; apply Nat.ltb_ge; unfold MSG_LEN_OFF; lia).
  unfold MSG_LEN_OFF. rewrite F2. rewrite Nat2N.id.
  unfold collect. cbn [s_full s_got s_key the_part p_data p_more length app].
  replace (Nat.ltb _ _) with false by (symmetry; apply Nat.ltb_ge; unfold FULL_HDR; lia).
  replace (Nat.eqb _ _) with true by (symmetry; apply Nat.eqb_eq; unfold FULL_HDR; lia).
  cbn [negb]. unfold deliver_full.
  replace (skipn FULL_HDR (wire_bytes m)) with (g_name m ++ 0 :: g_data m).
  2:{ unfold wire_bytes, FULL_HDR. rewrite skipn_app, skipn_all2 by lia. rewrite Hlen, Nat.sub_diag. reflexivity. }
  rewrite split_nul_ok by assumption. rewrite F1, F3, F4, F5, F6.
  rewrite drop_key_self by reflexivity. reflexivity.
Qed.

Lemma recv_many pads ms : Forall msg_ok ms ->
  recv_all pads [] (map the_part ms) = ROk [] (map expected ms).
Proof.
  induction ms as [|m ms IH]; intros H; [reflexivity|].
  inversion H; subst. cbn [map recv_all]. rewrite recv_one by assumption. rewrite IH by assumption. reflexivity.
Qed.

(** Large messages *)
Lemma stuck fuel cap src gn resv first d ds : (cap < length d)%nat ->
  part_send fuel cap src gn resv first [] false (d :: ds) = None.
Proof.
  revert first. induction fuel as [|fuel IH]; intros first H; [reflexivity|].
  cbn [part_send andb length]. rewrite Nat.sub_0_r.
  replace (Nat.leb (length d) cap) with false by (symmetry; apply Nat.leb_gt; lia).
  rewrite IH by assumption. reflexivity.
Qed.

Lemma large_corrupt fuel cap m ps : msg_ok m -> (57 + length (g_name m) < cap)%nat -> (cap < msg_size m)%nat ->
  send fuel cap m = Some ps -> (length (wire_bytes m) < length (concat (map p_data ps)))%nat.
Proof.
  intros (H1 & H2 & H3 & _) Hn Hs. unfold msg_size in Hs.
  pose proof (full_hdr_length (g_meta m) (N.of_nat (length (g_name m) + 1 + length (g_data m))) (g_pad m) (g_pres m) H1 H2 H3) as Hl.
  unfold send, publish, wire_bytes. rewrite app_length. cbn [length].
  set (h := full_hdr _ _ _ _) in *.
  assert (E : forall k, (k < cap)%nat -> (true && Nat.eqb (cap - k) 0)%bool = false).
  { intros k Hk. cbn [andb]. apply Nat.eqb_neq. lia. }
  destruct fuel as [|fuel]; [discriminate|]. cbn [part_send length].
  rewrite E by lia. replace (Nat.leb (length h) (cap - 0)) with true by (symmetry; apply Nat.leb_le; lia).
  destruct fuel as [|fuel]; [discriminate|]. cbn [part_send app].
  rewrite E by lia.
  replace (Nat.leb (length (g_name m ++ [0])) (cap - length h)) with true
    by (symmetry; apply Nat.leb_le; rewrite app_length; cbn [length]; lia).
  destruct fuel as [|fuel]; [discriminate|]. cbn [part_send].
  rewrite !app_length. cbn [length]. rewrite E by lia.
  replace (Nat.leb (length (g_data m)) (cap - (length h + (length (g_name m) + 1)))) with false
    by (symmetry; apply Nat.leb_gt; lia).
  destruct (Nat.leb_spec (length (g_data m)) cap) as [Hd|Hd].
  - destruct fuel as [|fuel]; [discriminate|]. cbn [part_send andb length]. rewrite Nat.sub_0_r.
    replace (Nat.leb (length (g_data m)) cap) with true by (symmetry; apply Nat.leb_le; lia).
    destruct fuel as [|fuel]; [discriminate|]. cbn [part_send app].
    intros [= <-]. cbn [map p_data concat]. rewrite !app_length, firstn_length. cbn [length]. lia.
  - rewrite stuck by lia. discriminate.
Qed.

(** Continuations *)
Lemma le64_length v : length (le64 v) = 8%nat.
Proof. reflexivity. Qed.

Lemma be32_inj a b : a < 4294967296 -> b < 4294967296 -> be32 a = be32 b -> a = b.
Proof. intros Ha Hb E. rewrite <- (of_be32_be32 a Ha), <- (of_be32_be32 b Hb). now rewrite E. Qed.

Lemma app_eq_len {A} (a b c d : list A) : length a = length c -> a ++ b = c ++ d -> a = c /\ b = d.
Proof.
  revert c. induction a as [|x a IH]; intros [|y c] H E; cbn in *; try discriminate; auto.
  injection E as -> E. destruct (IH c ltac:(lia) E) as [-> ->]. auto.
Qed.

Lemma le64_split v : le64 v = rev (be32 (v mod 4294967296)) ++ rev (be32 (v / 4294967296 mod 4294967296)).
Proof. unfold le64, be64. now rewrite rev_app_distr. Qed.

Lemma key_mismatch src pad gn w : length pad = 4%nat -> 0 < gn -> gn <= 4294967296 ->
  src ++ pad ++ le64 gn <> src ++ le64 gn ++ le32 w.
Proof.
  intros Hp H0 H1 E. apply app_inv_head in E. rewrite le64_split in E at 2. rewrite <- app_assoc in E.
  apply app_eq_len in E; [|rewrite rev_length, be32_length; assumption].
  destruct E as [_ E]. rewrite le64_split in E. apply app_eq_len in E; [|now rewrite !rev_length, !be32_length].
  destruct E as [E _]. apply (f_equal (@rev N)) in E. rewrite !rev_involutive in E.
  apply be32_inj in E; try (apply N.mod_lt; lia).
  destruct (N.eq_dec gn 4294967296) as [->|Hne]; [vm_compute in E; discriminate|].
  rewrite (N.mod_small gn), (N.div_small gn) in E by lia. rewrite N.mod_0_l in E by lia. lia.
Qed.

Lemma recv_first_state pad p st out : recv pad [] p = ROk st out -> p_more p = true ->
  exists s, st = [s] /\ s_key s = tree_key (p_src p) (p_gn p) pad.
Proof.
  unfold recv. cbn [find]. destruct (negb (p_first p)); [discriminate|].
  destruct (Nat.ltb _ _); [discriminate|]. unfold collect. cbn [s_full s_got s_key].
  destruct (Nat.ltb _ _); [discriminate|]. intros H E. rewrite E, drop_key_self in H by reflexivity.
  inversion H. eexists. split; reflexivity.
Qed.

Lemma continuation_aborts pad p1 p2 st out pad2 :
  length pad = 4%nat -> 0 < p_gn p1 -> p_gn p1 <= 4294967296 ->
  p_more p1 = true -> p_src p2 = p_src p1 -> p_gn p2 = p_gn p1 -> p_first p2 = false ->
  recv pad [] p1 = ROk st out -> recv pad2 st p2 = RAbort.
Proof.
  intros Hp H0 H1 Hm Es Eg Hf Hr. destruct (recv_first_state _ _ _ _ Hr Hm) as (s & -> & Ek).
  unfold recv. cbn [find]. rewrite list_eqb_neq.
  - rewrite Hf. reflexivity.
  - rewrite Ek. unfold tree_key, probe_key. rewrite Es, Eg. now apply key_mismatch.
Qed.

(** * Subscribers *)
Definition somes {A} (l : list (option A)) : list A :=
  flat_map (fun o => match o with Some x => [x] | None => [] end) l.

Lemma somes_app {A} (a b : list (option A)) : somes (a ++ b) = somes a ++ somes b.
Proof. unfold somes. apply flat_map_app. Qed.
Lemma somes_map {A} (l : list A) : somes (map Some l) = l.
Proof. induction l as [|x l IH]; cbn; auto. unfold somes in IH. now rewrite IH. Qed.
Lemma somes_filter {A} (l : list (option A)) : somes (filter is_some l) = somes l.
Proof. induction l as [|[x|] l IH]; cbn; auto. unfold somes in IH. now rewrite IH. Qed.
Lemma somes_unbind c l : somes (map (unbind c) l) = filter (fun d => negb (same c d)) (somes l).
Proof.
  induction l as [|[x|] l IH]; cbn [map unbind somes flat_map filter app]; auto.
  fold (somes (map (unbind c) l)) (somes l). cbn [filter]. destruct (same c x); cbn [negb app]; rewrite IH; reflexivity.
Qed.

Lemma filter_comm {A} f g (l : list A) : filter f (filter g l) = filter g (filter f l).
Proof.
  induction l as [|x l IH]; cbn; auto. destruct (g x) eqn:G, (f x) eqn:F; cbn; rewrite ?F, ?G, ?IH; auto.
Qed.

Definition is_rx (c : client) : bool := match c_pat c with Regex _ => true | _ => false end.

Record inv (s : sys) (op : list client) : Prop := {
  i_nodup : NoDup (map st_name (streams s));
  i_ids : NoDup (map c_id op);
  i_ent : forall st, In st (streams s) -> somes (st_clients st) = filter (fun c => wants c (st_name st)) op;
  i_rx : regex_clients s = filter is_rx op;
  i_name : forall c n, In c op -> c_pat c = Name n -> In n (map st_name (streams s))
}.

Lemma has_stream_spec l n : has_stream l n = true <-> In n (map st_name l).
Proof.
  induction l as [|s l IH]; cbn; [split; [discriminate|tauto]|].
  destruct (list_eqb (st_name s) n) eqn:E.
  - apply list_eqb_spec in E. tauto.
  - rewrite IH. split; [tauto|]. intros [H|H]; auto. apply list_eqb_spec in H. congruence.
Qed.


Lemma NoDup_snoc {A} (l : list A) x : NoDup l -> ~ In x l -> NoDup (l ++ [x]).
Proof.
  intros H Hx. apply (Permutation_NoDup (Permutation_cons_append l x)). now constructor.
Qed.

Lemma filter_none {A} f (l : list A) : (forall x, In x l -> f x = false) -> filter f l = [].
Proof. induction l as [|x l IH]; intros H; cbn; auto. rewrite H by now left. apply IH. intros; apply H; now right. Qed.
Lemma filter_ext_in' {A} f g (l : list A) : (forall x, In x l -> f x = g x) -> filter f l = filter g l.
Proof.
  induction l as [|x l IH]; intros H; cbn; auto. rewrite H by now left.
  rewrite IH by (intros; apply H; now right). reflexivity.
Qed.

Lemma inv_get s op n : inv s op -> inv (stream_get s n) op /\ In n (map st_name (streams (stream_get s n))).
Proof.
  intros [H1 H2 H3 H4 H5]. unfold stream_get. destruct (has_stream (streams s) n) eqn:E.
  - split; [constructor; auto|]. now apply has_stream_spec.
  - assert (Hn : ~ In n (map st_name (streams s))).
    { intros Hi. apply has_stream_spec in Hi. congruence. }
    split; [|cbn [streams]; rewrite map_app; apply in_or_app; right; now left].
    constructor; cbn [streams regex_clients]; auto.
    + rewrite map_app. now apply NoDup_snoc.
    + intros st Hi. apply in_app_or in Hi. destruct Hi as [Hi|[<-|[]]]; auto.
      cbn [st_clients st_name]. rewrite somes_map, H4.
      rewrite filter_comm.
      assert (Hx : forall c, In c op -> wants c n = (is_rx c && rx_match c n)%bool).
      { intros c Hc. unfold wants, is_rx, rx_match. destruct (c_pat c) eqn:Ec; auto.
        apply list_eqb_neq. intros ->. apply Hn. eapply H5; eauto. }
      rewrite (filter_ext_in' _ _ _ Hx). clear. induction op as [|c op IH]; cbn; auto.
      destruct (rx_match c n) eqn:E1, (is_rx c) eqn:E2; cbn; rewrite ?E1, ?E2, IH; reflexivity.
    + intros c m Hc Ec. rewrite map_app. apply in_or_app. left. eauto.
Qed.

Lemma map_name_bind f c l :
  map st_name (map (fun st => if (f st : bool) then bind c st else st) l) = map st_name l.
Proof. rewrite map_map. apply map_ext. intros st. destruct (f st); reflexivity. Qed.

Lemma inv_sub s op c s' : inv s op -> ~ In (c_id c) (map c_id op) -> subscribe s c = Some s' -> inv s' (op ++ [c]).
Proof.
  intros H Hid. unfold subscribe. destruct (c_pat c) as [n|f|] eqn:Ep; [| |discriminate]; intros [= <-].
  - destruct (inv_get s op n H) as [[H1 H2 H3 H4 H5] Hn]. set (s1 := stream_get s n) in *.
    constructor; cbn [streams regex_clients].
    + now rewrite map_name_bind.
    + rewrite map_app. now apply NoDup_snoc.
    + intros st Hi. apply in_map_iff in Hi. destruct Hi as (st0 & <- & Hi). rewrite filter_app.
      cbn [filter]. destruct (list_eqb (st_name st0) n) eqn:E.
      * cbn [bind st_clients st_name]. rewrite somes_app, (H3 _ Hi). cbn [somes flat_map app].
        replace (wants c (st_name st0)) with true; [reflexivity|]. unfold wants. rewrite Ep. apply list_eqb_spec in E. now rewrite E, list_eqb_refl.
      * rewrite (H3 _ Hi). replace (wants c (st_name st0)) with false; [now rewrite app_nil_r|].
        unfold wants. rewrite Ep. symmetry. apply list_eqb_neq.
        intros ->. rewrite list_eqb_refl in E. discriminate.
    + rewrite filter_app, H4. cbn [filter]. replace (is_rx c) with false by (unfold is_rx; now rewrite Ep). now rewrite app_nil_r.
    + intros d m Hd Ed. rewrite map_name_bind. apply in_app_or in Hd. destruct Hd as [Hd|[<-|[]]]; eauto.
      rewrite Ep in Ed. injection Ed as <-. exact Hn.
  - destruct H as [H1 H2 H3 H4 H5].
    constructor; cbn [streams regex_clients].
    + now rewrite (map_name_bind (fun st => f (st_name st))).
    + rewrite map_app. now apply NoDup_snoc.
    + intros st Hi. apply in_map_iff in Hi. destruct Hi as (st0 & <- & Hi). rewrite filter_app.
      cbn [filter]. destruct (f (st_name st0)) eqn:E.
      * cbn [bind st_clients st_name]. rewrite somes_app, (H3 _ Hi). cbn [somes flat_map app].
        replace (wants c (st_name st0)) with true by (unfold wants; now rewrite Ep). reflexivity.
      * rewrite (H3 _ Hi). replace (wants c (st_name st0)) with false by (unfold wants; now rewrite Ep). now rewrite app_nil_r.
    + rewrite filter_app, H4. cbn [filter]. replace (is_rx c) with true by (unfold is_rx; now rewrite Ep). reflexivity.
    + intros d m Hd Ed. rewrite (map_name_bind (fun st => f (st_name st))).
      apply in_app_or in Hd. destruct Hd as [Hd|[<-|[]]]; eauto. congruence.
Qed.

Lemma NoDup_map_filter {A B} (g : A -> B) f l : NoDup (map g l) -> NoDup (map g (filter f l)).
Proof.
  induction l as [|x l IH]; cbn; intros H; auto. inversion H; subst.
  destruct (f x); cbn; auto. constructor; auto. intros Hi. apply H2.
  apply in_map_iff in Hi. destruct Hi as (y & E & Hy). apply filter_In in Hy. rewrite <- E. apply in_map. tauto.
Qed.

Lemma inv_close s op c : inv s op ->
  inv (close s c) (filter (fun d => negb (Nat.eqb (c_id d) (c_id c))) op).
Proof.
  intros [H1 H2 H3 H4 H5].
  assert (Hs : forall d, negb (same c d) = negb (Nat.eqb (c_id d) (c_id c))).
  { intros d. unfold same. now rewrite Nat.eqb_sym. }
  constructor; cbn [close streams regex_clients].
  - rewrite map_map. exact H1.
  - now apply NoDup_map_filter.
  - intros st Hi. apply in_map_iff in Hi. destruct Hi as (st0 & <- & Hi). cbn [st_clients st_name].
    rewrite somes_unbind, (H3 _ Hi), filter_comm.
    f_equal. apply filter_ext. intros; apply Hs.
  - rewrite H4, filter_comm. f_equal. apply filter_ext. intros; apply Hs.
  - intros d m Hd Ed. apply filter_In in Hd. rewrite map_map. cbn. eapply H5; [apply Hd|eauto].
Qed.

Lemma deliver_loop_ok bad es : (bad = true -> forall c, In c (somes es) -> c_local c = false) ->
  deliver_loop bad es = somes es.
Proof.
  induction es as [|[c|] es IH]; intros H; cbn [deliver_loop somes flat_map app] in *; auto.
  destruct bad; cbn [andb].
  - rewrite (H eq_refl c) by now left. f_equal. apply IH. intros _ d Hd. apply H; auto. now right.
  - f_equal. apply IH. discriminate.
Qed.

Lemma inv_pub s op n bad called s' : inv s op -> stream_deliver s n bad = (called, s') ->
  (bad = true -> forall c, In c op -> wants c n = true -> c_local c = false) ->
  inv s' op /\ called = filter (fun c => wants c n) op.
Proof.
  intros H Hd Hb. destruct (inv_get s op n H) as [[H1 H2 H3 H4 H5] Hn]. unfold stream_deliver in Hd.
  set (s1 := stream_get s n) in *.
  destruct (find _ (streams s1)) as [st|] eqn:E.
  - injection Hd as <- <-. apply find_some in E. destruct E as [Hi En]. apply list_eqb_spec in En.
    split.
    + constructor; cbn [streams regex_clients]; auto.
      * rewrite map_map. rewrite (map_ext _ st_name); auto. intros x. destruct (list_eqb _ _); reflexivity.
      * intros st1 Hi1. apply in_map_iff in Hi1. destruct Hi1 as (st0 & <- & Hi0).
        destruct (list_eqb (st_name st0) n); cbn [st_clients st_name]; rewrite ?somes_filter; auto.
      * intros c m Hc Ec. rewrite map_map. rewrite (map_ext _ st_name); [eauto|].
        intros x. destruct (list_eqb _ _); reflexivity.
    + rewrite deliver_loop_ok.
      * rewrite (H3 _ Hi), En. reflexivity.
      * intros Hbad c Hc. rewrite (H3 _ Hi), En in Hc. apply filter_In in Hc. now apply Hb.
  - exfalso. apply in_map_iff in Hn. destruct Hn as (st & En & Hi).
    apply (find_none _ _ E) in Hi. rewrite En, list_eqb_refl in Hi. discriminate.
Qed.

Lemma history_inv s op log : history s op log ->
  inv s op /\ Forall (fun x => fst x = snd x) log.
Proof.
  induction 1 as [|s op log c s' H [I F] Hid Hs|s op log c H [I F] Hin|s op log n bad called s' H [I F] Hd Hb].
  - split; constructor; cbn; auto using NoDup_nil; try tauto.
  - split; auto. eapply inv_sub; eauto.
  - split; auto. now apply inv_close.
  - destruct (inv_pub _ _ _ _ _ _ I Hd Hb) as [I' E]. split; auto.
    apply Forall_app. split; auto.
Qed.
