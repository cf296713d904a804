(** Lemmas for C17. *)
From Verif Require Import Bytes M_Request M_Parse S_Request L_Request.
Ltac Zify.zify_post_hook ::= Z.div_mod_to_equations.

Lemma skipn_cons_nth (m : list byte) p : (p < length m)%nat ->
  skipn p m = nth p m 0%N :: skipn (S p) m.
Proof.
  revert p. induction m as [|x m IH]; intros p Hp; cbn [length] in Hp; [lia|].
  destruct p as [|p]; [reflexivity|]. cbn [skipn nth]. apply IH. lia.
Qed.

Lemma slice4 (m : list byte) p : (p + 4 <= length m)%nat ->
  slice p 4 m = [nth p m 0; nth (p + 1) m 0; nth (p + 2) m 0; nth (p + 3) m 0]%N.
Proof.
  intros H. unfold slice.
  rewrite (skipn_cons_nth m p), (skipn_cons_nth m (S p)), (skipn_cons_nth m (S (S p))),
    (skipn_cons_nth m (S (S (S p)))) by lia.
  cbn [firstn]. repeat f_equal; lia.
Qed.

Lemma nth_byte (m : list byte) p : Forall is_byte m -> is_byte (nth p m 0%N).
Proof.
  intros H. destruct (Nat.lt_ge_cases p (length m)) as [Hp|Hp].
  - rewrite Forall_forall in H. apply H. now apply nth_In.
  - rewrite nth_overflow by lia. unfold is_byte. lia.
Qed.

Lemma word_split (m : list byte) p : Forall is_byte m -> (p + 4 <= length m)%nat ->
  skipn p m = be32 (word32 m p) ++ skipn (p + 4) m.
Proof.
  intros Hb Hp. unfold word32. rewrite slice4 by exact Hp.
  rewrite be32_of_be32 by (apply nth_byte; exact Hb).
  rewrite (skipn_cons_nth m p), (skipn_cons_nth m (S p)), (skipn_cons_nth m (S (S p))),
    (skipn_cons_nth m (S (S (S p)))) by lia.
  cbn [app]. repeat f_equal; lia.
Qed.

Lemma word32_bound (m : list byte) p : Forall is_byte m -> (word32 m p < 4294967296)%N.
Proof.
  intros H. unfold word32. apply of_be32_bound. unfold slice.
  apply Forall_forall. intros x Hx. rewrite Forall_forall in H. apply H.
  assert (Hin : In x (skipn p m)).
  { rewrite <- (firstn_skipn 4 (skipn p m)). apply in_or_app. now left. }
  rewrite <- (firstn_skipn p m). apply in_or_app. now right.
Qed.

Lemma load32_some m p : (p + 4 <= length m)%nat -> load32 m (N.of_nat p) = Some (word32 m p).
Proof.
  intros H. unfold load32. replace (N.leb _ _) with true by (symmetry; apply N.leb_le; lia).
  now rewrite Nnat.Nat2N.id.
Qed.
Lemma load32_inv m p v : load32 m p = Some v ->
  (N.to_nat p + 4 <= length m)%nat /\ v = word32 m (N.to_nat p).
Proof.
  unfold load32. destruct (N.leb _ _) eqn:E; [|discriminate]. intros H; injection H as <-.
  apply N.leb_le in E. split; [lia|reflexivity].
Qed.
Lemma load8_inv m p v : load8 m p = Some v ->
  (N.to_nat p < length m)%nat /\ v = nth (N.to_nat p) m 0%N.
Proof.
  unfold load8. destruct (N.ltb _ _) eqn:E; [|discriminate]. intros H; injection H as <-.
  apply N.ltb_lt in E. split; [lia|reflexivity].
Qed.

(** One attribute cut out of the message. *)
Lemma attr_split (m : list byte) p alen : Forall is_byte m ->
  word32 m (p + 8) = N.of_nat alen -> (p + 12 + alen <= length m)%nat ->
  skipn p m = raw_attr (word32 m p) (word32 m (p + 4)) (slice (p + 12) alen m)
              ++ skipn (p + 12 + alen) m.
Proof.
  intros Hb Hw Hl. unfold raw_attr. rewrite slice_length by lia. rewrite <- Hw.
  rewrite (word_split m p), (word_split m (p + 4)), (word_split m (p + 4 + 4)) by (auto; lia).
  replace (p + 4 + 4)%nat with (p + 8)%nat by lia.
  replace (p + 8 + 4)%nat with (p + 12)%nat by lia.
  rewrite <- !app_assoc. do 3 f_equal. unfold slice. rewrite <- (skipn_skipn alen (p + 12) m).
  symmetry. apply firstn_skipn.
Qed.

Lemma slice_last (m : list byte) p n : (0 < n)%nat -> (p + n <= length m)%nat ->
  slice p n m = slice p (n - 1) m ++ [nth (p + (n - 1)) m 0%N].
Proof.
  intros Hn Hl. unfold slice.
  rewrite <- (firstn_skipn (n - 1) (firstn n (skipn p m))).
  rewrite firstn_firstn. replace (Nat.min (n - 1) n) with (n - 1)%nat by lia. f_equal.
  rewrite skipn_firstn_comm. replace (n - (n - 1))%nat with 1%nat by lia.
  rewrite skipn_skipn. rewrite (skipn_cons_nth m (p + (n - 1))) by lia. reflexivity.
Qed.

Lemma validate_loop_sound (m : list byte) rlen : Forall is_byte m ->
  rlen = N.of_nat (length m) -> (rlen < two32)%N ->
  forall fuel p, (p <= length m)%nat ->
    validate_loop fuel m rlen (N.of_nat p) (N.of_nat p) = VAccept ->
    exists rest, attr_list (skipn p m) rest.
Proof.
  intros Hb Hrl Hr32. induction fuel as [|fuel IH]; intros p Hp H; [discriminate|].
  cbn [validate_loop] in H.
  destruct (load32 m (N.of_nat p)) as [d|] eqn:Hd; [|discriminate].
  apply load32_inv in Hd. rewrite Nnat.Nat2N.id in Hd. destruct Hd as (Hd4 & Hd).
  destruct (N.eqb d 0) eqn:Hd0.
  { apply N.eqb_eq in Hd0. exists (skipn (p + 4) m). rewrite (word_split m p Hb Hd4), <- Hd, Hd0.
    apply al_end. }
  apply N.eqb_neq in Hd0.
  destruct (load32 m (N.of_nat p + 8)) as [al|] eqn:Hal; [|discriminate].
  apply load32_inv in Hal. replace (N.to_nat (N.of_nat p + 8)) with (p + 8)%nat in Hal by lia.
  destruct Hal as (Hal4 & Hal).
  pose proof (word32_bound m (p + 8) Hb) as Halb. rewrite <- Hal in Halb.
  set (off' := ((N.of_nat p + (12 + al)) mod two32)%N) in H.
  destruct (N.ltb rlen (off' + 4)) eqn:Hoff; [discriminate|]. apply N.ltb_ge in Hoff.
  assert (Hnw : (N.of_nat p + (12 + al) < two32)%N).
  { destruct (N.lt_ge_cases (N.of_nat p + (12 + al)) two32) as [Hlt|Hge]; [exact Hlt|exfalso].
    assert (Hal0 : (al <> 0)%N) by lia.
    replace (N.eqb al 0) with false in H by (symmetry; now apply N.eqb_neq).
    destruct (load8 m (N.of_nat p + 12 + (al - 1))) as [c|] eqn:Hc; [|discriminate].
    apply load8_inv in Hc. destruct Hc as (Hc & _). unfold two32 in *. lia. }
  assert (Hoff' : off' = (N.of_nat p + 12 + al)%N).
  { unfold off'. rewrite N.mod_small by exact Hnw. lia. }
  rewrite Hoff' in *. set (n := N.to_nat al).
  assert (Hn : al = N.of_nat n) by (unfold n; lia).
  assert (Hfit : (p + 12 + n + 4 <= length m)%nat) by lia.
  assert (Hsp : skipn p m = raw_attr d (word32 m (p + 4)) (slice (p + 12) n m) ++ skipn (p + 12 + n) m).
  { rewrite Hd. apply attr_split; [exact Hb|congruence|lia]. }
  destruct (if (al =? 0)%N then Some false else
            match load8 m (N.of_nat p + 12 + (al - 1)) with
            | Some c => Some (negb (c =? 0)%N) | None => None end) as [[|]|] eqn:Hbad;
    [discriminate| |discriminate].
  destruct (load32 m (N.of_nat p + 12 + al)) as [d'|]; [|discriminate].
  destruct (negb (d' =? 0)%N && (rlen <? N.of_nat p + 12 + al + 12 + 4)%N)%bool; [discriminate|].
  replace (N.of_nat p + 12 + al)%N with (N.of_nat (p + 12 + n)) in H by lia.
  destruct (IH (p + 12 + n)%nat ltac:(lia) H) as (rest & Hrest).
  exists rest. rewrite Hsp. apply al_cons; [exact Hd0| |exact Hrest].
  destruct n as [|n']; [left; reflexivity|right].
  exists (slice (p + 12) n' m). rewrite slice_last by lia.
  replace (S n' - 1)%nat with n' by lia. f_equal. f_equal.
  replace (N.eqb al 0) with false in Hbad by (symmetry; apply N.eqb_neq; lia).
  destruct (load8 m (N.of_nat p + 12 + (al - 1))) as [c|] eqn:Hc; [|discriminate].
  apply load8_inv in Hc. destruct Hc as (_ & Hc).
  replace (N.to_nat (N.of_nat p + 12 + (al - 1))) with (p + 12 + n')%nat in Hc by lia.
  injection Hbad as Hbad. apply Bool.negb_false_iff, N.eqb_eq in Hbad. congruence.
Qed.

Lemma validate_sound m : Forall is_byte m -> rec_len m = N.of_nat (length m) ->
  validate m = VAccept -> well_formed m.
Proof.
  intros Hb Hrl H. unfold validate in H.
  destruct (load32 m 20) as [rlen|] eqn:Hl; [|discriminate].
  apply load32_inv in Hl. destruct Hl as (H24 & Hl).
  change (N.to_nat 20) with 20%nat in *. change (word32 m 20) with (rec_len m) in Hl.
  rewrite Hrl in Hl.
  assert (Hr32 : (rlen < two32)%N).
  { rewrite Hl, <- Hrl. apply word32_bound. exact Hb. }
  assert (Hal : exists rest, attr_list (skipn 24 m) rest).
  { destruct (N.eqb rlen 28) eqn:E28.
    - destruct (load32 m 24) as [d|] eqn:Hd; [|discriminate].
      apply load32_inv in Hd. change (N.to_nat 24) with 24%nat in Hd. destruct Hd as (Hd4 & Hd).
      destruct (N.eqb d 0) eqn:Hd0; [|discriminate]. apply N.eqb_eq in Hd0.
      exists (skipn 28 m). rewrite (word_split m 24 Hb Hd4), <- Hd, Hd0. apply al_end.
    - destruct (N.ltb rlen 36); [discriminate|].
      exact (validate_loop_sound m rlen Hb Hl Hr32 _ 24%nat H24 H). }
  destruct Hal as (rest & Hal).
  exists (firstn 24 m), (skipn 24 m), rest. split; [symmetry; apply firstn_skipn|].
  split; [rewrite firstn_length; lia|exact Hal].
Qed.

(** ** Reads stay inside when no length makes the 32-bit offset wrap *)

Definition no_wrap (m : list byte) : Prop :=
  forall p, attr_at m p -> (p + 12 <= length m)%nat -> word32 m p <> 0%N ->
    (N.of_nat p + 12 + word32 m (p + 8) < 4294967296)%N.

Lemma validate_loop_reads (m : list byte) rlen : Forall is_byte m ->
  rlen = N.of_nat (length m) -> no_wrap m ->
  forall fuel p, attr_at m p -> (p + 4 <= length m)%nat ->
    (word32 m p <> 0%N -> (p + 12 <= length m)%nat) ->
    (length m < fuel + p)%nat ->
    validate_loop fuel m rlen (N.of_nat p) (N.of_nat p) = VAccept \/
    validate_loop fuel m rlen (N.of_nat p) (N.of_nat p) = VReject.
Proof.
  intros Hb Hrl Hnw. induction fuel as [|fuel IH]; intros p Hat H4 H16 Hf; [lia|].
  cbn [validate_loop]. rewrite load32_some by exact H4.
  destruct (N.eqb (word32 m p) 0) eqn:Hd0; [now left|]. apply N.eqb_neq in Hd0.
  specialize (H16 Hd0).
  replace (N.of_nat p + 8)%N with (N.of_nat (p + 8)) by lia. rewrite load32_some by lia.
  pose proof (Hnw p Hat H16 Hd0) as Hw.
  pose proof (aa_next m p Hat Hd0 H16) as Hat'.
  set (n := N.to_nat (word32 m (p + 8))) in *.
  assert (Hn : word32 m (p + 8) = N.of_nat n) by (unfold n; lia). rewrite Hn in *.
  replace ((N.of_nat p + (12 + N.of_nat n)) mod two32)%N with (N.of_nat (p + 12 + n))
    by (rewrite N.mod_small by (unfold two32; lia); lia).
  destruct (N.ltb rlen _) eqn:Hoff; [now right|]. apply N.ltb_ge in Hoff.
  assert (Hbad : exists x,
    (if (N.of_nat n =? 0)%N then Some false else
     match load8 m (N.of_nat p + 12 + (N.of_nat n - 1)) with
     | Some c => Some (negb (c =? 0)%N) | None => None end) = Some x).
  { destruct (N.eqb (N.of_nat n) 0) eqn:E; [eauto|]. unfold load8.
    replace (N.ltb _ _) with true by (symmetry; apply N.ltb_lt; lia). eauto. }
  destruct Hbad as (x & Hx). rewrite Hx. destruct x; [now right|].
  replace (N.of_nat p + 12 + N.of_nat n)%N with (N.of_nat (p + 12 + n)) by lia.
  rewrite load32_some by lia.
  destruct (negb _ && _)%bool eqn:Hnx; [now right|].
  apply IH; [exact Hat'|lia| |lia].
  intros Hnz. apply Bool.andb_false_iff in Hnx. destruct Hnx as [Hnx|Hnx].
  - apply Bool.negb_false_iff, N.eqb_eq in Hnx. congruence.
  - apply N.ltb_ge in Hnx. lia.
Qed.

Lemma validate_reads m : Forall is_byte m -> (24 <= length m)%nat ->
  rec_len m = N.of_nat (length m) -> no_wrap m ->
  validate m = VAccept \/ validate m = VReject.
Proof.
  intros Hb H24 Hrl Hnw. unfold validate.
  change 20%N with (N.of_nat 20). rewrite load32_some by lia.
  change (word32 m 20) with (rec_len m). rewrite Hrl.
  destruct (N.eqb (N.of_nat (length m)) 28) eqn:E28.
  - apply N.eqb_eq in E28. change 24%N with (N.of_nat 24). rewrite load32_some by lia.
    destruct (N.eqb _ 0); auto.
  - destruct (N.ltb (N.of_nat (length m)) 36) eqn:E36; [now right|].
    apply N.ltb_ge in E36. change 24%N with (N.of_nat 24).
    apply validate_loop_reads; auto; [apply aa_first|lia|lia|lia].
Qed.

(** ** Completeness: a message that is exactly a header and a terminated list
    is accepted *)

Lemma attr_list_len l rest : attr_list l rest -> (4 + length rest <= length l)%nat.
Proof.
  induction 1 as [rest|d i v l rest Hd Hv Hl IH].
  - rewrite app_length. cbn [length be32]. lia.
  - rewrite app_length. lia.
Qed.

Lemma attr_list_head l rest : attr_list l rest -> (0 < length rest)%nat \/
  (length l = 4%nat /\ l = be32 0) \/ (16 <= length l)%nat.
Proof.
  destruct 1 as [rest|d i v l rest Hd Hv Hl].
  - destruct rest; [right; left; rewrite app_nil_r; now split|left; cbn; lia].
  - right. right. apply attr_list_len in Hl. unfold raw_attr. rewrite !app_length.
    cbn [length be32]. lia.
Qed.

Lemma word32_at (h l : list byte) (v : N) p : length h = p -> (v < two32)%N ->
  word32 (h ++ be32 v ++ l) p = v.
Proof.
  intros <- Hv. unfold word32. rewrite slice_app_r by lia. rewrite Nat.sub_diag.
  rewrite slice_app_l by (cbn; lia). apply of_be32_be32. exact Hv.
Qed.

Fixpoint small_attrs_ok (l : list (N * N * list byte)) : Prop :=
  match l with
  | [] => True
  | (d, i, v) :: l' => (d <> 0 /\ d < two32)%N /\ (v = [] \/ exists v', v = v' ++ [0%N]) /\ small_attrs_ok l'
  end.
Definition raw_list (l : list (N * N * list byte)) : list byte :=
  flat_map (fun x => raw_attr (fst (fst x)) (snd (fst x)) (snd x)) l ++ be32 0.

Lemma validate_loop_complete (m : list byte) rlen :
  rlen = N.of_nat (length m) -> (rlen < two32)%N ->
  forall l h fuel, m = h ++ raw_list l -> small_attrs_ok l -> (length l < fuel)%nat ->
    validate_loop fuel m rlen (N.of_nat (length h)) (N.of_nat (length h)) = VAccept.
Proof.
  intros Hrl Hr32. induction l as [|[[d i] v] l IH]; intros h fuel Hm Hok Hf;
    (destruct fuel as [|fuel]; [cbn in Hf; lia|]).
  - unfold raw_list in Hm. cbn [flat_map app] in Hm. cbn [validate_loop].
    rewrite load32_some by (rewrite Hm, app_length; cbn [length be32]; lia).
    replace (word32 m (length h)) with 0%N; [reflexivity|].
    symmetry. rewrite Hm, <- (app_nil_r (be32 0)). apply word32_at; [reflexivity|unfold two32; lia].
  - destruct Hok as ((Hd & Hd32) & Hv & Hok).
    assert (Hm' : m = (h ++ raw_attr d i v) ++ raw_list l).
    { rewrite Hm. unfold raw_list. cbn [flat_map fst snd]. now rewrite <- !app_assoc. }
    assert (Hral : length (raw_attr d i v) = (12 + length v)%nat)
      by (unfold raw_attr; rewrite !app_length; cbn [length be32]; lia).
    assert (Hrll : (4 <= length (raw_list l))%nat).
    { unfold raw_list. rewrite app_length. cbn [length be32]. lia. }
    assert (Hlen : (length m = length h + 12 + length v + length (raw_list l))%nat).
    { rewrite Hm', !app_length, Hral. lia. }
    assert (Hvl : (N.of_nat (length v) < two32)%N) by lia.
    cbn [validate_loop]. rewrite load32_some by lia.
    assert (Hw0 : word32 m (length h) = d).
    { rewrite Hm', <- app_assoc. unfold raw_attr. rewrite <- app_assoc.
      now apply word32_at. }
    assert (Hw8 : word32 m (length h + 8) = N.of_nat (length v)).
    { replace m with ((h ++ be32 d ++ be32 i) ++ be32 (N.of_nat (length v)) ++ (v ++ raw_list l))
        by (rewrite Hm'; unfold raw_attr; now rewrite <- !app_assoc).
      apply word32_at; [|exact Hvl]. rewrite !app_length. reflexivity. }
    rewrite Hw0. replace (N.eqb d 0) with false by (symmetry; now apply N.eqb_neq).
    replace (N.of_nat (length h) + 8)%N with (N.of_nat (length h + 8)) by lia.
    rewrite load32_some by lia. rewrite Hw8.
    replace ((N.of_nat (length h) + (12 + N.of_nat (length v))) mod two32)%N
      with (N.of_nat (length h + 12 + length v))
      by (rewrite N.mod_small by lia; lia).
    replace (N.ltb rlen _) with false by (symmetry; apply N.ltb_ge; lia).
    assert (Hbad : (if (N.of_nat (length v) =? 0)%N then Some false else
       match load8 m (N.of_nat (length h) + 12 + (N.of_nat (length v) - 1)) with
       | Some c => Some (negb (c =? 0)%N) | None => None end) = Some false).
    { destruct Hv as [->|(v' & ->)]; [reflexivity|].
      replace (N.eqb _ 0) with false by (symmetry; apply N.eqb_neq; rewrite app_length; cbn [length]; lia).
      unfold load8. replace (N.ltb _ _) with true by (symmetry; apply N.ltb_lt; rewrite app_length in *; cbn [length] in *; lia).
      replace (nth _ m 0%N) with 0%N; [reflexivity|].
      rewrite app_length. cbn [length].
      replace (N.to_nat (N.of_nat (length h) + 12 + (N.of_nat (length v' + 1) - 1)))
        with (length h + 12 + length v')%nat by lia.
      replace m with ((h ++ be32 d ++ be32 i ++ be32 (N.of_nat (length (v' ++ [0%N]))) ++ v')
                      ++ [0%N] ++ raw_list l)
        by (rewrite Hm'; unfold raw_attr; now rewrite <- !app_assoc).
      rewrite app_nth2 by (rewrite !app_length; cbn [length be32]; lia).
      rewrite !app_length. cbn [length be32].
      match goal with |- _ = nth ?k _ _ => replace k with 0%nat by lia end. reflexivity. }
    rewrite Hbad.
    replace (N.of_nat (length h) + 12 + N.of_nat (length v))%N
      with (N.of_nat (length h + 12 + length v)) by lia.
    rewrite load32_some by lia.
    match goal with |- (if ?c then _ else _) = _ => assert (Hc : c = false) end.
    { destruct l as [|[[d2 i2] v2] l].
      - replace (word32 m (length h + 12 + length v)) with 0%N; [reflexivity|].
        symmetry. rewrite Hm'. unfold raw_list. cbn [flat_map app].
        rewrite <- (app_nil_r (be32 0)).
        apply word32_at; [rewrite app_length, Hral; lia|unfold two32; lia].
      - apply Bool.andb_false_iff. right. apply N.ltb_ge.
        assert (16 <= length (raw_list ((d2, i2, v2) :: l)))%nat.
        { unfold raw_list. cbn [flat_map fst snd]. unfold raw_attr at 1. rewrite !app_length.
          cbn [length be32]. lia. }
        lia. }
    rewrite Hc.
    replace (length h + 12 + length v)%nat with (length (h ++ raw_attr d i v))
      by (rewrite app_length, Hral; lia).
    apply IH; [exact Hm'|exact Hok|cbn in Hf; lia].
Qed.

Lemma validate_complete h l : length h = 24%nat -> small_attrs_ok l ->
  let m := h ++ raw_list l in
  rec_len m = N.of_nat (length m) -> (N.of_nat (length m) < two32)%N ->
  validate m = VAccept.
Proof.
  intros Hh Hok m Hrl Hr32. unfold validate.
  assert (Hml : length m = (24 + length (raw_list l))%nat) by (unfold m; rewrite app_length; lia).
  assert (Hrll : (length (raw_list l) = 4 /\ l = [] \/ 16 <= length (raw_list l))%nat).
  { unfold raw_list. destruct l as [|[[d i] v] l]; [left; split; reflexivity|right].
    cbn [flat_map fst snd]. unfold raw_attr at 1. rewrite !app_length. cbn [length be32]. lia. }
  change 20%N with (N.of_nat 20). rewrite load32_some by lia.
  change (word32 m 20) with (rec_len m). rewrite Hrl.
  destruct (N.eqb (N.of_nat (length m)) 28) eqn:E28.
  - apply N.eqb_eq in E28. assert (l = []) by (destruct Hrll as [[_ ?]|]; [assumption|lia]). subst l.
    change 24%N with (N.of_nat 24). rewrite load32_some by lia.
    replace (word32 m 24) with 0%N; [reflexivity|]. symmetry. unfold m, raw_list. cbn [flat_map app].
    rewrite <- (app_nil_r (be32 0)). apply word32_at; [exact Hh|unfold two32; lia].
  - apply N.eqb_neq in E28.
    replace (N.ltb (N.of_nat (length m)) 36) with false by (symmetry; apply N.ltb_ge; lia).
    change 24%N with (N.of_nat 24). rewrite <- Hh.
    apply (validate_loop_complete m _ eq_refl Hr32 l); [reflexivity|exact Hok|].
    rewrite Hml. clear. induction l as [|[[d i] v] l IH]; [cbn; lia|].
    unfold raw_list in *. cbn [flat_map fst snd length]. unfold raw_attr at 1. rewrite !app_length in *.
    cbn [length be32] in *. lia.
Qed.
