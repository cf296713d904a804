(** Lemmas on the answer to a directory request. *)
From Verif Require Import S_Dir.
From Coq Require Import Lia String.
Local Open Scope Z_scope.

Local Arguments Z.add : simpl never.
Local Arguments Z.sub : simpl never.
Local Arguments Z.of_nat : simpl never.
Local Arguments Z.modulo : simpl never.
Local Arguments Z.pow : simpl never.

Lemma zlen_nonneg : forall {A} (l : list A), 0 <= zlen l.
Proof. unfold zlen; lia. Qed.
Lemma zlen_app : forall {A} (l k : list A), zlen (l ++ k) = zlen l + zlen k.
Proof. intros; unfold zlen; rewrite app_length; lia. Qed.
Lemma zlen_cons : forall {A} (x : A) l, zlen (x :: l) = 1 + zlen l.
Proof. intros; unfold zlen; cbn [List.length]; lia. Qed.
Lemma zlen_nil : forall {A}, zlen (@nil A) = 0.
Proof. reflexivity. Qed.

(** The first bytes of the buffer *)
Definition holds (m : mem) (t : text) : Prop := forall i, (i < List.length t)%nat -> m (Z.of_nat i) = nth i t zero.
Lemma holds_nil : forall m, holds m [].
Proof. intros m i H; cbn in H; lia. Qed.
Lemma holds_take : forall m t, holds m t -> take m (zlen t) = t.
Proof.
  intros m t H; unfold take, zlen. rewrite Nat2Z.id.
  apply nth_ext with (d := zero) (d' := zero).
  - rewrite map_length, seq_length; reflexivity.
  - intros i L; rewrite map_length, seq_length in L.
    rewrite nth_indep with (d' := m (Z.of_nat 0)) by (rewrite map_length, seq_length; exact L).
    rewrite (map_nth (fun i => m (Z.of_nat i))), seq_nth by exact L. apply H; exact L.
Qed.
Lemma holds_prefix : forall m t u, holds m (t ++ u) -> holds m t.
Proof.
  intros m t u H i L. rewrite H by (rewrite app_length; lia). now rewrite app_nth1.
Qed.
Lemma write_before : forall m t w, holds m t -> holds (write m (zlen t) w) t.
Proof.
  intros m t w H i L; unfold write.
  replace (zlen t <=? Z.of_nat i) with false by (symmetry; apply Z.leb_gt; unfold zlen; lia).
  apply H, L.
Qed.
Lemma write_all : forall m t u v, holds m t -> holds (write m (zlen t) (u ++ v)) (t ++ u).
Proof.
  intros m t u v H i L; rewrite app_length in L.
  destruct (Nat.lt_ge_cases i (List.length t)) as [C|C].
  - rewrite app_nth1 by exact C. apply write_before; assumption.
  - rewrite app_nth2 by exact C. unfold write.
    replace (zlen t <=? Z.of_nat i) with true by (symmetry; apply Z.leb_le; unfold zlen; lia).
    replace (Z.of_nat i <? zlen t + zlen (u ++ v)) with true
      by (symmetry; apply Z.ltb_lt; rewrite zlen_app; unfold zlen; lia).
    cbn [andb]. replace (Z.to_nat (Z.of_nat i - zlen t)) with (i - List.length t)%nat by (unfold zlen; lia).
    apply app_nth1; lia.
Qed.

(** ** snprintf *)
Lemma snprintf_fit : forall cap m t size u, holds m t -> zlen u < size -> zlen t + zlen u + 1 <= cap ->
  exists m', snprintf cap m (zlen t) size u = Some (m', zlen u) /\ holds m' (t ++ u).
Proof.
  intros cap m t size u H L C; unfold snprintf. pose proof (zlen_nonneg u).
  replace (size =? 0) with false by (symmetry; apply Z.eqb_neq; lia).
  replace (Z.min (size - 1) (zlen u)) with (zlen u) by lia.
  replace (firstn (Z.to_nat (zlen u)) u) with u by (unfold zlen; rewrite Nat2Z.id, firstn_all; reflexivity).
  cbv zeta. rewrite zlen_app, zlen_cons, zlen_nil.
  replace (zlen t + (zlen u + (1 + 0)) <=? cap) with true by (symmetry; apply Z.leb_le; lia).
  eexists; split; [reflexivity|]. apply write_all, H.
Qed.
Lemma snprintf_cut : forall cap m t size u, holds m t -> 0 < size <= zlen u -> zlen t + size <= cap ->
  exists m', snprintf cap m (zlen t) size u = Some (m', zlen u) /\ holds m' t.
Proof.
  intros cap m t size u H L C; unfold snprintf.
  replace (size =? 0) with false by (symmetry; apply Z.eqb_neq; lia).
  replace (Z.min (size - 1) (zlen u)) with (size - 1) by lia. cbv zeta.
  match goal with |- context [zlen t + zlen ?w <=? cap] => assert (E : zlen w = size) end.
  { rewrite zlen_app. unfold zlen. rewrite firstn_length. unfold zlen in L. cbn [List.length]. lia. }
  rewrite E. replace (zlen t + size <=? cap) with true by (symmetry; apply Z.leb_le; lia).
  eexists; split; [reflexivity|]. apply write_before, H.
Qed.

(** ** One set's text *)
Lemma print_spec : forall cap off size l m t cnt,
  holds m t -> zlen t = off + cnt -> 0 <= cnt < size -> off + size <= cap ->
  exists m' k, print cap m off size cnt l = Some (m', k) /\
  (cnt + zlen (List.concat l) < size -> k = cnt + zlen (List.concat l) /\ holds m' (t ++ List.concat l)) /\
  (size <= cnt + zlen (List.concat l) -> size <= k /\ holds m' t).
Proof.
  intros cap off size l; induction l as [|u l IH]; intros m t cnt H E C B; cbn [print List.concat].
  - exists m, cnt; split; [reflexivity|]. rewrite zlen_nil, app_nil_r. split; intros; [split; [lia|exact H]|lia].
  - rewrite zlen_app. pose proof (zlen_nonneg u) as P1. pose proof (zlen_nonneg (List.concat l)) as P2. rewrite <- E.
    destruct (Z.lt_ge_cases (zlen u) (size - cnt)) as [L|L].
    + destruct (snprintf_fit cap m t (size - cnt) u H L ltac:(lia)) as (m1 & E1 & H1).
      rewrite E1. replace (size <=? cnt + zlen u) with false by (symmetry; apply Z.leb_gt; lia).
      destruct (IH m1 (t ++ u) (cnt + zlen u) H1) as (m2 & k & E2 & F2 & G2); [rewrite zlen_app; lia|lia|exact B|].
      exists m2, k; split; [exact E2|]. rewrite app_assoc, Z.add_assoc. split; intros Q.
      * apply F2, Q.
      * destruct (G2 Q) as (X & Y); split; [exact X|]. apply holds_prefix in Y; exact Y.
    + destruct (snprintf_cut cap m t (size - cnt) u H ltac:(lia) ltac:(lia)) as (m1 & E1 & H1).
      rewrite E1. replace (size <=? cnt + zlen u) with true by (symmetry; apply Z.leb_le; lia).
      exists m1, (cnt + zlen u); split; [reflexivity|]. split; intros; [lia|]. split; [lia|exact H1].
Qed.

Lemma info_text_true : forall l, List.concat (info_pieces true l) = flat_map (fun p => str "," ++ pair_text p) l.
Proof.
  induction l as [|p l IH]; [reflexivity|]. cbn [info_pieces]. rewrite concat_app. cbn [List.concat flat_map].
  rewrite IH. rewrite app_nil_r, <- app_assoc. reflexivity.
Qed.
Lemma commas_text : forall t l, commas (t :: l) = t ++ flat_map (fun p => str "," ++ p) l.
Proof.
  intros t l; revert t; induction l as [|u l IH]; intros t; [cbn; now rewrite app_nil_r|].
  change (commas (t :: u :: l)) with (t ++ str "," ++ commas (u :: l)). rewrite IH.
  cbn [flat_map]. now rewrite <- app_assoc.
Qed.
Lemma info_text : forall l, List.concat (info_pieces false l) = commas (map pair_text l).
Proof.
  destruct l as [|p l]; [reflexivity|]. cbn [info_pieces map]. rewrite commas_text. cbn [app List.concat].
  rewrite info_text_true. f_equal. rewrite flat_map_concat_map, (flat_map_concat_map (fun p => str "," ++ p)), map_map.
  reflexivity.
Qed.
Lemma pieces_text : forall b s, List.concat (pieces b s) = (if b then ","%char else " "%char) :: entry s.
Proof.
  intros b s; unfold pieces, entry. cbn [List.concat]. rewrite concat_app, info_text. cbn [List.concat app].
  rewrite app_nil_r. destruct b; reflexivity.
Qed.

(** ** The states between the sets *)
Definition blank (c : ascii) : Prop := c = " "%char \/ c = ","%char.
(** [g] is listed in the buffer *)
Definition part (m : mem) (cnt : Z) (g : list dset) : Prop :=
  exists c, blank c /\ cnt = zlen (HDR ++ entries c g) /\ holds m (HDR ++ entries c g).
Definition start (m : mem) (cnt : Z) (g : list dset) : Prop := (cnt = 0 /\ g = []) \/ part m cnt g.

Lemma flat_app : forall (g : list dset) s, flat_map (fun s => ","%char :: entry s) (g ++ [s])
  = flat_map (fun s => ","%char :: entry s) g ++ ","%char :: entry s.
Proof. intros; rewrite flat_map_app; cbn [flat_map]; now rewrite app_nil_r. Qed.
Lemma entries_snoc : forall c g s, g <> [] -> entries c (g ++ [s]) = entries c g ++ ","%char :: entry s.
Proof.
  intros c [|x g] s H; [congruence|]. cbn [app entries]. rewrite flat_app. cbn [app]. now rewrite <- app_assoc.
Qed.
Lemma entries_len : forall c d g, zlen (entries c g) = zlen (entries d g).
Proof. destruct g; reflexivity. Qed.
Lemma zlen_HDR : zlen HDR = 17.
Proof. reflexivity. Qed.

(** Listing of a visible set after [g], separated as the code does *)
Lemma listing_snoc : forall c g s, blank c ->
  exists d, blank d /\ HDR ++ entries d (g ++ [s]) = (HDR ++ entries c g) ++ ","%char :: entry s.
Proof.
  intros c g s H. destruct g as [|x g].
  - exists ","%char; split; [right; reflexivity|]. cbn [app entries flat_map]. rewrite !app_nil_r. reflexivity.
  - exists c; split; [exact H|]. rewrite entries_snoc by discriminate. now rewrite app_assoc.
Qed.

Definition size_of (g : list dset) : Z := zlen (HDR ++ entries " "%char g).
Lemma size_any : forall c g, zlen (HDR ++ entries c g) = size_of g.
Proof. intros; unfold size_of; rewrite !zlen_app; f_equal; apply entries_len. Qed.
Lemma size_snoc : forall g s, size_of (g ++ [s]) = size_of g + 1 + zlen (entry s).
Proof.
  intros g s. destruct (listing_snoc " "%char g s) as (d & _ & E); [left; reflexivity|].
  rewrite <- (size_any d), E, zlen_app, zlen_cons, (size_any " "%char). lia.
Qed.
Lemma size_ge : forall g, 17 <= size_of g.
Proof. intros; unfold size_of; rewrite zlen_app, zlen_HDR; pose proof (zlen_nonneg (entries " "%char g)); lia. Qed.

(** ** One set *)
Definition vis (s : dset) : list dset := if readable s then [s] else [].
(** The end of the pass: go on, or send the last reply *)
Definition finish (cap : Z) (last : bool) (g : list dset) (sent : list reply) (p : placed) : Prop :=
  if last then
    if cap - 3 <=? size_of g + 2 then p = Out ENOMEM sent
    else exists m cnt j, p = Full m cnt (sent ++ [mkR 0 false j]) /\ lists j g /\ zlen j < cap - 3
  else exists m cnt, p = Full m cnt sent /\ part m cnt g /\ cnt < cap - 3.

Lemma mod_small : forall x, 0 <= x < W -> x mod W = x.
Proof. intros; apply Z.mod_small; assumption. Qed.

(** The buffer after the header *)
Lemma begin_ok : forall cap m cnt g, 21 <= cap < W -> start m cnt g -> cnt < cap - 3 ->
  exists m', (if cnt =? 0 then snprintf cap m 0 cap HDR else Some (m, cnt)) = Some (m', size_of g) /\
  exists c, (blank c /\ holds m' (HDR ++ entries c g)) /\ 0 < size_of g < cap - 3.
Proof.
  intros cap m cnt g C [(-> & ->)|(c & B & E & H)] L.
  - cbn [Z.eqb]. destruct (snprintf_fit cap m [] cap HDR (holds_nil m)) as (m' & E & H); rewrite ?zlen_nil, ?zlen_HDR; try lia.
    rewrite zlen_nil in E. exists m'; split; [exact E|]. exists " "%char; split; [split; [left; reflexivity|exact H]|].
    change (size_of []) with 17. lia.
  - rewrite size_any in E. pose proof (size_ge g).
    replace (cnt =? 0) with false by (symmetry; apply Z.eqb_neq; lia).
    exists m; split; [subst; reflexivity|]. exists c; split; [split; assumption|]. subst; lia.
Qed.

Lemma entries_one : forall c s, entries c [s] = c :: entry s.
Proof. intros; cbn [entries flat_map]; now rewrite app_nil_r. Qed.

(** Text of the set after [g] *)
Lemma add_ok : forall cap m cnt g s c m1, 21 <= cap < W -> start m cnt g ->
  blank c -> holds m1 (HDR ++ entries c g) -> 0 < size_of g < cap - 3 ->
  exists m2 k,
    (if readable s then print cap m1 (size_of g) ((cap - size_of g - 3) mod W) 0 (pieces (negb (cnt =? 0)) s) else Some (m1, 0)) = Some (m2, k) /\
    (size_of (g ++ vis s) < cap - 3 -> size_of g + k = size_of (g ++ vis s) /\
       exists d, blank d /\ holds m2 (HDR ++ entries d (g ++ vis s))) /\
    (cap - 3 <= size_of (g ++ vis s) -> cap - 3 <= size_of g + k /\ holds m2 (HDR ++ entries c g)).
Proof.
  intros cap m cnt g s c m1 C S B H L. unfold vis. destruct (readable s).
  - rewrite mod_small by lia.
    destruct (print_spec cap (size_of g) (cap - size_of g - 3) (pieces (negb (cnt =? 0)) s) m1 (HDR ++ entries c g) 0 H) as (m2 & k & E & F & G).
    { rewrite size_any; lia. } { lia. } { lia. }
    exists m2, k; split; [exact E|]. rewrite pieces_text in F, G.
    assert (Z0 : forall x, zlen (x :: entry s) = 1 + zlen (entry s)) by (intros; apply zlen_cons).
    rewrite size_snoc. rewrite Z0 in F, G. split; intros Q.
    + destruct (F ltac:(lia)) as (Y1 & Y2). split; [lia|].
      destruct S as [(-> & ->)|(c' & B' & E' & H')].
      * cbn [Z.eqb negb] in Y2. exists " "%char; split; [left; reflexivity|]. cbn [app]. rewrite entries_one.
        cbn [entries] in Y2. rewrite app_nil_r in Y2. exact Y2.
      * pose proof (size_ge g). rewrite size_any in E'.
        replace (cnt =? 0) with false in Y2 by (symmetry; apply Z.eqb_neq; lia).
        destruct (listing_snoc c g s B) as (d & D & E2). exists d; split; [exact D|]. rewrite E2; exact Y2.
    + destruct (G ltac:(lia)) as (Y1 & Y2). split; [lia|exact Y2].
  - exists m1, 0; split; [reflexivity|]. rewrite app_nil_r. split; intros Q; [|lia].
    split; [lia|]. exists c; split; assumption.
Qed.

Lemma lists_of : forall c g, blank c -> lists ((HDR ++ entries c g) ++ str "]}") g.
Proof. intros c g B; exists c; split; [exact B|now rewrite <- app_assoc]. Qed.

(** The set fits behind what is in the buffer *)
Lemma place_fit : forall f cap s m cnt g last sent, 21 <= cap < W -> start m cnt g -> cnt < cap - 3 ->
  size_of (g ++ vis s) < cap - 3 ->
  finish cap last (g ++ vis s) sent (place (S f) cap s m cnt last sent).
Proof.
  intros f cap s m cnt g last sent C ST L Q. cbn [place].
  destruct (begin_ok cap m cnt g C ST L) as (m1 & E1 & c & (B & H1) & L1). rewrite E1.
  replace ((cnt =? 0) && (cap <=? size_of g)) with false
    by (symmetry; apply Bool.andb_false_iff; right; apply Z.leb_gt; lia).
  destruct (add_ok cap m cnt g s c m1 C ST B H1 L1) as (m2 & k & E2 & F & _). rewrite E2.
  destruct (F Q) as (EK & d & D & H2). rewrite (mod_small (cap - 3)) by lia. rewrite EK.
  replace (cap - 3 <=? size_of (g ++ vis s)) with false by (symmetry; apply Z.leb_gt; lia).
  pose proof (size_ge (g ++ vis s)) as GE.
  destruct last; unfold finish.
  - assert (CN : 0 <= cnt <= size_of (g ++ vis s)).
    { pose proof (size_ge g). assert (size_of g <= size_of (g ++ vis s)).
      { unfold vis; destruct (readable s); [rewrite size_snoc; pose proof (zlen_nonneg (entry s)); lia|rewrite app_nil_r; lia]. }
      destruct ST as [(-> & _)|(c' & _ & E' & _)]; [lia|rewrite size_any in E'; lia]. }
    rewrite (mod_small (cap - cnt - 3)) by lia.
    assert (Z2 : zlen (str "]}") = 2) by reflexivity.
    destruct (Z.leb_spec (cap - 3) (size_of (g ++ vis s) + 2)) as [R|R].
    + destruct (Z.lt_ge_cases 2 (cap - cnt - 3)) as [U|U].
      * destruct (snprintf_fit cap m2 (HDR ++ entries d (g ++ vis s)) (cap - cnt - 3) (str "]}") H2) as (m3 & E3 & _); rewrite ?Z2, ?size_any; try lia.
        rewrite size_any, Z2 in E3. rewrite E3.
        replace (cap - 3 <=? size_of (g ++ vis s) + 2) with true by (symmetry; apply Z.leb_le; lia). reflexivity.
      * destruct (snprintf_cut cap m2 (HDR ++ entries d (g ++ vis s)) (cap - cnt - 3) (str "]}") H2) as (m3 & E3 & _); rewrite ?Z2, ?size_any; try lia.
        rewrite size_any, Z2 in E3. rewrite E3.
        replace (cap - 3 <=? size_of (g ++ vis s) + 2) with true by (symmetry; apply Z.leb_le; lia). reflexivity.
    + destruct (snprintf_fit cap m2 (HDR ++ entries d (g ++ vis s)) (cap - cnt - 3) (str "]}") H2) as (m3 & E3 & H3); rewrite ?Z2, ?size_any; try lia.
      rewrite size_any, Z2 in E3. rewrite E3.
      replace (cap - 3 <=? size_of (g ++ vis s) + 2) with false by (symmetry; apply Z.leb_gt; lia).
      exists m3, (size_of (g ++ vis s) + 2), ((HDR ++ entries d (g ++ vis s)) ++ str "]}").
      assert (T : zlen ((HDR ++ entries d (g ++ vis s)) ++ str "]}") = size_of (g ++ vis s) + 2) by (rewrite zlen_app, size_any, Z2; reflexivity).
      pose proof (holds_take _ _ H3) as TK. rewrite T in TK. rewrite TK.
      split; [reflexivity|]. split; [apply lists_of; exact D|lia].
  - exists m2, (size_of (g ++ vis s)); split; [reflexivity|]. split; [|lia].
    exists d; split; [exact D|]. rewrite size_any. split; [reflexivity|exact H2].
Qed.

(** It does not: what is there is sent *)
Lemma place_over : forall f cap s m cnt g last sent, 21 <= cap < W -> start m cnt g -> cnt < cap - 3 ->
  size_of (vis s) < cap - 3 -> cap - 3 <= size_of (g ++ vis s) ->
  exists m' j, place (S f) cap s m cnt last sent = place f cap s m' 0 last (sent ++ [mkR 0 true j]) /\ lists j g /\ zlen j < cap /\ g <> [].
Proof.
  intros f cap s m cnt g last sent C ST L N Q. cbn [place].
  assert (G0 : g <> []) by (intros ->; cbn [app] in Q; lia).
  destruct (begin_ok cap m cnt g C ST L) as (m1 & E1 & c & (B & H1) & L1). rewrite E1.
  replace ((cnt =? 0) && (cap <=? size_of g)) with false
    by (symmetry; apply Bool.andb_false_iff; right; apply Z.leb_gt; lia).
  destruct (add_ok cap m cnt g s c m1 C ST B H1 L1) as (m2 & k & E2 & _ & F). rewrite E2.
  destruct (F Q) as (EK & H2). rewrite (mod_small (cap - 3)) by lia.
  replace (cap - 3 <=? size_of g + k) with true by (symmetry; apply Z.leb_le; lia).
  destruct ST as [(_ & E)|(c' & _ & E' & _)]; [congruence|]. rewrite size_any in E'. subst cnt.
  rewrite (mod_small (cap - size_of g)) by lia.
  assert (Z2 : zlen (str "]}") = 2) by reflexivity.
  destruct (snprintf_fit cap m2 (HDR ++ entries c g) (cap - size_of g) (str "]}") H2) as (m3 & E3 & H3); rewrite ?Z2, ?size_any; try lia.
  rewrite size_any, Z2 in E3. rewrite E3.
  replace (cap <=? size_of g + 2) with false by (symmetry; apply Z.leb_gt; lia).
  exists m3, ((HDR ++ entries c g) ++ str "]}").
  assert (T : zlen ((HDR ++ entries c g) ++ str "]}") = size_of g + 2) by (rewrite zlen_app, size_any, Z2; reflexivity).
  pose proof (holds_take _ _ H3) as TK. rewrite T in TK. rewrite TK. split; [reflexivity|].
  split; [apply lists_of; exact B|]. split; [lia|exact G0].
Qed.

(** ** All the sets *)
Definition group (cap : Z) (r : reply) (g : list dset) : Prop :=
  rc r = 0 /\ more r = true /\ g <> [] /\ lists (json r) g /\ zlen (json r) < cap.
Lemma place_spec : forall f cap s m cnt g last sent, 21 <= cap < W -> start m cnt g -> cnt < cap - 3 ->
  size_of (vis s) < cap - 3 ->
  exists add groups g', List.concat groups ++ g' = g ++ vis s /\ Forall2 (group cap) add groups /\
  finish cap last g' (sent ++ add) (place (S (S f)) cap s m cnt last sent).
Proof.
  intros f cap s m cnt g last sent C ST L N.
  destruct (Z.lt_ge_cases (size_of (g ++ vis s)) (cap - 3)) as [Q|Q].
  - exists [], [], (g ++ vis s); split; [reflexivity|]. split; [constructor|]. rewrite app_nil_r. apply place_fit; assumption.
  - destruct (place_over (S f) cap s m cnt g last sent C ST L N Q) as (m' & j & E & J & U & G0).
    exists [mkR 0 true j], [g], (vis s); split; [cbn [List.concat app]; now rewrite app_nil_r|].
    split; [constructor; [repeat split; assumption|constructor]|].
    rewrite E. apply (place_fit f cap s m' 0 [] last); [assumption|left; split; reflexivity|lia|exact N].
Qed.

Definition last_found (l : list (option dset)) : Prop := exists l' s, l = l' ++ [Some s].
Lemma visible_cons : forall o l, visible (o :: l) = (match o with Some s => vis s | None => [] end) ++ visible l.
Proof. reflexivity. Qed.

Lemma all_spec : forall f cap l m cnt g sent, 21 <= cap < W -> start m cnt g -> cnt < cap - 3 ->
  (forall s, In (Some s) l -> size_of (vis s) < cap - 3) -> last_found l ->
  exists add groups g', List.concat groups ++ g' = g ++ visible l /\ Forall2 (group cap) add groups /\
  finish cap true g' (sent ++ add) (all_sets (S (S f)) cap l m cnt sent).
Proof.
  intros f cap l; induction l as [|o l IH]; intros m cnt g sent C ST L N (l' & s0 & E).
  { destruct l'; discriminate. }
  rewrite visible_cons. destruct o as [s|].
  - cbn [all_sets]. destruct l as [|o2 l].
    + destruct (place_spec f cap s m cnt g true sent C ST L) as (add & gs & g' & E1 & F1 & P1).
      { apply N; left; reflexivity. }
      exists add, gs, g'. cbn [visible flat_map]. rewrite app_nil_r. split; [exact E1|]. split; [exact F1|].
      unfold finish in *. cbv iota in P1 |- *. destruct (cap - 3 <=? size_of g' + 2).
      * rewrite P1; reflexivity.
      * destruct P1 as (m' & c' & j & -> & X); exists m', c', j; split; [reflexivity|exact X].
    + destruct (place_spec f cap s m cnt g false sent C ST L) as (add & gs & g' & E1 & F1 & P1).
      { apply N; left; reflexivity. }
      cbn [finish] in P1. destruct P1 as (m' & c' & E2 & P2 & L2). rewrite E2.
      destruct (IH m' c' g' (sent ++ add) C) as (add2 & gs2 & g2 & E3 & F3 & P3); try assumption.
      { right; exact P2. } { intros s1 I; apply N; right; exact I. }
      { destruct l' as [|o' l']; [discriminate|]. injection E as _ E. exists l', s0; exact E. }
      exists (add ++ add2), (gs ++ gs2), g2. split; [|split].
      * rewrite concat_app, <- app_assoc, E3, !app_assoc, E1. reflexivity.
      * apply Forall2_app; assumption.
      * rewrite app_assoc; exact P3.
  - cbn [all_sets]. apply IH; try assumption.
    + intros s1 I; apply N; right; exact I.
    + destruct l' as [|o' l']; [discriminate|]. injection E as _ E. exists l', s0; exact E.
Qed.

(** ** A set that fits in no message *)
Lemma place_big : forall f cap s m last sent, 21 <= cap < W -> readable s = true -> cap - 3 <= size_of [s] ->
  place f cap s m 0 last sent = Fuel (sent ++ repeat (mkR 0 true (str "]}")) f).
Proof.
  induction f as [|f IH]; intros cap s m last sent C R Q.
  { cbn. now rewrite app_nil_r. }
  cbn [place]. assert (ST : start m 0 []) by (left; split; reflexivity).
  destruct (begin_ok cap m 0 [] C ST) as (m1 & E1 & c & (B & H1) & L1); [lia|]. rewrite E1.
  replace ((0 =? 0) && (cap <=? size_of [])) with false
    by (symmetry; apply Bool.andb_false_iff; right; apply Z.leb_gt; lia).
  destruct (add_ok cap m 0 [] s c m1 C ST B H1 L1) as (m2 & k & E2 & _ & F). rewrite E2.
  assert (V : vis s = [s]) by (unfold vis; rewrite R; reflexivity).
  rewrite V in F. destruct (F Q) as (EK & H2). rewrite (mod_small (cap - 3)) by lia.
  replace (cap - 3 <=? size_of [] + k) with true by (symmetry; apply Z.leb_le; lia).
  rewrite (mod_small (cap - 0)) by lia.
  assert (Z2 : zlen (str "]}") = 2) by reflexivity.
  destruct (snprintf_fit cap m2 [] (cap - 0) (str "]}") (holds_nil _)) as (m3 & E3 & H3); rewrite ?Z2, ?zlen_nil; try lia.
  rewrite zlen_nil, Z2 in E3. rewrite E3. rewrite Z.add_0_l.
  replace (cap <=? 2) with false by (symmetry; apply Z.leb_gt; lia).
  rewrite IH by assumption. replace (take m3 2) with (str "]}").
  2:{ symmetry. rewrite <- Z2. apply holds_take. exact H3. }
  cbn [repeat]. rewrite <- app_assoc. reflexivity.
Qed.

(** ... later in the list *)
Lemma place_big_at : forall f cap s m cnt g last sent, 21 <= cap < W -> start m cnt g -> cnt < cap - 3 ->
  readable s = true -> cap - 3 <= size_of [s] ->
  exists pre, place (S f) cap s m cnt last sent = Fuel (pre ++ repeat (mkR 0 true (str "]}")) f).
Proof.
  intros f cap s m cnt g last sent C ST L R Q.
  destruct ST as [(-> & ->)|P].
  { rewrite place_big by assumption. cbn [repeat]. exists (sent ++ [mkR 0 true (str "]}")]). now rewrite <- app_assoc. }
  assert (ST : start m cnt g) by (right; exact P).
  assert (V : vis s = [s]) by (unfold vis; rewrite R; reflexivity).
  assert (Q2 : cap - 3 <= size_of (g ++ vis s)).
  { rewrite V, size_snoc. change [s] with ([] ++ [s]) in Q. rewrite size_snoc in Q. change (size_of []) with 17 in Q. pose proof (size_ge g). lia. }
  cbn [place]. destruct (begin_ok cap m cnt g C ST L) as (m1 & E1 & c & (B & H1) & L1). rewrite E1.
  replace ((cnt =? 0) && (cap <=? size_of g)) with false
    by (symmetry; apply Bool.andb_false_iff; right; apply Z.leb_gt; lia).
  destruct (add_ok cap m cnt g s c m1 C ST B H1 L1) as (m2 & k & E2 & _ & F). rewrite E2.
  destruct (F Q2) as (EK & H2). rewrite (mod_small (cap - 3)) by lia.
  replace (cap - 3 <=? size_of g + k) with true by (symmetry; apply Z.leb_le; lia).
  destruct P as (c' & _ & E' & _). rewrite size_any in E'. subst cnt.
  rewrite (mod_small (cap - size_of g)) by lia.
  assert (Z2 : zlen (str "]}") = 2) by reflexivity.
  destruct (snprintf_fit cap m2 (HDR ++ entries c g) (cap - size_of g) (str "]}") H2) as (m3 & E3 & H3); rewrite ?Z2, ?size_any; try lia.
  rewrite size_any, Z2 in E3. rewrite E3.
  replace (cap <=? size_of g + 2) with false by (symmetry; apply Z.leb_gt; lia).
  rewrite place_big by assumption. eexists; reflexivity.
Qed.
Lemma all_big : forall f cap l s l2 m cnt g sent, 21 <= cap < W -> start m cnt g -> cnt < cap - 3 ->
  (forall s, In (Some s) l -> size_of (vis s) < cap - 3) -> readable s = true -> cap - 3 <= size_of [s] ->
  exists pre, all_sets (S (S f)) cap (l ++ Some s :: l2) m cnt sent = Fuel (pre ++ repeat (mkR 0 true (str "]}")) f).
Proof.
  intros f cap l s l2; induction l as [|o l IH]; intros m cnt g sent C ST L N R Q.
  { cbn [app all_sets]. destruct (place_big_at (S f) cap s m cnt g (match l2 with [] => true | _ => false end) sent C ST L R Q) as (pre & ->).
    cbn [repeat]. exists (pre ++ [mkR 0 true (str "]}")]). now rewrite <- app_assoc. }
  destruct o as [s1|].
  - cbn [app all_sets].
    replace (match l ++ Some s :: l2 with [] => true | _ => false end) with false by (destruct l; reflexivity).
    destruct (place_spec f cap s1 m cnt g false sent C ST L) as (add & gs & g' & E1 & F1 & P1).
    { apply N; left; reflexivity. }
    cbn [finish] in P1. destruct P1 as (m' & c' & E2 & P2 & L2). rewrite E2.
    apply IH with (g := g'); try assumption; [right; exact P2|intros s2 I; apply N; right; exact I].
  - cbn [app all_sets]. apply IH with (g := g); try assumption. intros s2 I; apply N; right; exact I.
Qed.

(** ** The last set of the list is gone *)
Lemma all_gone : forall f cap l m cnt g sent, 21 <= cap < W -> start m cnt g -> cnt < cap - 3 ->
  (forall s, In (Some s) l -> size_of (vis s) < cap - 3) ->
  exists add groups g' m' cnt', List.concat groups ++ g' = g ++ visible l /\ Forall2 (group cap) add groups /\
  all_sets (S (S f)) cap (l ++ [None]) m cnt sent = Full m' cnt' (sent ++ add).
Proof.
  intros f cap l; induction l as [|o l IH]; intros m cnt g sent C ST L N.
  { exists [], [], g, m, cnt. cbn. rewrite !app_nil_r. repeat split; constructor. }
  rewrite visible_cons. destruct o as [s|].
  - cbn [app all_sets].
    replace (match l ++ [None] with [] => true | _ => false end) with false by (destruct l; reflexivity).
    destruct (place_spec f cap s m cnt g false sent C ST L) as (add & gs & g' & E1 & F1 & P1).
    { apply N; left; reflexivity. }
    cbn [finish] in P1. destruct P1 as (m' & c' & E2 & P2 & L2). rewrite E2.
    destruct (IH m' c' g' (sent ++ add) C) as (add2 & gs2 & g2 & m2 & c2 & E3 & F3 & P3); try assumption.
    { right; exact P2. } { intros s1 I; apply N; right; exact I. }
    exists (add ++ add2), (gs ++ gs2), g2, m2, c2. split; [|split].
    * rewrite concat_app, <- app_assoc, E3, !app_assoc, E1. reflexivity.
    * apply Forall2_app; assumption.
    * rewrite app_assoc; exact P3.
  - cbn [app all_sets]. apply IH; try assumption. intros s1 I; apply N; right; exact I.
Qed.

(** ** Everything fits in one message *)
Lemma size_app : forall g h, size_of g <= size_of (g ++ h).
Proof.
  intros g h; revert g; induction h as [|s h IH]; intros g; [rewrite app_nil_r; lia|].
  specialize (IH (g ++ [s])). rewrite <- app_assoc in IH. cbn [app] in IH. rewrite size_snoc in IH.
  pose proof (zlen_nonneg (entry s)); lia.
Qed.
Lemma all_fit : forall f cap l m cnt g sent, 21 <= cap < W -> start m cnt g -> cnt < cap - 3 ->
  size_of (g ++ visible l) < cap - 3 -> last_found l ->
  finish cap true (g ++ visible l) sent (all_sets (S f) cap l m cnt sent).
Proof.
  intros f cap l; induction l as [|o l IH]; intros m cnt g sent C ST L N (l' & s0 & E).
  { destruct l'; discriminate. }
  rewrite visible_cons in *. destruct o as [s|].
  - rewrite app_assoc in *. cbn [all_sets].
    assert (Q : size_of (g ++ vis s) < cap - 3) by (pose proof (size_app (g ++ vis s) (visible l)); lia).
    destruct l as [|o2 l].
    + pose proof (place_fit f cap s m cnt g true sent C ST L Q) as P1.
      cbn [visible flat_map]. rewrite app_nil_r. unfold finish in *. cbv iota in P1 |- *.
      destruct (cap - 3 <=? size_of (g ++ vis s) + 2).
      * rewrite P1; reflexivity.
      * destruct P1 as (m' & c' & j & -> & X); exists m', c', j; split; [reflexivity|exact X].
    + pose proof (place_fit f cap s m cnt g false sent C ST L Q) as P1.
      cbn [finish] in P1. destruct P1 as (m' & c' & E2 & P2 & L2). rewrite E2.
      apply IH; try assumption; [right; exact P2|].
      destruct l' as [|o' l']; [discriminate|]. injection E as _ E. exists l', s0; exact E.
  - cbn [all_sets app] in *. apply IH; try assumption.
    destruct l' as [|o' l']; [discriminate|]. injection E as _ E. exists l', s0; exact E.
Qed.
