(** Lemmas on the information of sets. *)
From Verif Require Import S_Info L_Dir.
From Coq Require Import Lia String.
Local Open Scope Z_scope.

Lemma teq_true : forall a b, teq a b = true <-> a = b.
Proof. intros; unfold teq; destruct (list_eq_dec ascii_dec a b); split; congruence. Qed.
Lemma teq_false : forall a b, teq a b = false <-> a <> b.
Proof. intros; unfold teq; destruct (list_eq_dec ascii_dec a b); split; congruence. Qed.
Lemma teq_refl : forall a, teq a a = true.
Proof. intros; apply teq_true; reflexivity. Qed.
Definition keys (l : pairs) := map fst l.
Ltac tq := match goal with |- context [teq ?a ?b] => destruct (teq a b) eqn:?TQ; [apply teq_true in TQ|apply teq_false in TQ] end.
Ltac pq := unfold put; cbv beta; cbn [find]; match goal with |- context [list_eq_dec ascii_dec ?a ?b] => destruct (list_eq_dec ascii_dec a b) end.

Lemma find_none : forall k l, find k l = None <-> ~ In k (keys l).
Proof.
  induction l as [|(a, v) l IH]; cbn; [tauto|]. tq; [subst; split; [discriminate|intros N; exfalso; apply N; left; reflexivity]|].
  rewrite IH. split; [intros N [E|I]; [congruence|auto]|intros N I; apply N; right; exact I].
Qed.
Lemma find_in : forall k v l, NoDup (keys l) -> (find k l = Some v <-> In (k, v) l).
Proof.
  induction l as [|(a, w) l IH]; cbn; intros N; [split; [discriminate|tauto]|]. inversion N as [|? ? N1 N2]; subst. tq.
  - subst a; split; [intros E; injection E as ->; left; reflexivity|].
    intros [E|I]; [congruence|]. exfalso; apply N1, (in_map fst _ _ I).
  - rewrite (IH N2). split; [right; assumption|intros [E|I]; [congruence|exact I]].
Qed.
Lemma find_replace : forall k v l x, find k l <> None -> find x (replace k v l) = put (fun x => find x l) k (Some v) x.
Proof.
  unfold put; induction l as [|(a, w) l IH]; cbn [find replace]; intros x F; [congruence|].
  destruct (teq k a) eqn:E; [apply teq_true in E; subst a|apply teq_false in E]; cbn [find].
  - tq; destruct (list_eq_dec ascii_dec x k); congruence.
  - rewrite IH by exact F. tq; destruct (list_eq_dec ascii_dec x k); congruence.
Qed.
Lemma find_remove : forall k l x, NoDup (keys l) -> find x (remove k l) = put (fun x => find x l) k None x.
Proof.
  unfold put; induction l as [|(a, w) l IH]; cbn [find remove]; intros x N; [destruct (list_eq_dec ascii_dec x k); reflexivity|].
  inversion N as [|? ? N1 N2]; subst.
  destruct (teq k a) eqn:E; [apply teq_true in E; subst a|apply teq_false in E]; cbn [find].
  - tq; destruct (list_eq_dec ascii_dec x k); try congruence. subst x. apply find_none; exact N1.
  - rewrite IH by exact N2. tq; destruct (list_eq_dec ascii_dec x k); congruence.
Qed.
Lemma keys_replace : forall k v l, keys (replace k v l) = keys l.
Proof. unfold keys; induction l as [|(a, w) l IH]; cbn [replace]; [reflexivity|]. destruct (teq k a); cbn [map fst]; congruence. Qed.
Lemma keys_remove_in : forall k l x, In x (keys (remove k l)) -> In x (keys l).
Proof. induction l as [|(a, w) l IH]; cbn [remove]; intros x I; [exact I|]. destruct (teq k a); cbn in *; tauto || (destruct I; auto). Qed.
Lemma nodup_remove : forall k l, NoDup (keys l) -> NoDup (keys (remove k l)).
Proof.
  induction l as [|(a, w) l IH]; cbn [remove]; intros N; [exact N|]. inversion N as [|? ? N1 N2]; subst.
  destruct (teq k a); [exact N2|]. cbn. constructor; [|apply IH, N2]. intros I; apply N1, (keys_remove_in _ _ _ I).
Qed.

(** ** Setting *)
Lemma info_set_ok : forall l k v l' rc, NoDup (keys l) -> info_set true true l k v = (l', rc) ->
  NoDup (keys l') /\ (forall x, find x l' = put (fun x => find x l) k (Some v) x) /\
  ((rc = -1 /\ l' = l /\ find k l = Some v) \/ (rc = 0 /\ find k l <> Some v)).
Proof.
  intros l k v l' rc N E; unfold info_set in E. destruct (find k l) as [w|] eqn:F.
  - destruct (teq v w) eqn:T; [apply teq_true in T; subst w|apply teq_false in T]; injection E as <- <-.
    + split; [exact N|]. split; [|left; split; [reflexivity|split; [reflexivity|reflexivity]]].
      intros x; pq; congruence.
    + split; [rewrite keys_replace; exact N|]. split; [|right; split; [reflexivity|congruence]].
      intros x; apply find_replace; congruence.
  - cbn [negb] in E. injection E as <- <-. split; [|split; [|right; split; [reflexivity|congruence]]].
    + cbn. constructor; [|exact N]. apply find_none; exact F.
    + intros x; cbn [find]. tq; pq; congruence.
Qed.

Lemma set_all_ok : forall new l c l' c', NoDup (keys l) -> set_all l new c = (l', c') ->
  NoDup (keys l') /\ (forall x, find x l' = match said new x with Some v => Some v | None => find x l end) /\
  (c' = false -> c = false /\ l' = l).
Proof.
  induction new as [|(k, v) new IH]; intros l c l' c' N E; cbn [set_all] in E.
  - injection E as <- <-. split; [exact N|]. split; [reflexivity|]. intros ->; split; reflexivity.
  - destruct (info_set true true l k v) as (l1, rc) eqn:E1.
    destruct (info_set_ok l k v l1 rc N E1) as (N1 & F1 & D).
    destruct (IH l1 _ l' c' N1 E) as (N2 & F2 & C2). split; [exact N2|]. split.
    + intros x; rewrite F2. cbn [said]. destruct (said new x); [reflexivity|]. rewrite F1. unfold put.
      destruct (list_eq_dec ascii_dec x k); reflexivity.
    + intros H; destruct (C2 H) as (X & ->). apply Bool.orb_false_iff in X. destruct X as (-> & X). apply Z.eqb_neq in X.
      split; [reflexivity|]. destruct D as [(_ & -> & _)|(-> & _)]; congruence.
Qed.
Lemma listed_said : forall new k, listed new k = true <-> said new k <> None.
Proof.
  unfold listed; induction new as [|(a, v) new IH]; intros k; cbn [existsb said fst]; [split; [discriminate|congruence]|].
  rewrite Bool.orb_true_iff, IH, teq_true. destruct (said new k) as [w|]; [split; [discriminate|right; discriminate]|].
  destruct (list_eq_dec ascii_dec k a); split; try congruence; [left; assumption|intros [?|?]; congruence].
Qed.
Lemma find_filter : forall f l x, NoDup (keys l) -> find x (filter (fun p => f (fst p)) l) = if f x then find x l else None.
Proof.
  induction l as [|(a, v) l IH]; intros x N; cbn [filter find fst]; [destruct (f x); reflexivity|].
  inversion N as [|? ? N1 N2]; subst. destruct (f a) eqn:FA; cbn [find].
  - tq; [subst; rewrite FA; reflexivity|]. apply IH, N2.
  - rewrite IH by exact N2. tq; [subst; rewrite FA; reflexivity|reflexivity].
Qed.
Lemma nodup_filter : forall f (l : pairs), NoDup (keys l) -> NoDup (keys (filter f l)).
Proof.
  induction l as [|(a, v) l IH]; intros N; [exact N|]. inversion N as [|? ? N1 N2]; subst. cbn [filter].
  destruct (f (a, v)); [|apply IH, N2]. cbn. constructor; [|apply IH, N2].
  intros I; apply N1. apply in_map_iff in I. destruct I as (p & E & I). apply filter_In in I. rewrite <- E. apply in_map, I.
Qed.
Lemma filter_all : forall {A} (f : A -> bool) l, forallb f l = true -> filter f l = l.
Proof. induction l as [|x l IH]; cbn; [reflexivity|]. intros H; apply Bool.andb_true_iff in H. destruct H as (-> & H). f_equal; auto. Qed.

(** ** Directory replies *)
Lemma dir_info_eq : forall b s new, new <> [] -> dir_info b s new =
    let '(l, c1) := set_all (rem s) new false in
    let '(l, c2) := drop_unlisted l new in
    let s' := mkI (loc s) l (published s) in
    (s', if b && (c1 || c2) then upd s' else []).
Proof. intros b s [|p new] N; [congruence|reflexivity]. Qed.
Lemma dir_info_ok : forall b s new s' u, NoDup (keys (rem s)) -> new <> [] -> dir_info b s new = (s', u) ->
  loc s' = loc s /\ published s' = published s /\ NoDup (keys (rem s')) /\ (forall x, find x (rem s') = said new x) /\
  (u = [] \/ u = upd s') /\ (b = true -> u = upd s' \/ s' = s).
Proof.
  intros b s new s' u N NE E. rewrite dir_info_eq in E by exact NE.
  destruct (set_all (rem s) new false) as (l1, c1) eqn:E1.
  destruct (set_all_ok _ _ _ _ _ N E1) as (N1 & F1 & C1).
  unfold drop_unlisted in E. injection E as <- <-. cbn [loc rem published].
  split; [reflexivity|]. split; [reflexivity|]. split; [apply nodup_filter, N1|]. split; [|split].
  - intros x. rewrite (find_filter (listed new)) by exact N1. rewrite F1.
    destruct (listed new x) eqn:L.
    + apply listed_said in L. destruct (said new x); congruence.
    + destruct (said new x) eqn:S; [|reflexivity]. assert (X : listed new x = true) by (apply listed_said; congruence). congruence.
  - destruct (b && _); auto.
  - intros ->. cbn [andb]. destruct c1; [left; reflexivity|]. cbn [orb].
    destruct (forallb (fun q => listed new (fst q)) l1) eqn:A; cbn [negb]; [|left; reflexivity].
    right. rewrite (filter_all _ _ A). destruct (C1 eq_refl) as (_ & ->). destruct s; reflexivity.
Qed.

(** ** What is shown *)
Lemma in_keys_find : forall k l, existsb (fun q => teq k (fst q)) l = match find k l with Some _ => true | None => false end.
Proof. induction l as [|(a, v) l IH]; cbn; [reflexivity|]. destruct (teq k a); cbn; auto. Qed.
Lemma shown_tells : forall s, NoDup (keys (loc s)) -> NoDup (keys (rem s)) -> tells (shown_info s) (set_info_get s).
Proof.
  intros s N1 N2; unfold shown_info, shown; cbn [local_info remote_info]. set (f := fun p : text * text => negb _). split.
  - rewrite map_app. change (map fst) with keys. pose proof (nodup_filter f (rem s) N2) as N3.
    assert (D : forall k, In k (keys (loc s)) -> In k (keys (filter f (rem s))) -> False).
    { intros k I J. apply in_map_iff in J. destruct J as (p & E & J). apply filter_In in J. destruct J as (_ & J).
      unfold f in J. rewrite E, in_keys_find in J. destruct (find k (loc s)) eqn:F; [discriminate|]. apply find_none in F; tauto. }
    revert D N1. generalize (keys (loc s)). induction l as [|k l IH]; intros D N1; [exact N3|].
    inversion N1; subst. cbn. constructor.
    + intros I; apply in_app_or in I. destruct I as [I|I]; [tauto|]. apply (D k); [left; reflexivity|exact I].
    + apply IH; [|assumption]. intros x I J; apply (D x); [right; exact I|exact J].
  - intros k v; rewrite in_app_iff, filter_In. unfold f; cbn [fst]. rewrite in_keys_find.
    unfold set_info_get. rewrite <- (find_in k v (loc s) N1), <- (find_in k v (rem s) N2).
    destruct (find k (loc s)) as [w|]; cbn [negb].
    + split; [intros [X|(_ & X)]; [exact X|discriminate]|left; assumption].
    + split; [intros [X|(X & _)]; [discriminate|exact X]|intros X; right; split; [exact X|reflexivity]].
Qed.
Lemma said_tells : forall l f, tells l f -> forall x, said l x = f x.
Proof.
  intros l f (N & T) x.
  assert (S : forall l, NoDup (keys l) -> said l x = find x l).
  { clear; induction l as [|(a, v) l IH]; intros N; [reflexivity|]. inversion N as [|? ? N1 N2]; subst. cbn [said find].
    rewrite IH by exact N2. unfold teq. destruct (list_eq_dec ascii_dec x a) as [->|NE].
    - apply find_none in N1. rewrite N1. reflexivity.
    - destruct (find x l); reflexivity. }
  rewrite S by exact N. destruct (f x) as [v|] eqn:F.
  - apply find_in; [exact N|]. apply T; exact F.
  - destruct (find x l) as [v|] eqn:E; [|reflexivity]. apply find_in in E; [|exact N]. apply T in E; congruence.
Qed.

(** ** The lookup message *)
Definition enc (t : text) : text := byte (zlen t + 1) :: t ++ [zero].
Lemma zlen_enc : forall t, zlen (enc t) = zlen t + 2.
Proof. intros; unfold enc; rewrite zlen_cons, zlen_app, zlen_cons, zlen_nil; lia. Qed.
Lemma put_name_ok : forall size m A t, holds m A -> short t -> zlen A + zlen (enc t) <= size ->
  exists m', put_name size m (zlen A) t = Some (m', zlen (A ++ enc t)) /\ holds m' (A ++ enc t).
Proof.
  intros size m A t H S L. rewrite zlen_enc in L. pose proof (zlen_nonneg t). unfold put_name.
  replace (zlen A + 1 + zlen t + 1 <=? size) with true by (symmetry; apply Z.leb_le; lia).
  rewrite Z.mod_small by (unfold short in S; lia).
  eexists; split; [f_equal; f_equal; rewrite zlen_app, zlen_enc; lia|].
  pose proof (write_all m A [byte (zlen t + 1)] [] H) as H1. rewrite app_nil_r in H1.
  replace (zlen A + 1) with (zlen (A ++ [byte (zlen t + 1)])) by (rewrite zlen_app, zlen_cons, zlen_nil; lia).
  unfold enc. replace (A ++ byte (zlen t + 1) :: t ++ [zero]) with ((A ++ [byte (zlen t + 1)]) ++ (t ++ [zero])) by (rewrite <- app_assoc; reflexivity).
  rewrite <- (app_nil_r (t ++ [zero])) at 1. apply write_all, H1.
Qed.
Lemma put_names_ok : forall size l m A, holds m A -> Forall short l -> zlen A + zlen (flat_map enc l) + 1 <= size ->
  exists m', put_names size m (zlen A) l = Some (m', zlen A + zlen (flat_map enc l) + 1) /\ holds m' (A ++ flat_map enc l ++ [zero]).
Proof.
  induction l as [|t l IH]; intros m A H F L; cbn [put_names flat_map] in *.
  - rewrite zlen_nil in *. replace (zlen A + 1 <=? size) with true by (symmetry; apply Z.leb_le; lia).
    eexists; split; [f_equal; f_equal; lia|]. cbn [app]. rewrite <- (app_nil_r [zero]) at 1. apply write_all, H.
  - inversion F as [|? ? F1 F2]; subst. rewrite zlen_app in *. pose proof (zlen_nonneg (flat_map enc l)).
    destruct (put_name_ok size m A t H F1) as (m1 & E1 & H1); [lia|]. rewrite E1.
    destruct (IH m1 (A ++ enc t) H1 F2) as (m2 & E2 & H2); [rewrite zlen_app; lia|].
    exists m2; split; [rewrite E2; f_equal; f_equal; rewrite zlen_app; lia|]. rewrite <- app_assoc. rewrite <- app_assoc in H2. exact H2.
Qed.

Lemma holds_at : forall m A c B, holds m (A ++ c :: B) -> m (zlen A) = c.
Proof.
  intros m A c B H. unfold zlen. rewrite H by (rewrite app_length; cbn; lia).
  rewrite app_nth2 by lia. rewrite Nat.sub_diag. reflexivity.
Qed.
Lemma cstr_ok : forall t fuel size m A B, plain t -> holds m (A ++ t ++ zero :: B) -> (List.length t < fuel)%nat ->
  zlen A + zlen t < size -> cstr fuel size m (zlen A) = Some t.
Proof.
  induction t as [|c t IH]; intros [|fuel] size m A B P H F L; cbn [List.length] in F; try lia; cbn [cstr].
  - rewrite zlen_nil in L. replace (zlen A <? size) with true by (symmetry; apply Z.ltb_lt; lia).
    cbn [app] in H. rewrite (holds_at _ _ _ _ H). rewrite Ascii.eqb_refl. reflexivity.
  - rewrite zlen_cons in L. pose proof (zlen_nonneg t). replace (zlen A <? size) with true by (symmetry; apply Z.ltb_lt; lia).
    cbn [app] in H. rewrite (holds_at _ _ _ _ H).
    destruct (Ascii.eqb_spec c zero) as [->|NE]; [exfalso; apply P; left; reflexivity|].
    replace (zlen A + 1) with (zlen (A ++ [c])) by (rewrite zlen_app, zlen_cons, zlen_nil; lia).
    rewrite (IH fuel size m (A ++ [c]) B); [reflexivity| | |lia|rewrite zlen_app, zlen_cons, zlen_nil; lia].
    + intros I; apply P; right; exact I.
    + rewrite <- app_assoc. exact H.
Qed.
Lemma len_ok : forall m A t B, short t -> holds m (A ++ enc t ++ B) -> len_at m (zlen A) = zlen t + 1.
Proof.
  intros m A t B S H. unfold len_at. unfold enc in H. cbn [app] in H. rewrite (holds_at _ _ _ _ H). unfold byte.
  pose proof (zlen_nonneg t). unfold short in S. rewrite Z.mod_small by lia.
  rewrite nat_ascii_embedding by lia. lia.
Qed.
Lemma str_ok : forall m A t B size, plain t -> holds m (A ++ enc t ++ B) -> size = zlen (A ++ enc t ++ B) ->
  cstr (Z.to_nat size) size m (zlen A + 1) = Some t.
Proof.
  intros m A t B size P H E. pose proof (zlen_nonneg B). pose proof (zlen_nonneg A). pose proof (zlen_nonneg t).
  rewrite !zlen_app, zlen_enc in E.
  replace (zlen A + 1) with (zlen (A ++ [byte (zlen t + 1)])) by (rewrite zlen_app, zlen_cons, zlen_nil; lia).
  apply (cstr_ok t _ _ _ _ B P).
  - rewrite <- app_assoc. unfold enc in H. cbn [app] in H |- *. rewrite <- app_assoc in H. exact H.
  - apply Nat2Z.inj_lt. rewrite Z2Nat.id by lia. unfold zlen in *. lia.
  - rewrite zlen_app, zlen_cons, zlen_nil. lia.
Qed.
Lemma get_pairs_ok : forall l fuel m A size, Forall (fun p => plain (fst p) /\ plain (snd p) /\ short (fst p) /\ short (snd p)) l ->
  holds m (A ++ flat_map enc (flat l) ++ [zero]) -> size = zlen (A ++ flat_map enc (flat l) ++ [zero]) ->
  (List.length l < fuel)%nat -> get_pairs fuel size m (zlen A) = Some l.
Proof.
  induction l as [|(k, v) l IH]; intros [|fuel] m A size F H E L; cbn [List.length] in L; try lia; cbn [get_pairs].
  - cbn [flat flat_map app] in *. rewrite zlen_app, zlen_cons, zlen_nil in E.
    replace (zlen A <? size) with true by (symmetry; apply Z.ltb_lt; lia). cbn [negb].
    unfold len_at. rewrite (holds_at _ _ _ _ H). reflexivity.
  - inversion F as [|? ? (P1 & P2 & S1 & S2) F2]; subst x l0. cbn [fst snd] in *.
    change (flat ((k, v) :: l)) with (k :: v :: flat l) in *. cbn [flat_map] in *.
    set (R := flat_map enc (flat l) ++ [zero]) in *.
    replace ((enc k ++ enc v ++ flat_map enc (flat l)) ++ [zero]) with (enc k ++ enc v ++ R) in * by (unfold R; rewrite <- !app_assoc; reflexivity).
    assert (ER : 1 <= zlen R) by (unfold R; rewrite zlen_app, zlen_cons, zlen_nil; pose proof (zlen_nonneg (flat_map enc (flat l))); lia).
    assert (E' : size = zlen A + (zlen k + 2) + (zlen v + 2) + zlen R) by (rewrite E, !zlen_app, !zlen_enc; lia).
    pose proof (zlen_nonneg k). pose proof (zlen_nonneg v).
    replace (zlen A <? size) with true by (symmetry; apply Z.ltb_lt; lia). cbn [negb].
    rewrite (len_ok m A k (enc v ++ R) S1 H).
    replace (zlen k + 1 =? 0) with false by (symmetry; apply Z.eqb_neq; lia).
    rewrite (str_ok m A k (enc v ++ R) size P1 H E).
    assert (H' : holds m ((A ++ enc k) ++ enc v ++ R)) by (rewrite <- app_assoc; exact H).
    replace (zlen A + 1 + (zlen k + 1)) with (zlen (A ++ enc k)) by (rewrite zlen_app, zlen_enc; lia).
    replace (zlen (A ++ enc k) <? size) with true by (symmetry; apply Z.ltb_lt; rewrite zlen_app, zlen_enc; lia). cbn [negb].
    rewrite (str_ok m (A ++ enc k) v R size P2 H') by (rewrite E, <- app_assoc; reflexivity).
    rewrite (len_ok m (A ++ enc k) v R S2 H').
    replace (zlen (A ++ enc k) + 1 + (zlen v + 1)) with (zlen ((A ++ enc k) ++ enc v)) by (rewrite zlen_app, zlen_enc; lia).
    unfold R in *. rewrite (IH fuel m ((A ++ enc k) ++ enc v) size); [reflexivity|exact F2| | |lia].
    + rewrite <- !app_assoc. exact H.
    + rewrite <- !app_assoc. exact E.
Qed.

Lemma size_flat : forall l, zlen (flat_map enc (flat l)) = zlen l * 2 + fold_right Z.add 0 (map (fun p => zlen (fst p) + zlen (snd p) + 2) l).
Proof.
  induction l as [|(k, v) l IH]; [reflexivity|]. change (flat ((k, v) :: l)) with (k :: v :: flat l).
  cbn [flat_map map fold_right fst snd]. rewrite !zlen_app, !zlen_enc, IH, zlen_cons. lia.
Qed.
Lemma msg_size_eq : forall sch inst l, msg_size sch inst l = zlen (enc sch ++ enc inst ++ flat_map enc (flat l) ++ [zero]).
Proof. intros; unfold msg_size; rewrite !zlen_app, !zlen_enc, size_flat, zlen_cons; change (@zlen ascii []) with 0; lia. Qed.
Lemma flat_length : forall l, Z.of_nat (List.length l) <= zlen (flat_map enc (flat l)).
Proof.
  induction l as [|(k, v) l IH]; [reflexivity|]. change (flat ((k, v) :: l)) with (k :: v :: flat l). cbn [flat_map List.length].
  rewrite !zlen_app, !zlen_enc. pose proof (zlen_nonneg k). pose proof (zlen_nonneg v). lia.
Qed.
Definition ok_pair (p : text * text) : Prop := plain (fst p) /\ plain (snd p) /\ short (fst p) /\ short (snd p).
Lemma lookup_roundtrip : forall sch inst s, plain sch -> plain inst -> short sch -> short inst -> Forall ok_pair (shown_info s) ->
  exists m size, lookup_msg sch inst s = Some (m, size) /\ size = msg_size sch inst (shown_info s) /\
  looked_up size m = Some (sch, inst, mkI [] (fst (set_all [] (shown_info s) false)) false).
Proof.
  intros sch inst s P1 P2 S1 S2 F. unfold lookup_msg. set (l := shown_info s) in *.
  assert (SH : Forall short (sch :: inst :: flat l)).
  { constructor; [exact S1|]. constructor; [exact S2|]. clear -F. induction F as [|(k, v) l (A & B & C & D) F IH]; [constructor|].
    change (flat ((k, v) :: l)) with (k :: v :: flat l). constructor; [exact C|]. constructor; [exact D|exact IH]. }
  destruct (put_names_ok (msg_size sch inst l) (sch :: inst :: flat l) (fun _ => zero) [] (holds_nil _) SH) as (m & E & H).
  { rewrite msg_size_eq. cbn [flat_map]. rewrite !zlen_app, zlen_cons. change (@zlen ascii []) with 0. lia. }
  cbn [app] in H. exists m, (msg_size sch inst l). split; [|split; [reflexivity|]].
  { rewrite zlen_nil in E. rewrite E. f_equal; f_equal. rewrite msg_size_eq. cbn [flat_map]. rewrite !zlen_app, zlen_cons. change (@zlen ascii []) with 0. lia. }
  set (size := msg_size sch inst l) in *. cbn [flat_map] in H. rewrite <- !app_assoc in H.
  assert (SZ : size = zlen (enc sch ++ enc inst ++ flat_map enc (flat l) ++ [zero])) by apply msg_size_eq.
  assert (SV : size = zlen sch + 2 + (zlen inst + 2) + zlen (flat_map enc (flat l)) + 1)
    by (rewrite SZ, !zlen_app, !zlen_enc, zlen_cons, zlen_nil; lia).
  pose proof (zlen_nonneg sch). pose proof (zlen_nonneg inst). pose proof (flat_length l).
  unfold looked_up. cbv zeta. replace (0 <? size) with true by (symmetry; apply Z.ltb_lt; lia). cbn [negb].
  assert (HH : holds m ([] ++ enc sch ++ enc inst ++ flat_map enc (flat l) ++ [zero])) by exact H.
  pose proof (len_ok m [] sch _ S1 HH) as LN. change (@zlen ascii []) with 0 in LN. rewrite !LN.
  replace (1 + (zlen sch + 1)) with (zlen (enc sch)) by (rewrite zlen_enc; lia).
  replace (zlen (enc sch) <? size) with true by (symmetry; apply Z.ltb_lt; rewrite zlen_enc; lia). cbn [negb].
  pose proof (str_ok m [] sch _ size P1 HH SZ) as LS. change (@zlen ascii [] + 1) with 1 in LS. rewrite LS.
  rewrite (str_ok m (enc sch) inst _ size P2 H SZ). rewrite (len_ok m (enc sch) inst _ S2 H).
  replace (zlen (enc sch) + 1 + (zlen inst + 1)) with (zlen (enc sch ++ enc inst)) by (rewrite zlen_app, !zlen_enc; lia).
  rewrite (get_pairs_ok l (Z.to_nat size) m (enc sch ++ enc inst) size F); [reflexivity| | |].
  - rewrite <- app_assoc; exact H.
  - rewrite <- app_assoc; exact SZ.
  - apply Nat2Z.inj_lt. rewrite Z2Nat.id by lia. lia.
Qed.
