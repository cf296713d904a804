(** Lemmas about the linked lists and the tables made of them. *)
From Verif Require Export M_Hash.
Local Open Scope N_scope.

Ltac sp := repeat match goal with |- _ /\ _ => split end.
Section Lists.
Context {P : Type}.
Implicit Types (s : bl P) (xs L : list (N * P)).

Lemma upd1_eq {A} (f : N -> A) i v : upd1 f i v i = v.
Proof. unfold upd1. now rewrite N.eqb_refl. Qed.
Lemma upd1_ne {A} (f : N -> A) i v j : j <> i -> upd1 f i v j = f j.
Proof. intros H. unfold upd1. now rewrite (proj2 (N.eqb_neq _ _) H). Qed.

(** From location [l] holding [a], the entries are [xs]. *)
Fixpoint chain s (l : loc) (a : N) xs : Prop :=
  match xs with
  | [] => a = 0
  | (x, d) :: xs => a = x /\ x <> 0 /\ exists e, en s x = Some e /\ pv e = l /\ dat e = d /\ chain s (Next x) (nx e) xs
  end.
Definition islist s (h : N) xs : Prop := chain s (Head h) (hd1 s h) xs.
Definition addrs xs : list N := map fst xs.

Lemma chain_frame s s' xs : forall l a, (forall x, In x (addrs xs) -> en s' x = en s x) -> chain s l a xs -> chain s' l a xs.
Proof.
  induction xs as [|[x d] xs IH]; intros l a H C; [exact C|]. cbn [chain addrs map fst] in *. destruct C as (-> & Hx & e & E1 & E2 & E3 & C).
  split; [reflexivity|]. split; [exact Hx|]. exists e. rewrite H by now left. split; [exact E1|]. split; [exact E2|]. split; [exact E3|].
  apply IH; [|exact C]. intros y Hy. apply H. now right.
Qed.
Lemma chain_pos s xs : forall l a, chain s l a xs -> ~ In 0 (addrs xs).
Proof.
  induction xs as [|[x d] xs IH]; intros l a C; [intros []|]. cbn [chain addrs map fst] in *. destruct C as (_ & Hx & e & _ & _ & _ & C). intros [H|H]; [now apply Hx|]. exact (IH _ _ C H).
Qed.
Lemma chain_in s xs : forall l a x d, chain s l a xs -> In (x, d) xs -> x <> 0 /\ exists e, en s x = Some e /\ dat e = d.
Proof.
  induction xs as [|[y c] xs IH]; intros l a x d C Hin; [destruct Hin|]. cbn [chain] in C. destruct C as (_ & Hy & e & E1 & _ & E3 & C).
  destruct Hin as [E|Hin]; [|eauto]. injection E as -> ->. split; [exact Hy|]. now exists e.
Qed.

Lemma walk_ok s f xs : forall l a fuel, chain s l a xs -> (length xs < fuel)%nat ->
  walk fuel s f a = Some match find (fun x => f (snd x)) xs with Some x => fst x | None => 0 end.
Proof.
  induction xs as [|[x d] xs IH]; intros l a fuel C Hf; (destruct fuel as [|fuel]; [cbn in Hf; lia|]); cbn [chain walk] in *.
  - subst a. reflexivity.
  - destruct C as (-> & Hx & e & E1 & E2 & <- & C). rewrite (proj2 (N.eqb_neq _ _) Hx), E1. cbn [find snd]. destruct (f (dat e)); [reflexivity|]. eapply IH; [exact C|cbn in Hf; lia].
Qed.

(** LIST_INSERT_HEAD *)
Lemma insert_ok s h a e xs : islist s h xs -> en s a = Some e -> a <> 0 -> ~ In a (addrs xs) -> NoDup (addrs xs) ->
  exists s', list_insert_head s h a = Some s' /\ islist s' h ((a, dat e) :: xs) /\
    (forall h', h' <> h -> hd1 s' h' = hd1 s h') /\ (forall x, x <> a -> ~ In x (addrs xs) -> en s' x = en s x).
Proof.
  intros H Ea Ha Hn HD. unfold list_insert_head, set_nx. rewrite Ea. cbn [bnd hd1 en].
  unfold islist in H. destruct xs as [|[x d] xs].
  - cbn [chain] in H. rewrite H. cbn [N.eqb bnd]. unfold set_pv, set_hd. cbn [hd1 en]. rewrite upd1_eq. eexists. split; [reflexivity|]. cbn [hd1 en nx dat]. split; [|split].
    + unfold islist. cbn [chain hd1 en]. rewrite !upd1_eq. split; [reflexivity|]. split; [exact Ha|]. eexists. split; [reflexivity|]. repeat split.
    + intros h' Hh. now apply upd1_ne.
    + intros y Hy _. now rewrite !upd1_ne by exact Hy.
  - cbn [chain addrs map fst] in *. destruct H as (E & Hx & e1 & E1 & E2 & E3 & C). rewrite E, (proj2 (N.eqb_neq _ _) Hx).
    assert (Hxa : x <> a) by (intros ->; apply Hn; now left). unfold set_pv, set_hd. cbn [hd1 en bnd]. rewrite upd1_ne by exact Hxa. rewrite E1. cbn [bnd hd1 en].
    rewrite (upd1_ne _ x) by (intros ->; now apply Hxa). rewrite upd1_eq. eexists. split; [reflexivity|]. cbn [hd1 en nx dat]. split; [|split].
    + unfold islist. cbn [chain hd1 en]. rewrite !upd1_eq. split; [reflexivity|]. split; [exact Ha|]. eexists. split; [reflexivity|]. cbn [pv dat nx]. split; [reflexivity|]. split; [reflexivity|].
      split; [reflexivity|]. split; [exact Hx|]. rewrite upd1_ne by exact Hxa. rewrite upd1_eq. eexists. split; [reflexivity|]. cbn [pv dat nx]. split; [reflexivity|]. split; [exact E3|].
      eapply chain_frame; [|exact C]. intros y Hy. cbn [en].
      assert (Hya : y <> a) by (intros ->; apply Hn; now right).
      rewrite upd1_ne by exact Hya. destruct (N.eq_dec y x) as [->|Hyx].
      * exfalso. inversion HD; contradiction.
      * rewrite !upd1_ne by assumption. reflexivity.
    + intros h' Hh. now apply upd1_ne.
    + intros y Hy Hny. rewrite !upd1_ne; try assumption; try reflexivity. intros ->. apply Hny. now left.
Qed.

(** LIST_REMOVE *)
Definition lv s (l : loc) : option N := match l with Head h => Some (hd1 s h) | Next x => option_map nx (en s x) end.
Lemma remove_chain s a d ys xs : forall l p, chain s l p (xs ++ (a, d) :: ys) -> NoDup (addrs (xs ++ (a, d) :: ys)) -> lv s l = Some p ->
  (forall x, l = Next x -> ~ In x (addrs (xs ++ (a, d) :: ys))) ->
  exists s' p', list_remove s a = Some s' /\ lv s' l = Some p' /\ chain s' l p' (xs ++ ys) /\
    (forall h, l <> Head h -> hd1 s' h = hd1 s h) /\
    (forall x e, l = Next x -> en s x = Some e -> exists n, en s' x = Some (mkEnt n (pv e) (dat e))) /\
    en s' a = en s a /\
    (forall x, l <> Next x -> ~ In x (addrs (xs ++ ys)) -> en s' x = en s x).
Proof.
  induction xs as [|[x c] xs IH]; intros l p C HD Hl Hn.
  - cbn [app chain addrs map fst] in *. destruct C as (-> & Ha & e & Ea & El & Ed & C).
    assert (Hna : l <> Next a) by (intros ->; apply (Hn a eq_refl); now left).
    unfold list_remove. rewrite Ea. cbn [bnd]. destruct ys as [|[y c] ys].
    + cbn [chain] in C. rewrite C. cbn [N.eqb bnd]. rewrite El. destruct l as [h|x]; cbn [set_loc].
      * exists (set_hd s h 0), 0. split; [reflexivity|]. cbn [lv set_hd hd1 en chain]. rewrite upd1_eq. sp; try reflexivity.
        -- intros h' Hh. apply upd1_ne. congruence.
        -- intros x e0 E. discriminate.
        -- exact Ea.
      * cbn [lv] in Hl. destruct (en s x) as [ex|] eqn:Ex; [|discriminate]. unfold set_nx. rewrite Ex. eexists _, 0. split; [reflexivity|]. cbn [lv en hd1 chain]. rewrite upd1_eq. cbn [option_map nx]. sp; try reflexivity.
        -- intros x0 e0 E. injection E as <-. rewrite Ex. intros E. injection E as <-. rewrite upd1_eq. now eexists.
        -- rewrite upd1_ne; [exact Ea|congruence].
        -- intros x0 H _. rewrite upd1_ne; [reflexivity|congruence].
    + cbn [chain] in C. destruct C as (Ey & Hy & ey & Eey & E2 & E3 & C). rewrite Ey, (proj2 (N.eqb_neq _ _) Hy). unfold set_pv. rewrite Eey. cbn [bnd].
      cbn [map fst] in HD. apply (proj1 (NoDup_cons_iff _ _)) in HD as [HD1 HD]. apply (proj1 (NoDup_cons_iff _ _)) in HD as [HD2 HD].
      rewrite El.
      assert (Hny : l <> Next y) by (intros ->; apply (Hn y eq_refl); right; now left).
      assert (Hya : y <> a) by (intros ->; apply HD1; now left).
      destruct l as [h|x]; cbn [set_loc].
      * eexists _, y. split; [reflexivity|]. cbn [lv set_hd hd1 en chain]. rewrite !upd1_eq. sp; try reflexivity; try assumption.
        -- eexists. split; [reflexivity|]. cbn [pv dat nx]. sp; try reflexivity; try assumption. eapply chain_frame; [|exact C]. intros z Hz. cbn [en set_hd]. rewrite upd1_ne; [reflexivity|]. intros ->. contradiction.
        -- intros h' Hh. apply upd1_ne. congruence.
        -- intros x e0 E. discriminate.
        -- rewrite upd1_ne; [exact Ea|congruence].
        -- intros x _ Hx. rewrite upd1_ne; [reflexivity|]. intros ->. apply Hx. now left.
      * cbn [lv] in Hl. destruct (en s x) as [ex|] eqn:Ex; [|discriminate]. assert (Hxy : x <> y) by congruence. unfold set_nx. cbn [en hd1]. rewrite upd1_ne by exact Hxy. rewrite Ex. eexists _, y. split; [reflexivity|].
        cbn [lv en hd1 chain]. rewrite upd1_eq. cbn [option_map nx]. sp; try reflexivity; try assumption.
        -- rewrite upd1_ne by congruence. rewrite upd1_eq. eexists. split; [reflexivity|]. cbn [pv dat nx]. sp; try reflexivity; try assumption. eapply chain_frame; [|exact C]. intros z Hz. cbn [en set_hd].
           rewrite !upd1_ne; [reflexivity| |]; intros ->; [contradiction|]. apply (Hn x eq_refl). right. now right.
        -- intros x0 e0 E. injection E as <-. rewrite Ex. intros E. injection E as <-. rewrite upd1_eq. now eexists.
        -- rewrite !upd1_ne; [exact Ea|congruence|congruence].
        -- intros z Hz Hnz. rewrite !upd1_ne; [reflexivity| |congruence]. intros ->. apply Hnz. now left.
  - cbn [app chain addrs map fst] in C, HD, Hn. destruct C as (-> & Hx & ex & Ex & E2 & E3 & C). apply (proj1 (NoDup_cons_iff _ _)) in HD as [HD1 HD].
    destruct (IH (Next x) (nx ex) C HD) as (s' & p' & R1 & R2 & R3 & R4 & R5 & R6 & R7).
    { cbn [lv]. now rewrite Ex. }
    { intros x0 E. injection E as <-. exact HD1. }
    destruct (R5 x ex eq_refl Ex) as (n & En). cbn [lv] in R2. rewrite En in R2. cbn [option_map nx] in R2. injection R2 as ->.
    assert (Hsub : forall z, In z (addrs (xs ++ ys)) -> In z (addrs (xs ++ (a, d) :: ys))).
    { intros z. unfold addrs. rewrite !map_app, !in_app_iff. cbn [map fst]. intros [H|H]; [now left|right; now right]. }
    exists s', x. split; [exact R1|]. cbn [app chain addrs map fst].
    assert (Hl' : lv s' l = Some x).
    { destruct l as [h|y]; cbn [lv] in *; [now rewrite R4 by discriminate|]. rewrite R7; [exact Hl| |].
      - intros E. injection E as ->. apply (Hn y eq_refl). now left.
      - intros Hy. apply (Hn y eq_refl). right. now apply Hsub. }
    sp; try reflexivity; try assumption.
    + eexists. split; [exact En|]. cbn [pv dat nx]. now sp.
    + intros h _. apply R4. discriminate.
    + intros y e -> Ey. exists (nx e). destruct e as [n1 p1 d1]. cbn [nx pv dat]. rewrite <- Ey. apply R7.
      * intros E. injection E as ->. apply (Hn y eq_refl). now left.
      * intros Hy. apply (Hn y eq_refl). right. now apply Hsub.
    + intros z Hz Hnz. apply R7; [|intros H; apply Hnz; now right]. intros E. injection E as ->. apply Hnz. now left.
Qed.
Lemma remove_ok s h a d xs ys : islist s h (xs ++ (a, d) :: ys) -> NoDup (addrs (xs ++ (a, d) :: ys)) ->
  exists s', list_remove s a = Some s' /\ islist s' h (xs ++ ys) /\ (forall h', h' <> h -> hd1 s' h' = hd1 s h') /\
    en s' a = en s a /\ (forall x, ~ In x (addrs (xs ++ ys)) -> en s' x = en s x).
Proof.
  intros C HD. destruct (remove_chain s a d ys xs (Head h) (hd1 s h) C HD eq_refl) as (s' & p' & R1 & R2 & R3 & R4 & _ & R6 & R7).
  { discriminate. }
  cbn [lv] in R2. injection R2 as <-. exists s'. sp; try assumption.
  - intros h' Hh. apply R4. congruence.
  - intros x Hx. apply R7; [discriminate|exact Hx].
Qed.

(** ** A table: the entries, the last inserted first, are spread over the lists *)
Variable bk : P -> N.
Definition inb (h : N) (x : N * P) : bool := bk (snd x) =? h.
Record table s L : Prop := mkTable {
  tb_nodup : NoDup (addrs L);
  tb_lists : forall h, islist s h (filter (inb h) L) }.

Lemma addrs_in L a : In a (addrs L) <-> exists d, In (a, d) L.
Proof.
  unfold addrs. rewrite in_map_iff. split.
  - intros ([x d] & E & H). cbn [fst] in E. subst x. now exists d.
  - intros (d & H). now exists (a, d).
Qed.
Lemma addrs_filter f L a : In a (addrs (filter f L)) -> In a (addrs L).
Proof. rewrite !addrs_in. intros (d & H). apply filter_In in H as [H _]. now exists d. Qed.
Lemma nodup_filter f L : NoDup (addrs L) -> NoDup (addrs (filter f L)).
Proof.
  induction L as [|x L IH]; intros H; [constructor|]. cbn [filter addrs map] in *. apply (proj1 (NoDup_cons_iff _ _)) in H as [H1 H2]. destruct (f x); [|auto].
  cbn [map]. constructor; [|auto]. intros H. apply H1. now apply addrs_filter in H.
Qed.
Lemma table_in s L a d : table s L -> In (a, d) L -> a <> 0 /\ exists e, en s a = Some e /\ dat e = d.
Proof. intros [_ H] Hin. eapply chain_in; [exact (H (bk d))|]. apply filter_In. split; [exact Hin|]. apply N.eqb_refl. Qed.
Lemma addrs_same L a d d' : NoDup (addrs L) -> In (a, d) L -> In (a, d') L -> d = d'.
Proof.
  induction L as [|[x c] L IH]; intros H H1 H2; [destruct H1|]. cbn [addrs map fst] in H. apply (proj1 (NoDup_cons_iff _ _)) in H as [H3 H4].
  destruct H1 as [E1|H1], H2 as [E2|H2].
  - congruence.
  - injection E1 as -> ->. elim H3. apply addrs_in. now exists d'.
  - injection E2 as -> ->. elim H3. apply addrs_in. now exists d.
  - auto.
Qed.
Lemma other_list L h h' a : NoDup (addrs L) -> h <> h' -> In a (addrs (filter (inb h) L)) -> ~ In a (addrs (filter (inb h') L)).
Proof.
  intros HD Hh H H'. apply addrs_in in H as (d & H). apply addrs_in in H' as (d' & H'). apply filter_In in H as [H E]. apply filter_In in H' as [H' E'].
  rewrite (addrs_same L a d d' HD H H') in E. unfold inb in *. cbn [snd] in *. lia.
Qed.
Lemma table_empty m : table (mkBl (fun _ => 0) m) [].
Proof. split; [constructor|]. intros h. reflexivity. Qed.
Lemma table_frame s s' L : table s L -> (forall h, hd1 s' h = hd1 s h) -> (forall x, In x (addrs L) -> en s' x = en s x) -> table s' L.
Proof.
  intros [H1 H2] Hh He. split; [exact H1|]. intros h. unfold islist. rewrite Hh. eapply chain_frame; [|apply H2]. intros x Hx. apply He. now apply addrs_filter in Hx.
Qed.
Lemma filter_len f L : (length (filter f L) <= length L)%nat.
Proof. induction L as [|x L IH]; [cbn; lia|]. cbn [filter]. destruct (f x); cbn [length]; lia. Qed.
Lemma find_filter f g L : find f (filter g L) = find (fun x => g x && f x) L.
Proof. induction L as [|x L IH]; [reflexivity|]. cbn [filter find]. destruct (g x); cbn [find andb]; [destruct (f x); auto|exact IH]. Qed.
Lemma foreach_ok s L f h fuel : table s L -> (length L < fuel)%nat ->
  foreach fuel s f h = Some match find (fun x => inb h x && f (snd x)) L with Some x => fst x | None => 0 end.
Proof.
  intros [_ H] Hf. unfold foreach. rewrite (walk_ok s f _ _ _ fuel (H h)); [now rewrite find_filter|]. pose proof (filter_len (inb h) L). lia.
Qed.
Lemma table_insert s L a e : table s L -> en s a = Some e -> a <> 0 -> ~ In a (addrs L) ->
  exists s', list_insert_head s (bk (dat e)) a = Some s' /\ table s' ((a, dat e) :: L) /\ (forall x, x <> a -> ~ In x (addrs L) -> en s' x = en s x).
Proof.
  intros [HD HL] Ea Ha Hn. set (h := bk (dat e)).
  destruct (insert_ok s h a e _ (HL h) Ea Ha) as (s' & E & I & F1 & F2).
  { intros H. apply Hn. now apply addrs_filter in H. }
  { now apply nodup_filter. }
  exists s'. split; [exact E|]. split.
  - split; [cbn [addrs map fst]; now constructor|]. intros h'. cbn [filter]. unfold inb at 1. cbn [snd]. fold h. destruct (N.eqb_spec h h') as [<-|Hh]; [exact I|].
    unfold islist. rewrite F1 by congruence. eapply chain_frame; [|apply HL]. intros x Hx. apply F2.
    + intros ->. apply Hn. now apply addrs_filter in Hx.
    + apply (other_list L h'); auto.
  - intros x Hx Hnx. apply F2; [exact Hx|]. intros H. apply Hnx. now apply addrs_filter in H.
Qed.
Lemma table_remove s L1 a d L2 : table s (L1 ++ (a, d) :: L2) ->
  exists s', list_remove s a = Some s' /\ table s' (L1 ++ L2) /\ en s' a = en s a /\ (forall x, ~ In x (addrs (L1 ++ L2)) -> en s' x = en s x).
Proof.
  intros [HD HL]. set (h := bk d).
  assert (Eh : inb h (a, d) = true) by apply N.eqb_refl.
  assert (HI := HL h). rewrite filter_app in HI. cbn [filter] in HI. rewrite Eh in HI.
  assert (HD' := nodup_filter (inb h) _ HD). rewrite filter_app in HD'. cbn [filter] in HD'. rewrite Eh in HD'.
  destruct (remove_ok s h a d _ _ HI HD') as (s' & E & I & F1 & F2 & F3).
  assert (HD2 : NoDup (addrs (L1 ++ L2))).
  { unfold addrs in *. rewrite map_app in *. cbn [map] in HD. now apply NoDup_remove_1 in HD. }
  exists s'. split; [exact E|]. split; [|split; [exact F2|]].
  - split; [exact HD2|]. intros h'. destruct (N.eq_dec h' h) as [->|Hh]; [now rewrite filter_app|].
    unfold islist. rewrite F1 by exact Hh.
    assert (Ef : filter (inb h') (L1 ++ L2) = filter (inb h') (L1 ++ (a, d) :: L2)).
    { rewrite !filter_app. cbn [filter]. unfold inb at 4. cbn [snd]. fold h. now rewrite (proj2 (N.eqb_neq h h')) by congruence. }
    rewrite Ef. eapply chain_frame; [|apply HL]. intros x Hx. apply F3. rewrite <- filter_app. rewrite <- Ef in Hx. apply (other_list (L1 ++ L2) h'); auto.
  - intros x Hx. apply F3. rewrite <- filter_app. intros H. apply Hx. now apply addrs_filter in H.
Qed.
Lemma table_drop s L a : table s L -> ~ In a (addrs L) -> en s a <> None -> exists s', drop s a = Some s' /\ table s' L /\ (forall x, x <> a -> en s' x = en s x) /\ en s' a = None.
Proof.
  intros H Hn Ha. unfold drop. destruct (en s a); [|congruence]. eexists. split; [reflexivity|]. split; [|split].
  - eapply table_frame; [exact H|reflexivity|]. intros x Hx. cbn [en]. apply upd1_ne. intros ->. contradiction.
  - intros x Hx. cbn [en]. now apply upd1_ne.
  - cbn [en]. apply upd1_eq.
Qed.
Lemma table_put s L a e : table s L -> ~ In a (addrs L) -> table (put s a e) L /\ en (put s a e) a = Some e /\ (forall x, x <> a -> en (put s a e) x = en s x).
Proof.
  intros H Hn. split; [|split].
  - eapply table_frame; [exact H|reflexivity|]. intros x Hx. cbn [put en]. apply upd1_ne. intros ->. contradiction.
  - cbn [put en]. apply upd1_eq.
  - intros x Hx. cbn [put en]. now apply upd1_ne.
Qed.
End Lists.
