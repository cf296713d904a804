(** C39: deleted sets are reclaimed. *)
From Verif Require Import S_Reap.
From Coq Require Import Lia.
Local Open Scope Z_scope.

Lemma look_spec f l : (length l < f)%nat -> look_loop f l = Some (existsb (fun b => b) l).
Proof.
  revert l. induction f as [|f IH]; intros l H; [lia|]. cbn [look_loop]. destruct l as [|c l]; [reflexivity|]. cbn [length] in H.
  destruct c; [reflexivity|]. cbn [existsb]. apply IH. lia.
Qed.
Lemma push_spec f l b : push_loop f l = Some b -> b = match l with [] => false | c :: _ => true end /\ match l with [] => True | c :: _ => c = true end.
Proof.
  induction f as [|f IH]; [discriminate|]. cbn [push_loop]. destruct l as [|[|] l]; [intros H; injection H as <-; auto|intros H; injection H as <-; auto|exact IH].
Qed.
Lemma exb l : existsb (fun b => b) l = true <-> In true l.
Proof. rewrite existsb_exists. split; [intros (x & H & ->); exact H|intros H; exists true; auto]. Qed.

(** A set that is destroyed had no connected peer and its grace period was over. *)
Lemma pass_in f t n up r d : pass f t n up = Some r -> In d r -> In d up /\ expired t n d /\ apart d.
Proof.
  revert r. induction up as [|e up IH]; intros r; cbn [pass]; [intros H; injection H as <-; intros []|].
  destruct (Z.ltb_spec (n - del_time e) t) as [HT|HT]; [intros H; injection H as <-; intros []|].
  destruct (look_loop f (lookers e)) as [[|]|] eqn:EL; [|..|discriminate].
  - intros H Hd. destruct (IH _ H Hd) as (A & B). split; [now right|exact B].
  - destruct (push_loop f (pushers e)) as [[|]|] eqn:EP; [|..|discriminate].
    + intros H Hd. destruct (IH _ H Hd) as (A & B). split; [now right|exact B].
    + destruct (pass f t n up) as [r'|] eqn:E; [|discriminate]. intros H. injection H as <-. intros [<-|Hd]; [|destruct (IH _ eq_refl Hd) as (A & B); split; [now right|exact B]].
      split; [now left|]. split; [unfold expired; lia|]. split.
      * clear -EL. revert EL. generalize (lookers e). induction f as [|f IH]; [discriminate|]. intros l. cbn [look_loop]. destruct l as [|[|] l]; [auto|discriminate|].
        intros H [Q|Q]; [discriminate|exact (IH l H Q)].
      * apply push_spec in EP as [EP _]. destruct (pushers e); [auto|discriminate].
Qed.
Theorem reap_not_early fuel timeout now l l' d : reap fuel timeout now l = Some l' -> In d l -> ~ In d l' ->
  tree l -> expired timeout now d /\ apart d.
Proof.
  unfold reap. destruct (pass fuel timeout now (rev l)) as [r|] eqn:E; [|discriminate]. intros H Hd Hn HT. injection H as <-.
  destruct (existsb (fun x => addr x =? addr d) r) eqn:EX.
  - apply existsb_exists in EX as (x & Hx & Ha). apply Z.eqb_eq in Ha. destruct (pass_in _ _ _ _ _ _ E Hx) as (A & B). apply in_rev in A.
    assert (x = d) as ->; [|exact B]. clear -A Hd Ha HT. induction HT as [|y l HT IH HF]; [destruct A|]. rewrite Forall_forall in HF.
    destruct A as [->|A], Hd as [->|Hd]; [reflexivity|specialize (HF _ Hd); lia|specialize (HF _ A); lia|auto].
  - destruct Hn. apply filter_In. split; [exact Hd|]. now rewrite EX.
Qed.
(** Nothing else changes. *)
Theorem reap_rest fuel timeout now l l' d : reap fuel timeout now l = Some l' -> In d l' -> In d l.
Proof.
  unfold reap. destruct (pass fuel timeout now (rev l)) as [r|]; [|discriminate]. intros H. injection H as <-. intros Hd. now apply filter_In in Hd.
Qed.

(** The pass comes to an end, if a set that is pushed to a peer is pushed to one that
    is connected and comes first; then exactly those sets are reclaimed whose grace
    period is over, that have no connected peer, and of which every set at a higher
    address is over its grace period too. *)
Definition first_connected (d : dset) : Prop := match pushers d with [] => True | c :: _ => c = true end.
Lemma pass_exact f t n up : enough f up -> (forall d, In d up -> first_connected d) ->
  exists r, pass f t n up = Some r /\
    (forall d l1 l2, up = l1 ++ d :: l2 -> (forall e, In e l1 -> expired t n e) -> expired t n d -> apart d -> In d r) /\
    (forall d, In d r -> exists l1 l2, up = l1 ++ d :: l2 /\ (forall e, In e l1 -> expired t n e)).
Proof.
  unfold enough, expired. induction up as [|e up IH]; intros HE HF.
  - exists []. split; [reflexivity|]. split; [intros d [|? ?] l2 Q; discriminate|intros d []].
  - destruct IH as (r & E & H1 & H2); [intros d Hd; apply HE; now right|intros d Hd; apply HF; now right|].
    specialize (HE e (or_introl eq_refl)) as [HL Hf]. specialize (HF e (or_introl eq_refl)) as HFe. cbn [pass].
    destruct (Z.ltb_spec (n - del_time e) t) as [HT|HT].
    { exists []. split; [reflexivity|]. split; [|intros d []]. intros d l1 l2 Q HB HX _. destruct l1 as [|y l1]; injection Q as <- _; [lia|].
      specialize (HB e (or_introl eq_refl)). lia. }
    assert (SK : forall d l1 l2, e :: up = l1 ++ d :: l2 -> (forall x, In x l1 -> t <= n - del_time x) -> t <= n - del_time d -> apart d -> d <> e -> In d r).
    { intros d [|y l1] l2 Q HB HX HA HN; injection Q as -> Q; [congruence|]. apply (H1 d l1 l2 Q); [|exact HX|exact HA]. intros x Hx. apply HB. now right. }
    assert (SK2 : forall d, In d r -> exists l1 l2, e :: up = l1 ++ d :: l2 /\ (forall x, In x l1 -> t <= n - del_time x)).
    { intros d Hd. destruct (H2 d Hd) as (l1 & l2 & -> & HB). exists (e :: l1), l2. split; [reflexivity|]. intros x [<-|Hx]; [lia|exact (HB x Hx)]. }
    rewrite look_spec by exact HL. destruct (existsb (fun b => b) (lookers e)) eqn:EL.
    { apply exb in EL. exists r. split; [exact E|]. split; [|exact SK2]. intros d l1 l2 Q HB HX HA. apply (SK d l1 l2 Q HB HX HA). intros ->. destruct HA as [HA _]. auto. }
    unfold first_connected in HFe. destruct f as [|[|f]]; [lia|lia|]. destruct (pushers e) as [|c q] eqn:EP.
    + cbn [push_loop]. rewrite E. exists (e :: r). split; [reflexivity|]. split.
      * intros d [|y l1] l2 Q HB HX HA; injection Q as -> Q; [now left|]. right. apply (H1 d l1 l2 Q); [|exact HX|exact HA]. intros x Hx. apply HB. now right.
      * intros d [<-|Hd]; [exists [], up; split; [reflexivity|intros x []]|exact (SK2 d Hd)].
    + subst c. cbn [push_loop]. exists r. split; [exact E|]. split; [|exact SK2]. intros d l1 l2 Q HB HX HA. apply (SK d l1 l2 Q HB HX HA). intros ->.
      destruct HA as [_ HA]. rewrite EP in HA. apply HA. now left.
Qed.
Theorem reap_partial fuel timeout now l : tree l -> enough fuel l -> (forall d, In d l -> first_connected d) ->
  exists l', reap fuel timeout now l = Some l' /\
  forall d, In d l -> (~ In d l' <-> expired timeout now d /\ apart d /\ forall e, In e l -> addr d < addr e -> expired timeout now e).
Proof.
  intros HT HE HF. unfold reap. destruct (pass_exact fuel timeout now (rev l)) as (r & E & H1 & H2).
  { intros d Hd. apply HE. now apply in_rev. } { intros d Hd. apply HF. now apply in_rev. }
  rewrite E. eexists. split; [reflexivity|]. intros d Hd.
  assert (UN : forall x y, In x l -> In y l -> addr x = addr y -> x = y).
  { clear -HT. induction HT as [|z l HT IH HF]; [intros x y []|]. rewrite Forall_forall in HF. intros x y [->|Hx] [->|Hy] Q;
      [reflexivity|specialize (HF _ Hy); lia|specialize (HF _ Hx); lia|auto]. }
  assert (IR : ~ In d (filter (fun e => negb (existsb (fun x => addr x =? addr e) r)) l) <-> In d r).
  { rewrite filter_In. split.
    - intros Q. destruct (existsb (fun x => addr x =? addr d) r) eqn:EX; [|destruct Q; auto]. apply existsb_exists in EX as (x & Hx & Ha). apply Z.eqb_eq in Ha.
      rewrite <- (UN x d); [exact Hx| |exact Hd|exact Ha]. destruct (H2 x Hx) as (l1 & l2 & Q2 & _). apply in_rev. rewrite Q2. apply in_app_iff. right. now left.
    - intros Q [_ Q2]. rewrite negb_true_iff in Q2. assert (existsb (fun x => addr x =? addr d) r = true); [|congruence].
      apply existsb_exists. exists d. split; [exact Q|apply Z.eqb_refl]. }
  rewrite IR. clear IR. split.
  - intros Q. destruct (pass_in _ _ _ _ _ _ E Q) as (_ & A & B). split; [exact A|]. split; [exact B|]. intros e He Ha.
    destruct (H2 d Q) as (l1 & l2 & Q2 & HB). apply HB. apply in_rev in He. rewrite Q2 in He. apply in_app_iff in He as [He|[<-|He]]; [exact He|lia|].
    exfalso. assert (l = rev l2 ++ d :: rev l1) as El. { rewrite <- (rev_involutive l), Q2, rev_app_distr. cbn [rev]. now rewrite <- app_assoc. }
    clear -El HT He Ha. subst l. induction (rev l2) as [|z q IH] eqn:EQ in l2, HT, He, Ha |- *.
    { apply (f_equal (@rev _)) in EQ. rewrite rev_involutive in EQ. subst l2. destruct He. }
    apply in_rev in He. rewrite EQ in He. destruct He as [->|He].
    + inversion_clear HT. rewrite Forall_forall in H0. specialize (H0 d ltac:(apply in_app_iff; right; now left)). lia.
    + inversion_clear HT. apply (IH (rev q)); [now rewrite rev_involutive|exact H|now apply -> in_rev|exact Ha].
  - intros (A & B & C). apply in_rev in Hd as Hd'. apply in_split in Hd' as (l1 & l2 & Q). apply (H1 d l1 l2 Q); [|exact A|exact B].
    intros e He. apply C; [apply in_rev; rewrite Q; apply in_app_iff; now left|].
    assert (l = rev l2 ++ d :: rev l1) as El. { rewrite <- (rev_involutive l), Q, rev_app_distr. cbn [rev]. now rewrite <- app_assoc. }
    clear -El HT He. subst l. induction (rev l2) as [|z q IH]; cbn [app] in HT; inversion_clear HT; [|auto].
    rewrite Forall_forall in H0. apply H0. now apply -> in_rev.
Qed.
(** Three sets, the oldest and the one in the middle are reclaimed, the third has a
    connected peer. *)
Definition tree3 := [mkD 10 0 1 [] []; mkD 20 30 2 [false] []; mkD 30 20 1 [false; true] []].
Example reap_ex : tree tree3 /\ enough 3 tree3 /\ reap 3 60 100 tree3 = Some [mkD 30 20 1 [false; true] []] /\
  (forall d, In d tree3 -> first_connected d).
Proof.
  split; [repeat constructor; cbn; lia|]. split; [intros d [<-|[<-|[<-|[]]]]; cbn; lia|]. split; [reflexivity|].
  intros d [<-|[<-|[<-|[]]]]; exact I.
Qed.

(** An expired set without peers stays, because a younger one has a higher address. *)
Theorem reap_blocked_refuted : exists l d, tree l /\ In d l /\ expired 60 1000 d /\ lookers d = [] /\ pushers d = [] /\
  reap 3 60 1000 l = Some l.
Proof. exists [mkD 10 0 1 [] []; mkD 20 990 1 [] []], (mkD 10 0 1 [] []). split; [repeat constructor; cbn; lia|]. split; [now left|]. split; [unfold expired; cbn; lia|]. repeat split. Qed.
(** For ever: a set deleted at 0 is not reclaimed by any pass, if before each pass a set
    is deleted at a higher address, and released before the next. *)
Fixpoint busy (n : nat) (l : list dset) : option (list dset) :=
  match n with
  | O => Some l
  | S m => match busy m l with
           | Some l => let now := 15 * Z.of_nat m + 15 in
             match reap 3 60 now (delete now (mkD 20 0 2 [] []) l) with
             | Some l => Some (put 20 l)
             | None => None
             end
           | None => None
           end
  end.
Theorem reap_starved_refuted : exists l d, In d l /\ apart d /\ forall n, busy n l = Some l.
Proof.
  exists [mkD 10 0 1 [] []], (mkD 10 0 1 [] []). split; [now left|]. split; [split; intros []|]. induction n as [|n IH]; [reflexivity|].
  cbn [busy]. rewrite IH. cbv zeta. set (now := 15 * Z.of_nat n + 15). clearbody now. unfold delete, reap. cbn [refs addr lookers pushers].
  change (2 - 1 =? 0) with false. cbn [insert addr]. change (20 <? 10) with false. cbn [rev app pass del_time]. rewrite Z.sub_diag. reflexivity.
Qed.
(** A set pushed to a peer that is not connected stops the thread, with the lock on the
    deleted sets held. *)
Theorem reap_hangs_refuted : exists l, tree l /\ forall fuel, reap fuel 60 100 l = None.
Proof.
  exists [mkD 10 0 1 [] [false]]. split; [repeat constructor|]. intros f. unfold reap. cbn [rev app pass del_time lookers pushers].
  change (100 - 0 <? 60) with false. cbv iota. destruct f as [|f]; [reflexivity|]. cbn [look_loop].
  assert (push_loop (S f) [false] = None) as ->; [|reflexivity]. generalize (S f). clear. induction n as [|n IH]; [reflexivity|exact IH].
Qed.
(** A set that someone still holds is destroyed. *)
Theorem reap_held_refuted : exists l d, tree l /\ In d l /\ 0 < refs d /\ reap 3 60 100 l = Some [].
Proof. exists [mkD 10 0 1 [] []], (mkD 10 0 1 [] []). split; [repeat constructor|]. split; [now left|]. split; [cbn; lia|reflexivity]. Qed.
(** The grace period is at least 15 seconds. *)
Theorem reap_grace env : 15 <= grace env /\ (grace None = 60) /\ (forall t, 15 <= t -> grace (Some t) = t).
Proof.
  unfold grace. split; [destruct env as [t|]; [destruct (Z.leb_spec t 15); lia|cbn; lia]|]. split; [reflexivity|]. intros t H. destruct (Z.leb_spec t 15); lia.
Qed.

(** Deleting a set puts it into the tree with the time of deletion, unless nobody holds
    it: then it is destroyed at once. *)
Lemma insert_in d l e : In e (insert d l) <-> e = d \/ In e l.
Proof.
  induction l as [|x l IH]; cbn [insert In]; [firstorder congruence|]. destruct (addr d <? addr x); cbn [In]; [firstorder congruence|]. rewrite IH. tauto.
Qed.
Lemma insert_tree d l : tree l -> (forall e, In e l -> addr e <> addr d) -> tree (insert d l).
Proof.
  intros HT. induction HT as [|x l HT IH HF]; intros N; cbn [insert]; [repeat constructor|]. rewrite Forall_forall in HF. destruct (Z.ltb_spec (addr d) (addr x)) as [L|L].
  - constructor; [constructor; [exact HT|apply Forall_forall; exact HF]|]. constructor; [exact L|]. apply Forall_forall. intros y Hy. specialize (HF y Hy). cbv beta in *. lia.
  - constructor; [apply IH; intros e He; apply N; right; exact He|]. apply Forall_forall. intros y Hy. apply insert_in in Hy. destruct Hy as [-> |Hy]; [|apply HF; exact Hy]. specialize (N x (or_introl eq_refl)). lia.
Qed.
Theorem reap_delete now d l : tree l -> (forall e, In e l -> addr e <> addr d) ->
  tree (delete now d l) /\
  forall e, In e (delete now d l) <-> In e l \/ (refs d <> 1 /\ addr e = addr d /\ del_time e = now /\ refs e = refs d - 1 /\ lookers e = lookers d /\ pushers e = pushers d).
Proof.
  intros HT N. unfold delete. cbv zeta. cbn [refs]. destruct (Z.eqb_spec (refs d - 1) 0) as [E|E].
  - split; [exact HT|]. intros e. split; [auto|]. intros [H|(H & _)]; [exact H|lia].
  - split; [apply insert_tree; [exact HT|exact N]|]. intros e. rewrite insert_in. split.
    + intros [-> |H]; [right; repeat split; lia|auto].
    + intros [H|(_ & A & B & C & D & F)]; [auto|]. left. destruct e as [a b c f g]; cbn [addr del_time refs lookers pushers] in *. congruence.
Qed.
(** A holder lets go of a deleted set: the last one destroys it. *)
Theorem reap_put a l e : In e (put a l) <->
  (In e l /\ addr e <> a) \/ exists d, In d l /\ addr d = a /\ refs d <> 1 /\ addr e = a /\ del_time e = del_time d /\ refs e = refs d - 1 /\ lookers e = lookers d /\ pushers e = pushers d.
Proof.
  unfold put. rewrite in_flat_map. split.
  - intros (d & Hd & H). destruct (Z.eqb_spec (addr d) a) as [E|E].
    + destruct (Z.eqb_spec (refs d - 1) 0) as [F|F]; [destruct H|]. destruct H as [<-|[]]. right. exists d. repeat split; auto; lia.
    + destruct H as [<-|[]]. auto.
  - intros [(H & N)|(d & Hd & A & R & B & C & D & F & G)].
    + exists e. split; [exact H|]. destruct (Z.eqb_spec (addr e) a); [contradiction|left; reflexivity].
    + exists d. split; [exact Hd|]. destruct (Z.eqb_spec (addr d) a); [|contradiction]. destruct (Z.eqb_spec (refs d - 1) 0); [lia|]. left. destruct e as [x b c f g]; cbn [addr del_time refs lookers pushers] in *. congruence.
Qed.
Example reap_delete_ex : delete 5 (mkD 15 0 2 [true] []) [mkD 10 0 1 [] []; mkD 20 1 1 [] []] = [mkD 10 0 1 [] []; mkD 15 5 1 [true] []; mkD 20 1 1 [] []]
  /\ delete 5 (mkD 15 0 1 [true] []) [mkD 10 0 1 [] []] = [mkD 10 0 1 [] []] /\ put 10 [mkD 10 0 1 [] []; mkD 20 1 3 [] []] = [mkD 20 1 3 [] []] /\ put 20 [mkD 20 1 3 [] []] = [mkD 20 1 2 [] []].
Proof. repeat split. Qed.

Print Assumptions reap_delete.
Print Assumptions reap_put.
Print Assumptions reap_not_early.
Print Assumptions reap_rest.
Print Assumptions reap_partial.
Print Assumptions reap_blocked_refuted.
Print Assumptions reap_starved_refuted.
Print Assumptions reap_hangs_refuted.
Print Assumptions reap_held_refuted.
Print Assumptions reap_grace.
