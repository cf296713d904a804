(** The invariant of a rail. *)
From Verif Require Import S_Rail.
From Coq Require Import List ZArith Lia Bool ZifyBool ZifyNat. Import ListNotations.

(** ** Histories *)
Lemma did_saw l (o : list out) : ~ In (Did l) (map Saw o).
Proof. rewrite in_map_iff. intros (x & E & _). discriminate. Qed.
Lemma did_items l h m o : In (Did l) (h ++ items m o) <-> In (Did l) h \/ l = m.
Proof. unfold items. rewrite in_app_iff. cbn. split; [intros [H|[H|H]]; [auto|injection H as ->; auto|now apply did_saw in H]|intros [H| ->]; auto]. Qed.
Lemma ev_items i e h m o : ev i e (h ++ items m o) <-> ev i e h \/ Event i e = m.
Proof. apply did_items. Qed.
Lemma did_snoc l h m : In (Did l) (h ++ [Did m]) <-> In (Did l) h \/ l = m.
Proof. exact (did_items l h m []). Qed.
Lemma ev_snoc i e h m : ev i e (h ++ [Did m]) <-> ev i e h \/ Event i e = m.
Proof. exact (ev_items i e h m []). Qed.
Lemma some_items e h m o : some_ev e (h ++ items m o) <-> some_ev e h \/ exists i, m = Event i e.
Proof. unfold some_ev. split; [intros (i & H); apply ev_items in H; destruct H as [H|H]; eauto|intros [(i & H)|(i & ->)]; exists i; apply ev_items; auto]. Qed.

Lemma number_app p h g : number p (h ++ g) = number p h + number p g.
Proof. unfold number. rewrite filter_app, app_length. reflexivity. Qed.

Lemma split_snoc {A} (h : list A) x a b : h ++ [x] = a ++ b -> (b = [] /\ a = h ++ [x]) \/ exists b', b = b' ++ [x] /\ h = a ++ b'.
Proof.
  intros H. destruct (rev b) as [|y t] eqn:E.
  - left. apply (f_equal (@rev A)) in E. rewrite rev_involutive in E. cbn in E. subst b. rewrite app_nil_r in H. auto.
  - right. apply (f_equal (@rev A)) in E. rewrite rev_involutive in E. cbn in E. subst b. rewrite app_assoc in H. apply app_inj_tail in H. destruct H as [H ->]. eauto.
Qed.
Definition all_up (n : nat) (h : list item) : Prop := forall i, i < n -> ev i XConnected h.
Lemma joined_snoc n h x : joined n (h ++ [x]) <-> joined n h \/ (clean (h ++ [x]) /\ all_up n (h ++ [x])).
Proof.
  split.
  - intros (a & b & E & C & U). apply split_snoc in E. destruct E as [(-> & ->)|(b' & -> & ->)]; [right; split; assumption|left; exists a, b'; auto].
  - intros [(a & b & -> & C & U)|(C & U)]; [exists a, (b ++ [x]); rewrite app_assoc; auto|exists (h ++ [x]), []; rewrite app_nil_r; auto].
Qed.
Lemma joined_saw n h o : joined n (h ++ map Saw o) <-> joined n h.
Proof.
  revert h. induction o as [|x o IH]; intros h; cbn [map]; [rewrite app_nil_r; reflexivity|].
  change (Saw x :: map Saw o) with ([Saw x] ++ map Saw o). rewrite app_assoc, IH, joined_snoc. split; [|auto]. intros [H|(C & U)]; [exact H|].
  exists h, []. rewrite app_nil_r. split; [reflexivity|].
  assert (E : forall l, In (Did l) (h ++ [Saw x]) <-> In (Did l) h).
  { intros l. rewrite in_app_iff. cbn. intuition congruence. }
  split.
  - destruct C as (C1 & C2 & C3 & C4). unfold some_ev, ev in *. repeat split; [rewrite <- E; assumption| | |]; intros (i & Hi); [apply C2|apply C3|apply C4]; exists i; apply E; exact Hi.
  - intros i Hi. apply E. apply U; exact Hi.
Qed.
Lemma items_snoc h l o : h ++ items l o = (h ++ [Did l]) ++ map Saw o.
Proof. unfold items. rewrite <- app_assoc. reflexivity. Qed.
Lemma joined_items n h l o : joined n (h ++ items l o) <-> joined n h \/ (clean (h ++ [Did l]) /\ all_up n (h ++ [Did l])).
Proof. rewrite items_snoc, joined_saw. apply joined_snoc. Qed.
Lemma joined_mono n h g : joined n h -> joined n (h ++ g).
Proof. intros (a & b & -> & H). exists a, (b ++ g). rewrite app_assoc. auto. Qed.

Lemma split_items {A} (h : list A) x (t : list A) a y b : ~ In y t -> h ++ x :: t = a ++ y :: b ->
  (x = y /\ a = h /\ b = t) \/ (exists c, b = c ++ x :: t /\ h = a ++ y :: c).
Proof.
  intros Hn. revert h. induction a as [|z a IH]; intros h E; cbn in E.
  - destruct h as [|z h]; cbn in E; injection E as <- <-; [left; auto|right; exists h; auto].
  - destruct h as [|w h]; cbn in E; injection E as <- E.
    + exfalso. apply Hn. rewrite E. apply in_app_iff. cbn. auto.
    + apply IH in E. destruct E as [(-> & -> & ->)|(c & -> & ->)]; [left; auto|right; exists c; auto].
Qed.
Lemma rejected_items h l o : rejected_last (h ++ items l o) <->
  (exists i, l = Event i XRejected) \/ (rejected_last h /\ l <> Close /\ forall i, l <> Event i XError).
Proof.
  unfold rejected_last. split.
  - intros (a & i & b & E & C & X). unfold items in E. apply split_items in E; [|apply did_saw]. destruct E as [(E & -> & ->)|(c & -> & ->)].
    + injection E as ->. left. eauto.
    + right. split; [exists a, i, c; repeat split; auto|split].
      * intros H. apply C. apply in_app_iff. auto.
      * intros (j & H). apply X. exists j. apply in_app_iff. auto.
      * intros ->. apply C. apply in_app_iff. cbn. auto.
      * intros j ->. apply X. exists j. apply in_app_iff. cbn. auto.
  - intros [(i & ->)|((a & i & b & -> & C & X) & H1 & H2)].
    + exists h, i, (map Saw o). repeat split; [apply did_saw|]. intros (j & H). now apply did_saw in H.
    + exists a, i, (b ++ items l o). rewrite <- app_assoc. repeat split.
      * rewrite did_items. intros [H|H]; [auto|congruence].
      * rewrite some_items. intros [H|(j & H)]; [auto|]. apply (H2 j). auto.
Qed.
Definition connects (h : list item) : Prop := exists o, In (Did (Connect o)) h.
Lemma connects_items h l o : connects (h ++ items l o) <-> connects h \/ exists c, l = Connect c.
Proof. unfold connects. split; [intros (c & H); apply did_items in H; destruct H as [H|<-]; eauto|intros [(c & H)|(c & ->)]; exists c; apply did_items; auto]. Qed.
Lemma failed_items n h l o : failed_start n (h ++ items l o) <->
  failed_start n h \/ exists c, l = Connect c /\ ~ connects h /\ exists i, i < n /\ c i <> Starts.
Proof.
  unfold failed_start. split.
  - intros (a & c & b & E & N & X). unfold items in E. apply split_items in E; [|apply did_saw]. destruct E as [(E & -> & ->)|(d & -> & ->)].
    + injection E as ->. right. exists c. repeat split; auto. intros (c' & H). now apply (N c').
    + left. exists a, c, d. auto.
  - intros [(a & c & b & -> & N & X)|(c & -> & N & X)].
    + exists a, c, (b ++ items l o). rewrite <- app_assoc. auto.
    + exists h, c, (map Saw o). repeat split; auto. intros o' H. apply N. exists o'. exact H.
Qed.
Lemma settled_items n h l o : settled n (h ++ items l o) <-> settled n h \/ l = Close \/ (exists c, l = Connect c /\ ~ connects h /\ exists i, i < n /\ c i <> Starts)
  \/ (exists i, l = Event i XRejected) \/ (exists i, l = Event i XError) \/ (clean (h ++ [Did l]) /\ all_up n (h ++ [Did l])).
Proof.
  unfold settled. rewrite did_items, failed_items, !some_items, joined_items. intuition auto.
Qed.
Lemma settled_snoc n h l o : settled n (h ++ [Did l]) <-> settled n (h ++ items l o).
Proof. rewrite (settled_items n h l o). exact (settled_items n h l []). Qed.
Definition fin (l : label) : Prop := match l with Event _ e => final e | _ => False end.
Lemma last_items n h l o : settled_last n (h ++ items l o) <->
  (fin l /\ settled n (h ++ items l o)) \/ (~ fin l /\ settled_last n h).
Proof.
  unfold settled_last. split.
  - intros (a & i & e & b & E & F & N & X). unfold items in E. apply split_items in E; [|apply did_saw]. destruct E as [(E & -> & ->)|(c & -> & ->)].
    + injection E as ->. left. split; [exact F|]. apply settled_snoc. exact X.
    + right. split.
      * destruct l as [| | |j f| | | | |]; cbn; auto. intros Hf. apply (N j f Hf). apply in_app_iff. cbn. auto.
      * exists a, i, e, c. repeat split; auto. intros j f Hf H. apply (N j f Hf). apply in_app_iff. auto.
  - intros [(F & X)|(F & a & i & e & b & -> & Fe & N & X)].
    + destruct l as [| | |j f| | | | |]; cbn in F; try contradiction. exists h, j, f, (map Saw o). repeat split; auto.
      * intros k g _ H. now apply did_saw in H.
      * apply (settled_snoc n h (Event j f) o). exact X.
    + exists a, i, e, (b ++ items l o). rewrite <- app_assoc. repeat split; auto. intros j f Hf H. apply ev_items in H. destruct H as [H|<-]; [now apply (N j f)|]. apply F. exact Hf.
Qed.

(** ** Sums *)
Fixpoint sumz (n : nat) (f : nat -> Z) : Z := match n with O => 0 | S m => sumz m f + f m end%Z.
Definition ind (b : bool) : Z := if b then 1%Z else 0%Z.
Lemma ind_bound b : (0 <= ind b <= 1)%Z.
Proof. destruct b; cbn; lia. Qed.
Lemma sumz_ext n f g : (forall i, i < n -> f i = g i) -> sumz n f = sumz n g.
Proof. induction n; intros H; cbn; [reflexivity|]. rewrite IHn, H by (intros; try apply H; lia). reflexivity. Qed.
Lemma sumz_chg n f g i : i < n -> (forall j, j < n -> j <> i -> g j = f j) -> (sumz n g = sumz n f + g i - f i)%Z.
Proof.
  induction n; intros Hi H; [lia|]. cbn. destruct (Nat.eq_dec i n) as [->|E].
  - rewrite (sumz_ext n g f) by (intros j Hj; apply H; lia). lia.
  - rewrite (H n) by lia. rewrite IHn by (try lia; intros; apply H; lia). lia.
Qed.
Lemma sumz_nonneg n f : (forall i, i < n -> (0 <= f i)%Z) -> (0 <= sumz n f)%Z.
Proof. induction n; intros H; cbn; [lia|]. pose proof (H n ltac:(lia)). specialize (IHn ltac:(intros; apply H; lia)). lia. Qed.
Lemma sumz_ge n f i : (forall i, i < n -> (0 <= f i)%Z) -> i < n -> (f i <= sumz n f)%Z.
Proof.
  intros H Hi. induction n; [lia|]. cbn. pose proof (sumz_nonneg n f ltac:(intros; apply H; lia)). pose proof (H n ltac:(lia)).
  destruct (Nat.eq_dec i n) as [->|E]; [lia|]. specialize (IHn ltac:(intros; apply H; lia) ltac:(lia)). lia.
Qed.
Lemma sumz_ge2 n f i j : (forall i, i < n -> (0 <= f i)%Z) -> i < n -> j < n -> i <> j -> (f i + f j <= sumz n f)%Z.
Proof.
  intros H Hi Hj Hn. pose proof (sumz_chg n f (fun k => if Nat.eqb k i then 0%Z else f k) i Hi) as E. cbv beta in E. rewrite Nat.eqb_refl in E.
  rewrite <- (Z.sub_add (f i) (sumz n f)). assert (G : (f j <= sumz n (fun k => if Nat.eqb k i then 0 else f k))%Z).
  { pose proof (sumz_ge n (fun k => if Nat.eqb k i then 0%Z else f k) j) as G. cbv beta in G. destruct (Nat.eqb_spec j i); [congruence|]. apply G; [|exact Hj]. intros k Hk. destruct (Nat.eqb k i); [lia|apply H; exact Hk]. }
  rewrite E in G; [lia|]. intros k _ Hk. destruct (Nat.eqb_spec k i); congruence.
Qed.
Lemma sumz_zero n f : (forall i, i < n -> (0 <= f i)%Z) -> (sumz n f = 0%Z <-> forall i, i < n -> f i = 0%Z).
Proof.
  intros H. split.
  - intros E i Hi. pose proof (sumz_ge n f i H Hi). specialize (H i Hi). lia.
  - intros E. induction n; cbn; [reflexivity|]. rewrite IHn, E by (intros; try apply H; try apply E; lia). reflexivity.
Qed.
Lemma sumz_full n f : (forall i, i < n -> (f i <= 1)%Z) -> (sumz n f = Z.of_nat n <-> forall i, i < n -> f i = 1%Z).
Proof.
  intros H. assert (B : (sumz n f <= Z.of_nat n)%Z). { induction n; cbn; [lia|]. pose proof (H n ltac:(lia)). specialize (IHn ltac:(intros; apply H; lia)). lia. }
  split.
  - intros E i Hi. induction n; [lia|]. cbn in E. pose proof (H n ltac:(lia)) as Hn.
    assert (Bn : (sumz n f <= Z.of_nat n)%Z). { clear - H. induction n; cbn; [lia|]. pose proof (H n ltac:(lia)). specialize (IHn ltac:(intros; apply H; lia)). lia. }
    destruct (Nat.eq_dec i n) as [->|X]; [lia|]. apply IHn; try lia. intros; apply H; lia.
  - intros E. clear B. induction n; [reflexivity|]. cbn. rewrite IHn, E by (intros; try apply H; try apply E; lia). lia.
Qed.
Lemma sumz_add n f g : sumz n (fun i => f i + g i)%Z = (sumz n f + sumz n g)%Z.
Proof. induction n; cbn; lia. Qed.

(** ** The invariant *)
Definition isUp (t : tphase) : bool := match t with TUp => true | _ => false end.
Definition isTry (t : tphase) : bool := match t with TTrying => true | _ => false end.
Definition isT (a : option xev) : bool := match a with Some (XRejected | XError | XDisconnected) => true | _ => false end.
Definition isC (a : option xev) : bool := match a with Some XConnected => true | _ => false end.
Definition pT (x : pc) : bool := match x with Calling a _ => isT a | _ => false end.
Definition pC (x : pc) : bool := match x with Calling a _ => isC a | _ => false end.
Definition pRm (x : pc) : bool := match x with Calling _ b => b | Ending b => b | Idle => false end.
Definition busy (x : pc) : bool := match x with Idle => false | _ => true end.
Definition done (t : tphase) : Prop := t = TNone \/ t = TDone.
Definition allDone (s : sys) : Prop := forall i, done (tp s i).
Definition hC (h : list item) : Z := Z.of_nat (number told h).
Definition hT (h : list item) : Z := Z.of_nat (number terminal h).

(** the endpoints *)
Record Eps (p : bool) (n : nat) (s : sys) (h : list item) : Prop := {
  e_n : n_eps (rl s) = n;
  e_p : passive (rl s) = p;
  e_pos : 0 < n;
  e_out : forall i, n <= i -> tp s i = TNone /\ at_pc s i = Idle /\ made s i = false /\ ep_st (rl s) i = INIT;
  e_none : forall i e, tp s i = TNone \/ tp s i = TTrying -> ~ ev i e h;
  e_up : forall i, tp s i = TUp -> ev i XConnected h /\ forall e, final e -> ~ ev i e h;
  e_done : forall i, tp s i = TDone -> exists e, final e /\ ev i e h;
  e_excl : forall i, ev i XConnected h -> ~ ev i XRejected h /\ ~ ev i XError h;
  e_cc : connected_eps (rl s) = sumz n (fun i => ind (isUp (tp s i)));
  e_cg : connecting_eps (rl s) = (sumz n (fun i => ind (isTry (tp s i))) + sumz n (fun i => ind (made s i)))%Z;
  e_rej : (0 <= rejected_eps (rl s))%Z /\ (rejected_eps (rl s) = 0%Z <-> ~ some_ev XRejected h);
  e_err : (0 <= conn_error_eps (rl s))%Z /\ (conn_error_eps (rl s) = 0%Z <-> ~ some_ev XError h);
  e_st : forall i,
    match tp s i with
    | TNone => match ep_st (rl s) i with INIT | ERROR => made s i = false | ACCEPTING => p = true | _ => False end
    | TTrying => ep_st (rl s) i = CONNECTING \/ ep_st (rl s) i = ACCEPTING
    | TUp => (ep_st (rl s) i = CONNECTED /\ number (closes i) h = 0) \/ (ep_st (rl s) i = ERROR /\ number (closes i) h = 1)
    | TDone => ep_st (rl s) i = CLOSE \/ ep_st (rl s) i = ERROR \/ ep_st (rl s) i = REJECTED
    end;
  e_cl : forall i, number (closes i) h <= 1 /\ (tp s i = TNone \/ tp s i = TTrying -> number (closes i) h = 0);
  e_made : forall i, made s i = true -> tp s i = TNone /\ ep_x (rl s) i = true /\ p = true;
  e_x : forall i, tp s i <> TNone -> ep_x (rl s) i = true;
  e_pc : forall i a rm, at_pc s i = Calling a rm ->
    match a with Some XConnected | Some XData => tp s i = TUp /\ rm = false | Some _ => tp s i = TDone | None => rm = true -> tp s i = TDone end;
  e_end : forall i, at_pc s i = Ending true -> tp s i = TDone
}.
(** the state of the rail *)
Record Rst (p : bool) (n : nat) (s : sys) (h : list item) : Prop := {
  r_st : match st (rl s) with
    | INIT => p = false /\ (forall i, tp s i = TNone /\ ep_st (rl s) i = INIT) /\ ~ connects h /\ ~ settled n h
    | CONNECTING => p = false /\ connects h /\ ~ settled n h
    | ACCEPTING => p = true /\ ~ settled n h
    | CONNECTED => joined n h /\ (forall i, i < n -> tp s i = TUp) /\ (p = false -> connects h)
    | ERROR | REJECTED => settled n h /\ (forall i, tp s i = TUp -> ep_st (rl s) i = ERROR) /\ (p = false -> connects h \/ In (Did Close) h)
    | _ => False
    end;
  r_fs : failed_start n h -> p = false /\ st (rl s) <> INIT /\ ((exists k, k < n /\ tp s k = TNone) \/ In (Did Close) h);
  r_rl : rejected_last h <-> st (rl s) = REJECTED;
  r_c : let c := (hC h + sumz n (fun i => ind (pC (at_pc s i))))%Z in (c = 0 \/ c = 1)%Z /\ (c = 1%Z <-> joined n h);
  r_t0 : match st (rl s) with ERROR | REJECTED => True | _ => (hT h + sumz n (fun i => ind (pT (at_pc s i))))%Z = 0%Z end;
  r_t : p = false \/ joined n h -> let c := (hT h + sumz n (fun i => ind (pT (at_pc s i))))%Z in (c = 0 \/ c = 1)%Z /\ (c = 1%Z <-> allDone s /\ settled_last n h)
}.
(** references and the tree *)
Record Ref (p : bool) (n : nat) (s : sys) (h : list item) : Prop := {
  f_ref : refs (rl s) = (ind (has_ref s) + ind (in_tree (rl s)) + sumz n (fun i => ind (isTry (tp s i))) + sumz n (fun i => ind (isUp (tp s i))) + sumz n (fun i => ind (busy (at_pc s i))))%Z;
  f_act : p = false -> in_tree (rl s) = false /\ found s = 0 /\ forall i, pRm (at_pc s i) = false;
  f_clean : p = true -> (forall e, final e -> ~ some_ev e h) -> in_tree (rl s) = true /\ forall i, pRm (at_pc s i) = false;
  f_tree : p = true -> joined n h -> (sumz n (fun i => ind (pRm (at_pc s i))) + ind (negb (in_tree (rl s))) <= 1)%Z /\
     ((sumz n (fun i => ind (pRm (at_pc s i))) + ind (negb (in_tree (rl s))) = 1)%Z <-> allDone s)
}.
Definition Inv p n s h : Prop := Eps p n s h /\ Rst p n s h /\ Ref p n s h.

(** labels that leave the story of the endpoints as it is *)
Definition calm (l : label) : Prop := match l with Event _ XData => True | Event _ _ | Close | Connect _ => False | _ => True end.
Lemma calm_ev l h o i e : calm l -> e <> XData -> (ev i e (h ++ items l o) <-> ev i e h).
Proof. intros C N. rewrite ev_items. split; [intros [H|<-]; [exact H|destruct e; try destruct C; congruence]|auto]. Qed.
Lemma calm_some l h o e : calm l -> e <> XData -> (some_ev e (h ++ items l o) <-> some_ev e h).
Proof. intros C N. rewrite some_items. split; [intros [H|(i & ->)]; [exact H|destruct e; try destruct C; congruence]|auto]. Qed.
Lemma calm_close l h o : calm l -> (In (Did Close) (h ++ items l o) <-> In (Did Close) h).
Proof. intros C. rewrite did_items. split; [intros [H|<-]; [exact H|destruct C]|auto]. Qed.
Lemma calm_joined l h o n : calm l -> (joined n (h ++ items l o) <-> joined n h).
Proof.
  intros C. rewrite joined_items. split; [|auto]. intros [H|(H & U)]; [exact H|]. exists h, []. rewrite app_nil_r. split; [reflexivity|]. split.
  - destruct H as (H1 & H2 & H3 & H4). change [Did l] with (items l []) in *. rewrite calm_close in H1 by exact C. rewrite calm_some in H2, H3, H4 by (exact C || discriminate). repeat split; assumption.
  - intros i Hi. specialize (U i Hi). apply (calm_ev l h []) in U; [assumption|exact C|discriminate].
Qed.
Lemma calm_connects l h o : calm l -> (connects (h ++ items l o) <-> connects h).
Proof. intros C. rewrite connects_items. split; [intros [H|(c & ->)]; [exact H|destruct C]|auto]. Qed.
Lemma calm_failed l h o n : calm l -> (failed_start n (h ++ items l o) <-> failed_start n h).
Proof. intros C. rewrite failed_items. split; [intros [H|(c & -> & _)]; [exact H|destruct C]|auto]. Qed.
Lemma calm_settled l h o n : calm l -> (settled n (h ++ items l o) <-> settled n h).
Proof. intros C. unfold settled. rewrite calm_close, !calm_some, calm_joined, calm_failed by (exact C || discriminate). reflexivity. Qed.
Lemma calm_rl l h o : calm l -> (rejected_last (h ++ items l o) <-> rejected_last h).
Proof.
  intros C. rewrite rejected_items. split; [intros [(i & ->)|H]; [destruct C|tauto]|]. intros H. right. repeat split; [exact H|intros ->; destruct C|intros i ->; destruct C].
Qed.
Lemma calm_fin l : calm l -> ~ fin l.
Proof. destruct l as [| | |i []| | | | |]; cbn; tauto. Qed.
Lemma calm_last l h o n : calm l -> (settled_last n (h ++ items l o) <-> settled_last n h).
Proof. intros C. rewrite last_items. apply calm_fin in C. tauto. Qed.
Lemma saw_number p l o h : (forall m, p (Did m) = false) -> number p (h ++ items l o) = number p h + number p (map Saw o).
Proof. intros H. unfold items. rewrite number_app. unfold number at 2. cbn. rewrite H. reflexivity. Qed.
Lemma hC_items h l o : hC (h ++ items l o) = (hC h + Z.of_nat (number told (map Saw o)))%Z.
Proof. unfold hC. rewrite saw_number by reflexivity. lia. Qed.
Lemma hT_items h l o : hT (h ++ items l o) = (hT h + Z.of_nat (number terminal (map Saw o)))%Z.
Proof. unfold hT. rewrite saw_number by reflexivity. lia. Qed.
