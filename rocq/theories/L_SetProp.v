(** Histories of a metric set. *)
From Verif Require Import Bytes M_Set S_Set L_SetMem L_SetLay L_SetCreate L_SetInit L_SetTop L_SetMake L_SetRep L_SetOps L_SetTx L_SetBuilt.
Local Open Scope N_scope.

(** ** From the code to the abstract set *)
Section Hist.
Variables (s : schema) (inst : list byte) (own : N * N * N).
Notation es := (metrics s).
Notation n := (buffers s).

Definition rep (req : N) (m : st) (A : aset) : Prop := repr (env_of inst s req) (mb m) m A.

Lemma do_ops_app l1 l2 m : do_ops (l1 ++ l2) m = bind (do_ops l1) (fun _ => do_ops l2) m.
Proof.
  revert m. induction l1 as [|o l1 IH]; intros m; [reflexivity|].
  cbn [app do_ops]. unfold bind at 1 2 3. destruct (do_op o m) as [u m1| |]; auto. rewrite IH. reflexivity.
Qed.
Lemma hist_app l1 l2 m m' : history s inst own l1 m -> Forall (allowed es) l2 -> do_ops l2 m = Ret tt m' ->
  history s inst own (l1 ++ l2) m'.
Proof.
  intros (m0 & C & F & R) F2 R2. exists m0. split; [exact C|]. split; [now apply Forall_app|].
  rewrite do_ops_app. unfold bind. now rewrite R.
Qed.

Lemma step req m A o m' : ok_env (env_of inst s req) -> rep req m A -> allowed es o -> do_op o m = Ret tt m' ->
  exists a, action es o = Some a /\ a <> RAbort /\ rep req m' (effect n a A) /\
    ((forall t, a <> RBegin t) -> repr (env_of inst s req) (mb m) m' (effect n a A)).
Proof.
  intros OK R HA HD. unfold allowed in HA. destruct (action es o) as [a|] eqn:E; [|congruence].
  pose proof (op_ok _ OK (mb m) m A o a R E) as C. exists a. split; [reflexivity|]. unfold carries in C.
  destruct a; [congruence|..]; (split; [discriminate|]);
    destruct C as (m1 & E1 & R1); rewrite HD in E1; assert (m1 = m') by congruence; subst m1;
    (split; [exact (repr_any _ _ _ _ R1)|]); intros HN; try exact R1; destruct (HN _ eq_refl).
Qed.
(** Several steps. *)
Fixpoint run_acts (l : list op) (A : aset) : aset :=
  match l with
  | [] => A
  | o :: r => run_acts r match action es o with Some a => effect n a A | None => A end
  end.
Lemma steps req l : forall m A m', ok_env (env_of inst s req) -> rep req m A -> Forall (allowed es) l ->
  do_ops l m = Ret tt m' -> rep req m' (run_acts l A) /\ Forall (fun o => action es o <> Some RAbort) l.
Proof.
  induction l as [|o l IH]; intros m A m' OK R F HD.
  - cbn in HD. unfold ret in HD. assert (m = m') by congruence. subst m'. auto.
  - apply Forall_cons_iff in F. destruct F as [Fo F]. cbn [do_ops] in HD. unfold bind in HD.
    destruct (do_op o m) as [[] m1| |] eqn:E1; try discriminate.
    destruct (step req m A o m1 OK R Fo E1) as (a & Ha & Hn & R1 & _).
    destruct (IH m1 _ m' OK R1 F HD) as [R2 F2]. cbn [run_acts]. rewrite Ha. split; [exact R2|].
    constructor; [congruence|exact F2].
Qed.
Lemma hist_repr l m : history s inst own l m ->
  exists req A0 A, ok_env (env_of inst s req) /\ starts es n own A0 /\ A = run_acts l A0 /\ rep req m A /\
    exists h, create_args s inst own req h.
Proof.
  intros (m0 & C & F & HD). destruct (created_repr s inst own m0 C) as (req & h & CA & OK & R & S0 & _).
  exists req, (start_of (env_of inst s req) own m0). eexists. split; [exact OK|]. split; [exact S0|].
  split; [reflexivity|]. split; [exact (proj1 (steps req l _ _ m OK R F HD))|eauto].
Qed.
Lemma rep_agrees req m A : ok_env (env_of inst s req) -> rep req m A -> agrees es n m A.
Proof. intros OK R. exact (repr_agrees _ OK _ m A R). Qed.
Lemma rep_shows req m A k e : ok_env (env_of inst s req) -> rep req m A -> nth_error es k = Some e -> not_type e ->
  shows m k e (view es n A k e).
Proof.
  intros OK R Hk Hn. pose proof (rep_agrees req m A OK R) as G.
  assert (HI : at_idx es (Z.of_nat k) = Some (k, e)).
  { unfold at_idx. destruct (Z.leb_spec 0 (Z.of_nat k)); [|lia]. rewrite Nat2Z.id. now rewrite Hk. }
  constructor.
  - assert (RV : view es n A k e = content A (rloc (env_of inst s req) A k e)) by (symmetry; apply rloc_view).
    rewrite RV. unfold blen.
    rewrite (content_length _ _ m A _ R (rloc_valid _ OK _ m A k e R Hk Hn)).
    rewrite (rloc_size _ OK A k e Hk Hn). apply N2Nat.id.
  - intros w Hw Hr. exact (ag_get _ _ _ _ G _ k e w HI Hn Hw Hr).
  - intros w j Hw Hj Hj2 Hr. exact (ag_aget _ _ _ _ G _ k e w j HI Hn Hw Hj Hj2 Hr).
  - intros l r Hv Hl. exact (ag_str _ _ _ _ G _ k e l r HI Hn Hv Hl).
Qed.
End Hist.

(** ** Actions *)
Definition act_data (a : act) : bool :=
  match a with RPut _ e _ _ | RTouch _ e _ => in_data e | REnd _ => true | _ => false end.
Definition act_meta (a : act) : bool :=
  match a with RPut _ e _ _ | RTouch _ e _ => negb (in_data e) | RAuth _ _ _ g => g | _ => false end.
Lemma a_put_act k e off bs a : a_put k e off bs = Some a -> a = RPut k e off bs.
Proof. intros H. exact (proj1 (a_put_inv k e off bs a H)). Qed.
Ltac act_cases H :=
  repeat match type of H with
  | context [match ?x with _ => _ end] => let E := fresh "Q" in destruct x eqn:E
  | Some _ = Some _ => injection H as <-
  | None = Some _ => discriminate H
  | a_put _ _ _ _ = Some _ => apply a_put_act in H; subst
  end.
Lemma act_touches es o a : action es o = Some a -> a <> RAbort ->
  act_data a = touches_data es o /\ act_meta a = touches_meta es o.
Proof.
  intros H Ha. destruct o; cbn [action] in H; unfold touches_data, touches_meta; cbn [op_metric];
    try (destruct (at_idx es _) as [[kk ee]|] eqn:HI); cbv beta iota zeta in H;
    repeat (match type of H with
     | Some _ = Some _ => injection H as <-
     | None = Some _ => discriminate H
     | a_put _ _ _ _ = Some _ => apply a_put_act in H; subst a
     | (if ?x then _ else _) = _ => destruct x
     | match ?x with Some _ => _ | None => _ end = _ => destruct x
     end); try (now split); try congruence.
Qed.

(** Generation numbers. *)
Lemma fN_same {T} (f : N -> T) k v : fN f k v k = v.
Proof. unfold fN. now rewrite N.eqb_refl. Qed.
Lemma fN_other {T} (f : N -> T) k v x : x <> k -> fN f k v x = f x.
Proof. intros H. unfold fN. destruct (N.eqb_spec x k); [contradiction|reflexivity]. Qed.
Lemma eff_gn n a A : h_gn (now (effect n a A)) = if act_data a then (h_gn (now A) + 1) mod B64 else h_gn (now A).
Proof.
  unfold now. destruct a; cbn [effect act_data]; try reflexivity.
  - unfold put, bump. destruct (in_data e); cbn [bump_data bump_meta with_hd a_cur a_hd]; rewrite fN_same; reflexivity.
  - unfold bump. destruct (in_data e), user; cbn [bump_data bump_meta with_hd a_cur a_hd]; rewrite fN_same; reflexivity.
  - destruct gn; cbn [bump_meta with_hd a_cur a_hd]; [rewrite fN_same; reflexivity|reflexivity].
  - cbn [a_cur a_hd]. rewrite fN_same. reflexivity.
  - cbn [bump_data with_hd a_cur a_hd]. rewrite !fN_same. reflexivity.
Qed.
Lemma eff_mgn n a A : a_mgn (effect n a A) = if act_meta a then (a_mgn A + 1) mod B64 else a_mgn A.
Proof.
  destruct a; cbn [effect act_meta]; try reflexivity.
  - unfold put, bump. destruct (in_data e); reflexivity.
  - unfold bump. destruct (in_data e), user; reflexivity.
  - destruct gn; reflexivity.
Qed.
Lemma eff_cons n a A : h_flags (now (effect n a A)) =
  match a with RBegin _ => 1 | REnd _ => 2 | _ => h_flags (now A) end.
Proof.
  unfold now. destruct a; cbn [effect]; try reflexivity.
  - unfold put, bump. destruct (in_data e); cbn [bump_data bump_meta with_hd a_cur a_hd]; rewrite fN_same; reflexivity.
  - unfold bump. destruct (in_data e), user; cbn [bump_data bump_meta with_hd a_cur a_hd]; rewrite fN_same; reflexivity.
  - destruct gn; cbn [bump_meta with_hd a_cur a_hd]; [rewrite fN_same; reflexivity|reflexivity].
  - cbn [a_cur a_hd]. rewrite fN_same. reflexivity.
  - cbn [bump_data with_hd a_cur a_hd]. rewrite !fN_same. reflexivity.
Qed.
(** Values. *)
Definition wr (a : act) (v : nat -> list byte) : nat -> list byte :=
  match a with RPut k e off bs => if in_data e then fn v k (splice (N.to_nat off) bs (v k)) else v | _ => v end.
Definition tx_act (a : act) : bool := match a with RBegin _ | REnd _ => true | _ => false end.
Lemma eff_cur n a A : (forall t, a <> RBegin t) -> a_cur (effect n a A) = a_cur A.
Proof.
  intros H. destruct a; cbn [effect]; try reflexivity.
  - unfold put, bump. destruct (in_data e); reflexivity.
  - unfold bump. destruct (in_data e), user; reflexivity.
  - destruct gn; reflexivity.
  - destruct (H _ eq_refl).
Qed.
Lemma eff_val n a A b : (forall t, a <> RBegin t) -> b <> a_cur A -> a_val (effect n a A) b = a_val A b.
Proof.
  intros H Hb. destruct a; cbn [effect]; try reflexivity.
  - unfold put, bump. destruct (in_data e); cbn [bump_data bump_meta with_hd a_val]; [|reflexivity].
    now rewrite fN_other.
  - unfold bump. destruct (in_data e), user; reflexivity.
  - destruct gn; reflexivity.
  - destruct (H _ eq_refl).
Qed.
Lemma eff_val_cur n a A k : (forall t, a <> RBegin t) -> a_val (effect n a A) (a_cur A) k = wr a (a_val A (a_cur A)) k.
Proof.
  intros H. destruct a; cbn [effect wr]; try reflexivity.
  - unfold put, bump. destruct (in_data e); cbn [bump_data bump_meta with_hd a_val]; [|reflexivity].
    now rewrite fN_same.
  - unfold bump. destruct (in_data e), user; reflexivity.
  - destruct gn; reflexivity.
  - destruct (H _ eq_refl).
Qed.
Lemma act_begin es o t : action es o = Some (RBegin t) -> exists s u, o = OBegin s u /\ t = (s, u).
Proof.
  intros H. destruct o; cbn [action] in H;
    try (destruct (at_idx es _) as [[kk ee]|] eqn:HI); cbv beta iota zeta in H;
    repeat (match type of H with
     | Some _ = Some _ => try discriminate H; injection H as <-
     | None = Some _ => discriminate H
     | a_put _ _ _ _ = Some _ => apply a_put_act in H; discriminate H
     | (if ?x then _ else _) = _ => destruct x
     | match ?x with Some _ => _ | None => _ end = _ => destruct x
     end); eauto.
Qed.
Lemma act_end es o t : action es o = Some (REnd t) -> exists s u, o = OEnd s u /\ t = (s, u).
Proof.
  intros H. destruct o; cbn [action] in H;
    try (destruct (at_idx es _) as [[kk ee]|] eqn:HI); cbv beta iota zeta in H;
    repeat (match type of H with
     | Some _ = Some _ => try discriminate H; injection H as <-
     | None = Some _ => discriminate H
     | a_put _ _ _ _ = Some _ => apply a_put_act in H; discriminate H
     | (if ?x then _ else _) = _ => destruct x
     | match ?x with Some _ => _ | None => _ end = _ => destruct x
     end); eauto.
Qed.

Lemma prev_buf c n : c < n -> ((c + 1) mod n + (n - 1)) mod n = c.
Proof.
  intros H. destruct (N.eq_dec (c + 1) n) as [E|E].
  - rewrite E, N.mod_same by lia. rewrite N.add_0_l, N.mod_small by lia. lia.
  - rewrite (N.mod_small (c + 1)) by lia. replace (c + 1 + (n - 1)) with (c + 1 * n) by lia.
    rewrite N.mod_add, N.mod_small by lia. reflexivity.
Qed.
Lemma next_buf c n : c < n -> 2 <= n -> (c + 1) mod n <> c.
Proof.
  intros H H2. destruct (N.eq_dec (c + 1) n) as [E|E].
  - rewrite E, N.mod_same by lia. lia.
  - rewrite N.mod_small by lia. lia.
Qed.
Lemma buffered_inv e : buffered e = true -> not_type e /\ in_data e = true /\ (md_type (base e) =? 23) = false /\ (md_type (base e) =? 27) = false.
Proof.
  unfold buffered. intros H. split; [intros r ->; discriminate|].
  assert (H' : in_data e && negb (md_type (base e) =? 23) && negb (md_type (base e) =? 27) = true) by (destruct e; [exact H|discriminate|exact H]).
  apply andb_true_iff in H'. destruct H' as [H' H3]. apply andb_true_iff in H'. destruct H' as [H1 H2].
  apply negb_true_iff in H2, H3. auto.
Qed.
Lemma view_buffered es n A k e : buffered e = true ->
  view es n A k e = if h_flags (now A) =? 2 then a_val A (a_cur A) k else a_val A ((a_cur A + (n - 1)) mod n) k.
Proof.
  intros H. destruct (buffered_inv e H) as (_ & H1 & H2 & H3). unfold view. rewrite H1, H2, H3. fold (now A).
  now rewrite !orb_false_r.
Qed.

Section Acts.
Variable s : schema.
Notation es := (metrics s).
Notation n := (buffers s).
Notation run := (run_acts s).

Lemma begin_view A t k e : buffered e = true -> h_flags (now A) = 2 -> a_cur A < n ->
  view es n (effect n (RBegin t) A) k e = view es n A k e.
Proof.
  intros Hb Hf Hc. rewrite !view_buffered by exact Hb. rewrite Hf, (eff_cons n (RBegin t) A). cbn [N.eqb Pos.eqb].
  cbn [effect a_cur a_val]. rewrite (prev_buf _ _ Hc). destruct (a_copy A); [|reflexivity].
  unfold fN. destruct (N.eqb_spec (a_cur A) ((a_cur A + 1) mod n)); reflexivity.
Qed.
Lemma still_view A a k e : buffered e = true -> act_data a = false -> (forall t, a <> RBegin t) ->
  view es n (effect n a A) k e = view es n A k e.
Proof.
  intros Hb Hd Hn. rewrite !view_buffered by exact Hb. rewrite (eff_cons n a A), (eff_cur n a A Hn).
  assert (V : forall b, a_val (effect n a A) b k = a_val A b k).
  { intros b. destruct (N.eq_dec b (a_cur A)) as [->|Hne]; [|now rewrite eff_val].
    rewrite eff_val_cur by exact Hn. destruct a; try reflexivity. cbn [act_data] in Hd. cbn [wr]. now rewrite Hd. }
  assert (W : match a with RBegin _ => 1 | REnd _ => 2 | _ => h_flags (now A) end = h_flags (now A)).
  { destruct a; try reflexivity; [destruct (Hn _ eq_refl)|discriminate]. }
  rewrite W, !V. reflexivity.
Qed.

Definition runs (l : list op) : Prop := Forall (fun o => exists a, action es o = Some a /\ a <> RAbort) l.
Fixpoint n_data (l : list op) : N :=
  match l with [] => 0 | o :: r => (if touches_data es o then 1 else 0) + n_data r end.
Lemma n_data_len l : n_data l <= N.of_nat (length l).
Proof. induction l as [|o l IH]; cbn [n_data length]; [lia|]. destruct (touches_data es o); lia. Qed.
Lemma run_gn l : forall A, runs l -> h_gn (now A) < B64 -> h_gn (now (run l A)) = (h_gn (now A) + n_data l) mod B64.
Proof.
  induction l as [|o l IH]; intros A F HA; cbn [run_acts n_data].
  - rewrite N.add_0_r, N.mod_small by exact HA. reflexivity.
  - apply Forall_cons_iff in F. destruct F as [(a & Ha & Hn) F]. rewrite Ha.
    destruct (act_touches es o a Ha Hn) as [T _]. rewrite IH; [|exact F|].
    + rewrite (eff_gn n a A), T. destruct (touches_data es o); [|now rewrite N.add_0_l].
      rewrite N.add_mod_idemp_l by discriminate. f_equal. lia.
    + rewrite (eff_gn n a A). destruct (act_data a); [apply N.mod_lt; discriminate|exact HA].
Qed.
Lemma run_cur l : forall A, runs l -> a_cur A < n -> a_cur (run l A) < n.
Proof.
  induction l as [|o l IH]; intros A F HA; cbn [run_acts]; [exact HA|].
  apply Forall_cons_iff in F. destruct F as [(a & Ha & Hn) F]. rewrite Ha. apply IH; [exact F|].
  destruct a; try (rewrite eff_cur by discriminate; exact HA). cbn [effect a_cur]. apply N.mod_lt. lia.
Qed.
Lemma quiet_view l : forall c A k e, runs l -> n_data l = 0 -> disciplined c l -> (c = true -> h_flags (now A) = 2) ->
  a_cur A < n -> buffered e = true -> view es n (run l A) k e = view es n A k e.
Proof.
  induction l as [|o l IH]; intros c A k e F HN HD Hc HA Hb; cbn [run_acts]; [reflexivity|].
  apply Forall_cons_iff in F. destruct F as [(a & Ha & Hn) F]. rewrite Ha. cbn [n_data] in HN.
  assert (HT : touches_data es o = false) by (destruct (touches_data es o); [lia|reflexivity]).
  assert (HL : n_data l = 0) by lia.
  destruct (act_touches es o a Ha Hn) as [T _]. rewrite HT in T.
  assert (HA1 : a_cur (effect n a A) < n).
  { destruct a; try (rewrite eff_cur by discriminate; exact HA). cbn [effect a_cur]. apply N.mod_lt. lia. }
  assert (D : (exists t, a = RBegin t) \/ forall t, a <> RBegin t).
  { destruct a; try (right; intros; discriminate). left. eauto. }
  destruct D as [[t ->]|D].
  - destruct (act_begin es o t Ha) as (x & y & -> & _). destruct HD as [C HD]. specialize (Hc C).
    rewrite (IH false _ k e F HL HD ltac:(discriminate) HA1 Hb). now apply begin_view.
  - assert (HD' : disciplined c l).
    { destruct o; try exact HD; [|discriminate HT]. cbn [action] in Ha. injection Ha as <-. destruct (D _ eq_refl). }
    rewrite (IH c _ k e F HL HD'); auto; [now apply still_view|].
    intros C. rewrite (eff_cons n a A). destruct a; auto. destruct (D _ eq_refl).
Qed.
(** Inside a transaction. *)
Lemma inner l : forall A, runs l -> Forall no_tx l ->
  a_cur (run l A) = a_cur A /\ h_flags (now (run l A)) = h_flags (now A) /\
  (forall b, b <> a_cur A -> a_val (run l A) b = a_val A b) /\
  forall v k, (forall j, a_val A (a_cur A) j = v j) -> a_val (run l A) (a_cur A) k = written es l v k.
Proof.
  induction l as [|o l IH]; intros A F HT; cbn [run_acts]; [repeat split; auto|].
  apply Forall_cons_iff in F. destruct F as [(a & Ha & Hn) F]. apply Forall_cons_iff in HT. destruct HT as [HO HT].
  rewrite Ha.
  assert (D : forall t, a <> RBegin t).
  { intros t ->. destruct (act_begin es o t Ha) as (x & y & -> & _). exact HO. }
  assert (D2 : forall t, a <> REnd t).
  { intros t ->. destruct (act_end es o t Ha) as (x & y & -> & _). exact HO. }
  destruct (IH (effect n a A) F HT) as (I1 & I2 & I3 & I4). rewrite (eff_cur n a A D) in *.
  split; [exact I1|]. split.
  { rewrite I2, (eff_cons n a A). destruct a; auto; [destruct (D _ eq_refl)|destruct (D2 _ eq_refl)]. }
  split.
  - intros b Hb. rewrite I3 by exact Hb. now apply eff_val.
  - intros v k Hv. unfold written. cbn [fold_left]. fold (written es l). rewrite Ha.
    refine (I4 _ k _). intros j. rewrite eff_val_cur by exact D.
    destruct a; cbn [wr]; auto. destruct (in_data e); [|auto]. unfold fn. rewrite Hv. destruct (Nat.eqb j k0); auto.
Qed.
End Acts.

(** ** Which bytes a write changes *)
Lemma bump_other E e A l : a_cur A < v_ac E -> (if in_data e then l <> LH FGn (a_cur A) else l <> LGn /\ l <> LH FMgn (a_cur A)) ->
  content (bump e A) l = content A l.
Proof.
  intros HC H. unfold bump. destruct (in_data e).
  - destruct l as [| | | |f b|b k|k|k]; try reflexivity. cbn [content bump_data with_hd a_hd a_cur]. unfold fN.
    destruct (N.eqb_spec b (a_cur A)) as [->|]; [|reflexivity]. destruct f; try reflexivity. congruence.
  - destruct H as [H1 H2].
    destruct l as [| | | |f b|b k|k|k]; try reflexivity; [congruence|]. cbn [content bump_meta with_hd a_hd a_cur]. unfold fN.
    destruct (N.eqb_spec b (a_cur A)) as [->|]; [|reflexivity]. destruct f; try reflexivity. congruence.
Qed.
Lemma nth_splice {T} off (bs l : list T) y d : (off + length bs <= length l)%nat -> (y < off \/ off + length bs <= y)%nat ->
  nth y (splice off bs l) d = nth y l d.
Proof.
  intros HL HY. unfold splice. destruct HY as [HY|HY].
  - rewrite app_nth1 by (rewrite firstn_length; lia).
    rewrite <- (firstn_skipn off l) at 2. rewrite app_nth1 by (rewrite firstn_length; lia). reflexivity.
  - rewrite app_nth2 by (rewrite firstn_length; lia). rewrite firstn_length, Nat.min_l by lia.
    rewrite app_nth2 by lia.
    rewrite <- (firstn_skipn (off + length bs) l) at 2. rewrite (app_nth2 (firstn _ _)) by (rewrite firstn_length; lia).
    rewrite firstn_length, Nat.min_l by lia. f_equal. lia.
Qed.
Lemma nth_splice_in {T} off (bs l : list T) y d : (off + length bs <= length l)%nat -> (off <= y < off + length bs)%nat ->
  nth y (splice off bs l) d = nth (y - off) bs d.
Proof.
  intros HL HY. unfold splice. rewrite app_nth2 by (rewrite firstn_length; lia). rewrite firstn_length, Nat.min_l by lia.
  rewrite app_nth1 by lia. reflexivity.
Qed.
Lemma get_mb m m' a z x : get m' a z = get m a z -> a <= x < a + N.of_nat z -> mb m' x = mb m x.
Proof.
  intros H Hx. assert (K : nth (N.to_nat (x - a)) (get m' a z) 0 = nth (N.to_nat (x - a)) (get m a z) 0) by now rewrite H.
  rewrite !get_nth in K by lia. replace (a + N.of_nat (N.to_nat (x - a))) with x in K by lia. exact K.
Qed.
Lemma get_mb2 m a z x l : get m a z = l -> a <= x < a + N.of_nat z -> mb m x = nth (N.to_nat (x - a)) l 0.
Proof.
  intros <- Hx. rewrite get_nth by lia. f_equal. lia.
Qed.

Lemma write_bytes E rest m A m' k e off bs : ok_env E -> repr E rest m A -> repr E (mb m) m' (put e k off bs A) ->
  nth_error (v_es E) k = Some e -> not_type e -> off + blen bs <= room e ->
  let a := addr E (vloc A k e) in
  get m' (a + off) (length bs) = bs /\
  forall x, a + off <= x < a + off + blen bs \/ gn_byte m e x \/ mb m' x = mb m x.
Proof.
  intros OK R R' Hk Hn Ho a. pose proof (vloc_valid E OK rest m A k e R Hk Hn) as V.
  pose proof (vloc_size E OK A k e Hk Hn) as Z. pose proof (p_cur E rest m A R) as HC.
  assert (CV : content (put e k off bs A) (vloc A k e) = splice (N.to_nat off) bs (content A (vloc A k e))).
  { rewrite put_setv, (bump_other E).
    - apply setv_content.
    - rewrite (proj1 (setv_cur e k off bs A)). exact HC.
    - unfold vloc. change (data_e e) with (in_data e). destruct (in_data e); [discriminate|split; discriminate]. }
  pose proof (rp_obs E _ _ _ R' _ V) as O'. rewrite CV in O'. pose proof (rp_obs E _ _ _ R _ V) as O.
  pose proof (content_length E _ _ _ _ R V) as CL. rewrite Z in *. fold a in O, O'. unfold blen in *.
  assert (HL : (N.to_nat off + length bs <= length (content A (vloc A k e)))%nat) by (rewrite CL; lia).
  split.
  - apply (list_eq_nth 0); rewrite get_length; [reflexivity|]. intros y Hy. rewrite get_nth by exact Hy.
    rewrite (get_mb2 _ _ _ (a + off + N.of_nat y) _ O') by lia.
    replace (N.to_nat (a + off + N.of_nat y - a)) with (N.to_nat off + y)%nat by lia.
    rewrite nth_splice_in by lia. f_equal. lia.
  - intros x.
    destruct (N.eq_dec (mb m' x) (mb m x)) as [|NE]; [auto|].
    assert (D1 : a + off <= x < a + off + N.of_nat (length bs) \/ ~ (a + off <= x < a + off + N.of_nat (length bs))) by lia.
    destruct D1 as [D1|D1]; [auto|].
    assert (D2 : gn_byte m e x \/ ~ gn_byte m e x).
    { unfold gn_byte. destruct (in_data e); lia. }
    destruct D2 as [D2|D2]; [auto|]. exfalso. apply NE. apply (rp_rest E _ _ _ R'). intros l Vl Hx. apply NE.
    destruct (loc_eq l (vloc A k e)) as [->|Nl].
    { rewrite Z in Hx. fold a in Hx.
      rewrite (get_mb2 _ _ _ x _ O') by exact Hx. rewrite (get_mb2 _ _ _ x _ O) by exact Hx.
      apply nth_splice; [exact HL|]. lia. }
    assert (NG : if in_data e then l <> LH FGn (a_cur A) else l <> LGn /\ l <> LH FMgn (a_cur A)).
    { unfold gn_byte in D2. rewrite (p_dat E rest m A R) in D2. destruct (in_data e).
      - intros ->. cbn [addr size hoff hsize] in Hx. lia.
      - split; intros ->; cbn [addr size hoff hsize] in Hx; unfold H_GN in Hx; lia. }
    apply (get_mb m m' (addr E l) (size E l)); [|exact Hx].
    rewrite (rp_obs E _ _ _ R' _ Vl), (rp_obs E _ _ _ R _ Vl). rewrite put_setv, (bump_other E).
    + now apply setv_other.
    + rewrite (proj1 (setv_cur e k off bs A)). exact HC.
    + rewrite (proj1 (setv_cur e k off bs A)). exact NG.
Qed.
