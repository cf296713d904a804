(** Lemmas for the utilities. *)
From Verif Require Export S_Util.
From Coq Require Import List. Import ListNotations.
From Coq Require Import ZifyBool ZifyNat ZifyN.
Local Open Scope N_scope.

(** ** Access *)
Lemma land_shift k m : N.land (N.shiftl 7 k) m = N.shiftl (N.land 7 (N.shiftr m k)) k.
Proof.
  apply N.bits_inj. intros i. rewrite N.land_spec.
  destruct (N.ltb_spec i k) as [H|H].
  - rewrite !N.shiftl_spec_low by assumption. reflexivity.
  - rewrite !N.shiftl_spec_high by (auto; lia). rewrite N.land_spec, N.shiftr_spec by lia.
    now replace (i - k + k) with i by lia.
Qed.
Lemma land7_mod a : N.land 7 a = a mod 8.
Proof. rewrite N.land_comm. change 7 with (N.ones 3). rewrite N.land_ones. reflexivity. Qed.
Lemma land_shift_zero k m : (N.land (N.shiftl 7 k) m =? 0) = (m / 2 ^ k mod 8 =? 0).
Proof.
  rewrite land_shift, land7_mod, N.shiftr_div_pow2.
  apply Bool.eq_iff_eq_true. rewrite !N.eqb_eq. split; intros H.
  - now apply N.shiftl_eq_0_iff in H.
  - rewrite H. apply N.shiftl_0_l.
Qed.
Lemma bits_land c a b : bits c (N.land a b) = N.land (bits c a) (bits c b).
Proof.
  assert (G : forall k, N.land a b / 2 ^ k mod 8 = N.land (a / 2 ^ k mod 8) (b / 2 ^ k mod 8)).
  { intros k. rewrite <- !land7_mod, <- !N.shiftr_div_pow2. rewrite N.shiftr_land.
    apply N.bits_inj. intros i. rewrite !N.land_spec. now destruct (N.testbit 7 i), (N.testbit (N.shiftr a k) i). }
  destruct c; cbn [bits]; [exact (G 6)|exact (G 3)|]. specialize (G 0). now rewrite N.pow_0_r, !N.div_1_r in G.
Qed.

Lemma group_ok groups u g : (uid_gid_check groups u g =? 0)%Z = true <-> exists l, groups u = Some l /\ In g l.
Proof.
  unfold uid_gid_check. destruct (groups u) as [l|].
  - destruct (existsb (N.eqb g) l) eqn:E.
    + apply existsb_exists in E. destruct E as (x & Hx & Ex). apply N.eqb_eq in Ex. subst x.
      split; [eauto|reflexivity].
    + split; [discriminate|]. intros (l' & H & Hin). injection H as <-.
      assert (existsb (N.eqb g) l = true) by (apply existsb_exists; exists g; split; [exact Hin|apply N.eqb_refl]). congruence.
  - split; [discriminate|]. intros (l & H & _). discriminate.
Qed.

Lemma access_exact groups uid gid acc ouid ogid perm :
  access_check groups uid gid acc ouid ogid perm = 0%Z <->
  uid = 0 \/ exists c, in_class groups uid gid ouid ogid c /\ N.land (bits c acc) (bits c perm) <> 0.
Proof.
  unfold access_check.
  assert (H7 : (N.land 7 (N.land acc perm) =? 0) = (N.land (bits Other acc) (bits Other perm) =? 0)).
  { rewrite <- bits_land. cbn [bits]. now rewrite land7_mod. }
  assert (H4 : (N.land 448 (N.land acc perm) =? 0) = (N.land (bits Owner acc) (bits Owner perm) =? 0)).
  { rewrite <- bits_land. exact (land_shift_zero 6 _). }
  assert (H5 : (N.land 56 (N.land acc perm) =? 0) = (N.land (bits Group acc) (bits Group perm) =? 0)).
  { rewrite <- bits_land. exact (land_shift_zero 3 _). }
  rewrite H7, H4, H5.
  destruct (N.eqb_spec uid 0) as [E|E]; [split; auto|].
  destruct (N.eqb_spec (N.land (bits Other acc) (bits Other perm)) 0) as [E1|E1]; cbn [negb].
  2:{ split; [|reflexivity]. intros _. right. exists Other. split; [exact I|exact E1]. }
  destruct (N.eqb_spec (N.land (bits Owner acc) (bits Owner perm)) 0) as [E2|E2]; cbn [negb andb].
  - destruct (N.eqb_spec (N.land (bits Group acc) (bits Group perm)) 0) as [E3|E3]; cbn [negb andb].
    + split; [discriminate|]. intros [H|([] & H1 & H2)]; contradiction.
    + destruct ((gid =? ogid) || (uid_gid_check groups uid ogid =? 0)%Z)%bool eqn:Eg.
      * split; [|reflexivity]. intros _. right. exists Group. split; [|exact E3].
        apply Bool.orb_true_iff in Eg. rewrite group_ok, N.eqb_eq in Eg. exact Eg.
      * split; [discriminate|]. intros [H|([] & H1 & H2)]; try contradiction.
        cbn [in_class] in H1. rewrite <- group_ok, <- N.eqb_eq, <- Bool.orb_true_iff in H1. congruence.
  - destruct (N.eqb_spec uid ouid) as [Eo|Eo].
    + split; [|reflexivity]. intros _. right. exists Owner. split; [exact Eo|exact E2].
    + destruct (N.eqb_spec (N.land (bits Group acc) (bits Group perm)) 0) as [E3|E3]; cbn [negb andb].
      * split; [discriminate|]. intros [H|([] & H1 & H2)]; contradiction.
      * destruct ((gid =? ogid) || (uid_gid_check groups uid ogid =? 0)%Z)%bool eqn:Eg.
        -- split; [|reflexivity]. intros _. right. exists Group. split; [|exact E3].
           apply Bool.orb_true_iff in Eg. rewrite group_ok, N.eqb_eq in Eg. exact Eg.
        -- split; [discriminate|]. intros [H|([] & H1 & H2)]; try contradiction.
           cbn [in_class] in H1. rewrite <- group_ok, <- N.eqb_eq, <- Bool.orb_true_iff in H1. congruence.
Qed.

Lemma one_bit k p : k < 3 -> p < 8 -> N.land (2 ^ k) p <> 0 <-> N.land (2 ^ k) p = 2 ^ k.
Proof.
  intros Hk Hp.
  assert (Ek : k = 0 \/ k = 1 \/ k = 2) by lia.
  assert (Ep : p = 0 \/ p = 1 \/ p = 2 \/ p = 3 \/ p = 4 \/ p = 5 \/ p = 6 \/ p = 7) by lia.
  destruct Ek as [->|[->| ->]], Ep as [->|[->|[->|[->|[->|[->|[->| ->]]]]]]]; vm_compute; split; congruence.
Qed.
Lemma bits_lt c m : bits c m < 8.
Proof. destruct c; cbn [bits]; apply N.mod_lt; lia. Qed.

(** ** Buffers *)
Lemma put_ok off d m : (off + length d <= length m)%nat ->
  put off d m = Some (firstn off m ++ d ++ skipn (off + length d) m).
Proof. intros H. unfold put. replace (Nat.leb _ _) with true by (symmetry; apply Nat.leb_le; lia). reflexivity. Qed.
Lemma put_length off d m m' : put off d m = Some m' -> length m' = length m.
Proof.
  unfold put. destruct (Nat.leb_spec (off + length d) (length m)) as [H|H]; [|discriminate].
  intros E. injection E as <-. rewrite !app_length, firstn_length, skipn_length. lia.
Qed.
Lemma put_prefix off d m m' : put off d m = Some m' -> firstn (off + length d) m' = firstn off m ++ d.
Proof.
  unfold put. destruct (Nat.leb_spec (off + length d) (length m)) as [H|H]; [|discriminate].
  intros E. injection E as <-. rewrite app_assoc, firstn_app.
  replace (off + length d - length (firstn off m ++ d))%nat with 0%nat by (rewrite app_length, firstn_length; lia).
  cbn [firstn]. rewrite app_nil_r. apply firstn_all2. rewrite app_length, firstn_length. lia.
Qed.

Lemma strlen_ok a r : ~ In 0 a -> strlen (a ++ 0 :: r) = Some (length a).
Proof.
  induction a as [|c a IH]; intros H; [reflexivity|]. cbn [app strlen length].
  destruct (N.eqb_spec c 0) as [->|Hc]; [exfalso; apply H; now left|].
  rewrite IH; [reflexivity|]. intros Hi. apply H. now right.
Qed.
Lemma prefix_split {A} (l p : list A) n : firstn n l = p -> l = p ++ skipn n l.
Proof. intros <-. symmetry. apply firstn_skipn. Qed.
Lemma strlen_prefix m a : firstn (S (length a)) m = a ++ [0] -> ~ In 0 a -> strlen m = Some (length a).
Proof.
  intros H Hn. apply prefix_split in H. rewrite H, <- app_assoc. cbn [app]. now apply strlen_ok.
Qed.

(** ** References *)
Lemma alnum_spec c : alnum_ c = true <-> name_char c.
Proof. unfold alnum_, name_char. lia. Qed.

Lemma span_app f l : forall a b, span f l = (a, b) -> l = a ++ b /\ Forall (fun c => f c = true) a.
Proof.
  induction l as [|c l IH]; intros a b H; cbn [span] in H.
  - injection H as <- <-. split; [reflexivity|constructor].
  - destruct (f c) eqn:E.
    + destruct (span f l) as [a' b']. injection H as <- <-. destruct (IH a' b' eq_refl) as [-> Ha].
      split; [reflexivity|]. now constructor.
    + injection H as <- <-. split; [reflexivity|constructor].
Qed.
Lemma span_exact f a b : Forall (fun c => f c = true) a -> (match b with [] => True | c :: _ => f c = false end) ->
  span f (a ++ b) = (a, b).
Proof.
  intros Ha Hb. induction Ha as [|c a Hc Ha IH].
  - destruct b as [|c b]; [reflexivity|]. cbn. now rewrite Hb.
  - cbn [app span]. now rewrite Hc, IH.
Qed.

Lemma ref_at_some l nm r : ref_at l = Some (nm, r) <-> valid_name nm /\ l = reference nm ++ r.
Proof.
  split.
  - unfold ref_at. intros H. destruct l as [|c1 [|c2 l]]; try discriminate.
    destruct (N.eqb_spec c1 36) as [->|N1]; [|discriminate].
    destruct (N.eqb_spec c2 123) as [->|N2]; [|discriminate]. cbn [andb] in H.
    destruct (span alnum_ l) as [a b] eqn:Es. destruct b as [|b0 b]; [discriminate|].
    destruct (N.eqb_spec b0 125) as [->|N3]; [|rewrite Bool.andb_false_r in H; discriminate].
    destruct a as [|a0 a]; cbn [length Nat.eqb negb andb] in H; [discriminate|]. injection H as <- <-.
    apply span_app in Es. destruct Es as [-> Ha]. split.
    + split; [discriminate|]. eapply Forall_impl; [|exact Ha]. intros c Hc. now apply alnum_spec.
    + unfold reference. cbn [app]. rewrite <- app_assoc. reflexivity.
  - intros [(Hne & Hf) ->]. unfold reference, ref_at. cbn [app]. rewrite <- app_assoc. cbn [app].
    rewrite (span_exact alnum_ nm (125 :: r)).
    + destruct nm; [congruence|reflexivity].
    + eapply Forall_impl; [|exact Hf]. intros c Hc. now apply alnum_spec.
    + reflexivity.
Qed.
Lemma ref_at_none l : ref_at l = None -> forall nm r, valid_name nm -> l <> reference nm ++ r.
Proof. intros H nm r Hv E. assert (ref_at l = Some (nm, r)) by now apply ref_at_some. congruence. Qed.

(** Texts without any reference *)
Lemma regexec_none env l : regexec l = None -> subst env l l [].
Proof.
  induction l as [|c l IH]; [constructor|]. intros H.
  assert (ref_at (c :: l) = None /\ regexec l = None).
  { cbn [regexec] in H. destruct (ref_at (c :: l)) as [[]|]; [discriminate|].
    destruct (regexec l) as [[[]]|]; [discriminate|auto]. }
  constructor; [|apply IH; tauto]. intros nm s' Hv. now apply ref_at_none.
Qed.
Lemma regexec_some env l so eo nm : regexec l = Some (so, eo, nm) ->
  valid_name nm /\ eo = (so + length (reference nm))%nat /\ (so <= length l)%nat /\
  skipn so l = reference nm ++ skipn eo l /\
  forall r ns, subst env (skipn so l) r ns -> subst env l (firstn so l ++ r) ns.
Proof.
  revert so eo. induction l as [|c l IH]; intros so eo H.
  - discriminate.
  - cbn [regexec] in H. destruct (ref_at (c :: l)) as [[nm' r']|] eqn:E.
    + injection H as <- <- <-. apply ref_at_some in E. destruct E as [Hv E]. rewrite E.
      split; [exact Hv|]. assert (EL : (length nm' + 3)%nat = length (reference nm')) by (unfold reference; rewrite !app_length; cbn; lia).
      rewrite EL. split; [reflexivity|]. split; [lia|]. cbn [skipn firstn app]. split.
      * f_equal. rewrite skipn_app, skipn_all, Nat.sub_diag. reflexivity.
      * auto.
    + destruct (regexec l) as [[[so' eo'] nm']|] eqn:Er; [|discriminate]. injection H as <- <- <-.
      destruct (IH so' eo' eq_refl) as (Hv & He & Hl & Hs & Hsub). split; [exact Hv|]. split; [lia|].
      split; [cbn [length]; lia|]. cbn [skipn firstn]. split; [exact Hs|].
      intros r ns Hr. cbn [app]. constructor; [|auto]. intros nm s' Hvn. now apply ref_at_none.
Qed.

(** What the copying loop should produce from offset [so] on. *)
Fixpoint assemble (str : list byte) (ms : list rmatch) (so : nat) : list byte :=
  match ms with
  | [] => skipn so str
  | m :: ms' => slice so (rm_so m - so) str ++ rm_val m ++ assemble str ms' (rm_eo m)
  end.
Fixpoint ordered (str : list byte) (ms : list rmatch) (so : nat) : Prop :=
  match ms with
  | [] => (so <= length str)%nat
  | m :: ms' => (so <= rm_so m)%nat /\ (rm_so m <= rm_eo m)%nat /\ (rm_eo m <= length str)%nat /\ ordered str ms' (rm_eo m)
  end.

Definition value_of (env : list byte -> option (list byte)) (nm : list byte) : list byte :=
  match env nm with Some v => v | None => [] end.

Lemma env_scan_spec env str : forall fuel i pos, (pos <= length str)%nat -> (length str - pos < fuel)%nat ->
  exists r ns, subst env (skipn pos str) r ns /\
  (Forall (fun nm => (length nm < 100)%nat) ns -> (i + length ns < 100)%nat ->
     exists ms, env_scan fuel env i pos str = URes ms /\ ordered str ms pos /\ assemble str ms pos = r /\
       length ms = length ns /\ map rm_val ms = map (value_of env) ns) /\
  (Forall (fun nm => (length nm < 100)%nat) ns -> (100 <= i + length ns)%nat -> env_scan fuel env i pos str = UUndef) /\
  (forall ns1 nm ns2, ns = ns1 ++ nm :: ns2 -> Forall (fun nm => (length nm < 100)%nat) ns1 ->
     (100 <= length nm)%nat -> (i + length ns1 < 100)%nat -> env_scan fuel env i pos str = UAbort).
Proof.
  induction fuel as [|fuel IH]; intros i pos Hp Hf; [lia|]. cbn [env_scan].
  destruct (regexec (skipn pos str)) as [[[so eo] nm]|] eqn:E.
  - destruct (regexec_some env _ _ _ _ E) as (Hv & He & Hl & Hs & Hsub).
    rewrite skipn_length in Hl. rewrite !skipn_skipn in Hs.
    assert (Hlen : (pos + eo <= length str)%nat).
    { pose proof (f_equal (@length N) Hs) as HL. rewrite app_length, !skipn_length in HL. lia. }
    assert (Hr3 : (3 <= length (reference nm))%nat) by (unfold reference; rewrite !app_length; cbn; lia).
    destruct (IH (S i) (pos + eo)%nat Hlen ltac:(lia)) as (r & ns & Hr & H1 & H2 & H3).
    rewrite skipn_skipn in Hsub. 
    replace (so + pos)%nat with (pos + so)%nat in * by lia. replace (eo + pos)%nat with (pos + eo)%nat in * by lia.
    exists (firstn so (skipn pos str) ++ value_of env nm ++ r), (nm :: ns).
    split; [|split; [|split]].
    + apply Hsub. rewrite Hs. now constructor.
    + intros Hsh Hcnt. inversion Hsh as [|? ? Hn Hsh']; subst. cbn [length] in Hcnt.
      replace (Nat.leb 100 i) with false by (symmetry; apply Nat.leb_gt; lia).
      replace (Nat.leb 100 (length nm)) with false by (symmetry; apply Nat.leb_gt; lia).
      destruct (H1 Hsh' ltac:(lia)) as (ms & -> & Ho & Ha & Hlm & Hvm).
      eexists. split; [reflexivity|]. cbn [ordered assemble rm_so rm_eo rm_val length map].
      split; [repeat split; auto; lia|]. split; [|split; [lia|now rewrite Hvm]].
      rewrite Ha. replace (pos + so - pos)%nat with so by lia. reflexivity.
    + intros Hsh Hcnt. inversion Hsh as [|? ? Hn Hsh']; subst. cbn [length] in Hcnt.
      destruct (Nat.leb_spec 100 i); [reflexivity|].
      replace (Nat.leb 100 (length nm)) with false by (symmetry; apply Nat.leb_gt; lia).
      rewrite (H2 Hsh' ltac:(lia)). reflexivity.
    + intros [|n1 ns1] nm' ns2 Ens Hsh Hlong Hcnt; injection Ens as -> Ens.
      * replace (Nat.leb 100 i) with false by (symmetry; apply Nat.leb_gt; cbn in Hcnt; lia).
        replace (Nat.leb 100 (length nm')) with true by (symmetry; apply Nat.leb_le; lia). reflexivity.
      * inversion Hsh as [|? ? Hn Hsh']; subst. cbn [length] in Hcnt.
        replace (Nat.leb 100 i) with false by (symmetry; apply Nat.leb_gt; lia).
        replace (Nat.leb 100 (length n1)) with false by (symmetry; apply Nat.leb_gt; lia).
        rewrite (H3 ns1 nm' ns2 eq_refl Hsh' Hlong ltac:(lia)). reflexivity.
  - exists (skipn pos str), []. split; [now apply regexec_none|]. split; [|split].
    + intros _ Hcnt. cbn [length] in Hcnt. replace (Nat.leb 100 i) with false by (symmetry; apply Nat.leb_gt; lia).
      exists []. cbn [ordered assemble]. auto.
    + intros _ Hcnt. cbn [length] in Hcnt. replace (Nat.leb 100 i) with true by (symmetry; apply Nat.leb_le; lia). reflexivity.
    + intros ns1 nm ns2 Ens. destruct ns1; discriminate.
Qed.

Lemma subst_det env s r ns : subst env s r ns -> forall r' ns', subst env s r' ns' -> r = r' /\ ns = ns'.
Proof.
  induction 1 as [|nm s r ns Hv H IH|c s r ns Hno H IH]; intros r' ns' H'.
  - inversion H'; subst; auto.
  - remember (reference nm ++ s) as t eqn:Et. destruct H' as [|nm' s' r2 ns2 Hv' H2|c s' r2 ns2 Hno' H2].
    + unfold reference in Et. discriminate.
    + assert (Ex : Some (nm, s) = Some (nm', s')).
      { rewrite <- (proj2 (ref_at_some (reference nm ++ s) nm s)) by auto.
        rewrite <- Et. apply ref_at_some. auto. }
      injection Ex as <- <-. destruct (IH _ _ H2) as [<- <-]. auto.
    + exfalso. exact (Hno' nm s Hv Et).
  - remember (c :: s) as t eqn:Et. destruct H' as [|nm' s' r2 ns2 Hv' H2|c' s' r2 ns2 Hno' H2].
    + discriminate.
    + exfalso. exact (Hno nm' s' Hv' eq_refl).
    + injection Et as -> ->. destruct (IH _ _ H2) as [<- <-]. auto.
Qed.

Lemma slice_length' {A} (l : list A) a n : (a + n <= length l)%nat -> length (slice a n l) = n.
Proof. intros H. unfold slice. rewrite firstn_length, skipn_length. lia. Qed.

Lemma assemble_length str : forall ms so, ordered str ms so ->
  (length (assemble str ms so) + total (fun m => rm_eo m - rm_so m) ms =
   length str - so + total (fun m => length (rm_val m)) ms)%nat.
Proof.
  induction ms as [|m ms IH]; intros so H; cbn [assemble ordered total fold_right] in *.
  - rewrite skipn_length. lia.
  - destruct H as (H1 & H2 & H3 & H4). rewrite !app_length, slice_length' by lia.
    specialize (IH _ H4). unfold total in IH. lia.
Qed.

Lemma firstn_incl {A} (x : A) n l : In x (firstn n l) -> In x l.
Proof. intros H. rewrite <- (firstn_skipn n l). apply in_or_app. now left. Qed.
Lemma skipn_incl {A} (x : A) n l : In x (skipn n l) -> In x l.
Proof. intros H. rewrite <- (firstn_skipn n l). apply in_or_app. now right. Qed.

Lemma assemble_no_nul str : no_nul str -> forall ms so, Forall (fun m => no_nul (rm_val m)) ms ->
  no_nul (assemble str ms so).
Proof.
  unfold no_nul. intros Hs. induction ms as [|m ms IH]; intros so H; cbn [assemble].
  - intros Hi. apply skipn_incl in Hi. contradiction.
  - inversion H; subst. rewrite !in_app_iff. intros [Hi|[Hi|Hi]].
    + unfold slice in Hi. apply firstn_incl, skipn_incl in Hi. contradiction.
    + contradiction.
    + eapply IH; eauto.
Qed.

Lemma env_copy_spec str : no_nul str -> forall ms res acc so,
  Forall (fun m => no_nul (rm_val m)) ms -> ordered str ms so -> no_nul acc ->
  firstn (length acc) res = acc -> length res = (length acc + length (assemble str ms so) + 1)%nat ->
  env_copy str ms res (length acc) so = Some (acc ++ assemble str ms so ++ [0]).
Proof.
  intros Hs. induction ms as [|m ms IH]; intros res acc so Hv Ho Hn Hp Hl; cbn [env_copy assemble ordered] in *.
  - rewrite put_ok by (rewrite app_length; cbn [length]; lia). rewrite Hp.
    rewrite (skipn_all2 res) by (rewrite app_length; cbn [length]; lia). now rewrite app_nil_r.
  - destruct Ho as (H1 & H2 & H3 & H4). inversion Hv as [|? ? Hvm Hv']; subst.
    set (sl := slice so (rm_so m - so) str) in *.
    assert (Hsl : length sl = (rm_so m - so)%nat) by (apply slice_length'; lia).
    rewrite !app_length in Hl.
    destruct (put (length acc) sl res) as [r1|] eqn:E1; [|rewrite put_ok in E1 by lia; discriminate].
    pose proof (put_length _ _ _ _ E1) as L1. pose proof (put_prefix _ _ _ _ E1) as P1. rewrite Hp in P1.
    destruct (put (length acc + (rm_so m - so)) [0] r1) as [r2|] eqn:E2; [|rewrite put_ok in E2 by (cbn [length]; lia); discriminate].
    pose proof (put_length _ _ _ _ E2) as L2. pose proof (put_prefix _ _ _ _ E2) as P2.
    assert (P2' : firstn (length acc + (rm_so m - so)) r2 = acc ++ sl).
    { replace (length acc + (rm_so m - so))%nat with (Nat.min (length acc + (rm_so m - so)) (length acc + (rm_so m - so) + 1)) by lia.
      cbn [length] in P2. rewrite <- firstn_firstn, P2, <- Hsl, P1, firstn_app.
      rewrite app_length, Nat.sub_diag. cbn [firstn]. rewrite app_nil_r. apply firstn_all2. rewrite app_length. lia. }
    destruct (put (length acc + (rm_so m - so)) (rm_val m ++ [0]) r2) as [r3|] eqn:E3;
      [|rewrite put_ok in E3 by (rewrite app_length; cbn [length]; lia); discriminate].
    pose proof (put_length _ _ _ _ E3) as L3. pose proof (put_prefix _ _ _ _ E3) as P3. rewrite P2' in P3.
    set (acc' := acc ++ sl ++ rm_val m).
    assert (Hn' : no_nul acc').
    { unfold acc', no_nul. rewrite !in_app_iff. intros [Hi|[Hi|Hi]]; [contradiction| |contradiction].
      apply firstn_incl, skipn_incl in Hi. contradiction. }
    assert (La : length acc' = (length acc + (rm_so m - so) + length (rm_val m))%nat)
      by (unfold acc'; rewrite !app_length, Hsl; lia).
    assert (P3' : firstn (S (length acc')) r3 = acc' ++ [0]).
    { rewrite app_length in P3. cbn [length] in P3. rewrite La.
      replace (S (length acc + (rm_so m - so) + length (rm_val m)))%nat with
        (length acc + (rm_so m - so) + (length (rm_val m) + 1))%nat by lia.
      rewrite P3. unfold acc'. now rewrite <- !app_assoc. }
    rewrite (strlen_prefix r3 acc' P3' Hn').
    rewrite (IH r3 acc' (rm_eo m) Hv' H4 Hn').
    + unfold acc'. now rewrite <- !app_assoc.
    + replace (length acc') with (Nat.min (length acc') (S (length acc'))) at 1 by lia.
      rewrite <- firstn_firstn, P3', firstn_app, Nat.sub_diag. cbn [firstn]. rewrite app_nil_r. apply firstn_all.
    + rewrite L3, L2, L1, Hl, La, Hsl. lia.
Qed.

Definition short_names (ns : list (list byte)) : Prop := Forall (fun nm => (length nm < 100)%nat) ns.
Definition values_no_nul (env : list byte -> option (list byte)) : Prop :=
  forall nm v, env nm = Some v -> no_nul v.

Lemma value_no_nul env nm : values_no_nul env -> no_nul (value_of env nm).
Proof. intros H. unfold value_of. destruct (env nm) eqn:E; [eauto|]. intros []. Qed.

Lemma env_subst_ok env junk str r ns : (forall n, length (junk n) = n) -> no_nul str -> values_no_nul env ->
  subst env str r ns -> short_names ns -> (length ns < 100)%nat -> env_subst env junk str = URes r.
Proof.
  intros Hj Hs Hv Hsub Hsh Hc.
  destruct (env_scan_spec env str (S (length str)) 0 0 ltac:(lia) ltac:(lia)) as (r' & ns' & Hsub' & H1 & _ & _).
  cbn [skipn] in Hsub'. destruct (subst_det _ _ _ _ Hsub _ _ Hsub') as [<- <-].
  destruct (H1 Hsh Hc) as (ms & E & Ho & Ha & Hlm & Hvm). unfold env_subst. rewrite E.
  assert (Hvals : Forall (fun m => no_nul (rm_val m)) ms).
  { apply Forall_forall. intros m Hm. assert (Hin : In (rm_val m) (map (value_of env) ns)) by (rewrite <- Hvm; now apply in_map).
    apply in_map_iff in Hin. destruct Hin as (nm & <- & _). now apply value_no_nul. }
  destruct ms as [|m ms]; [cbn [assemble skipn] in Ha; now rewrite Ha|].
  remember (m :: ms) as mm eqn:Em.
  pose proof (assemble_length str mm 0 Ho) as HL. rewrite Ha in HL.
  set (L := (length str - total (fun m0 => rm_eo m0 - rm_so m0) mm + total (fun m0 => length (rm_val m0)) mm + 1)%nat).
  assert (Hnt : (total (fun m0 => rm_eo m0 - rm_so m0) mm <= length str)%nat).
  { assert (G : forall l so, ordered str l so -> (so + total (fun m0 => rm_eo m0 - rm_so m0) l <= length str)%nat).
    { induction l as [|x l IH]; intros so Hso; cbn [ordered total fold_right] in *; [lia|].
      destruct Hso as (G1 & G2 & G3 & G4). specialize (IH _ G4). unfold total in IH. lia. }
    apply (G mm 0%nat Ho). }
  assert (EL : L = (length r + 1)%nat) by (unfold L; lia).
  assert (Er : match put 0 [0] (junk L) with
    | None => UUndef
    | Some r0 => match env_copy str mm r0 0 0 with
      | None => UUndef
      | Some r1 => match strlen r1 with
        | None => UUndef
        | Some n => if Nat.eqb L (n + 1) then URes (firstn n r1) else UAbort end end end = URes r).
  { destruct (put 0 [0] (junk L)) as [r0|] eqn:E0; [|rewrite put_ok in E0 by (rewrite Hj; cbn [length]; lia); discriminate].
    pose proof (put_length _ _ _ _ E0) as L0. rewrite Hj in L0.
    assert (EC : env_copy str mm r0 (length (@nil N)) 0 = Some ([] ++ assemble str mm 0 ++ [0])).
    { apply env_copy_spec; auto; [intros []|]. cbn [length]. rewrite Ha. lia. }
    cbn [length app] in EC. rewrite EC, Ha.
    assert (Hnr : ~ In 0 r) by (rewrite <- Ha; apply assemble_no_nul; assumption).
    rewrite (strlen_ok r [] Hnr).
    replace (Nat.eqb L (length r + 1)) with true by (symmetry; apply Nat.eqb_eq; lia).
    f_equal. rewrite firstn_app, Nat.sub_diag, firstn_all. cbn [firstn]. apply app_nil_r. }
  clear -Er Em. clearbody L. rewrite Em in Er |- *. exact Er.
Qed.

Lemma env_subst_many env junk str r ns : subst env str r ns -> short_names ns -> (100 <= length ns)%nat ->
  env_subst env junk str = UUndef.
Proof.
  intros Hsub Hsh Hc.
  destruct (env_scan_spec env str (S (length str)) 0 0 ltac:(lia) ltac:(lia)) as (r' & ns' & Hsub' & _ & H2 & _).
  cbn [skipn] in Hsub'. destruct (subst_det _ _ _ _ Hsub _ _ Hsub') as [<- <-].
  unfold env_subst. now rewrite (H2 Hsh Hc).
Qed.
Lemma env_subst_long env junk str r ns1 nm ns2 : subst env str r (ns1 ++ nm :: ns2) -> short_names ns1 ->
  (length ns1 < 100)%nat -> (100 <= length nm)%nat -> env_subst env junk str = UAbort.
Proof.
  intros Hsub Hsh Hc Hl.
  destruct (env_scan_spec env str (S (length str)) 0 0 ltac:(lia) ltac:(lia)) as (r' & ns' & Hsub' & _ & _ & H3).
  cbn [skipn] in Hsub'. destruct (subst_det _ _ _ _ Hsub _ _ Hsub') as [<- <-].
  unfold env_subst. now rewrite (H3 ns1 nm ns2 eq_refl Hsh Hl Hc).
Qed.
(** Every text has a substitution. *)
Lemma subst_total env str : exists r ns, subst env str r ns.
Proof.
  destruct (env_scan_spec env str (S (length str)) 0 0 ltac:(lia) ltac:(lia)) as (r & ns & H & _).
  exists r, ns. exact H.
Qed.

(** ** Words *)
Lemma is_blank_spec c : is_blank c = true <-> blank c.
Proof. unfold is_blank, blank. lia. Qed.

Lemma toks_word w : forall cur l, Forall (fun c => ~ blank c) w ->
  toks cur (w ++ l) = toks (cur ++ w) l.
Proof.
  induction w as [|c w IH]; intros cur l H; cbn [app].
  - now rewrite app_nil_r.
  - inversion H; subst. cbn [toks]. destruct (is_blank c) eqn:E; [apply is_blank_spec in E; contradiction|].
    rewrite IH by assumption. now rewrite <- app_assoc.
Qed.
Lemma toks_blank d l : Forall blank d -> toks [] (d ++ l) = toks [] l.
Proof.
  induction 1 as [|c d Hc Hd IH]; [reflexivity|]. cbn [app toks].
  apply is_blank_spec in Hc. now rewrite Hc.
Qed.
Lemma toks_words l ws : words l ws -> toks [] l = ws.
Proof.
  induction 1 as [d Hd|d w l ws Hd Hne Hw Hl H IH].
  - rewrite <- (app_nil_r d), toks_blank by assumption. reflexivity.
  - rewrite toks_blank, toks_word by assumption. cbn [app].
    destruct Hl as [->|(c & l' & -> & Hc)].
    + cbn [toks]. cbn [toks] in IH. subst ws. destruct w; [congruence|reflexivity].
    + apply is_blank_spec in Hc. cbn [toks]. cbn [toks] in IH. rewrite Hc in *. destruct w; [congruence|]. now rewrite IH.
Qed.

Lemma words_total l : exists ws, words l ws.
Proof.
  remember (length l) as n eqn:En. revert l En. induction n as [n IH] using lt_wf_ind; intros l En.
  assert (S1 : exists d l1, l = d ++ l1 /\ Forall blank d /\ (l1 = [] \/ exists c l2, l1 = c :: l2 /\ ~ blank c)).
  { clear. induction l as [|c l (d & l1 & -> & Hd & Hl)].
    - exists [], []. auto.
    - destruct (is_blank c) eqn:E.
      + exists (c :: d), l1. split; [reflexivity|]. split; [constructor; [now apply is_blank_spec|assumption]|exact Hl].
      + exists [], (c :: d ++ l1). split; [reflexivity|]. split; [constructor|]. right. exists c, (d ++ l1).
        split; [reflexivity|]. intros H. apply is_blank_spec in H. congruence. }
  destruct S1 as (d & l1 & -> & Hd & Hl1). destruct Hl1 as [->|(c & l2 & -> & Hc)].
  { exists []. rewrite app_nil_r. now constructor. }
  assert (S2 : forall l, exists w l3, l = w ++ l3 /\ Forall (fun c => ~ blank c) w /\ (l3 = [] \/ exists c l', l3 = c :: l' /\ blank c)).
  { clear. induction l as [|c l (w & l3 & -> & Hw & Hl)].
    - exists [], []. auto.
    - destruct (is_blank c) eqn:E.
      + exists [], (c :: w ++ l3). split; [reflexivity|]. split; [constructor|]. right. exists c, (w ++ l3).
        split; [reflexivity|]. now apply is_blank_spec.
      + exists (c :: w), l3. split; [reflexivity|]. split; [|exact Hl]. constructor; [|exact Hw].
        intros H. apply is_blank_spec in H. congruence. }
  destruct (S2 l2) as (w & l3 & -> & Hw & Hl3).
  destruct (IH (length l3) ltac:(rewrite En, !app_length; cbn [length]; rewrite app_length; lia) l3 eq_refl) as (ws & Hws).
  exists ((c :: w) :: ws). change (c :: w ++ l3) with ((c :: w) ++ l3). constructor; auto. discriminate.
Qed.

Lemma cut_eq_none w : cut_eq w = None <-> ~ In 61 w.
Proof.
  induction w as [|c w IH]; cbn [cut_eq In]; [tauto|].
  destruct (N.eqb_spec c 61) as [->|Hc]; [split; [discriminate|intros H; exfalso; apply H; now left]|].
  destruct (cut_eq w) as [[n v]|].
  - split; [discriminate|]. intros H. exfalso. apply H. right. destruct IH as [_ IH].
    destruct (in_dec N.eq_dec 61 w) as [Hi|Hi]; [exact Hi|]. discriminate (IH Hi).
  - split; [|reflexivity]. intros _ [E|Hi]; [contradiction|]. now apply (proj1 IH).
Qed.
Lemma cut_eq_some w : forall n v, cut_eq w = Some (n, v) <-> ~ In 61 n /\ w = n ++ 61 :: v.
Proof.
  induction w as [|c w IH]; intros n v; cbn [cut_eq].
  - split; [discriminate|]. intros [_ E]. destruct n; discriminate.
  - destruct (N.eqb_spec c 61) as [->|Hc].
    + split.
      * intros E. injection E as <- <-. split; [intros []|reflexivity].
      * intros [Hn E]. destruct n as [|x n]; cbn [app] in E; [injection E as <-; reflexivity|].
        injection E as <- _. exfalso. apply Hn. now left.
    + destruct (cut_eq w) as [[n' v']|] eqn:E'.
      * split.
        -- intros E. injection E as <- <-. destruct (proj1 (IH n' v') eq_refl) as [Hn ->].
           split; [|reflexivity]. intros [E|Hi]; [contradiction|]. now apply Hn.
        -- intros [Hn E]. destruct n as [|x n]; cbn [app] in E; [injection E as -> _; contradiction|].
           injection E as <- ->. assert (Es : Some (n', v') = Some (n, v)).
           { apply (IH n v). split; [|reflexivity]. intros Hi. apply Hn. now right. }
           injection Es as <- <-. reflexivity.
      * split; [discriminate|]. intros [Hn E]. destruct n as [|x n]; cbn [app] in E; [injection E as -> _; contradiction|].
        injection E as <- ->. exfalso. assert (Es : @None (list N * list N) = Some (n, v)).
        { apply (IH n v). split; [|reflexivity]. intros Hi. apply Hn. now right. }
        discriminate.
Qed.
Lemma sorted_total ws : exists ks vs, sorted_words ws ks vs.
Proof.
  induction ws as [|w ws (ks & vs & H)]; [exists [], []; constructor|].
  destruct (cut_eq w) as [[n v]|] eqn:E.
  - apply cut_eq_some in E. destruct E as [Hn ->]. exists ks, ((n, Some v) :: vs). now constructor.
  - apply cut_eq_none in E. exists ((w, None) :: ks), vs. now constructor.
Qed.

Lemma set_slot_app a x y b : set_slot (length a) x (a ++ y :: b) = a ++ x :: b.
Proof. induction a as [|z a IH]; cbn; [reflexivity|now rewrite IH]. Qed.

Lemma tokenize_loop_ok ws ks vs : sorted_words ws ks vs -> forall kd ks0 kr ad as0 ar,
  length ks = length ks0 -> length vs = length as0 ->
  tokenize_loop ws (kd ++ ks0 ++ kr) (ad ++ as0 ++ ar) (length kd) (length ad) =
  (0%Z, kd ++ ks ++ kr, ad ++ vs ++ ar, (length kd + length ks)%nat, (length ad + length vs)%nat).
Proof.
  induction 1 as [|w ws ks vs Hw H IH|n v ws ks vs Hn H IH]; intros kd ks0 kr ad as0 ar Hk Ha.
  - destruct ks0; [|discriminate]. destruct as0; [|discriminate]. cbn [tokenize_loop length app]. now rewrite !Nat.add_0_r.
  - destruct ks0 as [|k0 ks0]; [discriminate|]. cbn [length] in Hk. cbn [tokenize_loop].
    rewrite (proj2 (cut_eq_none w) Hw).
    replace (Nat.leb (length (kd ++ (k0 :: ks0) ++ kr)) (length kd)) with false
      by (symmetry; apply Nat.leb_gt; rewrite !app_length; cbn [length]; lia).
    cbn [app]. rewrite set_slot_app.
    change (kd ++ (w, None) :: ks0 ++ kr) with (kd ++ [(w, @None (list N))] ++ ks0 ++ kr).
    rewrite (app_assoc kd). specialize (IH (kd ++ [(w, None)]) ks0 kr ad as0 ar).
    rewrite app_length in IH. cbn [length] in IH. replace (length kd + 1)%nat with (S (length kd)) in IH by lia.
    rewrite IH by lia. rewrite <- app_assoc. cbn [length app]. f_equal. f_equal. lia.
  - destruct as0 as [|a0 as0]; [discriminate|]. cbn [length] in Ha. cbn [tokenize_loop].
    rewrite (proj2 (cut_eq_some (n ++ 61 :: v) n v) (conj Hn eq_refl)).
    replace (Nat.leb (length (ad ++ (a0 :: as0) ++ ar)) (length ad)) with false
      by (symmetry; apply Nat.leb_gt; rewrite !app_length; cbn [length]; lia).
    cbn [app]. rewrite set_slot_app.
    change (ad ++ (n, Some v) :: as0 ++ ar) with (ad ++ [(n, Some v)] ++ as0 ++ ar).
    rewrite (app_assoc ad). specialize (IH kd ks0 kr (ad ++ [(n, Some v)]) as0 ar).
    rewrite app_length in IH. cbn [length] in IH. replace (length ad + 1)%nat with (S (length ad)) in IH by lia.
    rewrite IH by lia. rewrite <- app_assoc. cbn [length app]. f_equal. lia.
Qed.
Lemma set_slot_length i x l : length (set_slot i x l) = length l.
Proof. revert i. induction l as [|y l IH]; intros [|i]; cbn; auto. Qed.
Lemma tokenize_loop_full ws ks vs : sorted_words ws ks vs -> forall kw av nk na,
  (length kw < nk + length ks \/ length av < na + length vs)%nat ->
  (nk <= length kw)%nat -> (na <= length av)%nat ->
  fst (fst (fst (fst (tokenize_loop ws kw av nk na)))) = ENOMEM.
Proof.
  induction 1 as [|w ws ks vs Hw H IH|n v ws ks vs Hn H IH]; intros kw av nk na Hf Hk Ha; cbn [length tokenize_loop] in *.
  - lia.
  - rewrite (proj2 (cut_eq_none w) Hw). destruct (Nat.leb_spec (length kw) nk); [reflexivity|].
    apply IH; rewrite ?set_slot_length; lia.
  - rewrite (proj2 (cut_eq_some (n ++ 61 :: v) n v) (conj Hn eq_refl)).
    destruct (Nat.leb_spec (length av) na); [reflexivity|].
    apply IH; rewrite ?set_slot_length; lia.
Qed.
Lemma tokenize_loop_len ws : forall kw av nk na,
  length (snd (fst (fst (fst (tokenize_loop ws kw av nk na))))) = length kw /\
  length (snd (fst (fst (tokenize_loop ws kw av nk na)))) = length av.
Proof.
  induction ws as [|w ws IH]; intros kw av nk na; cbn [tokenize_loop]; [auto|].
  destruct (cut_eq w) as [[n v]|].
  - destruct (Nat.leb _ _); [auto|]. destruct (IH kw (set_slot na (n, Some v) av) nk (S na)) as [H1 H2].
    now rewrite set_slot_length in H2.
  - destruct (Nat.leb _ _); [auto|]. destruct (IH (set_slot nk (w, None) kw) av (S nk) na) as [H1 H2].
    now rewrite set_slot_length in H1.
Qed.

(** ** Lookups *)
Lemma leqb_spec a b : Bool.reflect (a = b) (leqb a b).
Proof. unfold leqb. destruct (list_eq_dec N.eq_dec a b); constructor; assumption. Qed.
Lemma leqb_refl a : leqb a a = true.
Proof. destruct (leqb_spec a a); congruence. Qed.

Lemma first_value_app a n v b : ~ In n (map fst a) -> first_value (a ++ (n, v) :: b) n = v.
Proof.
  induction a as [|[m w] a IH]; intros H; cbn [app first_value].
  - now rewrite leqb_refl.
  - destruct (leqb_spec n m) as [->|E]; [exfalso; apply H; now left|]. apply IH. intros Hi. apply H. now right.
Qed.
Lemma first_value_absent l n : ~ In n (map fst l) -> first_value l n = None.
Proof.
  induction l as [|[m w] l IH]; intros H; cbn [first_value]; [reflexivity|].
  destruct (leqb_spec n m) as [->|E]; [exfalso; apply H; now left|]. apply IH. intros Hi. apply H. now right.
Qed.

Definition occurrences (n : list byte) (l : list slot) : nat := length (filter (fun p => leqb n (fst p)) l).
Lemma idx_loop_neg n l : forall i k, (k < -1)%Z -> idx_loop l n i k = (k - Z.of_nat (occurrences n l))%Z.
Proof.
  unfold occurrences. induction l as [|[m w] l IH]; intros i k Hk; cbn [idx_loop filter fst].
  - cbn [length]. lia.
  - destruct (leqb n m).
    + replace (k =? -1)%Z with false by lia. replace (k <? 0)%Z with true by lia. rewrite IH by lia. cbn [length]. lia.
    + now apply IH.
Qed.
Lemma idx_loop_pos n l : forall i k, (0 <= k)%Z ->
  idx_loop l n i k = match occurrences n l with O => k | S c => (-2 - Z.of_nat c)%Z end.
Proof.
  unfold occurrences. induction l as [|[m w] l IH]; intros i k Hk; cbn [idx_loop filter fst]; [reflexivity|].
  destruct (leqb n m).
  - replace (k =? -1)%Z with false by lia. replace (k <? 0)%Z with false by lia.
    rewrite idx_loop_neg by lia. cbn [length]. unfold occurrences. lia.
  - now apply IH.
Qed.
Lemma occurrences_app n a b : occurrences n (a ++ b) = (occurrences n a + occurrences n b)%nat.
Proof. unfold occurrences. now rewrite filter_app, app_length. Qed.
Lemma occurrences_zero n l : ~ In n (map fst l) -> occurrences n l = 0%nat.
Proof.
  unfold occurrences. induction l as [|[m w] l IH]; intros H; [reflexivity|]. cbn [filter fst].
  destruct (leqb_spec n m) as [->|E]; [exfalso; apply H; now left|]. apply IH. intros Hi. apply H. now right.
Qed.
Lemma idx_loop_absent n l : forall i, ~ In n (map fst l) -> idx_loop l n i (-1) = (-1)%Z.
Proof.
  induction l as [|[m w] l IH]; intros i H; [reflexivity|]. cbn [idx_loop].
  destruct (leqb_spec n m) as [->|E]; [exfalso; apply H; now left|]. apply IH. intros Hi. apply H. now right.
Qed.
Lemma idx_loop_first n v a b : forall i, ~ In n (map fst a) -> (0 <= i)%Z ->
  idx_loop (a ++ (n, v) :: b) n i (-1) =
  match occurrences n b with O => (i + Z.of_nat (length a))%Z | S c => (-2 - Z.of_nat c)%Z end.
Proof.
  induction a as [|[m w] a IH]; intros i H Hi; cbn [app idx_loop].
  - rewrite leqb_refl. cbn [Z.eqb Pos.eqb]. rewrite idx_loop_pos by lia. cbn [length]. now rewrite Z.add_0_r.
  - destruct (leqb_spec n m) as [->|E]; [exfalso; apply H; now left|].
    rewrite IH; [|intros Hin; apply H; now right|lia]. destruct (occurrences n b); [|reflexivity]. cbn [length]. lia.
Qed.

(** ** Sizes *)
Lemma dec_value_snoc l c : dec_value (l ++ [c]) = dec_value l * 10 + (c - 48).
Proof. unfold dec_value. rewrite fold_left_app. reflexivity. Qed.
Lemma decimal_value l n : decimal l n -> dec_value l = n /\ Forall (fun c => isdigit c = true) l /\ l <> [].
Proof.
  induction 1 as [c Hc|l n c H (IH1 & IH2 & IH3) Hc].
  - split; [unfold dec_value; cbn [fold_left]; lia|]. split; [|discriminate].
    constructor; [unfold isdigit; lia|constructor].
  - rewrite dec_value_snoc, IH1. split; [lia|]. split; [|destruct l; discriminate].
    apply Forall_app. split; [assumption|]. constructor; [unfold isdigit; lia|constructor].
Qed.

Lemma scan_digits l n sp u r : decimal l n -> Forall (fun c => isspace c = true) sp ->
  isspace u = false -> (sp = [] -> isdigit u = false) -> n <= ULONG_MAX ->
  scan_lu_c (l ++ sp ++ u :: r) = Some (n, u).
Proof.
  intros Hd Hsp Hu Hud Hn. destruct (decimal_value l n Hd) as (Hv & Hf & Hne).
  unfold scan_lu_c. destruct l as [|c l]; [congruence|].
  assert (Hc : isdigit c = true) by (inversion Hf; assumption).
  assert (E0 : isspace c = false) by (unfold isdigit, isspace in *; lia).
  assert (E1 : (c =? 45) = false) by (unfold isdigit in Hc; lia).
  assert (E2 : (c =? 43) = false) by (unfold isdigit in Hc; lia).
  cbn [app skip_space]. rewrite E0, E1, E2.
  change (c :: l ++ sp ++ u :: r) with ((c :: l) ++ (sp ++ u :: r)).
  rewrite (span_exact isdigit (c :: l) (sp ++ u :: r) Hf).
  - rewrite Hv. replace (ULONG_MAX <? n) with false by (symmetry; apply N.ltb_ge; exact Hn).
    assert (Es : skip_space (sp ++ u :: r) = u :: r).
    { clear - Hsp Hu. induction Hsp as [|x sp Hx Hsp IH]; cbn [app skip_space]; [now rewrite Hu|now rewrite Hx]. }
    now rewrite Es.
  - destruct sp as [|x sp]; cbn [app]; [auto|]. inversion Hsp; subst. unfold isspace, isdigit in *. lia.
Qed.

Lemma mem_size_ok l n sp sfx k : decimal l n -> Forall (fun c => isspace c = true) sp ->
  In (sfx, k) suffixes -> k <> 4 -> n * 1024 ^ k <= ULONG_MAX ->
  mem_size (l ++ sp ++ sfx) = Some (n * 1024 ^ k).
Proof.
  intros Hd Hsp Hin Hk Hn. unfold mem_size.
  assert (Hn1 : n <= ULONG_MAX).
  { assert (1 <= 1024 ^ k) by (change 1 with (1024 ^ 0); apply N.pow_le_mono_r; lia). nia. }
  assert (Hmod : (n * 1024 ^ k) mod (ULONG_MAX + 1) = n * 1024 ^ k) by (apply N.mod_small; lia).
  assert (G : forall u r, sfx ++ [66] = u :: r -> isspace u = false -> isdigit u = false ->
    (if ((u =? 98) || (u =? 66))%bool then 1
             else if ((u =? 107) || (u =? 75))%bool then 1024
             else if ((u =? 109) || (u =? 77))%bool then 1048576
             else if ((u =? 103) || (u =? 71))%bool then 1073741824
             else if ((u =? 116) || (u =? 84))%bool then 1073741824
             else 0) = 1024 ^ k ->
    match scan_lu_c ((l ++ sp ++ sfx) ++ [66]) with
    | None => None
    | Some (n, u) =>
      let m := if ((u =? 98) || (u =? 66))%bool then 1
             else if ((u =? 107) || (u =? 75))%bool then 1024
             else if ((u =? 109) || (u =? 77))%bool then 1048576
             else if ((u =? 103) || (u =? 71))%bool then 1073741824
             else if ((u =? 116) || (u =? 84))%bool then 1073741824
             else 0 in
      Some ((n * m) mod (ULONG_MAX + 1))
    end = Some (n * 1024 ^ k)).
  { intros u r E Hu Hd1 Em. rewrite <- !app_assoc, E. rewrite (scan_digits l n sp u r) by auto. cbv zeta.
    rewrite Em, Hmod. reflexivity. }
  cbn [suffixes In] in Hin.
  repeat (destruct Hin as [Hin|Hin]; [injection Hin as <- <-; try congruence; eapply G; reflexivity|]). destruct Hin.
Qed.
Lemma mem_size_T l n sp u : decimal l n -> Forall (fun c => isspace c = true) sp -> u = 84 \/ u = 116 ->
  n * 1024 ^ 3 <= ULONG_MAX -> mem_size (l ++ sp ++ [u]) = Some (n * 1024 ^ 3).
Proof.
  intros Hd Hsp Hu Hn. unfold mem_size. rewrite <- !app_assoc.
  assert (Hn1 : n <= ULONG_MAX) by (change (1024 ^ 3) with 1073741824 in Hn; lia).
  change ([u] ++ [66]) with (u :: [66]).
  rewrite (scan_digits l n sp u [66] Hd Hsp); [|destruct Hu; subst; reflexivity|destruct Hu; subst; reflexivity|exact Hn1].
  assert (Hmod : (n * 1024 ^ 3) mod (ULONG_MAX + 1) = n * 1024 ^ 3) by (apply N.mod_small; lia).
  cbv zeta. destruct Hu as [-> | ->]; cbn [N.eqb Pos.eqb orb]; exact (f_equal Some Hmod).
Qed.

(** ** Joining *)
Lemma joined_cons sep a b args : joined sep (a :: b :: args) = a ++ sep ++ joined sep (b :: args).
Proof. reflexivity. Qed.
Lemma joined_snoc_len sep a args : (length a <= length (joined sep (a :: args)))%nat.
Proof. destruct args as [|b args]; [cbn; lia|]. rewrite joined_cons, app_length. lia. Qed.

Lemma join_loop_spec sep : forall ns buf acc, firstn (length acc) buf = acc -> (length acc < length buf)%nat ->
  exists rc b len, join_loop sep ns buf (length acc) = Some (rc, b, len) /\ length b = length buf /\
    (len < length buf)%nat /\
    let full := joined sep (acc :: ns) in
    firstn len b = firstn len full /\ (len <= length full)%nat /\
    (if Nat.ltb (length full) (length buf) then rc = 0%Z /\ len = length full else rc = E2BIG).
Proof.
  induction ns as [|n ns IH]; intros buf acc Hp Hl; cbn [join_loop].
  - exists 0%Z, buf, (length acc). repeat split; auto; cbn [joined].
    + now rewrite firstn_all.
    + replace (Nat.ltb (length acc) (length buf)) with true by (symmetry; apply Nat.ltb_lt; lia). auto.
  - cbv zeta. rewrite joined_cons.
    assert (Hlj := joined_snoc_len sep n ns).
    destruct (Nat.ltb_spec (length acc + length sep) (length buf)) as [H1|H1].
    + destruct (put (length acc) sep buf) as [b1|] eqn:E1; [|rewrite put_ok in E1 by lia; discriminate].
      pose proof (put_length _ _ _ _ E1) as L1. pose proof (put_prefix _ _ _ _ E1) as P1. rewrite Hp in P1.
      destruct (Nat.ltb_spec (length acc + length sep + length n) (length buf)) as [H2|H2].
      * destruct (put (length acc + length sep) n b1) as [b2|] eqn:E2; [|rewrite put_ok in E2 by lia; discriminate].
        pose proof (put_length _ _ _ _ E2) as L2. pose proof (put_prefix _ _ _ _ E2) as P2. rewrite P1 in P2.
        destruct (IH b2 (acc ++ sep ++ n)) as (rc & b & len & E & Lb & Hlen & Hf).
        { rewrite !app_length, Nat.add_assoc, P2. now rewrite <- app_assoc. }
        { rewrite !app_length. lia. }
        rewrite !app_length, Nat.add_assoc in E. rewrite E.
        exists rc, b, len. split; [reflexivity|]. split; [congruence|]. split; [lia|].
        assert (EJ : joined sep ((acc ++ sep ++ n) :: ns) = acc ++ sep ++ joined sep (n :: ns)).
        { destruct ns as [|m ns]; [reflexivity|]. rewrite !joined_cons. now rewrite <- !app_assoc. }
        rewrite EJ in Hf. cbv zeta in Hf. rewrite L2, L1 in Hf. exact Hf.
      * exists E2BIG, b1, (length acc + length sep)%nat. split; [reflexivity|]. split; [exact L1|]. split; [exact H1|].
        split; [|split].
        -- rewrite P1, app_assoc, firstn_app, app_length, Nat.sub_diag. cbn [firstn]. rewrite app_nil_r.
           symmetry. apply firstn_all2. rewrite app_length. lia.
        -- rewrite !app_length. lia.
        -- replace (Nat.ltb _ _) with false; [reflexivity|]. symmetry. apply Nat.ltb_ge. rewrite !app_length. lia.
    + exists E2BIG, buf, (length acc). split; [reflexivity|]. split; [reflexivity|]. split; [exact Hl|]. split; [|split].
      * rewrite Hp, firstn_app, Nat.sub_diag. cbn [firstn]. rewrite app_nil_r. symmetry. apply firstn_all.
      * rewrite app_length. lia.
      * replace (Nat.ltb _ _) with false; [reflexivity|]. symmetry. apply Nat.ltb_ge. rewrite !app_length. lia.
Qed.

Lemma join_buf_spec buf sep args : args <> [] -> buf <> [] ->
  exists rc b len, join_buf buf sep args = Some (rc, b) /\ length b = length buf /\ (len < length buf)%nat /\
    firstn (S len) b = firstn len (joined sep args) ++ [0] /\ (len <= length (joined sep args))%nat /\
    (if Nat.ltb (length (joined sep args)) (length buf) then rc = 0%Z /\ len = length (joined sep args) else rc = E2BIG).
Proof.
  intros Ha Hb. unfold join_buf. assert (Hlb : (0 < length buf)%nat) by (destruct buf; [congruence|cbn; lia]).
  destruct (put 0 [0] buf) as [b0|] eqn:E0; [|rewrite put_ok in E0 by (cbn [length]; lia); discriminate].
  pose proof (put_length _ _ _ _ E0) as L0.
  destruct args as [|n ns]; [congruence|].
  assert (G : exists rc b len, (if Nat.ltb (length n) (length buf) then
       match put 0 n b0 with None => None | Some b1 => join_loop sep ns b1 (length n) end
     else Some (E2BIG, b0, 0%nat)) = Some (rc, b, len) /\ length b = length buf /\ (len < length buf)%nat /\
     firstn len b = firstn len (joined sep (n :: ns)) /\ (len <= length (joined sep (n :: ns)))%nat /\
    (if Nat.ltb (length (joined sep (n :: ns))) (length buf) then rc = 0%Z /\ len = length (joined sep (n :: ns)) else rc = E2BIG)).
  { destruct (Nat.ltb_spec (length n) (length buf)) as [H|H].
    - destruct (put 0 n b0) as [b1|] eqn:E1; [|rewrite put_ok in E1 by lia; discriminate].
      pose proof (put_length _ _ _ _ E1) as L1. pose proof (put_prefix _ _ _ _ E1) as P1. cbn [firstn app plus] in P1.
      destruct (join_loop_spec sep ns b1 n P1 ltac:(lia)) as (rc & b & len & E & Lb & Hlen & Hf).
      exists rc, b, len. split; [exact E|]. split; [lia|]. split; [lia|]. cbv zeta in Hf. now rewrite L1, L0 in Hf.
    - exists E2BIG, b0, 0%nat. pose proof (joined_snoc_len sep n ns). repeat split; auto; try lia.
      replace (Nat.ltb _ _) with false; [reflexivity|]. symmetry. apply Nat.ltb_ge. lia. }
  destruct G as (rc & b & len & -> & Lb & Hlen & Hf & Hle & Hrc).
  destruct (put len [0] b) as [b'|] eqn:E; [|rewrite put_ok in E by (cbn [length]; lia); discriminate].
  exists rc, b', len. split; [reflexivity|]. pose proof (put_length _ _ _ _ E). split; [lia|]. split; [exact Hlen|].
  pose proof (put_prefix _ _ _ _ E) as P. cbn [length] in P. rewrite Hf, Nat.add_1_r in P. auto.
Qed.
