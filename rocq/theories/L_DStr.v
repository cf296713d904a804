(** Lemmas for the dynamic strings. *)
From Verif Require Export S_DStr.
Local Open Scope Z_scope.

Lemma cstr_app t b : is_text t -> cstr (t ++ 0%N :: b) = Some t.
Proof.
  induction 1 as [|c t Hc _ IH]; cbn [app cstr]; [reflexivity|]. rewrite (proj2 (N.eqb_neq _ _) Hc), IH. reflexivity.
Qed.
Lemma cstr_inv b t : cstr b = Some t -> is_text t /\ exists r, b = t ++ 0%N :: r.
Proof.
  revert t. induction b as [|c b IH]; intros t; cbn [cstr]; [discriminate|]. destruct (N.eqb_spec c 0) as [->|Hc].
  - intros E. injection E as <-. split; [constructor|now exists b].
  - destruct (cstr b) as [l|]; [|discriminate]. intros E. injection E as <-. destruct (IH l eq_refl) as (H1 & r & ->).
    split; [now constructor|now exists r].
Qed.
Lemma to_int_id v : 0 <= v <= INT_MAX -> to_int v = v.
Proof. unfold to_int, INT_MAX. intros H. rewrite Z.mod_small; lia. Qed.
Lemma strncpy_all t n : n = Z.of_nat (length t) -> strncpy_data t n = t.
Proof.
  intros ->. unfold strncpy_data. rewrite Nat2Z.id, firstn_all, Nat.sub_diag. apply app_nil_r.
Qed.
Lemma strncpy_part t n : 0 <= n <= Z.of_nat (length t) -> strncpy_data t n = firstn (Z.to_nat n) t.
Proof. intros H. unfold strncpy_data. replace (Z.to_nat n - length t)%nat with 0%nat by lia. apply app_nil_r. Qed.

(** The representation invariant *)
Record rep (s : ds) (a : list byte * bool) : Prop := mkRep {
  rp_text : is_text (fst a);
  rp_str : exists r, string s = fst a ++ 0%N :: r;
  rp_len : dlen s = Z.of_nat (length (fst a));
  rp_dead : dead s = snd a;
  rp_cap : STATIC_SIZE <= dcap s <= INT_MAX;
  rp_buf : dcap s = Z.of_nat (length (string s));
  rp_static : Z.of_nat (length (sbuf s)) = STATIC_SIZE;
  rp_blocks : blocks s = match hbuf s with Some _ => 1 | None => 0 end }.

Lemma wr_ok i d b : 0 <= i -> i + Z.of_nat (length d) <= Z.of_nat (length b) -> wr i d b = Some (splice (Z.to_nat i) d b).
Proof. intros H1 H2. unfold wr. now rewrite (proj2 (Z.leb_le _ _) H1), (proj2 (Z.leb_le _ _) H2). Qed.
Lemma put_ok i d s : 0 <= i -> i + Z.of_nat (length d) <= Z.of_nat (length (string s)) ->
  exists s', put i d s = Some s' /\ string s' = splice (Z.to_nat i) d (string s) /\ dlen s' = dlen s /\ dcap s' = dcap s /\ dead s' = dead s /\
    blocks s' = blocks s /\ length (sbuf s') = length (sbuf s) /\ (hbuf s' = None <-> hbuf s = None).
Proof.
  intros H1 H2. unfold put, string in *. destruct (hbuf s) as [b|] eqn:E; rewrite wr_ok by assumption; eexists; (split; [reflexivity|]);
    cbn [hbuf sbuf dlen dcap dead blocks]; (split; [reflexivity|]).
  - repeat split; discriminate.
  - repeat split. apply splice_length. lia.
Qed.
Lemma splice_at {A} (a d m : list A) r : length m = length d -> splice (length a) d (a ++ m ++ r) = a ++ d ++ r.
Proof.
  intros H. unfold splice. rewrite firstn_app, Nat.sub_diag, firstn_all, firstn_O, app_nil_r. f_equal. f_equal.
  rewrite app_assoc. rewrite skipn_app. rewrite app_length, H, Nat.sub_diag. rewrite skipn_all2 by (rewrite app_length; lia). reflexivity.
Qed.
Lemma cut_at {A} (l : list A) n : (n <= length l)%nat -> exists a b, l = a ++ b /\ length a = n.
Proof. intros H. exists (firstn n l), (skipn n l). rewrite firstn_skipn, firstn_length. split; [reflexivity|lia]. Qed.

(** Writing a text at the end of a prefix and terminating it *)
Lemma fill_ok s p t (m : nat) : string s = p ++ skipn (length p) (string s) -> (length p + length t < length (string s))%nat ->
  is_text (p ++ t) ->
  exists s1 s2, put (Z.of_nat (length p)) t s = Some s1 /\ put (Z.of_nat (length p + length t)) [0%N] (set_len (Z.of_nat (length p + length t)) s1) = Some s2 /\
    dlen s1 = dlen s /\
    (exists r, string s2 = (p ++ t) ++ 0%N :: r) /\ length (string s2) = length (string s) /\ dlen s2 = Z.of_nat (length (p ++ t)) /\ dcap s2 = dcap s /\ dead s2 = dead s /\
    blocks s2 = blocks s /\ length (sbuf s2) = length (sbuf s) /\ (hbuf s2 = None <-> hbuf s = None).
Proof.
  intros Hp Hl Ht. destruct (put_ok (Z.of_nat (length p)) t s) as (s1 & E1 & F1 & F2 & F3 & F4 & F5 & F6 & F7); [lia|lia|].
  set (r := skipn (length p) (string s)) in *. assert (Hr : (length t < length r)%nat) by (unfold r; rewrite skipn_length; lia).
  destruct (cut_at r (length t)) as (m1 & r1 & Er & Hm1); [lia|]. destruct r1 as [|c r1]; [rewrite Er, app_nil_r in Hr; lia|].
  assert (Es1 : string s1 = (p ++ t) ++ c :: r1).
  { rewrite F1, Nat2Z.id, Hp, Er, <- app_assoc. now apply splice_at. }
  destruct (put_ok (Z.of_nat (length p + length t)) [0%N] (set_len (Z.of_nat (length p + length t)) s1)) as (s2 & G1 & G2 & G3 & G4 & G5 & G6 & G7 & G8).
  { lia. }
  { change (string (set_len (Z.of_nat (length p + length t)) s1)) with (string s1). rewrite Es1, !app_length. cbn [length]. lia. }
  change (string (set_len (Z.of_nat (length p + length t)) s1)) with (string s1) in G2.
  cbn [set_len dlen dcap dead blocks sbuf hbuf] in G3, G4, G5, G6, G7, G8.
  exists s1, s2. split; [exact E1|]. split; [exact G1|]. split; [exact F2|].
  assert (Es2 : string s2 = (p ++ t) ++ 0%N :: r1).
  { rewrite G2, Nat2Z.id, Es1. rewrite <- app_length. exact (splice_at (p ++ t) [0%N] [c] r1 eq_refl). }
  split; [now exists r1|]. split; [rewrite Es2, Hp, Er, !app_length; cbn [length]; lia|].
  split; [rewrite G3, app_length; reflexivity|]. split; [congruence|]. split; [congruence|]. split; [congruence|]. split; [congruence|]. rewrite G8. exact F7.
Qed.

Lemma hb_blocks s s2 a : blocks s = (match hbuf s with Some _ => 1 | None => 0 end) -> blocks s2 = blocks s -> (hbuf s2 = None <-> hbuf s = None) -> a = s2 ->
  blocks a = match hbuf a with Some _ => 1 | None => 0 end.
Proof.
  intros H1 H2 H3 ->. rewrite H2, H1. destruct (hbuf s2), (hbuf s); try reflexivity; destruct H3 as [H3 H4]; try discriminate (H3 eq_refl); discriminate (H4 eq_refl).
Qed.

Lemma new_cap_ok n : 0 <= n <= INT_MAX - 1 -> n < new_cap n \/ n = 0.
Proof. unfold new_cap, INT_MAX. intros H. destruct (Z.ltb_spec (2147483647 / 2) n); lia. Qed.
Lemma new_cap_range n : STATIC_SIZE <= n <= INT_MAX - 1 -> n < new_cap n <= INT_MAX.
Proof.
  unfold new_cap, INT_MAX, STATIC_SIZE. intros H. change (2147483647 / 2) with 1073741823. destruct (Z.ltb_spec 1073741823 n); lia.
Qed.

(** The state after the buffer was (re)placed *)
Lemma rep_take s a b t c : rep s a -> sane c -> c t = Some b -> STATIC_SIZE <= t <= INT_MAX ->
  forall s0, s0 = take b (set_cap t (set_dead false s)) ->
  string s0 = b /\ dcap s0 = t /\ Z.of_nat (length (string s0)) = t /\ dead s0 = false /\ Z.of_nat (length (sbuf s0)) = STATIC_SIZE /\ blocks s0 = 1 /\ hbuf s0 <> None /\ dlen s0 = dlen s.
Proof.
  intros H Hc E Ht s0 ->. cbn [take set_cap set_dead string hbuf dcap dead sbuf blocks dlen]. unfold string. cbn [hbuf].
  repeat split; [exact (Hc _ _ E)|apply (rp_static _ _ H)| |discriminate]. rewrite (rp_blocks _ _ H). destruct (hbuf s); lia.
Qed.

Lemma rep_filled s p t : Z.of_nat (length (string s)) = dcap s -> STATIC_SIZE <= dcap s <= INT_MAX -> dead s = false -> Z.of_nat (length (sbuf s)) = STATIC_SIZE ->
  blocks s = match hbuf s with Some _ => 1 | None => 0 end ->
  string s = p ++ skipn (length p) (string s) -> is_text (p ++ t) -> Z.of_nat (length (p ++ t)) < dcap s ->
  exists s1 s2, put (Z.of_nat (length p)) t s = Some s1 /\ dlen s1 = dlen s /\
    put (Z.of_nat (length p + length t)) [0%N] (set_len (Z.of_nat (length p + length t)) s1) = Some s2 /\ rep s2 (p ++ t, false).
Proof.
  intros H1 H2 H3 H4 H5 H6 H7 H8. rewrite app_length in H8. destruct (fill_ok s p t 0 H6) as (s1 & s2 & E1 & E2 & F0 & F1 & F2 & F3 & F4 & F5 & F6 & F7 & F8); [lia|exact H7|].
  exists s1, s2. split; [exact E1|]. split; [exact F0|]. split; [exact E2|]. constructor; cbn [fst snd].
  - exact H7.
  - exact F1.
  - exact F3.
  - congruence.
  - lia.
  - lia.
  - lia.
  - eapply (hb_blocks s s2); eauto.
Qed.

Lemma set_rep al t s a : sane al -> rep s a -> is_text t -> room t ->
  exists s' b, dstr_set al t s = Some (s', b) /\ exists a', stores al a t (if b then RSelf else RNull) a' /\ rep s' a'.
Proof.
  intros Hal H Ht Hr. unfold room in Hr. unfold dstr_set. rewrite (proj2 (Z.ltb_ge INT_MAX (Z.of_nat (length t)))) by lia.
  rewrite to_int_id by (unfold INT_MAX in *; lia). cbv zeta. change (dcap (set_dead false s)) with (dcap s).
  rewrite strncpy_all by reflexivity.
  pose proof (rp_cap _ _ H) as Hcap. destruct (Z.leb_spec (dcap s) (Z.of_nat (length t))) as [Hge|Hlt].
  - assert (Hn : STATIC_SIZE <= Z.of_nat (length t) <= INT_MAX - 1) by lia. pose proof (new_cap_range _ Hn) as Hnc.
    destruct (al (new_cap (Z.of_nat (length t)))) as [b|] eqn:Eal.
    + destruct (rep_take s a b _ al H Hal Eal ltac:(lia) _ eq_refl) as (A1 & A2 & A3 & A4 & A5 & A6 & A7 & A8).
      set (s0 := take b (set_cap (new_cap (Z.of_nat (length t))) (set_dead false s))) in *.
      destruct (rep_filled s0 [] t) as (s1 & s2 & E1 & E2 & E3 & E4); [lia|lia|exact A4|exact A5|destruct (hbuf s0); [exact A6|congruence]|reflexivity|exact Ht|cbn [app]; lia|].
      cbn [length Nat.add] in E1, E3. change (Z.of_nat 0) with 0 in E1. rewrite E1, E3. exists s2, true. split; [reflexivity|]. exists (t, false). split; [constructor|exact E4].
    + exists (set_dead true (set_dead false s)), false. split; [reflexivity|]. exists (fst a, true). split.
      * constructor; [unfold small; lia|]. intros Hnf. apply (Hnf (new_cap (Z.of_nat (length t)))); [unfold STATIC_SIZE in *; lia|exact Eal].
      * destruct H. now constructor.
  - destruct (rep_filled (set_dead false s) [] t) as (s1 & s2 & E1 & E2 & E3 & E4);
      [symmetry; exact (rp_buf _ _ H)|exact Hcap|reflexivity|exact (rp_static _ _ H)|exact (rp_blocks _ _ H)|reflexivity|exact Ht|exact Hlt|].
    cbn [length Nat.add] in E1, E3. change (Z.of_nat 0) with 0 in E1. rewrite E1, E3. exists s2, true. split; [reflexivity|]. exists (t, false). split; [constructor|exact E4].
Qed.

(** Decimal texts *)
Lemma dec_text fuel : forall n, is_text (dec fuel n).
Proof.
  induction fuel as [|fuel IH]; intros n; cbn [dec]; [constructor|]. destruct (n <? 10)%N.
  - constructor; [lia|constructor].
  - apply Forall_app. split; [apply IH|]. constructor; [lia|constructor].
Qed.
Lemma dec_len fuel : forall n, (length (dec fuel n) <= fuel)%nat.
Proof.
  induction fuel as [|fuel IH]; intros n; cbn [dec]; [cbn; lia|]. destruct (n <? 10)%N; [cbn; lia|].
  rewrite app_length. cbn [length]. specialize (IH (n / 10)%N). lia.
Qed.
Lemma fmt_i64_text v : is_text (fmt_i64 v).
Proof. unfold fmt_i64. destruct (v <? 0); [constructor; [lia|]|]; apply dec_text. Qed.
Lemma fmt_i64_len v : (length (fmt_i64 v) <= 21)%nat.
Proof. unfold fmt_i64. destruct (v <? 0); cbn [length]; [pose proof (dec_len 20 (Z.to_N (- v)))|pose proof (dec_len 20 (Z.to_N v))]; lia. Qed.

Lemma set_int_rep al v s a : rep s a -> exists s', dstr_set_int al v s = Some (s', true) /\ rep s' (fmt_i64 v, false).
Proof.
  intros H. unfold dstr_set_int. cbv zeta. change (dcap (set_dead false s)) with (dcap s). pose proof (fmt_i64_len v) as Hl.
  pose proof (rp_cap _ _ H) as Hcap. pose proof (rp_buf _ _ H) as Hbuf. set (t := fmt_i64 v) in *.
  rewrite (proj2 (Z.leb_gt (dcap s) (Z.of_nat (length t)))) by (unfold STATIC_SIZE in *; lia).
  destruct (put_ok 0 (t ++ [0%N]) (set_dead false s)) as (s1 & E1 & F1 & F2 & F3 & F4 & F5 & F6 & F7); [lia| |].
  { rewrite app_length. cbn [length]. change (string (set_dead false s)) with (string s). unfold STATIC_SIZE in *. lia. }
  rewrite E1. exists (set_len (Z.of_nat (length t)) s1). split; [reflexivity|].
  change (string (set_dead false s)) with (string s) in F1. cbn [set_dead dlen dcap dead blocks sbuf hbuf] in *.
  destruct (cut_at (string s) (length (t ++ [0%N]))) as (m & r & Er & Hm); [rewrite app_length; cbn [length]; unfold STATIC_SIZE in *; lia|].
  assert (Es : string s1 = t ++ 0%N :: r).
  { rewrite F1, Er. change (Z.to_nat 0) with (length (@nil byte)). change (m ++ r) with ([] ++ m ++ r). rewrite (splice_at [] (t ++ [0%N]) m r Hm). cbn [app]. now rewrite <- app_assoc. }
  constructor; cbn [fst snd].
  - apply fmt_i64_text.
  - now exists r.
  - reflexivity.
  - exact F4.
  - cbn [set_len dcap]. lia.
  - cbn [set_len dcap]. change (string (set_len (Z.of_nat (length t)) s1)) with (string s1). rewrite Es. rewrite F3, Hbuf, Er.
    rewrite !app_length in *. cbn [length] in *. lia.
  - cbn [set_len sbuf]. rewrite F6. apply (rp_static _ _ H).
  - cbn [set_len blocks hbuf]. eapply (hb_blocks s s1); [exact (rp_blocks _ _ H)|exact F5|exact F7|reflexivity].
Qed.

Lemma part_spec t n : Z.of_nat (length t) <= INT_MAX ->
  let l := if n <? 0 then Z.of_nat (length t) else if n <? Z.of_nat (length t) then n else Z.of_nat (length t) in
  0 <= l <= Z.of_nat (length t) /\ strncpy_data t l = part t n /\ Z.of_nat (length (part t n)) = l.
Proof.
  intros H l. assert (Hl : 0 <= l <= Z.of_nat (length t)) by (unfold l; destruct (Z.ltb_spec n 0); [lia|]; destruct (Z.ltb_spec n (Z.of_nat (length t))); lia).
  split; [exact Hl|]. rewrite strncpy_part by exact Hl. unfold l, part. destruct (Z.ltb_spec n 0) as [|H0].
  - rewrite Nat2Z.id, firstn_all. now split.
  - destruct (Z.ltb_spec n (Z.of_nat (length t))) as [H1|H1].
    + split; [reflexivity|]. rewrite firstn_length. lia.
    + rewrite Nat2Z.id, firstn_all. rewrite firstn_all2 by lia. now split.
Qed.
Lemma part_text t n : is_text t -> is_text (part t n).
Proof. intros H. unfold part. destruct (n <? 0); [exact H|]. rewrite <- (firstn_skipn (Z.to_nat n) t) in H. apply Forall_app in H. tauto. Qed.

Lemma cat_rep al t n s a : sane al -> rep s a -> is_text t -> Z.of_nat (length t) <= INT_MAX -> Z.of_nat (length (fst a ++ part t n)) <= INT_MAX ->
  exists s' b, dstrcat al t n s = Some (s', b) /\ exists a', appends al a (part t n) (if b then RSelf else RNull) a' /\ rep s' a'.
Proof.
  intros Hal H Ht Hlen Hsum. unfold dstrcat. rewrite (rp_dead _ _ H).
  destruct (snd a) eqn:Ed; [exists s, false; split; [reflexivity|]; exists a; split; [now constructor|exact H]|].
  rewrite (proj2 (Z.ltb_ge INT_MAX (Z.of_nat (length t)))) by lia. cbv zeta.
  destruct (part_spec t n Hlen) as (P1 & P2 & P3).
  set (l := if n <? 0 then Z.of_nat (length t) else if n <? Z.of_nat (length t) then n else Z.of_nat (length t)) in *. clearbody l.
  rewrite app_length in Hsum. pose proof (rp_len _ _ H) as Hd. rewrite Hd.
  rewrite (proj2 (Z.ltb_ge INT_MAX (l + Z.of_nat (length (fst a))))) by lia.
  destruct (Z.ltb_spec (INT_MAX - 1) (l + Z.of_nat (length (fst a)))) as [Hfull|Hroom].
  { exists s, false. split; [reflexivity|]. exists a. split; [|exact H]. apply ap_full; [exact Ed|]. unfold room. rewrite app_length. lia. }
  assert (HR : room (fst a ++ part t n)) by (unfold room; rewrite app_length; lia).
  assert (HT : is_text (fst a ++ part t n)) by (apply Forall_app; split; [exact (rp_text _ _ H)|now apply part_text]).
  rewrite P2. pose proof (rp_cap _ _ H) as Hcap.
  replace (l + Z.of_nat (length (fst a))) with (Z.of_nat (length (fst a) + length (part t n))) in * by lia.
  assert (Fin : forall s0, Z.of_nat (length (string s0)) = dcap s0 -> STATIC_SIZE <= dcap s0 <= INT_MAX -> dead s0 = false -> Z.of_nat (length (sbuf s0)) = STATIC_SIZE ->
    blocks s0 = (match hbuf s0 with Some _ => 1 | None => 0 end) -> dlen s0 = Z.of_nat (length (fst a)) -> (exists r, string s0 = fst a ++ r) ->
    Z.of_nat (length (fst a) + length (part t n)) < dcap s0 ->
    exists s' b, match put (dlen s0) (part t n) s0 with
      | None => None
      | Some s => match put (Z.of_nat (length (fst a) + length (part t n))) [0%N] (set_len (dlen s + l) s) with Some s => Some (s, true) | None => None end
      end = Some (s', b) /\ exists a', appends al a (part t n) (if b then RSelf else RNull) a' /\ rep s' a').
  { intros s0 G1 G2 G3 G4 G5 G6 [r Er] G7. rewrite G6.
    destruct (rep_filled s0 (fst a) (part t n)) as (s1 & s2 & E1 & E2 & E3 & E4); [exact G1|exact G2|exact G3|exact G4|exact G5| |exact HT|rewrite app_length; exact G7|].
    { rewrite Er, skipn_app, Nat.sub_diag, skipn_all2 by lia. reflexivity. }
    rewrite E1, E2, G6. replace (Z.of_nat (length (fst a)) + l) with (Z.of_nat (length (fst a) + length (part t n))) by lia.
    rewrite E3. exists s2, true. split; [reflexivity|]. eexists. split; [|exact E4]. apply ap_store; [exact Ed|exact HR|constructor]. }
  destruct (Z.leb_spec (dcap s) (Z.of_nat (length (fst a) + length (part t n)))) as [Hge|Hlt].
  - assert (Hn : STATIC_SIZE <= Z.of_nat (length (fst a) + length (part t n)) <= INT_MAX - 1) by lia. pose proof (new_cap_range _ Hn) as Hnc.
    set (nc := new_cap (Z.of_nat (length (fst a) + length (part t n)))) in *.
    destruct (al nc) as [b|] eqn:Eal.
    + destruct (rp_str _ _ H) as [r0 Er0]. rewrite Er0, (cstr_app _ _ (rp_text _ _ H)). rewrite strncpy_all by reflexivity.
      pose proof (Hal _ _ Eal) as Hb. rewrite wr_ok by lia.
      destruct (cut_at b (length (fst a))) as (m & r & Eb & Hm); [lia|].
      assert (Ew : splice (Z.to_nat 0) (fst a) b = fst a ++ r) by (rewrite Eb; exact (splice_at [] (fst a) m r Hm)). rewrite Ew.
      apply Fin; cbn [take set_cap string hbuf dcap dead sbuf blocks dlen]; unfold string; cbn [hbuf].
      * rewrite <- Hb, Eb, !app_length. lia.
      * lia.
      * now rewrite (rp_dead _ _ H).
      * exact (rp_static _ _ H).
      * rewrite (rp_blocks _ _ H). destruct (hbuf s); lia.
      * exact Hd.
      * now exists r.
      * lia.
    + exists (set_dead true s), false. split; [reflexivity|]. exists (fst a, true). split.
      * apply ap_store; [exact Ed|exact HR|]. constructor; [unfold small; rewrite app_length; lia|].
        intros Hnf. apply (Hnf nc); [unfold STATIC_SIZE in *; lia|exact Eal].
      * destruct H. now constructor.
  - rewrite <- Hd. apply Fin; [symmetry; exact (rp_buf _ _ H)|exact Hcap|now rewrite (rp_dead _ _ H)|exact (rp_static _ _ H)|exact (rp_blocks _ _ H)|exact Hd| |exact Hlt].
    destruct (rp_str _ _ H) as [r Er]. now exists (0%N :: r).
Qed.

Lemma trunc_rep n s a : rep s a -> exists s', dstr_trunc n s = Some s' /\ rep s' (firstn (Z.to_nat n) (fst a), snd a).
Proof.
  intros H. unfold dstr_trunc. cbv zeta. set (m := if n <? 0 then 0 else n).
  assert (Hm : 0 <= m /\ Z.to_nat m = Z.to_nat n) by (unfold m; destruct (Z.ltb_spec n 0); lia). destruct Hm as [Hm <-]. clearbody m. clear n.
  rewrite (rp_len _ _ H). destruct (Z.ltb_spec m (Z.of_nat (length (fst a)))) as [Hlt|Hge].
  - destruct (cut_at (fst a) (Z.to_nat m)) as (p & q & Ea & Hp); [lia|]. destruct q as [|c q]; [rewrite Ea, app_nil_r in Hlt; lia|].
    destruct (rp_str _ _ H) as [r Er]. destruct (put_ok m [0%N] (set_len m s)) as (s' & E1 & F1 & F2 & F3 & F4 & F5 & F6 & F7); [exact Hm| |].
    { change (string (set_len m s)) with (string s). rewrite Er, Ea, !app_length. cbn [length]. lia. }
    exists s'. split; [exact E1|]. change (string (set_len m s)) with (string s) in F1. cbn [set_len dlen dcap dead blocks sbuf hbuf] in *.
    assert (Es : string s' = p ++ 0%N :: q ++ 0%N :: r).
    { rewrite F1, Er, Ea, <- app_assoc, <- Hp. exact (splice_at p [0%N] [c] (q ++ 0%N :: r) eq_refl). }
    assert (Ef : firstn (Z.to_nat m) (fst a) = p) by (rewrite Ea, <- Hp, firstn_app, Nat.sub_diag, firstn_O, app_nil_r, firstn_all; reflexivity).
    rewrite Ef. constructor; cbn [fst snd].
    + pose proof (rp_text _ _ H) as Ht. rewrite Ea in Ht. apply Forall_app in Ht. tauto.
    + now exists (q ++ 0%N :: r).
    + lia.
    + rewrite F4. exact (rp_dead _ _ H).
    + rewrite F3. exact (rp_cap _ _ H).
    + rewrite F3, (rp_buf _ _ H), Er, Ea, Es, !app_length. cbn [length]. rewrite !app_length. cbn [length]. lia.
    + rewrite F6. exact (rp_static _ _ H).
    + eapply (hb_blocks s s'); [exact (rp_blocks _ _ H)|exact F5|exact F7|reflexivity].
  - exists s. split; [reflexivity|]. rewrite firstn_all2 by lia. destruct a. exact H.
Qed.

Lemma free_rep s a : rep s a -> exists s', dstr_free s = Some s' /\ rep s' ([], false) /\ blocks s' = 0 /\ hbuf s' = None.
Proof.
  intros H. unfold dstr_free. cbv zeta. pose proof (rp_static _ _ H) as Hs. pose proof (rp_blocks _ _ H) as Hb.
  assert (W : exists k, (match hbuf s with Some _ => mkDs None (sbuf s) 0 STATIC_SIZE false (blocks s - 1) | None => mkDs None (sbuf s) 0 STATIC_SIZE false (blocks s) end) =
    mkDs None (sbuf s) 0 STATIC_SIZE false k /\ k = 0).
  { destruct (hbuf s); eexists; split; try reflexivity; lia. }
  destruct W as (k & -> & ->). destruct (put_ok 0 [0%N] (mkDs None (sbuf s) 0 STATIC_SIZE false 0)) as (s' & E1 & F1 & F2 & F3 & F4 & F5 & F6 & F7); [lia| |].
  { unfold string. cbn [hbuf sbuf length]. unfold STATIC_SIZE in *. lia. }
  exists s'. unfold string at 2 in F1. cbn [hbuf sbuf dlen dcap dead blocks] in *.
  assert (Hh : hbuf s' = None) by (now apply F7). split; [exact E1|]. split; [|now split].
  destruct (sbuf s) as [|c r] eqn:Er; [cbn [length] in Hs; unfold STATIC_SIZE in Hs; lia|].
  assert (Es : string s' = 0%N :: r) by (rewrite F1; reflexivity).
  constructor; cbn [fst snd length].
  - constructor.
  - now exists r.
  - exact F2.
  - exact F4.
  - rewrite F3. unfold STATIC_SIZE, INT_MAX. lia.
  - rewrite F3, Es. cbn [length] in *. lia.
  - rewrite F6. exact Hs.
  - now rewrite Hh, F5.
Qed.

Lemma extract_rep al s a : sane al -> rep s a -> exists s' r, dstr_extract al s = Some (s', r) /\ rep s' ([], false) /\ blocks s' = 0 /\
  (r = Some (fst a) \/ r = None /\ ~ never_fails al).
Proof.
  intros Hal H. unfold dstr_extract. destruct (rp_str _ _ H) as [r Er]. rewrite Er, (cstr_app _ _ (rp_text _ _ H)).
  destruct (free_rep _ _ H) as (s' & E1 & E2 & E3 & E4). rewrite E1. destruct (al (Z.of_nat (length (fst a)) + 1)) as [b|] eqn:Eal.
  - pose proof (Hal _ _ Eal) as Hb. rewrite wr_ok by (rewrite ?app_length; cbn [length]; lia).
    exists s'. eexists. split; [reflexivity|]. split; [exact E2|]. split; [exact E3|]. left.
    assert (W : splice (Z.to_nat 0) (fst a ++ [0%N]) b = fst a ++ 0%N :: []).
    { pose proof (splice_at [] (fst a ++ [0%N]) b []) as W. cbn [app length] in W. rewrite !app_nil_r in W. apply W. rewrite app_length. cbn [length]. lia. }
    rewrite W. apply cstr_app. exact (rp_text _ _ H).
  - exists s', None. split; [reflexivity|]. split; [exact E2|]. split; [exact E3|]. right. split; [reflexivity|]. intros Hnf.
    apply (Hnf (Z.of_nat (length (fst a)) + 1)); [lia|exact Eal].
Qed.

Lemma dop_rep al o s a : sane al -> rep s a -> dlegal o a -> exists s' r a', do_dop al o s = Some (s', r) /\ wants al o a r a' /\ rep s' a'.
Proof.
  intros Hal H HL. destruct o as [t|v|t n|v|v|n| |]; cbn [do_dop wants dlegal] in *.
  - destruct HL as [H1 H2]. destruct (set_rep al t s a Hal H H1 H2) as (s' & b & E1 & a' & E2 & E3). rewrite E1. cbn [self]. eauto 6.
  - destruct (set_int_rep al v s a H) as (s' & E1 & E2). rewrite E1. cbn [self]. exists s', RSelf, (fmt_i64 v, false). split; [reflexivity|]. split; [now split|exact E2].
  - destruct HL as (H1 & H2 & H3). destruct (cat_rep al t n s a Hal H H1 H2 H3) as (s' & b & E1 & a' & E2 & E3). rewrite E1. cbn [self]. eauto 6.
  - destruct HL as (H1 & H3). destruct (cat_rep al (fmt_i64 v) (-1) s a Hal H (fmt_i64_text v)) as (s' & b & E1 & a' & E2 & E3); [pose proof (fmt_i64_len v); unfold INT_MAX; lia|exact H3|].
    unfold dstrcat_int. rewrite E1. cbn [self]. eauto 6.
  - destruct HL as (H1 & H3). destruct (cat_rep al (fmt_u64 v) (-1) s a Hal H (dec_text 20 v)) as (s' & b & E1 & a' & E2 & E3); [pose proof (dec_len 20 v); unfold fmt_u64, INT_MAX; lia|exact H3|].
    unfold dstrcat_uint. rewrite E1. cbn [self]. eauto 6.
  - destruct (trunc_rep n s a H) as (s' & E1 & E2). rewrite E1. exists s', RVoid. eexists. split; [reflexivity|]. split; [split; reflexivity|exact E2].
  - destruct (free_rep s a H) as (s' & E1 & E2 & _). rewrite E1. exists s', RVoid, ([], false). split; [reflexivity|]. split; [now split|exact E2].
  - destruct (extract_rep al s a Hal H) as (s' & r & E1 & E2 & _ & E3). rewrite E1. destruct r as [t|].
    + exists s', (RCopy t), ([], false). split; [reflexivity|]. split; [|exact E2]. split; [|reflexivity]. left. destruct E3 as [E3|[E3 _]]; congruence.
    + exists s', RNull, ([], false). split; [reflexivity|]. split; [|exact E2]. split; [|reflexivity]. right. split; [reflexivity|]. destruct E3 as [E3|[_ E3]]; [discriminate|exact E3].
Qed.
Lemma dops_rep os : forall s a, rep s a -> all_legal a os -> exists s' rs a', do_dops os s = Some (s', rs) /\ session a os rs a' /\ rep s' a'.
Proof.
  induction os as [|[al o] os IH]; intros s a H HL; cbn [do_dops].
  - exists s, [], a. split; [reflexivity|]. split; [constructor|exact H].
  - inversion HL as [|? ? ? ? Hal Ho Hall]; subst. destruct (dop_rep al o s a Hal H Ho) as (s1 & r & a1 & E1 & E2 & E3). rewrite E1.
    destruct (IH s1 a1 E3 (Hall _ _ E2)) as (s2 & rs & a2 & F1 & F2 & F3). rewrite F1. exists s2, (r :: rs), a2. split; [reflexivity|]. split; [|exact F3].
    econstructor; eassumption.
Qed.
Lemma rep_shows s a : rep s a -> shows s (fst a) /\ dead s = snd a.
Proof.
  intros H. split; [|exact (rp_dead _ _ H)]. split; [|exact (rp_len _ _ H)]. unfold dstrval. destruct (rp_str _ _ H) as [r ->]. apply cstr_app, (rp_text _ _ H).
Qed.
Lemma init_rep junk : Z.of_nat (length junk) = STATIC_SIZE -> rep (dstr_init junk) ([], false).
Proof.
  intros Hj. unfold dstr_init. destruct junk as [|c r]; [cbn [length] in Hj; unfold STATIC_SIZE in Hj; lia|].
  change (splice 0 [0%N] (c :: r)) with (0%N :: r).
  assert (E : splice (Z.to_nat (STATIC_SIZE - 1)) [0%N] (0%N :: r) = 0%N :: splice 198 [0%N] r) by reflexivity.
  cbn [length] in Hj. unfold STATIC_SIZE in *. rewrite E.
  assert (El : length (splice 198 [0%N] r) = length r) by (apply splice_length; cbn [length]; lia).
  constructor; cbn [fst snd dlen dead dcap string hbuf sbuf blocks length]; unfold string; cbn [hbuf sbuf length].
  - constructor.
  - eexists. reflexivity.
  - reflexivity.
  - reflexivity.
  - unfold STATIC_SIZE, INT_MAX. lia.
  - rewrite El. lia.
  - unfold STATIC_SIZE. rewrite El. lia.
  - reflexivity.
Qed.
Lemma init2_rep al junk cap : Z.of_nat (length junk) = STATIC_SIZE -> sane al -> cap <= INT_MAX -> al cap <> None \/ cap < STATIC_SIZE ->
  exists s, dstr_init2 al junk cap = Some s /\ rep s ([], false).
Proof.
  intros Hj Hal Hc Hor. unfold dstr_init2. cbv zeta. change (dcap (dstr_init junk)) with STATIC_SIZE. pose proof (init_rep junk Hj) as H.
  destruct (Z.leb_spec STATIC_SIZE cap) as [Hge|Hlt]; [|eauto]. destruct (al cap) as [b|] eqn:Eal; [|destruct Hor; [congruence|lia]].
  pose proof (Hal _ _ Eal) as Hb. destruct b as [|c r]; [cbn [length] in Hb; unfold STATIC_SIZE in *; lia|].
  rewrite wr_ok by (cbn [length] in *; lia). change (splice (Z.to_nat 0) [0%N] (c :: r)) with (0%N :: r). eexists. split; [reflexivity|].
  constructor; cbn [take set_dead set_cap fst snd dlen dead dcap hbuf sbuf blocks length]; unfold string; cbn [hbuf sbuf length].
  - constructor.
  - eexists. reflexivity.
  - reflexivity.
  - reflexivity.
  - lia.
  - change (cap = Z.of_nat (S (length r))). cbn [length] in Hb. lia.
  - exact (rp_static _ _ H).
  - reflexivity.
Qed.

Lemma wants_exact al o t r a' : never_fails al -> room (text_after t o) -> wants al o (t, false) r a' -> a' = (text_after t o, false).
Proof.
  intros Hnf Hr Hw. destruct o as [u|v|u n|v|v|n| |]; cbn [wants text_after fst snd] in *.
  - inversion Hw; subst; [reflexivity|contradiction].
  - tauto.
  - inversion Hw as [|? Hn|? ? _ _ Hs]; subst; cbn [fst snd] in *; [discriminate|contradiction|]. inversion Hs; subst; [reflexivity|contradiction].
  - inversion Hw as [|? Hn|? ? _ _ Hs]; subst; cbn [fst snd] in *; [discriminate|contradiction|]. inversion Hs; subst; [reflexivity|contradiction].
  - inversion Hw as [|? Hn|? ? _ _ Hs]; subst; cbn [fst snd] in *; [discriminate|contradiction|]. inversion Hs; subst; [reflexivity|contradiction].
  - tauto.
  - tauto.
  - tauto.
Qed.
Lemma session_exact os : forall t, Forall (fun e => sane (fst e) /\ never_fails (fst e) /\ texts_ok (snd e)) os ->
  (forall p q, os = p ++ q -> room (fold_left text_after (map snd p) t)) ->
  all_legal (t, false) os /\ forall rs a', session (t, false) os rs a' -> a' = (fold_left text_after (map snd os) t, false).
Proof.
  induction os as [|[al o] os IH]; intros t HF Hr; cbn [map fold_left snd].
  - split; [constructor|]. intros rs a' H. now inversion H.
  - inversion HF as [|? ? (H1 & H2 & H3) HF']; subst. cbn [fst snd] in *.
    pose proof (Hr [(al, o)] os eq_refl) as Hr1. cbn [map fold_left snd] in Hr1.
    destruct (IH (text_after t o) HF') as [I1 I2]. { intros p q ->. exact (Hr ((al, o) :: p) q eq_refl). }
    split.
    + constructor; [exact H1| |].
      * clear - H3 Hr1. unfold room in Hr1. assert (W : forall z, z <= INT_MAX - 1 -> z <= INT_MAX) by (intros; lia).
        destruct o as [u|v|u n|v|v|n| |]; cbn [dlegal texts_ok text_after fst] in *.
        -- split; [exact (proj1 H3)|exact Hr1].
        -- exact H3.
        -- split; [exact (proj1 H3)|]. split; [exact (proj2 H3)|now apply W].
        -- split; [exact H3|now apply W].
        -- split; [exact H3|now apply W].
        -- exact I.
        -- exact I.
        -- exact I.
      * intros r a' Hw. rewrite (wants_exact _ _ _ _ _ H2 Hr1 Hw). exact I1.
    + intros rs a' Hs. inversion Hs as [|? ? ? ? ? ? a1 ? Hw Hs']; subst. rewrite (wants_exact _ _ _ _ _ H2 Hr1 Hw) in Hs'. exact (I2 _ _ Hs').
Qed.
Lemma dec_value fuel : forall n, (n < 10 ^ N.of_nat fuel)%N -> digits_value (dec fuel n) = n.
Proof.
  unfold digits_value. induction fuel as [|fuel IH]; intros n Hn; cbn [dec]; [cbn in *; lia|]. destruct (N.ltb_spec n 10) as [H|H].
  - cbn [fold_left]. lia.
  - rewrite fold_left_app. cbn [fold_left]. rewrite IH.
    + rewrite (N.div_mod n 10) at 3 by lia. pose proof (N.mod_lt n 10 ltac:(lia)). lia.
    + apply N.div_lt_upper_bound; [lia|]. rewrite Nat2N.inj_succ, N.pow_succ_r' in Hn. exact Hn.
Qed.
Lemma set_long t s al : INT_MAX <= Z.of_nat (length t) -> Z.of_nat (length (string s)) <= INT_MAX -> sane al -> (forall n, al n <> None) ->
  dcap s <= INT_MAX -> dstr_set al t s = None.
Proof.
  intros Hl Hs Hal Hnf Hc. unfold dstr_set.
  assert (P : forall s0 d, Z.of_nat (length (string s0)) <= INT_MAX -> INT_MAX < Z.of_nat (length d) -> put 0 d s0 = None).
  { intros s0 d H1 H2. unfold put, wr, string in *. destruct (hbuf s0); rewrite (proj2 (Z.leb_gt (0 + Z.of_nat (length d)) _)) by lia; now rewrite andb_false_r. }
  assert (Q : forall n b s0, al n = Some b -> string (take b s0) = b) by reflexivity.
  assert (NC : forall n, n <= INT_MAX -> new_cap n <= INT_MAX).
  { intros n Hn. unfold new_cap, INT_MAX in *. change (2147483647 / 2) with 1073741823. destruct (Z.ltb_spec 1073741823 n); lia. }
  assert (TI : forall v, to_int v <= INT_MAX).
  { intros v. unfold to_int, INT_MAX. pose proof (Z.mod_pos_bound (v + 2147483648) 4294967296 ltac:(lia)). lia. }
  cbv zeta. change (dcap (set_dead false s)) with (dcap s).
  destruct (Z.ltb_spec INT_MAX (Z.of_nat (length t))) as [Hgt|Hle].
  - assert (Ld : INT_MAX < Z.of_nat (length (strncpy_data too_big (Z.of_nat (length t))))).
    { unfold strncpy_data. rewrite app_length, firstn_length, repeat_length. lia. }
    destruct (dcap s <=? to_int (Z.of_nat (length t))).
    + destruct (al _) as [b|] eqn:Eb; [|destruct (Hnf _ Eb)]. rewrite P; [reflexivity| |exact Ld].
      rewrite (Q _ _ _ Eb). rewrite (Hal _ _ Eb). apply NC, TI.
    + rewrite P; [reflexivity|exact Hs|exact Ld].
  - assert (E : Z.of_nat (length t) = INT_MAX) by lia. rewrite E. rewrite to_int_id by (unfold INT_MAX; lia).
    rewrite strncpy_all by (now symmetry). rewrite (proj2 (Z.leb_le _ _)) by lia. change (new_cap INT_MAX) with INT_MAX.
    destruct (al INT_MAX) as [b|] eqn:Eb; [|destruct (Hnf _ Eb)]. pose proof (Hal _ _ Eb) as Hb.
    destruct (put_ok 0 t (take b (set_cap INT_MAX (set_dead false s)))) as (s1 & E1 & F1 & _); [lia|rewrite (Q _ _ _ Eb); lia|]. rewrite E1.
    assert (Ls : Z.of_nat (length (string s1)) = INT_MAX).
    { rewrite F1, (Q _ _ _ Eb). rewrite splice_length; [exact Hb|]. change (Z.to_nat 0) with 0%nat. lia. }
    enough (put INT_MAX [0%N] (set_len INT_MAX s1) = None) as -> by reflexivity.
    assert (Ls' : Z.of_nat (length (string (set_len INT_MAX s1))) = INT_MAX) by exact Ls. revert Ls'. generalize (set_len INT_MAX s1). clear. intros s1 Ls.
    unfold put, wr, string in *. destruct (hbuf s1); rewrite Ls; reflexivity.
Qed.
