(** Lemmas for C13, C14, C15. *)
From Verif Require Export S_Codec.
From Coq Require Import List. Import ListNotations.
From Coq Require Import ZifyBool ZifyNat ZifyN.
Ltac Zify.zify_post_hook ::= Z.div_mod_to_equations.
Local Open Scope N_scope.

(** Finite checks over an initial segment of N *)
Definition below (n : nat) : list N := map N.of_nat (seq 0 n).
Lemma below_spec n v : v < N.of_nat n -> In v (below n).
Proof.
  intros H. unfold below. apply in_map_iff. exists (N.to_nat v). split; [lia|]. apply in_seq. lia.
Qed.
Lemma check_all n (f : N -> bool) : forallb f (below n) = true -> forall v, v < N.of_nat n -> f v = true.
Proof. intros H v Hv. rewrite forallb_forall in H. apply H. now apply below_spec. Qed.

(** ** Base 64 *)
Lemma b64_value_ok v : v < 64 -> rfc_value (b64_value v) = Some v /\ b64_value v <> 10.
Proof.
  intros H.
  pose proof (check_all 64 (fun v => match rfc_value (b64_value v) with Some w => (w =? v) && negb (b64_value v =? 10) | None => false end)%bool
    ltac:(vm_compute; reflexivity) v H) as E. cbv beta in E.
  destruct (rfc_value (b64_value v)) as [w|]; [|discriminate].
  apply Bool.andb_true_iff in E. destruct E as [E1 E2].
  apply N.eqb_eq in E1. subst. split; [reflexivity|]. intros E. rewrite E in E2. discriminate.
Qed.

Lemma frag_A f : f < 256 -> N.shiftr (N.land f 252) 2 = f / 4 /\ N.shiftl (N.land f 3) 4 = (f mod 4) * 16.
Proof.
  intros H. pose proof (check_all 256 (fun f => (N.shiftr (N.land f 252) 2 =? f / 4) && (N.shiftl (N.land f 3) 4 =? (f mod 4) * 16))%bool
    ltac:(vm_compute; reflexivity) f H) as E. cbv beta in E. lia.
Qed.
Lemma frag_B f x : f < 256 -> x < 4 ->
  N.lor (x * 16) (N.shiftr (N.land f 240) 4) = x * 16 + f / 16 /\ N.shiftl (N.land f 15) 2 = (f mod 16) * 4.
Proof.
  intros H Hx. pose proof (check_all 256 (fun f => forallb (fun x => N.lor (x * 16) (N.shiftr (N.land f 240) 4) =? x * 16 + f / 16) (below 4)
     && (N.shiftl (N.land f 15) 2 =? (f mod 16) * 4))%bool
    ltac:(vm_compute; reflexivity) f H) as E. cbv beta in E.
  apply Bool.andb_true_iff in E. destruct E as [E1 E2]. split; [|lia].
  pose proof (check_all 4 _ E1 x Hx) as E. cbv beta in E. lia.
Qed.
Lemma frag_C f x : f < 256 -> x < 16 ->
  N.lor (x * 4) (N.shiftr (N.land f 192) 6) = x * 4 + f / 64 /\ N.land f 63 = f mod 64.
Proof.
  intros H Hx. pose proof (check_all 256 (fun f => forallb (fun x => N.lor (x * 4) (N.shiftr (N.land f 192) 6) =? x * 4 + f / 64) (below 16)
     && (N.land f 63 =? f mod 64))%bool
    ltac:(vm_compute; reflexivity) f H) as E. cbv beta in E.
  apply Bool.andb_true_iff in E. destruct E as [E1 E2]. split; [|lia].
  pose proof (check_all 16 _ E1 x Hx) as E. cbv beta in E. lia.
Qed.

(** Feeding two blocks is feeding their concatenation. *)
Lemma block_app l1 : forall s l2,
  b64_block s (l1 ++ l2) =
    (let '(s1, o1) := b64_block s l1 in let '(s2, o2) := b64_block s1 l2 in (s2, o1 ++ o2)).
Proof.
  induction l1 as [|f l1 IH]; intros s l2; cbn [app b64_block].
  - destruct (b64_block s l2); reflexivity.
  - destruct (b_step s); rewrite IH;
      match goal with |- context [b64_block ?x l1] => destruct (b64_block x l1) as [s1 o1] end;
      destruct (b64_block s1 l2) as [s2 o2]; cbn [app]; rewrite <- ?app_assoc; reflexivity.
Qed.
Lemma blocks_concat ls : forall s, b64_blocks s ls = b64_block s (concat ls).
Proof.
  induction ls as [|l ls IH]; intros s; cbn [b64_blocks concat]; [reflexivity|].
  rewrite block_app. destruct (b64_block s l) as [s1 o1]. rewrite IH. reflexivity.
Qed.

(** The encoder between groups: [whole s l] is what follows when [l] is fed in
    step A and the text is ended. *)
Definition rest_text (s : b64_state) (l : list byte) : list byte :=
  let '(s', o) := b64_block s l in o ++ b64_end s'.

Lemma rest_text_3 s a b c l : b_step s = StepA ->
  exists k, (k = S (b_count s) /\ S (b_count s) <> 18%nat \/ k = 0%nat /\ S (b_count s) = 18%nat) /\
  rest_text s (a :: b :: c :: l) =
    b64_value (N.shiftr (N.land a 252) 2) ::
    b64_value (N.lor (N.shiftl (N.land a 3) 4) (N.shiftr (N.land b 240) 4)) ::
    b64_value (N.lor (N.shiftl (N.land b 15) 2) (N.shiftr (N.land c 192) 6)) ::
    b64_value (N.land c 63) :: (if Nat.eqb k 0 then [10] else []) ++
    rest_text (mkB64 StepA (N.land c 63) k) l.
Proof.
  intros Hs. unfold rest_text. cbn [b64_block]. rewrite Hs. cbn [b_step b_result b_count].
  destruct (Nat.eqb_spec (S (b_count s)) 18) as [E|E].
  - exists 0%nat. split; [right; auto|]. destruct (b64_block _ l) as [s' o]. reflexivity.
  - exists (S (b_count s)). split; [left; auto|]. destruct (b64_block _ l) as [s' o]. reflexivity.
Qed.
Lemma rest_text_2 s a b : b_step s = StepA ->
  rest_text s [a; b] =
    [b64_value (N.shiftr (N.land a 252) 2);
     b64_value (N.lor (N.shiftl (N.land a 3) 4) (N.shiftr (N.land b 240) 4));
     b64_value (N.shiftl (N.land b 15) 2); 61; 10].
Proof. intros Hs. unfold rest_text. cbn [b64_block]. rewrite Hs. reflexivity. Qed.
Lemma rest_text_1 s a : b_step s = StepA ->
  rest_text s [a] = [b64_value (N.shiftr (N.land a 252) 2); b64_value (N.shiftl (N.land a 3) 4); 61; 61; 10].
Proof. intros Hs. unfold rest_text. cbn [b64_block]. rewrite Hs. reflexivity. Qed.
Lemma rest_text_0 s : b_step s = StepA -> rest_text s [] = [10].
Proof. intros Hs. unfold rest_text, b64_end. cbn [b64_block]. rewrite Hs. reflexivity. Qed.

(** Induction by groups of three *)
Lemma list_ind3 {A} (P : list A -> Prop) :
  P [] -> (forall a, P [a]) -> (forall a b, P [a; b]) ->
  (forall a b c l, P l -> P (a :: b :: c :: l)) -> forall l, P l.
Proof.
  intros H0 H1 H2 H3 l. enough (P l /\ (forall a, P (a :: l)) /\ (forall a b, P (a :: b :: l))) by tauto.
  induction l as [|x l (IH1 & IH2 & IH3)]; [repeat split; auto|]. repeat split; auto.
Qed.

Lemma no_breaks_value v l : v < 64 -> no_breaks (b64_value v :: l) = b64_value v :: no_breaks l.
Proof.
  intros H. unfold no_breaks. cbn [filter]. destruct (b64_value_ok v H) as [_ Hn].
  apply N.eqb_neq in Hn. now rewrite Hn.
Qed.
Lemma no_breaks_sep (k : nat) l : no_breaks ((if Nat.eqb k 0 then [10] else []) ++ l) = no_breaks l.
Proof. destruct (Nat.eqb k 0); reflexivity. Qed.

Lemma rest_text_decode l : Forall is_byte l -> forall s, b_step s = StepA ->
  rfc_decode (no_breaks (rest_text s l)) = Some l.
Proof.
  unfold is_byte. induction l as [|a|a b|a b c l IH] using list_ind3; intros Hb s Hs.
  - rewrite rest_text_0 by assumption. reflexivity.
  - apply Forall_inv in Hb. rewrite rest_text_1 by assumption.
    destruct (frag_A a Hb) as [-> ->].
    rewrite !no_breaks_value by lia. cbn [no_breaks filter N.eqb Pos.eqb negb rfc_decode].
    rewrite (proj1 (b64_value_ok (a / 4) ltac:(lia))), (proj1 (b64_value_ok (a mod 4 * 16) ltac:(lia))).
    cbn [rfc_value N.leb N.compare Pos.compare Pos.compare_cont andb N.eqb Pos.eqb].
    replace ((a / 4 * 262144 + a mod 4 * 16 * 4096) mod 65536 =? 0) with true by (symmetry; lia).
    repeat f_equal. lia.
  - pose proof (Forall_inv Hb) as Ha. apply Forall_inv_tail, Forall_inv in Hb. cbv beta in Ha, Hb.
    rewrite rest_text_2 by assumption. destruct (frag_A a Ha) as [-> ->].
    destruct (frag_B b (a mod 4) Hb ltac:(lia)) as [-> ->].
    rewrite !no_breaks_value by lia. cbn [no_breaks filter N.eqb Pos.eqb negb rfc_decode].
    rewrite (proj1 (b64_value_ok (a / 4) ltac:(lia))), (proj1 (b64_value_ok (a mod 4 * 16 + b / 16) ltac:(lia))),
      (proj1 (b64_value_ok (b mod 16 * 4) ltac:(lia))).
    cbn [rfc_value N.leb N.compare Pos.compare Pos.compare_cont andb N.eqb Pos.eqb].
    match goal with |- context [(?v mod 256 =? 0)] => replace (v mod 256 =? 0) with true by (symmetry; lia) end.
    f_equal. f_equal; [lia|]. f_equal; lia.
  - pose proof (Forall_inv Hb) as Ha. apply Forall_inv_tail in Hb. pose proof (Forall_inv Hb) as Hb2.
    apply Forall_inv_tail in Hb. pose proof (Forall_inv Hb) as Hc. apply Forall_inv_tail in Hb. cbv beta in Ha, Hb2, Hc.
    destruct (rest_text_3 s a b c l Hs) as (k & _ & ->). destruct (frag_A a Ha) as [-> ->].
    destruct (frag_B b (a mod 4) Hb2 ltac:(lia)) as [-> ->].
    destruct (frag_C c (b mod 16) Hc ltac:(lia)) as [-> ->].
    rewrite !no_breaks_value, no_breaks_sep by lia. cbn [rfc_decode].
    rewrite (proj1 (b64_value_ok (a / 4) ltac:(lia))), (proj1 (b64_value_ok (a mod 4 * 16 + b / 16) ltac:(lia))),
      (proj1 (b64_value_ok (b mod 16 * 4 + c / 64) ltac:(lia))), (proj1 (b64_value_ok (c mod 64) ltac:(lia))).
    rewrite IH by (auto; reflexivity). f_equal. f_equal; [lia|]. f_equal; [lia|]. f_equal; lia.
Qed.

Lemma lines_value max cur v l : v < 64 ->
  lines_within max cur (b64_value v :: l) <-> (cur < max)%nat /\ lines_within max (S cur) l.
Proof.
  intros H. cbn [lines_within]. destruct (b64_value_ok v H) as [_ Hn]. apply N.eqb_neq in Hn. now rewrite Hn.
Qed.

Lemma rest_text_lines l : Forall is_byte l -> forall s, b_step s = StepA -> (b_count s < 18)%nat ->
  lines_within 72 (4 * b_count s) (rest_text s l).
Proof.
  unfold is_byte. induction l as [|a|a b|a b c l IH] using list_ind3; intros Hb s Hs Hk.
  - rewrite rest_text_0 by assumption. exact I.
  - apply Forall_inv in Hb. rewrite rest_text_1 by assumption.
    destruct (frag_A a Hb) as [-> ->]. rewrite !lines_value by lia.
    cbn [lines_within N.eqb Pos.eqb]. lia.
  - pose proof (Forall_inv Hb) as Ha. apply Forall_inv_tail, Forall_inv in Hb. cbv beta in Ha, Hb.
    rewrite rest_text_2 by assumption. destruct (frag_A a Ha) as [-> ->].
    destruct (frag_B b (a mod 4) Hb ltac:(lia)) as [-> ->].
    rewrite !lines_value by lia. cbn [lines_within N.eqb Pos.eqb]. lia.
  - pose proof (Forall_inv Hb) as Ha. apply Forall_inv_tail in Hb. pose proof (Forall_inv Hb) as Hb2.
    apply Forall_inv_tail in Hb. pose proof (Forall_inv Hb) as Hc. apply Forall_inv_tail in Hb. cbv beta in Ha, Hb2, Hc.
    destruct (rest_text_3 s a b c l Hs) as (k & Hkk & ->). destruct (frag_A a Ha) as [-> ->].
    destruct (frag_B b (a mod 4) Hb2 ltac:(lia)) as [-> ->].
    destruct (frag_C c (b mod 16) Hc ltac:(lia)) as [-> ->].
    rewrite !lines_value by lia. do 4 (split; [lia|]).
    specialize (IH Hb (mkB64 StepA (c mod 64) k) eq_refl). cbn [b_count] in IH.
    destruct Hkk as [(-> & Hne)|(-> & He)].
    + cbn [Nat.eqb app]. replace (S (S (S (S (4 * b_count s)))))%nat with (4 * S (b_count s))%nat by lia. apply IH. lia.
    + cbn [Nat.eqb app lines_within N.eqb Pos.eqb]. apply (IH ltac:(lia)).
Qed.

(** Exact length of the text *)
Lemma rest_text_length l : forall s, b_step s = StepA -> (b_count s < 18)%nat ->
  length (rest_text s l) = (4 * ((length l + 2) / 3) + (b_count s + length l / 3) / 18 + 1)%nat.
Proof.
  induction l as [|a|a b|a b c l IH] using list_ind3; intros s Hs Hk.
  - rewrite rest_text_0 by assumption. cbn [length]. lia.
  - rewrite rest_text_1 by assumption. cbn [length]. lia.
  - rewrite rest_text_2 by assumption. cbn [length]. lia.
  - destruct (rest_text_3 s a b c l Hs) as (k & Hkk & ->). cbn [length]. rewrite app_length.
    specialize (IH (mkB64 StepA (N.land c 63) k) eq_refl). cbn [b_count] in IH. rewrite IH by lia.
    destruct Hkk as [(-> & Hne)|(-> & He)]; cbn [Nat.eqb length]; lia.
Qed.

(** ** Base 62 *)
Lemma b62_char_inj x y : x < 62 -> y < 62 -> b62_char x = b62_char y -> x = y.
Proof.
  intros Hx Hy E.
  pose proof (check_all 62 (fun x => forallb (fun y => Bool.eqb (b62_char x =? b62_char y) (x =? y)) (below 62))
    ltac:(vm_compute; reflexivity) x Hx) as H. cbv beta in H.
  pose proof (check_all 62 _ H y Hy) as H2. cbv beta in H2. apply Bool.eqb_prop in H2.
  rewrite E, N.eqb_refl in H2. symmetry in H2. now apply N.eqb_eq.
Qed.

Lemma digits_length k : forall v, length (b62_digits k v) = k.
Proof. induction k as [|k IH]; intros v; cbn [b62_digits length]; auto. Qed.

Lemma digits_inj k : forall v w l m, v < 62 ^ N.of_nat k -> w < 62 ^ N.of_nat k ->
  b62_digits k v ++ l = b62_digits k w ++ m -> v = w /\ l = m.
Proof.
  induction k as [|k IH]; intros v w l m Hv Hw E.
  - cbn in Hv, Hw. split; [lia|exact E].
  - cbn [b62_digits app] in E.
    pose proof (f_equal (@hd_error N) E) as E1. cbn [hd_error] in E1. injection E1 as E1.
    pose proof (f_equal (@tl N) E) as E2. cbn [tl] in E2.
    apply b62_char_inj in E1; [|apply N.mod_lt; lia|apply N.mod_lt; lia].
    rewrite Nat2N.inj_succ, N.pow_succ_r in Hv, Hw by lia.
    apply IH in E2; [|apply N.div_lt_upper_bound; lia|apply N.div_lt_upper_bound; lia].
    destruct E2 as [E2 ->]. split; [|reflexivity].
    rewrite (N.div_mod v 62), (N.div_mod w 62) by lia. congruence.
Qed.

(** Induction by groups of five *)
Lemma list_ind5 {A} (P : list A -> Prop) :
  P [] -> (forall a, P [a]) -> (forall a b, P [a; b]) -> (forall a b c, P [a; b; c]) ->
  (forall a b c d, P [a; b; c; d]) -> (forall a b c d e l, P l -> P (a :: b :: c :: d :: e :: l)) -> forall l, P l.
Proof.
  intros H0 H1 H2 H3 H4 H5 l.
  enough (P l /\ (forall a, P (a :: l)) /\ (forall a b, P (a :: b :: l)) /\ (forall a b c, P (a :: b :: c :: l)) /\
          (forall a b c d, P (a :: b :: c :: d :: l))) by tauto.
  induction l as [|x l (IH1 & IH2 & IH3 & IH4 & IH5)]; [repeat split; auto|]. repeat split; auto.
Qed.

Definition tail_chars (n : nat) : nat :=
  match n with 1 => 2 | 2 => 3 | 3 => 5 | 4 => 5 | _ => 0 end%nat.
Lemma b62_length l : length (b62_encode l) = (7 * (length l / 5) + tail_chars (length l mod 5))%nat.
Proof.
  induction l as [|a|a b|a b c|a b c d|a b c d e l IH] using list_ind5; try reflexivity.
  cbn [b62_encode]. rewrite app_length, digits_length, IH. cbn [length].
  replace (S (S (S (S (S (length l))))))%nat with (length l + 1 * 5)%nat by lia.
  rewrite Nat.div_add, Nat.mod_add by lia. lia.
Qed.

Lemma digits_last k : forall v, v < 62 ^ N.of_nat (S k) ->
  b62_digits k v ++ [b62_char (v / 62 ^ N.of_nat k)] = b62_digits (S k) v.
Proof.
  induction k as [|k IH]; intros v Hv.
  - cbn [b62_digits app]. rewrite N.pow_0_r, N.div_1_r.
    rewrite N.mod_small; [reflexivity|]. exact Hv.
  - rewrite !Nat2N.inj_succ, !N.pow_succ_r in Hv by lia.
    change (b62_digits (S k) v) with (b62_char (v mod 62) :: b62_digits k (v / 62)).
    change (b62_digits (S (S k)) v) with (b62_char (v mod 62) :: b62_digits (S k) (v / 62)).
    cbn [app]. f_equal. rewrite <- IH.
    + rewrite Nat2N.inj_succ, N.pow_succ_r by lia. now rewrite N.div_div by (try apply N.pow_nonzero; lia).
    + rewrite !Nat2N.inj_succ, !N.pow_succ_r by lia. apply N.div_lt_upper_bound; lia.
Qed.

(** The number a big-endian group of bytes stands for determines the bytes. *)
Lemma be_inj a b x y k : b < k -> y < k -> a * k + b = x * k + y -> a = x /\ b = y.
Proof.
  intros H1 H2 E.
  assert (b = y).
  { rewrite <- (N.mod_small b k), <- (N.mod_small y k) by assumption.
    rewrite <- (N.mod_add b a k), <- (N.mod_add y x k) by lia. f_equal. lia. }
  subst y. split; [|reflexivity]. assert (a * k = x * k) by lia. apply (N.mul_cancel_r a x k); [lia|assumption].
Qed.

Lemma b62_inj l : Forall is_byte l -> forall m, Forall is_byte m -> length l = length m ->
  (length l mod 5 <> 4)%nat -> b62_encode l = b62_encode m -> l = m.
Proof.
  unfold is_byte.
  assert (P1 : 62 ^ N.of_nat 1 = 62) by reflexivity. assert (P2 : 62 ^ N.of_nat 2 = 3844) by reflexivity.
  assert (P3 : 62 ^ N.of_nat 3 = 238328) by reflexivity. assert (P4 : 62 ^ N.of_nat 4 = 14776336) by reflexivity.
  assert (P5 : 62 ^ N.of_nat 5 = 916132832) by reflexivity. assert (P7 : 62 ^ N.of_nat 7 = 3521614606208) by reflexivity.
  induction l as [|a|a b|a b c|a b c d|a b c d e l IH] using list_ind5; intros Hl m Hm Hlen Hmod E;
    repeat match goal with H : Forall _ (_ :: _) |- _ => inversion H; clear H; subst end.
  - now destruct m.
  - destruct m as [|a' [|]]; try discriminate.
    repeat match goal with H : Forall _ (_ :: _) |- _ => inversion H; clear H; subst end.
    assert (E1 : forall x, x < 256 -> b62_encode [x] = b62_digits 2 x ++ []).
    { intros x Hx. rewrite app_nil_r, <- (digits_last 1) by (rewrite P2; lia). rewrite P1. reflexivity. }
    rewrite !E1 in E by assumption. apply digits_inj in E; [|rewrite P2; lia|rewrite P2; lia].
    destruct E as [-> _]. reflexivity.
  - destruct m as [|a' [|b' [|]]]; try discriminate.
    repeat match goal with H : Forall _ (_ :: _) |- _ => inversion H; clear H; subst end.
    assert (E1 : forall x y, x < 256 -> y < 256 -> b62_encode [x; y] = b62_digits 3 (x * 256 + y) ++ []).
    { intros x y Hx Hy. rewrite app_nil_r, <- (digits_last 2) by (rewrite P3; lia). rewrite P2. reflexivity. }
    rewrite !E1 in E by assumption. apply digits_inj in E; [|rewrite P3; lia|rewrite P3; lia].
    destruct E as [E _]. apply be_inj in E; [|lia|lia]. destruct E as [-> ->]. reflexivity.
  - destruct m as [|a' [|b' [|c' [|]]]]; try discriminate.
    repeat match goal with H : Forall _ (_ :: _) |- _ => inversion H; clear H; subst end.
    assert (E1 : forall x y z, x < 256 -> y < 256 -> z < 256 ->
       b62_encode [x; y; z] = b62_digits 5 (x * 65536 + y * 256 + z) ++ []).
    { intros x y z Hx Hy Hz. rewrite app_nil_r, <- (digits_last 4) by (rewrite P5; lia). rewrite P4. reflexivity. }
    rewrite !E1 in E by assumption. apply digits_inj in E; [|rewrite P5; lia|rewrite P5; lia].
    destruct E as [E _].
    replace (a * 65536 + b * 256 + c) with ((a * 256 + b) * 256 + c) in E by lia.
    replace (a' * 65536 + b' * 256 + c') with ((a' * 256 + b') * 256 + c') in E by lia.
    apply be_inj in E; [|lia|lia]. destruct E as [E ->].
    apply be_inj in E; [|lia|lia]. destruct E as [-> ->]. reflexivity.
  - exfalso. apply Hmod. reflexivity.
  - destruct m as [|a' [|b' [|c' [|d' [|e' m]]]]]; try discriminate.
    cbn [b62_encode] in E.
    repeat match goal with H : Forall _ (_ :: _) |- _ => inversion H; clear H; subst end.
    apply digits_inj in E; [|rewrite P7; lia|rewrite P7; lia].
    destruct E as [E1 E2]. cbn [length] in Hlen, Hmod.
    replace (S (S (S (S (S (length l))))))%nat with (length l + 1 * 5)%nat in Hmod by lia.
    rewrite Nat.mod_add in Hmod by lia.
    rewrite (IH ltac:(assumption) m ltac:(assumption) ltac:(lia) Hmod E2).
    assert (R : forall a b c d e, a * 4294967296 + b * 16777216 + c * 65536 + d * 256 + e =
      (((a * 256 + b) * 256 + c) * 256 + d) * 256 + e) by (intros; lia).
    rewrite !R in E1.
    apply be_inj in E1; [|lia|lia]. destruct E1 as [E1 ->].
    apply be_inj in E1; [|lia|lia]. destruct E1 as [E1 ->].
    apply be_inj in E1; [|lia|lia]. destruct E1 as [E1 ->].
    apply be_inj in E1; [|lia|lia]. destruct E1 as [-> ->]. reflexivity.
Qed.

(** ** Digests *)
Lemma hex_digit_spec c v : hex_digit c v <-> isxdigit c = true /\ hex_int c = v.
Proof.
  unfold isxdigit, hex_int. split.
  - destruct 1 as [c H|c H|c H]; (split; [lia|]); repeat match goal with |- context [if ?b then _ else _] => destruct b eqn:? end; lia.
  - intros [H <-]. repeat match goal with |- context [if ?b then _ else _] => destruct b eqn:? end.
    + apply hx_dec. lia.
    + replace (c - 55) with (c - 65 + 10) by lia. apply hx_up. lia.
    + replace (c - 87) with (c - 97 + 10) by lia. apply hx_lo. lia.
    + lia.
Qed.
Lemma hex_digit_lt c v : hex_digit c v -> v < 16.
Proof. destruct 1; lia. Qed.

Lemma hex_pair x y : x < 16 -> y < 16 -> N.lor (N.land (N.shiftl x 4) 255) y = 16 * x + y.
Proof.
  intros Hx Hy. pose proof (check_all 16 (fun x => forallb (fun y => N.lor (N.land (N.shiftl x 4) 255) y =? 16 * x + y) (below 16))
    ltac:(vm_compute; reflexivity) x Hx) as H. cbv beta in H.
  pose proof (check_all 16 _ H y Hy) as H2. cbv beta in H2. lia.
Qed.

Lemma loop_hex s d : hex_text s d -> str_digest_loop s = Some d.
Proof.
  induction 1 as [|a b x y s d Ha Hb H IH]; [reflexivity|]. cbn [str_digest_loop].
  pose proof (hex_digit_lt _ _ Ha). pose proof (hex_digit_lt _ _ Hb).
  apply hex_digit_spec in Ha, Hb. destruct Ha as [Ha Ea], Hb as [Hb Eb].
  rewrite Ha, Hb, Ea, Eb, IH. cbn [negb andb]. rewrite hex_pair by assumption. reflexivity.
Qed.

Lemma hex2_digits b : is_byte b -> exists c1 c2, hex2 b = [c1; c2] /\ hex_digit c1 (b / 16) /\ hex_digit c2 (b mod 16).
Proof.
  intros H. unfold is_byte in H. eexists; eexists. split; [reflexivity|].
  assert (E : forall v, v < 16 -> hex_digit (nth (N.to_nat v) hex_tab 0) v).
  { intros v Hv. apply hex_digit_spec.
    pose proof (check_all 16 (fun v => (isxdigit (nth (N.to_nat v) hex_tab 0) && (hex_int (nth (N.to_nat v) hex_tab 0) =? v))%bool)
      ltac:(vm_compute; reflexivity) v Hv) as E. cbv beta in E.
    apply Bool.andb_true_iff in E. destruct E as [E1 E2]. split; [exact E1|now apply N.eqb_eq]. }
  split; apply E; lia.
Qed.

Lemma hex_text_print d : Forall is_byte d -> hex_text (flat_map hex2 d) d.
Proof.
  induction 1 as [|b d Hb Hd IH]; [constructor|]. cbn [flat_map].
  destruct (hex2_digits b Hb) as (c1 & c2 & -> & H1 & H2). cbn [app].
  assert (E : b = 16 * (b / 16) + b mod 16) by lia. rewrite E. now constructor.
Qed.

Lemma hex_text_inv_length s d : hex_text s d -> length s = (2 * length d)%nat.
Proof. induction 1; cbn [length] in *; lia. Qed.

(** What the loop accepts: in every pair at least one hexadecimal digit. *)
Inductive half_hex : list byte -> Prop :=
| hh_nil : half_hex []
| hh_cons a b s : (isxdigit a = true \/ isxdigit b = true) -> half_hex s -> half_hex (a :: b :: s).
Lemma loop_half s d : str_digest_loop s = Some d -> Nat.even (length s) = true -> half_hex s.
Proof.
  revert d. enough (H : forall n s d, (length s <= n)%nat -> str_digest_loop s = Some d -> Nat.even (length s) = true -> half_hex s)
    by (intros d; apply (H (length s)); lia).
  induction n as [|n IH]; intros t d Hn H He.
  - destruct t; [constructor|cbn in Hn; lia].
  - destruct t as [|a [|b t]]; [constructor|discriminate|]. cbn [str_digest_loop] in H.
    destruct (isxdigit a) eqn:Ea, (isxdigit b) eqn:Eb; cbn [negb andb] in H; try discriminate;
      (destruct (str_digest_loop t) as [d'|] eqn:E; [|discriminate]);
      (constructor; [tauto|]); (eapply IH; [|exact E|exact He]); cbn in Hn; lia.
Qed.
