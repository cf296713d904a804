(** Lemmas on the scanner of the JSON library. *)
From Verif Require Import S_Json L_Dir.
From Coq Require Import Lia String Ascii.
Import M_Json.
Local Open Scope Z_scope.
Local Arguments Z.add : simpl never.
Local Arguments Z.mul : simpl never.
Local Arguments Z.sub : simpl never.

Lemma is_true : forall a b, is a b = true <-> a = b.
Proof. intros; unfold is; apply Ascii.eqb_eq. Qed.
Lemma is_false : forall a b, is a b = false <-> a <> b.
Proof. intros; unfold is; apply Ascii.eqb_neq. Qed.

(** ** The scanner moves on *)
Lemma digits_eq : forall t d r, digits t = (d, r) -> t = d ++ r.
Proof.
  induction t as [|c t IH]; cbn; intros d r E; [injection E as <- <-; reflexivity|].
  destruct (digit c); [|injection E as <- <-; reflexivity]. destruct (digits t) as (d0, r0).
  injection E as <- <-. cbn. f_equal; apply IH; reflexivity.
Qed.
Lemma opt_eq : forall p t d r, opt p t = (d, r) -> t = d ++ r.
Proof. intros p [|c t] d r; cbn; [|destruct (p c)]; intros E; injection E as <- <-; reflexivity. Qed.
Lemma number_eq : forall t y r b, number t = (y, r, b) -> t = y ++ r.
Proof.
  intros t y r b; unfold number. destruct (opt sign t) as (s, t0) eqn:E0. destruct (digits t0) as (d, t1) eqn:E1.
  destruct (opt (fun c => is c "."%char) t1) as (p, t2) eqn:E2. destruct (digits t2) as (f, t3) eqn:E3.
  destruct (opt (fun c => is c "e"%char || is c "E"%char) t3) as (e, t4) eqn:E4.
  destruct (opt sign t4) as (g, t5) eqn:E5. destruct (digits t5) as (x, t6) eqn:E6.
  apply opt_eq in E0, E2, E4, E5. apply digits_eq in E1, E3, E6.
  assert (A : t = (s ++ d ++ p ++ f) ++ t3) by (rewrite E0, E1, E2, E3, <- !app_assoc; reflexivity).
  assert (B : t = (s ++ d ++ p ++ f ++ e ++ g ++ x) ++ t6) by (rewrite A, E4, E5, E6, <- !app_assoc; reflexivity).
  destruct e as [|e0 e]; [intros E; injection E as <- <- _; exact A|].
  destruct x as [|x0 x]; intros E; injection E as <- <- _; [exact A|exact B].
Qed.
Lemma dq_len : forall n t s r, (List.length t <= n)%nat -> dq t = Some (s, r) -> (List.length r < List.length t)%nat.
Proof.
  induction n as [|n IH]; intros t s r L E; destruct t as [|c t]; cbn in *; try discriminate; try lia.
  destruct (is c QUO); [injection E as <- <-; lia|]. destruct (is c BSL).
  - destruct t as [|e t]; [discriminate|]. cbn [List.length] in *. destruct (esc e).
    + destruct (dq t) as [(s0, r0)|] eqn:D; [|discriminate]. injection E as <- <-. apply IH in D; lia.
    + destruct (is e "u"%char); [|discriminate]. destruct t as [|a [|b [|d [|f t]]]]; try discriminate. cbn [List.length] in *.
      destruct (_ && _); [|discriminate]. destruct (dq t) as [(s0, r0)|] eqn:D; [|discriminate]. injection E as <- <-. apply IH in D; lia.
  - destruct (dq t) as [(s0, r0)|] eqn:D; [|discriminate]. injection E as <- <-. apply IH in D; lia.
Qed.
Lemma sq_len : forall t s r, sq t = Some (s, r) -> (List.length r < List.length t)%nat.
Proof.
  induction t as [|c t IH]; cbn; intros s r E; [discriminate|]. destruct (is c "'"%char); [injection E as <- <-; lia|].
  destruct (sq t) as [(s0, r0)|]; [|discriminate]. injection E as <- <-. specialize (IH s0 r0 eq_refl). lia.
Qed.
Lemma prefix_eq : forall p t r, prefix p t = Some r -> t = p ++ r.
Proof.
  induction p as [|a p IH]; intros [|b t] r E; cbn in *; try congruence. destruct (is a b) eqn:I; [|discriminate].
  apply is_true in I. subst. f_equal; apply IH, E.
Qed.
Lemma next_len : forall c t k r, next c t = (k, r) -> (List.length r <= List.length t)%nat.
Proof.
  intros c t k r; unfold next. destruct (is c QUO).
  { destruct (dq t) as [(s, r0)|] eqn:E; intros X; injection X as <- <-; [apply (dq_len _ _ _ _ (le_n _)) in E; lia|lia]. }
  destruct (is c "'"%char).
  { destruct (sq t) as [(s, r0)|] eqn:E; intros X; injection X as <- <-; [apply sq_len in E; lia|lia]. }
  destruct (_ || _); [intros X; injection X as <- <-; lia|].
  destruct (number (c :: t)) as ((y, r0), b) eqn:N. apply number_eq in N.
  destruct y as [|y0 y].
  - destruct (prefix (str "true") (c :: t)) as [r1|] eqn:P1.
    { apply prefix_eq in P1. intros X; injection X as <- <-. apply (f_equal (@List.length _)) in P1. cbn in P1. lia. }
    destruct (prefix (str "false") (c :: t)) as [r1|] eqn:P2.
    { apply prefix_eq in P2. intros X; injection X as <- <-. apply (f_equal (@List.length _)) in P2. cbn in P2. lia. }
    destruct (prefix (str "null") (c :: t)) as [r1|] eqn:P3.
    { apply prefix_eq in P3. intros X; injection X as <- <-. apply (f_equal (@List.length _)) in P3. cbn in P3. lia. }
    intros X; injection X as <- <-; lia.
  - apply (f_equal (@List.length _)) in N. rewrite app_length in N. cbn in N. destruct b; intros X; injection X as <- <-; lia.
Qed.
Lemma lexf_fuel : forall n m t, (List.length t <= n)%nat -> (List.length t <= m)%nat -> lexf n t = lexf m t.
Proof.
  induction n as [|n IH]; intros m t L M.
  - destruct t; [|cbn in L; lia]. destruct m; reflexivity.
  - destruct m as [|m]; [destruct t; [reflexivity|cbn in M; lia]|]. destruct t as [|c t]; [reflexivity|]. cbn [lexf List.length] in *.
    destruct (next c t) as (k, r) eqn:E. apply next_len in E. destruct k; [f_equal|]; apply IH; lia.
Qed.
Lemma lex_cons : forall c t, lex (c :: t) = match next c t with (Some k, r) => k :: lex r | (None, r) => lex r end.
Proof.
  intros c t; unfold lex; cbn [List.length lexf]. destruct (next c t) as (k, r) eqn:E. apply next_len in E.
  destruct k; [f_equal|]; apply lexf_fuel; lia.
Qed.
Lemma lex_len_tokens : forall t, (List.length (lex t) <= List.length t)%nat.
Proof.
  intros t; unfold lex. assert (G : forall n t, (List.length (lexf n t) <= n)%nat); [|apply G].
  induction n as [|n IH]; intros u; [cbn; lia|]. destruct u as [|c u]; [cbn; lia|]. cbn [lexf]. destruct (next c u) as ([k|], r); cbn [List.length].
  - specialize (IH r); lia.
  - specialize (IH r); lia.
Qed.

(** ** Pieces of text *)
Lemma lex_punct : forall c t, In c [ "["%char; "]"%char; "{"%char; "}"%char; ","%char; ":"%char] -> lex (c :: t) = TP c :: lex t.
Proof. intros c t H; rewrite lex_cons. repeat destruct H as [<-|H]; try reflexivity. destruct H. Qed.
Lemma lex_white : forall w t, white w -> lex (w ++ t) = lex t.
Proof.
  intros w t H; induction H as [|c w H HW IH]; [reflexivity|]. cbn [app]. rewrite lex_cons.
  repeat destruct H as [->|H]; try exact IH. subst; exact IH.
Qed.
Lemma lex_true : forall t, lex (str "true" ++ t) = TBool true :: lex t.
Proof. intros; cbn [str list_ascii_of_string app]. rewrite lex_cons. reflexivity. Qed.
Lemma lex_false : forall t, lex (str "false" ++ t) = TBool false :: lex t.
Proof. intros; cbn [str list_ascii_of_string app]. rewrite lex_cons. reflexivity. Qed.
Lemma lex_null : forall t, lex (str "null" ++ t) = TNull :: lex t.
Proof. intros; cbn [str list_ascii_of_string app]. rewrite lex_cons. reflexivity. Qed.
Lemma dq_raw : forall t rest, raw t -> dq (t ++ QUO :: rest) = Some (t, rest).
Proof.
  intros t rest (us & -> & F). induction F as [|u us U F IH]; [reflexivity|]. cbn [List.concat]. rewrite <- app_assoc.
  destruct U as [c N1 N2|e I|a b c d I].
  - cbn [app]. cbn [dq]. apply is_false in N1, N2. rewrite N1, N2, IH. reflexivity.
  - cbn [app]. cbn [dq]. assert (E : esc e = true) by (repeat destruct I as [<-|I]; try reflexivity; destruct I).
    rewrite E, IH. reflexivity.
  - inversion I as [|? ? I1 I']; subst. inversion I' as [|? ? I2 I'']; subst. inversion I'' as [|? ? I3 I3']; subst. inversion I3' as [|? ? I4 _]; subst.
    cbn [app]. cbn [dq]. rewrite I1, I2, I3, I4. cbn [andb]. rewrite IH. reflexivity.
Qed.
Lemma lex_string : forall t rest, raw t -> lex (quoted t ++ rest) = TStr t :: lex rest.
Proof.
  intros t rest R; unfold quoted. cbn [app]. rewrite lex_cons. unfold next. change (is QUO QUO) with true. cbv iota.
  rewrite <- app_assoc. cbn [app]. rewrite dq_raw by exact R. reflexivity.
Qed.

(** Numbers *)
Definition ends (t : text) : Prop := match t with [] => True | c :: _ => digit c = false /\ is c "."%char = false /\ is c "e"%char || is c "E"%char = false end.
Lemma digit_in : forall c, digit c = true -> In c (str "0123456789").
Proof. intros c; destruct c as [[] [] [] [] [] [] [] []]; vm_compute; intros H; try discriminate; tauto. Qed.
Definition ndigit (t : text) : Prop := match t with [] => True | c :: _ => digit c = false end.
Lemma digits_app : forall d r, Forall (fun c => digit c = true) d -> ndigit r -> digits (d ++ r) = (d, r).
Proof.
  intros d r F N; induction F as [|c d H F IH]; cbn [app digits].
  - destruct r as [|c r]; [reflexivity|]. cbn in *. rewrite N. reflexivity.
  - rewrite H, IH. reflexivity.
Qed.
Lemma ends_ndigit : forall t, ends t -> ndigit t.
Proof. intros [|c t]; cbn; tauto. Qed.
Lemma opt_no : forall p t, match t with [] => True | c :: _ => p c = false end -> opt p t = ([], t).
Proof. intros p [|c t] H; cbn; [reflexivity|]. rewrite H; reflexivity. Qed.
(** First character of a number: the other rules do not apply *)
Definition begins (c : ascii) : Prop := is c QUO = false /\ is c "'"%char = false /\
  is c "["%char || is c "]"%char || is c "{"%char || is c "}"%char || is c ","%char || is c ":"%char = false.
Lemma begins_digit : forall c, digit c = true -> begins c /\ sign c = false.
Proof. intros c H; apply digit_in in H. repeat destruct H as [<-|H]; try (repeat split; fail). destruct H. Qed.
Lemma begins_minus : begins "-"%char.
Proof. repeat split. Qed.
Lemma lex_number : forall y rest b, number (y ++ rest) = (y, rest, b) -> (exists c t, y = c :: t /\ begins c) ->
  lex (y ++ rest) = (if b then TInt (strtoll0 y) else TFloat y) :: lex rest.
Proof.
  intros y rest b N (c & t & -> & B1 & B2 & B3). cbn [app] in *. rewrite lex_cons. unfold next. rewrite B1, B2, B3, N.
  destruct b; reflexivity.
Qed.
Lemma numeral_cons : forall d, numeral d -> exists c t, d = c :: t /\ digit c = true.
Proof. intros [|c t] (N & F); [congruence|]. inversion F; subst. exists c, t; split; [reflexivity|assumption]. Qed.
Lemma signed : forall s d, s = [] \/ s = str "-" -> numeral d -> forall r, (exists c t, s ++ d ++ r = c :: t /\ begins c) /\ opt sign (s ++ d ++ r) = (s, d ++ r).
Proof.
  intros s d S D r. destruct (numeral_cons d D) as (c & t & -> & H). destruct (begins_digit c H) as (B & G). destruct S as [->| ->]; cbn [app].
  - split; [eexists _, _; split; [reflexivity|exact B]|]. cbn [opt]. rewrite G; reflexivity.
  - split; [eexists _, _; split; [reflexivity|exact begins_minus]|reflexivity].
Qed.
Lemma number_int : forall s d rest, s = [] \/ s = str "-" -> numeral d -> ends rest -> number ((s ++ d) ++ rest) = (s ++ d, rest, true).
Proof.
  intros s d rest S D E. rewrite <- app_assoc. unfold number. destruct (signed s d S D rest) as (_ & ->). cbv beta iota.
  rewrite digits_app by (apply D || (apply ends_ndigit; exact E)).
  rewrite (opt_no _ rest) by (destruct rest; [exact I|apply E]). change rest with ([] ++ rest) at 1.
  rewrite digits_app by (constructor || (apply ends_ndigit; exact E)). cbv beta iota.
  rewrite (opt_no _ rest) by (destruct rest; [exact I|apply E]).
  destruct (opt sign rest) as (g, t5). destruct (digits t5) as (x, t6). rewrite !app_nil_r.
  destruct D as (D & _). destruct d; [congruence|reflexivity].
Qed.
Lemma number_float : forall t rest, float t -> ends rest -> number (t ++ rest) = (t, rest, false) /\ exists c u, t = c :: u /\ begins c.
Proof.
  intros t rest (s & d & f & x & S & D & F & X & NE & ->) E. split.
  2:{ destruct (signed s d S D (f ++ x)) as (H & _). exact H. }
  replace ((s ++ d ++ f ++ x) ++ rest) with (s ++ d ++ (f ++ x ++ rest)) by (rewrite <- !app_assoc; reflexivity).
  unfold number. destruct (signed s d S D (f ++ x ++ rest)) as (_ & ->).
  assert (XN : match x ++ rest with [] => True | c :: _ => digit c = false /\ is c "."%char = false end).
  { destruct X as [->|(e & g & y & [->| ->] & _ & _ & ->)]; cbn [app]; [|split; reflexivity|split; reflexivity].
    destruct rest; [exact I|]. cbn in E. tauto. }
  assert (DN : ndigit (f ++ x ++ rest)).
  { destruct F as [->|(g & _ & ->)]; [|reflexivity]. cbn [app]. destruct (x ++ rest); [exact I|cbn; apply XN]. }
  rewrite digits_app by (apply D || exact DN).
  assert (F2 : exists p g, f = p ++ g /\ opt (fun c => is c "."%char) (f ++ x ++ rest) = (p, g ++ x ++ rest) /\ digits (g ++ x ++ rest) = (g, x ++ rest)
    /\ (p = [] -> g = [] /\ f = [])).
  { destruct F as [->|(g & G & ->)].
    - exists [], []. split; [reflexivity|]. cbn [app]. split; [apply opt_no; destruct (x ++ rest); [exact I|apply XN]|].
      split; [|split; reflexivity]. change (x ++ rest) with ([] ++ (x ++ rest)) at 1. apply digits_app; [constructor|].
      destruct (x ++ rest); [exact I|cbn; apply XN].
    - exists (str "."), g. split; [reflexivity|]. split; [reflexivity|]. split; [|discriminate].
      apply digits_app; [apply G|]. destruct (x ++ rest); [exact I|cbn; apply XN]. }
  destruct F2 as (p & g & -> & O & DG & PN). rewrite O, DG.
  assert (IB : match d, p, g with _ :: _, [], [] => true | _, _, _ => false end = true -> x <> []).
  { destruct d; [discriminate|]. destruct p; [|discriminate]. destruct g; [|discriminate]. intros _. destruct NE as [NE|NE]; [cbn in NE; congruence|exact NE]. }
  destruct X as [->|(e & h & y & EE & HH & Y & ->)].
  - cbn [app]. rewrite (opt_no _ rest) by (destruct rest; [exact I|apply E]).
    destruct (opt sign rest) as (g5, t5). destruct (digits t5) as (x6, t6). rewrite !app_nil_r.
    destruct (match d, p, g with _ :: _, [], [] => true | _, _, _ => false end); [exfalso; apply IB; reflexivity|]. reflexivity.
  - cbn [app]. assert (OE : opt (fun c => is c "e"%char || is c "E"%char) (e :: (h ++ y) ++ rest) = ([e], (h ++ y) ++ rest)) by (destruct EE as [->| ->]; reflexivity).
    rewrite OE. rewrite <- app_assoc.
    assert (OS : opt sign (h ++ y ++ rest) = (h, y ++ rest)).
    { destruct HH as [->|[->| ->]]; [|reflexivity|reflexivity]. destruct (numeral_cons y Y) as (c & u & -> & DC).
      cbn [app opt]. destruct (begins_digit c DC) as (_ & ->). reflexivity. }
    rewrite OS. rewrite digits_app by (apply Y || (apply ends_ndigit; exact E)).
    destruct (numeral_cons y Y) as (c & u & -> & DC). rewrite <- !app_assoc. reflexivity.
Qed.
Lemma lex_float : forall t rest, float t -> ends rest -> lex (t ++ rest) = TFloat t :: lex rest.
Proof. intros t rest F E. destruct (number_float t rest F E) as (N & B). apply (lex_number t rest false N B). Qed.

(** Decimal numbers *)
Lemma code_dchar : forall n, (n < 10)%N -> code (dchar n) = 48 + Z.of_N n /\ digit (dchar n) = true.
Proof.
  intros n L. assert (E : code (dchar n) = 48 + Z.of_N n).
  { unfold code, dchar, nat_of_ascii. rewrite N_ascii_embedding by lia. lia. }
  split; [exact E|]. unfold digit. rewrite E. apply Bool.andb_true_iff; split; apply Z.leb_le; lia.
Qed.
Lemma radix_app : forall a t acc, Forall (fun c => digit c = true) a -> radix 10 acc (a ++ t) = radix 10 (radix 10 acc a) t.
Proof.
  intros a t acc F; revert acc; induction F as [|c a H F IH]; intros acc; [reflexivity|]. cbn [app radix].
  unfold digit in H. apply Bool.andb_true_iff in H. destruct H as (H1 & H2). apply Z.leb_le in H1, H2.
  replace ((0 <=? code c - 48) && (code c - 48 <? 10)) with true; [apply IH|].
  symmetry; apply Bool.andb_true_iff; split; [apply Z.leb_le; lia|apply Z.ltb_lt; lia].
Qed.
Lemma dec_ok : forall fuel n, (n < 2 ^ N.of_nat fuel)%N -> (fuel > 0)%nat -> Forall (fun c => digit c = true) (dec fuel n) /\ dec fuel n <> [] /\
  radix 10 0 (dec fuel n) = Z.of_N n /\ ((0 < n)%N -> hd zero (dec fuel n) <> "0"%char).
Proof.
  induction fuel as [|fuel IH]; intros n L P; [lia|]. cbn [dec]. destruct (N.ltb_spec n 10) as [C|C].
  - destruct (code_dchar n C) as (E & D). split; [constructor; [exact D|constructor]|]. split; [discriminate|]. split.
    + cbn [radix]. rewrite E. replace (48 + Z.of_N n - 48) with (Z.of_N n) by lia.
      replace ((0 <=? Z.of_N n) && (Z.of_N n <? 10)) with true; [lia|].
      symmetry; apply Bool.andb_true_iff; split; [apply Z.leb_le; lia|apply Z.ltb_lt; lia].
    + intros H; cbn [hd]. intros X. rewrite X in E. change (code "0"%char) with 48 in E. lia.
  - assert (L2 : (n / 10 < 2 ^ N.of_nat fuel)%N).
    { apply N.div_lt_upper_bound; [lia|]. replace (N.of_nat (S fuel)) with (N.succ (N.of_nat fuel)) in L by lia. rewrite N.pow_succ_r' in L. set (q := (2 ^ N.of_nat fuel)%N) in *. clearbody q. lia. }
    assert (F0 : (fuel > 0)%nat).
    { destruct fuel; [|lia]. cbn in L2. assert (n / 10 >= 1)%N by (apply N.le_ge, N.div_le_lower_bound; lia). lia. }
    destruct (IH (n / 10)%N L2 F0) as (F & NE & R & HD).
    destruct (code_dchar (n mod 10) (N.mod_lt n 10 ltac:(lia))) as (E & D).
    split; [apply Forall_app; split; [exact F|constructor; [exact D|constructor]]|]. split; [intros X; apply app_eq_nil in X; tauto|]. split.
    + rewrite radix_app by exact F. rewrite R. cbn [radix]. rewrite E.
      pose proof (N.mod_lt n 10 ltac:(lia)) as ML. pose proof (N.div_mod n 10 ltac:(lia)) as DM.
      remember (n mod 10)%N as m eqn:Em. remember (n / 10)%N as q eqn:Eq. clear - ML DM.
      replace (48 + Z.of_N m - 48) with (Z.of_N m) by lia.
      replace ((0 <=? Z.of_N m) && (Z.of_N m <? 10)) with true.
      2:{ symmetry; apply Bool.andb_true_iff; split; [apply Z.leb_le; lia|apply Z.ltb_lt; lia]. }
      lia.
    + intros _. assert (0 < n / 10)%N by (assert (n / 10 >= 1)%N by (apply N.le_ge, N.div_le_lower_bound; lia); lia).
      destruct (dec fuel (n / 10)) as [|c t]; [congruence|]. cbn [app hd]. apply HD; assumption.
Qed.
Lemma decimal_ok : forall n, numeral (decimal n) /\ radix 10 0 (decimal n) = Z.of_N n /\ ((0 < n)%N -> hd zero (decimal n) <> "0"%char).
Proof.
  intros n. unfold decimal. assert (L : (n < 2 ^ N.of_nat (S (N.to_nat (N.log2 n))))%N).
  { rewrite Nat2N.inj_succ, N2Nat.id. destruct n; [reflexivity|]. apply N.log2_spec. lia. }
  destruct (dec_ok _ n L ltac:(lia)) as (F & NE & R & H). split; [split; assumption|split; assumption].
Qed.
Lemma print_ld_ok : forall z, exists s d, print_ld z = s ++ d /\ (s = [] \/ s = str "-") /\ numeral d /\ (I64MIN <= z <= I64MAX -> strtoll0 (print_ld z) = z).
Proof.
  intros z; unfold print_ld. destruct (Z.ltb_spec z 0) as [C|C].
  - destruct (decimal_ok (Z.to_N (- z))) as (D & R & H). exists (str "-"), (decimal (Z.to_N (- z))).
    split; [reflexivity|]. split; [right; reflexivity|]. split; [exact D|]. intros B.
    unfold strtoll0. cbn [opt]. change (sign "-"%char) with true. cbv iota. change (is "-"%char "-"%char) with true. cbv iota.
    specialize (H ltac:(lia)). destruct (decimal (Z.to_N (- z))) as [|c t]; [destruct D; congruence|]. cbn [hd] in H.
    apply is_false in H. rewrite H, R. unfold clamp, I64MIN, I64MAX in *. lia.
  - destruct (decimal_ok (Z.to_N z)) as (D & R & H). exists [], (decimal (Z.to_N z)).
    split; [reflexivity|]. split; [left; reflexivity|]. split; [exact D|]. intros B.
    unfold strtoll0. destruct (numeral_cons _ D) as (c & t & E & DC). rewrite E in *. cbn [opt].
    destruct (begins_digit c DC) as (_ & SG). rewrite SG.
    destruct (is c "0"%char) eqn:Z0.
    + apply is_true in Z0. destruct (Z.eq_dec z 0) as [->|NZ].
      * vm_compute in E. injection E as <- <-. reflexivity.
      * exfalso. apply H; [lia|exact Z0].
    + rewrite R. unfold clamp, I64MIN, I64MAX in *. lia.
Qed.
Lemma lex_int : forall z rest, I64MIN <= z <= I64MAX -> ends rest -> lex (print_ld z ++ rest) = TInt z :: lex rest.
Proof.
  intros z rest B E. destruct (print_ld_ok z) as (s & d & P & S & D & T). specialize (T B).
  assert (N : number (print_ld z ++ rest) = (print_ld z, rest, true)) by (rewrite P; apply number_int; assumption).
  rewrite (lex_number _ _ _ N).
  - rewrite T; reflexivity.
  - rewrite P. destruct (signed s d S D []) as (H & _). rewrite app_nil_r in H. exact H.
Qed.
