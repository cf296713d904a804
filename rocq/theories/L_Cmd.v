(** Lemmas about command substitution. *)
From Verif Require Export S_Cmd.
From Coq Require Import List Lia ZifyBool ZifyN ZifyNat.
Import ListNotations.
Local Open Scope N_scope.

(** ** Lists *)
Lemma trim_snoc l c : trim (l ++ [c]) = if isspace c then trim l else l ++ [c].
Proof.
  induction l as [|a l IH]; cbn [app trim]; [destruct (isspace c); reflexivity|]. rewrite IH. destruct (isspace c); [reflexivity|].
  destruct l; reflexivity.
Qed.
Lemma trim_len l : (length (trim l) <= length l)%nat.
Proof. induction l as [|c l IH]; cbn [trim]; [lia|]. destruct (trim l) eqn:E; [destruct (isspace c); cbn; lia|]. cbn [length] in *. lia. Qed.
Lemma trim_pre l : exists w, l = trim l ++ w /\ forallb isspace w = true.
Proof.
  induction l as [|c l (w & E & Hw)]; [exists []; split; reflexivity|]. cbn [trim]. destruct (trim l) as [|d t] eqn:Et.
  - cbn in E. subst w. destruct (isspace c) eqn:Ec; [exists (c :: l)|exists l]; cbn; rewrite ?Ec; auto.
  - exists w. split; [cbn in E |- *; congruence|exact Hw].
Qed.
Lemma trim_ws w : forallb isspace w = true -> trim w = [].
Proof. induction w as [|c w IH]; [reflexivity|]. cbn. intros H. apply andb_prop in H as [H1 H2]. now rewrite (IH H2), H1. Qed.
Lemma trim_app_ws l w : forallb isspace w = true -> trim (l ++ w) = trim l.
Proof. intros H. induction l as [|c l IH]; cbn [app trim]; [now apply trim_ws|]. now rewrite IH. Qed.
Lemma trim_idem l : trim (trim l) = trim l.
Proof. destruct (trim_pre l) as (w & E & H). rewrite E at 2. now rewrite trim_app_ws. Qed.
(** a list that ends with a character that is not a space *)
Lemma firm_app a l : firm a -> a <> [] -> trim (a ++ l) = a ++ trim l.
Proof.
  unfold firm. intros H Hn. induction a as [|c a IH]; [congruence|]. cbn [app trim] in *.
  destruct a as [|d a].
  - cbn in *. destruct (trim l); [destruct (isspace c); congruence|reflexivity].
  - destruct (trim (d :: a)) as [|e t] eqn:E; [destruct (isspace c); congruence|]. injection H as H. rewrite H in E. rewrite IH; [reflexivity|congruence|congruence].
Qed.
Lemma firm_app2 a l : firm a -> a <> [] -> firm l -> firm (a ++ l).
Proof. intros H1 H2 H3. unfold firm. rewrite firm_app by assumption. now rewrite H3. Qed.

Lemma line_ok out : forall n, (length out <= n)%nat -> exists l rest, line n out = (l, rest) /\ out = l ++ rest /\
  ((exists x, l = x ++ [10] /\ ~ In 10 x) \/ (rest = [] /\ ~ In 10 l)).
Proof.
  induction out as [|c out IH]; intros n Hn; [exists [], []; split; [destruct n; reflexivity|split; [reflexivity|right; auto]]|].
  destruct n as [|n]; [cbn in Hn; lia|]. cbn [line]. destruct (N.eqb_spec c 10) as [->|Hc].
  - exists [10], out. split; [reflexivity|]. split; [reflexivity|]. left. exists []. auto.
  - destruct (IH n ltac:(cbn in Hn; lia)) as (l & rest & E & E2 & H). rewrite E. exists (c :: l), rest. split; [reflexivity|]. split; [cbn; congruence|].
    destruct H as [(x & -> & Hx)|(-> & Hx)].
    + left. exists (c :: x). split; [reflexivity|]. intros [H|H]; [congruence|now apply Hx].
    + right. split; [reflexivity|]. intros [H|H]; [congruence|now apply Hx].
Qed.
Lemma nl_ws w r : forallb isspace w = true -> nl_ahead (w ++ 10 :: r) = true.
Proof. induction w as [|c w IH]; [reflexivity|]. cbn. intros H. apply andb_prop in H as [H1 H2]. rewrite H1, (IH H2). now destruct (c =? 10). Qed.
Lemma squeeze_ws w r : forallb isspace w = true -> squeeze (w ++ 10 :: r) = squeeze (10 :: r).
Proof. induction w as [|c w IH]; [reflexivity|]. cbn [forallb app]. intros H. apply andb_prop in H as [H1 H2]. cbn [squeeze]. rewrite H1, (nl_ws w r H2). cbn [andb]. now apply IH. Qed.
Lemma nl_firm x y : firm x -> x <> [] -> ~ In 10 x -> nl_ahead (x ++ y) = false.
Proof.
  unfold firm. induction x as [|c x IH]; [congruence|]. cbn [app nl_ahead trim]. intros H _ Hn. destruct (N.eqb_spec c 10) as [->|Hc]; [elim Hn; now left|]. cbn [orb].
  destruct (isspace c) eqn:Ec; [|reflexivity]. cbn [andb]. destruct x as [|d x]; [cbn in H; congruence|]. apply IH; [|discriminate|intros K; apply Hn; now right].
  destruct (trim (d :: x)) as [|e t]; [discriminate|]. congruence.
Qed.
Lemma squeeze_firm x y : firm x -> x <> [] -> ~ In 10 x -> squeeze (x ++ y) = x ++ squeeze y.
Proof.
  unfold firm. induction x as [|c x IH]; [congruence|]. intros H _ Hn. cbn [app squeeze]. destruct (N.eqb_spec c 10) as [->|Hc]; [elim Hn; now left|]. destruct x as [|d x].
  - cbn in H. destruct (isspace c); [discriminate|]. reflexivity.
  - assert (Hf : trim (d :: x) = d :: x).
    { revert H. cbn [trim]. fold (trim (d :: x)). destruct (trim (d :: x)) as [|e t] eqn:E; cbn [trim] in E; rewrite E; [destruct (isspace c); discriminate|]. congruence. }
    assert (Hx : ~ In 10 (d :: x)) by (intros K; apply Hn; now right).
    rewrite (nl_firm (d :: x) y Hf ltac:(discriminate) Hx). rewrite andb_false_r. now rewrite IH.
Qed.
Lemma nl_none l : ~ In 10 l -> nl_ahead l = false.
Proof. induction l as [|c l IH]; [reflexivity|]. intros H. cbn. destruct (N.eqb_spec c 10) as [->|]; [elim H; now left|]. cbn. rewrite IH; [apply andb_false_r|]. intros K. apply H. now right. Qed.
Lemma squeeze_none l : ~ In 10 l -> squeeze l = l.
Proof.
  induction l as [|c l IH]; [reflexivity|]. intros H. assert (Hl : ~ In 10 l) by (intros K; apply H; now right). cbn [squeeze]. rewrite (nl_none _ Hl), andb_false_r.
  destruct (N.eqb_spec c 10) as [->|]; [elim H; now left|]. now rewrite IH.
Qed.

(** One round of the loop on lists *)
Definition bump (l : list byte) : list byte := let t := trim l in if Nat.eqb (length t) (length l) then t else t ++ [32].
(** the pending space as the end of line it stands for *)
Definition nls (s : list byte) : list byte := match s with [] => [] | _ => [10] end.
Lemma trim_bump l : trim (bump l) = trim l.
Proof. unfold bump. destruct (Nat.eqb _ _); [apply trim_idem|]. rewrite trim_app_ws by reflexivity. apply trim_idem. Qed.
Lemma bump_len l : l <> [] -> (length (bump l) <= length l)%nat.
Proof. intros H. unfold bump. pose proof (trim_len l). destruct (Nat.eqb_spec (length (trim l)) (length l)); [lia|]. rewrite app_length. cbn. lia. Qed.
Lemma round A s x rest : firm A -> A <> [] -> s = [] \/ s = [32] -> ~ In 10 x ->
  exists A' s', firm A' /\ A' <> [] /\ (s' = [] \/ s' = [32]) /\ bump ((A ++ s) ++ x ++ [10]) = A' ++ s' /\
    A' ++ trim (squeeze (nls s' ++ rest)) = A ++ trim (squeeze (nls s ++ x ++ 10 :: rest)).
Proof.
  intros HA HA0 Hs Hx. destruct (trim_pre x) as (w & Ex & Hw).
  assert (Hsw : forallb isspace s = true) by (destruct Hs as [->| ->]; reflexivity).
  destruct (trim x) as [|c x0] eqn:Et.
  - cbn in Ex. subst w. exists A, [32]. split; [exact HA|]. split; [exact HA0|]. split; [now right|]. split.
    + unfold bump. assert (E : trim ((A ++ s) ++ x ++ [10]) = A).
      { rewrite <- !app_assoc. rewrite firm_app by assumption. rewrite trim_ws; [apply app_nil_r|]. rewrite !forallb_app, Hsw, Hw. reflexivity. }
      rewrite E. destruct (Nat.eqb_spec (length A) (length ((A ++ s) ++ x ++ [10]))) as [K|_]; [rewrite !app_length in K; cbn in K; lia|reflexivity].
    + f_equal. f_equal. cbn [nls app]. destruct Hs as [->| ->]; cbn [nls app]; [now rewrite squeeze_ws|].
      change (10 :: x ++ 10 :: rest) with ((10 :: x) ++ 10 :: rest). now rewrite squeeze_ws by (cbn; rewrite Hw; reflexivity).
  - assert (Hf : firm (c :: x0)) by (unfold firm; rewrite <- Et; rewrite trim_idem; reflexivity).
    assert (Hx0 : ~ In 10 (c :: x0)) by (intros K; apply Hx; rewrite Ex; apply in_or_app; now left).
    assert (HA1 : (A ++ s) ++ (c :: x0) <> []) by (destruct A; [congruence|discriminate]).
    assert (HA2 : firm ((A ++ s) ++ (c :: x0))).
    { unfold firm. rewrite <- app_assoc. rewrite firm_app by assumption. f_equal. destruct Hs as [->| ->]; [exact Hf|]. change (trim (32 :: (c :: x0)) = 32 :: (c :: x0)).
      unfold firm in Hf. cbn [trim]. cbn [trim] in Hf. rewrite Hf. reflexivity. }
    exists ((A ++ s) ++ (c :: x0)), [32]. split; [exact HA2|]. split; [exact HA1|]. split; [now right|]. split.
    + unfold bump. assert (E : trim ((A ++ s) ++ x ++ [10]) = (A ++ s) ++ (c :: x0)).
      { rewrite Ex. rewrite <- (app_assoc (c :: x0) w [10]). rewrite (app_assoc (A ++ s) (c :: x0)). rewrite firm_app by assumption. rewrite trim_ws; [apply app_nil_r|]. rewrite forallb_app, Hw. reflexivity. }
      rewrite E. destruct (Nat.eqb_spec (length ((A ++ s) ++ c :: x0)) (length ((A ++ s) ++ x ++ [10]))) as [K|_]; [exfalso|reflexivity].
      rewrite Ex in K. rewrite !app_length in K. cbn in K. lia.
    + rewrite <- !app_assoc. f_equal. rewrite Ex. rewrite <- app_assoc. cbn [nls app].
      assert (E : squeeze ((c :: x0) ++ w ++ 10 :: rest) = (c :: x0) ++ squeeze (10 :: rest)) by (rewrite squeeze_firm by (assumption || discriminate); now rewrite squeeze_ws).
      destruct Hs as [->| ->]; cbn [nls app].
      * change (c :: x0 ++ w ++ 10 :: rest) with ((c :: x0) ++ w ++ 10 :: rest). rewrite E. rewrite firm_app by (assumption || discriminate). reflexivity.
      * change (c :: x0 ++ w ++ 10 :: rest) with ((c :: x0) ++ w ++ 10 :: rest). cbn [squeeze]. rewrite (nl_firm (c :: x0)) by (assumption || discriminate). rewrite andb_false_r.
        change (if 10 =? 10 then 32 else 10) with 32. fold (squeeze ((c :: x0) ++ w ++ 10 :: rest)). rewrite E.
        change (32 :: (c :: x0) ++ squeeze (10 :: rest)) with ((32 :: c :: x0) ++ squeeze (10 :: rest)). rewrite firm_app; [reflexivity| |discriminate].
        unfold firm in *. cbn [trim]. cbn [trim] in Hf. rewrite Hf. reflexivity.
Qed.
Lemma round_last A s l : firm A -> A <> [] -> s = [] \/ s = [32] -> ~ In 10 l ->
  trim ((A ++ s) ++ l) = A ++ trim (squeeze (nls s ++ l)).
Proof.
  intros HA HA0 Hs Hl. rewrite <- app_assoc. rewrite firm_app by assumption. f_equal. f_equal. destruct Hs as [->| ->]; cbn [nls app]; [now rewrite squeeze_none|].
  cbn [squeeze]. rewrite (nl_none _ Hl), andb_false_r. cbn. now rewrite squeeze_none.
Qed.

(** ** The buffer *)
Record cont (b : sbuf) (L : list byte) : Prop := mkCont {
  co_len : slen b = N.of_nat (length L);
  co_cap : cap b = slen b + alen b;
  co_room : 1 <= alen b;
  co_max : cap b <= 8192;
  co_free : 4096 <= slen b + alen b;
  co_byt : forall i, i < slen b -> byt b i = nth (N.to_nat i) L 0 }.
Definition nul (b : sbuf) : Prop := byt b (slen b) = 0.

Lemma add_small a b : a + b < W64 -> add64 a b = a + b.
Proof. intros H. unfold add64. now apply N.mod_small. Qed.
Lemma sub_small a b : b <= a -> a < W64 -> sub64 a b = a - b.
Proof.
  intros H1 H2. unfold sub64. rewrite (N.mod_small b) by lia. replace (a + (W64 - b)) with (a - b + 1 * W64) by lia. rewrite N.mod_add by (unfold W64; lia). apply N.mod_small. lia.
Qed.
Lemma wr_ok b off d : off + N.of_nat (length d) <= cap b -> exists b', wr b off d = CRes b' /\ cap b' = cap b /\ slen b' = slen b /\ alen b' = alen b /\
  (forall i, off <= i -> i < off + N.of_nat (length d) -> byt b' i = nth (N.to_nat (i - off)) d 0) /\ (forall i, i < off \/ off + N.of_nat (length d) <= i -> byt b' i = byt b i).
Proof.
  intros H. unfold wr. rewrite (proj2 (N.leb_le _ _) H). eexists. split; [reflexivity|]. cbn [cap slen alen byt]. repeat (split; [reflexivity|]). split.
  - intros i H1 H2. rewrite (proj2 (N.leb_le _ _) H1), (proj2 (N.ltb_lt _ _) H2). reflexivity.
  - intros i H1. destruct (N.leb_spec off i), (N.ltb_spec i (off + N.of_nat (length d))); cbn; try reflexivity. lia.
Qed.
Lemma scpy_ok b L str : cont b L -> N.of_nat (length str) < alen b -> exists b', scpy b str = CRes b' /\ cont b' (L ++ str) /\ nul b'.
Proof.
  intros [C1 C2 C3 C4 C5 C6] Hl. unfold scpy. destruct (N.leb_spec (alen b) (N.of_nat (length str))) as [H|_]; [lia|].
  destruct (wr_ok b (slen b) str ltac:(lia)) as (b1 & E1 & D1 & D2 & D3 & D4 & D5). rewrite E1. cbn [cbind].
  rewrite D2, D3. rewrite add_small by (unfold W64; lia). rewrite sub_small by (unfold W64; lia).
  destruct (wr_ok (set_len b1 (slen b + N.of_nat (length str)) (alen b - N.of_nat (length str))) (slen b + N.of_nat (length str)) [0]) as (b2 & E2 & F1 & F2 & F3 & F4 & F5).
  { cbn [set_len cap length]. lia. }
  cbn [set_len slen] in E2 |- *. cbn [set_len cap slen alen byt length] in F1, F2, F3, F4, F5. rewrite E2. exists b2. split; [reflexivity|]. split.
  - constructor; rewrite ?F1, ?F2, ?F3, ?app_length; try lia. intros i Hi. rewrite F5 by lia. destruct (N.lt_ge_cases i (slen b)) as [Hi'|Hi'].
    + rewrite D5 by lia. rewrite C6 by lia. rewrite app_nth1 by lia. reflexivity.
    + rewrite D4 by lia. rewrite app_nth2 by lia. f_equal. lia.
  - unfold nul. rewrite F2. rewrite F4 by lia. rewrite N.sub_diag. reflexivity.
Qed.
Lemma rd_ok b i : i < cap b -> rd b i = CRes (byt b i).
Proof. intros H. unfold rd. now rewrite (proj2 (N.ltb_lt _ _) H). Qed.
Lemma strlen_ok b : forall d f i, (length d < f)%nat -> i + N.of_nat (length d) < cap b -> ~ In 0 d ->
  (forall j, j < N.of_nat (length d) -> byt b (i + j) = nth (N.to_nat j) d 0) -> byt b (i + N.of_nat (length d)) = 0 -> strlen_at f b i = CRes (N.of_nat (length d)).
Proof.
  induction d as [|c d IH]; intros f i Hf Hi Hz Hb H0; (destruct f as [|f]; [cbn in Hf; lia|]); cbn [strlen_at length] in *; rewrite rd_ok by lia; cbn [cbind].
  - rewrite N.add_0_r in H0. rewrite H0. reflexivity.
  - pose proof (Hb 0 ltac:(lia)) as Hc. rewrite N.add_0_r in Hc. cbn in Hc. rewrite Hc. destruct (N.eqb_spec c 0) as [->|_]; [elim Hz; now left|].
    rewrite IH; [cbn [cbind]; f_equal; lia|lia|lia|intros K; apply Hz; now right| |].
    + intros j Hj. replace (i + 1 + j) with (i + (j + 1)) by lia. rewrite Hb by lia. replace (N.to_nat (j + 1)) with (S (N.to_nat j)) by lia. reflexivity.
    + replace (i + 1 + N.of_nat (length d)) with (i + N.of_nat (S (length d))) by lia. exact H0.
Qed.
Lemma back_false L : forall f b, cont b L -> trim L <> [] -> (length L < f)%nat ->
  back f false b = CRes (set_len b (N.of_nat (length (trim L))) (alen b + (slen b - N.of_nat (length (trim L))))).
Proof.
  induction L as [|c L IH] using rev_ind; intros f b HC Ht Hf; [now elim Ht|]. destruct f as [|f]; [lia|]. cbn [back].
  destruct HC as [C1 C2 C3 C4 C5 C6]. rewrite app_length in *. cbn [length] in *. rewrite sub_small by (unfold W64; lia). rewrite rd_ok by lia. cbn [cbind].
  assert (Ec : byt b (slen b - 1) = c). { rewrite C6 by lia. rewrite app_nth2 by lia. replace (N.to_nat (slen b - 1) - length L)%nat with 0%nat by lia. reflexivity. }
  rewrite Ec. rewrite trim_snoc in *. destruct (isspace c) eqn:Es.
  - cbn [cbind]. rewrite ?(sub_small (slen b) 1) by (unfold W64; lia). rewrite add_small by (unfold W64; lia). rewrite (IH f (set_len b (slen b - 1) (alen b + 1))); [|constructor; cbn [set_len slen alen cap byt]; try lia|exact Ht|lia].
    + cbn [set_len cap byt alen slen]. unfold set_len. f_equal. pose proof (trim_len L). f_equal. lia.
    + intros i Hi. rewrite C6 by lia. rewrite app_nth1 by lia. reflexivity.
  - unfold set_len. f_equal. rewrite app_length. cbn [length]. destruct b as [bc bb bs ba]. cbn in *. f_equal; lia.
Qed.
Lemma back_true L : forall f b, cont b L -> nul b -> trim L <> [] -> (length L < f)%nat ->
  exists b', back f true b = CRes b' /\ cont b' (trim L) /\ nul b'.
Proof.
  induction L as [|c L IH] using rev_ind; intros f b HC HN Ht Hf; [now elim Ht|]. destruct f as [|f]; [lia|]. cbn [back].
  pose proof HC as [C1 C2 C3 C4 C5 C6]. rewrite app_length in C1, Hf. cbn [length] in C1, Hf. rewrite sub_small by (unfold W64; lia). rewrite rd_ok by lia. cbn [cbind].
  assert (Ec : byt b (slen b - 1) = c). { rewrite C6 by lia. rewrite app_nth2 by lia. replace (N.to_nat (slen b - 1) - length L)%nat with 0%nat by lia. reflexivity. }
  rewrite Ec. rewrite trim_snoc in *. destruct (isspace c) eqn:Es.
  - destruct (wr_ok b (slen b - 1) [0]) as (b1 & E1 & D1 & D2 & D3 & D4 & D5); [cbn; lia|]. rewrite E1. cbn [cbind length] in *. rewrite D2, D3.
    rewrite sub_small by (unfold W64; lia). rewrite add_small by (unfold W64; lia). apply IH; [|unfold nul; cbn [set_len byt slen]; rewrite D4 by lia; rewrite N.sub_diag; reflexivity|exact Ht|lia].
    constructor; cbn [set_len slen alen cap byt]; try lia. intros i Hi. rewrite D5 by lia. rewrite C6 by lia. rewrite app_nth1 by lia. reflexivity.
  - exists b. split; [reflexivity|]. split; [exact HC|exact HN].
Qed.

(** the part of a round after fgets *)
Lemma after_fgets b L l : cont b L -> (length l + length L <= 4095)%nat -> N.of_nat (length l) < alen b -> ~ In 0 l ->
  (forall j, j < N.of_nat (length l) -> byt b (slen b + j) = nth (N.to_nat j) l 0) -> byt b (slen b + N.of_nat (length l)) = 0 -> trim (L ++ l) <> [] ->
  exists b', cont b' (bump (L ++ l)) /\ nul b' /\ 2 <= alen b' /\ forall f rest,
  (len <== strlen_at (S (N.to_nat (cap b))) b (slen b) ;;
      let b := set_len b (add64 (slen b) len) (sub64 (alen b) len) in
      b <== back (S (N.to_nat (slen b))) false b ;;
      c <== rd b (slen b) ;;
      b <== (if isspace c
             then b <== wr b (slen b) [32] ;;
                  let b := set_len b (add64 (slen b) 1) (alen b) in
                  b <== wr b (slen b) [0] ;;
                  CRes (set_len b (slen b) (sub64 (alen b) 1))
             else CRes b) ;;
      let b := if alen b =? 1
               then mkB (add64 (add64 (slen b) (alen b)) 4096) (byt b) (slen b) (add64 (alen b) 4096)
               else b in
      copy_out f b rest) = copy_out f b' rest.
Proof.
  intros HC Hmax Hal Hz Hb H0 Ht. pose proof HC as [C1 C2 C3 C4 C5 C6].
  rewrite (strlen_ok b l); [|lia|lia|exact Hz|exact Hb|exact H0]. cbn [cbind]. rewrite add_small by (unfold W64; lia). rewrite sub_small by (unfold W64; lia).
  set (b1 := set_len b (slen b + N.of_nat (length l)) (alen b - N.of_nat (length l))).
  assert (HC1 : cont b1 (L ++ l)).
  { subst b1. constructor; cbn [set_len slen alen cap byt]; rewrite ?app_length; try lia. intros i Hi. destruct (N.lt_ge_cases i (slen b)) as [Hi'|Hi'].
    - rewrite C6 by lia. rewrite app_nth1 by lia. reflexivity.
    - rewrite app_nth2 by lia. replace i with (slen b + (i - slen b)) at 1 by lia. rewrite Hb by lia. f_equal. lia. }
  assert (HN1 : nul b1) by exact H0.
  pose proof HC1 as [G1 G2 G3 G4 G5 G6].
  rewrite (back_false (L ++ l)); [|exact HC1|exact Ht|rewrite G1; lia]. cbn [cbind].
  set (t := trim (L ++ l)) in *. pose proof (trim_len (L ++ l)) as Htl. fold t in Htl. rewrite app_length in Htl.
  set (b2 := set_len b1 (N.of_nat (length t)) (alen b1 + (slen b1 - N.of_nat (length t)))).
  rewrite app_length in G1.
  assert (HC2 : cont b2 t).
  { subst b2. constructor; cbn [set_len slen alen cap byt]; try lia. intros i Hi. rewrite G6 by lia. destruct (trim_pre (L ++ l)) as (w & E & _). fold t in E. rewrite E. rewrite app_nth1 by lia. reflexivity. }
  assert (K1 : slen b2 = N.of_nat (length t)) by reflexivity. assert (K2 : cap b2 = cap b1) by reflexivity. assert (K3 : byt b2 = byt b1) by reflexivity.
  assert (K4 : alen b2 = alen b1 + (slen b1 - N.of_nat (length t))) by reflexivity.
  rewrite rd_ok by lia. cbn [cbind].
  assert (HB : exists b3, cont b3 (bump (L ++ l)) /\ nul b3 /\
     (if isspace (byt b2 (slen b2)) then b <== wr b2 (slen b2) [32] ;; let b := set_len b (add64 (slen b) 1) (alen b) in b <== wr b (slen b) [0] ;; CRes (set_len b (slen b) (sub64 (alen b) 1)) else CRes b2) = CRes b3).
  { unfold bump. fold t. rewrite app_length. destruct (Nat.eqb_spec (length t) (length L + length l)) as [E|E].
    - exists b2. split; [exact HC2|]. assert (E0 : byt b2 (slen b2) = 0) by (rewrite K1, K3; rewrite <- HN1; f_equal; lia). split; [exact E0|]. now rewrite E0.
    - destruct (trim_pre (L ++ l)) as (w & Ew & Hw). fold t in Ew. pose proof (f_equal (@length _) Ew) as El. rewrite !app_length in El.
      destruct w as [|c w]; [cbn in El; lia|]. assert (Ec : byt b2 (slen b2) = c).
      { rewrite K1, K3. rewrite G6 by lia. rewrite Ew. rewrite app_nth2 by lia. replace (N.to_nat (N.of_nat (length t)) - length t)%nat with 0%nat by lia. reflexivity. }
      rewrite Ec. cbn in Hw. apply andb_prop in Hw as [Hw _]. rewrite Hw. cbn [length] in El.
      destruct (wr_ok b2 (slen b2) [32]) as (b3 & E3 & D1 & D2 & D3 & D4 & D5); [cbn [length]; lia|]. rewrite E3. cbn [cbind length] in *. rewrite D2, D3. rewrite add_small by (unfold W64; lia).
      destruct (wr_ok (set_len b3 (slen b2 + 1) (alen b2)) (slen b2 + 1) [0]) as (b4 & E4 & F1 & F2 & F3 & F4 & F5); [cbn [length set_len cap]; lia|]. cbn [set_len slen] in E4 |- *. rewrite E4.
      cbn [set_len slen alen cap byt length cbind] in *. rewrite F2, F3. rewrite sub_small by (unfold W64; lia). eexists. split; [|split; [|reflexivity]].
      + constructor; cbn [set_len slen alen cap byt]; rewrite ?app_length; cbn [length]; try lia. intros i Hi. rewrite F5 by lia. destruct (N.lt_ge_cases i (slen b2)) as [Hi'|Hi'].
        * rewrite D5 by lia. rewrite (co_byt _ _ HC2) by lia. rewrite app_nth1 by lia. reflexivity.
        * rewrite D4 by lia. rewrite app_nth2 by lia. f_equal. lia.
      + unfold nul. cbn [set_len slen byt]. rewrite F4 by lia. rewrite N.sub_diag. reflexivity. }
  destruct HB as (b3 & HC3 & HN3 & E3). pose proof HC3 as [M1 M2 M3 M4 M5 M6].
  assert (Hbl : (length (bump (L ++ l)) <= length L + length l)%nat) by (rewrite <- app_length; apply bump_len; intros K; apply Ht; unfold t; now rewrite K).
  exists (if alen b3 =? 1 then mkB (add64 (add64 (slen b3) (alen b3)) 4096) (byt b3) (slen b3) (add64 (alen b3) 4096) else b3). split; [|split; [|split]].
  - destruct (N.eqb_spec (alen b3) 1) as [Ea|Ea]; [|exact HC3]. rewrite !add_small by (rewrite ?add_small by (unfold W64; lia); unfold W64; lia). constructor; cbn [slen alen cap byt]; try lia. exact M6.
  - destruct (N.eqb_spec (alen b3) 1) as [Ea|Ea]; exact HN3.
  - destruct (N.eqb_spec (alen b3) 1) as [Ea|Ea]; [|lia]. cbn [alen]. rewrite add_small by (unfold W64; lia). lia.
  - intros f rest. unfold b2 in E3 |- *. rewrite E3. cbn [cbind]. reflexivity.
Qed.
Lemma to_int_small a : a <= 8192 -> to_int a = Z.of_N a.
Proof. intros H. unfold to_int. rewrite N.mod_small by lia. destruct (N.ltb_spec a 2147483648); lia. Qed.

Lemma copy_two : forall f b A s out, (length out < f)%nat -> firm A -> A <> [] -> s = [] \/ s = [32] -> cont b (A ++ s) -> nul b -> 2 <= alen b -> ~ In 0 out ->
  (length (A ++ s) + length out <= 4095)%nat ->
  exists b' L', copy_out f b out = CRes b' /\ cont b' L' /\ nul b' /\ trim L' = A ++ trim (squeeze (nls s ++ out)) /\ (length L' <= length (A ++ s) + length out)%nat.
Proof.
  induction f as [|f IH]; intros b A s out Hf HA HA0 Hs HC HN Ha Hz Hm; [lia|]. pose proof HC as [C1 C2 C3 C4 C5 C6].
  cbn [copy_out]. unfold fgets. rewrite (to_int_small (alen b)) by lia. destruct (Z.leb_spec (Z.of_N (alen b)) 0) as [K|_]; [lia|]. destruct (Z.eqb_spec (Z.of_N (alen b)) 1) as [K|_]; [lia|].
  destruct out as [|c out].
  - cbn [cbind]. exists b, (A ++ s). split; [reflexivity|]. split; [exact HC|]. split; [exact HN|]. split; [|lia].
    rewrite app_nil_r. rewrite firm_app by assumption. f_equal. destruct Hs as [->| ->]; reflexivity.
  - destruct (line_ok (c :: out) (Z.to_nat (Z.of_N (alen b) - 1))) as (l & rest & El & Eo & Hl); [lia|]. rewrite El.
    pose proof (f_equal (@length _) Eo) as Elen. rewrite app_length in Elen.
    assert (Hl0 : (1 <= length l)%nat).
    { destruct Hl as [(x & -> & _)|(-> & _)]; [rewrite app_length; cbn; lia|cbn in Elen; lia]. }
    destruct (wr_ok b (slen b) (l ++ [0])) as (b1 & E1 & D1 & D2 & D3 & D4 & D5); [rewrite app_length; cbn [length]; lia|]. rewrite E1. cbn [cbind]. rewrite app_length in D4, D5. cbn [length] in D4, D5.
    assert (HC1 : cont b1 (A ++ s)). { constructor; rewrite ?D1, ?D2, ?D3; try lia. intros i Hi. rewrite D5 by lia. now apply C6. }
    assert (HzL : ~ In 0 l /\ ~ In 0 rest) by (rewrite Eo in Hz; split; intros K; apply Hz; apply in_or_app; auto). destruct HzL as [Hzl Hzr].
    assert (Htn : trim ((A ++ s) ++ l) <> []).
    { rewrite <- app_assoc. rewrite firm_app by assumption. destruct A; [congruence|discriminate]. }
    destruct (after_fgets b1 (A ++ s) l HC1) as (b2 & HC2 & HN2 & Ha2 & E2); [lia|lia|exact Hzl| | |exact Htn|].
    + intros j Hj. rewrite D2. rewrite D4 by lia. rewrite app_nth1 by lia. f_equal. lia.
    + rewrite D2. rewrite D4 by lia. rewrite app_nth2 by lia. replace (N.to_nat (slen b + N.of_nat (length l) - slen b) - length l)%nat with 0%nat by lia. reflexivity.
    + rewrite E2. assert (Hbl : (length (bump ((A ++ s) ++ l)) <= length (A ++ s) + length l)%nat) by (rewrite <- app_length; apply bump_len; destruct A; [congruence|discriminate]).
      destruct Hl as [(x & -> & Hx)|(-> & Hx)].
      * destruct (round A s x rest HA HA0 Hs Hx) as (A' & s' & HA' & HA0' & Hs' & Eb & Et). rewrite Eb in *.
        destruct (IH b2 A' s' rest) as (b' & L' & E & HC' & HN' & Ht' & Hl'); try assumption; [lia|lia|]. exists b', L'. split; [exact E|]. split; [exact HC'|]. split; [exact HN'|].
        split; [|lia]. rewrite Ht'. rewrite Et. rewrite Eo. do 3 f_equal. rewrite <- app_assoc. reflexivity.
      * rewrite app_nil_r in Eo. destruct f as [|f]; [cbn in Hf; lia|]. cbn [copy_out]. pose proof HC2 as [F1 F2 F3 F4 F5 F6]. unfold fgets. rewrite to_int_small by lia.
        destruct (Z.leb_spec (Z.of_N (alen b2)) 0) as [K|_]; [lia|]. destruct (Z.eqb_spec (Z.of_N (alen b2)) 1) as [K|_]; [lia|]. cbn [cbind].
        exists b2, (bump ((A ++ s) ++ l)). split; [reflexivity|]. split; [exact HC2|]. split; [exact HN2|]. split; [|lia]. rewrite trim_bump. rewrite Eo. now apply round_last.
Qed.
Lemma copy_ok b A out f : (length out + 2 < f)%nat -> firm A -> A <> [] -> cont b A -> nul b -> ~ In 0 out -> (length A + length out <= 4095)%nat ->
  exists b', (b <== copy_out f b out ;; back (S (N.to_nat (slen b))) true b) = CRes b' /\ cont b' (A ++ tidy out) /\ nul b'.
Proof.
  intros Hf HA HA0 HC HN Hz Hm. pose proof HC as [C1 C2 C3 C4 C5 C6].
  assert (H2 : exists b' L', copy_out f b out = CRes b' /\ cont b' L' /\ nul b' /\ trim L' = A ++ tidy out).
  { destruct (N.eq_dec (alen b) 1) as [Ea|Ea].
    - destruct f as [|f]; [lia|]. cbn [copy_out]. unfold fgets. rewrite to_int_small by lia. rewrite Ea. change (Z.of_N 1 <=? 0)%Z with false. change (Z.of_N 1 =? 1)%Z with true. cbv iota.
      destruct (wr_ok b (slen b) [0]) as (b1 & E1 & D1 & D2 & D3 & D4 & D5); [cbn [length]; lia|]. rewrite E1. cbn [cbind]. cbn [length] in D4, D5.
      assert (HC1 : cont b1 A). { constructor; rewrite ?D1, ?D2, ?D3; try lia. intros i Hi. rewrite D5 by lia. now apply C6. }
      destruct (after_fgets b1 A [] HC1) as (b2 & HC2 & HN2 & Ha2 & E2); [cbn; lia|cbn [length]; lia|intros []|cbn [length]; lia| | |].
      + cbn [length]. rewrite N.add_0_r, D2. rewrite D4 by lia. rewrite N.sub_diag. reflexivity.
      + rewrite app_nil_r. unfold firm in HA. rewrite HA. exact HA0.
      + rewrite E2. rewrite app_nil_r in HC2. assert (Eb : bump A = A) by (unfold bump; rewrite HA, Nat.eqb_refl; reflexivity). rewrite Eb in HC2.
        destruct (copy_two f b2 A [] out) as (b' & L' & E & HC' & HN' & Ht & _); rewrite ?app_nil_r; try assumption; [lia|now left|]. exists b', L'. auto.
    - destruct (copy_two f b A [] out) as (b' & L' & E & HC' & HN' & Ht & _); rewrite ?app_nil_r; try assumption; [lia|now left|lia|]. exists b', L'. auto. }
  destruct H2 as (b1 & L1 & E1 & HC1 & HN1 & Ht). rewrite E1. cbn [cbind].
  destruct (back_true L1 (S (N.to_nat (slen b1))) b1 HC1 HN1) as (b2 & E2 & HC2 & HN2); [rewrite Ht; destruct A; [congruence|discriminate]|rewrite (co_len _ _ HC1); lia|].
  exists b2. split; [exact E2|]. rewrite Ht in HC2. auto.
Qed.

(** ** Parsing *)
Lemma plain_cons c l : plain (c :: l) -> plain l.
Proof. intros H x y E. apply (H (c :: x) y). cbn. now rewrite E. Qed.
Lemma strstr_plain l : plain l -> strstr l = None.
Proof.
  induction l as [|c l IH]; [reflexivity|]. intros H. cbn [strstr]. destruct l as [|d l]; [reflexivity|].
  destruct (N.eqb_spec c 36) as [->|_], (N.eqb_spec d 40) as [->|_]; cbn [andb]; [now elim (H [] l)|..]; rewrite (IH (plain_cons _ _ H)); reflexivity.
Qed.
Lemma strstr_lit l r : plain l -> strstr (l ++ 36 :: 40 :: r) = Some (l, r).
Proof.
  induction l as [|c l IH]; intros H; [reflexivity|]. cbn [app strstr]. specialize (IH (plain_cons _ _ H)). destruct l as [|d l].
  - cbn [app] in *. cbn [strstr]. cbn. destruct (c =? 36); reflexivity.
  - cbn [app] in *. rewrite IH. destruct (N.eqb_spec c 36) as [->|_], (N.eqb_spec d 40) as [->|_]; cbn [andb]; [now elim (H [] l)|..]; reflexivity.
Qed.
Definition pre (a : list byte) (x : option (list byte * list byte)) := match x with Some (b, y) => Some (a ++ b, y) | None => None end.
Lemma pre_pre a b x : pre a (pre b x) = pre (a ++ b) x.
Proof. destruct x as [[c y]|]; [|reflexivity]. cbn. now rewrite app_assoc. Qed.
Lemma matching_bal a : balanced a -> forall n r, matching (S n) (a ++ r) = pre a (matching (S n) r).
Proof.
  induction 1 as [|c l H1 H2 H3 _ IH|c l _ IH|a l _ IHa _ IHl]; intros n r.
  - cbn. destruct (matching (S n) r) as [[x y]|]; reflexivity.
  - cbn [app matching]. rewrite (proj2 (N.eqb_neq _ _) H1), (proj2 (N.eqb_neq _ _) H2), (proj2 (N.eqb_neq _ _) H3). rewrite IH. destruct (matching (S n) r) as [[x y]|]; reflexivity.
  - cbn [app matching]. change (92 =? 92) with true. cbv iota. rewrite IH. destruct (matching (S n) r) as [[x y]|]; reflexivity.
  - cbn [app]. rewrite <- app_assoc. cbn [app]. change (40 :: a ++ 41 :: l ++ r) with ([40] ++ a ++ [41] ++ l ++ r). cbn [app matching]. change (40 =? 92) with false. change (40 =? 40) with true. cbv iota.
    rewrite IHa. cbn [matching]. change (41 =? 92) with false. change (41 =? 40) with false. change (41 =? 41) with true. cbv iota. rewrite IHl.
    destruct (matching (S n) r) as [[x y]|]; cbn; [|reflexivity]. rewrite <- app_assoc. reflexivity.
Qed.
Lemma matching_ok a r : balanced a -> matching 1 (a ++ 41 :: r) = Some (a, r).
Proof. intros H. rewrite (matching_bal a H 0). cbn. now rewrite app_nil_r. Qed.

(** ** The whole *)
Lemma cstr_ok b : forall d f i, (length d < f)%nat -> i + N.of_nat (length d) < cap b -> ~ In 0 d ->
  (forall j, j < N.of_nat (length d) -> byt b (i + j) = nth (N.to_nat j) d 0) -> byt b (i + N.of_nat (length d)) = 0 -> cstr f b i = CRes d.
Proof.
  induction d as [|c d IH]; intros f i Hf Hi Hz Hb H0; (destruct f as [|f]; [cbn in Hf; lia|]); cbn [cstr length] in *; rewrite rd_ok by lia; cbn [cbind].
  - rewrite N.add_0_r in H0. rewrite H0. reflexivity.
  - pose proof (Hb 0 ltac:(lia)) as Hc. rewrite N.add_0_r in Hc. cbn in Hc. rewrite Hc. destruct (N.eqb_spec c 0) as [->|_]; [elim Hz; now left|].
    rewrite IH; [reflexivity|lia|lia|intros K; apply Hz; now right| |].
    + intros j Hj. replace (i + 1 + j) with (i + (j + 1)) by lia. rewrite Hb by lia. replace (N.to_nat (j + 1)) with (S (N.to_nat j)) by lia. reflexivity.
    + replace (i + 1 + N.of_nat (length d)) with (i + N.of_nat (S (length d))) by lia. exact H0.
Qed.
Lemma in_trim x l : In x (trim l) -> In x l.
Proof. intros H. destruct (trim_pre l) as (w & E & _). rewrite E. apply in_or_app. now left. Qed.
Lemma tidy_len out : (length (tidy out) <= length out)%nat.
Proof.
  unfold tidy. etransitivity; [apply trim_len|]. induction out as [|c out IH]; [reflexivity|]. cbn [squeeze]. destruct (isspace c && nl_ahead out); cbn [length]; lia.
Qed.
Lemma tidy_nz out : ~ In 0 out -> ~ In 0 (tidy out).
Proof.
  intros H K. apply in_trim in K. apply H. clear H. induction out as [|c out IH]; [destruct K|]. cbn [squeeze] in K. destruct (isspace c && nl_ahead out); [right; auto|].
  destruct K as [K|K]; [|right; auto]. destruct (N.eqb_spec c 10); [discriminate|left; exact K].
Qed.
Lemma tidy_firm out : firm (tidy out).
Proof. apply trim_idem. Qed.
Lemma expand_ok sh : forall segs outs last f b A,
  Forall (fun s => plain (fst s) /\ firm (fst s) /\ balanced (snd s)) segs -> plain last -> map (fun s => sh (snd s)) segs = map Some outs ->
  Forall (fun o => ~ In 0 o) outs -> (length (render segs last) < f)%nat -> firm A -> cont b A -> nul b ->
  (A = [] -> match segs with (lit, _) :: _ => lit <> [] | [] => True end) ->
  (length A + volume segs outs last <= 4095)%nat ->
  exists b', expand f sh b (render segs last) = CRes (Some b') /\ cont b' (A ++ result segs outs last) /\ nul b'.
Proof.
  induction segs as [|[lit cmd] segs IH]; intros outs last f b A HS HL HO HZ Hf HA HC HN Hne Hm; pose proof HC as [C1 C2 C3 C4 C5 C6].
  - cbn [render] in *. destruct f as [|f]; [lia|]. cbn [expand]. destruct last as [|c last]; [exists b; cbn [result]; rewrite app_nil_r; auto|].
    rewrite (strstr_plain _ HL). unfold volume in Hm. cbn [map concat length] in Hm. destruct outs as [|o outs]; [|discriminate]. cbn [concat length] in Hm.
    destruct (scpy_ok b A (c :: last) HC) as (b1 & E1 & HC1 & HN1); [cbn [length]; lia|]. rewrite E1. cbn [cbind result]. exists b1. auto.
  - destruct outs as [|out outs]; [discriminate|]. injection HO as HO1 HO2. apply (proj1 (Forall_cons_iff _ _ _)) in HS as [(P1 & P2 & P3) HS]. apply (proj1 (Forall_cons_iff _ _ _)) in HZ as [Z1 HZ].
    cbn [fst snd] in *. cbn [render] in Hf |- *. unfold volume in Hm. cbn [map concat fst] in Hm. rewrite !app_length in Hm.
    destruct f as [|f]; [lia|]. cbn [expand].
    destruct (lit ++ 36 :: 40 :: cmd ++ 41 :: render segs last) as [|c0 l0] eqn:E0; [destruct lit; discriminate|]. rewrite <- E0 in *. clear c0 l0 E0.
    rewrite (strstr_lit _ _ P1). destruct (scpy_ok b A lit HC) as (b1 & E1 & HC1 & HN1); [lia|]. rewrite E1. cbn [cbind]. rewrite (matching_ok _ _ P3). rewrite HO1.
    assert (HA1 : firm (A ++ lit)).
    { destruct A as [|a A]; [exact P2|]. apply firm_app2; [exact HA|discriminate|exact P2]. }
    assert (HA0 : A ++ lit <> []).
    { destruct A; [cbn; apply Hne; reflexivity|discriminate]. }
    destruct (copy_ok b1 (A ++ lit) out (length out + 3)) as (b2 & E2 & HC2 & HN2); try assumption; [lia|rewrite app_length; lia|].
    destruct (copy_out (length out + 3) b1 out) as [|bx] eqn:Ex; [discriminate|]. cbn [cbind] in E2 |- *. rewrite E2. cbn [cbind].
    pose proof (tidy_len out) as Htl.
    destruct (IH outs last f b2 ((A ++ lit) ++ tidy out)) as (b3 & E3 & HC3 & HN3); try assumption.
    + rewrite !app_length in Hf. cbn [length] in Hf. rewrite app_length in Hf. cbn [length] in Hf. lia.
    + apply firm_app2; [exact HA1|exact HA0|apply tidy_firm].
    + intros K. destruct (A ++ lit); [congruence|discriminate].
    + unfold volume. rewrite !app_length. lia.
    + exists b3. split; [exact E3|]. cbn [result]. rewrite <- !app_assoc in HC3. auto.
Qed.
Lemma result_nz segs : forall outs last, Forall (fun s => ~ In 0 (fst s)) segs -> Forall (fun o => ~ In 0 o) outs -> ~ In 0 last -> ~ In 0 (result segs outs last).
Proof.
  induction segs as [|[lit cmd] segs IH]; intros outs last HS HO HL; [exact HL|]. destruct outs as [|o outs]; [exact HL|].
  apply (proj1 (Forall_cons_iff _ _ _)) in HS as [S1 HS]. apply (proj1 (Forall_cons_iff _ _ _)) in HO as [O1 HO]. cbn [result fst] in *.
  intros K. apply in_app_or in K as [K|K]; [auto|]. apply in_app_or in K as [K|K]; [now apply tidy_nz in K|]. now apply IH in K.
Qed.
Lemma subst_ok sh junk segs outs last :
  Forall (fun s => plain (fst s) /\ firm (fst s) /\ balanced (snd s) /\ ~ In 0 (fst s)) segs -> plain last -> ~ In 0 last ->
  map (fun s => sh (snd s)) segs = map Some outs -> Forall (fun o => ~ In 0 o) outs ->
  match segs with (lit, _) :: _ => lit <> [] | [] => last <> [] end ->
  (volume segs outs last <= 4095)%nat ->
  str_repl_cmd sh junk (render segs last) = CRes (Some (result segs outs last)).
Proof.
  intros HS HL HL0 HO HZ Hne Hm. unfold str_repl_cmd.
  assert (HB : exists b', expand (S (length (render segs last))) sh (mkB 4096 junk 0 4096) (render segs last) = CRes (Some b') /\ cont b' (result segs outs last) /\ nul b').
  { destruct segs as [|s segs].
    - cbn [render expand] in *. destruct last as [|c last]; [congruence|]. rewrite (strstr_plain _ HL). destruct outs; [|discriminate]. unfold volume in Hm. cbn [map concat length] in Hm.
      destruct (scpy_ok (mkB 4096 junk 0 4096) [] (c :: last)) as (b1 & E1 & HC1 & HN1); [constructor; cbn; lia|cbn [length alen]; lia|]. rewrite E1. exists b1. auto.
    - destruct s as [lit cmd]. destruct outs as [|out outs]; [discriminate|]. injection HO as HO1 HO2. apply (proj1 (Forall_cons_iff _ _ _)) in HS as [(P1 & P2 & P3 & P4) HS].
      apply (proj1 (Forall_cons_iff _ _ _)) in HZ as [Z1 HZ]. cbn [fst snd] in *.
      cbn [render]. unfold volume in Hm. cbn [map concat fst] in Hm. rewrite !app_length in Hm. cbn [expand].
      destruct (lit ++ 36 :: 40 :: cmd ++ 41 :: render segs last) as [|c0 l0] eqn:E0; [destruct lit; discriminate|]. rewrite <- E0. clear c0 l0 E0.
      rewrite (strstr_lit _ _ P1). destruct (scpy_ok (mkB 4096 junk 0 4096) [] lit) as (b1 & E1 & HC1 & HN1); [constructor; cbn; lia|cbn [alen]; lia|]. rewrite E1. cbn [cbind]. rewrite (matching_ok _ _ P3). rewrite HO1.
      cbn [app] in HC1. destruct (copy_ok b1 lit out (length out + 3)) as (b2 & E2 & HC2 & HN2); try assumption; [lia|lia|].
      destruct (copy_out (length out + 3) b1 out) as [|bx] eqn:Ex; [discriminate|]. cbn [cbind] in E2 |- *. rewrite E2. cbn [cbind]. pose proof (tidy_len out) as Htl.
      destruct (expand_ok sh segs outs last (length (lit ++ 36 :: 40 :: cmd ++ 41 :: render segs last)) b2 (lit ++ tidy out)) as (b3 & E3 & HC3 & HN3); try assumption.
      + eapply Forall_impl; [|exact HS]. cbv beta. tauto.
      + rewrite app_length. cbn [length]. rewrite app_length. cbn [length]. lia.
      + apply firm_app2; [exact P2|exact Hne|apply tidy_firm].
      + intros K. destruct lit; [congruence|discriminate].
      + unfold volume. rewrite !app_length. lia.
      + exists b3. split; [exact E3|]. cbn [result]. rewrite <- !app_assoc in HC3. auto. }
  destruct HB as (b & E & [C1 C2 C3 C4 C5 C6] & HN). rewrite E. cbn [cbind].
  rewrite (cstr_ok b (result segs outs last)); [reflexivity|lia|lia| |intros j Hj; rewrite N.add_0_l; apply C6; lia|rewrite N.add_0_l, <- C1; exact HN].
  apply result_nz; [|exact HZ|exact HL0]. eapply Forall_impl; [|exact HS]. cbv beta. tauto.
Qed.
(** Text without commands may be longer than the buffer. *)
Lemma plain_ok sh junk l : plain l -> ~ In 0 l -> l <> [] -> N.of_nat (length l) < 2 ^ 62 -> str_repl_cmd sh junk l = CRes (Some l).
Proof.
  intros HL HZ Hne Hm. unfold str_repl_cmd. cbn [expand]. destruct l as [|c l]; [congruence|]. rewrite (strstr_plain _ HL). remember (c :: l) as L eqn:EL. clear EL.
  assert (HB : exists b, scpy (mkB 4096 junk 0 4096) L = CRes b /\ N.of_nat (length L) < cap b /\ (forall j, j < N.of_nat (length L) -> byt b j = nth (N.to_nat j) L 0) /\ byt b (N.of_nat (length L)) = 0).
  { unfold scpy. cbn [alen slen cap byt].
    set (b0 := if 4096 <=? N.of_nat (length L) then _ else _).
    assert (Hc : N.of_nat (length L) < cap b0 /\ slen b0 = 0 /\ alen b0 = 4096).
    { subst b0. destruct (N.leb_spec 4096 (N.of_nat (length L))) as [K|K]; cbn [cap slen alen]; [|auto]. split; [|auto]. change (2 ^ 62) with 4611686018427387904 in Hm.
      rewrite sub_small by (unfold W64; lia). assert (Hx : N.of_nat (length L) <= N.lor (N.of_nat (length L) - 1) 4095 + 1).
      { pose proof (N.log2_lor (N.of_nat (length L) - 1) 4095). assert (Hor : N.of_nat (length L) - 1 <= N.lor (N.of_nat (length L) - 1) 4095); [|lia].
        apply N.ldiff_le. apply N.bits_inj. intros k. rewrite N.ldiff_spec, N.lor_spec, N.bits_0. destruct (N.testbit (N.of_nat (length L) - 1) k); reflexivity. }
      assert (Hy : N.lor (N.of_nat (length L) - 1) 4095 < 9223372036854775808).
      { change 9223372036854775808 with (2 ^ 63). apply N.log2_lt_pow2.
        - destruct (N.eq_0_gt_0_cases (N.lor (N.of_nat (length L) - 1) 4095)) as [K2|K2]; [apply N.lor_eq_0_iff in K2 as [_ K2]; discriminate|exact K2].
        - rewrite N.log2_lor. apply N.max_lub_lt; [|reflexivity]. apply N.log2_lt_pow2; [lia|]. change (2 ^ 63) with 9223372036854775808. lia. }
      rewrite (add_small (N.lor _ _)) by (unfold W64; lia). rewrite !add_small by (rewrite ?add_small by (unfold W64; lia); unfold W64; lia). lia. }
    destruct Hc as (Hc & Hs & Ha). clearbody b0. destruct (wr_ok b0 (slen b0) L) as (b1 & E1 & D1 & D2 & D3 & D4 & D5); [lia|]. rewrite E1. cbn [cbind]. rewrite D2, D3, Hs. cbn [set_len slen].
    unfold add64. rewrite ?N.add_0_l. change (2 ^ 62) with 4611686018427387904 in Hm. rewrite (N.mod_small (N.of_nat (length L)) W64) by (unfold W64; lia).
    destruct (wr_ok (set_len b1 (N.of_nat (length L)) (sub64 (alen b0) (N.of_nat (length L)))) (N.of_nat (length L)) [0]) as (b2 & E2 & F1 & F2 & F3 & F4 & F5); [cbn [set_len cap length]; lia|].
    rewrite E2. exists b2. cbn [set_len cap slen byt length] in *. split; [reflexivity|]. split; [lia|]. split.
    - intros j Hj. rewrite F5 by lia. rewrite D4 by lia. f_equal. lia.
    - rewrite F4 by lia. rewrite N.sub_diag. reflexivity. }
  destruct HB as (b & E & H1 & H2 & H3). rewrite E. cbn [cbind]. rewrite (cstr_ok b L); [reflexivity|lia|lia|exact HZ|exact H2|rewrite N.add_0_l; exact H3].
Qed.
(** An unmatched parenthesis is an error. *)
Lemma unmatched_ok sh junk lit cmd : plain lit -> (length lit <= 4095)%nat -> matching 1 cmd = None -> str_repl_cmd sh junk (lit ++ 36 :: 40 :: cmd) = CRes None.
Proof.
  intros HL Hl Hm. unfold str_repl_cmd. cbn [expand]. destruct (lit ++ 36 :: 40 :: cmd) as [|c0 l0] eqn:E0; [destruct lit; discriminate|]. rewrite <- E0. clear c0 l0 E0.
  rewrite (strstr_lit _ _ HL). destruct (scpy_ok (mkB 4096 junk 0 4096) [] lit) as (b1 & E1 & _ & _); [constructor; cbn; lia|cbn [alen]; lia|]. rewrite E1. cbn [cbind]. now rewrite Hm.
Qed.
Lemma matching_inv : forall k l n a r, (length l < k)%nat -> matching (S n) l = Some (a, r) -> exists a0 rest, l = a0 ++ 41 :: rest /\ balanced a0 /\
  match n with O => a = a0 /\ r = rest | S m => exists a', matching (S m) rest = Some (a', r) /\ a = a0 ++ 41 :: a' end.
Proof.
  induction k as [|k IH]; intros l n a r Hk E; [lia|]. destruct l as [|c l]; [discriminate|]. cbn [matching length] in *.
  destruct (N.eqb_spec c 92) as [->|H1].
  - destruct l as [|d l]; [discriminate|]. cbn [length] in Hk. destruct (matching (S n) l) as [[a1 y]|] eqn:E1; [|discriminate]. injection E as <- <-.
    destruct (IH l n a1 y ltac:(lia) E1) as (a0 & rest & -> & HB & H). exists (92 :: d :: a0), rest. split; [reflexivity|]. split; [now constructor|].
    destruct n as [|m]; [destruct H as [-> ->]; auto|]. destruct H as (a' & E2 & ->). exists a'. auto.
  - destruct (N.eqb_spec c 40) as [->|H2].
    + destruct (matching (S (S n)) l) as [[a1 y]|] eqn:E1; [|discriminate]. injection E as <- <-.
      destruct (IH l (S n) a1 y ltac:(lia) E1) as (a0 & rest & -> & HB & a' & E2 & ->). rewrite app_length in Hk. cbn [length] in Hk.
      destruct (IH rest n a' y ltac:(lia) E2) as (a2 & rest2 & -> & HB2 & H). exists (40 :: a0 ++ 41 :: a2), rest2. split; [cbn; rewrite <- app_assoc; reflexivity|]. split; [now constructor|].
      destruct n as [|m]; [destruct H as [-> ->]; auto|]. destruct H as (a3 & E3 & ->). exists a3. split; [exact E3|]. cbn. rewrite <- app_assoc. reflexivity.
    + destruct (N.eqb_spec c 41) as [->|H3].
      * exists [], l. split; [reflexivity|]. split; [constructor|]. destruct n as [|m]; [injection E as <- <-; auto|].
        destruct (matching (S m) l) as [[a1 y]|] eqn:E1; [|discriminate]. injection E as <- <-. exists a1. auto.
      * destruct (matching (S n) l) as [[a1 y]|] eqn:E1; [|discriminate]. injection E as <- <-.
        destruct (IH l n a1 y ltac:(lia) E1) as (a0 & rest & -> & HB & H). exists (c :: a0), rest. split; [reflexivity|]. split; [now constructor|].
        destruct n as [|m]; [destruct H as [-> ->]; auto|]. destruct H as (a' & E2 & ->). exists a'. auto.
Qed.
Lemma matching_none l : (forall a r, balanced a -> l <> a ++ 41 :: r) -> matching 1 l = None.
Proof.
  intros H. destruct (matching 1 l) as [[a r]|] eqn:E; [|reflexivity]. destruct (matching_inv (S (length l)) l 0 a r ltac:(lia) E) as (a0 & rest & El & HB & _). now elim (H a0 rest HB).
Qed.
Lemma plain_check l : strstr l = None -> plain l.
Proof.
  intros H x y ->. revert H. induction x as [|c x IH]; [discriminate|]. cbn [app]. intros H. apply IH. revert H. cbn [strstr]. fold strstr.
  destruct (x ++ 36 :: 40 :: y) as [|d r] eqn:E; [destruct x; discriminate|]. destruct ((c =? 36) && (d =? 40)); [discriminate|]. destruct (strstr (d :: r)) as [[? ?]|]; [discriminate|reflexivity].
Qed.
