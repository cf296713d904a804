(** C57: the log. *)
From Verif Require Import M_Log S_Log.
From Coq Require Import Lia.
Local Open Scope Z_scope.

(** ** Levels *)
Lemma eqs_true a : forall b, eqs a b = true <-> a = b.
Proof.
  induction a as [|x a IH]; intros [|y b]; cbn; try (split; [discriminate|discriminate]); [tauto|].
  rewrite andb_true_iff, N.eqb_eq, IH. split; [intros [-> ->]; reflexivity|intros H; injection H as -> ->; auto].
Qed.
Lemma tolower_comma c : (tolower c =? 44)%N = (c =? 44)%N.
Proof. unfold tolower. destruct (N.leb_spec 65 c); destruct (N.leb_spec c 90); cbn [andb]; try reflexivity. destruct (N.eqb_spec (c + 32) 44); destruct (N.eqb_spec c 44); lia. Qed.
Lemma comma_lower s : existsb (fun c => (c =? 44)%N) (map tolower s) = existsb (fun c => (c =? 44)%N) s.
Proof. induction s as [|c s IH]; [reflexivity|]. cbn. now rewrite tolower_comma, IH. Qed.
Definition no_comma (s : text) : Prop := existsb (fun c => (c =? 44)%N) s = false.
Lemma names_read s v : names s v -> str_to_loglevel s = v /\ no_comma s /\ s <> [] /\ 0 < v < 32.
Proof.
  intros (ns & n & I & J & E). unfold no_comma. rewrite <- comma_lower. unfold str_to_loglevel, eqcase. rewrite E.
  assert (NE : map tolower n <> [] -> s <> []) by (intros A B; subst s; apply A; rewrite <- E; reflexivity).
  unfold severities in I. cbn [In] in I. repeat match type of I with _ \/ _ => destruct I as [I|I] end; try contradiction; injection I as <- <-;
  cbn [In] in J; repeat match type of J with _ \/ _ => destruct J as [J|J] end; try contradiction; subst n;
  (split; [vm_compute; reflexivity|split; [vm_compute; reflexivity|split; [apply NE; discriminate|lia]]]).
Qed.
(** A name alone enables its level and the levels above. *)
Theorem lvl_single : forall s v, names s v -> str_to_level s = at_least v.
Proof.
  intros s v H. destruct (names_read s v H) as (R & C & _ & _). unfold str_to_level. rewrite C, R.
  destruct H as (ns & n & I & _ & _). unfold severities in I. cbn [In] in I.
  repeat match type of I with _ \/ _ => destruct I as [I|I] end; try contradiction; injection I as <- _; vm_compute; reflexivity.
Qed.
Lemma tokens_one s : forall cur r, no_comma s -> cur ++ s <> [] -> tokens cur (s ++ 44%N :: r) = (cur ++ s) :: tokens [] r.
Proof.
  unfold no_comma. induction s as [|c s IH]; intros cur r C N.
  - rewrite app_nil_r in *. cbn. destruct cur; [contradiction|reflexivity].
  - cbn [existsb] in C. apply orb_false_elim in C. destruct C as [C1 C2]. cbn [app tokens]. rewrite C1, IH.
    + rewrite <- app_assoc. reflexivity.
    + exact C2.
    + destruct cur; discriminate.
Qed.
Lemma tokens_last s : forall cur, no_comma s -> cur ++ s <> [] -> tokens cur s = [cur ++ s].
Proof.
  unfold no_comma. induction s as [|c s IH]; intros cur C N.
  - rewrite app_nil_r in *. cbn. destruct cur; [contradiction|reflexivity].
  - cbn [existsb] in C. apply orb_false_elim in C. destruct C as [C1 C2]. cbn [tokens]. rewrite C1, IH.
    + rewrite <- app_assoc. reflexivity.
    + exact C2.
    + destruct cur; discriminate.
Qed.
Lemma tokens_join l tail : Forall (fun s => no_comma s /\ s <> []) l -> l <> [] -> tail = [] \/ tail = [44%N] -> tokens [] (join l ++ tail) = l.
Proof.
  intros F NE T. induction F as [|s l [C N] F IH]; [congruence|]. destruct l as [|s2 l].
  - cbn [join]. destruct T as [->| ->]; [rewrite app_nil_r; now apply tokens_last|]. rewrite tokens_one by auto. reflexivity.
  - change (join (s :: s2 :: l)) with (s ++ 44%N :: join (s2 :: l)). rewrite <- app_assoc. cbn [app]. rewrite tokens_one by auto. cbn [app]. f_equal. apply IH. discriminate.
Qed.
Lemma comma_join l tail : ((2 <= length l)%nat \/ tail = [44%N]) -> existsb (fun c => (c =? 44)%N) (join l ++ tail) = true.
Proof.
  intros H. rewrite existsb_app. destruct H as [H| ->]; [|cbn; apply orb_true_r]. destruct l as [|s [|s2 l]]; cbn in H; try lia.
  change (join (s :: s2 :: l)) with (s ++ 44%N :: join (s2 :: l)). rewrite existsb_app. cbn. now rewrite orb_true_r.
Qed.
Lemma level_list_names l : forall a, 0 <= a -> Forall (fun e => names (fst e) (snd e)) l -> level_list a (map fst l) = fold_left Z.lor (map snd l) a.
Proof.
  induction l as [|[s v] l IH]; intros a A F; [reflexivity|]. cbn [map fst snd level_list fold_left]. inversion F as [|x y HN F' E1]; subst.
  destruct (names_read _ _ HN) as (R & _ & _ & V). cbn [fst snd] in *. rewrite R. destruct (Z.ltb_spec v 0); [lia|]. apply IH; [apply Z.lor_nonneg; lia|exact F'].
Qed.
(** Names with a comma between or after them enable these levels and no others. *)
Theorem lvl_list : forall l tail, Forall (fun e => names (fst e) (snd e)) l -> l <> [] -> tail = [] \/ tail = [44%N] -> (2 <= length l)%nat \/ tail = [44%N] ->
  str_to_level (join (map fst l) ++ tail) = fold_left Z.lor (map snd l) 0.
Proof.
  intros l tail F NE T L. unfold str_to_level. rewrite comma_join by (rewrite map_length; exact L). rewrite tokens_join; auto.
  - apply level_list_names; [lia|exact F].
  - apply Forall_map. eapply Forall_impl; [|exact F]. intros [s v] H. destruct (names_read _ _ H) as (_ & A & B & _). auto.
  - destruct l; [contradiction|discriminate].
Qed.
(** A word that is no level is refused, alone or in a list. *)
Definition unknown (s : text) : Prop := forall v, ~ names s v /\ map tolower s <> map tolower t_quiet /\ map tolower s <> map tolower t_always.
Lemma unknown_read s : unknown s -> str_to_loglevel s = -22.
Proof.
  intros U. destruct (U 0) as (_ & Q & A). unfold str_to_loglevel, eqcase.
  assert (E : forall n, map tolower s <> map tolower n -> eqs (map tolower s) (map tolower n) = false).
  { intros n H. destruct (eqs (map tolower s) (map tolower n)) eqn:E; [|reflexivity]. apply eqs_true in E. contradiction. }
  assert (N : forall v ns n, In (v, ns) severities -> In n ns -> map tolower s <> map tolower n).
  { intros v ns n I J K. apply (proj1 (U v)). exists ns, n. auto. }
  rewrite (E t_quiet Q), (E t_always A), (E t_crit), (E t_critical), (E t_error), (E t_warn), (E t_warning), (E t_info), (E t_debug); [reflexivity|..];
  [eapply (N 1)|eapply (N 2)|eapply (N 4)|eapply (N 4)|eapply (N 8)|eapply (N 16)|eapply (N 16)]; unfold severities; cbn [In]; try (now eauto 10); cbn; tauto.
Qed.
Theorem lvl_unknown : forall s, no_comma s -> unknown s -> str_to_level s = - EINVAL.
Proof. intros s C U. unfold str_to_level. rewrite C, (unknown_read s U). reflexivity. Qed.
Theorem lvl_unknown_list : forall l s r tail, Forall (fun e => names (fst e) (snd e)) l -> no_comma s -> s <> [] -> unknown s -> Forall (fun x => no_comma x /\ x <> []) r ->
  tail = [] \/ tail = [44%N] -> (1 <= length l + length r)%nat \/ tail = [44%N] -> str_to_level (join (map fst l ++ s :: r) ++ tail) = - EINVAL.
Proof.
  intros l s r tail F C N U R T L. unfold str_to_level. rewrite comma_join by (rewrite app_length, map_length; cbn [length]; destruct L as [L|L]; [left; lia|auto]).
  rewrite tokens_join; auto.
  - assert (G : forall a, 0 <= a -> level_list a (map fst l ++ s :: r) = - EINVAL); [|apply G; lia].
    induction F as [|[t v] l HN F IH]; intros a A.
    + cbn [map app level_list]. rewrite (unknown_read s U). reflexivity.
    + cbn [map app level_list fst]. destruct (names_read _ _ HN) as (RD & _ & _ & V). cbn [fst snd] in *. rewrite RD. destruct (Z.ltb_spec v 0); [lia|].
      assert (LL : forall a b, 0 <= a -> 0 <= b -> level_list a (map fst l ++ s :: r) = - EINVAL -> level_list b (map fst l ++ s :: r) = - EINVAL).
      { clear -F U. induction F as [|[t v] l HN F IH]; intros a b A B; cbn [map app level_list fst].
        - rewrite (unknown_read s U). auto.
        - destruct (names_read _ _ HN) as (RD & _ & _ & V). cbn [fst snd] in *. rewrite RD. destruct (Z.ltb_spec v 0); [lia|].
          apply IH; apply Z.lor_nonneg; lia. }
      apply (LL a); [exact A|apply Z.lor_nonneg; lia|]. clear LL. revert a A.
      assert (L' : forall a, 0 <= a -> level_list a (map fst l ++ s :: r) = - EINVAL).
      { clear -F U. induction F as [|[t v] l HN F IH]; intros a A; cbn [map app level_list fst].
        - rewrite (unknown_read s U). reflexivity.
        - destruct (names_read _ _ HN) as (RD & _ & _ & V). cbn [fst snd] in *. rewrite RD. destruct (Z.ltb_spec v 0); [lia|]. apply IH. apply Z.lor_nonneg; lia. }
      exact L'.
  - apply Forall_app. split; [|constructor; auto]. apply Forall_map. eapply Forall_impl; [|exact F]. intros [x v] H. destruct (names_read _ _ H) as (_ & A & B & _). auto.
  - destruct (map fst l); discriminate.
Qed.
(** The text of a level is read as that level, and fits its buffer. *)
Theorem lvl_round : forall l, 0 <= l <= 31 -> exists s, level_to_str l = Some s /\ str_to_level s = l /\ (length s < 128)%nat.
Proof.
  intros l H. set (ok := fun l => match level_to_str l with Some s => (str_to_level s =? l) && (length s <? 128)%nat | None => false end).
  assert (A : forallb ok (map Z.of_nat (seq 0 32)) = true) by (vm_compute; reflexivity).
  assert (B : ok l = true). { apply (proj1 (forallb_forall _ _) A). apply in_map_iff. exists (Z.to_nat l). rewrite in_seq. split; lia. }
  unfold ok in B. destruct (level_to_str l) as [s|]; [|discriminate B]. apply andb_prop in B. destruct B as [B1 B2]. exists s.
  split; [reflexivity|]. split; [apply Z.eqb_eq; exact B1|apply Nat.ltb_lt; exact B2].
Qed.
Lemma valid_iff l : is_level_valid l = true <-> -1 <= l <= 31.
Proof.
  unfold is_level_valid, LDEFAULT, LALWAYS. rewrite <- Z.ldiff_land. change 31 with (Z.ones 5). rewrite Z.ldiff_ones_r by lia. rewrite Z.shiftl_mul_pow2, Z.shiftr_div_pow2 by lia. change (2 ^ 5) with 32.
  rewrite !orb_true_iff, !Z.eqb_eq. pose proof (Z.div_mod l 32 ltac:(lia)). pose proof (Z.mod_pos_bound l 32 ltac:(lia)). change (Z.ones 5) with 31. split; [intros [[A|A]|A]; lia|intros A].
  destruct (Z.eq_dec l (-1)); [auto|]. right. assert (l / 32 = 0) by (apply Z.div_small; lia). lia.
Qed.
Theorem lvl_str_invalid : forall l, l < -1 \/ 31 < l -> level_to_str l = None.
Proof. intros l H. unfold level_to_str. destruct (is_level_valid l) eqn:V; [apply valid_iff in V; lia|reflexivity]. Qed.
(** The value for "as the default" is shown as all levels. *)
Theorem lvl_default_refuted : exists l s, is_level_valid l = true /\ level_to_str l = Some s /\ str_to_level s <> l.
Proof. exists LDEFAULT. eexists. split; [reflexivity|]. split; [vm_compute; reflexivity|]. vm_compute. discriminate. Qed.
(** "ALWAYS", the most severe, enables debug messages. *)
Theorem lvl_always_refuted : exists s, s = t_always /\ Z.land (str_to_level s) 1 <> 0.
Proof. exists t_always. split; [reflexivity|]. vm_compute. discriminate. Qed.
(** A text without any level is not refused but turns the log off. *)
Theorem lvl_comma_refuted : exists s, tokens [] s = [] /\ s <> [] /\ str_to_level s = LQUIET.
Proof. exists [44%N]. split; [reflexivity|]. split; [discriminate|reflexivity]. Qed.
(** "Error" alone, "error,debug", "warn," *)
Example lvl_ex : str_to_level [69; 114; 114; 111; 114]%N = 24 /\ names [69; 114; 114; 111; 114]%N 8 /\ str_to_level (join [t_error; t_debug]) = 9 /\ str_to_level (t_warn ++ [44%N]) = 4 /\
  str_to_level [69; 114; 114]%N = -22 /\ level_to_str 9 = Some (join [t_debug; t_error]).
Proof. split; [reflexivity|]. split; [exists [t_error], t_error; cbn; tauto|]. split; [|split; [|split]]; vm_compute; reflexivity. Qed.
Example lvl_unknown_ex : unknown [69; 114; 114]%N /\ no_comma [69; 114; 114]%N.
Proof.
  split; [|reflexivity]. intros v. split; [|split; discriminate]. intros (ns & n & I & J & E). unfold severities in I. cbn [In] in I.
  repeat match type of I with _ \/ _ => destruct I as [I|I] end; try contradiction; injection I as _ <-;
  cbn [In] in J; repeat match type of J with _ \/ _ => destruct J as [J|J] end; try contradiction; subst n; discriminate E.
Qed.

(** ** Subsystems *)
Lemma at_in i l e : at_id i l = Some e -> In e l /\ l_id e = i.
Proof. unfold at_id. intros H. apply find_some in H. destruct H as [A B]. apply Nat.eqb_eq in B. auto. Qed.
Lemma in_at l e : NoDup (map l_id l) -> In e l -> at_id (l_id e) l = Some e.
Proof.
  unfold at_id. induction l as [|x l IH]; intros N I; [contradiction|]. cbn in *. inversion N as [|? ? N1 N2]; subst. destruct I as [->|I].
  - now rewrite Nat.eqb_refl.
  - destruct (Nat.eqb_spec (l_id x) (l_id e)) as [E|E]; [|auto]. exfalso. apply N1. rewrite E. apply in_map. exact I.
Qed.
Lemma at_map g j l : (forall e, l_id (g e) = l_id e) -> at_id j (map g l) = option_map g (at_id j l).
Proof. intros G. unfold at_id. induction l as [|x l IH]; [reflexivity|]. cbn. rewrite G. destruct (l_id x =? j)%nat; [reflexivity|exact IH]. Qed.
Lemma at_upd f i j l : (forall e, l_id (f e) = l_id e) -> at_id j (upd i f l) = if (j =? i)%nat then option_map f (at_id j l) else at_id j l.
Proof.
  intros F. unfold upd. rewrite at_map by (intros e; destruct (l_id e =? i)%nat; auto).
  destruct (at_id j l) as [e|] eqn:E; [|destruct (j =? i)%nat; reflexivity]. apply at_in in E. destruct E as [_ <-]. cbn. destruct (l_id e =? i)%nat; reflexivity.
Qed.
Lemma at_filter i j l : at_id j (filter (fun e => negb (l_id e =? i)%nat) l) = if (j =? i)%nat then None else at_id j l.
Proof.
  unfold at_id. induction l as [|x l IH]; [now destruct (j =? i)%nat|]. cbn. destruct (Nat.eqb_spec (l_id x) i) as [->|N]; cbn.
  - rewrite IH. rewrite (Nat.eqb_sym i j). destruct (j =? i)%nat; reflexivity.
  - destruct (Nat.eqb_spec (l_id x) j) as [E|]; [|exact IH]. subst j. destruct (Nat.eqb_spec (l_id x) i); [contradiction|reflexivity].
Qed.
Lemma at_insert e j l : at_id (l_id e) l = None -> at_id j (insert e l) = if (j =? l_id e)%nat then Some e else at_id j l.
Proof.
  unfold at_id. induction l as [|x l IH]; intros F; cbn in *.
  - rewrite (Nat.eqb_sym (l_id e)). destruct (j =? l_id e)%nat; reflexivity.
  - destruct (Nat.eqb_spec (l_id x) (l_id e)) as [|NE]; [discriminate F|]. destruct (text_lt (l_name e) (l_name x)); cbn.
    + rewrite (Nat.eqb_sym (l_id e)). destruct (j =? l_id e)%nat eqn:Q; reflexivity.
    + rewrite IH by exact F. destruct (Nat.eqb_spec (l_id x) j) as [E|]; [|reflexivity]. subst j. destruct (Nat.eqb_spec (l_id x) (l_id e)); [contradiction|reflexivity].
Qed.
Lemma insert_perm e l : Permutation (insert e l) (e :: l).
Proof. induction l as [|x l IH]; cbn; [reflexivity|]. destruct (text_lt _ _); [reflexivity|]. rewrite IH. apply perm_swap. Qed.
Lemma upd_ids f i l : (forall e, l_id (f e) = l_id e) -> map l_id (upd i f l) = map l_id l.
Proof. intros F. unfold upd. rewrite map_map. apply map_ext. intros e. destruct (l_id e =? i)%nat; auto. Qed.
Lemma filter_ids i l : NoDup (map l_id l) -> NoDup (map l_id (filter (fun e => negb (l_id e =? i)%nat) l)).
Proof.
  induction l as [|x l IH]; intros N; [constructor|]. cbn in *. inversion N as [|? ? N1 N2]; subst. destruct (negb (l_id x =? i)%nat); [|auto].
  cbn. constructor; [|auto]. intros I. apply N1. apply in_map_iff in I. destruct I as (y & E & I). apply filter_In in I. rewrite <- E. apply in_map. tauto.
Qed.
Lemma put_ids i l : NoDup (map l_id l) -> NoDup (map l_id (put i l)).
Proof.
  intros N. unfold put. destruct (at_id i l) as [e|]; [|exact N]. destruct (l_ref e - 1 =? 0); [now apply filter_ids|]. rewrite upd_ids by reflexivity. exact N.
Qed.
Lemma at_put i j l e : at_id i l = Some e ->
  at_id j (put i l) = if (j =? i)%nat then (if l_ref e - 1 =? 0 then None else Some (add_ref (-1) e)) else at_id j l.
Proof.
  intros E. unfold put. rewrite E. destruct (l_ref e - 1 =? 0).
  - apply at_filter.
  - rewrite at_upd by reflexivity. destruct (Nat.eqb_spec j i) as [->|]; [|reflexivity]. now rewrite E.
Qed.
Definition is_h (i : nat) (x : option nat * Z * text) : bool := match fst (fst x) with Some j => (j =? i)%nat | None => false end.
Definition cnt (i : nat) (q : list (option nat * Z * text)) : Z := Z.of_nat (length (filter (is_h i) q)).
Lemma cnt_app i q x : cnt i (q ++ [x]) = cnt i q + (if is_h i x then 1 else 0).
Proof. unfold cnt. rewrite filter_app, app_length. cbn. destruct (is_h i x); cbn [length]; lia. Qed.
Lemma cnt_cons i q x : cnt i (x :: q) = (if is_h i x then 1 else 0) + cnt i q.
Proof. unfold cnt. cbn. destruct (is_h i x); cbn [length]; lia. Qed.
Lemma cnt_pos i q : 0 <= cnt i q. Proof. unfold cnt. lia. Qed.
Definition inb (i : nat) (H : list nat) : Z := if in_dec Nat.eq_dec i H then 1 else 0.
Lemma inb_in i H : In i H -> inb i H = 1. Proof. unfold inb. destruct (in_dec _ _ _); [auto|contradiction]. Qed.
Lemma inb_out i H : ~ In i H -> inb i H = 0. Proof. unfold inb. destruct (in_dec _ _ _); [contradiction|auto]. Qed.
Lemma inb_bounds i H : 0 <= inb i H <= 1. Proof. unfold inb. destruct (in_dec _ _ _); lia. Qed.

Record Inv (s : state) (H : list nat) : Prop := {
  v_ids : NoDup (map l_id (logs s));
  v_refs : forall i e, at_id i (logs s) = Some e -> l_ref e = inb i H + cnt i (queue s) /\ 0 < l_ref e;
  v_alive : forall i, 0 < inb i H + cnt i (queue s) -> at_id i (logs s) <> None;
  v_next : forall i, at_id i (logs s) <> None -> (i < next s)%nat;
  v_names : forall i j e f, at_id i (logs s) = Some e -> at_id j (logs s) = Some f -> l_name e = l_name f -> i = j;
  v_lvls : Forall (fun x => named (snd (fst x)) = true) (queue s);
  v_direct : worker s = false -> queue s = [] }.
Lemma find_log_at s H n e : Inv s H -> find_log n (logs s) = Some e -> at_id (l_id e) (logs s) = Some e /\ l_name e = n.
Proof. intros V F. unfold find_log in F. apply find_some in F. destruct F as [I E]. apply eqs_true in E. split; [|exact E]. apply in_at; [apply (v_ids _ _ V)|exact I]. Qed.
Lemma find_log_none s H n i e : Inv s H -> find_log n (logs s) = None -> at_id i (logs s) = Some e -> l_name e <> n.
Proof.
  intros V F A E. apply at_in in A. destruct A as [I _]. pose proof (find_none _ _ F e I) as N. cbn in N. subst n.
  destruct (eqs (l_name e) (l_name e)) eqn:Q; [discriminate|]. assert (eqs (l_name e) (l_name e) = true) by (now apply eqs_true). congruence.
Qed.
(** Changes of the tree that keep numbers, names and references *)
Definition keeps (g : log -> log) : Prop := forall e, l_id (g e) = l_id e /\ l_name (g e) = l_name e /\ l_ref (g e) = l_ref e.
Lemma inv_map s H g d p w : Inv s H -> keeps g -> (w = false -> worker s = false) ->
  Inv (mkSt (map g (logs s)) (next s) d p w (queue s) (out s)) H.
Proof.
  intros V K W. assert (AM : forall j, at_id j (map g (logs s)) = option_map g (at_id j (logs s))) by (intros j; apply at_map; apply K).
  constructor; cbn [logs next queue worker].
  - rewrite map_map. rewrite (map_ext _ l_id) by apply K. apply V.
  - intros i e E. rewrite AM in E. destruct (at_id i (logs s)) as [x|] eqn:A; [|discriminate E]. injection E as <-. destruct (K x) as (_ & _ & ->). apply (v_refs _ _ V); exact A.
  - intros i C. rewrite AM. pose proof (v_alive _ _ V i C). destruct (at_id i (logs s)); [discriminate|contradiction].
  - intros i N. rewrite AM in N. apply (v_next _ _ V). destruct (at_id i (logs s)); [discriminate|contradiction].
  - intros i j e f E F. rewrite AM in E, F. destruct (at_id i (logs s)) as [x|] eqn:A; [|discriminate E]. destruct (at_id j (logs s)) as [y|] eqn:B; [|discriminate F].
    injection E as <-. injection F as <-. destruct (K x) as (_ & -> & _). destruct (K y) as (_ & -> & _). apply (v_names _ _ V); assumption.
  - apply V.
  - intros D. apply (v_direct _ _ V). auto.
Qed.
Lemma keeps_level i lv : keeps (fun e => if (l_id e =? i)%nat then with_level lv e else e).
Proof. intros e. destruct (l_id e =? i)%nat; auto. Qed.
Lemma regex_map p lv l : forall rc n l' rc' n', regex_loop p lv l rc n = (l', rc', n') ->
  l' = map (fun e => if p (l_name e) && is_level_valid lv then with_level lv e else e) l /\ n' = (n + length (filter (fun e => p (l_name e)) l))%nat.
Proof.
  induction l as [|e l IH]; intros rc n l' rc' n' E; cbn in E.
  - injection E as <- <- <-. cbn. split; [reflexivity|lia].
  - destruct (p (l_name e)) eqn:P.
    + destruct (regex_loop p lv l 0 (S n)) as [[r x] c] eqn:R. injection E as <- <- <-. destruct (IH _ _ _ _ _ R) as [-> ->].
      cbn [map filter andb]. rewrite P. cbn [andb length]. split; [reflexivity|lia].
    + destruct (regex_loop p lv l 1 n) as [[r x] c] eqn:R. injection E as <- <- <-. destruct (IH _ _ _ _ _ R) as [-> ->].
      cbn [map filter]. rewrite P. cbn [andb]. split; [reflexivity|lia].
Qed.
Lemma inv_eta s H : Inv s H -> Inv (mkSt (logs s) (next s) (dflt s) (prog s) (worker s) (queue s) (out s)) H.
Proof. destruct s. auto. Qed.
Lemma keeps_id : keeps (fun e => e). Proof. intros e. auto. Qed.
Lemma set_level_inv s H h lv s' r : Inv s H -> set_level s h lv = Ok s' r -> Inv s' H.
Proof.
  intros V E. unfold set_level in E. destruct (negb (is_level_valid lv)); [injection E as <- _; exact V|]. destruct h as [i|].
  - destruct (at_id i (logs s)); [|discriminate E]. injection E as <- _. unfold upd. apply inv_map; auto. apply keeps_level.
  - destruct (lv =? LDEFAULT); injection E as <- _; [exact V|]. rewrite <- (map_id (logs s)). apply (inv_map s H (fun e => e)); auto. apply keeps_id.
Qed.
Lemma inv_put s H H' i q : Inv s H -> (forall j, inb j H + cnt j (queue s) = (if (j =? i)%nat then 1 else 0) + (inb j H' + cnt j q)) ->
  Forall (fun x => named (snd (fst x)) = true) q -> (worker s = false -> q = []) -> forall o, 
  Inv (mkSt (put i (logs s)) (next s) (dflt s) (prog s) (worker s) q o) H'.
Proof.
  intros V C F D o. pose proof (C i) as CI. rewrite Nat.eqb_refl in CI.
  assert (B : forall j, 0 <= inb j H' + cnt j q) by (intros j; pose proof (inb_bounds j H'); pose proof (cnt_pos j q); lia).
  destruct (at_id i (logs s)) as [e|] eqn:A; [|exfalso; apply (v_alive _ _ V i); [pose proof (B i); lia|exact A]].
  destruct (v_refs _ _ V i e A) as [R P]. pose proof (fun j => at_put i j (logs s) e A) as AP.
  constructor; cbn [logs next queue worker].
  - apply put_ids, V.
  - intros j f E. rewrite AP in E. pose proof (C j) as CJ. destruct (Nat.eqb_spec j i) as [->|N].
    + destruct (Z.eqb_spec (l_ref e - 1) 0); [discriminate E|]. injection E as <-. cbn [add_ref l_ref]. lia.
    + pose proof (v_refs _ _ V j f E). lia.
  - intros j K. rewrite AP. pose proof (C j) as CJ. destruct (Nat.eqb_spec j i) as [->|N].
    + destruct (Z.eqb_spec (l_ref e - 1) 0); [lia|discriminate].
    + apply (v_alive _ _ V). lia.
  - intros j K. apply (v_next _ _ V). intros Z0. apply K. rewrite AP, Z0. destruct (Nat.eqb_spec j i) as [EJ|N]; [|reflexivity]. congruence.
  - intros j k f g E G. rewrite AP in E, G.
    assert (EE : exists f0, at_id j (logs s) = Some f0 /\ l_name f0 = l_name f).
    { destruct (Nat.eqb_spec j i) as [->|]; [|eauto]. destruct (l_ref e - 1 =? 0); [discriminate E|]. injection E as <-. eauto. }
    assert (GG : exists g0, at_id k (logs s) = Some g0 /\ l_name g0 = l_name g).
    { destruct (Nat.eqb_spec k i) as [->|]; [|eauto]. destruct (l_ref e - 1 =? 0); [discriminate G|]. injection G as <-. eauto. }
    destruct EE as (f0 & E0 & <-). destruct GG as (g0 & G0 & <-). apply (v_names _ _ V); assumption.
  - exact F.
  - exact D.
Qed.
Lemma inb_remove i j H : inb j (remove Nat.eq_dec i H) = if (j =? i)%nat then 0 else inb j H.
Proof.
  destruct (Nat.eqb_spec j i) as [->|N].
  - apply inb_out. intros I. apply (remove_In Nat.eq_dec H i I).
  - unfold inb. destruct (in_dec Nat.eq_dec j (remove Nat.eq_dec i H)) as [I|I]; destruct (in_dec Nat.eq_dec j H) as [J|J]; try reflexivity.
    + exfalso. apply J. apply in_remove in I. tauto.
    + exfalso. apply I. apply in_in_remove; assumption.
Qed.
Lemma inv_step s H o s' r : Inv s H -> proper H o -> step s o = Ok s' r -> Inv s' (held H o r).
Proof.
  intros V P E. destruct o as [name lv|name|i|h lv|[n|] lv|p lv|[i|]|[n|]|h lv msg|]; cbn [step proper held] in *.
  - destruct (worker s) eqn:W; [injection E as <- <-; exact V|]. destruct (negb (is_level_valid lv)); [injection E as <- <-; exact V|].
    injection E as <- <-. rewrite <- (map_id (logs s)). apply (inv_map s H (fun e => e)); auto. apply keeps_id.
  - destruct (find_log name (logs s)) as [x|] eqn:F; injection E as <- <-; [exact V|]. cbn [held].
    assert (FR : at_id (next s) (logs s) = None).
    { destruct (at_id (next s) (logs s)) eqn:A; [|reflexivity]. pose proof (v_next _ _ V (next s)) as L. rewrite A in L. specialize (L ltac:(discriminate)). lia. }
    assert (NQ : inb (next s) H + cnt (next s) (queue s) = 0).
    { pose proof (inb_bounds (next s) H). pose proof (cnt_pos (next s) (queue s)). destruct (Z.eq_dec (inb (next s) H + cnt (next s) (queue s)) 0); [assumption|].
      exfalso. apply (v_alive _ _ V (next s)); [lia|exact FR]. }
    set (e := mkLog (next s) name LDEFAULT 1). pose proof (fun j => at_insert e j (logs s) FR) as AI. cbn [l_id e] in AI.
    assert (IB : forall j, inb j (next s :: H) = if (j =? next s)%nat then 1 else inb j H).
    { intros j. destruct (Nat.eqb_spec j (next s)) as [->|N]; [apply inb_in; left; reflexivity|]. unfold inb.
      destruct (in_dec Nat.eq_dec j (next s :: H)) as [[I|I]|I]; destruct (in_dec Nat.eq_dec j H) as [J|J]; try reflexivity; [congruence|contradiction|]. exfalso. apply I. right. exact J. }
    constructor; cbn [logs next queue worker].
    + apply (Permutation_NoDup (l := map l_id (e :: logs s))); [apply Permutation_map, Permutation_sym, insert_perm|]. cbn. constructor; [|apply V].
      intros I. apply in_map_iff in I. destruct I as (x & X1 & X2). pose proof (in_at _ _ (v_ids _ _ V) X2) as A. rewrite X1 in A. congruence.
    + intros j f A. rewrite AI in A. rewrite IB. destruct (Nat.eqb_spec j (next s)) as [->|N]; [|apply (v_refs _ _ V); exact A].
      injection A as <-. cbn [e l_ref]. pose proof (inb_bounds (next s) H). pose proof (cnt_pos (next s) (queue s)). lia.
    + intros j C. rewrite AI. rewrite IB in C. destruct (Nat.eqb_spec j (next s)); [discriminate|]. apply (v_alive _ _ V). exact C.
    + intros j A. destruct (Nat.eq_dec j (next s)) as [EJ|N]; [lia|]. assert (A' : at_id j (logs s) <> None).
      { intros Z0. apply A. rewrite AI, Z0. destruct (Nat.eqb_spec j (next s)); [contradiction|reflexivity]. }
      pose proof (v_next _ _ V j A'). lia.
    + intros j k f g A B EN. rewrite AI in A, B. destruct (Nat.eqb_spec j (next s)) as [->|N1]; destruct (Nat.eqb_spec k (next s)) as [->|N2]; [reflexivity| | |].
      * injection A as <-. exfalso. apply (find_log_none s H name k g V F B). symmetry. exact EN.
      * injection B as <-. exfalso. apply (find_log_none s H name j f V F A). exact EN.
      * apply (v_names _ _ V j k f g A B EN).
    + apply V.
    + apply V.
  - destruct (at_id i (logs s)) eqn:A; [|discriminate E]. injection E as <- <-. apply (inv_put s H); auto; [|apply V|apply V].
    intros j. rewrite inb_remove. destruct (Nat.eqb_spec j i) as [->|]; [rewrite (inb_in i H P)|]; lia.
  - assert (HH : match r with RHandle _ | _ => H end = H) by (destruct r; reflexivity). destruct h as [i|]; cbn in E; eapply set_level_inv; eassumption.
  - destruct (find_log n (logs s)); [|injection E as <- _; exact V]. eapply set_level_inv; eassumption.
  - eapply set_level_inv; eassumption.
  - destruct (regex_loop p lv (logs s) 0 0) as [[l rc] c] eqn:R. injection E as <- _. destruct (regex_map _ _ _ _ _ _ _ _ R) as [-> _]. apply inv_map; auto.
    intros e. destruct (p (l_name e) && is_level_valid lv); auto.
  - destruct (at_id i (logs s)); [|discriminate E]. injection E as <- _. exact V.
  - contradiction.
  - destruct (find_log n (logs s)); injection E as <- _; exact V.
  - injection E as <- _. exact V.
  - destruct (line s h) as [n|] eqn:LN; [|discriminate E].
    destruct (match h with Some i => option_map l_level (at_id i (logs s)) | None => Some (dflt s) end) as [lw|]; [|discriminate E].
    destruct (Z.land (if lw =? LDEFAULT then dflt s else lw) lv =? 0); [injection E as <- _; exact V|]. destruct P as [PN PH]. destruct (worker s) eqn:W.
    + injection E as <- _. destruct h as [i|].
      * pose proof (fun j => at_upd (add_ref 1) i j (logs s) ltac:(reflexivity)) as AU.
        assert (CA : forall j, cnt j (queue s ++ [(Some i, lv, msg)]) = cnt j (queue s) + (if (j =? i)%nat then 1 else 0)).
        { intros j. rewrite cnt_app. unfold is_h. cbn. rewrite (Nat.eqb_sym i j). reflexivity. }
        constructor; cbn [logs next queue worker].
        -- rewrite upd_ids by reflexivity. apply V.
        -- intros j f A. rewrite AU in A. rewrite CA. destruct (Nat.eqb_spec j i) as [->|]; [|pose proof (v_refs _ _ V j f A); lia].
           destruct (at_id i (logs s)) as [e|] eqn:AE; [|discriminate A]. injection A as <-. pose proof (v_refs _ _ V i e AE). cbn [add_ref l_ref]. lia.
        -- intros j C. rewrite AU. rewrite CA in C. destruct (Nat.eqb_spec j i) as [EJ|]; [rewrite EJ|apply (v_alive _ _ V); lia].
           cbn in LN. destruct (at_id i (logs s)); [discriminate|discriminate LN].
        -- intros j A. apply (v_next _ _ V). intros Z0. apply A. rewrite AU, Z0. destruct (j =? i)%nat; reflexivity.
        -- intros j k f g A B EN. rewrite AU in A, B.
           assert (EE : exists f0, at_id j (logs s) = Some f0 /\ l_name f0 = l_name f).
           { destruct (j =? i)%nat; [|eauto]. destruct (at_id j (logs s)) as [x|]; [|discriminate A]. injection A as <-. eauto. }
           assert (GG : exists g0, at_id k (logs s) = Some g0 /\ l_name g0 = l_name g).
           { destruct (k =? i)%nat; [|eauto]. destruct (at_id k (logs s)) as [x|]; [|discriminate B]. injection B as <-. eauto. }
           destruct EE as (f0 & E0 & F0). destruct GG as (g0 & G0 & F1). apply (v_names _ _ V j k f0 g0 E0 G0). congruence.
        -- apply Forall_app. split; [apply V|]. constructor; [exact PN|constructor].
        -- discriminate.
      * assert (CA : forall j, cnt j (queue s ++ [(None, lv, msg)]) = cnt j (queue s)) by (intros j; rewrite cnt_app; unfold is_h; cbn; lia).
        constructor; cbn [logs next queue worker]; try apply V.
        -- intros j f A. rewrite CA. apply (v_refs _ _ V). exact A.
        -- intros j C. rewrite CA in C. apply (v_alive _ _ V). exact C.
        -- apply Forall_app. split; [apply V|]. constructor; [exact PN|constructor].
        -- discriminate.
    + rewrite PN in E. injection E as <- _. constructor; cbn [logs next queue worker]; try apply V. intros _. apply (v_direct _ _ V W).
  - destruct (queue s) as [|[[h lv] msg] q] eqn:Q; [injection E as <- _; exact V|]. destruct (line s h) as [n|] eqn:LN; [|discriminate E].
    destruct (named lv) eqn:NL; [|discriminate E]. injection E as <- _. pose proof (v_lvls _ _ V) as VL. rewrite Q in VL. inversion VL as [|? ? _ VL']; subst.
    assert (WD : worker s = false -> q = []) by (intros D; pose proof (v_direct _ _ V D) as Z; rewrite Q in Z; discriminate Z).
    destruct h as [i|].
    + apply (inv_put s H); auto. intros j. rewrite Q, cnt_cons. unfold is_h. cbn. rewrite (Nat.eqb_sym i j). lia.
    + destruct V as [V1 V2 V3 V4 V5 V6 V7]. rewrite Q in *. constructor; cbn [logs next queue worker]; auto.
Qed.
Lemma used_inv s H : used s H -> Inv s H.
Proof.
  induction 1 as [|s H o s' r U IH P E]; [|now apply (inv_step s H o)].
  constructor; cbn; try discriminate; try (intros; discriminate); try constructor; intros; try contradiction; auto; try lia.
Qed.

(** No freed log, no NULL and no level without name is ever used. *)
Theorem log_safe : forall s H o, used s H -> proper H o -> step s o <> Crash.
Proof.
  intros s H o U P. pose proof (used_inv s H U) as V.
  assert (AL : forall i, In i H -> exists e, at_id i (logs s) = Some e).
  { intros i I. pose proof (v_alive _ _ V i) as A. rewrite (inb_in i H I) in A. pose proof (cnt_pos i (queue s)). destruct (at_id i (logs s)); [eauto|]. exfalso. apply A; [lia|reflexivity]. }
  assert (SL : forall h lv, match h with Some i => In i H | None => True end -> set_level s h lv <> Crash).
  { intros h lv I. unfold set_level. destruct (negb _); [discriminate|]. destruct h as [i|]; [|destruct (lv =? LDEFAULT); discriminate]. destruct (AL i I) as [e ->]. discriminate. }
  destruct o as [name lv|name|i|h lv|[n|] lv|p lv|[i|]|[n|]|h lv msg|]; cbn [step proper] in *.
  - destruct (worker s); [discriminate|]. destruct (negb _); discriminate.
  - destruct (find_log name (logs s)); discriminate.
  - destruct (AL i P) as [e ->]. discriminate.
  - apply SL. destruct h; [exact P|exact Logic.I].
  - destruct (find_log n (logs s)) as [e|] eqn:F; [|discriminate]. destruct (find_log_at s H n e V F) as [A _]. unfold set_level. destruct (negb _); [discriminate|]. rewrite A. discriminate.
  - apply SL. exact Logic.I.
  - destruct (regex_loop p lv (logs s) 0 0) as [[l rc] c]. discriminate.
  - destruct (AL i P) as [e ->]. discriminate.
  - contradiction.
  - destruct (find_log n (logs s)); discriminate.
  - discriminate.
  - destruct P as [PN PH]. unfold line. destruct h as [i|].
    + destruct (AL i PH) as [e ->]. cbn [option_map]. destruct (Z.land _ _ =? 0); [discriminate|]. destruct (worker s); [discriminate|]. rewrite PN. discriminate.
    + destruct (Z.land _ _ =? 0); [discriminate|]. destruct (worker s); [discriminate|]. rewrite PN. discriminate.
  - destruct (queue s) as [|[[h lv] msg] q] eqn:Q; [discriminate|]. pose proof (v_lvls _ _ V) as VL. rewrite Q in VL. inversion VL as [|? ? NL _]; subst. cbn [fst snd] in NL.
    unfold line. destruct h as [i|]; [|rewrite NL; discriminate]. pose proof (v_alive _ _ V i) as A. rewrite Q, cnt_cons in A. unfold is_h in A. cbn [fst] in A. rewrite Nat.eqb_refl in A.
    pose proof (inb_bounds i H). pose proof (cnt_pos i q). destruct (at_id i (logs s)); [cbn [option_map]; rewrite NL; discriminate|]. exfalso. apply A; [lia|reflexivity].
Qed.
Lemma queued_alive s H i lv m : Inv s H -> In (Some i, lv, m) (queue s) -> exists e, at_id i (logs s) = Some e.
Proof.
  intros V I. pose proof (v_alive _ _ V i) as A. assert (0 < cnt i (queue s)).
  { unfold cnt. assert (In (Some i, lv, m) (filter (is_h i) (queue s))) by (apply filter_In; split; [exact I|unfold is_h; cbn; apply Nat.eqb_refl]).
    destruct (filter (is_h i) (queue s)); [contradiction|cbn [length]; lia]. }
  pose proof (inb_bounds i H). destruct (at_id i (logs s)); [eauto|]. exfalso. apply A; [lia|reflexivity].
Qed.
Lemma map_same (s s' : state) (q : list (option nat * Z * text)) : (forall h lv m, In (h, lv, m) q -> name_of s' h = name_of s h) ->
  map (fun '(h, l, m) => (name_of s' h, l, m)) q = map (fun '(h, l, m) => (name_of s h, l, m)) q.
Proof. intros N. apply map_ext_in. intros [[h lv] m] I. now rewrite (N h lv m I). Qed.
(** A message of an enabled level becomes the last line; any other changes nothing at all. *)
Theorem log_line : forall s H h lv msg s' r, used s H -> proper H (Log h lv msg) -> step s (Log h lv msg) = Ok s' r ->
  (enabled s h lv -> pending s' = pending s ++ [(name_of s h, lv, msg)]) /\ (~ enabled s h lv -> s' = s).
Proof.
  intros s H h lv msg s' r U [PN PH] E. pose proof (used_inv s H U) as V. cbn [step] in E.
  assert (NO : line s h = Some (name_of s h)) by (unfold name_of; destruct (line s h); [reflexivity|discriminate E]). rewrite NO in E.
  change (match h with Some i => option_map l_level (at_id i (logs s)) | None => Some (dflt s) end) with (level_of s h) in E.
  destruct (level_of s h) as [lw|] eqn:LO; [|discriminate E]. unfold enabled. rewrite LO.
  destruct (Z.eqb_spec (Z.land (if lw =? LDEFAULT then dflt s else lw) lv) 0) as [Z0|Z0].
  - injection E as <- <-. split; [|reflexivity]. intros (x & Q & N). injection Q as <-. contradiction.
  - split; [intros _|intros N; exfalso; apply N; eauto]. destruct (worker s) eqn:W.
    + injection E as <- _. unfold pending. cbn [out queue]. rewrite map_app, app_assoc. f_equal.
      * f_equal. apply map_same. intros g x m _. unfold name_of, line. cbn [logs prog]. destruct g as [j|]; [|reflexivity].
        destruct h as [i|]; [|reflexivity]. rewrite at_upd by reflexivity. destruct (j =? i)%nat; [|reflexivity]. destruct (at_id j (logs s)); reflexivity.
      * cbn [map]. do 3 f_equal. unfold name_of, line. cbn [logs prog]. destruct h as [i|]; [|reflexivity]. rewrite at_upd by reflexivity. rewrite Nat.eqb_refl.
        destruct (at_id i (logs s)); reflexivity.
    + rewrite PN in E. injection E as <- _. unfold pending. cbn [out queue]. rewrite (v_direct _ _ V W). cbn [map]. rewrite !app_nil_r. reflexivity.
Qed.
Lemma names_kept s H o s' r : Inv s H -> proper H o -> step s o = Ok s' r -> (match o with Log _ _ _ | Work => False | _ => True end) ->
  queue s' = queue s /\ out s' = out s /\ forall h lv m, In (h, lv, m) (queue s) -> name_of s' h = name_of s h.
Proof.
  intros V P E NL.
  assert (SL : forall h lv s' r, set_level s h lv = Ok s' r -> queue s' = queue s /\ out s' = out s /\ forall g x m, In (g, x, m) (queue s) -> name_of s' g = name_of s g).
  { clear. intros h lv s' r E. unfold set_level in E. destruct (negb _); [injection E as <- _; auto|]. destruct h as [i|].
    - destruct (at_id i (logs s)); [|discriminate E]. injection E as <- _. split; [reflexivity|]. split; [reflexivity|]. intros g x m _. unfold name_of, line. cbn [logs prog].
      destruct g as [j|]; [|reflexivity]. rewrite at_upd by reflexivity. destruct (j =? i)%nat; [|reflexivity]. destruct (at_id j (logs s)); reflexivity.
    - destruct (lv =? LDEFAULT); injection E as <- _; auto. }
  destruct o as [name lv|name|i|h lv|[n|] lv|p lv|[i|]|[n|]|h lv msg|]; cbn [step proper] in *; try contradiction; try (eapply SL; eassumption).
  - destruct (worker s) eqn:W; [injection E as <- _; auto|]. destruct (negb _); injection E as <- _; [auto|]. split; [reflexivity|]. split; [reflexivity|].
    rewrite (v_direct _ _ V W). intros h x m I. contradiction.
  - destruct (find_log name (logs s)); injection E as <- _; [auto|]. split; [reflexivity|]. split; [reflexivity|]. intros h x m I. unfold name_of, line. cbn [logs prog].
    destruct h as [j|]; [|reflexivity]. destruct (queued_alive s H j x m V I) as [e A].
    assert (FR : at_id (next s) (logs s) = None).
    { destruct (at_id (next s) (logs s)) eqn:AN; [|reflexivity]. pose proof (v_next _ _ V (next s)) as L. rewrite AN in L. specialize (L ltac:(discriminate)). lia. }
    rewrite at_insert by exact FR. cbn [l_id]. destruct (Nat.eqb_spec j (next s)) as [EJ|]; [|reflexivity]. rewrite EJ in A. congruence.
  - destruct (at_id i (logs s)) as [e|] eqn:A; [|discriminate E]. injection E as <- _. split; [reflexivity|]. split; [reflexivity|]. intros h x m I. unfold name_of, line. cbn [logs prog].
    destruct h as [j|]; [|reflexivity]. rewrite (at_put i j (logs s) e A). destruct (Nat.eqb_spec j i) as [EJ|]; [|reflexivity]. subst j. rewrite A.
    destruct (Z.eqb_spec (l_ref e - 1) 0) as [Z0|]; [|reflexivity]. exfalso. destruct (v_refs _ _ V i e A) as [R _]. rewrite (inb_in i H P) in R.
    assert (0 < cnt i (queue s)); [|lia]. unfold cnt. assert (IN : In (Some i, x, m) (filter (is_h i) (queue s))) by (apply filter_In; split; [exact I|unfold is_h; cbn; apply Nat.eqb_refl]).
    destruct (filter (is_h i) (queue s)); [contradiction|cbn [length]; lia].
  - destruct (find_log n (logs s)); [|injection E as <- _; auto]. eapply SL; eassumption.
  - destruct (regex_loop p lv (logs s) 0 0) as [[l rc] c] eqn:R. injection E as <- _. destruct (regex_map _ _ _ _ _ _ _ _ R) as [-> _].
    split; [reflexivity|]. split; [reflexivity|]. intros h x m _. unfold name_of, line. cbn [logs prog]. destruct h as [j|]; [|reflexivity].
    rewrite at_map by (intros e; destruct (p (l_name e) && is_level_valid lv); reflexivity). destruct (at_id j (logs s)) as [e|]; [|reflexivity]. cbn.
    destruct (p (l_name e) && is_level_valid lv); reflexivity.
  - destruct (at_id i (logs s)); [|discriminate E]. injection E as <- _. auto.
  - destruct (find_log n (logs s)); injection E as <- _; auto.
  - injection E as <- _. auto.
Qed.
(** Nothing else adds, changes, reorders or loses a line. *)
Theorem log_kept : forall s H o s' r, used s H -> proper H o -> step s o = Ok s' r -> (forall h lv msg, o <> Log h lv msg) -> pending s' = pending s.
Proof.
  intros s H o s' r U P E NL. pose proof (used_inv s H U) as V.
  destruct o as [name lv|name|i|h lv|n lv|p lv|g|n|h lv msg|]; try (destruct (names_kept s H _ s' r V P E Logic.I) as (Q1 & Q2 & Q3); unfold pending; rewrite Q1, Q2; f_equal; now apply map_same).
  - exfalso. apply (NL h lv msg eq_refl).
  - cbn [step] in E. destruct (queue s) as [|[[h lv] msg] q] eqn:Q; [injection E as <- _; unfold pending; now rewrite Q|].
    destruct (line s h) as [n|] eqn:LN; [|discriminate E]. destruct (named lv); [|discriminate E]. injection E as <- _. unfold pending. cbn [out queue]. rewrite Q. cbn [map].
    rewrite <- app_assoc. cbn [app]. f_equal. f_equal; [unfold name_of; now rewrite LN|].
    apply map_same. intros g x m I. unfold name_of, line. cbn [logs prog]. destruct g as [j|]; [|reflexivity]. destruct h as [i|]; [|reflexivity].
    cbn in LN. destruct (at_id i (logs s)) as [e|] eqn:A; [|discriminate LN]. rewrite (at_put i j (logs s) e A). destruct (Nat.eqb_spec j i) as [EJ|]; [|reflexivity]. subst j. rewrite A.
    destruct (Z.eqb_spec (l_ref e - 1) 0) as [Z0|]; [|reflexivity]. exfalso. destruct (v_refs _ _ V i e A) as [R _]. rewrite Q, cnt_cons in R. unfold is_h in R at 1. cbn [fst] in R. rewrite Nat.eqb_refl in R.
    pose proof (inb_bounds i H). assert (0 < cnt i q); [|lia]. unfold cnt.
    assert (IN : In (Some i, x, m) (filter (is_h i) q)) by (apply filter_In; split; [exact I|unfold is_h; cbn; apply Nat.eqb_refl]).
    destruct (filter (is_h i) q); [contradiction|cbn [length]; lia].
Qed.
(** When the worker has caught up, exactly these lines have been written. *)
Theorem log_drain : forall s H, used s H -> exists s', works (length (queue s)) s = Some s' /\ queue s' = [] /\ out s' = pending s.
Proof.
  intros s H U. remember (length (queue s)) as n eqn:EN. revert s H U EN. induction n as [|n IH]; intros s H U EN.
  - exists s. destruct (queue s) eqn:Q; [|discriminate EN]. split; [reflexivity|]. split; [reflexivity|]. unfold pending. rewrite Q. cbn [map]. now rewrite app_nil_r.
  - cbn [works]. pose proof (log_safe s H Work U Logic.I) as NC. destruct (step s Work) as [s1 r|] eqn:E; [|contradiction].
    pose proof (U_step s H Work s1 r U Logic.I E) as U1. pose proof (log_kept s H Work s1 r U Logic.I E ltac:(intros; discriminate)) as PK.
    assert (L1 : n = length (queue s1)).
    { cbn [step] in E. destruct (queue s) as [|[[h lv] msg] q] eqn:Q; [discriminate EN|]. destruct (line s h); [|discriminate E]. destruct (named lv); [|discriminate E].
      injection E as <- _. cbn in *. lia. }
    destruct (IH s1 _ U1 L1) as (s' & W & Q & O). exists s'. split; [exact W|]. split; [exact Q|]. now rewrite O.
Qed.

(** ** Setting levels *)
(** A valid level given to a subsystem is its level from then on, and no other level changes;
    an invalid one is refused. *)
Theorem log_set : forall s H h lv s' r, used s H -> proper H (SetL h lv) -> step s (SetL h lv) = Ok s' r ->
  (is_level_valid lv = true -> h <> None \/ lv <> LDEFAULT -> r = RInt 0 /\ level_of s' h = Some lv /\ forall g, g <> h -> level_of s' g = level_of s g) /\
  (is_level_valid lv = false -> r = RInt EINVAL /\ s' = s).
Proof.
  intros s H h lv s' r U P E. cbn [step] in E. unfold set_level in E. destruct (is_level_valid lv); cbn [negb] in E.
  2: { injection E as <- <-. split; [discriminate|auto]. }
  split; [|discriminate]. intros _ ND. destruct h as [i|].
  - destruct (at_id i (logs s)) as [e|] eqn:A; [|discriminate E]. injection E as <- <-. split; [reflexivity|]. unfold level_of. cbn [logs dflt].
    split; [rewrite at_upd by reflexivity; rewrite Nat.eqb_refl, A; reflexivity|]. intros [j|] NE; [|reflexivity]. rewrite at_upd by reflexivity.
    destruct (Nat.eqb_spec j i) as [EJ|]; [congruence|reflexivity].
  - destruct (Z.eqb_spec lv LDEFAULT) as [Z0|]; [destruct ND; contradiction|]. injection E as <- <-. split; [reflexivity|]. split; [reflexivity|]. intros [j|] NE; [reflexivity|contradiction].
Qed.
(** By name: the subsystem registered under the name, or ENOENT. *)
Theorem log_set_name : forall s H n lv, used s H ->
  (forall i e, at_id i (logs s) = Some e -> l_name e = n -> step s (SetN (Some n) lv) = step s (SetL (Some i) lv) /\ step s (GetN (Some n)) = Ok s (RInt (l_level e))) /\
  ((forall i e, at_id i (logs s) = Some e -> l_name e <> n) -> step s (SetN (Some n) lv) = Ok s (RInt ENOENT) /\ step s (GetN (Some n)) = Ok s (RInt (- ENOENT))).
Proof.
  intros s H n lv U. pose proof (used_inv s H U) as V. cbn [step]. destruct (find_log n (logs s)) as [x|] eqn:F.
  - destruct (find_log_at s H n x V F) as [A EN]. split.
    + intros i e AE NE. assert (i = l_id x) by (apply (v_names _ _ V i (l_id x) e x AE A); congruence). subst i. rewrite A in AE. injection AE as <-. auto.
    + intros N. exfalso. apply (N (l_id x) x A EN).
  - split; [|auto]. intros i e AE NE. exfalso. apply (find_log_none s H n i e V F AE NE).
Qed.
(** Registration: a new handle with the default level if no live subsystem has the name. *)
Theorem log_register : forall s H n, used s H ->
  (forall i e, at_id i (logs s) = Some e -> l_name e <> n) ->
  exists s' i, step s (Reg n) = Ok s' (RHandle i) /\ ~ In i H /\ level_of s' (Some i) = Some LDEFAULT /\ name_of s' (Some i) = n /\ forall g, g <> Some i -> level_of s' g = level_of s g /\ name_of s' g = name_of s g.
Proof.
  intros s H n U N. pose proof (used_inv s H U) as V. cbn [step]. destruct (find_log n (logs s)) as [x|] eqn:F.
  - destruct (find_log_at s H n x V F) as [A EN]. exfalso. apply (N _ _ A EN).
  - assert (FR : at_id (next s) (logs s) = None).
    { destruct (at_id (next s) (logs s)) eqn:AN; [|reflexivity]. pose proof (v_next _ _ V (next s)) as L. rewrite AN in L. specialize (L ltac:(discriminate)). lia. }
    eexists. exists (next s). split; [reflexivity|]. split; [intros I; apply (v_alive _ _ V (next s)); [rewrite (inb_in _ _ I); pose proof (cnt_pos (next s) (queue s)); lia|exact FR]|].
    unfold level_of, name_of, line. cbn [logs dflt prog]. pose proof (fun j => at_insert (mkLog (next s) n LDEFAULT 1) j (logs s) FR) as AI. cbn [l_id] in AI.
    split; [rewrite AI, Nat.eqb_refl; reflexivity|]. split; [rewrite AI, Nat.eqb_refl; reflexivity|]. intros [j|] NE; [|auto]. rewrite AI. destruct (Nat.eqb_spec j (next s)); [congruence|auto].
Qed.
Theorem log_register_twice : forall s H n i e, used s H -> at_id i (logs s) = Some e -> l_name e = n -> step s (Reg n) = Ok s (RNull EEXIST).
Proof.
  intros s H n i e U A E. pose proof (used_inv s H U) as V. cbn [step]. destruct (find_log n (logs s)) as [x|] eqn:F; [reflexivity|]. exfalso. apply (find_log_none s H n i e V F A E).
Qed.
(** By expression: every subsystem whose name matches gets the level, no other; ENOENT if none
    matches.  (Not proved: that 0 is returned if some match, which is false.) *)
Theorem log_regex_partial : forall s H p lv s' r, used s H -> is_level_valid lv = true -> step s (SetR p lv) = Ok s' r ->
  (forall i e, at_id i (logs s) = Some e -> level_of s' (Some i) = Some (if p (l_name e) then lv else l_level e)) /\ dflt s' = dflt s /\
  ((forall i e, at_id i (logs s) = Some e -> p (l_name e) = false) -> r = RInt ENOENT).
Proof.
  intros s H p lv s' r U VL E. pose proof (used_inv s H U) as V. cbn [step] in E. destruct (regex_loop p lv (logs s) 0 0) as [[l rc] c] eqn:R. injection E as <- <-.
  destruct (regex_map _ _ _ _ _ _ _ _ R) as [-> ->]. split; [|split; [reflexivity|]].
  - intros i e A. unfold level_of. cbn [logs]. rewrite at_map by (intros x; destruct (p (l_name x) && is_level_valid lv); reflexivity). rewrite A. cbn [option_map]. rewrite VL, andb_true_r.
    destruct (p (l_name e)); reflexivity.
  - intros N. assert (Z0 : filter (fun e => p (l_name e)) (logs s) = []).
    { destruct (filter (fun e => p (l_name e)) (logs s)) as [|e q] eqn:F; [reflexivity|]. assert (I : In e (filter (fun e => p (l_name e)) (logs s))) by (rewrite F; left; reflexivity).
      apply filter_In in I. destruct I as [I1 I2]. rewrite (N (l_id e) e (in_at _ _ (v_ids _ _ V) I1)) in I2. discriminate I2. }
    rewrite Z0. reflexivity.
Qed.

(** ** Runs *)
Fixpoint runs (s : state) (l : list op) : option (state * list ret) :=
  match l with [] => Some (s, []) | o :: r => match step s o with Ok s' x => match runs s' r with Some (s2, xs) => Some (s2, x :: xs) | None => None end | Crash => None end end.
Fixpoint heldl (H : list nat) (l : list op) (rs : list ret) : list nat := match l, rs with o :: l, r :: rs => heldl (held H o r) l rs | _, _ => H end.
Fixpoint properl (s : state) (H : list nat) (l : list op) : Prop := match l with [] => True | o :: l => proper H o /\ match step s o with Ok s' r => properl s' (held H o r) l | Crash => False end end.
Lemma used_runs l : forall s H, used s H -> properl s H l -> forall s' rs, runs s l = Some (s', rs) -> used s' (heldl H l rs).
Proof.
  induction l as [|o l IH]; intros s H U P s' rs E; cbn in *; [injection E as <- <-; exact U|]. destruct P as [P1 P2]. destruct (step s o) as [s1 r|] eqn:S; [|discriminate E].
  destruct (runs s1 l) as [[s2 xs]|] eqn:R; [|discriminate E]. injection E as <- <-. cbn. eapply IH; [|exact P2|exact R]. eapply U_step; eassumption.
Qed.
Definition n_a : text := [97]%N.
Definition n_b : text := [98]%N.
Definition m1 : text := [104; 105]%N.
(** Two subsystems, levels, a message that is queued while its subsystem is destroyed *)
Definition w_ex : list op := [Start n_b 24; Reg n_a; Reg n_b; SetL (Some 0%nat) 2; Log (Some 0%nat) 2 m1; Log (Some 1%nat) 2 m1; Log (Some 1%nat) 8 m1; Log None 31 m1; Destroy 0%nat; Work].
Example log_ex : properl init [] w_ex /\ option_map (fun x => (out (fst x), length (queue (fst x)), length (logs (fst x)))) (runs init w_ex) = Some ([(n_a, 2, m1)], 2%nat, 1%nat) /\
  option_map (fun x => option_map out (works 2 (fst x))) (runs init w_ex) = Some (Some [(n_a, 2, m1); (n_b, 8, m1); (n_b, 31, m1)]).
Proof.
  split; [|split; vm_compute; reflexivity]. vm_compute.
  repeat match goal with |- _ /\ _ => split | |- True => exact Logic.I | |- _ = _ => reflexivity | |- _ \/ _ => first [left; reflexivity | right] end.
Qed.
Lemma used_of l s rs : properl init [] l -> runs init l = Some (s, rs) -> used s (heldl [] l rs).
Proof. intros P R. eapply used_runs; [apply U_init|exact P|exact R]. Qed.
(** Setting the level by expression fails although a subsystem matched and was changed, if the
    last one in the order of names does not match. *)
Definition w_two : list op := [Reg n_a; Reg n_b].
Theorem log_regex_refuted : exists s H p lv s' r i e, used s H /\ is_level_valid lv = true /\ step s (SetR p lv) = Ok s' r /\
  at_id i (logs s) = Some e /\ p (l_name e) = true /\ level_of s' (Some i) = Some lv /\ r = RInt 1.
Proof.
  destruct (runs init w_two) as [[s rs]|] eqn:R; [|discriminate R]. pose proof (used_of w_two s rs ltac:(cbn; tauto) R) as U. vm_compute in R. injection R as <- <-.
  eexists. eexists. exists (fun n => eqs n n_a), 2. eexists. eexists. exists 0%nat. eexists. split; [exact U|]. split; [reflexivity|]. split; [vm_compute; reflexivity|].
  split; [vm_compute; reflexivity|]. split; [reflexivity|]. split; reflexivity.
Qed.
(** By expression an invalid level is not refused. *)
Theorem log_regex_invalid_refuted : exists s H p lv s', used s H /\ is_level_valid lv = false /\ step s (SetR p lv) = Ok s' (RInt 0).
Proof.
  destruct (runs init w_two) as [[s rs]|] eqn:R; [|discriminate R]. pose proof (used_of w_two s rs ltac:(cbn; tauto) R) as U. vm_compute in R. injection R as <- <-.
  eexists. eexists. exists (fun _ => true), 64. eexists. split; [exact U|]. split; [reflexivity|]. vm_compute. reflexivity.
Qed.
(** The name of a destroyed subsystem cannot be registered while a message of it waits. *)
Definition w_again : list op := [Start n_b 31; Reg n_a; Log (Some 0%nat) 8 m1; Destroy 0%nat].
Theorem log_again_refuted : exists s H n, used s H /\ H = [] /\ step s (Reg n) = Ok s (RNull EEXIST).
Proof.
  destruct (runs init w_again) as [[s rs]|] eqn:R; [|discriminate R]. pose proof (used_of w_again s rs ltac:(cbn; tauto) R) as U. vm_compute in R. injection R as <- <-.
  eexists. eexists. exists n_a. split; [exact U|]. split; vm_compute; reflexivity.
Qed.
(** The default level may be initialised to "as the default": then everything is written. *)
Theorem log_init_default_refuted : exists s H, used s H /\ worker s = true /\ level_of s None = Some LDEFAULT /\ forall lv, In lv [1; 2; 4; 8; 16] -> enabled s None lv.
Proof.
  destruct (runs init [Start n_b LDEFAULT]) as [[s rs]|] eqn:R; [|discriminate R]. pose proof (used_of [Start n_b LDEFAULT] s rs ltac:(cbn; tauto) R) as U. vm_compute in R. injection R as <- <-.
  eexists. eexists. split; [exact U|]. split; [reflexivity|]. split; [reflexivity|]. intros lv I. exists LDEFAULT. split; [reflexivity|]. cbn in I.
  destruct I as [<-|[<-|[<-|[<-|[<-|[]]]]]]; vm_compute; discriminate.
Qed.
(** A message that is accepted by the worker is answered with its length instead of 0. *)
Theorem log_rc_refuted : exists s H h lv msg s' r, used s H /\ proper H (Log h lv msg) /\ step s (Log h lv msg) = Ok s' r /\ enabled s h lv /\ r = RInt 2.
Proof.
  destruct (runs init [Start n_b 31]) as [[s rs]|] eqn:R; [|discriminate R]. pose proof (used_of [Start n_b 31] s rs ltac:(cbn; tauto) R) as U. vm_compute in R. injection R as <- <-.
  eexists. eexists. exists None, 8, m1. eexists. eexists. split; [exact U|]. split; [split; [reflexivity|exact Logic.I]|]. split; [vm_compute; reflexivity|].
  split; [exists 31; split; [reflexivity|vm_compute; discriminate]|reflexivity].
Qed.
(** ovis_log_get_level(NULL), which a second -v on the command line calls, dereferences NULL. *)
Theorem log_get_null : forall s, step s (GetL None) = Crash. Proof. reflexivity. Qed.

(** ** Where the lines go *)
Definition opens (l : list nat) : list dop := map (fun n => DOpen (Some n)) l.
(** With the worker, lines go to stdout first, then to the file opened last, stdout and stderr,
    too; at the end the log may be moved to syslog. *)
Lemma last_move (l : list nat) a b : last l a = match l with [] => a | _ => last l b end.
Proof. induction l as [|x l IH]; [reflexivity|]. cbn. destruct l; [reflexivity|exact IH]. Qed.
Lemma opens_run l : forall d, d_worker d = true -> (exists n, log_fp d = FLog n /\ fd1 d = TLog n /\ fd2 d = TLog n) -> cached d <> FNull ->
  exists d', druns d (opens l) = Some d' /\ d_worker d' = true /\ cached d' <> FNull /\
    exists n, n = last l (match log_fp d with FLog n => n | _ => 0%nat end) /\ log_fp d' = FLog n /\ fd1 d' = TLog n /\ fd2 d' = TLog n.
Proof.
  induction l as [|m l IH]; intros d W (n & L & F1 & F2) C.
  - exists d. split; [reflexivity|]. split; [exact W|]. split; [exact C|]. exists n. rewrite L. auto.
  - cbn [opens map druns dstep]. assert (CD : cache d = d) by (unfold cache; destruct (cached d); [contradiction|reflexivity..]). cbv zeta. rewrite CD, W. unfold log_reopen. rewrite L.
    cbn [fflush_ok log_open fclose]. set (d1 := use _ _).
    destruct (IH d1) as (d' & R & W' & C' & k & K1 & K2); [exact W|exists m; auto|exact C|].
    exists d'. split; [exact R|]. split; [exact W'|]. split; [exact C'|]. exists k. split; [|exact K2]. rewrite K1. cbn [d1 use log_fp]. rewrite (last_move l m n). destruct l; reflexivity.
Qed.
Theorem log_goes : forall l n, exists d1 d2, druns dest0 (DStart :: opens (l ++ [n])) = Some d1 /\ goes d1 = Some (TLog n) /\ fd1 d1 = TLog n /\ fd2 d1 = TLog n /\
  druns d1 [DOpen None] = Some d2 /\ goes d2 = Some TSyslog.
Proof.
  intros l n. assert (A : exists d1, druns dest0 (DStart :: opens (l ++ [n])) = Some d1 /\ d_worker d1 = true /\ cached d1 <> FNull /\ log_fp d1 = FLog n /\ fd1 d1 = TLog n /\ fd2 d1 = TLog n).
  { destruct l as [|m l].
    - eexists. split; [reflexivity|]. cbn. repeat split; auto. discriminate.
    - cbn [app opens map druns dstep]. cbv zeta. cbn [cache dest0 cached fd0 fd1 fd2 gone log_fp vstdout d_worker log_reopen log_open use].
      match goal with |- context [druns ?d _] => set (d0 := d) end.
      destruct (opens_run (l ++ [n]) d0) as (d' & R & W & C & k & K & L); [reflexivity|exists m; auto|discriminate|].
      exists d'. split; [exact R|]. split; [exact W|]. split; [exact C|]. rewrite last_last in K. subst k. exact L. }
  destruct A as (d1 & R & W & C & L & F1 & F2). exists d1. cbn [druns dstep]. cbv zeta.
  assert (CD : cache d1 = d1) by (unfold cache; destruct (cached d1); [contradiction|reflexivity..]). rewrite CD, W. unfold log_reopen. rewrite L. cbn [fflush_ok log_open fclose].
  eexists. split; [exact R|]. split; [unfold goes; now rewrite L|]. split; [exact F1|]. split; [exact F2|]. split; [reflexivity|reflexivity].
Qed.
Example log_goes_ex : option_map goes (druns dest0 (DStart :: opens [3; 5]%nat)) = Some (Some (TLog 5)) /\ goes dest0 = Some TOut.
Proof. split; reflexivity. Qed.
(** Opening a file while the log goes to syslog crashes. *)
Theorem log_syslog_refuted : exists l n, l = [DStart; DOpen None] /\ druns dest0 l <> None /\ druns dest0 (l ++ [DOpen (Some n)]) = None.
Proof. exists [DStart; DOpen None], 1%nat. split; [reflexivity|]. split; [discriminate|reflexivity]. Qed.
(** After closing, lines go to the stderr of the start instead of its stdout; standard input is
    lost as soon as a log is opened. *)
Theorem log_close_refuted : exists l d, l = [DStart; DOpen (Some 1%nat); DClose] /\ druns dest0 l = Some d /\ goes d = Some TErr /\ fd0 d = TErr.
Proof.
  exists [DStart; DOpen (Some 1%nat); DClose], (mkD TErr TErr TErr false FStd FStd FStd true).
  split; [reflexivity|]. split; [|split]; vm_compute; reflexivity.
Qed.
(** Opening and closing twice leaves a closed file in use. *)
Theorem log_close_twice_refuted : exists l d, l = [DStart; DOpen (Some 1%nat); DClose; DOpen (Some 2%nat); DClose] /\ druns dest0 l = Some d /\ goes d = None.
Proof.
  exists [DStart; DOpen (Some 1%nat); DClose; DOpen (Some 2%nat); DClose], (mkD TErr TErr TErr true FStd FStd FStd true).
  split; [reflexivity|]. split; vm_compute; reflexivity.
Qed.

Print Assumptions lvl_single.
Print Assumptions lvl_list.
Print Assumptions lvl_unknown.
Print Assumptions lvl_unknown_list.
Print Assumptions lvl_round.
Print Assumptions lvl_str_invalid.
Print Assumptions lvl_default_refuted.
Print Assumptions lvl_always_refuted.
Print Assumptions lvl_comma_refuted.
Print Assumptions log_safe.
Print Assumptions log_line.
Print Assumptions log_kept.
Print Assumptions log_drain.
Print Assumptions log_set.
Print Assumptions log_set_name.
Print Assumptions log_register.
Print Assumptions log_register_twice.
Print Assumptions log_regex_partial.
Print Assumptions log_regex_refuted.
Print Assumptions log_regex_invalid_refuted.
Print Assumptions log_again_refuted.
Print Assumptions log_init_default_refuted.
Print Assumptions log_rc_refuted.
Print Assumptions log_get_null.
Print Assumptions log_goes.
Print Assumptions log_syslog_refuted.
Print Assumptions log_close_refuted.
Print Assumptions log_close_twice_refuted.
