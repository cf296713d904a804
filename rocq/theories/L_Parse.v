(** Lemmas for C18 and C41. *)
From Verif Require Import Bytes M_Request M_Parse S_Request L_Request L_Validate.
From Coq Require Import Sorting.Sorted.
Local Open Scope list_scope.

(** ** strcmp is a total order *)

Lemma strcmp_eq a b : strcmp a b = Eq <-> a = b.
Proof.
  revert b. induction a as [|x a IH]; intros [|y b]; cbn [strcmp]; try (split; congruence).
  destruct (N.compare x y) eqn:E.
  - apply N.compare_eq in E. subst. rewrite IH. split; congruence.
  - split; [discriminate|]. intros H. injection H as -> ->. rewrite N.compare_refl in E. discriminate.
  - split; [discriminate|]. intros H. injection H as -> ->. rewrite N.compare_refl in E. discriminate.
Qed.
Lemma strcmp_refl a : strcmp a a = Eq.
Proof. now apply strcmp_eq. Qed.
Lemma strcmp_antisym a b : strcmp b a = CompOpp (strcmp a b).
Proof.
  revert b. induction a as [|x a IH]; intros [|y b]; cbn [strcmp]; auto.
  rewrite (N.compare_antisym x y). destruct (N.compare x y); cbn [CompOpp]; auto.
Qed.
Lemma strcmp_trans a b c : strcmp a b = Lt -> strcmp b c = Lt -> strcmp a c = Lt.
Proof.
  revert b c. induction a as [|x a IH]; intros [|y b] [|z c]; cbn [strcmp]; try congruence.
  destruct (N.compare x y) eqn:E1, (N.compare y z) eqn:E2; try discriminate; intros H1 H2;
    rewrite ?N.compare_eq_iff, ?N.compare_lt_iff in *; subst.
  - rewrite N.compare_refl. eauto.
  - now replace (N.compare y z) with Lt by (symmetry; now apply N.compare_lt_iff).
  - now replace (N.compare x z) with Lt by (symmetry; now apply N.compare_lt_iff).
  - now replace (N.compare x z) with Lt by (symmetry; apply N.compare_lt_iff; lia).
Qed.

(** ** bsearch on a sorted table is exact *)

Definition sorted_tab (t : list (list byte * N)) : Prop :=
  StronglySorted (fun a b => strcmp (fst a) (fst b) = Lt) t.

Fixpoint sortedb (t : list (list byte * N)) : bool :=
  match t with
  | a :: ((b :: _) as t') =>
    (match strcmp (fst a) (fst b) with Lt => true | _ => false end && sortedb t')%bool
  | _ => true
  end.

Lemma sortedb_ok t : sortedb t = true -> sorted_tab t.
Proof.
  intros H. apply Sorted_StronglySorted.
  - intros a b c. apply strcmp_trans.
  - induction t as [|a [|b t] IH]; [constructor|repeat constructor|].
    cbn [sortedb] in H. apply Bool.andb_true_iff in H. destruct H as (H1 & H2).
    constructor; [now apply IH|]. constructor. destruct (strcmp (fst a) (fst b)); congruence.
Qed.

Lemma sorted_nth t i j a b : sorted_tab t -> (i < j)%nat ->
  nth_error t i = Some a -> nth_error t j = Some b -> strcmp (fst a) (fst b) = Lt.
Proof.
  intros Hs. revert i j. induction Hs as [|x t Hs IH Hall]; intros i j Hij Ha Hb.
  - destruct i; discriminate.
  - destruct j as [|j]; [lia|]. cbn [nth_error] in Hb. destruct i as [|i]; cbn [nth_error] in Ha.
    + injection Ha as <-. rewrite Forall_forall in Hall. apply Hall. eapply nth_error_In; eassumption.
    + apply (IH i j); auto; lia.
Qed.

Lemma bsearch_spec t key : sorted_tab t -> forall fuel lo hi v,
  (hi <= List.length t)%nat -> (hi - lo <= fuel)%nat ->
  (bsearch fuel t key lo hi = Some v <->
   exists i, (lo <= i < hi)%nat /\ nth_error t i = Some (key, v)).
Proof.
  intros Hs. induction fuel as [|fuel IH]; intros lo hi v Hhi Hf; cbn [bsearch].
  - split; [discriminate|]. intros (i & Hi & _). lia.
  - destruct (Nat.ltb lo hi) eqn:Hlt.
    2: { apply Nat.ltb_ge in Hlt. split; [discriminate|]. intros (i & Hi & _). lia. }
    apply Nat.ltb_lt in Hlt. set (mid := ((lo + hi) / 2)%nat).
    assert (Hmid : (lo <= mid < hi)%nat).
    { unfold mid. pose proof (Nat.div_mod (lo + hi) 2 ltac:(lia)) as Hdm.
      pose proof (Nat.mod_upper_bound (lo + hi) 2 ltac:(lia)) as Hmm. lia. }
    clearbody mid.
    destruct (nth_error t mid) as [[k w]|] eqn:Hn.
    2: { apply nth_error_None in Hn. lia. }
    destruct (strcmp key k) eqn:Hc.
    + apply strcmp_eq in Hc. subst k. split.
      * intros H. injection H as <-. exists mid. auto.
      * intros (i & Hi & Hni). destruct (Nat.lt_trichotomy i mid) as [H|[->|H]].
        -- pose proof (sorted_nth t i mid _ _ Hs H Hni Hn) as Hx. cbn [fst] in Hx. rewrite strcmp_refl in Hx. discriminate.
        -- congruence.
        -- pose proof (sorted_nth t mid i _ _ Hs H Hn Hni) as Hx. cbn [fst] in Hx. rewrite strcmp_refl in Hx. discriminate.
    + rewrite IH by lia. split; intros (i & Hi & Hni); exists i; (split; [|exact Hni]); [lia|].
      destruct (Nat.lt_trichotomy i mid) as [H|[->|H]]; [lia| |].
      * rewrite Hn in Hni. injection Hni as -> ->. rewrite strcmp_refl in Hc. discriminate.
      * pose proof (sorted_nth t mid i _ _ Hs H Hn Hni) as Hx. cbn [fst] in Hx.
        rewrite strcmp_antisym, Hc in Hx. discriminate.
    + rewrite IH by lia. split; intros (i & Hi & Hni); exists i; (split; [|exact Hni]); [lia|].
      destruct (Nat.lt_trichotomy i mid) as [H|[->|H]]; [| |lia].
      * pose proof (sorted_nth t i mid _ _ Hs H Hni Hn) as Hx. cbn [fst] in Hx. congruence.
      * rewrite Hn in Hni. injection Hni as -> ->. rewrite strcmp_refl in Hc. discriminate.
Qed.

Lemma bsearch_in t key v : sorted_tab t ->
  bsearch (List.length t) t key 0 (List.length t) = Some v <-> In (key, v) t.
Proof.
  intros Hs. rewrite bsearch_spec by (auto; lia). split.
  - intros (i & _ & Hn). eapply nth_error_In; eassumption.
  - intros Hin. apply In_nth_error in Hin. destruct Hin as (i & Hn). exists i. split; [|exact Hn].
    assert (nth_error t i <> None) by congruence. rewrite nth_error_Some in *. lia.
Qed.

Lemma req_table_sorted : sorted_tab req_table.
Proof. apply sortedb_ok. vm_compute. reflexivity. Qed.
Lemma attr_table_sorted : sorted_tab attr_table.
Proof. apply sortedb_ok. vm_compute. reflexivity. Qed.

Lemma req_str2id_spec verb id : req_str2id verb = Some id <-> In (verb, id) req_table.
Proof. apply bsearch_in, req_table_sorted. Qed.
Lemma attr_str2id_spec name id : attr_str2id name = Some id <-> In (name, id) attr_table.
Proof. apply bsearch_in, attr_table_sorted. Qed.

(** ** Words *)

Lemma is_delim_spec c : is_delim c = true <-> delim c.
Proof. unfold is_delim, delim. rewrite Bool.orb_true_iff, !N.eqb_eq. tauto. Qed.
Lemma is_delim_false c : is_delim c = false <-> ~ delim c.
Proof. rewrite <- is_delim_spec. destruct (is_delim c); split; congruence. Qed.

Lemma tokens_delims d l : Forall delim d -> tokens_aux [] (d ++ l) = tokens_aux [] l.
Proof.
  induction 1 as [|c d Hc Hd IH]; [reflexivity|]. cbn [app tokens_aux].
  apply is_delim_spec in Hc. now rewrite Hc.
Qed.
Lemma tokens_word w : forall cur l, Forall (fun c => ~ delim c) w ->
  tokens_aux cur (w ++ l) = tokens_aux (cur ++ w) l.
Proof.
  induction w as [|c w IH]; intros cur l Hw; [now rewrite app_nil_r|].
  inversion Hw as [|? ? Hc Hw']; subst. cbn [app tokens_aux].
  apply is_delim_false in Hc. rewrite Hc, IH by exact Hw'. now rewrite <- app_assoc.
Qed.

Lemma tokens_words l ws : words l ws -> tokens l = ws.
Proof.
  unfold tokens. induction 1 as [d Hd|d w l ws Hd Hne Hw Hb Hl IH].
  - rewrite <- (app_nil_r d), tokens_delims by exact Hd. reflexivity.
  - rewrite tokens_delims by exact Hd. rewrite tokens_word by exact Hw. cbn [app].
    destruct w as [|c w]; [congruence|]. destruct Hb as [->|(c' & l' & -> & Hc')].
    + cbn [tokens_aux] in *. now rewrite IH.
    + cbn [tokens_aux] in *. apply is_delim_spec in Hc'. rewrite Hc' in *. now rewrite IH.
Qed.

Lemma tokens_aux_words : forall l cur, Forall (fun c => ~ delim c) cur ->
  words (cur ++ l) (tokens_aux cur l).
Proof.
  induction l as [|c l IH]; intros cur Hcur; cbn [tokens_aux].
  - destruct cur as [|x cur]; [constructor; constructor|].
    apply (ws_cons [] (x :: cur) [] []); [constructor|discriminate|exact Hcur|now left|].
    constructor. constructor.
  - destruct (is_delim c) eqn:Hc.
    + apply is_delim_spec in Hc. destruct cur as [|x cur].
      * specialize (IH [] ltac:(constructor)). cbn [app] in *.
        inversion IH as [d Hd E1 E2|d w l' ws Hd Hne Hw Hb Hl E1 E2].
        -- apply ws_nil. now constructor.
        -- rewrite app_comm_cons. apply ws_cons; auto.
      * specialize (IH [] ltac:(constructor)). cbn [app] in IH.
        apply (ws_cons [] (x :: cur) (c :: l)); [constructor|discriminate|exact Hcur|right; eauto|].
        inversion IH as [d Hd E1 E2|d w l' ws Hd Hne Hw Hb Hl E1 E2].
        -- apply ws_nil. now constructor.
        -- rewrite app_comm_cons. apply ws_cons; auto.
    + apply is_delim_false in Hc. specialize (IH (cur ++ [c])).
      rewrite <- app_assoc in IH. apply IH. apply Forall_app. split; [exact Hcur|]. repeat constructor. exact Hc.
Qed.
Lemma words_tokens l : words l (tokens l).
Proof. apply (tokens_aux_words l []). constructor. Qed.

Lemma word_means_nv w n v : word_means w n v -> name_value w = (n, v).
Proof.
  destruct 1 as [n Hn|n v Hn].
  - induction n as [|c n IH]; [reflexivity|]. cbn [name_value].
    replace (N.eqb c 61) with false by (symmetry; apply N.eqb_neq; intros ->; apply Hn; now left).
    rewrite IH; [reflexivity|]. intros H. apply Hn. now right.
  - induction n as [|c n IH]; [reflexivity|]. cbn [name_value app].
    replace (N.eqb c 61) with false by (symmetry; apply N.eqb_neq; intros ->; apply Hn; now left).
    rewrite IH; [reflexivity|]. intros H. apply Hn. now right.
Qed.
Lemma nv_word_means w : word_means w (fst (name_value w)) (snd (name_value w)).
Proof.
  induction w as [|c w IH]; [now constructor|]. cbn [name_value].
  destruct (N.eqb c 61) eqn:E.
  - apply N.eqb_eq in E. subst c. cbn [fst snd]. apply (wm_av [] w). intros [].
  - apply N.eqb_neq in E. destruct (name_value w) as [n v]. cbn [fst snd] in *.
    inversion IH as [n' Hn|n' v' Hn]; subst.
    + constructor. intros [->|H]; [congruence|tauto].
    + apply (wm_av (c :: n)). intros [->|H]; [congruence|tauto].
Qed.

Lemma parse_generic_ok ws attrs acc : Forall2 word_attr ws attrs ->
  parse_generic ws acc = POk (acc ++ attrs).
Proof.
  intros H. revert acc. induction H as [|w a ws attrs (n & v & id & Hm & Hin & ->) Hr IH]; intros acc.
  - cbn. now rewrite app_nil_r.
  - cbn [parse_generic]. rewrite (word_means_nv _ _ _ Hm). unfold add_attr.
    apply attr_str2id_spec in Hin. rewrite Hin, IH. now rewrite <- app_assoc.
Qed.

Lemma parse_generic_err ws acc : (exists w, In w ws /\ forall a, ~ word_attr w a) ->
  parse_generic ws acc = PErr EINVAL.
Proof.
  intros (w & Hin & Hno). revert acc. induction ws as [|x ws IH]; intros acc; [destruct Hin|].
  cbn [parse_generic]. destruct (name_value x) as [n v] eqn:Hnv. unfold add_attr.
  destruct (attr_str2id n) as [id|] eqn:Hid; [|reflexivity].
  destruct Hin as [->|Hin]; [exfalso|now apply IH].
  apply (Hno (id, v)). exists n, v, id. split; [|split; [now apply attr_str2id_spec|reflexivity]].
  pose proof (nv_word_means w) as Hm. now rewrite Hnv in Hm.
Qed.

(** ** Splitting into records *)

Lemma split_loop_ok max no id : (24 < max)%nat -> forall fuel first data,
  (List.length data < fuel)%nat ->
  exists rs, split_loop fuel first max no id data = Some (map (enc 1 no id) rs) /\
    concat (map snd rs) = data /\
    Forall (fun r => (24 + List.length (snd r) <= max)%nat) rs /\
    full (if first then 1 else 0)%N (map fst rs).
Proof.
  intros Hmax. induction fuel as [|fuel IH]; intros first data Hf; [lia|].
  cbn [split_loop].
  replace (Nat.ltb max HDR) with false by (symmetry; apply Nat.ltb_ge; unfold HDR; lia).
  set (n := Nat.min (max - HDR) (List.length data)).
  assert (Hn : (n <= List.length data /\ 24 + n <= max)%nat) by (unfold n, HDR; lia).
  assert (Hfn : List.length (firstn n data) = n) by (rewrite firstn_length; lia).
  assert (Henc : forall fl, hdr_bytes 1 fl no id (N.of_nat (HDR + n)) ++ firstn n data
                 = enc 1 no id (fl, firstn n data)).
  { intros fl. unfold enc. cbn [fst snd]. rewrite Hfn. reflexivity. }
  rewrite Henc.
  destruct (skipn n data) as [|c rest] eqn:Hrest.
  - exists [((if first then SOM else 0) + EOM, firstn n data)%N].
    split; [reflexivity|]. cbn [map concat snd fst full]. rewrite app_nil_r.
    split. { rewrite <- (firstn_skipn n data) at 2. now rewrite Hrest, app_nil_r. }
    split; [repeat constructor; cbn [snd]; lia|]. destruct first; reflexivity.
  - assert (Hsk : List.length (skipn n data) = (List.length data - n)%nat) by apply skipn_length.
    rewrite Hrest in Hsk.
    assert (Hn1 : (1 <= n)%nat) by (unfold n, HDR; cbn [List.length] in Hsk; lia).
    destruct (IH false (c :: rest) ltac:(lia)) as (rs & Hs & Hcat & Hall & Hfull).
    rewrite Hs.
    exists (((if first then SOM else 0) + 0, firstn n data)%N :: rs).
    split; [reflexivity|]. cbn [map concat snd fst].
    split. { rewrite Hcat, <- Hrest. apply firstn_skipn. }
    split; [constructor; [cbn [snd]; lia|exact Hall]|].
    apply full_cons; [now apply full_nonnil in Hfull|]. split; [destruct first; reflexivity|exact Hfull].
Qed.

Lemma cut_verb_ok verb av : ~ In 32%N verb -> cut_verb (verb ++ 32%N :: av) = (verb, Some av).
Proof.
  induction verb as [|c v IH]; intros Hv; [reflexivity|]. cbn [app cut_verb].
  replace (N.eqb c 32) with false by (symmetry; apply N.eqb_neq; intros ->; apply Hv; now left).
  rewrite IH; [reflexivity|]. intros H; apply Hv; now right.
Qed.
Lemma cut_verb_bare verb : ~ In 32%N verb -> cut_verb verb = (verb, None).
Proof.
  induction verb as [|c v IH]; intros Hv; [reflexivity|]. cbn [cut_verb].
  replace (N.eqb c 32) with false by (symmetry; apply N.eqb_neq; intros ->; apply Hv; now left).
  rewrite IH; [reflexivity|]. intros H; apply Hv; now right.
Qed.

Definition verbs_ok : bool :=
  forallb (fun p => negb (existsb (N.eqb 32) (fst p)) && (snd p <? 4294967296)%N)%bool req_table.
Lemma req_table_nospace verb id : In (verb, id) req_table -> ~ In 32%N verb /\ (id < 4294967296)%N.
Proof.
  assert (H : verbs_ok = true) by (vm_compute; reflexivity).
  unfold verbs_ok in H. rewrite forallb_forall in H. intros Hin. specialize (H _ Hin).
  apply Bool.andb_true_iff in H. cbn [fst snd] in H. destruct H as (H1 & H2). split; [|lia].
  apply Bool.negb_true_iff in H1. intros H32.
  assert (existsb (N.eqb 32) verb = true) by (apply existsb_exists; exists 32%N; split; [exact H32|reflexivity]).
  congruence.
Qed.
Lemma attr_table_ids n id : In (n, id) attr_table -> (id < 4294967296)%N.
Proof.
  assert (H : forallb (fun p => (snd p <? 4294967296)%N) attr_table = true) by (vm_compute; reflexivity).
  rewrite forallb_forall in H. intros Hin. specialize (H _ Hin). cbn [snd] in H. lia.
Qed.

Lemma attr_bytes_wire a : attr_bytes a = wire a.
Proof.
  destruct a as [i [v|]]; unfold attr_bytes, wire, raw_attr; cbn [fst snd].
  - rewrite app_length. cbn [List.length]. reflexivity.
  - cbn [List.length]. now rewrite app_nil_r.
Qed.
Lemma flat_map_wire attrs : flat_map attr_bytes attrs = flat_map wire attrs.
Proof. apply flat_map_ext. apply attr_bytes_wire. Qed.

Definition raw_of (a : attr) : N * N * list byte :=
  (1%N, fst a, match snd a with None => [] | Some v => v ++ [0%N] end).
Lemma wire_raw_list attrs : flat_map wire attrs ++ be32 0 = raw_list (map raw_of attrs).
Proof.
  unfold raw_list. f_equal. induction attrs as [|a l IH]; [reflexivity|].
  cbn [flat_map map]. now rewrite IH.
Qed.
Lemma raw_of_ok attrs : small_attrs_ok (map raw_of attrs).
Proof.
  induction attrs as [|[i [v|]] l IH]; cbn [map raw_of small_attrs_ok fst snd]; auto;
    (split; [unfold two32; lia|split; [|exact IH]]); [right; eauto|now left].
Qed.

(** From attributes to the gathered and validated message. *)
Lemma attrs_roundtrip attrs no id max junk : (24 < max)%nat -> (no < 4294967296)%N ->
  (id < 4294967296)%N ->
  (N.of_nat (28 + List.length (flat_map wire attrs)) < 4294967296)%N ->
  let data := flat_map attr_bytes attrs ++ term_bytes in
  exists recs g h,
    split_loop (S (List.length data)) true max no id data = Some recs /\
    Forall (fun r => (List.length r <= max)%nat) recs /\ well_marked recs /\
    gather_all (msg_buf_new junk) recs = Some (rcs_of (List.length recs), g) /\
    message g = h ++ flat_map wire attrs ++ be32 0 /\
    List.length h = 24%nat /\ word32 h 16 = id /\ word32 h 12 = no /\
    validate (message g) = VAccept.
Proof.
  intros Hmax Hno Hid Hlen data.
  destruct (split_loop_ok max no id Hmax (S (List.length data)) true data ltac:(lia))
    as (rs & Hs & Hcat & Hall & Hfull).
  assert (Hdl : List.length data = (4 + List.length (flat_map wire attrs))%nat).
  { unfold data. rewrite flat_map_wire, app_length. cbn [List.length term_bytes be32]. lia. }
  assert (Hrl : Forall (fun r => (N.of_nat (24 + List.length (snd r)) < 4294967296)%N) rs).
  { apply Forall_forall. intros r Hr.
    assert (List.length (snd r) <= List.length (concat (map snd rs)))%nat.
    { clear -Hr. induction rs as [|x rs IH]; [destruct Hr|]. cbn [map concat]. rewrite app_length.
      destruct Hr as [->|Hr]; [lia|]. specialize (IH Hr). lia. }
    rewrite Hcat in *. lia. }
  destruct (gather_all_ok 1 no id junk rs Hfull Hrl) as (g & fl & Hg & Hmsg & _).
  rewrite Hcat in Hmsg.
  exists (map (enc 1 no id) rs), g, (hdr_bytes 1 fl no id (N.of_nat (24 + List.length data))).
  split; [exact Hs|]. split.
  { apply Forall_map. eapply Forall_impl; [|exact Hall]. intros r Hr. unfold enc.
    rewrite app_length, hdr_length. cbv beta in Hr. lia. }
  split; [now apply full_well_marked|]. split; [rewrite map_length; exact Hg|].
  assert (Hdata : data = flat_map wire attrs ++ be32 0) by (unfold data; now rewrite flat_map_wire).
  split; [rewrite Hmsg; f_equal; exact Hdata|]. split; [reflexivity|].
  split. { change (word32 _ 16) with (of_be32 (be32 id)). now apply of_be32_be32. }
  split. { change (word32 _ 12) with (of_be32 (be32 no)). now apply of_be32_be32. }
  rewrite Hmsg, Hdata, wire_raw_list.
  apply validate_complete; [reflexivity|apply raw_of_ok| |].
  - rewrite hdr_len_word by (rewrite <- wire_raw_list, <- Hdata; lia).
    now rewrite app_length, hdr_length.
  - rewrite app_length, hdr_length, <- wire_raw_list, <- Hdata. unfold two32. lia.
Qed.

(** ** The re-printed argument string *)

Definition no_nul (w : list byte) : Prop := ~ In 0%N w.

(** Own words and the others, in order. *)
Definition others (own : list byte -> bool) (ws : list (list byte)) : list (list byte) :=
  filter (fun w => negb (own (fst (name_value w)))) ws.
Definition owned (own : list byte -> bool) (ws : list (list byte)) : list (list byte) :=
  filter (fun w => own (fst (name_value w))) ws.
Definition spaced (ws : list (list byte)) : list byte := flat_map (fun w => w ++ [32%N]) ws.

(** The state of the scratch buffer: the first cnt-1 bytes of the text. *)
Definition tmp_ok (tmp : list byte) (cnt : nat) (acc : list byte) (len : nat) : Prop :=
  List.length tmp = len /\ List.length acc = cnt /\ (cnt <= len)%nat /\
  firstn (cnt - 1) tmp = firstn (cnt - 1) acc /\ ((cnt < len)%nat -> firstn cnt tmp = acc).

Lemma firstn_splice_le {A} k off (d m : list A) : (off <= length m)%nat -> (k <= off + length d)%nat ->
  firstn k (splice off d m) = firstn k (firstn off m ++ d).
Proof.
  intros Ho Hk. rewrite <- firstn_splice by exact Ho. rewrite firstn_firstn. f_equal. lia.
Qed.

Lemma fmt_at_ok tmp cnt acc len s : tmp_ok tmp cnt acc len -> s <> [] ->
  (cnt + List.length s <= len)%nat ->
  exists tmp', fmt_at tmp cnt s = Some (tmp', (cnt + List.length s)%nat) /\
    tmp_ok tmp' (cnt + List.length s) (acc ++ s) len.
Proof.
  intros (Hl & Ha & Hc & H1 & H2) Hs Hfit. unfold fmt_at. rewrite Hl.
  assert (Hs1 : (1 <= List.length s)%nat) by (destruct s; [congruence|cbn; lia]).
  replace (Nat.ltb len cnt) with false by (symmetry; apply Nat.ltb_ge; lia).
  replace (Nat.eqb (len - cnt) 0) with false by (symmetry; apply Nat.eqb_neq; lia).
  specialize (H2 ltac:(lia)).
  assert (Hfl : List.length (firstn (len - cnt - 1) s ++ [0%N]) =
                (Nat.min (len - cnt - 1) (List.length s) + 1)%nat)
    by (rewrite app_length, firstn_length; reflexivity).
  unfold store. rewrite Hfl, Hl.
  replace (Nat.leb _ len) with true by (symmetry; apply Nat.leb_le; lia).
  eexists. split; [reflexivity|].
  split. { rewrite splice_length; [exact Hl|rewrite Hfl; lia]. }
  split. { rewrite app_length. lia. }
  split; [lia|]. split.
  - rewrite firstn_splice_le by (rewrite ?Hfl; lia). rewrite H2.
    rewrite !firstn_app, Ha. f_equal.
    replace (cnt + List.length s - 1 - cnt)%nat with (List.length s - 1)%nat by lia.
    rewrite firstn_firstn, firstn_length.
    replace (List.length s - 1 - Nat.min (len - cnt - 1) (List.length s))%nat with 0%nat by lia.
    cbn [firstn]. rewrite app_nil_r. f_equal. lia.
  - intros Hlt. rewrite firstn_splice_le by (rewrite ?Hfl; lia). rewrite H2.
    rewrite !firstn_app, Ha.
    rewrite (firstn_all2 acc) by lia. f_equal.
    replace (cnt + List.length s - cnt)%nat with (List.length s) by lia.
    rewrite firstn_firstn, firstn_length.
    replace (List.length s - Nat.min (len - cnt - 1) (List.length s))%nat with 0%nat by lia.
    cbn [firstn]. rewrite app_nil_r. replace (Nat.min _ _) with (List.length s) by lia. apply firstn_all.
Qed.

Lemma nv_text w : match snd (name_value w) with
                  | Some v => fst (name_value w) ++ [61%N] ++ v ++ [32%N]
                  | None => fst (name_value w) ++ [32%N]
                  end = w ++ [32%N].
Proof.
  pose proof (nv_word_means w) as H. destruct (name_value w) as [n v]. cbn [fst snd] in *.
  inversion H; subst; [reflexivity|]. now rewrite <- app_assoc.
Qed.

Lemma mixed_loop_ok own nv len : forall ws tmp cnt text acc attrs,
  tmp_ok tmp cnt text len ->
  (nv = true -> Forall (fun w => snd (name_value w) <> None) (others own ws)) ->
  Forall2 word_attr (owned own ws) attrs ->
  (cnt + List.length (spaced (others own ws)) <= len)%nat ->
  exists tmp', mixed_loop own nv ws tmp cnt acc =
      POk (tmp', (cnt + List.length (spaced (others own ws)))%nat, acc ++ attrs) /\
    tmp_ok tmp' (cnt + List.length (spaced (others own ws))) (text ++ spaced (others own ws)) len.
Proof.
  induction ws as [|w ws IH]; intros tmp cnt text acc attrs Ht Hnv Hatt Hfit.
  - inversion Hatt; subst. exists tmp. cbn. rewrite Nat.add_0_r, !app_nil_r. split; [reflexivity|exact Ht].
  - cbn [mixed_loop]. unfold others, owned in *. cbn [filter] in *.
    pose proof (nv_text w) as Htext.
    destruct (name_value w) as [n v] eqn:Hn. cbn [fst snd] in *.
    destruct (own n) eqn:Hown; cbn [negb] in *.
    + inversion Hatt as [|? a ? attrs' Hw Hrest]; subst.
      destruct Hw as (n' & v' & id & Hm & Hin & ->).
      apply word_means_nv in Hm. rewrite Hn in Hm. injection Hm as <- <-.
      unfold add_attr. apply attr_str2id_spec in Hin. rewrite Hin.
      destruct (IH tmp cnt text (acc ++ [(id, v)]) attrs' Ht Hnv Hrest Hfit) as (tmp' & He & Ht').
      exists tmp'. rewrite He, <- app_assoc. split; [reflexivity|exact Ht'].
    + assert (Hsp : spaced (w :: filter (fun w => negb (own (fst (name_value w)))) ws)
              = (w ++ [32%N]) ++ spaced (filter (fun w => negb (own (fst (name_value w)))) ws))
        by reflexivity.
      rewrite Hsp in *. rewrite app_length in Hfit.
      assert (Htx : match v with
              | Some v0 => Some (n ++ [61%N] ++ v0 ++ [32%N])
              | None => if nv then None else Some (n ++ [32%N]) end = Some (w ++ [32%N])).
      { destruct v as [v|]; [now rewrite Htext|]. destruct nv; [|now rewrite Htext].
        specialize (Hnv eq_refl). inversion Hnv as [|? ? Hw _]; subst. rewrite Hn in Hw. cbn in Hw. congruence. }
      rewrite Htx.
      destruct (fmt_at_ok tmp cnt text len (w ++ [32%N]) Ht) as (tmp1 & Hf & Ht1).
      { destruct w; discriminate. } { lia. }
      rewrite Hf.
      destruct (IH tmp1 (cnt + List.length (w ++ [32%N]))%nat (text ++ w ++ [32%N]) acc attrs Ht1)
        as (tmp' & He & Ht').
      { intros E. specialize (Hnv E). now inversion Hnv. }
      { exact Hatt. } { lia. }
      exists tmp'. rewrite He. rewrite (app_length (w ++ [32%N])), !Nat.add_assoc.
      rewrite <- (app_assoc text) in Ht'. split; [reflexivity|exact Ht'].
Qed.

Lemma spaced_join ws : ws <> [] -> spaced ws = join ws ++ [32%N].
Proof.
  induction ws as [|w ws IH]; intros Hne; [congruence|]. destruct ws as [|w2 ws].
  - cbn. now rewrite app_nil_r.
  - specialize (IH ltac:(discriminate)). change (spaced (w :: w2 :: ws)) with ((w ++ [32%N]) ++ spaced (w2 :: ws)).
    rewrite IH. change (join (w :: w2 :: ws)) with (w ++ 32%N :: join (w2 :: ws)).
    rewrite <- !app_assoc. reflexivity.
Qed.

Lemma cstr_ok s rest : no_nul s -> cstr (s ++ 0%N :: rest) = Some s.
Proof.
  unfold no_nul. induction s as [|c s IH]; intros H; [reflexivity|]. cbn [app cstr].
  replace (N.eqb c 0) with false by (symmetry; apply N.eqb_neq; intros ->; apply H; now left).
  rewrite IH; [reflexivity|]. intros Hi; apply H; now right.
Qed.

Lemma mixed_tail_ok guarded tmp cnt acc ws len : ws <> [] -> no_nul (join ws) ->
  cnt = List.length (spaced ws) -> tmp_ok tmp cnt (spaced ws) len ->
  mixed_tail guarded tmp cnt acc = POk (acc ++ [(ATTR_STRING, Some (join ws))]).
Proof.
  intros Hne Hnn Hcnt (Hl & _ & Hc & H1 & _). unfold mixed_tail.
  rewrite spaced_join in Hcnt by exact Hne. rewrite app_length in Hcnt. cbn [List.length] in Hcnt.
  replace (Nat.eqb cnt 0) with false by (symmetry; apply Nat.eqb_neq; lia).
  rewrite Bool.andb_false_r. unfold store. cbn [List.length].
  replace (Nat.leb _ _) with true by (symmetry; apply Nat.leb_le; lia).
  unfold splice. rewrite H1, spaced_join by exact Hne.
  replace (cnt - 1)%nat with (List.length (join ws)) by lia.
  rewrite firstn_app, firstn_all, Nat.sub_diag. cbn [firstn]. rewrite app_nil_r.
  cbn [app]. rewrite cstr_ok by exact Hnn. reflexivity.
Qed.

Lemma parse_mixed_ok own nv guarded len ws attrs :
  (nv = true -> Forall (fun w => snd (name_value w) <> None) (others own ws)) ->
  Forall2 word_attr (owned own ws) attrs -> others own ws <> [] ->
  no_nul (join (others own ws)) ->
  (List.length (spaced (others own ws)) <= len)%nat ->
  parse_mixed own nv guarded len ws = POk (attrs ++ [(ATTR_STRING, Some (join (others own ws)))]).
Proof.
  intros Hnv Hatt Hne Hnn Hfit. unfold parse_mixed.
  destruct (mixed_loop_ok own nv len ws (repeat 0%N len) 0 [] [] attrs) as (tmp & He & Ht).
  { split; [apply repeat_length|]. cbn. repeat split; lia. }
  { exact Hnv. } { exact Hatt. } { exact Hfit. }
  rewrite He. cbn [app Nat.add] in *. eapply mixed_tail_ok; eauto.
Qed.

(** Room: the words and one separator between them fit in the line. *)
Lemma words_room l ws : words l ws -> (List.length (spaced ws) <= List.length l + 1)%nat.
Proof.
  intros H. apply tokens_words in H. subst ws. unfold tokens.
  enough (Hg : forall l cur, (List.length (spaced (tokens_aux cur l)) <=
      List.length cur + List.length l + 1)%nat) by (specialize (Hg l []); cbn in *; lia).
  clear l. induction l as [|c l IH]; intros cur; cbn [tokens_aux].
  - destruct cur as [|x cur]; [cbn; lia|]. cbn [spaced flat_map]. rewrite !app_length. cbn [List.length]. lia.
  - destruct (is_delim c).
    + specialize (IH []). destruct cur as [|x cur]; [cbn [List.length] in *; lia|].
      change (spaced ((x :: cur) :: tokens_aux [] l)) with (((x :: cur) ++ [32%N]) ++ spaced (tokens_aux [] l)).
      rewrite !app_length. cbn [List.length] in *. lia.
    + specialize (IH (cur ++ [c])). rewrite app_length in IH. cbn [List.length] in *. lia.
Qed.

Lemma spaced_split own ws :
  List.length (spaced ws) =
  (List.length (spaced (others own ws)) + List.length (spaced (owned own ws)))%nat.
Proof.
  induction ws as [|w ws IH]; [reflexivity|]. unfold others, owned in *. cbn [filter].
  change (spaced (w :: ws)) with ((w ++ [32%N]) ++ spaced ws). rewrite app_length, IH.
  destruct (own (fst (name_value w))); cbn [negb].
  - match goal with |- context [spaced (w :: ?x)] =>
      change (spaced (w :: x)) with ((w ++ [32%N]) ++ spaced x) end. rewrite (app_length (w ++ [32%N])). lia.
  - match goal with |- context [spaced (w :: ?x)] =>
      change (spaced (w :: x)) with ((w ++ [32%N]) ++ spaced x) end. rewrite (app_length (w ++ [32%N])). lia.
Qed.

Lemma join_no_nul ws : Forall no_nul ws -> no_nul (join ws).
Proof.
  induction 1 as [|w ws Hw Hws IH]; [intros []|]. destruct ws as [|w2 ws]; [exact Hw|].
  change (join (w :: w2 :: ws)) with (w ++ 32%N :: join (w2 :: ws)). unfold no_nul in *.
  rewrite in_app_iff. cbn [In]. intros [H|[H|H]]; [auto|discriminate|auto].
Qed.
Lemma words_no_nul l ws : words l ws -> no_nul l -> Forall no_nul ws.
Proof.
  unfold no_nul. induction 1 as [d Hd|d w l ws Hd Hne Hw Hb Hl IH]; intros H; constructor.
  - intros Hi. apply H. rewrite !in_app_iff. auto.
  - apply IH. intros Hi. apply H. rewrite !in_app_iff. auto.
Qed.
Lemma Forall_filter' {A} (P : A -> Prop) f (l : list A) : Forall P l -> Forall P (filter f l).
Proof.
  rewrite !Forall_forall. intros H x Hx. apply filter_In in Hx. apply H. tauto.
Qed.

(** ** Specification-level partition of the words *)

Lemma parted_own P own ws a b : parted P ws a b ->
  (forall n, own n = true <-> P n) -> owned own ws = a /\ others own ws = b.
Proof.
  intros H Ho. unfold owned, others.
  induction H as [|w n v ws a b Hm Hp H [IH1 IH2]|w n v ws a b Hm Hp H [IH1 IH2]]; [now split| |];
    cbn [filter]; rewrite (word_means_nv _ _ _ Hm); cbn [fst].
  - apply Ho in Hp. rewrite Hp. cbn [negb]. split; congruence.
  - assert (own n = false) as -> by (destruct (own n) eqn:E; [exfalso; apply Hp; now apply Ho|reflexivity]).
    cbn [negb]. split; congruence.
Qed.

Lemma prefix4_spec s n : List.length (firstn 4 s) = 4%nat ->
  prefix4 s n = true <-> exists t, n = firstn 4 s ++ t.
Proof.
  intros Hl. unfold prefix4. destruct (strcmp (firstn 4 n) (firstn 4 s)) eqn:E.
  - apply strcmp_eq in E. split; [|reflexivity]. intros _. exists (skipn 4 n).
    rewrite <- E. symmetry. apply firstn_skipn.
  - split; [discriminate|]. intros (t & ->). rewrite firstn_app, Hl, Nat.sub_diag in E.
    rewrite firstn_firstn in E. cbn [Nat.min firstn] in E. rewrite app_nil_r, strcmp_refl in E. discriminate.
  - split; [discriminate|]. intros (t & ->). rewrite firstn_app, Hl, Nat.sub_diag in E.
    rewrite firstn_firstn in E. cbn [Nat.min firstn] in E. rewrite app_nil_r, strcmp_refl in E. discriminate.
Qed.

Lemma streq_spec a b : streq a b = true <-> a = b.
Proof.
  unfold streq. pose proof (strcmp_eq a b) as H. destruct (strcmp a b); split; intros X; try discriminate; try tauto.
  - apply H in X. discriminate.
  - apply H in X. discriminate.
Qed.

(** Room in the scratch buffer once one word has been taken out. *)
Lemma mixed_room own av ws : words av ws -> owned own ws <> [] ->
  (List.length (spaced (others own ws)) <= List.length av)%nat.
Proof.
  intros Hw Hne. pose proof (words_room _ _ Hw) as H. rewrite (spaced_split own) in H.
  destruct (owned own ws) as [|w l]; [congruence|].
  change (spaced (w :: l)) with ((w ++ [32%N]) ++ spaced l) in H. rewrite !app_length in H. cbn [List.length] in H. lia.
Qed.
Lemma mixed_room_any own av ws : words av ws ->
  (List.length (spaced (others own ws)) <= List.length av + 1)%nat.
Proof.
  intros Hw. pose proof (words_room _ _ Hw) as H. rewrite (spaced_split own) in H. lia.
Qed.

Lemma delivered_of_attrs verb av id attrs no max junk :
  In (verb, id) req_table -> parse_attrs id av = POk attrs -> (24 < max)%nat ->
  (no < 4294967296)%N -> (N.of_nat (28 + List.length (flat_map wire attrs)) < 4294967296)%N ->
  delivered (verb ++ 32%N :: av) no max junk id attrs.
Proof.
  intros Hin Hpa Hmax Hno Hlen. destruct (req_table_nospace _ _ Hin) as (Hns & Hid).
  destruct (attrs_roundtrip attrs no id max junk Hmax Hno Hid Hlen)
    as (recs & g & h & Hs & Hall & Hwm & Hg & Hmsg & Hh & H16 & H12 & Hv).
  exists recs, (rcs_of (List.length recs)), g, h. split.
  - unfold parse_config_str.
    replace (Nat.ltb max HDR) with false by (symmetry; apply Nat.ltb_ge; unfold HDR; lia).
    rewrite cut_verb_ok by exact Hns. apply req_str2id_spec in Hin. rewrite Hin, Hpa.
    cbv zeta in Hs. cbv zeta. rewrite Hs. reflexivity.
  - repeat (split; [assumption || reflexivity|]). assumption.
Qed.

(** A guarded parser given only words of its own sends just those. *)
Lemma parse_mixed_own own nv len ws attrs :
  Forall2 word_attr (owned own ws) attrs -> others own ws = [] ->
  parse_mixed own nv true len ws = POk attrs.
Proof.
  intros Hatt Hne. unfold parse_mixed.
  destruct (mixed_loop_ok own nv len ws (repeat 0%N len) 0 [] [] attrs) as (tmp & He & Ht).
  { split; [apply repeat_length|]. cbn. repeat split; lia. }
  { intros _. rewrite Hne. constructor. } { exact Hatt. } { rewrite Hne. cbn. lia. }
  rewrite He. rewrite Hne. reflexivity.
Qed.
