(** Property theorems for C16, C17, C18 and C41 (configuration messages). *)
From Verif Require Import Bytes M_Request M_Parse S_Request L_Request L_Validate L_Parse.
From Coq Require Import String.
From Coq Require Import List.
Import ListNotations.
Local Open Scope string_scope.
Local Open Scope list_scope.

(** * C16 *)

(** Any pieces, any transport maximum above the header size, any junk in the
    freshly allocated buffers of sender and receiver. *)
Theorem message_fragmentation :
  forall junk junk2 ty msg_no id pieces,
    (24 < List.length junk)%nat -> pieces <> [] ->
    (N.of_nat (24 + List.length (concat pieces)) < 4294967296)%N ->
    exists recs b rcs g h,
      send_all (msg_buf_new junk) ty msg_no id (mark pieces) = Some (recs, b) /\
      Forall (fun r => (List.length r <= List.length junk)%nat) recs /\
      well_marked recs /\
      gather_all (msg_buf_new junk2) recs = Some (rcs, g) /\
      rcs = repeat EBUSY (List.length recs - 1) ++ [0%Z] /\
      message g = h ++ concat pieces /\ List.length h = 24%nat /\
      rec_len h = N.of_nat (24 + List.length (concat pieces)).
Proof.
  intros junk junk2 ty no id ps HL Hne Hlen.
  destruct (send_all_ok ty no id junk ps HL Hne) as (rs & b & Hs & Hcat & Hall & Hfull).
  assert (Hrl : Forall (fun r => (N.of_nat (24 + List.length (snd r)) < 4294967296)%N) rs).
  { apply Forall_forall. intros r Hr.
    assert (List.length (snd r) <= List.length (concat (map snd rs)))%nat.
    { clear -Hr. induction rs as [|x rs IH]; [destruct Hr|]. cbn [map concat]. rewrite app_length.
      destruct Hr as [->|Hr]; [lia|]. specialize (IH Hr). lia. }
    rewrite Hcat in *. lia. }
  destruct (gather_all_ok ty no id junk2 rs Hfull Hrl) as (g & fl & Hg & Hmsg & _).
  exists (map (enc ty no id) rs), b, (rcs_of (List.length rs)), g,
    (hdr_bytes ty fl no id (N.of_nat (24 + List.length (concat ps)))).
  split; [exact Hs|]. split.
  { apply Forall_map. eapply Forall_impl; [|exact Hall]. intros r Hr. unfold enc.
    rewrite app_length, hdr_length. cbv beta in Hr. lia. }
  split; [now apply full_well_marked|]. split; [exact Hg|].
  split; [rewrite map_length; reflexivity|]. rewrite Hcat in Hmsg. split; [exact Hmsg|].
  split; [reflexivity|]. rewrite <- (app_nil_r (hdr_bytes _ _ _ _ _)). now apply hdr_len_word.
Qed.
Print Assumptions message_fragmentation.

(** Three pieces (the middle one empty) over a 27-byte transport: four records. *)
Example message_fragmentation_case :
  match send_all (msg_buf_new (repeat 7%N 27)) 1 5 2 (mark [[1; 2; 3; 4]; []; [5; 6]]%N) with
  | Some (rs, _) => map (fun r => (rec_flags r, skipn 24 r)) rs
  | None => []
  end = [(1, [1; 2; 3]); (0, [4]); (2, [5; 6])]%N.
Proof. vm_compute. reflexivity. Qed.

(** * C17 *)

(** Whatever a peer sends, an accepted message is well formed. *)
Theorem accepted_request_well_formed :
  forall m, Forall is_byte m -> rec_len m = N.of_nat (List.length m) ->
    validate m = VAccept -> well_formed m.
Proof. exact validate_sound. Qed.
Print Assumptions accepted_request_well_formed.

(** Converse, so that acceptance is not vacuous: a header followed by exactly a
    terminated attribute list is accepted. *)
Theorem well_formed_request_accepted :
  forall h l, List.length h = 24%nat -> small_attrs_ok l ->
    rec_len (h ++ raw_list l) = N.of_nat (List.length (h ++ raw_list l)) ->
    (N.of_nat (List.length (h ++ raw_list l)) < two32)%N ->
    validate (h ++ raw_list l) = VAccept.
Proof. exact validate_complete. Qed.
Print Assumptions well_formed_request_accepted.

(** C17, last clause, partial: validation reads only bytes of the message when
    no attribute length met on the way makes the 32-bit offset wrap.  Missing:
    messages with such a length, see [validation_reads_refuted]. *)
Theorem validation_reads_partial :
  forall m, Forall is_byte m -> (24 <= List.length m)%nat ->
    rec_len m = N.of_nat (List.length m) -> no_wrap m ->
    validate m = VAccept \/ validate m = VReject.
Proof. exact validate_reads. Qed.
Print Assumptions validation_reads_partial.

(** A 40-byte message whose first attribute claims 2^32-12 value bytes. *)
Definition wrap_msg : list byte :=
  hdr_bytes 1 3 1 256 40 ++ be32 1 ++ be32 1 ++ be32 4294967284 ++ be32 0.
Theorem validation_reads_refuted :
  exists m, Forall is_byte m /\ (24 <= List.length m)%nat /\
    rec_len m = N.of_nat (List.length m) /\ validate m = VUndef.
Proof.
  exists wrap_msg. split; [|split; [cbn; lia|split; vm_compute; reflexivity]].
  unfold wrap_msg, hdr_bytes. rewrite !Forall_app. repeat split; apply be32_bytes.
Qed.
Print Assumptions validation_reads_refuted.

(** A message meeting the hypotheses of [validation_reads_partial] and of
    [accepted_request_well_formed]: two attributes. *)
Definition small_msg : list byte :=
  hdr_bytes 1 3 1 256 54 ++ raw_attr 1 1 [97; 0]%N ++ raw_attr 1 9 [] ++ be32 0.
Example small_msg_accepted :
  Forall is_byte small_msg /\ rec_len small_msg = N.of_nat (List.length small_msg) /\
  no_wrap small_msg /\ validate small_msg = VAccept.
Proof.
  split; [|split; [vm_compute; reflexivity|split; [|vm_compute; reflexivity]]].
  - unfold small_msg, hdr_bytes, raw_attr. rewrite !Forall_app.
    repeat split; try apply be32_bytes; repeat constructor; unfold is_byte; lia.
  - assert (H : forall p, attr_at small_msg p -> p = 24%nat \/ p = 38%nat \/ p = 50%nat).
    { induction 1 as [|p H [->|[->| ->]] Hw Hl]; [auto| | |].
      - vm_compute. auto.
      - vm_compute. auto.
      - exfalso. apply Hw. vm_compute. reflexivity. }
    intros p Hp _ _. destruct (H p Hp) as [->|[->| ->]]; vm_compute; reflexivity.
Qed.

(** * C18 *)

(** Every verb except the seven with a syntax of their own; every line, every
    transport maximum above the header size. *)
Theorem config_line_delivered :
  forall verb id av ws attrs msg_no max junk,
    In (verb, id) req_table -> ~ In id special_ids ->
    words av ws -> Forall2 word_attr ws attrs ->
    (24 < max)%nat -> (msg_no < 4294967296)%N ->
    (N.of_nat (28 + List.length (flat_map wire attrs)) < 4294967296)%N ->
    delivered (verb ++ 32%N :: av) msg_no max junk id attrs.
Proof.
  intros verb id av ws attrs no max junk Hin Hsp Hw Hatt Hmax Hno Hlen.
  apply delivered_of_attrs; auto. unfold parse_attrs. rewrite (tokens_words _ _ Hw).
  assert (Hne : forall k, In k special_ids -> N.eqb id k = false).
  { intros k Hk. apply N.eqb_neq. intros ->. contradiction. }
  rewrite (Hne PLUGN_CONFIG), (Hne ENV), (Hne LISTEN), (Hne AUTH_ADD), (Hne CMDLINE),
    (Hne BRIDGE_ADD), (Hne DEFAULT_AUTH) by (unfold special_ids; cbn; tauto).
  exact (parse_generic_ok ws attrs [] Hatt).
Qed.
Print Assumptions config_line_delivered.

(** A line with an unknown attribute name is refused with EINVAL, one with an
    unknown verb with ENOSYS. *)
Theorem config_line_unknown_name :
  forall verb id av ws msg_no max,
    In (verb, id) req_table -> ~ In id special_ids -> (24 <= max)%nat ->
    words av ws -> (exists w, In w ws /\ forall a, ~ word_attr w a) ->
    parse_config_str (verb ++ 32%N :: av) msg_no max = PErr EINVAL.
Proof.
  intros verb id av ws no max Hin Hsp Hmax Hw Hbad. unfold parse_config_str.
  replace (Nat.ltb max HDR) with false by (symmetry; apply Nat.ltb_ge; unfold HDR; lia).
  destruct (req_table_nospace _ _ Hin) as (Hns & _). rewrite cut_verb_ok by exact Hns.
  apply req_str2id_spec in Hin. rewrite Hin. unfold parse_attrs. rewrite (tokens_words _ _ Hw).
  assert (Hne : forall k, In k special_ids -> N.eqb id k = false).
  { intros k Hk. apply N.eqb_neq. intros ->. contradiction. }
  rewrite (Hne PLUGN_CONFIG), (Hne ENV), (Hne LISTEN), (Hne AUTH_ADD), (Hne CMDLINE),
    (Hne BRIDGE_ADD), (Hne DEFAULT_AUTH) by (unfold special_ids; cbn; tauto).
  rewrite parse_generic_err by exact Hbad. reflexivity.
Qed.
Print Assumptions config_line_unknown_name.

Theorem config_line_unknown_verb :
  forall verb rest msg_no max, (24 <= max)%nat -> ~ In 32%N verb ->
    (forall id, ~ In (verb, id) req_table) ->
    (rest = [] \/ exists av, rest = 32%N :: av) ->
    parse_config_str (verb ++ rest) msg_no max = PErr ENOSYS.
Proof.
  intros verb rest no max Hmax Hns Hno Hr. unfold parse_config_str.
  replace (Nat.ltb max HDR) with false by (symmetry; apply Nat.ltb_ge; unfold HDR; lia).
  assert (Hid : req_str2id verb = None).
  { destruct (req_str2id verb) as [id|] eqn:E; [|reflexivity].
    apply req_str2id_spec in E. now apply Hno in E. }
  destruct Hr as [->|(av & ->)].
  - rewrite app_nil_r, cut_verb_bare, Hid by exact Hns. reflexivity.
  - rewrite cut_verb_ok, Hid by exact Hns. reflexivity.
Qed.
Print Assumptions config_line_unknown_verb.

(** Plugin configuration lines: words whose name begins with "name" are sent as
    attributes, the others as one string in which they are joined by single
    spaces.  Partial: needs at least one word of each kind; see
    [config_plugin_refuted]. *)
Theorem config_plugin_delivered_partial :
  forall av ws own rest attrs msg_no max junk,
    words av ws -> ~ In 0%N av ->
    parted (fun n => exists t, n = s2b "name" ++ t) ws own rest -> own <> [] -> rest <> [] ->
    Forall2 word_attr own attrs ->
    (24 < max)%nat -> (msg_no < 4294967296)%N ->
    (N.of_nat (28 + List.length (flat_map wire (attrs ++ [(16%N, Some (join rest))]))) < 4294967296)%N ->
    delivered (s2b "config" ++ 32%N :: av) msg_no max junk 1287 (attrs ++ [(16%N, Some (join rest))]).
Proof.
  intros av ws own rest attrs no max junk Hw Hnn Hp Ho Hr Hatt Hmax Hno Hlen.
  assert (Hspec : forall n, prefix4 (s2b "name") n = true <-> exists t, n = s2b "name" ++ t).
  { intros n. exact (prefix4_spec (s2b "name") n eq_refl). }
  destruct (parted_own _ _ _ _ _ Hp Hspec) as (Ew & Eo).
  apply delivered_of_attrs; auto.
  - apply req_str2id_spec. vm_compute. reflexivity.
  - unfold parse_attrs. cbn [N.eqb Pos.eqb PLUGN_CONFIG]. rewrite (tokens_words _ _ Hw).
    pose proof (words_no_nul _ _ Hw Hnn) as Hnw.
    rewrite <- Eo. apply parse_mixed_ok; [discriminate|now rewrite Ew|now rewrite Eo| |].
    + apply join_no_nul. unfold others. now apply Forall_filter'.
    + apply mixed_room; [exact Hw|now rewrite Ew].
Qed.
Print Assumptions config_plugin_delivered_partial.

(** Environment lines: the words are sent as one string.  Partial: a line
    without any word is undefined, see [config_env_refuted]. *)
Theorem config_env_delivered_partial :
  forall av ws msg_no max junk,
    words av ws -> ~ In 0%N av -> ws <> [] ->
    (24 < max)%nat -> (msg_no < 4294967296)%N ->
    (N.of_nat (28 + List.length (flat_map wire [(16%N, Some (join ws))])) < 4294967296)%N ->
    delivered (s2b "env" ++ 32%N :: av) msg_no max junk 1541 [(16%N, Some (join ws))].
Proof.
  intros av ws no max junk Hw Hnn Hne Hmax Hno Hlen.
  apply delivered_of_attrs; auto.
  - apply req_str2id_spec. vm_compute. reflexivity.
  - unfold parse_attrs. cbn [N.eqb Pos.eqb PLUGN_CONFIG ENV]. rewrite (tokens_words _ _ Hw).
    pose proof (words_no_nul _ _ Hw Hnn) as Hnw.
    assert (Eo : others (fun _ => false) ws = ws).
    { unfold others. clear. induction ws as [|w ws IH]; [reflexivity|]. cbn [filter negb] in *. now rewrite IH. }
    rewrite <- Eo at 2.
    apply (parse_mixed_ok (fun _ => false) false false (List.length av + 1) ws []);
      [discriminate| |now rewrite Eo| |].
    + unfold owned. clear. induction ws as [|w ws IH]; [constructor|exact IH].
    + rewrite Eo. now apply join_no_nul.
    + now apply mixed_room_any.
Qed.
Print Assumptions config_env_delivered_partial.

(** Default authentication lines (words whose name begins with "plug" become
    attributes).  Partial as for plugin lines; see [config_default_auth_refuted]. *)
Theorem config_default_auth_delivered_partial :
  forall av ws own rest attrs msg_no max junk,
    words av ws -> ~ In 0%N av ->
    parted (fun n => exists t, n = s2b "plug" ++ t) ws own rest -> own <> [] -> rest <> [] ->
    Forall2 word_attr own attrs ->
    (24 < max)%nat -> (msg_no < 4294967296)%N ->
    (N.of_nat (28 + List.length (flat_map wire (attrs ++ [(16%N, Some (join rest))]))) < 4294967296)%N ->
    delivered (s2b "default_auth" ++ 32%N :: av) msg_no max junk 1558 (attrs ++ [(16%N, Some (join rest))]).
Proof.
  intros av ws own rest attrs no max junk Hw Hnn Hp Ho Hr Hatt Hmax Hno Hlen.
  assert (Hspec : forall n, prefix4 (s2b "plugin") n = true <-> exists t, n = s2b "plug" ++ t).
  { intros n. exact (prefix4_spec (s2b "plugin") n eq_refl). }
  destruct (parted_own _ _ _ _ _ Hp Hspec) as (Ew & Eo).
  apply delivered_of_attrs; auto.
  - apply req_str2id_spec. vm_compute. reflexivity.
  - unfold parse_attrs. cbn [N.eqb Pos.eqb PLUGN_CONFIG ENV LISTEN AUTH_ADD CMDLINE BRIDGE_ADD DEFAULT_AUTH].
    rewrite (tokens_words _ _ Hw).
    pose proof (words_no_nul _ _ Hw Hnn) as Hnw.
    rewrite <- Eo. apply parse_mixed_ok; [discriminate|now rewrite Ew|now rewrite Eo| |].
    + apply join_no_nul. unfold others. now apply Forall_filter'.
    + apply mixed_room; [exact Hw|now rewrite Ew].
Qed.
Print Assumptions config_default_auth_delivered_partial.

(** Option lines (daemon command-line options): the text after the verb, unchanged. *)
Theorem config_option_delivered :
  forall av msg_no max junk, (24 < max)%nat -> (msg_no < 4294967296)%N ->
    (N.of_nat (28 + List.length (flat_map wire [(16%N, Some av)])) < 4294967296)%N ->
    delivered (s2b "option" ++ 32%N :: av) msg_no max junk 1554 [(16%N, Some av)].
Proof.
  intros av no max junk Hmax Hno Hlen. apply delivered_of_attrs; auto.
  - apply req_str2id_spec. vm_compute. reflexivity.
Qed.
Print Assumptions config_option_delivered.

(** Bridge lines: the words, then type=bridge (attribute 5). *)
Theorem config_bridge_delivered :
  forall av ws attrs msg_no max junk,
    words av ws -> Forall2 word_attr ws attrs ->
    (24 < max)%nat -> (msg_no < 4294967296)%N ->
    (N.of_nat (28 + List.length (flat_map wire (attrs ++ [(5%N, Some (s2b "bridge"))]))) < 4294967296)%N ->
    delivered (s2b "bridge_add" ++ 32%N :: av) msg_no max junk 268 (attrs ++ [(5%N, Some (s2b "bridge"))]).
Proof.
  intros av ws attrs no max junk Hw Hatt Hmax Hno Hlen. apply delivered_of_attrs; auto.
  - apply req_str2id_spec. vm_compute. reflexivity.
  - unfold parse_attrs. cbn [N.eqb Pos.eqb PLUGN_CONFIG ENV LISTEN AUTH_ADD CMDLINE BRIDGE_ADD].
    rewrite (tokens_words _ _ Hw), (parse_generic_ok _ _ [] Hatt). cbn [app]. unfold add_attr.
    replace (attr_str2id (s2b "type")) with (Some 5%N) by (vm_compute; reflexivity). reflexivity.
Qed.
Print Assumptions config_bridge_delivered.

(** Listen lines: words whose name begins with xprt, port, host or auth become
    attributes, the others (if any) one string.  Partial: needs at least one word
    of the first kind, see [config_listen_refuted]. *)
Definition listen_name (n : list byte) : Prop :=
  exists p t, In p [s2b "xprt"; s2b "port"; s2b "host"; s2b "auth"] /\ n = p ++ t.
Definition with_rest (attrs : list attr) (rest : list (list byte)) : list attr :=
  attrs ++ match rest with [] => [] | _ => [(16%N, Some (join rest))] end.
Theorem config_listen_delivered_partial :
  forall av ws own rest attrs msg_no max junk,
    words av ws -> ~ In 0%N av -> parted listen_name ws own rest -> own <> [] ->
    Forall2 word_attr own attrs ->
    (24 < max)%nat -> (msg_no < 4294967296)%N ->
    (N.of_nat (28 + List.length (flat_map wire (with_rest attrs rest))) < 4294967296)%N ->
    delivered (s2b "listen" ++ 32%N :: av) msg_no max junk 1552 (with_rest attrs rest).
Proof.
  intros av ws own rest attrs no max junk Hw Hnn Hp Ho Hatt Hmax Hno Hlen.
  set (f := fun n => (prefix4 (s2b "xprt"%string) n || prefix4 (s2b "port"%string) n
                      || prefix4 (s2b "host"%string) n || prefix4 (s2b "auth"%string) n)%bool).
  assert (Hspec : forall n, f n = true <-> listen_name n).
  { intros n. unfold f, listen_name. rewrite !Bool.orb_true_iff.
    rewrite (prefix4_spec (s2b "xprt") n eq_refl), (prefix4_spec (s2b "port") n eq_refl),
      (prefix4_spec (s2b "host") n eq_refl), (prefix4_spec (s2b "auth") n eq_refl).
    split.
    - intros [[[(t & H)|(t & H)]|(t & H)]|(t & H)]; eexists; exists t; (split; [|exact H]); cbn; tauto.
    - intros (p & t & Hin & ->). cbn [In] in Hin.
      destruct Hin as [<-|[<-|[<-|[<-|[]]]]]; [left; left; left|left; left; right|left; right|right]; exists t; reflexivity. }
  destruct (parted_own _ _ _ _ _ Hp Hspec) as (Ew & Eo).
  apply delivered_of_attrs; auto.
  - apply req_str2id_spec. vm_compute. reflexivity.
  - unfold parse_attrs. cbn [N.eqb Pos.eqb PLUGN_CONFIG ENV LISTEN]. rewrite (tokens_words _ _ Hw).
    fold f. unfold with_rest. destruct rest as [|r rest].
    + rewrite app_nil_r. apply parse_mixed_own; [now rewrite Ew|exact Eo].
    + pose proof (words_no_nul _ _ Hw Hnn) as Hnw. rewrite <- Eo.
      apply parse_mixed_ok; [discriminate|now rewrite Ew|rewrite Eo; discriminate| |].
      * apply join_no_nul. unfold others. now apply Forall_filter'.
      * apply mixed_room; [exact Hw|now rewrite Ew].
Qed.
Print Assumptions config_listen_delivered_partial.

(** Authentication lines: name and plugin become attributes, the other words (if
    any) one string.  Partial: needs name or plugin, and a value in every other
    word, see [config_auth_add_refuted]. *)
Theorem config_auth_add_delivered_partial :
  forall av ws own rest attrs msg_no max junk,
    words av ws -> ~ In 0%N av ->
    parted (fun n => n = s2b "name" \/ n = s2b "plugin") ws own rest -> own <> [] ->
    Forall (fun w => exists n v, word_means w n (Some v)) rest ->
    Forall2 word_attr own attrs ->
    (24 < max)%nat -> (msg_no < 4294967296)%N ->
    (N.of_nat (28 + List.length (flat_map wire (with_rest attrs rest))) < 4294967296)%N ->
    delivered (s2b "auth_add" ++ 32%N :: av) msg_no max junk 2560 (with_rest attrs rest).
Proof.
  intros av ws own rest attrs no max junk Hw Hnn Hp Ho Hval Hatt Hmax Hno Hlen.
  set (f := fun n => (streq n (s2b "name"%string) || streq n (s2b "plugin"%string))%bool).
  assert (Hspec : forall n, f n = true <-> (n = s2b "name" \/ n = s2b "plugin")).
  { intros n. unfold f. rewrite Bool.orb_true_iff, !streq_spec. tauto. }
  destruct (parted_own _ _ _ _ _ Hp Hspec) as (Ew & Eo).
  apply delivered_of_attrs; auto.
  - apply req_str2id_spec. vm_compute. reflexivity.
  - unfold parse_attrs. cbn [N.eqb Pos.eqb PLUGN_CONFIG ENV LISTEN AUTH_ADD]. rewrite (tokens_words _ _ Hw).
    fold f. unfold with_rest. destruct rest as [|r rest].
    + rewrite app_nil_r. apply parse_mixed_own; [now rewrite Ew|exact Eo].
    + pose proof (words_no_nul _ _ Hw Hnn) as Hnw. rewrite <- Eo.
      apply parse_mixed_ok; [|now rewrite Ew|rewrite Eo; discriminate| |].
      * intros _. rewrite Eo. eapply Forall_impl; [|exact Hval].
        intros w (n & v & Hm). rewrite (word_means_nv _ _ _ Hm). discriminate.
      * apply join_no_nul. unfold others. now apply Forall_filter'.
      * apply mixed_room; [exact Hw|now rewrite Ew].
Qed.
Print Assumptions config_auth_add_delivered_partial.

Example config_listen_case :
  words (s2b "xprt=sock port=411 conf=a") [s2b "xprt=sock"; s2b "port=411"; s2b "conf=a"] /\
  parted listen_name [s2b "xprt=sock"; s2b "port=411"; s2b "conf=a"] [s2b "xprt=sock"; s2b "port=411"] [s2b "conf=a"].
Proof.
  split; [exact (words_tokens (s2b "xprt=sock port=411 conf=a"))|].
  apply (pt_own _ _ (s2b "xprt") (Some (s2b "sock"))).
  { apply (wm_av (s2b "xprt") (s2b "sock")). cbn. intuition discriminate. }
  { exists (s2b "xprt"), []. split; [now left|reflexivity]. }
  apply (pt_own _ _ (s2b "port") (Some (s2b "411"))).
  { apply (wm_av (s2b "port") (s2b "411")). cbn. intuition discriminate. }
  { exists (s2b "port"), []. split; [now right; left|reflexivity]. }
  apply (pt_other _ _ (s2b "conf") (Some (s2b "a"))); [| |constructor].
  { apply (wm_av (s2b "conf") (s2b "a")). cbn. intuition discriminate. }
  intros (p & t & Hin & H). cbn [In] in Hin. destruct Hin as [<-|[<-|[<-|[<-|[]]]]]; cbn in H; discriminate.
Qed.

(** A keyword without value in an authentication line is printed through a NULL
    pointer. *)
Theorem config_auth_add_refuted :
  exists av, words av [s2b "name=a"; s2b "quiet"] /\
    parse_config_str (s2b "auth_add" ++ 32%N :: av) 1 1024 = PUndef.
Proof.
  exists (s2b "name=a quiet"). split; [exact (words_tokens (s2b "name=a quiet"))|vm_compute; reflexivity].
Qed.
Print Assumptions config_auth_add_refuted.

(** C18 fails for plugin lines that carry only the plugin name (write before
    the scratch buffer), only options (write past it), or an option whose name
    merely begins with "name" (refused). *)
Theorem config_plugin_refuted :
  exists only_name only_options namespace,
    words only_name [s2b "name=meminfo"] /\
    parse_config_str (s2b "config" ++ 32%N :: only_name) 1 1024 = PUndef /\
    words only_options [s2b "instance=a"] /\
    parse_config_str (s2b "config" ++ 32%N :: only_options) 1 1024 = PUndef /\
    words namespace [s2b "name=meminfo"; s2b "names=a"] /\
    parse_config_str (s2b "config" ++ 32%N :: namespace) 1 1024 = PErr EINVAL.
Proof.
  exists (s2b "name=meminfo"), (s2b "instance=a"), (s2b "name=meminfo names=a").
  repeat split; try (vm_compute; reflexivity).
  - exact (words_tokens (s2b "name=meminfo")).
  - exact (words_tokens (s2b "instance=a")).
  - exact (words_tokens (s2b "name=meminfo names=a")).
Qed.
Print Assumptions config_plugin_refuted.

Theorem config_env_refuted :
  exists av, words av [] /\ parse_config_str (s2b "env" ++ 32%N :: av) 1 1024 = PUndef.
Proof. exists [32%N]. split; [exact (words_tokens [32%N])|vm_compute; reflexivity]. Qed.
Print Assumptions config_env_refuted.

Theorem config_default_auth_refuted :
  exists av, words av [s2b "plugin=munge"] /\
    parse_config_str (s2b "default_auth" ++ 32%N :: av) 1 1024 = PUndef.
Proof.
  exists (s2b "plugin=munge"). split; [exact (words_tokens (s2b "plugin=munge"))|vm_compute; reflexivity].
Qed.
Print Assumptions config_default_auth_refuted.

(** A listen line made of authentication options only overruns its buffer. *)
Theorem config_listen_refuted :
  exists av, words av [s2b "conf=a"] /\
    parse_config_str (s2b "listen" ++ 32%N :: av) 1 1024 = PUndef.
Proof.
  exists (s2b "conf=a"). split; [exact (words_tokens (s2b "conf=a"))|vm_compute; reflexivity].
Qed.
Print Assumptions config_listen_refuted.

(** Hypotheses of [config_line_delivered] are met by a real line with doubled
    separators and a keyword, cut into 30-byte records. *)
Definition line_av : list byte := s2b "name=n1  xprt=sock push ".
Example config_line_case :
  In (s2b "prdcr_add", 256%N) req_table /\ ~ In 256%N special_ids /\
  words line_av [s2b "name=n1"; s2b "xprt=sock"; s2b "push"] /\
  Forall2 word_attr [s2b "name=n1"; s2b "xprt=sock"; s2b "push"]
    [(1, Some (s2b "n1")); (8, Some (s2b "sock")); (23, None)]%N.
Proof.
  split; [apply req_str2id_spec; vm_compute; reflexivity|].
  split; [cbn; intuition discriminate|].
  split; [exact (words_tokens line_av)|].
  assert (Hw : forall w a, name_value w = (fst (name_value w), snd a) ->
             attr_str2id (fst (name_value w)) = Some (fst a) -> word_attr w a).
  { intros w [i v] H1 H2. exists (fst (name_value w)), v, i. split.
    - pose proof (nv_word_means w) as H. rewrite H1 in H at 2. exact H.
    - split; [now apply attr_str2id_spec|reflexivity]. }
  repeat constructor; apply Hw; vm_compute; reflexivity.
Qed.
Example config_plugin_case :
  parted (fun n => exists t, n = s2b "name" ++ t)
    [s2b "name=m"; s2b "producer=p"] [s2b "name=m"] [s2b "producer=p"].
Proof.
  apply (pt_own _ _ (s2b "name") (Some (s2b "m"))).
  - apply (wm_av (s2b "name") (s2b "m")). cbn. intuition discriminate.
  - exists []. reflexivity.
  - apply (pt_other _ _ (s2b "producer") (Some (s2b "p"))); [| |constructor].
    + apply (wm_av (s2b "producer") (s2b "p")). cbn. intuition discriminate.
    + intros (t & H). cbn in H. discriminate.
Qed.

(** * C41 *)

(** Looking a keyword up finds exactly what the table lists. *)
Theorem verb_lookup_exact :
  forall verb id, req_str2id verb = Some id <-> In (verb, id) req_table.
Proof. exact req_str2id_spec. Qed.
Print Assumptions verb_lookup_exact.

Theorem attribute_lookup_exact :
  forall name id, attr_str2id name = Some id <-> In (name, id) attr_table.
Proof. exact attr_str2id_spec. Qed.
Print Assumptions attribute_lookup_exact.

Example lookup_case : req_str2id (s2b "strgp_add") = Some 512%N /\ req_str2id (s2b "strgp") = None.
Proof. split; vm_compute; reflexivity. Qed.
