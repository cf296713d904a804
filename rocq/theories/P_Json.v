(** Theorems on the JSON library. *)
From Verif Require Import S_Json S_Dir L_Dir L_Json L_JsonP L_JsonD.
From Coq Require Import Lia String Ascii.
Import M_Json.
Local Open Scope Z_scope.

(** ** Reading.  A text of JSON, with white space around, is read as what it denotes.
    Missing: the escapes of strings are not decoded ([meaning] keeps them); integers
    beyond 64 bits; nesting beyond 1999; see the refutations below. *)
Theorem json_parse_partial : forall c u v, valid c -> white u -> white v -> depth c <= 1999 ->
  parse (u ++ render c ++ v) = POk (meaning c) [].
Proof. intros c u v V U W D. apply parse_render; try assumption. unfold MAXD. lia. Qed.
Print Assumptions json_parse_partial.

Definition sample : cst :=
  CDict [] [(str " ", str "schema", [], str " ", CStr (str "meminfo \u00e9\n"), []);
            ([], str "n", str " ", [], CInt (-42), str " ");
            (str "  ", str "x", [], [], CList [] [([], CFloat (str "1.5e-3"), []); (str " ", CNull, []); ([], CList (str " ") [], [])], []);
            ([], str "n", [], [], CBool true, [])].
Lemma plain_raw : forall t, forallb (fun c => negb (is c QUO) && negb (is c BSL)) t = true -> raw t.
Proof.
  intros t F. exists (map (fun c => [c]) t). split.
  - clear F. induction t as [|c t IH]; [reflexivity|]. cbn. f_equal. exact IH.
  - apply Forall_forall. intros x I. apply in_map_iff in I. destruct I as (c & <- & I). rewrite forallb_forall in F. specialize (F c I).
    apply Bool.andb_true_iff in F. destruct F as (F1 & F2). apply Bool.negb_true_iff in F1, F2. apply u_plain; apply is_false; assumption.
Qed.
Lemma raw_app : forall a b, raw a -> raw b -> raw (a ++ b).
Proof. intros a b (x & -> & F) (y & -> & G). exists (x ++ y). split; [symmetry; apply concat_app|apply Forall_app; split; assumption]. Qed.
Lemma sample_valid : valid sample.
Proof.
  assert (R1 : raw (str "meminfo \u00e9\n")).
  { change (str "meminfo \u00e9\n") with (str "meminfo " ++ str "\u00e9" ++ str "\n"). apply raw_app; [apply plain_raw; reflexivity|]. apply raw_app.
    - exists [str "\u00e9"]. split; [reflexivity|]. constructor; [apply u_uni; repeat constructor|constructor].
    - exists [str "\n"]. split; [reflexivity|]. constructor; [apply u_esc; cbn; tauto|constructor]. }
  assert (F1 : float (str "1.5e-3")).
  { exists [], (str "1"), (str ".5"), (str "e-3"). split; [left; reflexivity|]. split; [split; [discriminate|repeat constructor]|].
    split; [right; exists (str "5"); split; [split; [discriminate|repeat constructor]|reflexivity]|].
    split; [right; exists "e"%char, (str "-"), (str "3"); split; [tauto|]; split; [tauto|]; split; [split; [discriminate|repeat constructor]|reflexivity]|].
    split; [left; discriminate|reflexivity]. }
  cbn [sample valid]. unfold white. repeat split; try (apply plain_raw; reflexivity); try assumption; try (repeat constructor; tauto).
  all: vm_compute; congruence.
Qed.
Example json_parse_ex :
  parse (render sample) =
    POk (JDict [(str "schema", JStr (str "meminfo \u00e9\n")); (str "x", JList [JFloat (str "1.5e-3"); JNull; JList []]); (str "n", JBool true)]) [] /\
  render sample = str "{ ""schema"": ""meminfo \u00e9\n"",""n"" :-42 ,  ""x"":[1.5e-3, null,[ ]],""n"":true}".
Proof. split; [vm_compute; reflexivity|reflexivity]. Qed.

(** The parser gives an answer on any text *)
Theorem json_total : forall t, parse t <> PFuel.
Proof. exact parse_stops. Qed.
Print Assumptions json_total.
Example json_total_ex : parse (str "[1,{""a"":2") = PSyntax /\ parse (str "") = PSyntax /\ parse (str "]") = PSyntax.
Proof. repeat split; vm_compute; reflexivity. Qed.

(** What follows the value is not looked at *)
Theorem json_trailing : forall c u v, valid c -> white u -> ends v -> depth c <= 1999 -> exists r, parse (u ++ render c ++ v) = POk (meaning c) r.
Proof. intros c u v V U W D. exists (lex v). apply parse_trailing; try assumption. unfold MAXD. lia. Qed.
Print Assumptions json_trailing.

(** *** Refutations *)
(** Escapes are not decoded *)
Theorem json_escape_refuted : exists t s, raw t /\ decode t = Some s /\ parse (quoted t) <> POk (JStr s) [].
Proof.
  exists (str "a\nb"), (str "a" ++ "010"%char :: str "b"). split; [|split; [reflexivity|vm_compute; congruence]].
  change (str "a\nb") with (str "a" ++ str "\n" ++ str "b"). apply raw_app; [apply plain_raw; reflexivity|]. apply raw_app; [|apply plain_raw; reflexivity].
  exists [str "\n"]. split; [reflexivity|]. constructor; [apply u_esc; cbn; tauto|constructor].
Qed.
Print Assumptions json_escape_refuted.
(** A number of more than 64 bits is read as another one *)
Theorem json_integer_refuted : exists z, 0 < z /\ parse (print_ld z) <> POk (JInt z) [] /\ exists z', parse (print_ld z) = POk (JInt z') [].
Proof. exists 18446744073709551615. split; [reflexivity|]. split; [vm_compute; congruence|]. exists 9223372036854775807. vm_compute; reflexivity. Qed.
Print Assumptions json_integer_refuted.
(** Deep nesting is refused *)
Fixpoint nest (n : nat) : cst := match n with O => CList [] [] | S n => CList [] [([], nest n, [])] end.
Lemma nest_valid : forall n, valid (nest n).
Proof. induction n as [|n IH]; cbn; repeat split; try constructor; assumption. Qed.
Theorem json_deep_refuted : exists c, valid c /\ parse (render c) = PDeep.
Proof. exists (nest (Z.to_nat 9998)). split; [apply nest_valid|]. vm_compute. reflexivity. Qed.
Print Assumptions json_deep_refuted.
(** What is no JSON is accepted *)
Theorem json_garbage_refuted : exists t e r, parse t = POk e r /\ forall c u v, valid c -> white u -> white v -> depth c <= 1999 -> t <> u ++ render c ++ v.
Proof.
  exists (str "1 2"), (JInt 1), [TInt 2]. split; [vm_compute; reflexivity|]. intros c u v V U W D E.
  pose proof (json_parse_partial c u v V U W D) as P. rewrite <- E in P. vm_compute in P. discriminate P.
Qed.
Print Assumptions json_garbage_refuted.

(** ** Writing.  The dump is the text of the entity if it is shorter than the first buffer
    or if realloc never moves the buffer.  Missing: what follows. *)
Theorem json_dump_partial : forall moves e, (forall i, moves i = false) \/ zlen (dump e) < 8192 -> dumped moves e = Some (dump e).
Proof. exact dumped_ok. Qed.
Print Assumptions json_dump_partial.
Example json_dump_ex : dumped (fun _ => true) (JDict [(str "a", JList [JInt 1; JBool false; JNull]); (str "b", JStr (str "x"))]) =
  Some (str "{""a"":[1,false,null],""b"":""x""}").
Proof. vm_compute. reflexivity. Qed.
(** Numbers and strings by themselves can have any length *)
Theorem json_dump_scalar : forall moves e, ~ container e -> dumped moves e = Some (dump e).
Proof. exact dumped_scalar. Qed.
Print Assumptions json_dump_scalar.
(** A list or dictionary that does not fit in the first buffer: if realloc moves it, the
    caller gets, or the dump itself uses, the buffer that realloc freed *)
Theorem json_dump_dangling : forall moves e, (forall i, moves i = true) -> container e -> 8192 <= zlen (dump e) -> dumped moves e = None.
Proof. exact dumped_big. Qed.
Print Assumptions json_dump_dangling.
Theorem json_dump_refuted : exists moves e, proper e /\ valid (plainly e) /\ depth (plainly e) <= 1999 /\ dumped moves e = None.
Proof.
  exists (fun _ => true), (JList [JStr (repeat "a"%char (Z.to_nat 8200))]). split; [cbn; tauto|]. split.
  - apply list_valid; [constructor|]. constructor; [|constructor]. split; [constructor|]. split; [|constructor]. apply plain_raw. vm_compute. reflexivity.
  - split; [vm_compute; congruence|]. apply json_dump_dangling; [reflexivity|exact I|vm_compute; congruence].
Qed.
Print Assumptions json_dump_refuted.

(** ** The round trip.  Missing: doubles, strings with a quote or a lone backslash, nesting. *)
Theorem json_round_trip_partial : forall e, proper e -> nofloat e -> valid (plainly e) -> depth (plainly e) <= 1999 -> parse (dump e) = POk e [].
Proof.
  intros e P _ V D. unfold dump. rewrite <- (app_nil_r (render (plainly e))). change (render (plainly e) ++ []) with ([] ++ render (plainly e) ++ []).
  rewrite (json_parse_partial (plainly e) [] []) by (assumption || constructor). rewrite meaning_plainly by exact P. reflexivity.
Qed.
Print Assumptions json_round_trip_partial.
Example json_round_trip_ex : let e := JDict [(str "k", JList [JInt (-9223372036854775808); JStr (str "x y")]); (str "e", JDict [])] in
  proper e /\ nofloat e /\ valid (plainly e) /\ depth (plainly e) = 2 /\ parse (dump e) = POk e [].
Proof.
  cbn zeta. split; [cbn; repeat split; repeat constructor; cbn; intuition discriminate|]. split; [cbn; tauto|]. split.
  - cbn [plainly map valid]. unfold white. repeat split; try (apply plain_raw; reflexivity); try constructor; vm_compute; congruence.
  - split; vm_compute; reflexivity.
Qed.
(** A quote in a string is not escaped: what is read is something else *)
Theorem json_round_trip_refuted : exists e e', proper e /\ nofloat e /\ depth (plainly e) = 1 /\ parse (dump e) = POk e' [] /\ e' <> e.
Proof.
  exists (JList [JStr (str "a"",""b")]), (JList [JStr (str "a"); JStr (str "b")]).
  repeat split; try (vm_compute; reflexivity). discriminate.
Qed.
Print Assumptions json_round_trip_refuted.

(** ** The replies of a directory request are read by the parser as the list of the sets *)
Lemma lex_entries : forall (E : dset -> cst) g, Forall (fun s => entry s = render (E s) /\ valid (E s)) g -> forall rest, ends rest ->
  lex (flat_map (fun s => ","%char :: entry s) g ++ rest) = rest_items (map (fun s => toks (E s)) g) ++ lex rest.
Proof.
  intros E g F; induction F as [|s g (H1 & H2) F IH]; intros rest R; [reflexivity|]. cbn [flat_map map rest_items]. cbn [app]. rewrite lex_punct by (cbn; tauto).
  f_equal. rewrite <- !app_assoc. rewrite H1. rewrite lex_render; [f_equal; apply IH, R|exact H2|]. destruct g; [exact R|repeat split].
Qed.
Theorem json_directory : forall j g (E : dset -> cst), lists j g ->
  Forall (fun s => entry s = render (E s) /\ valid (E s) /\ depth (E s) <= 1997) g ->
  parse j = POk (JDict [(str "directory", JList (map (fun s => meaning (E s)) g))]) [].
Proof.
  intros j g E (c & C & ->) F. unfold HDR.
  assert (F1 : Forall (fun s => entry s = render (E s) /\ valid (E s)) g) by (eapply Forall_impl; [|exact F]; intros s (A & B & _); split; assumption).
  set (items0 := map (fun s => (@nil ascii, E s, @nil ascii)) g).
  assert (F2 : Forall (fun '(_, c, _) => parses c /\ 3 + 5 * depth c + 4 <= MAXD) items0).
  { unfold items0. clear - F. induction F as [|s g (A & B & D) F IH]; constructor; [split; [apply parse_toks|unfold MAXD; lia]|exact IH]. }
  assert (M1 : map (fun '(_, c, _) => toks c) items0 = map (fun s => toks (E s)) g) by (unfold items0; rewrite map_map; reflexivity).
  assert (M2 : map (fun '(_, c, _) => meaning c) items0 = map (fun s => meaning (E s)) g) by (unfold items0; rewrite map_map; reflexivity).
  assert (HD : forall t, lex (str "{ ""directory"" : [" ++ t) = TP "{"%char :: TStr (str "directory") :: TP ":"%char :: TP "["%char :: lex t).
  { intros t. change (str "{ ""directory"" : [" ++ t) with ("{"%char :: str " " ++ quoted (str "directory") ++ str " " ++ ":"%char :: str " " ++ "["%char :: t).
    rewrite lex_punct by (cbn; tauto). rewrite lex_white by (repeat constructor; tauto). rewrite lex_string by (apply plain_raw; reflexivity).
    rewrite lex_white by (repeat constructor; tauto). rewrite lex_punct by (cbn; tauto). rewrite lex_white by (repeat constructor; tauto).
    rewrite lex_punct by (cbn; tauto). reflexivity. }
  assert (TL : lex (str "]}") = [TP "]"%char; TP "}"%char]) by reflexivity.
  destruct g as [|s g].
  { cbn [entries app]. vm_compute. reflexivity. }
  destruct C as [->| ->].
  - (* a blank *)
    set (c0 := CDict [] [([], str "directory", [], [], CList [] items0, [])]).
    change (entries " "%char (s :: g)) with (str " " ++ entry s ++ flat_map (fun s => ","%char :: entry s) g).
    assert (R : lex (str "{ ""directory"" : [" ++ (str " " ++ entry s ++ flat_map (fun s => ","%char :: entry s) g) ++ str "]}") = toks c0 ++ []).
    { rewrite HD. rewrite <- !app_assoc. rewrite lex_white by (repeat constructor; tauto). inversion F1 as [|? ? HX F1']; subst. destruct HX as (H1 & H2).
      rewrite H1, lex_render; [|exact H2|destruct g; repeat split]. rewrite (lex_entries E) by (exact F1' || (repeat split)). rewrite TL.
      unfold c0. cbn [toks map]. cbn [tjoin]. unfold items0 in M1 |- *. rewrite M1. cbn [map]. rewrite tjoin_cons. rewrite app_nil_r. cbn [app]. rewrite <- !app_assoc. reflexivity. }
    unfold parse. rewrite R. rewrite (parse_toks c0) ; [|unfold c0; cbn [depth map fold_right]|lia].
    + unfold c0. cbn [meaning map last_of existsb]. rewrite M2. reflexivity.
    + assert (G : fold_right Z.max 0 (map (fun '(_, c, _) => depth c) items0) <= 1997).
      { unfold items0. rewrite map_map. clear - F. induction F as [|x l (_ & _ & D) F IH]; cbn [map fold_right]; lia. }
      unfold MAXD. lia.
  - (* a comma *)
    change (entries ","%char (s :: g)) with (flat_map (fun s => ","%char :: entry s) (s :: g)).
    unfold parse. rewrite HD. rewrite (lex_entries E) by (exact F1 || (repeat split)). rewrite TL. rewrite <- M1.
    remember (List.length _) as n eqn:En.
    assert (L : (S (S (List.length (rest_items (map (fun '(_, c, _) => toks c) items0) ++ [TP "]"%char; TP "}"%char]))) <= n)%nat) by (rewrite En; cbn [List.length]; lia).
    destruct n as [|n]; [lia|]. cbn [value]. change (MAXD <? 0 + 1) with false. change (MAXD <? 0 + 2) with false. change (MAXD <? 0 + 3) with false.
    change (is "{"%char "["%char) with false. change (is "{"%char "{"%char) with true. change (is ":"%char ":"%char) with true. cbv iota.
    change (0 + 3 + 1) with 4. change (MAXD <? 4) with false. change (is "["%char "["%char) with true. cbv iota. change (0 + 3) with 3.
    assert (X : exists q, rest_items (map (fun '(_, c, _) => toks c) items0) ++ [TP "]"%char; TP "}"%char] = TP ","%char :: q) by (unfold items0; cbn [map rest_items app]; eexists; reflexivity).
    destruct X as (q & X). rewrite X. cbv beta iota. change (is ","%char ","%char || is ","%char "]"%char) with true. cbv iota. rewrite <- X.
    rewrite items_ok; [|exact F2|unfold MAXD; lia|lia]. rewrite M2. cbn [app].
    destruct n as [|n]; [lia|]. cbn [attrs]. reflexivity.
Qed.
Print Assumptions json_directory.
Definition set1 : dset := mkS (str "{""name"":""n1/meminfo"",""uid"":0,""info"":[") [(str "k", str "v"); (str "l", str "w")] [] true.
Definition pair_cst (p : text * text) : cst := CDict [] [([], str "key", [], [], CStr (fst p), []); ([], str "value", [], [], CStr (snd p), [])].
Definition set_cst (name : text) (s : dset) : cst :=
  CDict [] [([], str "name", [], [], CStr name, []); ([], str "uid", [], [], CInt 0, []); ([], str "info", [], [], CList [] (map (fun p => ([], pair_cst p, [])) (shown s)), [])].
Example json_directory_ex :
  Forall (fun s => entry s = render (set_cst (str "n1/meminfo") s) /\ valid (set_cst (str "n1/meminfo") s) /\ depth (set_cst (str "n1/meminfo") s) <= 1997) [set1; set1] /\
  parse (str "{ ""directory"" : [" ++ entries ","%char [set1; set1] ++ str "]}") =
    POk (JDict [(str "directory", JList [meaning (set_cst (str "n1/meminfo") set1); meaning (set_cst (str "n1/meminfo") set1)])]) [].
Proof.
  split; [|vm_compute; reflexivity].
  assert (A : entry set1 = render (set_cst (str "n1/meminfo") set1) /\ valid (set_cst (str "n1/meminfo") set1) /\ depth (set_cst (str "n1/meminfo") set1) <= 1997).
  { split; [vm_compute; reflexivity|]. split; [|vm_compute; congruence].
    assert (V : forall p, In p [(str "k", str "v"); (str "l", str "w")] -> valid (pair_cst p)).
    { intros p H. apply dict_valid; [constructor|]. repeat constructor; try (apply plain_raw; reflexivity); repeat destruct H as [<-|H]; try destruct H; apply plain_raw; reflexivity. }
    apply dict_valid; [constructor|]. constructor; [|constructor; [|constructor; [|constructor]]].
    - repeat split; try constructor; apply plain_raw; reflexivity.
    - split; [constructor|]. split; [apply plain_raw; reflexivity|]. split; [constructor|]. split; [constructor|]. split; [split; vm_compute; congruence|constructor].
    - split; [constructor|]. split; [apply plain_raw; reflexivity|]. split; [constructor|]. split; [constructor|]. split; [|constructor].
      change (shown set1) with [(str "k", str "v"); (str "l", str "w")]. apply list_valid; [constructor|]. cbn [map].
      constructor; [|constructor; [|constructor]]; (split; [constructor|]); (split; [|constructor]); apply V; cbn; tauto. }
  constructor; [exact A|constructor; [exact A|constructor]].
Qed.
(** An information value of a set with quotes: the reader of the reply sees more
    information than the set has *)
Theorem json_directory_refuted : exists j s i1 i2 r, lists j [s] /\ shown s = [(str "k", str "v""},{""key"":""l"",""value"":""w")] /\
  parse j = POk (JDict [(str "directory", JList [JDict (r ++ [(str "info", JList [i1; i2])])])]) [].
Proof.
  set (s := mkS (str "{""name"":""n1/meminfo"",""uid"":0,""info"":[") [(str "k", str "v""},{""key"":""l"",""value"":""w")] [] true).
  exists (HDR ++ entries " "%char [s] ++ str "]}"), s, (meaning (pair_cst (str "k", str "v"))), (meaning (pair_cst (str "l", str "w"))),
    [(str "name", JStr (str "n1/meminfo")); (str "uid", JInt 0)].
  split; [exists " "%char; split; [left; reflexivity|reflexivity]|]. split; [reflexivity|]. vm_compute. reflexivity.
Qed.
Print Assumptions json_directory_refuted.
