(** Properties of access checks, environment substitution, tokenising, memory
    sizes and path joining (C32-C35, C42). *)
From Verif Require Export L_Util.
From Coq Require Import List. Import ListNotations.
From Coq Require Import ZifyBool ZifyNat ZifyN.
Local Open Scope N_scope.

(** * C32 *)

(** Exactly when access is granted: the requester is root, or one of their classes
    has one of the requested bits. *)
Theorem access_any_overlap groups uid gid acc ouid ogid perm :
  access_check groups uid gid acc ouid ogid perm = 0%Z <->
  uid = 0 \/ exists c, in_class groups uid gid ouid ogid c /\ N.land (bits c acc) (bits c perm) <> 0.
Proof. apply access_exact. Qed.
Print Assumptions access_any_overlap.

(** C32, partial: a request of one kind (read 0444, write 0222 or execute 0111)
    is granted iff it is allowed; otherwise the answer is EACCES.  Missing:
    requests of several kinds at once ([access_check_refuted]). *)
Theorem access_check_partial groups uid gid acc ouid ogid perm :
  acc = 292 \/ acc = 146 \/ acc = 73 ->
  (access_check groups uid gid acc ouid ogid perm = 0%Z <-> allowed groups uid gid acc ouid ogid perm) /\
  (access_check groups uid gid acc ouid ogid perm = 0%Z \/ access_check groups uid gid acc ouid ogid perm = EACCES).
Proof.
  intros Ha. split.
  - rewrite access_exact. unfold allowed, covers.
    assert (G : forall c, N.land (bits c acc) (bits c perm) <> 0 <-> N.land (bits c acc) (bits c perm) = bits c acc).
    { intros c.
      assert (E : exists k, k < 3 /\ bits c acc = 2 ^ k).
      { destruct Ha as [->|[->| ->]]; [exists 2|exists 1|exists 0]; (split; [lia|destruct c; reflexivity]). }
      destruct E as (k & Hk & ->). apply one_bit; [exact Hk|apply bits_lt]. }
    split; (intros [H|(c & H1 & H2)]; [now left|right; exists c; split; [exact H1|now apply G]]).
  - unfold access_check. repeat match goal with |- context [if ?b then _ else _] => destruct b end; auto.
Qed.
Print Assumptions access_check_partial.

Example access_case : allowed (fun u => if u =? 500 then Some [7; 9] else None) 500 7 292 0 9 416 /\
  ~ allowed (fun u => if u =? 500 then Some [7; 9] else None) 500 7 146 0 9 416.
Proof.
  split.
  - right. exists Group. split; [right; exists [7; 9]; split; [reflexivity|cbn; auto]|reflexivity].
  - intros [H|([] & H1 & H2)]; [discriminate|discriminate H1| |]; vm_compute in H2; discriminate.
Qed.

(** Asking for read and write of an object everybody may only read is granted. *)
Theorem access_check_refuted : exists groups uid gid acc ouid ogid perm,
  access_check groups uid gid acc ouid ogid perm = 0%Z /\ ~ allowed groups uid gid acc ouid ogid perm.
Proof.
  exists (fun _ => Some []), 500, 500, 438, 0, 0, 292. split; [reflexivity|].
  intros [H|([] & H1 & H2)]; [discriminate| | |]; vm_compute in H2; discriminate.
Qed.
Print Assumptions access_check_refuted.

(** * C33 *)

(** C33, partial: the result is the text with every reference replaced, whatever
    memory malloc returned, and nothing outside the result buffer is written -
    for texts with at most 99 references whose names have at most 99 characters.
    Missing: longer ones ([env_subst_count_refuted], [env_subst_name_refuted]). *)
Theorem env_subst_partial env junk str r ns :
  (forall n, length (junk n) = n) -> no_nul str -> values_no_nul env ->
  subst env str r ns -> (length ns <= 99)%nat -> Forall (fun nm => (length nm <= 99)%nat) ns ->
  env_subst env junk str = URes r.
Proof.
  intros Hj Hs Hv Hsub Hc Hsh. apply (env_subst_ok env junk str r ns); auto; [|lia].
  unfold short_names. eapply Forall_impl; [|exact Hsh]. intros nm Hn. cbv beta in *. lia.
Qed.
Print Assumptions env_subst_partial.

(** Every text has exactly one substitution. *)
Theorem subst_unique env str : exists r ns, subst env str r ns /\
  forall r' ns', subst env str r' ns' -> r = r' /\ ns = ns'.
Proof.
  destruct (subst_total env str) as (r & ns & H). exists r, ns. split; [exact H|]. exact (subst_det env str r ns H).
Qed.
Print Assumptions subst_unique.

(** "a${X}b$" with X = "yy" *)
Example env_subst_case :
  let env := fun nm => if leqb nm [88] then Some [121; 121] else None in
  subst env [97; 36; 123; 88; 125; 98; 36] [97; 121; 121; 98; 36] [[88]] /\
  env_subst env (fun n => repeat 255 n) [97; 36; 123; 88; 125; 98; 36] = URes [97; 121; 121; 98; 36].
Proof.
  cbv zeta. split.
  - set (env := fun nm => if leqb nm [88] then Some [121; 121] else None).
    apply sb_char; [intros nm s' _ E; discriminate|].
    assert (H : subst env (reference [88] ++ [98; 36]) (match env [88] with Some v => v | None => [] end ++ [98; 36]) [[88]]).
    { apply sb_ref.
      - split; [discriminate|]. constructor; [|constructor]. unfold name_char. lia.
      - constructor; [|constructor; [|constructor]]; intros nm s' _ E; discriminate. }
    exact H.
  - vm_compute. reflexivity.
Qed.

(** 100 references or more: the code writes past its arrays. *)
Theorem env_subst_count_refuted :
  (forall env junk str r ns, subst env str r ns -> short_names ns -> (100 <= length ns)%nat ->
     env_subst env junk str = UUndef) /\
  exists env str r ns, subst env str r ns /\ short_names ns /\ (100 <= length ns)%nat.
Proof.
  split; [intros; eapply env_subst_many; eassumption|].
  exists (fun _ => None).
  assert (G : forall n, exists str r ns, subst (fun _ => None) str r ns /\ short_names ns /\ length ns = n).
  { induction n as [|n (str & r & ns & H & Hs & Hl)].
    - exists [], [], []. repeat split; constructor.
    - exists (reference [88] ++ str), ([] ++ r), ([88] :: ns). split; [|split].
      + apply (sb_ref (fun _ => None) [88] str r ns); [|exact H]. split; [discriminate|].
        constructor; [unfold name_char; lia|constructor].
      + constructor; [cbn; lia|exact Hs].
      + cbn. now rewrite Hl. }
  destruct (G 100%nat) as (str & r & ns & H & Hs & Hl). exists str, r, ns. repeat split; auto. lia.
Qed.
Print Assumptions env_subst_count_refuted.

(** A name of 100 characters or more aborts the daemon. *)
Theorem env_subst_name_refuted :
  (forall env junk str r ns1 nm ns2, subst env str r (ns1 ++ nm :: ns2) -> short_names ns1 ->
     (length ns1 < 100)%nat -> (100 <= length nm)%nat -> env_subst env junk str = UAbort) /\
  exists env str r nm, subst env str r ([] ++ nm :: []) /\ (100 <= length nm)%nat.
Proof.
  split; [intros; eapply env_subst_long; eassumption|].
  exists (fun _ => None), (reference (repeat 65 100) ++ []), ([] ++ []), (repeat 65 100). split.
  - apply (sb_ref (fun _ => None) (repeat 65 100) [] [] []); [|constructor]. split; [discriminate|].
    apply Forall_forall. intros x Hx. apply repeat_spec in Hx. subst x. unfold name_char. lia.
  - rewrite repeat_length. lia.
Qed.
Print Assumptions env_subst_name_refuted.

(** * C34 *)

(** Every word goes, in order, to the keywords or to the name/value pairs; slots
    beyond those are untouched.  A list that is too short is reported and its
    count (and so what lookups see of its length) kept; no slot is written outside. *)
Theorem tokenize_exact cmd kw av ws ks vs :
  words cmd ws -> sorted_words ws ks vs ->
  if (Nat.leb (length ks) (length (slots kw)) && Nat.leb (length vs) (length (slots av)))%bool then
    tokenize cmd kw av = (0%Z, mkAvl (ks ++ skipn (length ks) (slots kw)) (length ks),
                               mkAvl (vs ++ skipn (length vs) (slots av)) (length vs))
  else exists k a, tokenize cmd kw av = (ENOMEM, mkAvl k (count kw), mkAvl a (count av)) /\
         length k = length (slots kw) /\ length a = length (slots av).
Proof.
  intros Hw Hs. unfold tokenize. rewrite (toks_words _ _ Hw).
  destruct (Nat.leb_spec (length ks) (length (slots kw))) as [H1|H1].
  - destruct (Nat.leb_spec (length vs) (length (slots av))) as [H2|H2]; cbn [andb].
    + pose proof (tokenize_loop_ok ws ks vs Hs [] (firstn (length ks) (slots kw)) (skipn (length ks) (slots kw))
        [] (firstn (length vs) (slots av)) (skipn (length vs) (slots av))) as E.
      rewrite !firstn_length, !firstn_skipn in E. cbn [app length] in E. rewrite E by lia. reflexivity.
    + pose proof (tokenize_loop_full ws ks vs Hs (slots kw) (slots av) 0 0 ltac:(lia) ltac:(lia) ltac:(lia)) as E.
      pose proof (tokenize_loop_len ws (slots kw) (slots av) 0 0) as [L1 L2].
      destruct (tokenize_loop ws (slots kw) (slots av) 0 0) as [[[[rc k] a] nk] na]. cbn [fst snd] in *. subst rc.
      exists k, a. auto.
  - cbn [andb].
    pose proof (tokenize_loop_full ws ks vs Hs (slots kw) (slots av) 0 0 ltac:(lia) ltac:(lia) ltac:(lia)) as E.
    pose proof (tokenize_loop_len ws (slots kw) (slots av) 0 0) as [L1 L2].
    destruct (tokenize_loop ws (slots kw) (slots av) 0 0) as [[[[rc k] a] nk] na]. cbn [fst snd] in *. subst rc.
    exists k, a. auto.
Qed.
Print Assumptions tokenize_exact.

(** Every command has words, and they can be sorted. *)
Theorem words_sorted_total cmd : exists ws ks vs, words cmd ws /\ sorted_words ws ks vs.
Proof.
  destruct (words_total cmd) as (ws & Hw). destruct (sorted_total ws) as (ks & vs & Hs). eauto.
Qed.
Print Assumptions words_sorted_total.

(** "load a=b=c" *)
Example tokenize_case : exists ws ks vs,
  words [108; 32; 9; 97; 61; 98; 61; 99] ws /\ sorted_words ws ks vs /\
  ks = [([108], None)] /\ vs = [([97], Some [98; 61; 99])].
Proof.
  exists [[108]; [97; 61; 98; 61; 99]], [([108], None)], [([97], Some [98; 61; 99])].
  assert (NB : forall c, 61 <= c -> ~ blank c) by (unfold blank; lia).
  split; [|split; [|auto]].
  - apply (ws_cons [] [108] [32; 9; 97; 61; 98; 61; 99]); [constructor|discriminate| | |].
    + constructor; [apply NB; lia|constructor].
    + right. exists 32, [9; 97; 61; 98; 61; 99]. split; [reflexivity|now left].
    + apply (ws_cons [32; 9] [97; 61; 98; 61; 99] []); [|discriminate| |now left|constructor; constructor].
      * repeat (apply Forall_cons || apply Forall_nil); unfold blank; lia.
      * repeat (apply Forall_cons || apply Forall_nil); apply NB; lia.
  - constructor; [cbn; intros [H|[]]; discriminate|].
    apply (so_av [97] [98; 61; 99]); [cbn; intros [H|[]]; discriminate|constructor].
Qed.

(** Looking up the value of a name after a successful tokenisation gives the first
    pair's value of that name (environment references replaced), and nothing for
    a name the command does not contain. *)
Theorem tokenize_value env junk cmd kw av ws ks vs kw' av' n :
  words cmd ws -> sorted_words ws ks vs -> tokenize cmd kw av = (0%Z, kw', av') ->
  (forall a v b, vs = a ++ (n, Some v) :: b -> ~ In n (map fst a) ->
     av_value env junk av' n = match env_subst env junk v with
                               | URes s => URes (Some s) | UUndef => UUndef | UAbort => UAbort end) /\
  (~ In n (map fst vs) -> av_value env junk av' n = URes None).
Proof.
  intros Hw Hs Ht. pose proof (tokenize_exact cmd kw av ws ks vs Hw Hs) as E.
  destruct (_ && _)%bool; [|destruct E as (k & a & E & _); rewrite E in Ht; discriminate].
  rewrite E in Ht. injection Ht as <- <-. unfold av_value, live. cbn [count slots].
  rewrite firstn_app, Nat.sub_diag, firstn_all. cbn [firstn]. rewrite app_nil_r. split.
  - intros a v b -> Hn. rewrite first_value_app by assumption. destruct (env_subst env junk v); reflexivity.
  - intros Hn. now rewrite first_value_absent.
Qed.
Print Assumptions tokenize_value.

(** The index of a name: its position when it occurs once, -1 when it does not
    occur, -k when it occurs k > 1 times. *)
Theorem idx_of_exact l n :
  (~ In n (map fst (live l)) -> av_idx_of l n = (-1)%Z) /\
  (forall a v b, live l = a ++ (n, v) :: b -> ~ In n (map fst a) -> ~ In n (map fst b) ->
     av_idx_of l n = Z.of_nat (length a)) /\
  (forall k, length (filter (fun p => leqb n (fst p)) (live l)) = k -> (1 < k)%nat -> av_idx_of l n = (- Z.of_nat k)%Z).
Proof.
  unfold av_idx_of. split; [apply idx_loop_absent|]. split.
  - intros a v b -> Ha Hb. rewrite idx_loop_first by (auto; lia). rewrite (occurrences_zero n b Hb). lia.
  - intros k Hk H. change (occurrences n (live l) = k) in Hk.
    assert (Hin : In n (map fst (live l))).
    { destruct (in_dec (list_eq_dec N.eq_dec) n (map fst (live l))) as [Hi|Hi]; [exact Hi|].
      rewrite (occurrences_zero n _ Hi) in Hk. lia. }
    assert (Hsp : exists a v b, live l = a ++ (n, v) :: b /\ ~ In n (map fst a)).
    { clear -Hin. induction (live l) as [|[m w] q IH]; [destruct Hin|].
      destruct (list_eq_dec N.eq_dec m n) as [->|E].
      - exists [], w, q. split; [reflexivity|intros []].
      - destruct Hin as [E'|Hin]; [contradiction|]. destruct (IH Hin) as (a & v & b & -> & Ha).
        exists ((m, w) :: a), v, b. split; [reflexivity|]. intros [E'|Hi]; [contradiction|]. now apply Ha. }
    destruct Hsp as (a & v & b & E & Ha). rewrite E in *. rewrite idx_loop_first by (auto; lia).
    rewrite occurrences_app, (occurrences_zero n a Ha) in Hk. unfold occurrences in Hk at 1. cbn [filter fst] in Hk.
    rewrite leqb_refl in Hk. cbn [length] in Hk. fold (occurrences n b) in Hk.
    destruct (occurrences n b); lia.
Qed.
Print Assumptions idx_of_exact.

Example idx_case : av_idx_of (mkAvl [([97], None); ([98], None); ([97], None); ([99], None)] 3) [97] = (-2)%Z /\
  av_idx_of (mkAvl [([97], None); ([98], None); ([97], None); ([99], None)] 3) [98] = 1%Z /\
  av_idx_of (mkAvl [([97], None); ([98], None); ([97], None); ([99], None)] 3) [99] = (-1)%Z.
Proof. repeat split. Qed.

(** Adding a pair appends it; a full list is reported and unchanged. *)
Theorem av_add_exact l n v : (count l <= length (slots l))%nat ->
  if Nat.ltb (count l) (length (slots l)) then
    exists l', av_add l n (Some v) = (0%Z, l') /\ live l' = live l ++ [(n, Some v)] /\
      length (slots l') = length (slots l) /\ count l' = S (count l)
  else av_add l n (Some v) = (ENOSPC, l).
Proof.
  intros H. unfold av_add. destruct (Nat.ltb_spec (count l) (length (slots l))) as [H1|H1].
  - replace (Nat.eqb _ _) with false by (symmetry; apply Nat.eqb_neq; lia). eexists. split; [reflexivity|].
    cbn [slots count]. rewrite set_slot_length. split; [|auto]. unfold live. cbn [slots count].
    rewrite <- (firstn_skipn (count l) (slots l)) at 1.
    destruct (skipn (count l) (slots l)) as [|y b] eqn:E.
    { pose proof (f_equal (@length _) E) as EL. rewrite skipn_length in EL. cbn [length] in EL. lia. }
    assert (EL : length (firstn (count l) (slots l)) = count l) by (rewrite firstn_length; lia).
    rewrite <- EL at 1 2. rewrite set_slot_app. rewrite firstn_app.
    rewrite (firstn_all2 (firstn (count l) (slots l))) by lia.
    replace (S (length (firstn (count l) (slots l))) - length (firstn (count l) (slots l)))%nat with 1%nat by lia. reflexivity.
  - replace (Nat.eqb _ _) with true by (symmetry; apply Nat.eqb_eq; lia). reflexivity.
Qed.
Print Assumptions av_add_exact.

(** Adding a name without value can pick up the value a slot had before: what a
    lookup then finds was never given for this name. *)
Theorem av_add_null_refuted : exists l n, (count l < length (slots l))%nat /\
  first_value (live (snd (av_add l n None))) n = Some [120].
Proof. exists (mkAvl [([97], Some [120])] 0), [98]. split; [cbn; lia|reflexivity]. Qed.
Print Assumptions av_add_null_refuted.

(** * C35 *)

(** C35, partial: every decimal number, with optional blanks, and every suffix but
    T means that number times the power of 1024, as long as it fits in 64 bits.
    Missing: T ([mem_size_T_refuted]) and texts without digits
    ([mem_size_no_digits_refuted]). *)
Theorem mem_size_partial l n sp sfx k :
  decimal l n -> Forall (fun c => isspace c = true) sp -> In (sfx, k) suffixes -> k <> 4 ->
  n * 1024 ^ k < 2 ^ 64 -> mem_size (l ++ sp ++ sfx) = Some (n * 1024 ^ k).
Proof. intros Hd Hs Hi Hk Hn. apply mem_size_ok; auto. change (2 ^ 64) with (ULONG_MAX + 1) in Hn. lia. Qed.
Print Assumptions mem_size_partial.

Example mem_size_case : decimal [53; 49] 51 /\ mem_size ([53; 49] ++ [32] ++ [109]) = Some (51 * 1024 ^ 2).
Proof. split; [apply (de_snoc [53] 5 49); [apply (de_one 53); lia|lia]|reflexivity]. Qed.

(** With T the size is 1024 times too small, for every number. *)
Theorem mem_size_T_refuted :
  (forall l n sp u, decimal l n -> Forall (fun c => isspace c = true) sp -> u = 84 \/ u = 116 ->
     n * 1024 ^ 3 < 2 ^ 64 -> mem_size (l ++ sp ++ [u]) = Some (n * 1024 ^ 3)) /\
  exists l n, decimal l n /\ n * 1024 ^ 4 < 2 ^ 64 /\ mem_size (l ++ [84]) <> Some (n * 1024 ^ 4).
Proof.
  split.
  - intros l n sp u Hd Hs Hu Hn. apply mem_size_T; auto. change (2 ^ 64) with (ULONG_MAX + 1) in Hn. lia.
  - exists [50], 2. split; [apply (de_one 50); lia|]. split; [reflexivity|]. vm_compute. discriminate.
Qed.
Print Assumptions mem_size_T_refuted.

(** A text without a leading number yields an uninitialised value rather than an
    error. *)
Theorem mem_size_no_digits_refuted : exists s, s <> [] /\ mem_size s = None.
Proof. exists [77; 66]. split; [discriminate|reflexivity]. Qed.
Print Assumptions mem_size_no_digits_refuted.

(** * C42 *)

(** C42, partial: with a buffer of at least one byte, the buffer ends up with the
    joined text when text and NUL fit (0), else with a NUL-terminated prefix of it
    (E2BIG); nothing is written outside.  Missing: buffers of no bytes
    ([join_empty_refuted]). *)
Theorem join_partial buf sep args : args <> [] -> buf <> [] ->
  exists rc b len, join_buf buf sep args = Some (rc, b) /\ length b = length buf /\ (len < length buf)%nat /\
    firstn (S len) b = firstn len (joined sep args) ++ [0] /\ (len <= length (joined sep args))%nat /\
    (if Nat.ltb (length (joined sep args)) (length buf) then rc = 0%Z /\ len = length (joined sep args) else rc = E2BIG).
Proof. apply join_buf_spec. Qed.
Print Assumptions join_partial.

Example join_case : join_buf (repeat 255 6) [47] [[97]; [98]; [99]] = Some (0%Z, [97; 47; 98; 47; 99; 0]) /\
  join_buf (repeat 255 5) [47] [[97]; [98]; [99]] = Some (E2BIG, [97; 47; 98; 47; 0]).
Proof. split; reflexivity. Qed.

Theorem join_empty_refuted : forall sep args, join_buf [] sep args = None.
Proof. reflexivity. Qed.
Print Assumptions join_empty_refuted.
