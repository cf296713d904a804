(** Property theorems for C36 (dynamic strings). *)
From Verif Require Import L_DStr.
Local Open Scope Z_scope.

(** * C36 *)

(** Any sequence of calls, whatever malloc does at each of them: no access leaves
    the buffer, every call returns and does what it should (or fails as a whole,
    freezing the string, if a text that does not fit the inline space found no
    memory), dstrval and dstrlen give the text, at most one block is allocated.
    [partial]: it assumes what the code needs - see the refutations below - namely
    that strings set are shorter than INT_MAX, that no append lets the sum of the
    lengths exceed INT_MAX, and that the allocation of dstr_init2 did not fail. *)
Theorem dstring_session_partial :
  forall junk os, Z.of_nat (length junk) = STATIC_SIZE -> all_legal ([], false) os ->
  exists s rs a, do_dops os (dstr_init junk) = Some (s, rs) /\ session ([], false) os rs a /\
    shows s (fst a) /\ dead s = snd a /\ 0 <= blocks s <= 1.
Proof.
  intros junk os Hj HL. destruct (dops_rep os _ _ (init_rep junk Hj) HL) as (s & rs & a & E1 & E2 & E3).
  exists s, rs, a. destruct (rep_shows _ _ E3) as [E4 E5]. split; [exact E1|]. split; [exact E2|]. split; [exact E4|]. split; [exact E5|].
  rewrite (rp_blocks _ _ E3). destruct (hbuf s); lia.
Qed.
Print Assumptions dstring_session_partial.

Theorem dstring_session2_partial :
  forall al junk cap os, Z.of_nat (length junk) = STATIC_SIZE -> sane al -> cap <= INT_MAX -> al cap <> None \/ cap < STATIC_SIZE ->
  all_legal ([], false) os ->
  exists s0 s rs a, dstr_init2 al junk cap = Some s0 /\ do_dops os s0 = Some (s, rs) /\ session ([], false) os rs a /\
    shows s (fst a) /\ dead s = snd a /\ 0 <= blocks s <= 1.
Proof.
  intros al junk cap os Hj Hal Hc Hor HL. destruct (init2_rep al junk cap Hj Hal Hc Hor) as (s0 & E0 & H0).
  destruct (dops_rep os _ _ H0 HL) as (s & rs & a & E1 & E2 & E3).
  exists s0, s, rs, a. destruct (rep_shows _ _ E3) as [E4 E5]. split; [exact E0|]. split; [exact E1|]. split; [exact E2|]. split; [exact E4|]. split; [exact E5|].
  rewrite (rp_blocks _ _ E3). destruct (hbuf s); lia.
Qed.
Print Assumptions dstring_session2_partial.

(** With memory to spare and texts below INT_MAX, the text is exactly the
    concatenation it should be, and nothing is refused. *)
Theorem dstring_exact :
  forall junk os, Z.of_nat (length junk) = STATIC_SIZE ->
  Forall (fun e => sane (fst e) /\ never_fails (fst e) /\ texts_ok (snd e)) os ->
  (forall p q, os = p ++ q -> room (fold_left text_after (map snd p) [])) ->
  exists s rs, do_dops os (dstr_init junk) = Some (s, rs) /\ shows s (fold_left text_after (map snd os) []) /\ dead s = false.
Proof.
  intros junk os Hj HF Hr. destruct (session_exact os [] HF Hr) as [HL HX].
  destruct (dops_rep os _ _ (init_rep junk Hj) HL) as (s & rs & a & E1 & E2 & E3). rewrite (HX _ _ E2) in E3.
  exists s, rs. destruct (rep_shows _ _ E3) as [E4 E5]. split; [exact E1|]. now split.
Qed.
Print Assumptions dstring_exact.

(** dstr_free and dstr_extract leave nothing allocated. *)
Theorem dstring_no_leak :
  forall junk os al s rs, Z.of_nat (length junk) = STATIC_SIZE -> all_legal ([], false) os -> sane al ->
  do_dops os (dstr_init junk) = Some (s, rs) ->
  (exists s', dstr_free s = Some s' /\ blocks s' = 0 /\ shows s' []) /\
  (exists s' r, dstr_extract al s = Some (s', r) /\ blocks s' = 0 /\ shows s' [] /\ (never_fails al -> r = dstrval s)).
Proof.
  intros junk os al s rs Hj HL Hal E. destruct (dops_rep os _ _ (init_rep junk Hj) HL) as (s1 & rs1 & a & E1 & E2 & E3).
  rewrite E in E1. injection E1 as <- <-. split.
  - destruct (free_rep _ _ E3) as (s' & F1 & F2 & F3 & _). exists s'. split; [exact F1|]. split; [exact F3|]. exact (proj1 (rep_shows _ _ F2)).
  - destruct (extract_rep al _ _ Hal E3) as (s' & r & F1 & F2 & F3 & F4). exists s', r. split; [exact F1|]. split; [exact F3|].
    split; [exact (proj1 (rep_shows _ _ F2))|]. intros Hnf. rewrite (proj1 (proj1 (rep_shows _ _ E3))). destruct F4 as [F4|[_ F4]]; [exact F4|contradiction].
Qed.
Print Assumptions dstring_no_leak.

(** The decimal texts appended are those of the numbers. *)
Theorem dstring_decimal :
  (forall v, (v < 2 ^ 64)%N -> digits_value (fmt_u64 v) = v) /\
  (forall v, 0 <= v < 2 ^ 63 -> Z.of_N (digits_value (fmt_i64 v)) = v) /\
  (forall v, - 2 ^ 63 <= v < 0 -> exists l, fmt_i64 v = 45%N :: l /\ Z.of_N (digits_value l) = - v).
Proof.
  assert (P : (2 ^ 64 <= 10 ^ N.of_nat 20)%N) by (vm_compute; discriminate).
  assert (Q : 2 ^ 63 < Z.of_N (2 ^ 64)) by (vm_compute; reflexivity).
  split; [|split].
  - intros v Hv. apply dec_value. lia.
  - intros v Hv. unfold fmt_i64. rewrite (proj2 (Z.ltb_ge v 0)) by lia. rewrite dec_value; lia.
  - intros v Hv. unfold fmt_i64. rewrite (proj2 (Z.ltb_lt v 0)) by lia. eexists. split; [reflexivity|]. rewrite dec_value; lia.
Qed.
Print Assumptions dstring_decimal.

(** ** Refutations of the unrestricted claim *)
(** A failed allocation in dstr_init2 leaves the large capacity with the inline
    space; dstr_set then revives the string and writes past the 200 bytes. *)
Theorem dstr_init2_refuted :
  exists al junk cap s t, sane al /\ Z.of_nat (length junk) = STATIC_SIZE /\ 0 < cap <= INT_MAX /\
    dstr_init2 al junk cap = Some s /\ is_text t /\ room t /\ dstr_set al t s = None.
Proof.
  exists (fun _ => None), (repeat 7%N 200), 1000. eexists. exists (repeat 65%N 300).
  split; [discriminate|]. split; [reflexivity|]. split; [unfold INT_MAX; lia|]. split; [reflexivity|].
  split; [apply Forall_forall; intros c Hc; apply repeat_spec in Hc; subst; discriminate|]. split; [vm_compute; discriminate|]. vm_compute. reflexivity.
Qed.
Print Assumptions dstr_init2_refuted.

(** Setting any text of INT_MAX bytes or more writes out of bounds, on every
    string and with every malloc that succeeds. *)
Theorem dstr_set_refuted :
  exists t junk, is_text t /\ Z.of_nat (length junk) = STATIC_SIZE /\
    forall al, sane al -> (forall n, al n <> None) -> dstr_set al t (dstr_init junk) = None.
Proof.
  exists (repeat 65%N (Z.to_nat INT_MAX)), (repeat 7%N 200).
  split; [apply Forall_forall; intros c Hc; apply repeat_spec in Hc; subst; discriminate|]. split; [reflexivity|].
  intros al H1 H2. apply set_long; [|vm_compute; discriminate|exact H1|exact H2|vm_compute; discriminate].
  rewrite repeat_length. rewrite Z2Nat.id by (unfold INT_MAX; lia). lia.
Qed.
Print Assumptions dstr_set_refuted.

(** Two strings of more than a gigabyte: the int sum overflows (undefined). *)
Theorem dstrcat_refuted :
  exists t s, is_text t /\ Z.of_nat (length t) <= INT_MAX /\ rep s (t, false) /\ forall al, dstrcat al t (-1) s = None.
Proof.
  set (n := Z.to_nat 1073741824). set (t := repeat 65%N n).
  assert (Hn : Z.of_nat (length t) = 1073741824) by (unfold t, n; rewrite repeat_length, Z2Nat.id; lia).
  assert (Ht : is_text t) by (apply Forall_forall; intros c Hc; apply repeat_spec in Hc; subst; discriminate).
  exists t, (mkDs (Some (t ++ [0%N])) (repeat 7%N 200) 1073741824 1073741825 false 1).
  split; [exact Ht|]. split; [unfold INT_MAX; lia|]. clearbody t. split.
  - constructor; unfold string; cbn [fst snd hbuf sbuf dlen dcap dead blocks].
    + exact Ht.
    + now exists [].
    + now symmetry.
    + reflexivity.
    + unfold STATIC_SIZE, INT_MAX. lia.
    + rewrite app_length. cbn [length]. lia.
    + reflexivity.
    + reflexivity.
  - intros al. unfold dstrcat. cbn [dead dlen]. rewrite Hn. reflexivity.
Qed.
Print Assumptions dstrcat_refuted.

(** ** A concrete session crossing from inline to heap storage *)
Definition malloc_pos : Z -> option (list N) := fun n => if 0 <? n then Some (repeat 170%N (Z.to_nat n)) else None.
Example malloc_pos_sane : sane malloc_pos /\ never_fails malloc_pos.
Proof.
  unfold sane, never_fails, malloc_pos. split.
  - intros n b. destruct (Z.ltb_spec 0 n); [|discriminate]. intros E. injection E as <-. rewrite repeat_length, Z2Nat.id; lia.
  - intros n Hn. now rewrite (proj2 (Z.ltb_lt _ _) Hn).
Qed.
Definition demo : list dop := [OCat (repeat 65%N 150) (-1); OCat (repeat 66%N 150) 60; OCatInt (-42); OTrunc 208; OCatUint 7].
Example demo_run :
  match do_dops (map (fun o => (malloc_pos, o)) demo) (dstr_init (repeat 9%N 200)) with
  | Some (s, rs) => (dstrval s, dstrlen s, dcap s, rs)
  | None => (None, 0, 0, [])
  end = (Some (repeat 65%N 150 ++ repeat 66%N 58 ++ [55%N]), 209, 420, [RSelf; RSelf; RSelf; RVoid; RSelf]).
Proof. vm_compute. reflexivity. Qed.
Example demo_legal : all_legal ([], false) (map (fun o => (malloc_pos, o)) demo).
Proof.
  apply (session_exact (map (fun o => (malloc_pos, o)) demo) []).
  - pose proof malloc_pos_sane as [H1 H2]. unfold demo. cbn [map]. repeat constructor; cbn [fst snd texts_ok]; try exact H1; try exact H2; try (vm_compute; congruence);
    try (apply Forall_forall; intros c Hc; apply repeat_spec in Hc; subst; discriminate).
  - intros p q E. unfold demo in E. cbn [map] in E.
    do 6 (destruct p as [|? p]; [vm_compute; discriminate|]; cbn [app] in E; try discriminate E; injection E as <- E).
Qed.
