(** Property theorems for C04 (relocatable red/black tree). *)
From Verif Require Import L_RrbtTop.
From Coq Require Import Sorting.Sorted.
Local Open Scope N_scope.

(** * C04 *)

(** Every history of inserts of nodes of any content, removals and copies of the
    region to other addresses (whatever the rest of the memory holds afterwards),
    on any comparator that is a total preorder: no operation fails (no NULL or
    unmapped access, no assertion, no endless loop), and the tree holds exactly the
    offsets it should, in order, equal keys in insertion order. *)
Theorem rrbt_history :
  forall cmp size base h ops L fuel, preorder cmp -> region base size -> rhistory cmp size [] ops L -> enough (length ops) fuel ->
  exists base' s, rrun cmp fuel size ops (base, rrbt_init h) = Some (base', s) /\ region base' size /\
    rholds base' size s L /\ sorted cmp L /\ (rrbt_empty s = true <-> L = []).
Proof.
  intros cmp size base h ops L fuel Hpre Hreg HH Hf.
  destruct (rrun_ok cmp size fuel Hpre [] ops L HH base (rrbt_init h) Hreg (rholds_init base size h) ltac:(constructor) Hf) as (b & s & E1 & E2 & E3 & E4 & E5).
  exists b, s. split; [exact E1|]. split; [exact E2|]. split; [exact E3|]. split; [exact E4|]. exact (r_empty b size s L E3).
Qed.
Print Assumptions rrbt_history.

(** Insertion alone: any tree in memory, any comparator; the node may hold rubbish;
    no byte outside the nodes of the tree and the new node changes. *)
Theorem rrbt_ins_correct :
  forall base size cmp s L o nx fuel, region base size -> rholds base size s L -> 0 < o < size -> heap s (base + o) = Some nx ->
  ~ In o (map fst L) -> enough (S (length L)) fuel ->
  exists s' L1 L2, rrbt_ins base cmp fuel (base + o) s = Some (tt, s') /\ L = L1 ++ L2 /\ rholds base size s' (L1 ++ (o, key nx) :: L2) /\
    (forall a, a <> base + o -> (forall e, In e L -> a <> base + fst e) -> heap s' a = heap s a) /\
    (preorder cmp -> sorted cmp L ->
       Forall (fun e => (cmp (snd e) (key nx) <= 0)%Z) L1 /\ Forall (fun e => (0 < cmp (snd e) (key nx))%Z) L2).
Proof. exact r_ins. Qed.
Print Assumptions rrbt_ins_correct.

Theorem rrbt_del_correct :
  forall base size s L1 o k L2 fuel, region base size -> rholds base size s (L1 ++ (o, k) :: L2) -> enough (length (L1 ++ (o, k) :: L2)) fuel ->
  exists s', rrbt_del base fuel (base + o) s = Some (tt, s') /\ rholds base size s' (L1 ++ L2) /\
    (forall a, (forall e, In e (L1 ++ (o, k) :: L2) -> a <> base + fst e) -> heap s' a = heap s a).
Proof. exact r_del. Qed.
Print Assumptions rrbt_del_correct.

(** A copy of the region holds the same tree, wherever it is. *)
Theorem rrbt_copy :
  forall base size s L base' g, region base' size -> rholds base size s L -> rholds base' size (move base size base' g s) L.
Proof. exact rholds_move. Qed.
Print Assumptions rrbt_copy.

(** Queries: exact answers, as addresses at the current base; nothing is changed. *)
Theorem rrbt_find_exact :
  forall base size cmp s L k fuel, region base size -> rholds base size s L -> enough (length L) fuel -> preorder cmp -> sorted cmp L ->
  exists r, rrbt_find base cmp fuel k s = Some (addr base r, s) /\
    ((r = 0 /\ forall e, In e L -> cmp (snd e) k <> 0%Z) \/ exists kr, In (r, kr) L /\ cmp kr k = 0%Z).
Proof. intros base size cmp s L k fuel H1 H2 H3. exact (r_find base size s L fuel H1 H2 H3 cmp k). Qed.
Print Assumptions rrbt_find_exact.

Theorem rrbt_find_glb_lub_exact :
  forall base size cmp s L k fuel, region base size -> rholds base size s L -> enough (length L) fuel -> preorder cmp -> sorted cmp L ->
  (exists r, rrbt_find_glb base cmp fuel k s = Some (addr base r, s) /\ is_glb cmp L k r) /\
  (exists r, rrbt_find_lub base cmp fuel k s = Some (addr base r, s) /\ is_lub cmp L k r).
Proof.
  intros base size cmp s L k fuel H1 H2 H3 H4 H5. split.
  - exact (r_glb base size s L fuel H1 H2 H3 cmp k H4 H5).
  - exact (r_lub base size s L fuel H1 H2 H3 cmp k H4 H5).
Qed.
Print Assumptions rrbt_find_glb_lub_exact.

Theorem rrbt_min_max_exact :
  forall base size s L fuel, region base size -> rholds base size s L -> enough (length L) fuel ->
  rrbt_min base fuel s = Some (addr base (hd 0 (map fst L)), s) /\ rrbt_max base fuel s = Some (addr base (last (map fst L) 0), s).
Proof.
  intros base size s L fuel H1 H2 H3. split.
  - exact (r_min base size s L fuel H1 H2 H3).
  - exact (r_max base size s L fuel H1 H2 H3).
Qed.
Print Assumptions rrbt_min_max_exact.

Theorem rrbn_succ_pred_exact :
  forall base size s L1 n k L2 fuel, region base size -> rholds base size s (L1 ++ (n, k) :: L2) -> enough (length (L1 ++ (n, k) :: L2)) fuel ->
  rrbn_succ base fuel (base + n) s = Some (addr base (hd 0 (map fst L2)), s) /\
  rrbn_pred base fuel (base + n) s = Some (addr base (last (map fst L1) 0), s).
Proof.
  intros base size s L1 n k L2 fuel H1 H2 H3. split.
  - exact (r_succ base size s _ fuel H1 H2 H3 L1 n k L2 eq_refl).
  - exact (r_pred base size s _ fuel H1 H2 H3 L1 n k L2 eq_refl).
Qed.
Print Assumptions rrbn_succ_pred_exact.

(** A full traversal hands the callback every node, in order, at its address. *)
Theorem rrbt_traverse_exact :
  forall base size s L f fuel, region base size -> rholds base size s L -> enough (length L) fuel ->
  exists rc log, rrbt_traverse base fuel f s = Some ((rc, log), s) /\
    (exists rest, map (fun e => base + fst e) L = map fst log ++ rest /\ (rc = 0%Z -> rest = [])) /\
    (forall p q, log = p ++ q -> p <> [] -> q <> [] -> f p = 0%Z) /\ (log <> [] -> f log = rc) /\ (log = [] -> rc = 0%Z).
Proof. intros base size s L f fuel H1 H2 H3. exact (r_traverse base size s L fuel H1 H2 H3 f). Qed.
Print Assumptions rrbt_traverse_exact.

(** The assertions of rrbt_verify never fire on a tree. *)
Theorem rrbt_verify_accepts :
  forall base size s L fuel, region base size -> rholds base size s L -> enough (length L) fuel -> rrbt_verify base fuel s = Some (tt, s).
Proof. exact r_verify. Qed.
Print Assumptions rrbt_verify_accepts.

(** Balance: no path from the root has more than 2*log2(n+1) nodes. *)
Theorem rrbt_balanced :
  forall base size s L x d, rholds base size s L -> depth (fun o => heap s (base + o)) (root s) x d ->
  (S d <= 2 * Nat.log2 (S (length L)))%nat.
Proof. intros base size s L x d H. exact (r_depth base size s L H x d). Qed.
Print Assumptions rrbt_balanced.

(** Position independence proper, of any contents (trees, broken trees, keys out of
    order), any comparator, any session of calls and any time limit: at two bases
    holding copies, either both sessions fail or both succeed, with the same
    answers relative to the bases, and the regions are copies of each other again;
    nothing outside is touched. *)
Theorem rrbt_relocatable :
  forall (T : N -> Prop) b1 s1 b2 s2 size cmp fuel cs, region b1 size -> region b2 size -> (forall o, T o -> 0 < o < size) ->
  copies T b1 s1 b2 s2 -> closed T b1 s1 -> Forall (on_node T) cs ->
  match do_calls b1 cmp fuel cs s1, do_calls b2 cmp fuel cs s2 with
  | Some (l1, s1'), Some (l2, s2') => Forall2 (same b1 b2) l1 l2 /\ copies T b1 s1' b2 s2' /\ closed T b1 s1' /\
      (forall a, (forall o, T o -> a <> b1 + o) -> heap s1' a = heap s1 a) /\
      (forall a, (forall o, T o -> a <> b2 + o) -> heap s2' a = heap s2 a)
  | None, None => True
  | _, _ => False
  end.
Proof. exact relocate. Qed.
Print Assumptions rrbt_relocatable.

(** ** Concrete cases *)
Definition int_cmp (a b : N) : Z := (Z.of_N a - Z.of_N b)%Z.
Lemma int_cmp_pre : preorder int_cmp.
Proof. constructor; unfold int_cmp; intros; lia. Qed.
Definition rubbish (k : N) : node := mkN 77 78 79 Red k.
Definition here : N := 139637976727552.
Definition there : N := 18446744073709547520.
(** seven inserts, removal of the root, a move to the last page of the address
    space, more inserts and removals there *)
Definition trip : list rop :=
  map (fun k => RIns (8 * k) (rubbish (100 - 10 * k))) [1; 2; 3; 4; 5; 6; 7] ++ [RDel 16] ++
  [RMove there (fun _ => Some (rubbish 0))] ++ [RIns 64 (rubbish 45); RIns 16 (rubbish 70); RDel 32; RDel 8].
Definition trip_result : list (N * N) := [(56, 30); (48, 40); (64, 45); (40, 50); (24, 70); (16, 70)].
Example trip_history : rhistory int_cmp 4096 [] trip trip_result.
Proof.
  unfold trip. cbn [map app].
  repeat (apply rh_cons; [cbv; intuition discriminate|];
          match goal with |- rhistory _ _ ?L _ _ => let L' := eval vm_compute in L in change L with L' end). apply rh_nil.
Qed.
Example trip_region : region here 4096 /\ region there 4096.
Proof. split; split; vm_compute; discriminate. Qed.
Example trip_run :
  match rrun int_cmp 20 4096 trip (here, rrbt_init (fun _ => None)) with
  | Some (b, s) => (b, option_map fst (rrbt_traverse b 20 (fun _ => 0%Z) s), option_map fst (rrbt_find b int_cmp 20 45 s), rrbt_empty s)
  | None => (0, None, None, true)
  end =
  (there, Some (0%Z, map (fun e => (there + fst e, snd e)) [(56, 1); (48, 0); (64, 2); (40, 1); (24, 2); (16, 3)]), Some (there + 64), false).
Proof. vm_compute. reflexivity. Qed.
Example trip_enough : enough (length trip) 20.
Proof. vm_compute. lia. Qed.

(** the hypotheses of rrbt_relocatable met by a region that holds no tree at all (a
    node that is its own left child): the sessions at both bases end alike *)
Definition knot : node := mkN 8 0 0 Black 5.
Example knot_case :
  let T o := o = 8 in
  let s1 := mkSt 8 0 (fun a => if a =? here + 8 then Some knot else None) in
  let s2 := mkSt 8 0 (fun a => if a =? there + 8 then Some knot else Some (rubbish 3)) in
  copies T here s1 there s2 /\ closed T here s1 /\ Forall (on_node T) [CFind 5; CSucc 8; CDel 8] /\
  do_calls here int_cmp 20 [CFind 5; CDel 8] s1 = None /\ do_calls there int_cmp 20 [CFind 5; CDel 8] s2 = None /\
  option_map fst (do_calls here int_cmp 20 [CFind 5; CFind 6] s1) = Some [here + 8; 0] /\
  option_map fst (do_calls there int_cmp 20 [CFind 5; CFind 6] s2) = Some [there + 8; 0].
Proof.
  cbv zeta. split; [split; [reflexivity|intros o ->; reflexivity]|]. split.
  { split; [now right|]. intros o n -> E. vm_compute in E. injection E as <-. cbn [left right parent knot]. intuition. }
  split; [repeat constructor|]. split; [vm_compute; reflexivity|]. split; [vm_compute; reflexivity|]. split; vm_compute; reflexivity.
Qed.

(** ** The preconditions are needed *)
(** A node below the base is lost as a left child: its offset does not fit 63 bits. *)
Example below_base_lost :
  let h a := if a =? 1000 then Some (rubbish 5) else if a =? 400 then Some (rubbish 3) else None in
  match rrbt_ins 800 int_cmp 20 1000 (rrbt_init h) with
  | Some (_, s) => match (rrbt_ins 800 int_cmp 20 400 ;;; rrbt_find 800 int_cmp 20 3) s with Some _ => False | None => True end
  | None => False
  end.
Proof. vm_compute. exact I. Qed.
(** A node at offset 0 cannot be told from no node. *)
Example at_base_lost :
  let h a := if a =? 800 then Some (rubbish 5) else None in
  match rrbt_ins 800 int_cmp 20 800 (rrbt_init h) with Some (_, s) => rrbt_empty s = true | None => False end.
Proof. vm_compute. reflexivity. Qed.

(** * C44 for the relocatable tree *)
(** The two neighbour helpers are as wrong as those of the pointer tree: in the tree
    of the keys 1, 2, 3 (8 to 24) the "greatest node less than or equal" of 1 is 2,
    that of 3 is NULL. *)
Theorem rrbt_neighbour_refuted :
  exists base size s L, region base size /\ rholds base size s L /\ sorted int_cmp L /\
    (exists n k g kg, In (n, k) L /\ In (g, kg) L /\ rrbt_greatest_lt_or_eq base (base + n) s = Some (base + g, s) /\ (0 < int_cmp kg k)%Z) /\
    (exists n k e, In (n, k) L /\ In e L /\ fst e <> n /\ (int_cmp (snd e) k < 0)%Z /\ rrbt_greatest_lt_or_eq base (base + n) s = Some (0, s)) /\
    (exists n k g kg, In (n, k) L /\ In (g, kg) L /\ rrbt_least_gt_or_eq base (base + n) s = Some (base + g, s) /\ (int_cmp kg k < 0)%Z).
Proof.
  set (three := map (fun k => RIns (8 * k) (rubbish k)) [2; 1; 3]).
  assert (HH : rhistory int_cmp 4096 [] three [(8, 1); (16, 2); (24, 3)]).
  { unfold three. cbn [map]. repeat (apply rh_cons; [cbv; intuition discriminate|];
          match goal with |- rhistory _ _ ?L _ _ => let L' := eval vm_compute in L in change L with L' end). apply rh_nil. }
  destruct (rrbt_history int_cmp 4096 here (fun _ => None) three _ 10 int_cmp_pre (proj1 trip_region) HH) as (b & s & E1 & E2 & E3 & E4 & _); [vm_compute; lia|].
  exists b, 4096, s, [(8, 1); (16, 2); (24, 3)]. split; [exact E2|]. split; [exact E3|]. split; [exact E4|]. clear HH E2 E3 E4.
  vm_compute in E1. injection E1 as <- <-. split; [|split].
  - exists 8, 1, 16, 2. cbn [In]. repeat split; auto.
  - exists 24, 3, (8, 1). cbn [In]. repeat split; auto. discriminate.
  - exists 24, 3, 16, 2. cbn [In]. repeat split; auto.
Qed.
Print Assumptions rrbt_neighbour_refuted.
