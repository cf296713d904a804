(** Metric sets: layout (C19), generation numbers (C20), transactions (C21),
    writes (C23), transaction times (C37) and descriptions (C46). *)
From Verif Require Import Bytes M_Set S_Set L_SetProp L_SetHist L_SetDesc L_SetMore L_SetBuilt.
From Coq Require Import Lia ZifyBool ZifyN ZifyNat.
Local Open Scope N_scope.

(** ** A concrete set, used by the examples *)
Definition sadd (r : sres schema) (d : schema) : schema := match r with Some (_, s) => s | None => d end.
Definition ex_s0 : schema := schema_new [115] (repeat 9 32).
Definition ex_s1 : schema := snd (schema_array_card_set ex_s0 2).
(** "a" in "ms", a u64; "b", a u32 of the meta section; "cd", u16[4]; two buffers. *)
Definition ex_s2 : schema := sadd (schema_metric_add ex_s1 [97] (Some [109; 115]) 8) ex_s1.
Definition ex_s3 : schema := sadd (schema_meta_add ex_s2 [98] None 6) ex_s2.
Definition ex_s : schema := sadd (schema_metric_array_add ex_s3 [99; 100] None 15 4) ex_s3.
Definition ex_inst : list byte := [104; 47; 115].
Definition ex_own : N * N * N := (1000, 100, 511).
Definition ex_h : himg := mkHimg [] [].
Definition run_of (s : schema) (inst : list byte) (l : list op) : option st :=
  match create s inst ex_own 0 ex_h with
  | Some (Ret _ m0) => match do_ops l m0 with Ret _ m => Some m | _ => None end
  | _ => None
  end.
Definition res {A} (o : out A) : option A := match o with Ret a _ => Some a | _ => None end.
Definition keeps (s : schema) (l : list op) : bool :=
  forallb (fun o => match action (metrics s) o with None => false | Some _ => true end) l.
Ltac label := split; [repeat constructor; lia|]; first [split; [repeat constructor; lia|]; reflexivity|reflexivity].
Lemma ex_built : built ex_s.
Proof.
  apply (b_metric_array ex_s3 [99; 100] None 15 4 2%Z); [|label|repeat split; discriminate|reflexivity|reflexivity].
  apply (b_meta ex_s2 [98] None 6 1%Z); [|label|repeat split; discriminate|reflexivity].
  apply (b_metric ex_s1 [97] (Some [109; 115]) 8 0%Z); [|label|repeat split; discriminate|reflexivity].
  apply (b_card ex_s0 2 0%Z); [apply b_new|reflexivity].
Qed.
Lemma ex_args : create_args ex_s ex_inst ex_own 0 ex_h.
Proof.
  split; [exact ex_built|]. split; [|repeat split; reflexivity]. constructor.
  - split; [repeat constructor; lia|reflexivity].
  - split; [repeat constructor; lia|reflexivity].
  - reflexivity.
  - vm_compute. reflexivity.
  - intros p e q HE HR. assert (I : In e (s_list ex_s)) by (rewrite HE; apply in_or_app; right; now left).
    vm_compute in I. destruct I as [<-|[<-|[<-|[]]]]; discriminate.
  - intros Q. vm_compute in Q. destruct Q; reflexivity.
Qed.
Lemma run_history s inst l m : create_args s inst ex_own 0 ex_h -> keeps s l = true -> run_of s inst l = Some m ->
  history s inst ex_own l m.
Proof.
  intros CA HK HR. unfold run_of in HR. destruct (create s inst ex_own 0 ex_h) as [[[] m0| |]|] eqn:HC; try discriminate.
  destruct (do_ops l m0) as [[] m1| |] eqn:HD; try discriminate. assert (m1 = m) by congruence. subst m1.
  exists m0. split; [exists 0, ex_h; split; [exact CA|exact HC]|]. split; [|exact HD].
  unfold keeps in HK. rewrite forallb_forall in HK. apply Forall_forall. intros o Ho. specialize (HK o Ho). unfold allowed.
  intros Q. rewrite Q in HK. discriminate.
Qed.
(** Given what a run shows, the run exists. *)
Lemma run_shows {T} s inst (f : st -> T) l v : create_args s inst ex_own 0 ex_h -> keeps s l = true ->
  option_map f (run_of s inst l) = Some v ->
  exists m, history s inst ex_own l m /\ run_of s inst l = Some m /\ f m = v.
Proof.
  intros CA HK HV. destruct (run_of s inst l) as [m|] eqn:HR; [|discriminate]. cbn in HV.
  exists m. split; [now apply run_history|]. split; [reflexivity|]. congruence.
Qed.
(** The same for a set that was created, whether or not its names and sizes fit. *)
Lemma made_shows {T} s inst (f : st -> T) v :
  option_map f (match create s inst ex_own 0 ex_h with Some (Ret _ m) => Some m | _ => None end) = Some v ->
  exists m, create s inst ex_own 0 ex_h = Some (Ret tt m) /\ f m = v.
Proof.
  intros HV. destruct (create s inst ex_own 0 ex_h) as [[[] m| |]|]; try discriminate. exists m. split; [reflexivity|].
  cbn in HV. congruence.
Qed.
(** Programs that only read. *)
Definition ro {A} (p : prog A) : Prop := forall m a m', p m = Ret a m' -> m' = m.
Lemma ro_ret {A} (p : prog A) m v : ro p -> res (p m) = Some v -> p m = Ret v m.
Proof. intros H1 H2. unfold res in H2. destruct (p m) as [a m'| |] eqn:E; try discriminate. injection H2 as ->. f_equal. exact (H1 _ _ _ E). Qed.
Lemma ro_pure {A} (v : A) : ro (ret v).
Proof. intros m a m' H. unfold ret in H. congruence. Qed.
Lemma ro_wild {A} : ro (@wild A).
Proof. intros m a m' H. discriminate. Qed.
Lemma ro_abort {A} : ro (@abort A).
Proof. intros m a m' H. discriminate. Qed.
Lemma ro_fld {A} (f : st -> A) : ro (fld f).
Proof. intros m a m' H. unfold fld in H. congruence. Qed.
Lemma ro_bind {A B} (p : prog A) (k : A -> prog B) : ro p -> (forall a, ro (k a)) -> ro (bind p k).
Proof.
  intros H1 H2 m a m' H. unfold bind in H. destruct (p m) as [x m1| |] eqn:E; try discriminate.
  rewrite <- (H1 _ _ _ E). exact (H2 _ _ _ _ H).
Qed.
Lemma ro_load a n : ro (load a n).
Proof. intros m v m' H. unfold load in H. destruct (_ <=? _); congruence. Qed.
Lemma ro_ld n a : ro (ld n a).
Proof. apply ro_bind; [apply ro_load|intros; apply ro_pure]. Qed.
Lemma ro_cstr a : ro (cstr a).
Proof. intros m v m' H. unfold cstr in H. destruct (cstr_from _ _ _); congruence. Qed.
Ltac ro := repeat first
  [ apply ro_pure | apply ro_ld | apply ro_fld | apply ro_load | apply ro_cstr | apply ro_wild | apply ro_abort | apply ro_bind; [|intros ?]
  | match goal with |- ro (if ?b then _ else _) => destruct b end
  | match goal with |- ro (match ?x with _ => _ end) => destruct x end ].
Lemma ro_set i : ro (mval_to_set i). Proof. unfold mval_to_set, desc_get. ro. Qed.
Lemma ro_arr b : ro (arr_get b). Proof. unfold arr_get. ro. Qed.
Lemma ro_get i : ro (mval_to_get i).
Proof. unfold mval_to_get, desc_get. repeat first [apply ro_arr|progress ro]. Qed.
Lemma ro_get_w w i : ro (metric_get_w w i).
Proof. unfold metric_get_w. apply ro_bind; [apply ro_get|]. intros ?. ro. Qed.
Lemma ro_aget_w w i j : ro (metric_array_get_w w i j).
Proof. unfold metric_array_get_w. apply ro_bind; [apply ro_get|]. intros ?. ro. Qed.
Lemma ro_gn : ro data_gn_get. Proof. unfold data_gn_get. ro. Qed.
Lemma ro_cons : ro is_consistent. Proof. unfold is_consistent. ro. Qed.
Lemma ro_name : ro name_get. Proof. unfold name_get, instance_name_at. ro. Qed.

(** ** Creation and operations *)

(** Creation succeeds for every schema made with the API whose names and sizes fit. *)
Theorem set_create_defined s inst own req h : create_args s inst own req h ->
  exists m, create s inst own req h = Some (Ret tt m) /\ history s inst own [] m.
Proof.
  intros CA. destruct (create_ok s inst own req h CA) as (m & HC & _). exists m. split; [exact HC|].
  exists m. split; [exists req, h; auto|]. split; [constructor|reflexivity].
Qed.
Print Assumptions set_create_defined.

(** Whatever the caller does, the set answers as the abstract set: the same values,
    generation numbers, times, owners; the program stops exactly where the abstract
    set refuses; and no access ever leaves the block. *)
Theorem set_refines s inst own m0 : created s inst own m0 ->
  exists A0, starts (metrics s) (buffers s) own A0 /\ forall l,
    match spec_run (metrics s) (buffers s) l A0 with
    | None => True
    | Some None => do_ops l m0 = Abort
    | Some (Some A) => exists m, do_ops l m0 = Ret tt m /\ agrees (metrics s) (buffers s) m A
    end.
Proof. exact (refines s inst own m0). Qed.
Print Assumptions set_refines.
Definition ex_ops : list op :=
  [OCopy true; OBegin 10 999999; OSet 0 7; OArr 2 [1; 2; 3; 4] 1 2; OEnd 12 1; OBegin 20 0; OSet 0 9; OSet 1 3].
Example set_refines_ex : option_map (fun m => (res (metric_get_w 8 0 m), res (metric_array_get_w 2 2 2 m), res (data_gn_get m),
    res (meta_gn_get m), res (timestamp_get m), res (duration_get m), res (is_consistent m))) (run_of ex_s ex_inst ex_ops) =
  Some (Some 7, Some 3, Some 5, Some 2, Some (20, 0), Some (1, 2), Some false) /\ keeps ex_s ex_ops = true.
Proof. split; vm_compute; reflexivity. Qed.

(** ** C19: layout *)

(** At any time: the block is a meta section followed by the buffers; the
    descriptor of each metric is after the header, the dictionary and the names, and
    inside the meta section; the value of a data metric is inside the data section
    of its buffer, after its header; that of a meta metric after all descriptors and
    inside the meta section; no two overlap; descriptors and data values are 8-byte
    aligned, meta values are if the schema has no record type, and 4-byte aligned
    otherwise.  [create_args], part of [history], limits the names to 254 (instance)
    and 221 (schema) characters and puts record arrays after the data metrics; the
    refutations below show that the code needs it. *)
Theorem set_layout_partial s inst own l m : history s inst own l m ->
  exists meta buf heap, block s m meta buf heap /\
    (forall k e, nth_error (metrics s) k = Some e ->
       exists a vd, placed m (Z.of_nat k) a vd /\ laid_out s inst m meta buf heap e a vd) /\
    (forall k e a vd k' e' a' vd', nth_error (metrics s) k = Some e -> placed m (Z.of_nat k) a vd ->
       nth_error (metrics s) k' = Some e' -> placed m (Z.of_nat k') a' vd' -> k <> k' ->
       apart a (need_bytes e) a' (need_bytes e') /\ apart vd (desc_bytes (base e)) vd' (desc_bytes (base e')) /\
       apart a (need_bytes e) vd' (desc_bytes (base e'))).
Proof. exact (layout s inst own l m). Qed.
Print Assumptions set_layout_partial.
Example set_layout_ex : option_map (fun m => (res (mval_to_set 0 m), res (mval_to_set 1 m), res (mval_to_set 2 m), msz m))
    (run_of ex_s ex_inst ex_ops) = Some (Some (Some (520, 200)), Some (Some (304, 240)), Some (Some (528, 272)), 536) /\
  map need_bytes (metrics ex_s) = [8; 4; 8].
Proof. split; vm_compute; reflexivity. Qed.

(** A record type with one member makes the value after it misaligned. *)
Definition al_r : recdef := match record_metric_add (record_create [114]) [120] None 8 1 with Some (_, r) => r | None => record_create [] end.
Definition al_s1 : schema := snd (fst (schema_record_add ex_s0 al_r)).
Definition al_s : schema := sadd (schema_meta_add al_s1 [98] None 8) al_s1.
Lemma al_built : built al_s.
Proof.
  apply (b_meta al_s1 [98] None 8 1%Z); [|label|repeat split; discriminate|vm_compute; reflexivity].
  eapply (b_record ex_s0 al_r); [apply b_new| |vm_compute; reflexivity].
  apply (rb_add (record_create [114]) [120] None 8 1 0%Z); [apply rb_new; label|label|reflexivity|vm_compute; reflexivity].
Qed.
Theorem set_layout_align_refuted : exists s inst own m k e a vd, built s /\ history s inst own [] m /\
  nth_error (metrics s) k = Some e /\ md_type (base e) = 8 /\ placed m (Z.of_nat k) a vd /\ a mod 8 = 4.
Proof.
  assert (CA : create_args al_s ex_inst ex_own 0 ex_h).
  { split; [exact al_built|]. split; [|repeat split; reflexivity]. constructor.
    - split; [repeat constructor; lia|reflexivity].
    - split; [repeat constructor; lia|reflexivity].
    - reflexivity.
    - vm_compute. reflexivity.
    - intros p e q HE HR. assert (I : In e (s_list al_s)) by (rewrite HE; apply in_or_app; right; now left).
      vm_compute in I. destruct I as [<-|[<-|[]]]; discriminate.
    - intros Q. vm_compute in Q. destruct Q; reflexivity. }
  destruct (set_create_defined _ _ _ _ _ CA) as (m & HC & HH).
  destruct (layout _ _ _ _ _ HH) as (meta & buf & heap & _ & L & _).
  destruct (nth_error (metrics al_s) 1) as [e|] eqn:HE; [|vm_compute in HE; discriminate].
  destruct (L 1%nat e HE) as (a & vd & HP & _).
  exists al_s, ex_inst, ex_own, m, 1%nat, e, a, vd. split; [exact al_built|]. split; [exact HH|]. split; [exact HE|].
  split; [vm_compute in HE; injection HE as <-; reflexivity|]. split; [exact HP|].
  destruct (made_shows al_s ex_inst (fun m => match res (mval_to_set 1 m) with Some (Some (a, _)) => a mod 8 | _ => 0 end) 4)
    as (m1 & HC1 & O); [vm_compute; reflexivity|].
  assert (m1 = m) by congruence. subst m1. unfold placed in HP. change (Z.of_nat 1) with 1%Z in HP. rewrite HP in O. exact O.
Qed.
Print Assumptions set_layout_align_refuted.

(** A data metric after a record array is placed outside the block. *)
Definition ra_s1 : schema := snd (fst (schema_record_add ex_s0 al_r)).
Definition ra_r : recdef := snd (schema_record_add ex_s0 al_r).
Definition ra_s2 : schema := snd (schema_record_array_add ra_s1 [97] ra_r 2).
Definition ra_s : schema := sadd (schema_metric_add ra_s2 [98] None 8) ra_s2.
Lemma ra_built : built ra_s.
Proof.
  apply (b_metric ra_s2 [98] None 8 2%Z); [|label|repeat split; discriminate|vm_compute; reflexivity].
  apply (b_record_array ra_s1 [97] ra_r 2 1%Z); [|label| |reflexivity|vm_compute; reflexivity].
  - eapply (b_record ex_s0 al_r); [apply b_new| |vm_compute; reflexivity].
    apply (rb_add (record_create [114]) [120] None 8 1 0%Z); [apply rb_new; label|label|reflexivity|vm_compute; reflexivity].
  - exists 0%nat, al_r. split; vm_compute; reflexivity.
Qed.

Theorem set_layout_room_refuted : exists s inst own m k e a vd, built s /\ create s inst own 0 ex_h = Some (Ret tt m) /\
  nth_error (metrics s) k = Some e /\ placed m (Z.of_nat k) a vd /\ msz m < a + need_bytes e /\
  metric_set (Z.of_nat k) 5 m = Wild.
Proof.
  destruct (made_shows ra_s ex_inst (fun m => (res (mval_to_set 2 m), msz m, match metric_set 2 5 m with Wild => true | _ => false end))
     (Some (Some (624, 264)), 552, true)) as (m & HC & O); [vm_compute; reflexivity|].
  injection O as O1 O2 O3.
  destruct (nth_error (metrics ra_s) 2) as [e|] eqn:HE; [|vm_compute in HE; discriminate].
  exists ra_s, ex_inst, ex_own, m, 2%nat, e, 624, 264. split; [exact ra_built|]. split; [exact HC|]. split; [exact HE|].
  split; [exact (ro_ret _ _ _ (ro_set _) O1)|]. rewrite O2.
  split; [vm_compute in HE; injection HE as <-; reflexivity|].
  change (Z.of_nat 2) with 2%Z. destruct (metric_set 2 5 m); [discriminate|discriminate|reflexivity].
Qed.
Print Assumptions set_layout_room_refuted.

(** ** C20: generation numbers *)

(** One operation: the data generation number goes up by one (modulo 2^64) if the
    operation is on a metric of the data section or ends a transaction, and stays as
    it is otherwise. *)
Theorem set_data_gn s inst own l m o m' : history s inst own l m -> allowed (metrics s) o -> do_op o m = Ret tt m' ->
  exists g, data_gn_get m = Ret g m /\
            data_gn_get m' = Ret (if touches_data (metrics s) o then (g + 1) mod B64 else g) m'.
Proof. exact (gn_step s inst own l m o m'). Qed.
Print Assumptions set_data_gn.
(** The same for the meta generation number, the meta metrics and the access rights
    (when set all at once). *)
Theorem set_meta_gn s inst own l m o m' : history s inst own l m -> allowed (metrics s) o -> do_op o m = Ret tt m' ->
  exists g, meta_gn_get m = Ret g m /\
            meta_gn_get m' = Ret (if touches_meta (metrics s) o then (g + 1) mod B64 else g) m'.
Proof. exact (mgn_step s inst own l m o m'). Qed.
Print Assumptions set_meta_gn.
Example set_gn_ex : map (touches_data (metrics ex_s)) ex_ops = [false; false; true; true; true; false; true; false] /\
  map (fun l => option_map (fun m => (res (data_gn_get m), res (meta_gn_get m))) (run_of ex_s ex_inst l)) [[]; ex_ops; ex_ops ++ [OArrVal 2 3 1]] =
  [Some (Some 1, Some 1); Some (Some 5, Some 2); Some (Some 6, Some 2)].
Proof. split; vm_compute; reflexivity. Qed.

(** Equal data generation numbers mean equal values, if transactions do not nest
    and begin in a consistent set, and fewer than 2^64 operations lie in between.
    Lists and record arrays (which have parts in the heap) are not covered. *)
Theorem set_gn_equal_partial s inst own l m l2 m' g : history s inst own l m -> Forall (allowed (metrics s)) l2 ->
  do_ops l2 m = Ret tt m' -> N.of_nat (length l2) < B64 -> (exists c, is_consistent m = Ret c m /\ disciplined c l2) ->
  data_gn_get m = Ret g m -> data_gn_get m' = Ret g m' ->
  forall k e, nth_error (metrics s) k = Some e -> buffered e = true -> exists bs, shows m k e bs /\ shows m' k e bs.
Proof. exact (gn_equal s inst own l m l2 m' g). Qed.
Print Assumptions set_gn_equal_partial.
Definition ex_quiet : list op := [OModify 1; OBegin 30 0; OUser 1 5].
Example set_gn_equal_ex : option_map (fun m => (res (data_gn_get m), res (is_consistent m), res (metric_get_w 8 0 m)))
    (run_of ex_s ex_inst (firstn 5 ex_ops)) = Some (Some 4, Some true, Some 7) /\
  option_map (fun m => (res (data_gn_get m), res (is_consistent m), res (metric_get_w 8 0 m)))
    (run_of ex_s ex_inst (firstn 5 ex_ops ++ ex_quiet)) = Some (Some 4, Some false, Some 7) /\
  disciplined true ex_quiet /\ keeps ex_s ex_quiet = true.
Proof. repeat split; vm_compute; reflexivity. Qed.

(** In general they do not: a value set before the first transaction is shown only
    once the transaction begins, which leaves the generation number as it is. *)
Theorem set_gn_equal_refuted : exists s inst own l m l2 m' g k e v v',
  history s inst own l m /\ Forall (allowed (metrics s)) l2 /\ do_ops l2 m = Ret tt m' /\
  data_gn_get m = Ret g m /\ data_gn_get m' = Ret g m' /\
  nth_error (metrics s) k = Some e /\ buffered e = true /\
  metric_get_w 8 (Z.of_nat k) m = Ret v m /\ metric_get_w 8 (Z.of_nat k) m' = Ret v' m' /\ v <> v'.
Proof.
  destruct (run_shows ex_s ex_inst (fun m => (res (data_gn_get m), res (metric_get_w 8 0 m),
      match do_ops [OBegin 1 0] m with Ret _ m' => Some (res (data_gn_get m'), res (metric_get_w 8 0 m')) | _ => None end))
      [OSet 0 7] (Some 2, Some 0, Some (Some 2, Some 7))) as (m & HH & _ & O); [exact ex_args|vm_compute; reflexivity|vm_compute; reflexivity|].
  assert (O1 : res (data_gn_get m) = Some 2) by congruence.
  assert (O2 : res (metric_get_w 8 0 m) = Some 0) by congruence.
  assert (O3 : match do_ops [OBegin 1 0] m with Ret _ m' => Some (res (data_gn_get m'), res (metric_get_w 8 0 m')) | _ => None end
               = Some (Some 2, Some 7)) by congruence. clear O.
  destruct (do_ops [OBegin 1 0] m) as [[] m'| |] eqn:HD; try discriminate.
  assert (O4 : res (data_gn_get m') = Some 2) by congruence.
  assert (O5 : res (metric_get_w 8 0 m') = Some 7) by congruence.
  destruct (nth_error (metrics ex_s) 0) as [e|] eqn:HE; [|vm_compute in HE; discriminate].
  exists ex_s, ex_inst, ex_own, [OSet 0 7], m, [OBegin 1 0], m', 2, 0%nat, e, 0, 7.
  split; [exact HH|]. split; [constructor; [discriminate|constructor]|]. split; [exact HD|].
  split; [exact (ro_ret _ _ _ ro_gn O1)|]. split; [exact (ro_ret _ _ _ ro_gn O4)|]. split; [exact HE|].
  split; [vm_compute in HE; injection HE as <-; reflexivity|].
  split; [exact (ro_ret _ _ _ (ro_get_w _ _) O2)|]. split; [exact (ro_ret _ _ _ (ro_get_w _ _) O5)|discriminate].
Qed.
Print Assumptions set_gn_equal_refuted.

(** ** C21: transactions *)

(** In a set of two or more buffers in which the last transaction is complete: from
    its beginning and through any changes, the set says it is inconsistent and each
    buffered metric reads as before; after its end, it is consistent and reads as
    written.  With the data copy option the values written over are the old ones. *)
Theorem set_tx_isolated_partial s inst own l m x y lw m' : history s inst own l m -> 2 <= buffers s ->
  is_consistent m = Ret true m ->
  Forall (allowed (metrics s)) lw -> Forall no_tx lw -> do_ops (OBegin x y :: lw) m = Ret tt m' ->
  is_consistent m' = Ret false m' /\
  (forall k e, nth_error (metrics s) k = Some e -> buffered e = true -> exists bs, shows m k e bs /\ shows m' k e bs) /\
  forall z w m'', do_op (OEnd z w) m' = Ret tt m'' ->
    is_consistent m'' = Ret true m'' /\
    exists base, (copy m = true -> forall k e, nth_error (metrics s) k = Some e -> buffered e = true -> shows m k e (base k)) /\
      forall k e, nth_error (metrics s) k = Some e -> buffered e = true -> shows m'' k e (written (metrics s) lw base k).
Proof. exact (isolated s inst own l m x y lw m'). Qed.
Print Assumptions set_tx_isolated_partial.
Definition ex_tx (k : nat) : list op := firstn 5 ex_ops ++ firstn k [OBegin 20 0; OSet 0 9; OArrVal 2 0 8; OEnd 21 0].
Example set_tx_ex : buffers ex_s = 2 /\
  map (fun k => option_map (fun m => (res (is_consistent m), res (metric_get_w 8 0 m), res (metric_array_get_w 2 2 0 m),
        res (metric_array_get_w 2 2 1 m))) (run_of ex_s ex_inst (ex_tx k))) [0; 1; 2; 3; 4]%nat =
  [Some (Some true, Some 7, Some 0, Some 2); Some (Some false, Some 7, Some 0, Some 2);
   Some (Some false, Some 7, Some 0, Some 2); Some (Some false, Some 7, Some 0, Some 2);
   Some (Some true, Some 9, Some 8, Some 2)].
Proof. split; vm_compute; reflexivity. Qed.

(** A second beginning without an end shows values of the open transaction. *)
Theorem set_tx_nested_refuted : exists s inst own l m m' k e v v',
  history s inst own l m /\ 2 <= buffers s /\ is_consistent m = Ret true m /\
  do_ops [OBegin 20 0; OSet (Z.of_nat k) v'; OBegin 21 0] m = Ret tt m' /\ is_consistent m' = Ret false m' /\
  nth_error (metrics s) k = Some e /\ buffered e = true /\
  metric_get_w 8 (Z.of_nat k) m = Ret v m /\ metric_get_w 8 (Z.of_nat k) m' = Ret v' m' /\ v <> v'.
Proof.
  destruct (run_shows ex_s ex_inst (fun m => (res (is_consistent m), res (metric_get_w 8 0 m),
      match do_ops [OBegin 20 0; OSet 0 9; OBegin 21 0] m with
      | Ret _ m' => Some (res (is_consistent m'), res (metric_get_w 8 0 m')) | _ => None end))
      (ex_tx 0) (Some true, Some 7, Some (Some false, Some 9))) as (m & HH & _ & O); [exact ex_args|vm_compute; reflexivity|vm_compute; reflexivity|].
  assert (O1 : res (is_consistent m) = Some true) by congruence.
  assert (O2 : res (metric_get_w 8 0 m) = Some 7) by congruence.
  assert (O3 : match do_ops [OBegin 20 0; OSet 0 9; OBegin 21 0] m with
      | Ret _ m' => Some (res (is_consistent m'), res (metric_get_w 8 0 m')) | _ => None end = Some (Some false, Some 9)) by congruence. clear O.
  destruct (do_ops [OBegin 20 0; OSet 0 9; OBegin 21 0] m) as [[] m'| |] eqn:HD; try discriminate.
  assert (O4 : res (is_consistent m') = Some false) by congruence.
  assert (O5 : res (metric_get_w 8 0 m') = Some 9) by congruence.
  destruct (nth_error (metrics ex_s) 0) as [e|] eqn:HE; [|vm_compute in HE; discriminate].
  exists ex_s, ex_inst, ex_own, (ex_tx 0), m, m', 0%nat, e, 7, 9.
  split; [exact HH|]. split; [discriminate|]. split; [exact (ro_ret _ _ _ ro_cons O1)|]. split; [exact HD|].
  split; [exact (ro_ret _ _ _ ro_cons O4)|]. split; [exact HE|]. split; [vm_compute in HE; injection HE as <-; reflexivity|].
  split; [exact (ro_ret _ _ _ (ro_get_w _ _) O2)|]. split; [exact (ro_ret _ _ _ (ro_get_w _ _) O5)|discriminate].
Qed.
Print Assumptions set_tx_nested_refuted.

(** ** C23: writes *)

(** Any write of a value changes the bytes it is to change and those of the
    generation numbers, and no other byte of the block; the value stays where it is. *)
Theorem set_write_exact s inst own l m o k e off bs m' : history s inst own l m ->
  action (metrics s) o = Some (RPut k e off bs) -> do_op o m = Ret tt m' ->
  exists a vd, placed m (Z.of_nat k) a vd /\ placed m' (Z.of_nat k) a vd /\
    get m' (a + off) (length bs) = bs /\
    (forall x, a + off <= x < a + off + blen bs \/ gn_byte m e x \/ mb m' x = mb m x) /\
    (msz m', darr m', dat m', cur m', copy m') = (msz m, darr m, dat m, cur m, copy m).
Proof. exact (write_exact s inst own l m o k e off bs m'). Qed.
Print Assumptions set_write_exact.
Example set_write_ex : action (metrics ex_s) (OArr 2 [1; 2; 3; 4] 1 2) =
    option_map (fun e => RPut 2 e 2 [2; 0; 3; 0]) (nth_error (metrics ex_s) 2) /\
  option_map (fun e => action (metrics ex_s) (OStr 2 [65; 66])) (nth_error (metrics ex_s) 2) =
    option_map (fun e => Some (RPut 2 e 0 [65; 66; 0; 0])) (nth_error (metrics ex_s) 2).
Proof. split; vm_compute; reflexivity. Qed.

(** Where a reader sees what is written (one buffer, or no open transaction): the
    elements from [start] on are those of the source at the same indices, the others
    are as before; all other metrics are as before. *)
Theorem set_array_write s inst own l m i src start count m' k e w : history s inst own l m -> settled s m ->
  at_idx (metrics s) i = Some (k, e) -> array_type (md_type (base e)) = true -> elem (md_type (base e)) = Some w ->
  allowed (metrics s) (OArr i src start count) -> start + count <= md_count (base e) ->
  do_op (OArr i src start count) m = Ret tt m' ->
  forall j, j < md_count (base e) -> exists v, metric_array_get_w w i (Z.of_N j) m = Ret v m /\
    metric_array_get_w w i (Z.of_N j) m' =
      Ret (if (start <=? j) && (j <? start + count) then word w (nth (N.to_nat j) src 0) else v) m'.
Proof. exact (array_write s inst own l m i src start count m' k e w). Qed.
Print Assumptions set_array_write.
Theorem set_write_shows s inst own l m o k e off bs m' : history s inst own l m -> settled s m ->
  action (metrics s) o = Some (RPut k e off bs) -> do_op o m = Ret tt m' ->
  (exists V, shows m k e V /\ shows m' k e (splice (N.to_nat off) bs V)) /\
  forall k' e', k' <> k -> nth_error (metrics s) k' = Some e' -> (forall r, e' <> RecT r) ->
    exists V, shows m k' e' V /\ shows m' k' e' V.
Proof. exact (write_shows s inst own l m o k e off bs m'). Qed.
Print Assumptions set_write_shows.
Example set_array_ex : map (fun j => option_map (fun m => res (metric_array_get_w 2 2 j m))
    (run_of ex_s ex_inst (firstn 5 ex_ops ++ [OArr 2 [1; 2; 3; 70000] 2 2]))) [0; 1; 2; 3]%Z =
  [Some (Some 0); Some (Some 2); Some (Some 3); Some (Some 4464)].
Proof. vm_compute. reflexivity. Qed.

(** The setters of one element stop the program when the index is past the end or
    the metric does not exist. *)
Theorem set_element_past_end s inst own l m i j v w : history s inst own l m ->
  (at_idx (metrics s) i = None \/
   exists k e, at_idx (metrics s) i = Some (k, e) /\ (Z.of_N (md_count (base e)) <= j < 2147483648)%Z) ->
  do_op (OArrVal i j v) m = Abort /\ do_op (OArrW w i j v) m = Abort.
Proof.
  intros HH HP. split; apply (rejects s inst own l m _ HH); cbn [action]; destruct HP as [->|(k & e & -> & Hj)]; try reflexivity.
  - destruct (Z.ltb_spec j 0); [reflexivity|]. destruct (Z.leb_spec (Z.of_N (md_count (base e))) j); [reflexivity|lia].
  - destruct (Z.ltb_spec j 0); [lia|]. destruct (Z.leb_spec 2147483648 j); [lia|].
    destruct (Z.leb_spec (Z.of_N (md_count (base e))) j); [reflexivity|lia].
Qed.
Print Assumptions set_element_past_end.
Example set_element_past_end_ex : map (fun j => option_map (fun _ => tt) (run_of ex_s ex_inst [OArrVal 2 j 1])) [3; 4]%Z = [Some tt; None].
Proof. vm_compute. reflexivity. Qed.

(** The setter of a range does not reject a range past the end: it writes the part
    that fits. *)
Theorem set_array_range_refuted : exists s inst own l m i src start count m' k e v,
  history s inst own l m /\ at_idx (metrics s) i = Some (k, e) /\ array_type (md_type (base e)) = true /\
  md_count (base e) < start + count /\ do_op (OArr i src start count) m = Ret tt m' /\
  metric_array_get_w 2 i 3 m = Ret v m /\ metric_array_get_w 2 i 3 m' = Ret (v + 1) m'.
Proof.
  destruct (run_shows ex_s ex_inst (fun m => (res (metric_array_get_w 2 2 3 m),
      match do_op (OArr 2 [1; 1; 1; 1] 3 100) m with Ret _ m' => Some (res (metric_array_get_w 2 2 3 m')) | _ => None end))
      (ex_tx 0) (Some 0, Some (Some 1))) as (m & HH & _ & O); [exact ex_args|vm_compute; reflexivity|vm_compute; reflexivity|].
  assert (O1 : res (metric_array_get_w 2 2 3 m) = Some 0) by congruence.
  assert (O2 : match do_op (OArr 2 [1; 1; 1; 1] 3 100) m with Ret _ m' => Some (res (metric_array_get_w 2 2 3 m')) | _ => None end = Some (Some 1)) by congruence.
  destruct (do_op (OArr 2 [1; 1; 1; 1] 3 100) m) as [[] m'| |] eqn:HD; try discriminate.
  destruct (at_idx (metrics ex_s) 2) as [[k e]|] eqn:HE; [|vm_compute in HE; discriminate].
  exists ex_s, ex_inst, ex_own, (ex_tx 0), m, 2%Z, [1; 1; 1; 1], 3, 100, m', k, e, 0. split; [exact HH|]. split; [exact HE|].
  split; [vm_compute in HE; injection HE as <- <-; reflexivity|]. split; [vm_compute in HE; injection HE as <- <-; reflexivity|].
  split; [exact HD|]. split; [exact (ro_ret _ _ _ (ro_aget_w _ _ _) O1)|].
  apply (ro_ret _ _ _ (ro_aget_w _ _ _)). change (0 + 1) with 1. congruence.
Qed.
Print Assumptions set_array_range_refuted.

(** ** C37: transaction times *)

(** A transaction from [b] to [e], whatever is written in between: its timestamp is
    [e] and its duration is exact, with microseconds below a million. *)
Theorem set_tx_time s inst own l m b lw e m' : history s inst own l m -> Forall (allowed (metrics s)) lw -> Forall no_tx lw ->
  normal b -> normal e -> usec_of b <= usec_of e ->
  do_ops (OBegin (fst b) (snd b) :: lw ++ [OEnd (fst e) (snd e)]) m = Ret tt m' ->
  timestamp_get m' = Ret e m' /\
  exists d, duration_get m' = Ret d m' /\ snd d < 1000000 /\ usec_of d = usec_of e - usec_of b.
Proof. exact (tx_time s inst own l m b lw e m'). Qed.
Print Assumptions set_tx_time.
Example set_tx_time_ex : option_map (fun m => (res (timestamp_get m), res (duration_get m)))
    (run_of ex_s ex_inst [OBegin 10 999999; OSet 0 7; OEnd 12 1]) = Some (Some (12, 1), Some (1, 2)) /\
  usec_of (1, 2) = usec_of (12, 1) - usec_of (10, 999999).
Proof. split; vm_compute; reflexivity. Qed.

(** ** C46: descriptions *)

(** At any time the set describes itself as it was made. *)
Theorem set_described_partial s inst own l m : history s inst own l m -> described s inst m.
Proof. exact (hist_described s inst own l m). Qed.
Print Assumptions set_described_partial.
Example set_described_ex : option_map (fun m => (res (name_get m), res (metric_name_get 2 m), res (metric_unit_get 0 m), res (metric_unit_get 1 m),
    res (metric_by_name [99; 100] m), res (metric_by_name [99] m), res (metric_array_get_len 2 m))) (run_of ex_s ex_inst ex_ops) =
  Some (Some ex_inst, Some (Some [99; 100]), Some (Some [109; 115]), Some None, Some 2%Z, Some (-1)%Z, Some 4).
Proof. vm_compute. reflexivity. Qed.

(** With an instance name of 255 characters, the length and name of the schema are written over it. *)
Theorem set_described_refuted : exists s inst own m x, built s /\ is_str inst /\ create s inst own 0 ex_h = Some (Ret tt m) /\
  name_get m = Ret x m /\ x <> inst.
Proof.
  destruct (made_shows ex_s (repeat 65 255) (fun m => res (name_get m)) (Some [35; 115])) as (m & HC & O); [vm_compute; reflexivity|].
  exists ex_s, (repeat 65 255), ex_own, m, [35; 115]. split; [exact ex_built|].
  split; [apply Forall_forall; intros b Hb; apply repeat_spec in Hb; lia|]. split; [exact HC|].
  split; [exact (ro_ret _ _ _ ro_name O)|discriminate].
Qed.
Print Assumptions set_described_refuted.
