(** Theorems about the prefix tree (C08). *)
From Verif Require Import L_Idx.
From Verif Require Export S_Idx.
Local Open Scope N_scope.

(** The results of a session are those of an ordered finite map.  The bound: obj_count
    is an int, and idx_delete decrements it also when there is nothing to delete. *)
Theorem idx_is_ordered_map ops os t : (Z.of_nat (length ops) < INT_MAX)%Z -> Forall valid_op ops -> isession idx_create ops os t ->
  exists M, iwants ops [] os M.
Proof. intros HB HV HS. destruct (isession_ok _ _ _ _ HS 0%Z [] ltac:(lia) HB rep_new HV) as (M & HW & _). eauto. Qed.
Print Assumptions idx_is_ordered_map.
(** The map is in order all the time, so traversal is by ascending key. *)
Theorem idx_traverse_sorted op M o M' : StronglySorted before M -> iwant op M o M' -> StronglySorted before M'.
Proof. intros HS HW. destruct HW; auto; [now apply mset_srt|now apply mdel_srt]. Qed.
Print Assumptions idx_traverse_sorted.
(** The laws of the map *)
Theorem idx_map_laws M k o k' : StronglySorted before M -> Forall (fun p => snd p <> 0) M -> o <> 0 ->
  mget (mset M k o) k' = (if list_eq_dec N.eq_dec k' k then o else mget M k') /\
  mget (mdel M k) k' = (if list_eq_dec N.eq_dec k' k then 0 else mget M k').
Proof.
  intros HS HZ Ho. assert (HX : forall A B, srt A -> srt B -> nz A -> nz B -> forall q, (forall w, w <> 0 -> In (q, w) A <-> In (q, w) B) -> mget A q = mget B q).
  { intros A B HA HB ZA ZB q H. destruct (N.eq_dec (mget A q) 0) as [E|E].
    - destruct (N.eq_dec (mget B q) 0) as [E'|E']; [congruence|]. pose proof (proj2 (mget_in B q _ HB ZB E') eq_refl) as Hin. apply H in Hin; [|exact E']. apply mget_in in Hin; auto.
    - symmetry. apply mget_in; auto. apply H; [exact E|]. now apply mget_in. }
  assert (Zs : nz (mset M k o)). { apply Forall_forall. intros [q w] Hin. apply mset_in in Hin; [|exact HS]. rewrite Forall_forall in HZ. destruct Hin as [[_ ->]|[_ Hin]]; [exact Ho|exact (HZ _ Hin)]. }
  assert (Zd : nz (mdel M k)). { apply Forall_forall. intros [q w] Hin. apply mdel_in in Hin. rewrite Forall_forall in HZ. exact (HZ _ (proj2 Hin)). }
  split; destruct (list_eq_dec N.eq_dec k' k) as [->|Hn].
  - apply mget_in; auto; [now apply mset_srt|]. apply mset_in; auto.
  - apply HX; auto; [now apply mset_srt|]. intros w Hw. rewrite mset_in by exact HS. split; [intros [[H _]|[_ H]]; [contradiction|exact H]|intros H; right; auto].
  - destruct (N.eq_dec (mget (mdel M k) k) 0) as [E|E]; [exact E|]. pose proof (proj2 (mget_in _ k _ (mdel_srt _ k HS) Zd E) eq_refl) as Hin. apply mdel_in in Hin. now destruct Hin.
  - apply HX; auto; [now apply mdel_srt|]. intros w Hw. rewrite mdel_in. split; [now intros [_ H]|auto].
Qed.
Print Assumptions idx_map_laws.
(** Every next operation is defined, but that a delete needs [deletable].  The full
    claim has no such condition; see idx_delete_aborts_refuted. *)
Theorem idx_defined_partial ops os t op : (Z.of_nat (length ops) < INT_MAX)%Z -> Forall valid_op ops -> isession idx_create ops os t ->
  valid_op op -> (match op with IDel k after => deletable k after | _ => True end) -> exists o t', ido op t = Ok (o, t').
Proof.
  intros HB HV HS HO HD. destruct (isession_ok _ _ _ _ HS 0%Z [] ltac:(lia) HB rep_new HV) as (M & HW & HR).
  destruct (ido_ok (0 + Z.of_nat (length ops)) op t M ltac:(lia) HR HO) as (o & t' & M' & E & _); [|eauto]. destruct op; auto.
Qed.
Print Assumptions idx_defined_partial.
(** A delete of a key that is there, and not [deletable], never returns. *)
Theorem idx_delete_never_returns ops os M t k after o : (Z.of_nat (length ops) < INT_MAX)%Z -> Forall valid_op ops -> isession idx_create ops os t ->
  valid_key k -> ido (IFind k []) t = Ok (Obj o, M) -> o <> 0 -> ~ deletable k after -> ido (IDel k after) t = Abort \/ ido (IDel k after) t = UB.
Proof.
  intros HB HV HS HK HF Ho HD. destruct (isession_ok _ _ _ _ HS 0%Z [] ltac:(lia) HB rep_new HV) as (M0 & HW & HR). cbn [ido] in HF. rewrite idx_find_get in HF. cbn [bindr] in HF. injection HF as HF _.
  assert (HP : path t k) by (apply get_path; [exact (proj1 HK)|congruence]). cbn [ido]. rewrite (idel_bad (0 + Z.of_nat (length ops)) k after t ltac:(lia) (proj1 HR) HK HP HD).
  destruct (list_eq_dec _ _ _); [|now left]. destruct k as [|? [|? ?]]; [now left|now right|now left].
Qed.
Print Assumptions idx_delete_never_returns.

(** Adding and deleting the key 01 ff 02 aborts the process. *)
Theorem idx_delete_aborts_refuted : exists k o t1, valid_key k /\ ido (IAdd k [] o (fun _ => true)) idx_create = Ok (Rc 0, t1) /\ ido (IDel k []) t1 = Abort.
Proof.
  exists [1; 255; 2], 7. destruct (ido (IAdd [1; 255; 2] [] 7 (fun _ => true)) idx_create) as [[r t]| |] eqn:E; [|vm_compute in E; discriminate..].
  exists t. split; [split; [discriminate|repeat constructor]|]. split.
  - f_equal. f_equal. apply (f_equal (fun x => match x with Ok (r, _) => r | _ => r end)) in E. rewrite <- E. vm_compute. reflexivity.
  - assert (X : bindr (ido (IAdd [1; 255; 2] [] 7 (fun _ => true)) idx_create) (fun r => bindr (ido (IDel [1; 255; 2] []) (snd r)) (fun _ => Ok tt)) = Abort) by (vm_compute; reflexivity).
    rewrite E in X. cbn [bindr snd] in X. destruct (ido (IDel [1; 255; 2] []) t); cbn [bindr] in X; congruence.
Qed.
Print Assumptions idx_delete_aborts_refuted.
(** Deleting a key of one byte reads the byte behind the key, and aborts if it is 255. *)
Theorem idx_delete_overread_refuted : exists k, valid_key k /\ ido (IDel k []) idx_create = UB /\ ido (IDel k [255]) idx_create = Abort.
Proof. exists [65]. split; [split; [discriminate|repeat constructor]|]. split; vm_compute; reflexivity. Qed.
Print Assumptions idx_delete_overread_refuted.
(** An empty key is undefined behaviour in idx_add, not an error. *)
Theorem idx_add_empty_refuted : exists o, o <> 0 /\ ido (IAdd [] [1; 2; 3] o (fun _ => true)) idx_create = UB.
Proof. exists 1. split; [discriminate|vm_compute; reflexivity]. Qed.
Print Assumptions idx_add_empty_refuted.

(** Example: a session with prefixes of each other, a failing malloc, a delete *)
Fixpoint irun (ops : list iop) (t : layer) : res (list iout * layer) :=
  match ops with
  | [] => Ok ([], t)
  | op :: ops => bindr (ido op t) (fun r => bindr (irun ops (snd r)) (fun q => Ok (fst r :: fst q, snd q)))
  end.
Lemma irun_ok : forall ops t os t', irun ops t = Ok (os, t') -> isession t ops os t'.
Proof.
  induction ops as [|op ops IH]; intros t os t' E; cbn [irun] in E; [injection E as <- <-; constructor|].
  destruct (ido op t) as [[o t1]| |] eqn:E1; [|discriminate..]. cbn [bindr fst snd] in E. destruct (irun ops t1) as [[os1 t2]| |] eqn:E2; [|discriminate..]. cbn [bindr fst snd] in E. injection E as <- <-.
  econstructor; [exact E1|now apply IH].
Qed.
Definition ex_ops : list iop :=
  [IAdd [2; 5] [] 20 (fun _ => true); IAdd [2] [] 10 (fun _ => true); IAdd [1; 9; 255] [] 30 (fun _ => true); IAdd [2; 5] [] 99 (fun _ => true);
   IAdd [7; 7] [] 40 (fun _ => false); ITraverse; IFind [2; 5] []; IDel [1; 9; 255] []; IDel [2] [0]; IDel [3; 3] []; ICount; ITraverse].
Example ex_idx : Forall valid_op ex_ops /\ exists t, isession idx_create ex_ops
  [Rc 0; Rc 0; Rc 0; Rc EEXIST; Rc ENOMEM; Objs [30; 10; 20]; Obj 20; Obj 30; Obj 10; Obj 0; Cnt 1; Objs [20]] t.
Proof.
  split; [repeat constructor; discriminate|].
  assert (X : bindr (irun ex_ops idx_create) (fun r => Ok (fst r)) = Ok [Rc 0; Rc 0; Rc 0; Rc EEXIST; Rc ENOMEM; Objs [30; 10; 20]; Obj 20; Obj 30; Obj 10; Obj 0; Cnt 1; Objs [20]]) by (vm_compute; reflexivity).
  destruct (irun ex_ops idx_create) as [[os t]| |] eqn:E; [|discriminate..]. cbn [bindr fst] in X. injection X as ->. exists t. now apply irun_ok.
Qed.
