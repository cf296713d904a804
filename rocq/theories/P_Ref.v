(** C38: reference counts. *)
From Verif Require Import L_Ref.
From Coq Require Import Lia ZifyBool ZifyNat.
Local Open Scope Z_scope.

(** Whatever the threads that hold references do, and in whatever order: every step
    that a holder can take finds the object alive. *)
Theorem reference_alive l h n o s : exec l h n o -> may s h (dying o) -> Z.of_nat (total_after s n) < 2147483648 ->
  do_step s o <> None.
Proof. intros E HM HS. destruct (inv_step l h n o s (exec_inv _ _ _ _ E) HM HS) as (o' & -> & _). discriminate. Qed.

(** As long as a thread holds a reference nothing was released and nobody is about
    to; the release function is called at most once. *)
Theorem reference_not_early l h n o t : exec l h n o -> (0 < h t)%nat -> frees o = O /\ dying o = [].
Proof.
  intros E Ht. pose proof (exec_inv _ _ _ _ E) as I. destruct (Nat.eq_dec n 0) as [->|Hn].
  - pose proof (proj2 (inv_released _ _ _ _ I) eq_refl t). lia.
  - destruct (i_live _ _ _ _ I); [lia|auto].
Qed.
Theorem reference_once l h n o : exec l h n o -> (frees o <= 1)%nat.
Proof.
  intros E. pose proof (exec_inv _ _ _ _ E) as I. destruct (Nat.eq_dec n 0) as [->|Hn].
  - destruct (i_dead _ _ _ _ I eq_refl) as [(t & _ & ->)|[_ ->]]; lia.
  - destruct (i_live _ _ _ _ I) as [_ ->]; lia.
Qed.
(** When no reference is left, either it was released, or exactly one thread, the
    one that dropped the last reference, is on its way to do it. *)
Theorem reference_released l h n o : exec l h n o -> released h -> (frees o + length (dying o) = 1)%nat.
Proof.
  intros E HR. pose proof (exec_inv _ _ _ _ E) as I. apply (inv_released _ _ _ _ I) in HR as ->.
  destruct (i_dead _ _ _ _ I eq_refl) as [(t & -> & ->)|[-> ->]]; reflexivity.
Qed.
(** No reference is left exactly when the drops outnumber the takes by one (the
    initial reference). *)
Theorem reference_balance l h n o : exec l h n o -> (released h <-> puts l = gets l + 1)%nat.
Proof.
  intros E. pose proof (exec_inv _ _ _ _ E) as I. rewrite (inv_released _ _ _ _ I). pose proof (i_bal _ _ _ _ I). lia.
Qed.
(** The thread on its way is the one whose drop balanced the takes. *)
Theorem reference_last_put l h n o t o' : exec l h n o -> (0 < h t)%nat -> do_step (SPut t) o = Some o' ->
  dying o' = (if (puts l + 1 =? gets l + 1)%nat then [t] else []).
Proof.
  intros E Ht HD. pose proof (exec_inv _ _ _ _ E) as I.
  destruct (reference_not_early _ _ _ _ _ E Ht) as [F D].
  assert (n <> O) by (intros ->; pose proof (proj2 (inv_released _ _ _ _ I) eq_refl t); lia).
  assert (HN : Z.of_nat n < 2147483648).
  { clear -E. destruct E as [|l h n o s o' E HM HS HD]; [lia|exact HS]. }
  cbn [do_step] in HD. rewrite F, D in HD. injection HD as <-. cbn [dying]. rewrite (i_cnt _ _ _ _ I), i32_small by lia. pose proof (i_bal _ _ _ _ I).
  destruct (Z.eqb_spec (Z.of_nat n - 1) 0), (Nat.eqb_spec (puts l + 1) (gets l + 1)); try reflexivity; lia.
Qed.

(** Two threads: 0 takes a second reference, hands it to 1, both drop, 1 last. *)
Definition demo := [SGet 0; SPass 0 1; SPut 0; SPut 1; SFree 1]%nat.
Example reference_ex : exists h n o, exec demo h n o /\ released h /\ n = O /\ o = mkO 0 [] 1 /\ puts demo = 2%nat /\ gets demo = 1%nat.
Proof.
  do 3 eexists. split.
  - change demo with (((((([] ++ [SGet 0]) ++ [SPass 0 1]) ++ [SPut 0]) ++ [SPut 1]) ++ [SFree 1])%nat).
    refine (ex_step _ _ _ _ _ _ _ _ _ _). refine (ex_step _ _ _ _ _ _ _ _ _ _). refine (ex_step _ _ _ _ _ _ _ _ _ _).
    refine (ex_step _ _ _ _ _ _ _ _ _ _). refine (ex_step _ _ _ _ _ _ _ _ _ _). exact (ex_start 0).
    all: first [reflexivity|cbn; lia|cbn; auto].
  - split; [|repeat split]. intros [|[|t]]; reflexivity.
Qed.
(** A state in the middle: 1 still holds a reference after 0 dropped its own. *)
Example reference_mid_ex : exists h n o, exec [SGet 0; SPass 0 1; SPut 0]%nat h n o /\ h 1%nat = 1%nat /\ o = mkO 1 [] 0.
Proof.
  do 3 eexists. split.
  - change [SGet 0; SPass 0 1; SPut 0]%nat with (((([] ++ [SGet 0]) ++ [SPass 0 1]) ++ [SPut 0])%nat).
    refine (ex_step _ _ _ _ _ _ _ _ _ _). refine (ex_step _ _ _ _ _ _ _ _ _ _). refine (ex_step _ _ _ _ _ _ _ _ _ _). exact (ex_start 0).
    all: first [reflexivity|cbn; lia].
  - split; reflexivity.
Qed.

(** ** With tracking *)

(** A fair use never aborts, and releases exactly when the last reference, whatever
    its name, is dropped. *)
Theorem reference_tracked n0 l : fair n0 l ->
  exists o, t_run l (t_init n0) = TRet o /\ tfrees o = (if Z.eqb (all l) 0 then 1 else 0)%nat.
Proof. intros HF. destruct (fair_tracks n0 l HF) as (o & E & _ & _ & _ & _ & T & _). eauto. Qed.
(** Dropping a reference under a name that has none is always caught, although other
    references exist. *)
Theorem reference_tracked_caught n0 l n : fair n0 l -> 0 < all l -> named n0 n l <= 0 ->
  t_run (l ++ [TPut n]) (t_init n0) = TAbort.
Proof.
  intros HF HA HN. destruct (fair_tracks n0 l HF) as (o & E & T1 & T2 & T3 & T4 & T5 & T6). rewrite t_run_app, E. cbn [t_do]. unfold t_put.
  rewrite T5, T6, T1. destruct (Z.eqb_spec (all l) 0); [lia|]. specialize (T4 n). destruct (count_of n (insts o)) as [c|] eqn:EC; [|reflexivity].
  destruct (Z.eqb_spec c 0) as [|Hc]; [reflexivity|]. exfalso.
  assert (0 <= c); [|lia]. clear -EC T3. induction (insts o) as [|[k x] q IH]; [discriminate|]. cbn [count_of] in EC. inversion_clear T3.
  destruct (Nat.eqb k n); [injection EC as <-; assumption|auto].
Qed.
(** The names never matter for when it is released: no fair use drops more than it
    took. *)
Theorem reference_tracked_nonneg n0 l n : fair n0 l -> 0 <= named n0 n l <= all l.
Proof.
  intros HF. destruct (fair_tracks n0 l HF) as (o & E & T1 & T2 & T3 & T4 & T5 & T6). rewrite T4, <- T2.
  assert (0 <= sums (insts o)) by (unfold sums; clear -T3; induction T3; cbn [map fold_right]; lia).
  destruct (count_of n (insts o)) as [c|] eqn:EC; [|lia]. split; [|exact (count_sums _ _ _ EC T3)].
  clear -EC T3. induction (insts o) as [|[k x] q IH]; [discriminate|]. cbn [count_of] in EC. inversion_clear T3.
  destruct (Nat.eqb k n); [injection EC as <-; assumption|auto].
Qed.
Definition tdemo := [TGet 5; TGet 5; TPut 5; TPut 3]%nat.
Example reference_tracked_ex : fair 3 tdemo /\ all tdemo = 1 /\ named 3 5 tdemo = 1 /\ named 3 3 tdemo = 0 /\
  t_run (tdemo ++ [TPut 3%nat]) (t_init 3) = TAbort /\ t_run (tdemo ++ [TPut 5%nat]) (t_init 3) = TRet (mkTO 0 [(5%nat, 0); (3%nat, 0)] true 1).
Proof.
  split; [|repeat split].
  change tdemo with ((((([] ++ [TGet 5]) ++ [TGet 5]) ++ [TPut 5]) ++ [TPut 3])%nat). rewrite !fair_app.
  split; [split; [split; [split|]|]|]; try reflexivity. intros l1 p l2 Q. destruct l1; discriminate.
Qed.

Print Assumptions reference_alive.
Print Assumptions reference_not_early.
Print Assumptions reference_once.
Print Assumptions reference_released.
Print Assumptions reference_balance.
Print Assumptions reference_last_put.
Print Assumptions reference_tracked.
Print Assumptions reference_tracked_caught.
Print Assumptions reference_tracked_nonneg.
