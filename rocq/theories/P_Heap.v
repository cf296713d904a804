(** Property theorems for C05 (ovis_heap) and C30 (timer heap of the event
    scheduler). *)
From Verif Require Import Base M_Heap S_Heap L_Heap.

(** * C30: the event scheduler's timer heap *)

(** C30, partial: for every history of adding, popping and re-arming timers
    (any keys, any capacity), the popped/top timer is one with the earliest
    deadline of all registered timers.  Missing: histories that also delete a
    timer (see [timer_heap_refuted]). *)
Theorem timer_heap_partial :
  forall h l, e_reach h l ->
    (forall n h', e_pop h = (Some n, h') -> minimal n l) /\
    (forall h', e_pop h = (None, h') -> l = []) /\
    (forall n, e_top h = Some n -> minimal n l).
Proof.
  intros h l Hr. split; [|split].
  - exact (fun n h' => e_pop_minimal h l n h' Hr).
  - exact (fun h' => e_pop_none h l h' Hr).
  - exact (fun n => e_top_minimal h l n Hr).
Qed.
Print Assumptions timer_heap_partial.

(** Bookkeeping half of C30, for all histories including deletions: the heap
    holds exactly the registered timers, each in the slot it records. *)
Theorem timer_heap_holds : forall h l, e_reach_rm h l -> holds h l.
Proof. exact (fun h l H => inv_holds h l (e_reach_rm_inv h l H)). Qed.
Print Assumptions timer_heap_holds.

(** The witness: timers 0..6 with deadlines 1,10,2,11,12,3,4 are added, timer 3
    is deleted (the last timer moves under a larger parent and is only sunk),
    three later timers are added, three are popped; the next pop returns the
    timer due at 10 although the one due at 4 is registered. *)
Definition timer_witness : list act :=
  [Ins 0 1; Ins 1 10; Ins 2 2; Ins 3 11; Ins 4 12; Ins 5 3; Ins 6 4; Rm 3;
   Ins 7 50; Ins 8 50; Ins 9 50; Pop; Pop; Pop].

Theorem timer_heap_refuted :
  exists h l n h', e_reach_rm h l /\ e_pop h = (Some n, h') /\ ~ minimal n l.
Proof.
  set (s := fold_left e_act timer_witness (create 16, [])).
  exists (fst s), (snd s), (arr (fst s) 0), (snd (e_pop (fst s))). split; [|split].
  - apply e_run_reach; [vm_compute; reflexivity|apply em_new].
  - apply e_pop_some. vm_compute. discriminate.
  - intros (k & Hin & Hmin).
    assert (Hk : forall k', In (arr (fst s) 0, k') (snd s) -> k' = 10%Z).
    { intros k'. vm_compute. intuition congruence. }
    apply Hk in Hin. subst k.
    specialize (Hmin 6 4%Z). assert (H64 : In (6, 4%Z) (snd s)) by (vm_compute; tauto).
    specialize (Hmin H64). lia.
Qed.
Print Assumptions timer_heap_refuted.

(** Satisfiability of the hypotheses: a reachable heap with five timers after a
    re-arm and a pop. *)
Example timer_heap_reachable :
  exists h l, e_reach h l /\ length l = 4 /\ e_top h = Some 1.
Proof.
  set (w := fold_left e_act [Ins 0 7; Ins 1 3; Ins 2 2; Ins 3 1; Ins 4 8]%Z (create 8, [])).
  set (h1 := e_update (fst w) 3 9%Z). set (l1 := (3, 9%Z) :: without 3 (snd w)).
  assert (Hr : e_reach h1 l1).
  { apply er_update; [|vm_compute; tauto].
    do 5 (eapply er_insert; [|vm_compute; intuition discriminate|apply e_insert_ok; vm_compute; discriminate]).
    apply (er_new 8). }
  exists (snd (e_pop h1)), (without (arr h1 0) l1). split; [|split].
  - apply (er_pop h1 l1 (arr h1 0)); [exact Hr|]. apply e_pop_some. vm_compute. discriminate.
  - vm_compute. reflexivity.
  - vm_compute. reflexivity.
Qed.

(** * C05: ovis_heap *)

(** C05, partial: for every history of insert, pop and update the heap holds
    exactly the elements inserted and not popped, each in the slot it records,
    and for histories of inserts only the top is minimal.  Missing (false of
    the code): minimality after pops, and conservation after a remove. *)
Theorem ovis_heap_partial :
  (forall h l, o_reach h l -> holds h l) /\
  (forall h l n, o_reach_ins h l -> o_top h = Some n -> minimal n l).
Proof.
  split.
  - exact (fun h l H => inv_holds h l (o_reach_inv h l H)).
  - exact o_top_minimal.
Qed.
Print Assumptions ovis_heap_partial.

(** The float uses parent c/2 while the sink uses children 2c+1, 2c+2: after
    three pops the fourth returns 10 although 3 is present. *)
Definition ovis_heap_witness : list act :=
  [Ins 0 0; Ins 1 1; Ins 2 10; Ins 3 2; Ins 4 10; Ins 5 10; Ins 6 3;
   Ins 7 50; Ins 8 50; Ins 9 50; Ins 10 50; Pop; Pop; Pop].

Theorem ovis_heap_pop_refuted :
  exists h l n h', o_reach_rm h l /\ o_pop h = (Some n, h') /\ ~ minimal n l.
Proof.
  set (s := fold_left o_act ovis_heap_witness (create 16, [])).
  exists (fst s), (snd s), (arr (fst s) 0), (snd (o_pop (fst s))). split; [|split].
  - apply o_run_reach; [vm_compute; reflexivity|apply om_new].
  - apply o_pop_some. vm_compute. discriminate.
  - intros (k & Hin & Hmin).
    assert (Hk : forall k', In (arr (fst s) 0, k') (snd s) -> k' = 10%Z).
    { intros k'. vm_compute. intuition congruence. }
    apply Hk in Hin. subst k.
    specialize (Hmin 6 3%Z). assert (H63 : In (6, 3%Z) (snd s)) by (vm_compute; tauto).
    specialize (Hmin H63). lia.
Qed.
Print Assumptions ovis_heap_pop_refuted.

(** A removal can lose another element and keep the removed one: elements
    0..3 with keys 0,2,1,7; removing 0 and then 1 leaves the removed element 1
    in a slot while the live element 3 is in none. *)
Definition ovis_heap_rm_witness : list act :=
  [Ins 0 0; Ins 1 2; Ins 2 1; Ins 3 7; Rm 0; Rm 1].

Theorem ovis_heap_remove_refuted :
  exists h l live gone, o_reach_rm h l /\
    In live (members l) /\ (forall i, i < sz h -> arr h i <> live) /\
    ~ In gone (members l) /\ (exists i, i < sz h /\ arr h i = gone).
Proof.
  set (s := fold_left o_act ovis_heap_rm_witness (create 16, [])).
  exists (fst s), (snd s), 3, 1. split; [|split; [|split; [|split]]].
  - apply o_run_reach; [vm_compute; reflexivity|apply om_new].
  - vm_compute. tauto.
  - assert (Hs : sz (fst s) = 2) by (vm_compute; reflexivity). rewrite Hs.
    intros i Hi. destruct i as [|[|i]]; [vm_compute; lia|vm_compute; lia|lia].
  - vm_compute. intuition discriminate.
  - exists 1. vm_compute. auto.
Qed.
Print Assumptions ovis_heap_remove_refuted.

Example ovis_heap_reachable :
  exists h l, o_reach_ins h l /\ o_top h = Some 2 /\ length l = 3.
Proof.
  set (w := fold_left o_act [Ins 0 7; Ins 1 3; Ins 2 1]%Z (create 8, [])).
  exists (fst w), (snd w). split; [|split; vm_compute; reflexivity].
  do 3 (eapply oi_insert; [|vm_compute; intuition discriminate|apply o_insert_ok; vm_compute; discriminate]).
  apply (oi_new 8).
Qed.
