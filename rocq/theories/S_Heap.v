(** Specification side for the two heaps: which states a client can reach and
    which elements are "in the heap" according to the calls made so far. *)
From Verif Require Import Base M_Heap.

(** The client's own bookkeeping: the list of (element, key) inserted and not
    yet handed back, with the key most recently given to it. *)
Definition bag := list (nat * Z).
Definition members (l : bag) : list nat := map fst l.
Definition without (n : nat) (l : bag) : bag := filter (fun e => negb (Nat.eqb (fst e) n)) l.

(** [minimal n l]: [n] is in the bag and no element of the bag precedes it. *)
Definition minimal (n : nat) (l : bag) : Prop :=
  exists k, In (n, k) l /\ forall n' k', In (n', k') l -> (k <= k')%Z.

(** Histories of the event heap without explicit removal of a timer. *)
Inductive e_reach : heap -> bag -> Prop :=
| er_new c : e_reach (create c) []
| er_insert h l n k h' : e_reach h l -> ~ In n (members l) ->
    e_insert h n k = (0%Z, h') -> e_reach h' ((n, k) :: l)
| er_full h l n k h' : e_reach h l -> ~ In n (members l) ->
    e_insert h n k = (ENOMEM, h') -> e_reach h' l
| er_pop h l n h' : e_reach h l -> e_pop h = (Some n, h') -> e_reach h' (without n l)
| er_update h l n k : e_reach h l -> In n (members l) ->
    e_reach (e_update h n k) ((n, k) :: without n l).

(** Histories of the event heap including removals. *)
Inductive e_reach_rm : heap -> bag -> Prop :=
| em_new c : e_reach_rm (create c) []
| em_insert h l n k h' : e_reach_rm h l -> ~ In n (members l) ->
    e_insert h n k = (0%Z, h') -> e_reach_rm h' ((n, k) :: l)
| em_full h l n k h' : e_reach_rm h l -> ~ In n (members l) ->
    e_insert h n k = (ENOMEM, h') -> e_reach_rm h' l
| em_pop h l n h' : e_reach_rm h l -> e_pop h = (Some n, h') -> e_reach_rm h' (without n l)
| em_update h l n k : e_reach_rm h l -> In n (members l) ->
    e_reach_rm (e_update h n k) ((n, k) :: without n l)
| em_remove h l n : e_reach_rm h l -> e_reach_rm (e_remove h n) (without n l).

(** Histories of ovis_heap (heap.c).  [o_reach_rm] includes removals,
    [o_reach] excludes them, [o_reach_ins] has insertions only. *)
Inductive o_reach_rm : heap -> bag -> Prop :=
| om_new c : o_reach_rm (create c) []
| om_insert h l n k h' : o_reach_rm h l -> ~ In n (members l) ->
    o_insert h n k = (0%Z, h') -> o_reach_rm h' ((n, k) :: l)
| om_full h l n k h' : o_reach_rm h l -> ~ In n (members l) ->
    o_insert h n k = (ENOMEM, h') -> o_reach_rm h' l
| om_pop h l n h' : o_reach_rm h l -> o_pop h = (Some n, h') -> o_reach_rm h' (without n l)
| om_update h l n k : o_reach_rm h l -> In n (members l) ->
    o_reach_rm (o_update h n k) ((n, k) :: without n l)
| om_remove h l n : o_reach_rm h l -> In n (members l) ->
    o_reach_rm (o_remove h n) (without n l).

Inductive o_reach : heap -> bag -> Prop :=
| or_new c : o_reach (create c) []
| or_insert h l n k h' : o_reach h l -> ~ In n (members l) ->
    o_insert h n k = (0%Z, h') -> o_reach h' ((n, k) :: l)
| or_full h l n k h' : o_reach h l -> ~ In n (members l) ->
    o_insert h n k = (ENOMEM, h') -> o_reach h' l
| or_pop h l n h' : o_reach h l -> o_pop h = (Some n, h') -> o_reach h' (without n l)
| or_update h l n k : o_reach h l -> In n (members l) ->
    o_reach (o_update h n k) ((n, k) :: without n l).

Inductive o_reach_ins : heap -> bag -> Prop :=
| oi_new c : o_reach_ins (create c) []
| oi_insert h l n k h' : o_reach_ins h l -> ~ In n (members l) ->
    o_insert h n k = (0%Z, h') -> o_reach_ins h' ((n, k) :: l)
| oi_full h l n k h' : o_reach_ins h l -> ~ In n (members l) ->
    o_insert h n k = (ENOMEM, h') -> o_reach_ins h' l.

(** The slots of the heap hold exactly the bag: every member sits in the slot
    its index field names, and nothing else does. *)
Definition holds (h : heap) (l : bag) : Prop :=
  sz h = length l /\
  (forall i, i < sz h -> In (arr h i) (members l) /\ idx h (arr h i) = Z.of_nat i) /\
  (forall n k, In (n, k) l -> key h n = k /\ exists i, i < sz h /\ arr h i = n).
