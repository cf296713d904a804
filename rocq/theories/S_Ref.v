(** What reference counts should do. *)
From Verif Require Export M_Ref.
Local Open Scope Z_scope.

(** ** Holders: the number of references each thread holds *)
Definition holders := nat -> nat.
Definition set (h : holders) (t n : nat) : holders := fun u => if Nat.eqb u t then n else h u.
Definition start (t : nat) : holders := set (fun _ => O) t 1%nat.
(** What a holder may do: take another reference, drop one, hand one over; a thread
    that dropped the last one goes on to call free_fn ([d]: those threads). *)
Definition may (s : step) (h : holders) (d : list nat) : Prop :=
  match s with
  | SGet t => (0 < h t)%nat
  | SPut t => (0 < h t)%nat
  | SPass t _ => (0 < h t)%nat
  | SFree t => In t d
  end.
Definition holds_after (s : step) (h : holders) : holders :=
  match s with
  | SGet t => set h t (S (h t))
  | SPut t => set h t (h t - 1)
  | SPass t u => let h' := set h t (h t - 1) in set h' u (S (h' u))
  | SFree _ => h
  end.
(** The number of references held by all threads, at any time: [n] *)
Definition total_after (s : step) (n : nat) : nat :=
  match s with SGet _ => S n | SPut _ => n - 1 | _ => n end.
(** An execution: threads take steps in any order, with fewer than 2^31 references
    outstanding. *)
Inductive exec : list step -> holders -> nat -> obj -> Prop :=
| ex_start t : exec [] (start t) 1 ref_init
| ex_step l h n o s o' : exec l h n o -> may s h (dying o) -> Z.of_nat (total_after s n) < 2147483648 ->
    do_step s o = Some o' -> exec (l ++ [s]) (holds_after s h) (total_after s n) o'.
(** No thread holds a reference *)
Definition released (h : holders) : Prop := forall t, h t = O.
Definition puts (l : list step) : nat := length (filter (fun s => match s with SPut _ => true | _ => false end) l).
Definition gets (l : list step) : nat := length (filter (fun s => match s with SGet _ => true | _ => false end) l).

(** ** With tracking: references by name *)
Inductive top := TGet (n : nat) | TPut (n : nat).
Definition t_do (p : top) (o : tobj) : tout := match p with TGet n => t_get n o | TPut n => t_put n o end.
Fixpoint t_run (l : list top) (o : tobj) : tout :=
  match l with [] => TRet o | p :: l => match t_do p o with TRet o' => t_run l o' | x => x end end.
(** The references named [n] after [l], the first being named [n0] *)
Definition named (n0 n : nat) (l : list top) : Z :=
  (if Nat.eqb n0 n then 1 else 0) +
  fold_right Z.add 0 (map (fun p => match p with TGet m => if Nat.eqb m n then 1 else 0 | TPut m => if Nat.eqb m n then -1 else 0 end) l).
Definition all (l : list top) : Z :=
  1 + fold_right Z.add 0 (map (fun p => match p with TGet _ => 1 | TPut _ => -1 end) l).
(** A use is fair if some reference exists at each get, and one of that name at each
    put. *)
Definition fair (n0 : nat) (l : list top) : Prop :=
  forall l1 p l2, l = l1 ++ p :: l2 ->
    match p with TGet _ => 0 < all l1 | TPut n => 0 < named n0 n l1 end.
