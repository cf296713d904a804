(** Model of a storage policy, ldms/src/ldmsd/ldmsd_strgp.c:192-232, 425-746, with
    ldmsd_prdcr.c:1378-1424 and the stores in updtr_update_cb (ldmsd_updtr.c:247-268), for
    policies without decomposition.

    Simplified: each function is one step (what can come between is the last part); names of
    metrics are numbers; two sets have the same digest exactly if they have the same metric
    names in the same order; a set is here from when it is ready until it is deleted; memory does
    not run out. *)
From Coq Require Export List ZArith Bool.
Export ListNotations.

(** A ready set of a producer: name, its metrics, whether the policy selects it (by producer
    and schema), and the references to the policy in its strgp_list *)
Record pset := mkP { p_name : nat; p_metrics : list nat; p_match : bool; p_ref : bool }.
(** struct ldmsd_strgp: state RUNNING, store_handle, digest, metric_list, metric_arry with
    metric_count (of the last open), prdset_cnt; and how many metric_arry are allocated *)
Record state := mkSt { running : bool; handle : bool; digest : option (list nat); mlist : list nat; arry : list nat; cnt : Z; arrays : nat; sets : list pset }.
(** 234-258 ldmsd_strgp_new_with_auth *)
Definition init : state := mkSt false false None [] [] 0 0 [].

Fixpoint eqs (a b : list nat) : bool := match a, b with [], [] => true | x :: a, y :: b => Nat.eqb x y && eqs a b | _, _ => false end.
(** ldms_metric_by_name: the first of that name *)
Fixpoint by_name (ms : list nat) (m : nat) : option nat :=
  match ms with [] => None | x :: r => if Nat.eqb x m then Some O else option_map S (by_name r m) end.
(** 572-581: the indices of the metrics of the list *)
Fixpoint indices (ms l : list nat) : option (list nat) :=
  match l with
  | [] => Some []
  | m :: r => match by_name ms m, indices ms r with Some i, Some is => Some (i :: is) | _, _ => None end
  end.

(** 517-607 strgp_open; [ok]: the store plugin opens the container.  On failure the array is
    freed (then metric_arry is NULL), and a digest that was there is kept; the metrics that were
    added to an empty list stay. *)
Definition open (ok : bool) (p : pset) (s : state) : bool * state :=
  let l := match mlist s with [] => p_metrics p | l => l end in
  let fail := (false, mkSt (running s) false (digest s) l [] (cnt s) (arrays s) (sets s)) in
  if match digest s with Some d => eqs d (p_metrics p) | None => true end
  then match indices (p_metrics p) l with
       | None => fail
       | Some a => if ok then (true, mkSt (running s) true (Some (p_metrics p)) l a (cnt s) (S (arrays s)) (sets s)) else fail
       end
  else fail.
Definition put_set (p : pset) (s : state) : state :=
  mkSt (running s) (handle s) (digest s) (mlist s) (arry s) (cnt s) (arrays s)
       (map (fun q => if Nat.eqb (p_name q) (p_name p) then p else q) (sets s)).
Definition with_ref (b : bool) (p : pset) : pset := mkP (p_name p) (p_metrics p) (p_match p) b.
Definition add_cnt (d : Z) (s : state) : state := mkSt (running s) (handle s) (digest s) (mlist s) (arry s) (cnt s + d) (arrays s) (sets s).
(** 625-692 ldmsd_strgp_update_prdcr_set, with the match of producer and schema, of a running policy *)
Definition attach (ok : bool) (p : pset) (s : state) : state :=
  if negb (p_match p) || p_ref p (* EEXIST *) then s
  else if match digest s with Some d => negb (eqs d (p_metrics p)) | None => false end then s
  else
    let '(b, s) := if handle s then (true, s) else open ok p s in
    if b then add_cnt 1 (put_set (with_ref true p) s) else s.
(** the same of a policy that is stopped: prdset_cnt is not changed *)
Definition detach (p : pset) : pset := if p_match p && p_ref p then with_ref false p else p.
(** ldmsd_prdcr.c:1378-1424 ldmsd_prdcr_update of a running policy; of one that is stopped it is [map detach] *)
Fixpoint attach_all (ok : bool) (l : list pset) (s : state) : state :=
  match l with [] => s | p :: r => attach_all ok r (attach ok p s) end.

Inductive op :=
| Start (ok : bool) | Stop          (** strgp_start, strgp_stop *)
| MetricAdd (m : nat) | MetricDel (m : nat)
| Ready (i : nat) (ms : list nat) (match_ : bool) (ok : bool)  (** a set is looked up: ldmsd_strgp_update *)
| Gone (i : nat)                    (** it is deleted: __prdcr_set_del *)
| Update (i : nat).                 (** an update of it with new data completes *)

(** What is seen: the error code, or what the store plugin is given: the set and the metric indices *)
Inductive out := Rc (n : Z) | Stored (i : nat) (l : list nat).
Definition EBUSY : Z := 16.
Definition EEXIST : Z := 17.

Definition set_running (b : bool) (s : state) : state := mkSt b (handle s) (digest s) (mlist s) (arry s) (cnt s) (arrays s) (sets s).
Definition set_handle (b : bool) (s : state) : state := mkSt (running s) b (digest s) (mlist s) (arry s) (cnt s) (arrays s) (sets s).
Definition set_list (l : list nat) (s : state) : state := mkSt (running s) (handle s) (digest s) l (arry s) (cnt s) (arrays s) (sets s).
Definition set_sets (l : list pset) (s : state) : state := mkSt (running s) (handle s) (digest s) (mlist s) (arry s) (cnt s) (arrays s) l.
Definition find_set (i : nat) (l : list pset) : option pset := find (fun p => Nat.eqb (p_name p) i) l.
Definition member (m : nat) (l : list nat) : bool := existsb (Nat.eqb m) l.

Definition step (s : state) (o : op) : state * out :=
  match o with
  | Start ok => (* 724-745 *)
      if running s then (s, Rc EBUSY) else (attach_all ok (sets s) (set_running true s), Rc 0)
  | Stop => (* 761-783, 503-513 *)
      if running s then (set_sets (map detach (sets s)) (set_running false (set_handle false s)), Rc 0) else (s, Rc EBUSY)
  | MetricAdd m => (* 425-455 *)
      if running s then (s, Rc EBUSY) else if member m (mlist s) then (s, Rc EEXIST) else (set_list (mlist s ++ [m]) s, Rc 0)
  | MetricDel m => (* 457-485 *)
      if running s then (s, Rc EBUSY)
      else if member m (mlist s) then (set_list (filter (fun x => negb (Nat.eqb x m)) (mlist s)) s, Rc 0) else (s, Rc EEXIST)
  | Ready i ms b ok => (* 700-722 *)
      match find_set i (sets s) with
      | Some _ => (s, Rc 0)
      | None => let p := mkP i ms b false in let s := set_sets (p :: sets s) s in (if running s then attach ok p s else s, Rc 0)
      end
  | Gone i => (* ldmsd_prdcr.c:138-146 *)
      match find_set i (sets s) with
      | None => (s, Rc 0)
      | Some p => (add_cnt (if p_ref p then -1 else 0) (set_sets (filter (fun q => negb (Nat.eqb (p_name q) i)) (sets s)) s), Rc 0)
      end
  | Update i => (* ldmsd_updtr.c:255-268, 192-232 strgp_update_fn *)
      match find_set i (sets s) with
      | Some p => if p_ref p && running s
                  then if handle s then (s, Stored i (arry s)) else (set_running false s, Rc 0)
                  else (s, Rc 0)
      | None => (s, Rc 0)
      end
  end.
Fixpoint run (s : state) (l : list op) : state * list out :=
  match l with [] => (s, []) | o :: r => let '(s, x) := step s o in let '(s, xs) := run s r in (s, x :: xs) end.

(** ** Starts and stops that overlap *)
(** The locks: of the policy, of the list of producers, of a producer, of a set *)
Inductive lock := LS | LC | LR | LP (i : nat).
Definition lock_eqb (a b : lock) : bool :=
  match a, b with LS, LS | LC, LC | LR, LR => true | LP i, LP j => Nat.eqb i j | _, _ => false end.
(** What a thread does: take and release locks; leave if the policy is not in the state wanted,
    else set the other *)
Inductive act := Acq (l : lock) | Rel (l : lock) | Flip (from : bool).
(** ldmsd_prdcr.c:1378-1424 for one producer: the policy is unlocked for each set until the set is locked *)
Definition update_acts (n : nat) : list act :=
  [Acq LC; Acq LR] ++ flat_map (fun i => [Rel LS; Acq (LP i); Acq LS; Rel (LP i)]) (seq 0 n) ++ [Rel LR; Rel LC].
(** 723-743 __ldmsd_strgp_start and 757-777 __ldmsd_strgp_stop *)
Definition start_acts (n : nat) : list act := [Acq LS; Flip false] ++ update_acts n ++ [Rel LS].
Definition stop_acts (n : nat) : list act := [Acq LS; Flip true] ++ update_acts n ++ [Rel LS].
(** ldmsd_updtr.c:213-283 updtr_update_cb of a set that the policy stores *)
Definition store_acts (i : nat) : list act := [Acq (LP i); Acq LS; Rel LS; Rel (LP i)].
(** Who holds which lock; the rest of what each thread does; state RUNNING *)
Record conc := mkC { held : list (lock * nat); todo : list (list act); isrun : bool }.
Definition holder (l : lock) (h : list (lock * nat)) : option nat := option_map snd (find (fun x => lock_eqb (fst x) l) h).
Fixpoint set_nth {A} (l : list A) (k : nat) (x : A) : list A :=
  match l, k with [], _ => [] | _ :: r, O => x :: r | y :: r, S k => y :: set_nth r k x end.
(** Thread [t] goes on; [None]: it has to wait, or it is done *)
Definition go (t : nat) (c : conc) : option conc :=
  match nth_error (todo c) t with
  | Some (Acq l :: r) => match holder l (held c) with None => Some (mkC ((l, t) :: held c) (set_nth (todo c) t r) (isrun c)) | Some _ => None end
  | Some (Rel l :: r) => Some (mkC (filter (fun x => negb (lock_eqb (fst x) l)) (held c)) (set_nth (todo c) t r) (isrun c))
  | Some (Flip b :: r) => if Bool.eqb (isrun c) b then Some (mkC (held c) (set_nth (todo c) t r) (negb b))
                          else Some (mkC (held c) (set_nth (todo c) t [Rel LS]) (isrun c))
  | _ => None
  end.
Fixpoint goes (ts : list nat) (c : conc) : option conc := match ts with [] => Some c | t :: r => match go t c with Some c => goes r c | None => None end end.
