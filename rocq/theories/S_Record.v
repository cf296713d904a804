(** What record arrays and the members of their instances should do. *)
From Verif Require Export S_Set M_Record.
Local Open Scope N_scope.

(** The record type of record array [e]. *)
Definition type_of (es : list entry) (e : entry) : option recdef :=
  match e with
  | RecA _ rt _ => match nth_error es (N.to_nat rt) with Some (RecT r) => Some r | _ => None end
  | _ => None
  end.
(** Member [i] of instance [j] of the record array that is metric [k]. *)
Definition member (es : list entry) (k j i : Z) : option mdef :=
  match at_idx es k with
  | Some (_, RecA d rt isz) =>
    if (0 <=? j)%Z && (j <? Z.of_N (md_count d))%Z && (0 <=? i)%Z then
      match type_of es (RecA d rt isz) with
      | Some r => match nth_error (rc_ms r) (Z.to_nat i) with
                  | Some x => if elem (md_type x) then Some x else None   (* numbers and arrays of them *)
                  | None => None
                  end
      | None => None
      end
    else None
  | _ => None
  end.

(** ** Programs *)
(** ldms_metric_get, then ldms_record_array_get_inst. *)
Definition inst_at (k j : Z) : prog (option N) :=
  a <- metric_get k ;; match a with Some ra => array_get_inst ra j | None => ret None end.
Definition with_inst {A} (k j : Z) (f : N -> prog A) : prog A :=
  p <- inst_at k j ;; match p with Some r => f r | None => wild end.
Inductive rop :=
| ROp (o : op)
| RVal (k j i : Z) (v : N)
| RSetW (w : N) (k j i : Z) (v : N)
| RArrW (w : N) (k j i x : Z) (v : N)
| RStr (k j i : Z) (str : list byte).
Definition do_rop (o : rop) : prog unit :=
  match o with
  | ROp o => do_op o
  | RVal k j i v => with_inst k j (fun p => record_metric_set p i v)
  | RSetW w k j i v => with_inst k j (fun p => record_set_w w p i v)
  | RArrW w k j i x v => with_inst k j (fun p => record_array_set_w w p i x v)
  | RStr k j i str => with_inst k j (fun p => record_array_set_str p i str)
  end.
Fixpoint do_rops (l : list rop) : prog unit :=
  match l with [] => ret tt | o :: r => do_rop o ;; do_rops r end.

(** What a write should do: which member, from which byte on, which bytes.  [None]: not a
    write, or the caller broke a precondition (there is no such member; the bytes are more
    than the member has). *)
Definition in_member (es : list entry) (k j i : Z) (f : mdef -> option (N * list byte)) :
    option (Z * Z * Z * N * list byte) :=
  match member es k j i with
  | Some d => match f d with
              | Some (off, bs) => if off + blen bs <=? room (Plain d) then Some (k, j, i, off, bs) else None
              | None => None
              end
  | None => None
  end.
Definition rput (es : list entry) (o : rop) : option (Z * Z * Z * N * list byte) :=
  match o with
  | ROp _ => None
  | RVal k j i v =>
    in_member es k j i (fun d =>
      if array_type (md_type d) then None
      else match elem (md_type d) with Some w => Some (0, le (N.to_nat w) v) | None => None end)
  | RSetW w k j i v => in_member es k j i (fun d => if is_width w then Some (0, le (N.to_nat w) v) else None)
  | RArrW w k j i x v =>
    in_member es k j i (fun d =>
      if is_width w && (0 <=? x)%Z && (x <? Z.of_N (md_count d))%Z
      then Some (w * Z.to_N x, le (N.to_nat w) v) else None)
  | RStr k j i str =>
    in_member es k j i (fun d =>
      let n := N.to_nat (md_count d) in Some (0, firstn n str ++ repeat 0 (n - length str)))
  end.
(** The plain setters are for other metrics than record arrays. *)
Definition rallowed (es : list entry) (o : rop) : Prop :=
  match o with
  | ROp o => allowed es o /\ forall k e off bs, action es o = Some (RPut k e off bs) -> is_rec_array e = false
  | _ => rput es o <> None
  end.
(** The states a program can bring a set to whose number of buffers is not set to 0. *)
Definition rhistory (s : schema) (inst : list byte) (own : N * N * N) (l : list rop) (m : st) : Prop :=
  exists m0, created s inst own m0 /\ (0 < s_acard s)%Z /\ Forall (rallowed (metrics s)) l /\ do_rops l m0 = Ret tt m.

(** ** What readers see *)
(** Every way of reading member [i] of instance [j] of metric [k] gives the bytes [bs]. *)
Record mshows (m : st) (k j i : Z) (d : mdef) (bs : list byte) : Prop := mkMshows {
  ms_len : blen bs = room (Plain d);
  ms_get : forall w, is_width w = true -> w <= room (Plain d) ->
    with_inst k j (fun p => record_get_w w p i) m = Ret (of_le (slice 0 (N.to_nat w) bs)) m;
  ms_elem : forall w x, is_width w = true -> (0 <= x < Z.of_N (md_count d))%Z -> w * (Z.to_N x + 1) <= room (Plain d) ->
    with_inst k j (fun p => record_array_get_w w p i x) m =
      Ret (of_le (slice (N.to_nat (w * Z.to_N x)) (N.to_nat w) bs)) m;
  ms_str : forall l r, bs = l ++ 0 :: r -> Forall (fun b => b <> 0) l ->
    with_inst k j (fun p => record_array_get_str p i) m = Ret l m
}.
(** The first member called [name]. *)
Fixpoint first_named (ms : list mdef) (i : Z) (name : list byte) : Z :=
  match ms with
  | [] => (-2)%Z
  | d :: r => if beq name (md_name d) then i else first_named r (i + 1) name
  end.
(** What an instance says about its members is what the record definition said. *)
Record tells (m : st) (p : N) (id : N) (r : recdef) : Prop := mkTells {
  tl_type : record_type_get p m = Ret (Z.of_N id) m;
  tl_card : record_card p m = Ret (Z.of_nat (length (rc_ms r))) m;
  tl_find : forall name, record_metric_find p name m = Ret (first_named (rc_ms r) 0 name) m;
  tl_name : forall i, (0 <= i)%Z -> record_metric_name p i m =
    Ret (match nth_error (rc_ms r) (Z.to_nat i) with Some d => Some (md_name d) | None => None end) m;
  tl_unit : forall i, (0 <= i)%Z -> record_metric_unit p i m =
    Ret (match nth_error (rc_ms r) (Z.to_nat i) with Some d => md_unit d | None => None end) m;
  tl_kind : forall i, (0 <= i)%Z -> record_metric_type p i m =
    Ret (match nth_error (rc_ms r) (Z.to_nat i) with Some d => Some (md_type d, md_count d) | None => None end) m;
  tl_neg : forall i, (i < 0)%Z -> record_metric_name p i m = Ret None m /\ record_metric_unit p i m = Ret None m /\
    record_metric_type p i m = Ret None m
}.
(** The operation moves to another buffer without copying the values. *)
Definition switches (s : schema) (m : st) (o : rop) : Prop :=
  match o with ROp (OBegin _ _) => copy m = false /\ buffers s <> 1 | _ => False end.
(** None of the operations does, on the way they take from [m]. *)
Fixpoint never_switches (s : schema) (l : list rop) (m : st) : Prop :=
  match l with
  | [] => True
  | o :: r => ~ switches s m o /\ match do_rop o m with Ret _ m' => never_switches s r m' | _ => True end
  end.
