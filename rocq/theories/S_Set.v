(** What a metric set should do. *)
From Verif Require Export Bytes M_Set.
Local Open Scope N_scope.

(** ** Schemas made with the API *)
Definition B32 : N := 4294967296.
Definition B64 : N := 18446744073709551616.
Definition is_str (l : list byte) : Prop := Forall (fun b => 0 < b < 256) l.
(** A name and a unit that fit the one-byte length of a descriptor. *)
Definition label_ok (name : list byte) (unit : option (list byte)) : Prop :=
  is_str name /\
  match unit with
  | Some u => is_str u /\ blen name + blen u + 2 < 256
  | None => blen name + 1 < 256
  end.
Inductive rec_built : recdef -> Prop :=
| rb_new name : label_ok name None -> rec_built (record_create name)
| rb_add r name unit t c rc r' : rec_built r -> label_ok name unit -> t < 256 ->
    record_metric_add r name unit t c = Some (rc, r') -> rec_built r'.
(** A record type that was added to the schema. *)
Definition attached (s : schema) (r : recdef) : Prop :=
  exists id r0, nth_error (s_list s) id = Some (RecT r0) /\
    r = mkRec (rc_mdef r0) (Some (N.of_nat id)) (rc_inst r0) (rc_type_sz r0) (rc_ms r0).
Definition no_record (t : N) : Prop := t <> 25 /\ t <> 27 /\ t < 256.
Inductive built : schema -> Prop :=
| b_new name digest : built (schema_new name digest)
| b_card s n rc s' : built s -> schema_array_card_set s n = (rc, s') -> built s'
| b_metric s name unit t rc s' : built s -> label_ok name unit -> no_record t ->
    schema_metric_add s name unit t = Some (rc, s') -> built s'
| b_meta s name unit t rc s' : built s -> label_ok name unit -> no_record t ->
    schema_meta_add s name unit t = Some (rc, s') -> built s'
| b_metric_array s name unit t n rc s' : built s -> label_ok name unit -> no_record t -> n < B32 ->
    schema_metric_array_add s name unit t n = Some (rc, s') -> built s'
| b_meta_array s name unit t n rc s' : built s -> label_ok name unit -> no_record t -> n < B32 ->
    schema_meta_array_add s name unit t n = Some (rc, s') -> built s'
| b_list s name unit n rc s' : built s -> label_ok name unit -> n < B32 ->
    schema_list_add s name unit n = Some (rc, s') -> built s'
| b_record s r rc s' r' : built s -> rec_built r ->
    schema_record_add s r = (rc, s', r') -> built s'
| b_record_array s name r n rc s' : built s -> label_ok name None -> attached s r -> n < B32 ->
    schema_record_array_add s name r n = (rc, s') -> built s'.

Definition is_rec_array (e : entry) : bool := match e with RecA _ _ _ => true | _ => false end.
Definition in_data (e : entry) : bool := N.odd (md_flags (base e)).
(** No data metric comes after a record array. *)
Definition arrays_last (es : list entry) : Prop :=
  forall p e q, es = p ++ e :: q -> is_rec_array e = true -> Forall (fun x => in_data x = false) q.
(** The metrics of the set: a list without heap size gets the default. *)
Definition metrics (s : schema) : list entry := map fix_list (s_list s).
(** What the names, sizes and the heap image have to satisfy. *)
Record fits (s : schema) (inst : list byte) (req : N) (h : himg) : Prop := mkFits {
  fit_inst : is_str inst /\ blen inst < 255;
  fit_name : is_str (s_name s) /\ blen (s_name s) < 222;
  fit_digest : length (s_digest s) = 32%nat;
  fit_size : total_size s inst (heap_size (metrics s) req) < B32;
  fit_order : arrays_last (s_list s);
  fit_heap : heap_size (metrics s) req <> 0 ->
             length (hi_roots h) = 16%nat /\ blen (hi_base h) <= heap_size (metrics s) req
}.
(** The arguments of a call of the set creation function that meet its preconditions. *)
Definition create_args (s : schema) (inst : list byte) (own : N * N * N) (req : N) (h : himg) : Prop :=
  built s /\ fits s inst req h /\ fst (fst own) < B32 /\ snd (fst own) < B32 /\ snd own < B32.
Definition create (s : schema) (inst : list byte) (own : N * N * N) (req : N) (h : himg) : option (out unit) :=
  set_create inst s (fst (fst own)) (snd (fst own)) (snd own) req h false.
Definition created (s : schema) (inst : list byte) (own : N * N * N) (m : st) : Prop :=
  exists req h, create_args s inst own req h /\ create s inst own req h = Some (Ret tt m).

(** ** Layout *)
(** Bytes of one element, by type. *)
Definition elem (t : N) : option N :=
  nth (N.to_nat t) [None; Some 1; Some 1; Some 1; Some 2; Some 2; Some 4; Some 4; Some 8; Some 8; Some 4; Some 8;
                    Some 1; Some 1; Some 1; Some 2; Some 2; Some 4; Some 4; Some 8; Some 8; Some 4; Some 8] None.
Definition array_type (t : N) : bool := (12 <=? t) && (t <=? 22).
(** Bytes a value needs. *)
Definition need_bytes (e : entry) : N :=
  match e with
  | Plain d => match elem (md_type d) with
               | Some w => if array_type (md_type d) then w * md_count d else w
               | None => if md_type d =? 26 then 16 else 12
               end
  | RecT r => 16 + fold_right (fun d a => 4 + metric_meta_size (md_name d) (md_unit d) + a) 0 (rc_ms r)
  | RecA d _ isz => 12 + md_count d * isz
  end.
(** Bytes a descriptor needs: 27 of fixed fields and the two strings. *)
Definition desc_bytes (d : mdef) : N :=
  27 + blen (md_name d) + 1 + match md_unit d with Some u => blen u + 1 | None => 0 end.

(** ** Operations on a set *)
Inductive op :=
| OSet (i : Z) (v : N)
| OSetW (w : N) (i : Z) (v : N)
| OArrVal (i k : Z) (v : N)
| OArrW (w : N) (i k : Z) (v : N)
| OArr (i : Z) (src : list N) (start count : N)
| OStr (i : Z) (str : list byte)
| OUser (i : Z) (u : N)
| OModify (i : Z)
| OAuth (uid gid perm : N) (fu fg fp : bool)
| OUid (v : N) | OGid (v : N) | OPerm (v : N)
| OBegin (sec usec : N)
| OEnd (sec usec : N)
| OCopy (on : bool).
Definition do_op (o : op) : prog unit :=
  match o with
  | OSet i v => metric_set i v
  | OSetW w i v => metric_set_w w i v
  | OArrVal i k v => metric_array_set_val i k v
  | OArrW w i k v => metric_array_set_w w i k v
  | OArr i src start count => metric_array_set i src start count
  | OStr i str => metric_array_set_str i str
  | OUser i u => user_data_set i u
  | OModify i => metric_modify i
  | OAuth u g p fu fg fp => config_auth u g p fu fg fp
  | OUid v => uid_set v | OGid v => gid_set v | OPerm v => perm_set v
  | OBegin s u => transaction_begin s u
  | OEnd s u => transaction_end s u
  | OCopy on => data_copy_set on
  end.
Fixpoint do_ops (l : list op) : prog unit :=
  match l with [] => ret tt | o :: r => do_op o ;; do_ops r end.

(** *** The abstract set *)
Record ahdr := mkAh { h_flags : N; h_ts : N * N; h_dur : N * N; h_gn : N; h_mgn : N }.
Record aset := mkA {
  a_cur : N;                       (* current buffer *)
  a_copy : bool;
  a_hd : N -> ahdr;                (* per buffer *)
  a_val : N -> nat -> list byte;   (* data metrics: per buffer and metric *)
  a_mval : nat -> list byte;       (* meta metrics *)
  a_user : nat -> N;
  a_mgn : N; a_uid : N; a_gid : N; a_perm : N
}.
Definition fN {A} (f : N -> A) (k : N) (v : A) : N -> A := fun x => if x =? k then v else f x.
Definition fn {A} (f : nat -> A) (k : nat) (v : A) : nat -> A := fun x => if Nat.eqb x k then v else f x.
Definition with_hd (A : aset) (b : N) (f : ahdr -> ahdr) : aset :=
  mkA (a_cur A) (a_copy A) (fN (a_hd A) b (f (a_hd A b))) (a_val A) (a_mval A) (a_user A) (a_mgn A) (a_uid A) (a_gid A) (a_perm A).
Definition bump_data (A : aset) : aset :=
  with_hd A (a_cur A) (fun h => mkAh (h_flags h) (h_ts h) (h_dur h) ((h_gn h + 1) mod B64) (h_mgn h)).
Definition bump_meta (A : aset) : aset :=
  let g := (a_mgn A + 1) mod B64 in
  let A1 := with_hd A (a_cur A) (fun h => mkAh (h_flags h) (h_ts h) (h_dur h) (h_gn h) g) in
  mkA (a_cur A1) (a_copy A1) (a_hd A1) (a_val A1) (a_mval A1) (a_user A1) g (a_uid A1) (a_gid A1) (a_perm A1).
Definition bump (e : entry) (A : aset) : aset := if in_data e then bump_data A else bump_meta A.
(** Write bytes into the value of metric [k]. *)
Definition put (e : entry) (k : nat) (off : N) (bs : list byte) (A : aset) : aset :=
  bump e (if in_data e then
    mkA (a_cur A) (a_copy A) (a_hd A)
      (fN (a_val A) (a_cur A) (fn (a_val A (a_cur A)) k (splice (N.to_nat off) bs (a_val A (a_cur A) k))))
      (a_mval A) (a_user A) (a_mgn A) (a_uid A) (a_gid A) (a_perm A)
  else
    mkA (a_cur A) (a_copy A) (a_hd A) (a_val A)
      (fn (a_mval A) k (splice (N.to_nat off) bs (a_mval A k)))
      (a_user A) (a_mgn A) (a_uid A) (a_gid A) (a_perm A)).

(** What an operation should do: [RPut] bytes, stop with a failed assertion, ...;
    [None]: the caller broke a precondition. *)
Inductive act :=
| RAbort | RNone
| RPut (k : nat) (e : entry) (off : N) (bs : list byte)
| RTouch (k : nat) (e : entry) (user : option N)
| RAuth (u g p : option N) (gn : bool)
| RBegin (ts : N * N) | REnd (ts : N * N) | RCopy (on : bool).
Definition at_idx (es : list entry) (i : Z) : option (nat * entry) :=
  if (0 <=? i)%Z then match nth_error es (Z.to_nat i) with Some e => Some (Z.to_nat i, e) | None => None end
  else None.
Definition room (e : entry) : N := 8 * ((need_bytes e + 7) / 8).
Definition a_put (k : nat) (e : entry) (off : N) (bs : list byte) : option act :=
  match e with
  | RecT _ => None                                   (* the record type itself *)
  | _ => if off + blen bs <=? room e then Some (RPut k e off bs) else None
  end.
Definition is_width (w : N) : bool := (w =? 1) || (w =? 2) || (w =? 4) || (w =? 8).
Definition action (es : list entry) (o : op) : option act :=
  match o with
  | OSetW w i v =>
    match at_idx es i with
    | None => Some RAbort
    | Some (k, e) => if is_width w then a_put k e 0 (le (N.to_nat w) v) else None
    end
  | OSet i v =>
    match at_idx es i with
    | None => Some RAbort
    | Some (k, e) =>
      if array_type (md_type (base e)) then Some RAbort
      else match elem (md_type (base e)) with
           | Some w => a_put k e 0 (le (N.to_nat w) v)
           | None => Some RAbort
           end
    end
  | OArrVal i j v =>
    match at_idx es i with
    | None => Some RAbort
    | Some (k, e) =>
      if (j <? 0)%Z || (Z.of_N (md_count (base e)) <=? j)%Z then Some RAbort
      else if array_type (md_type (base e)) then
        match elem (md_type (base e)) with
        | Some w => a_put k e (w * Z.to_N j) (le (N.to_nat w) v)
        | None => Some RAbort
        end
      else Some RAbort
    end
  | OArrW w i j v =>
    match at_idx es i with
    | None => Some RAbort
    | Some (k, e) =>
      if (j <? 0)%Z then
        if (- 2147483648 <=? j)%Z && (Z.of_N (md_count (base e)) <=? 2147483648)%Z then Some RAbort else None
      else if (2147483648 <=? j)%Z then None
      else if (Z.of_N (md_count (base e)) <=? j)%Z then Some RAbort
      else if is_width w then a_put k e (w * Z.to_N j) (le (N.to_nat w) v) else None
    end
  | OArr i src start count =>
    match at_idx es i with
    | None => None
    | Some (k, e) =>
      if array_type (md_type (base e)) then
        match elem (md_type (base e)) with
        | Some w =>
          let stop := N.min (start + count) (md_count (base e)) in
          if (start <? 2147483648) && (start + count <? B64) && (md_count (base e) <? 2147483648) &&
             (N.to_nat stop <=? length src)%nat
          then let els := slice (N.to_nat start) (N.to_nat (stop - start)) src in
               a_put k e (if stop <=? start then 0 else w * start) (concat (map (le (N.to_nat w)) els))
          else None
        | None => None
        end
      else Some RAbort
    end
  | OStr i str =>
    match at_idx es i with
    | None => Some RAbort
    | Some (k, e) =>
      let n := N.to_nat (md_count (base e)) in
      a_put k e 0 (firstn n str ++ repeat 0 (n - length str))
    end
  | OUser i u => match at_idx es i with None => Some RNone | Some (k, e) => Some (RTouch k e (Some u)) end
  | OModify i => match at_idx es i with None => None | Some (k, e) => Some (RTouch k e None) end
  | OAuth u g p fu fg fp =>
    Some (RAuth (if fu then Some u else None) (if fg then Some g else None) (if fp then Some p else None) true)
  | OUid v => Some (RAuth (Some v) None None false)
  | OGid v => Some (RAuth None (Some v) None false)
  | OPerm v => Some (RAuth None None (Some v) false)
  | OBegin s u => Some (RBegin (s, u))
  | OEnd s u => Some (REnd (s, u))
  | OCopy on => Some (RCopy on)
  end.
(** Time differences as two's complement words, borrowing when the microseconds are negative. *)
Definition w32 (z : Z) : N := Z.to_N (z mod 4294967296).
Definition tv_diff (t1 t0 : N * N) : N * N :=
  let ds := w32 (Z.of_N (fst t1) - Z.of_N (fst t0)) in
  let du := w32 (Z.of_N (snd t1) - Z.of_N (snd t0)) in
  if du <? 2147483648 then (ds, du) else (w32 (Z.of_N ds - 1), w32 (Z.of_N du + 1000000)).
Definition tv32 (t : N * N) : N * N := (fst t mod B32, snd t mod B32).
Definition effect (n : N) (a : act) (A : aset) : aset :=
  match a with
  | RAbort | RNone => A
  | RPut k e off bs => put e k off bs A
  | RTouch k e u =>
    bump e match u with
           | Some v => mkA (a_cur A) (a_copy A) (a_hd A) (a_val A) (a_mval A) (fn (a_user A) k (v mod B64))
                           (a_mgn A) (a_uid A) (a_gid A) (a_perm A)
           | None => A
           end
  | RAuth u g p gn =>
    let or (o : option N) d := match o with Some v => v mod B32 | None => d end in
    let A1 := mkA (a_cur A) (a_copy A) (a_hd A) (a_val A) (a_mval A) (a_user A) (a_mgn A)
                  (or u (a_uid A)) (or g (a_gid A)) (or p (a_perm A)) in
    if gn then bump_meta A1 else A1
  | RBegin ts =>
    let c := a_cur A in
    let c' := (c + 1) mod n in
    let h := a_hd A c in
    mkA c' (a_copy A) (fN (a_hd A) c' (mkAh 1 (tv32 ts) (h_dur h) (h_gn h) (h_mgn h)))
        (if a_copy A then fN (a_val A) c' (a_val A c) else a_val A)
        (a_mval A) (a_user A) (a_mgn A) (a_uid A) (a_gid A) (a_perm A)
  | REnd ts =>
    bump_data (with_hd A (a_cur A) (fun h => mkAh 2 (tv32 ts) (tv_diff ts (h_ts h)) (h_gn h) (h_mgn h)))
  | RCopy on =>
    mkA (a_cur A) on (a_hd A) (a_val A) (a_mval A) (a_user A) (a_mgn A) (a_uid A) (a_gid A) (a_perm A)
  end.

(** *** What a reader sees *)
Definition view (es : list entry) (n : N) (A : aset) (k : nat) (e : entry) : list byte :=
  if in_data e then
    let t := md_type (base e) in
    if (h_flags (a_hd A (a_cur A)) =? 2) || (t =? 23) || (t =? 27)
    then a_val A (a_cur A) k
    else a_val A ((a_cur A + (n - 1)) mod n) k
  else a_mval A k.
Definition now (A : aset) : ahdr := a_hd A (a_cur A).
(** The code's answers are those of the abstract set. *)
Record agrees (es : list entry) (n : N) (m : st) (A : aset) : Prop := mkAgrees {
  ag_get : forall i k e w, at_idx es i = Some (k, e) -> (forall r, e <> RecT r) -> is_width w = true -> w <= room e ->
    metric_get_w w i m = Ret (of_le (slice 0 (N.to_nat w) (view es n A k e))) m;
  ag_aget : forall i k e w j, at_idx es i = Some (k, e) -> (forall r, e <> RecT r) -> is_width w = true ->
    (0 <= j < Z.of_N (md_count (base e)))%Z -> (j < 2147483648)%Z -> w * (Z.to_N j + 1) <= room e ->
    metric_array_get_w w i j m =
      Ret (of_le (slice (N.to_nat (w * Z.to_N j)) (N.to_nat w) (view es n A k e))) m;
  ag_str : forall i k e l r, at_idx es i = Some (k, e) -> (forall r, e <> RecT r) ->
    view es n A k e = l ++ 0 :: r -> Forall (fun b => b <> 0) l -> metric_array_get_str i m = Ret l m;
  ag_user : forall i k e, at_idx es i = Some (k, e) -> user_data_get i m = Ret (a_user A k) m;
  ag_gn : data_gn_get m = Ret (h_gn (now A)) m;
  ag_mgn : meta_gn_get m = Ret (a_mgn A) m;
  ag_ts : timestamp_get m = Ret (h_ts (now A)) m;
  ag_dur : duration_get m = Ret (h_dur (now A)) m;
  ag_cons : is_consistent m = Ret (h_flags (now A) =? 2) m;
  ag_uid : uid_get m = Ret (a_uid A) m;
  ag_gid : gid_get m = Ret (a_gid A) m;
  ag_perm : perm_get m = Ret (a_perm A) m
}.
(** A new set: zeroes (record arrays have their headers filled in). *)
Record starts (es : list entry) (n : N) (own : N * N * N) (A : aset) : Prop := mkStarts {
  st_own : (a_uid A, a_gid A, a_perm A) = own;
  st_cur : a_cur A = n - 1; st_copy : a_copy A = false;
  st_hd : forall b, b < n -> a_hd A b = mkAh 0 (0, 0) (0, 0) 1 1;
  st_val : forall b k d, b < n -> nth_error es k = Some (Plain d) -> in_data (Plain d) = true ->
    a_val A b k = repeat 0 (N.to_nat (room (Plain d)));
  st_mval : forall k d, nth_error es k = Some (Plain d) -> in_data (Plain d) = false ->
    a_mval A k = repeat 0 (N.to_nat (room (Plain d)));
  st_user : forall k, a_user A k = 0; st_mgn : a_mgn A = 1
}.

(** *** Histories *)
(** [None]: the caller broke a precondition; [Some None]: an assertion stops the program. *)
Fixpoint spec_run (es : list entry) (n : N) (l : list op) (A : aset) : option (option aset) :=
  match l with
  | [] => Some (Some A)
  | o :: r =>
    match action es o with
    | None => None
    | Some RAbort => Some None
    | Some a => spec_run es n r (effect n a A)
    end
  end.
(** The metrics of a set and how many buffers it has. *)
Definition buffers (s : schema) : N := acard_of s.
(** The caller kept the preconditions. *)
Definition allowed (es : list entry) (o : op) : Prop := action es o <> None.
(** The states a program can bring a set to. *)
Definition history (s : schema) (inst : list byte) (own : N * N * N) (l : list op) (m : st) : Prop :=
  exists m0, created s inst own m0 /\ Forall (allowed (metrics s)) l /\ do_ops l m0 = Ret tt m.

(** *** Generation numbers *)
Definition op_metric (o : op) : option Z :=
  match o with
  | OSet i _ | OSetW _ i _ | OArrVal i _ _ | OArrW _ i _ _ | OArr i _ _ _ | OStr i _ | OUser i _ | OModify i => Some i
  | _ => None
  end.
(** The operation is on a metric of the data section, or ends a transaction. *)
Definition touches_data (es : list entry) (o : op) : bool :=
  match o, op_metric o with
  | OEnd _ _, _ => true
  | _, Some i => match at_idx es i with Some (_, e) => in_data e | None => false end
  | _, None => false
  end.
(** The operation is on a metric of the meta section, or sets the access rights. *)
Definition touches_meta (es : list entry) (o : op) : bool :=
  match o, op_metric o with
  | OAuth _ _ _ _ _ _, _ => true
  | _, Some i => match at_idx es i with Some (_, e) => negb (in_data e) | None => false end
  | _, None => false
  end.

(** *** What readers see *)
(** Every way of reading metric [k] gives the bytes [bs]. *)
Record shows (m : st) (k : nat) (e : entry) (bs : list byte) : Prop := mkShows {
  sh_len : blen bs = room e;
  sh_get : forall w, is_width w = true -> w <= room e ->
    metric_get_w w (Z.of_nat k) m = Ret (of_le (slice 0 (N.to_nat w) bs)) m;
  sh_elem : forall w j, is_width w = true -> (0 <= j < Z.of_N (md_count (base e)))%Z -> (j < 2147483648)%Z ->
    w * (Z.to_N j + 1) <= room e ->
    metric_array_get_w w (Z.of_nat k) j m = Ret (of_le (slice (N.to_nat (w * Z.to_N j)) (N.to_nat w) bs)) m;
  sh_str : forall l r, bs = l ++ 0 :: r -> Forall (fun b => b <> 0) l ->
    metric_array_get_str (Z.of_nat k) m = Ret l m
}.
(** Metrics that have a value per buffer and are read from the last complete one:
    not lists (23) and record arrays (27). *)
Definition buffered (e : entry) : bool :=
  match e with
  | RecT _ => false
  | _ => in_data e && negb (md_type (base e) =? 23) && negb (md_type (base e) =? 27)
  end.
(** Transactions begin only when the last one has ended. *)
Fixpoint disciplined (complete : bool) (l : list op) : Prop :=
  match l with
  | [] => True
  | OBegin _ _ :: r => complete = true /\ disciplined false r
  | OEnd _ _ :: r => disciplined true r
  | _ :: r => disciplined complete r
  end.
Definition no_tx (o : op) : Prop := match o with OBegin _ _ | OEnd _ _ => False | _ => True end.
(** The data values after the writes of [l]. *)
Definition written (es : list entry) (l : list op) (vals : nat -> list byte) : nat -> list byte :=
  fold_left (fun v o => match action es o with
    | Some (RPut k e off bs) => if in_data e then fn v k (splice (N.to_nat off) bs (v k)) else v
    | _ => v end) l vals.
(** The bytes of the generation numbers that a change of metric [e] increments. *)
Definition gn_byte (m : st) (e : entry) (x : N) : Prop :=
  if in_data e then dat m + 24 <= x < dat m + 32
  else 64 <= x < 72 \/ dat m + 40 <= x < dat m + 48.
(** Where the code writes metric [i]: address of the value, address of the descriptor. *)
Definition placed (m : st) (i : Z) (a vd : N) : Prop := mval_to_set i m = Ret (Some (a, vd)) m.
Definition apart (a n a' n' : N) : Prop := a + n <= a' \/ a' + n' <= a.
(** A reader sees the buffer that is being written: there is only one, or no transaction is open. *)
Definition settled (s : schema) (m : st) : Prop := buffers s = 1 \/ is_consistent m = Ret true m.
(** Bytes of one array element as an unsigned number. *)
Definition word (w : N) (v : N) : N := v mod 256 ^ w.
(** Instants in microseconds. *)
Definition usec_of (t : N * N) : N := fst t * 1000000 + snd t.
Definition normal (t : N * N) : Prop := fst t < B32 /\ snd t < 1000000.

(** *** Layout *)
(** Header (140 bytes), dictionary, instance name, schema name and digest. *)
Definition names_end (s : schema) (inst : list byte) : N :=
  140 + 4 * N.of_nat (length (metrics s)) + 36 + blen inst + blen (s_name s).
(** A schema without record types. *)
Definition no_rec_type (s : schema) : Prop := forall r, ~ In (RecT r) (metrics s).
(** The block: a meta section, then the buffers, each a data section and a heap. *)
Record block (s : schema) (m : st) (meta buf heap : N) : Prop := mkBlock {
  bl_meta : ld 4 H_META_SZ m = Ret meta m;
  bl_buf : ld 4 H_DATA_SZ m = Ret buf m;
  bl_heap : ld 4 H_HEAP_SZ m = Ret heap m /\ heap <= buf;
  bl_cur : cur m < buffers s /\ dat m = meta + cur m * buf;
  bl_all : msz m = meta + buffers s * buf
}.
(** Metric [k], its value at [a] and its descriptor at [vd]. *)
Record laid_out (s : schema) (inst : list byte) (m : st) (meta buf heap : N) (e : entry) (a vd : N) : Prop := mkLaid {
  lo_desc : names_end s inst <= vd /\ vd mod 8 = 0 /\ vd + desc_bytes (base e) <= meta;
  lo_data : in_data e = true -> dat m + 96 <= a /\ a + need_bytes e <= dat m + (buf - heap) /\ a mod 8 = 0;
  lo_meta : in_data e = false -> vd + desc_bytes (base e) <= a /\ a + need_bytes e <= meta /\ a mod 4 = 0 /\
                                 (no_rec_type s -> a mod 8 = 0)
}.

(** *** What describes a set *)
Record described (s : schema) (inst : list byte) (m : st) : Prop := mkDescribed {
  ds_card : card_get m = Ret (N.of_nat (length (metrics s))) m;
  ds_name : name_get m = Ret inst m;
  ds_schema : schema_name_get m = Ret (s_name s) m;
  ds_digest : digest_get m = Ret (s_digest s) m;
  ds_mname : forall i, metric_name_get i m =
    Ret (match at_idx (metrics s) i with Some (_, e) => Some (md_name (base e)) | None => None end) m;
  ds_unit : forall i, metric_unit_get i m =
    Ret (match at_idx (metrics s) i with Some (_, e) => md_unit (base e) | None => None end) m;
  ds_flags : forall i, metric_flags_get i m =
    Ret (match at_idx (metrics s) i with Some (_, e) => md_flags (base e) | None => 0 end) m;
  ds_type : forall i, metric_type_get i m =
    Ret (match at_idx (metrics s) i with Some (_, e) => md_type (base e) | None => 0 end) m;
  ds_isarr : forall i k e, at_idx (metrics s) i = Some (k, e) ->
    metric_is_array i m = Ret (array_type (md_type (base e))) m;
  ds_len : forall i k e, at_idx (metrics s) i = Some (k, e) ->
    metric_array_get_len i m = Ret (if array_type (md_type (base e)) then md_count (base e) else 1) m;
  ds_by_name : forall k e, nth_error (metrics s) k = Some e ->
    metric_by_name (md_name (base e)) m = Ret (Z.of_nat k) m;
  ds_no_name : forall name, ~ In name (map (fun e => md_name (base e)) (metrics s)) ->
    metric_by_name name m = Ret (-1)%Z m
}.
