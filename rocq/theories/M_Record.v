(** Instances of records in record arrays, and their members.
    Source: ldms/src/core/ldms.c 3991-4077, 4239-4352, 4371-4921, 4173-4225; structs
    ldms_record_inst, ldms_record_type, ldms_record_array of ldms_core.h 266-311.
    An [ldms_mval_t] is an address in the block of the set (M_Set).  errno is not modelled. *)
From Verif Require Import Bytes M_Set.
Local Open Scope N_scope.

(** LDMS_RECORD_F_TYPE and LDMS_RECORD_F_INST, ldms_core.h 263-264. *)
Definition R_TYPE : N := 1.
Definition R_INST : N := 2.
(** Fields of struct ldms_record_inst: hdr (8 bytes, flags first), set_data_off, rec_type. *)
Definition I_DATA_OFF : N := 8.
Definition I_TYPE : N := 12.
(** Fields of struct ldms_record_type: hdr, n, inst_sz, dict. *)
Definition T_N : N := 8.
Definition T_DICT : N := 16.
(** Fields of struct ldms_record_array: inst_sz, rec_type, array_len, data. *)
Definition A_SZ : N := 0.
Definition A_LEN : N := 8.
Definition A_DATA : N := 12.

(** p - n of pointers; leaving the block is [Wild]. *)
Definition back (p n : N) : prog N := if n <=? p then ret (p - n) else wild.

(** __rec_type, ldms.c 3991-4020: the record type of an instance with its descriptor and
    the data section the instance is in.  The instance is read before it is compared with
    NULL; a NULL instance is not an address of the model. *)
Definition rec_type (ri : N) : prog (option (N * N * N)) :=
  ti <- ld 4 (ri + I_TYPE) ;;
  o <- ld 4 (ri + I_DATA_OFF) ;; data <- back ri o ;;
  so <- ld 4 (data + D_SET_OFF) ;; meta <- back data so ;;
  v <- load (meta + H_VERSION) 4 ;;
  if negb (beq v [4; 2; 0; 0]) then ret None
  else
    vo <- ld 4 (meta + H_DICT + 4 * ti) ;;
    t <- ld 1 (meta + vo + VD_TYPE) ;; f <- ld 1 (meta + vo + VD_FLAGS) ;;
    if negb (t =? V_RECORD_TYPE) || (N.land f F_RECORD =? 0) || (N.land f F_META =? 0) then ret None
    else to <- ld 4 (meta + vo + VD_OFF) ;; ret (Some (meta + to, meta + vo, data)).

(** __record_mdesc_get, ldms.c 4022-4036: the record type is not compared with NULL. *)
Definition record_mdesc_get (r : N) (i : Z) : prog (option N) :=
  f <- ld 4 r ;;
  rt <- (if f =? R_TYPE then ret (Some r)
         else x <- rec_type r ;; ret match x with Some (rt, _, _) => Some rt | None => None end) ;;
  match rt with
  | None => wild
  | Some rt =>
    n <- ld 4 (rt + T_N) ;;
    if (i <? 0)%Z || (Z.of_N n <=? i)%Z then ret None
    else o <- ld 4 (rt + T_DICT + 4 * Z.to_N i) ;; ret (Some (rt + o))
  end.

(** ldms_record_type_get, ldms.c 4038-4049; -EINVAL = -22. *)
Definition record_type_get (r : N) : prog Z :=
  f <- ld 4 r ;;
  if negb (f =? R_INST) then ret (-22)%Z
  else
    x <- rec_type r ;;
    match x with
    | None => ret (-22)%Z
    | Some (_, vd, _) =>
      t <- ld 1 (vd + VD_TYPE) ;;
      if negb (t =? V_RECORD_TYPE) then ret (-22)%Z
      else ti <- ld 4 (r + I_TYPE) ;; ret (to_int ti)
    end.

(** The loop of ldms_record_metric_find, ldms.c 4070-4075; -ENOENT = -2. *)
Fixpoint find_loop (n : nat) (i : N) (rt : N) (name : list byte) : prog Z :=
  match n with
  | O => ret (-2)%Z
  | S n' =>
    o <- ld 4 (rt + T_DICT + 4 * i) ;;
    x <- cstr (rt + o + VD_NAME) ;;
    if beq name x then ret (Z.of_N i) else find_loop n' (i + 1) rt name
  end.
(** ldms_record_metric_find, ldms.c 4051-4077; the number of members is a non-negative int. *)
Definition record_metric_find (r : N) (name : list byte) : prog Z :=
  f <- ld 4 r ;;
  rt <- (if f =? R_TYPE then ret (Some r)
         else x <- rec_type r ;;
              match x with
              | None => ret None
              | Some (rt, vd, _) =>
                t <- ld 1 (vd + VD_TYPE) ;; ret (if t =? V_RECORD_TYPE then Some rt else None)
              end) ;;
  match rt with
  | None => abort
  | Some rt => n <- ld 4 (rt + T_N) ;; find_loop (N.to_nat n) 0 rt name
  end.

(** ldms_record_card, ldms.c 4239-4251. *)
Definition record_card (r : N) : prog Z :=
  f <- ld 4 r ;;
  if negb (N.land f R_INST =? 0) then
    x <- rec_type r ;;
    match x with
    | None => ret (-22)%Z
    | Some (rt, _, _) => n <- ld 4 (rt + T_N) ;; ret (to_int n)
    end
  else n <- ld 4 (r + T_N) ;; ret (to_int n).

(** __record_metric_get, ldms.c 4253-4278: address of the member, its descriptor, the data
    section.  The descriptor is used without a check: for an index that is not a member's
    it is NULL. *)
Definition record_metric_get (r : N) (i : Z) : prog (option (N * N * N)) :=
  f <- ld 4 r ;;
  if negb (f =? R_INST) then ret None
  else
    x <- rec_type r ;;
    match x with
    | None => ret None
    | Some (_, _, data) =>
      d <- record_mdesc_get r i ;;
      match d with
      | None => wild
      | Some vd => o <- ld 4 (vd + VD_OFF) ;; ret (Some (r + o, vd, data))
      end
    end.

(** ldms_record_metric_name_get, _unit_get, _type_get, ldms.c 4286-4322. *)
Definition record_metric_name (r : N) (i : Z) : prog (option (list byte)) :=
  d <- record_mdesc_get r i ;;
  match d with Some vd => n <- cstr (vd + VD_NAME) ;; ret (Some n) | None => ret None end.
Definition record_metric_unit (r : N) (i : Z) : prog (option (list byte)) :=
  d <- record_mdesc_get r i ;;
  match d with
  | Some vd =>
    n <- cstr (vd + VD_NAME) ;; l <- ld 1 (vd + VD_NULEN) ;;
    if blen n + 1 <? l then u <- cstr (vd + VD_NAME + blen n + 1) ;; ret (Some u) else ret None
  | None => ret None
  end.
Definition record_metric_type (r : N) (i : Z) : prog (option (N * N)) :=
  d <- record_mdesc_get r i ;;
  match d with
  | Some vd => c <- ld 4 (vd + VD_COUNT) ;; t <- ld 1 (vd + VD_TYPE) ;; ret (Some (t, c))
  | None => ret None
  end.

(** LDMS_GN_INCREMENT(data->gn), ldms_private.h 62-64. *)
Definition dgn_inc (data : N) : prog unit := g <- ld 8 (data + D_GN) ;; sto 8 (data + D_GN) (g + 1).

(** ldms_record_get_char .. _double, ldms.c 4371-4480: [w] is the width of the function. *)
Definition record_get_w (w : N) (r : N) (i : Z) : prog N :=
  x <- record_metric_get r i ;;
  match x with Some (a, _, _) => ld (N.to_nat w) a | None => abort end.
(** ldms_record_set_char .. _double, ldms.c 4624-4756. *)
Definition record_set_w (w : N) (r : N) (i : Z) (v : N) : prog unit :=
  x <- record_metric_get r i ;;
  match x with Some (a, _, data) => sto (N.to_nat w) a v ;; dgn_inc data | None => abort end.
(** ldms_record_array_get_char .. _double, ldms.c 4493-4622: the index is checked. *)
Definition record_array_get_w (w : N) (r : N) (i j : Z) : prog N :=
  x <- record_metric_get r i ;;
  match x with
  | Some (a, vd, _) =>
    c <- ld 4 (vd + VD_COUNT) ;;
    if (0 <=? j)%Z && (j <? Z.of_N c)%Z then ld (N.to_nat w) (a + w * Z.to_N j) else abort
  | None => abort
  end.
(** ldms_record_array_set_char .. _double, ldms.c 4770-4900. *)
Definition record_array_set_w (w : N) (r : N) (i j : Z) (v : N) : prog unit :=
  x <- record_metric_get r i ;;
  match x with
  | Some (a, vd, data) =>
    c <- ld 4 (vd + VD_COUNT) ;;
    if (0 <=? j)%Z && (j <? Z.of_N c)%Z then sto (N.to_nat w) (a + w * Z.to_N j) v ;; dgn_inc data else abort
  | None => abort
  end.
(** ldms_record_array_get_str, ldms.c 4482-4491, and ldms_record_array_set_str, 4758-4768. *)
Definition record_array_get_str (r : N) (i : Z) : prog (list byte) :=
  x <- record_metric_get r i ;;
  match x with Some (a, _, _) => cstr a | None => abort end.
Definition record_array_set_str (r : N) (i : Z) (str : list byte) : prog unit :=
  x <- record_metric_get r i ;;
  match x with
  | Some (a, vd, data) =>
    c <- ld 4 (vd + VD_COUNT) ;; store a (strncpy_bytes str (N.to_nat c)) ;; dgn_inc data
  | None => abort
  end.
(** ldms_record_metric_set, ldms.c 4324-4335 with __metric_set 2340-2370. *)
Definition record_metric_set (r : N) (i : Z) (v : N) : prog unit :=
  x <- record_metric_get r i ;;
  match x with
  | None => ret tt
  | Some (a, vd, data) =>
    t <- ld 1 (vd + VD_TYPE) ;;
    if type_is_array t then abort
    else match width t with Some w => sto (N.to_nat w) a v ;; dgn_inc data | None => abort end
  end.
(** ldms_record_metric_array_set, ldms.c 4337-4352 with __metric_array_set 2386-2428: every
    turn of the loop stores the first value the caller passed. *)
Fixpoint record_array_loop (n : nat) (j : Z) (c t a v : N) : prog unit :=
  match n with
  | O => ret tt
  | S n' =>
    (if (j <? 0)%Z || (Z.of_N c <=? j)%Z then abort
     else if type_is_array t then
       match width t with Some w => sto (N.to_nat w) (a + w * Z.to_N j) v | None => abort end
     else abort) ;;
    record_array_loop n' (j + 1) c t a v
  end.
Definition record_metric_array_set (r : N) (i : Z) (v : N) (start : Z) (count : nat) : prog unit :=
  x <- record_metric_get r i ;;
  match x with
  | None => ret tt
  | Some (a, vd, data) =>
    c <- ld 4 (vd + VD_COUNT) ;; t <- ld 1 (vd + VD_TYPE) ;;
    record_array_loop count start c t a v ;; dgn_inc data
  end.

(** ldms_record_array_get_inst, ldms.c 4902-4916; the offset is a uint32_t product. *)
Definition array_get_inst (ra : N) (j : Z) : prog (option N) :=
  n <- ld 4 (ra + A_LEN) ;;
  if (j <? 0)%Z || (Z.of_N n <=? j)%Z then ret None
  else sz <- ld 4 (ra + A_SZ) ;; ret (Some (ra + A_DATA + (Z.to_N j * sz) mod 4294967296)).
(** ldms_record_array_len, ldms.c 4918-4921. *)
Definition array_len (ra : N) : prog Z := n <- ld 4 (ra + A_LEN) ;; ret (to_int n).
(** ldms_metric_get, ldms.c 2318-2321. *)
Definition metric_get (i : Z) : prog (option N) :=
  x <- mval_to_get i ;; ret match x with Some (a, _) => Some a | None => None end.

(** ldms_record_metric_add on a record that is in a schema already, ldms.c 4173-4225: the
    record of the schema is the same object, and the schema's size grows. *)
Fixpoint set_nth {A} (l : list A) (k : nat) (x : A) : list A :=
  match l, k with
  | [], _ => []
  | _ :: r, O => x :: r
  | y :: r, S k' => y :: set_nth r k' x
  end.
Definition attached_metric_add (s : schema) (id : nat) (name : list byte) (unit : option (list byte))
    (t c : N) : option schema :=
  match nth_error (s_list s) id with
  | Some (RecT r) =>
    match record_metric_add r name unit t c with
    | Some (rc, r') =>
      if (rc <? 0)%Z then None
      else Some (mkSch (s_name s) (s_digest s) (s_meta s + (rc_type_sz r' - rc_type_sz r)) (s_data s) (s_acard s)
                   (set_nth (s_list s) id (RecT r')))
    | None => None
    end
  | _ => None
  end.
