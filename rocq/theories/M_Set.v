(** Metric sets as bytes: schema construction, set creation, accessors, setters,
    generation numbers and transactions.
    Source: ldms/src/core/ldms.c, ldms_core.h, ldms_private.h.
    The block returned by mm_alloc is modelled byte by byte: addresses are
    offsets from its start (which mm_alloc aligns to at least 8 bytes).  The host is
    little endian, as [__cpu_to_le32] etc. then are the identity.  Size
    computations are done in unbounded numbers, i.e. a schema whose sizes pass
    2^64 is not distinguished; every store truncates to the width of its field. *)
From Verif Require Import Bytes.
Local Open Scope N_scope.

(** ** The memory block and the handle *)
(** struct ldms_set, ldms_private.h 124-153: only [meta] (offset 0), [data_array],
    [data], [curr_idx] and the LDMS_SET_F_DATA_COPY flag are kept. *)
Record st := mkSt {
  msz : N;              (* size of the block *)
  mb : N -> byte;       (* its contents *)
  darr : N;             (* set->data_array *)
  dat : N;              (* set->data *)
  cur : N;              (* set->curr_idx *)
  copy : bool           (* set->flags & LDMS_SET_F_DATA_COPY *)
}.

(** [Abort]: an assert fired.  [Wild]: an access outside the block, or another
    use of memory that C does not define. *)
Inductive out (A : Type) := Ret (a : A) (m : st) | Abort | Wild.
Arguments Ret {A}. Arguments Abort {A}. Arguments Wild {A}.
Definition prog (A : Type) := st -> out A.
Definition ret {A} (a : A) : prog A := fun m => Ret a m.
Definition bind {A B} (p : prog A) (k : A -> prog B) : prog B := fun m =>
  match p m with Ret a m' => k a m' | Abort => Abort | Wild => Wild end.
Notation "x <- p ;; k" := (bind p (fun x => k)) (at level 61, p at next level, right associativity).
Notation "p ;; k" := (bind p (fun _ => k)) (at level 61, right associativity).
Definition abort {A} : prog A := fun _ => Abort.
Definition wild {A} : prog A := fun _ => Wild.
Definition fld {A} (f : st -> A) : prog A := fun m => Ret (f m) m.

(** Little-endian integers as stored in memory. *)
Fixpoint le (n : nat) (v : N) : list byte :=
  match n with O => [] | S k => v mod 256 :: le k (v / 256) end.
Fixpoint of_le (l : list byte) : N :=
  match l with [] => 0 | b :: r => b + 256 * of_le r end.

Definition blen (l : list byte) : N := N.of_nat (length l).
Definition get (m : st) (a : N) (n : nat) : list byte :=
  map (fun k => mb m (a + N.of_nat k)) (seq 0 n).
Definition upd (m : st) (a : N) (bs : list byte) : st :=
  mkSt (msz m)
       (fun x => if (a <=? x) && (x <? a + blen bs) then nth (N.to_nat (x - a)) bs 0 else mb m x)
       (darr m) (dat m) (cur m) (copy m).

Definition load (a : N) (n : nat) : prog (list byte) := fun m =>
  if a + N.of_nat n <=? msz m then Ret (get m a n) m else Wild.
Definition store (a : N) (bs : list byte) : prog unit := fun m =>
  if a + blen bs <=? msz m then Ret tt (upd m a bs) else Wild.
Definition ld (n : nat) (a : N) : prog N := l <- load a n ;; ret (of_le l).
Definition sto (n : nat) (a v : N) : prog unit := store a (le n v).

(** A NUL terminated string at an address; running off the block is [Wild]. *)
Fixpoint cstr_from (fuel : nat) (m : st) (a : N) : option (list byte) :=
  match fuel with
  | O => None
  | S f => if mb m a =? 0 then Some []
           else match cstr_from f m (a + 1) with Some l => Some (mb m a :: l) | None => None end
  end.
Definition cstr (a : N) : prog (list byte) := fun m =>
  match cstr_from (N.to_nat (msz m - a)) m a with Some l => Ret l m | None => Wild end.

(** ** Constants *)
(** roundup(_v, 8), ldms_core.h 355-357. *)
Definition round8 (v : N) : N := 8 * ((v + 7) / 8).
(** enum ldms_value_type, ldms_core.h 210-243. *)
Definition V_CHAR : N := 1.
Definition V_D64 : N := 11.
Definition V_CHAR_ARRAY : N := 12.
Definition V_D64_ARRAY : N := 22.
Definition V_LIST : N := 23.
Definition V_RECORD_TYPE : N := 25.
Definition V_RECORD_ARRAY : N := 27.
Definition V_LAST : N := 28.
(** LDMS_MDESC_F_DATA/META/RECORD, ldms_core.h 88-90; bit 0 is DATA. *)
Definition F_DATA : N := 1.
Definition F_META : N := 2.
Definition F_RECORD : N := 4.
Definition is_data (f : N) : bool := N.odd f.
(** struct ldms_set_hdr, ldms_core.h 177-196: offsets (natural alignment). *)
Definition H_GN : N := 64.
Definition H_VERSION : N := 72.
Definition H_FLAGS : N := 76.
Definition H_CARD : N := 80.
Definition H_META_SZ : N := 84.
Definition H_DATA_SZ : N := 88.
Definition H_UID : N := 92.
Definition H_GID : N := 96.
Definition H_PERM : N := 100.
Definition H_ARRAY_CARD : N := 104.
Definition H_HEAP_SZ : N := 108.
Definition H_DICT : N := 140.
Definition SET_HDR : N := 144.   (* sizeof, rounded to the alignment of uint64_t *)
(** struct ldms_data_hdr, ldms_core.h 128-136, with struct ldms_heap (ldms_heap.h 66-73) last. *)
Definition D_TS : N := 0.
Definition D_DUR : N := 8.
Definition D_FLAGS : N := 16.
Definition D_SET_OFF : N := 20.
Definition D_GN : N := 24.
Definition D_SIZE : N := 32.
Definition D_META_GN : N := 40.
Definition D_CURR : N := 48.
Definition D_HEAP : N := 56.
Definition D_HEAP_SIZE : N := 64.
Definition D_HEAP_GN : N := 72.
Definition D_HEAP_TREES : N := 80.
Definition DATA_HDR : N := 96.
(** struct ldms_value_desc, ldms_core.h 97-109, pack(4). *)
Definition VD_USER : N := 0.
Definition VD_OFF : N := 8.
Definition VD_COUNT : N := 12.
Definition VD_TYPE : N := 24.
Definition VD_FLAGS : N := 25.
Definition VD_NULEN : N := 26.
Definition VD_NAME : N := 27.
Definition VALUE_DESC : N := 28.
(** struct ldms_record_type / _inst / _array, ldms_core.h 273-291. *)
Definition REC_TYPE : N := 16.
Definition REC_INST : N := 16.
Definition REC_ARRAY : N := 12.
Definition T_BEGIN : N := 1.
Definition T_END : N := 2.
Definition DIGEST : N := 32.

(** Width of one element of a scalar or array type: the cases of
    __ldms_value_size_get, __metric_set and __metric_array_set. *)
Definition width (t : N) : option N :=
  let s := if (V_CHAR_ARRAY <=? t) && (t <=? V_D64_ARRAY) then t - 11 else t in
  if (s =? 1) || (s =? 2) || (s =? 3) then Some 1
  else if (s =? 4) || (s =? 5) then Some 2
  else if (s =? 6) || (s =? 7) || (s =? 10) then Some 4
  else if (s =? 8) || (s =? 9) || (s =? 11) then Some 8
  else None.
(** ldms_type_is_array, ldms.c 2235-2238. *)
Definition type_is_array (t : N) : bool := (V_CHAR_ARRAY <=? t) && (t <=? V_D64_ARRAY).

(** __ldms_value_size_get, ldms.c 1315-1386; [None] is assert(0). *)
Definition value_size (t count : N) : option N :=
  match (match width t with
         | Some w => Some (if type_is_array t then w * count else w)
         | None => if t =? 23 then Some 12          (* LIST *)
                   else if t =? 24 then Some 12     (* LIST_ENTRY *)
                   else if t =? 25 then Some 16     (* RECORD_TYPE *)
                   else if t =? 26 then Some 16     (* RECORD_INST *)
                   else if t =? 27 then Some 12     (* RECORD_ARRAY *)
                   else None
         end) with
  | Some v => Some (round8 v)
  | None => None
  end.

(** ** Schemas *)
(** struct ldms_mdef_s, ldms_private.h 70-81. *)
Record mdef := mkMdef {
  md_name : list byte; md_unit : option (list byte);
  md_type : N; md_flags : N; md_count : N; md_meta : N; md_data : N
}.
(** struct ldms_record, ldms_private.h 102-110; [rc_id] is metric_id, negative until
    the record is added to a schema. *)
Record recdef := mkRec {
  rc_mdef : mdef; rc_id : option N; rc_inst : N; rc_type_sz : N; rc_ms : list mdef
}.
(** An element of schema->metric_list: a plain definition, a record type
    (struct ldms_record) or a record array (struct ldms_record_array_def, 112-116). *)
Inductive entry :=
| Plain (d : mdef)
| RecT (r : recdef)
| RecA (d : mdef) (rec_type inst_sz : N).
Definition base (e : entry) : mdef :=
  match e with Plain d => d | RecT r => rc_mdef r | RecA d _ _ => d end.
(** struct ldms_schema_s, ldms_private.h 85-100.  The SHA-256 state is not
    modelled; [s_digest] is the finished digest. *)
Record schema := mkSch {
  s_name : list byte; s_digest : list byte;
  s_meta : N; s_data : N; s_acard : Z; s_list : list entry
}.
Definition s_card (s : schema) : N := N.of_nat (length (s_list s)).

Definition beq (a b : list byte) : bool :=
  if list_eq_dec N.eq_dec a b then true else false.

(** ldms_schema_new, ldms.c 1124-1143: initial sizes. *)
Definition schema_new (name digest : list byte) : schema :=
  mkSch name digest SET_HDR DATA_HDR 1 [].
(** ldms_schema_array_card_set, ldms.c 1307-1313. *)
Definition schema_array_card_set (s : schema) (card : Z) : Z * schema :=
  if (card <? 0)%Z then (EINVAL, s)
  else (0%Z, mkSch (s_name s) (s_digest s) (s_meta s) (s_data s) card (s_list s)).

(** __ldms_metric_size_get, ldms.c 1388-1403 (the part for meta_sz). *)
Definition metric_meta_size (name : list byte) (unit : option (list byte)) : N :=
  match unit with
  | Some u => round8 (VALUE_DESC + blen name + 1 + blen u + 1)
  | None => round8 (VALUE_DESC + blen name + 1)
  end.

(** [None] is an assert; allocation failures (-ENOMEM) are not modelled. *)
Definition sres (A : Type) := option (Z * A).

(** __schema_mdef_add, ldms.c 1999-2025, without the digest update. *)
Definition mdef_add (s : schema) (e : entry) : Z * schema :=
  let m := base e in
  let meta := s_meta s + md_meta m + 4 in
  (Z.of_nat (length (s_list s)),
   if is_data (md_flags m)
   then mkSch (s_name s) (s_digest s) meta (s_data s + md_data m) (s_acard s) (s_list s ++ [e])
   else mkSch (s_name s) (s_digest s) (meta + md_data m) (s_data s) (s_acard s) (s_list s ++ [e])).

Definition has_name (s : schema) (name : list byte) : bool :=
  existsb (fun e => beq (md_name (base e)) name) (s_list s).

(** __schema_metric_add, ldms.c 2027-2070. *)
Definition schema_add (s : schema) (name : list byte) (unit : option (list byte))
    (flags type count : N) : sres schema :=
  if has_name s name then Some ((- EEXIST)%Z, s)
  else if N.testbit flags 1 && (type =? V_LIST) then Some ((- EINVAL)%Z, s)
  else match value_size type count with
       | None => None
       | Some dsz =>
         Some (mdef_add s (Plain (mkMdef name unit type flags count (metric_meta_size name unit) dsz)))
       end.
(** ldms_schema_metric_add_with_unit, ldms.c 2072-2078. *)
Definition schema_metric_add s name unit type : sres schema :=
  if type_is_array type || (type =? V_LIST) then Some ((- EINVAL)%Z, s)
  else schema_add s name unit F_DATA type 1.
(** ldms_schema_meta_add_with_unit, ldms.c 2086-2092. *)
Definition schema_meta_add s name unit type : sres schema :=
  if (type =? V_LIST) || (V_LAST <? type) then Some ((- EINVAL)%Z, s)
  else schema_add s name unit F_META type 1.
(** ldms_schema_metric_array_add_with_unit, ldms.c 2099-2107. *)
Definition schema_metric_array_add s name unit type count : sres schema :=
  if negb (type_is_array type) then Some ((- EINVAL)%Z, s)
  else schema_add s name unit F_DATA type count.
(** ldms_schema_meta_array_add_with_unit, ldms.c 2115-2121. *)
Definition schema_meta_array_add s name unit type count : sres schema :=
  schema_add s name unit F_META type count.
(** ldms_schema_metric_list_add, ldms.c 2129-2132. *)
Definition schema_list_add s name unit heap_sz : sres schema :=
  schema_add s name unit F_DATA V_LIST heap_sz.

(** ldms_record_create, ldms.c 4138-4171. *)
Definition record_create (name : list byte) : recdef :=
  mkRec (mkMdef name None V_RECORD_TYPE (F_META + F_RECORD) 0 (metric_meta_size name None) REC_TYPE)
        None REC_INST 0 [].
(** ldms_record_metric_add, ldms.c 4173-4225.  Only records not yet part of a
    schema are modelled (a member added later also grows schema->meta_sz). *)
Definition record_metric_add (r : recdef) (name : list byte) (unit : option (list byte))
    (type count : N) : sres recdef :=
  let c := count mod 4294967296 in
  match value_size type c with
  | None => None
  | Some dsz =>
    let m := mkMdef name unit type (F_DATA + F_RECORD) c (metric_meta_size name unit) dsz in
    let tsz := md_meta m + 4 in
    let b := rc_mdef r in
    Some (Z.of_nat (length (rc_ms r)),
      mkRec (mkMdef (md_name b) (md_unit b) (md_type b) (md_flags b) (md_count b) (md_meta b) (md_data b + tsz))
            (rc_id r) (rc_inst r + dsz) (rc_type_sz r + tsz) (rc_ms r ++ [m]))
  end.
(** ldms_schema_record_add, ldms.c 4079-4094. *)
Definition schema_record_add (s : schema) (r : recdef) : Z * schema * recdef :=
  if has_name s (md_name (rc_mdef r)) then ((- EEXIST)%Z, s, r)
  else match rc_id r with
  | Some _ => ((- EBUSY)%Z, s, r)
  | None =>
    let '(id, s1) := mdef_add s (RecT r) in
    (id, mkSch (s_name s1) (s_digest s1) (s_meta s1 + rc_type_sz r) (s_data s1) (s_acard s1) (s_list s1),
     mkRec (rc_mdef r) (Some (Z.to_N id)) (rc_inst r) (rc_type_sz r) (rc_ms r))
  end.
(** ldms_schema_record_array_add, ldms.c 4096-4136, for a non-negative length. *)
Definition schema_record_array_add (s : schema) (name : list byte) (r : recdef) (len : N) : Z * schema :=
  match rc_id r with
  | None => ((- EINVAL)%Z, s)
  | Some id =>
    if has_name s name then ((- EEXIST)%Z, s)
    else mdef_add s (RecA (mkMdef name None V_RECORD_ARRAY F_DATA len (metric_meta_size name None)
                                 (round8 (REC_ARRAY + len * rc_inst r))) id (rc_inst r))
  end.

(** ** Set creation *)
(** compute_set_sizes, ldms.c 1422-1437: a list of heap size 0 gets LDMS_LIST_HEAP
    (the definition in the schema is changed), the heap is the larger of the
    request and the sum, rounded by ldms_heap_size (LDMS_HEAP_MIN_SIZE 512). *)
Definition fix_list (e : entry) : entry :=
  match e with
  | Plain d =>
    if (md_type d =? V_LIST) && (md_count d =? 0)
    then Plain (mkMdef (md_name d) (md_unit d) (md_type d) (md_flags d) 512 (md_meta d) (md_data d))
    else e
  | _ => e
  end.
Definition list_heap (e : entry) : N :=
  if md_type (base e) =? V_LIST then md_count (base e) else 0.
Definition heap_size (es : list entry) (req : N) : N :=
  512 * ((N.max req (fold_right (fun e a => list_heap e + a) 0 es) + 511) / 512).
(** compute_set_sizes, ldms.c 1449-1453. *)
Definition meta_size (s : schema) (inst : list byte) : N :=
  round8 (s_meta s + (blen (s_name s) + 2) + DIGEST + (blen inst + 2)).
Definition acard_of (s : schema) : N := if (s_acard s =? 0)%Z then 1 else Z.to_N (s_acard s).
Definition total_size (s : schema) (inst : list byte) (hsz : N) : N :=
  meta_size s inst + (s_data s + hsz) * acard_of s.

(** __make_mdesc, ldms.c 1460-1482; returns the advanced value offset. *)
Definition make_mdesc (vd : N) (md : mdef) (voff : N) : prog N :=
  sto 1 (vd + VD_TYPE) (md_type md) ;;
  sto 1 (vd + VD_FLAGS) (md_flags md) ;;
  sto 4 (vd + VD_COUNT) (md_count md) ;;
  store (vd + VD_NAME) (md_name md ++ [0]) ;;
  match md_unit md with
  | Some u => store (vd + VD_NAME + blen (md_name md) + 1) (u ++ [0])
  | None => ret tt
  end ;;
  sto 1 (vd + VD_NULEN)
      (blen (md_name md) + 1 + match md_unit md with Some u => blen u + 1 | None => 0 end) ;;
  if is_data (md_flags md) then
    sto 4 (vd + VD_OFF) voff ;;
    match value_size (md_type md) (md_count md) with
    | Some z => ret (voff + z)
    | None => abort
    end
  else sto 4 (vd + VD_OFF) 0 ;; ret voff.

(** get_instance_name / get_schema_name / get_first_metric_desc, ldms_core.h 360-378.
    An ldms_name is a length byte followed by the characters. *)
Definition instance_name_at : prog N := c <- ld 4 H_CARD ;; ret (H_DICT + 4 * c).
Definition schema_name_at : prog N :=
  i <- instance_name_at ;; l <- ld 1 i ;; ret (i + 1 + l).
Definition first_desc_at : prog N :=
  s <- schema_name_at ;; l <- ld 1 s ;; ret (round8 (s + 1 + l)).

(** What ldms_heap_init (modelled in M_LHeap.v) leaves in the two tree roots and in
    the heap; opaque here. *)
Record himg := mkHimg { hi_roots : list byte; hi_base : list byte }.

(** ldms.c 1603-1617: the data headers of all buffers. *)
Fixpoint init_bufs (n : nat) (i : N) (db dsz hsz acard : N) (h : himg) : prog unit :=
  match n with
  | O => ret tt
  | S k =>
    let d := db + i * (dsz + hsz) in
    sto 8 (d + D_SIZE) (dsz + hsz) ;;
    sto 4 (d + D_CURR) (acard - 1) ;;
    g <- ld 8 H_GN ;;
    sto 8 (d + D_META_GN) g ;;
    sto 8 (d + D_GN) g ;;
    sto 4 (d + D_SET_OFF) d ;;
    (if hsz =? 0 then ret tt else
       sto 4 (d + D_HEAP) (6 + 256 * 64) ;;      (* grain_bits 6, grain 64 *)
       sto 8 (d + D_HEAP_SIZE) hsz ;;
       sto 4 (d + D_HEAP_GN) 0 ;;
       store (d + D_HEAP_TREES) (hi_roots h) ;;
       store (d + dsz) (hi_base h)) ;;
    init_bufs k (i + 1) db dsz hsz acard h
  end.

(** ldms.c 1619-1639: descriptors and dictionary. *)
Fixpoint desc_pass (es : list entry) (idx vd voff : N) : prog N :=
  match es with
  | [] => ret vd
  | e :: r =>
    sto 4 (H_DICT + 4 * idx) vd ;;
    v1 <- make_mdesc vd (base e) voff ;;
    t <- ld 1 (vd + VD_TYPE) ;;
    desc_pass r (idx + 1) (vd + md_meta (base e))
      (if t =? V_RECORD_ARRAY then v1 + md_count (base e) * md_data (base e) else v1)
  end.

(** ldms.c 1671-1681: member descriptors of a record type at [rt]. *)
Fixpoint rec_pass (ms : list mdef) (rt j toff ioff : N) : prog (N * N) :=
  match ms with
  | [] => ret (toff, ioff)
  | m :: r =>
    sto 4 (rt + REC_TYPE + 4 * j) toff ;;
    sto 8 (rt + toff + VD_USER) 81985529250168303 ;;   (* 0x012345678abcdef *)
    i1 <- make_mdesc (rt + toff) m ioff ;;
    l <- ld 1 (rt + toff + VD_NULEN) ;;
    if VALUE_DESC + l <=? md_meta m then rec_pass r rt (j + 1) (toff + md_meta m) i1 else abort
  end.
(** ldms.c 1661-1685. *)
Definition make_rec_type (rt : N) (r : recdef) : prog unit :=
  sto 4 rt 1 ;;                                  (* LDMS_RECORD_F_TYPE *)
  let n := N.of_nat (length (rc_ms r)) in
  x <- rec_pass (rc_ms r) rt 0 (REC_TYPE + 4 * n) REC_INST ;;
  if (snd x =? rc_inst r) && (fst x =? md_data (rc_mdef r)) then
    sto 4 (rt + 8) n ;; sto 4 (rt + 12) (snd x)
  else abort.

(** ldms.c 1647-1689: offsets of the values in the meta section.  A plain
    definition carrying type RECORD_TYPE would be read as a larger structure: [Wild]. *)
Fixpoint meta_pass (es : list entry) (i voff : N) : prog unit :=
  match es with
  | [] => ret tt
  | e :: r =>
    vd <- ld 4 (H_DICT + 4 * i) ;;
    f <- ld 1 (vd + VD_FLAGS) ;;
    if is_data f then meta_pass r (i + 1) voff
    else
      sto 4 (vd + VD_OFF) voff ;;
      t <- ld 1 (vd + VD_TYPE) ;;
      if t =? V_RECORD_TYPE then
        match e with
        | RecT rd => make_rec_type voff rd ;; meta_pass r (i + 1) (voff + md_data (rc_mdef rd))
        | _ => wild
        end
      else
        c <- ld 4 (vd + VD_COUNT) ;;
        match value_size t c with
        | Some z => meta_pass r (i + 1) (voff + z)
        | None => abort
        end
  end.

(** __set_array_get, ldms_private.h 212-216: the product is a uint32_t. *)
Definition arr_get (i : N) : prog N :=
  z <- ld 4 H_DATA_SZ ;; b <- fld darr ;; ret (b + (i * z) mod 4294967296).

(** __init_rec_array, ldms.c 1510-1516. *)
Fixpoint init_insts (n : nat) (j dh ra isz rt : N) : prog unit :=
  match n with
  | O => ret tt
  | S k =>
    let ri := ra + REC_ARRAY + j * isz in
    sto 4 (ri + 12) rt ;; sto 4 (ri + 8) (ri - dh) ;; sto 4 ri 2 ;;
    init_insts k (j + 1) dh ra isz rt
  end.
(** __init_rec_array, ldms.c 1503-1517: one record array in all buffers. *)
Fixpoint init_arr_bufs (n : nat) (i vd len isz rt : N) : prog unit :=
  match n with
  | O => ret tt
  | S k =>
    dh <- arr_get i ;;
    o <- ld 4 (vd + VD_OFF) ;;
    let ra := dh + o in
    sto 4 (ra + 8) len ;; sto 4 ra isz ;; sto 4 (ra + 4) rt ;;
    init_insts (N.to_nat len) 0 dh ra isz rt ;;
    init_arr_bufs k (i + 1) vd len isz rt
  end.
(** __init_rec_array, ldms.c 1484-1521; loops to schema->array_card, not to the
    adjusted number of buffers. *)
Fixpoint init_rec_arrays (es : list entry) (idx : N) (n : nat) : prog unit :=
  match es with
  | [] => ret tt
  | e :: r =>
    (if md_type (base e) =? V_RECORD_ARRAY then
       match e with
       | RecA d rt isz =>
         vd <- ld 4 (H_DICT + 4 * idx) ;;
         init_arr_bufs n 0 vd (md_count d) isz rt
       | _ => wild
       end
     else ret tt) ;;
    init_rec_arrays r (idx + 1) n
  end.

(** The fresh block after memset (ldms.c 1564-1571). *)
Definition blank (sz : N) : st := mkSt sz (fun _ => 0) 0 0 0 false.

(** ldms.c 1570-1601: header and names. *)
Definition write_header (s : schema) (inst : list byte) (hsz uid gid perm : N) : prog unit :=
  store H_VERSION [4; 2; 0; 0] ;;
  sto 4 H_CARD (s_card s) ;;
  sto 4 H_META_SZ (meta_size s inst) ;;
  sto 4 H_DATA_SZ (s_data s + hsz) ;;
  sto 4 H_HEAP_SZ hsz ;;
  sto 8 H_GN 1 ;;
  sto 1 H_FLAGS 2 ;;
  sto 4 H_UID uid ;; sto 4 H_GID gid ;; sto 4 H_PERM perm ;;
  sto 4 H_ARRAY_CARD (acard_of s) ;;
  i <- instance_name_at ;;
  sto 1 i (blen inst + 1) ;;
  store (i + 1) (inst ++ [0]) ;;
  n <- schema_name_at ;;
  store (n + 1) (s_name s ++ [0]) ;;
  store (n + 1 + blen (s_name s) + 1) (s_digest s) ;;
  sto 1 n (blen (s_name s) + 1 + DIGEST + 1).

(** __record_set, ldms.c 574-578, and the handle. *)
Definition record_set : prog unit := fun m =>
  match (b <- ld 4 H_META_SZ ;; n <- ld 4 H_ARRAY_CARD ;; z <- ld 4 H_DATA_SZ ;;
         ret (b, (n - 1, z))) m with
  | Ret (b, (c, z)) m' =>
      Ret tt (mkSt (msz m') (mb m') b (b + (c * z) mod 4294967296) c false)
  | Abort => Abort
  | Wild => Wild
  end.

(** ldms_set_create, ldms.c 1531-1703.  [None] is a NULL result.  [taken]: a set
    of this instance name exists already (EEXIST, __record_set 555-562); the code
    tests that after filling the block, which it then frees.
    Allocation failure and the deletion thread are not modelled. *)
Definition set_create (inst : list byte) (s0 : schema) (uid gid perm req : N)
    (h : himg) (taken : bool) : option (out unit) :=
  let es := map fix_list (s_list s0) in
  let s := mkSch (s_name s0) (s_digest s0) (s_meta s0) (s_data s0) (s_acard s0) es in
  let hsz := heap_size es req in
  if (s_acard s <? 0)%Z then None                            (* EINVAL *)
  else if negb (s_data s =? round8 (s_data s)) then Some Abort
  else if total_size s inst hsz mod 4294967296 =? 0 then None    (* int ssz *)
  else if taken then None
  else Some (
    (write_header s inst hsz uid gid perm ;;
     init_bufs (N.to_nat (acard_of s)) 0 (meta_size s inst) (s_data s) hsz (acard_of s) h ;;
     vd <- first_desc_at ;;
     vend <- desc_pass es 0 vd DATA_HDR ;;
     meta_pass es 0 (round8 vend) ;;
     record_set ;;
     init_rec_arrays es 0 (Z.to_nat (s_acard s))) (blank (total_size s inst hsz))).

(** ** Accessors *)
(** ldms_set_card_get 1784, ldms_set_name_get 1757, ldms_set_schema_name_get 1763,
    uid/gid/perm 1789-1814, sizes 1853-1861, ldms_set_digest_get 1769-1777. *)
Definition card_get : prog N := ld 4 H_CARD.
Definition name_get : prog (list byte) := i <- instance_name_at ;; cstr (i + 1).
Definition schema_name_get : prog (list byte) := i <- schema_name_at ;; cstr (i + 1).
Definition uid_get : prog N := ld 4 H_UID.
Definition gid_get : prog N := ld 4 H_GID.
Definition perm_get : prog N := ld 4 H_PERM.
Definition digest_get : prog (list byte) :=
  i <- schema_name_at ;; n <- cstr (i + 1) ;; l <- ld 1 i ;;
  if blen n + DIGEST <=? l then load (i + 1 + blen n + 1) 32 else ret (repeat 0 32).

(** __desc_get, ldms.c 1940-1947. *)
Definition desc_get (i : Z) : prog (option N) :=
  c <- ld 4 H_CARD ;;
  if (0 <=? i)%Z && (i <? Z.of_N c)%Z
  then vd <- ld 4 (H_DICT + 4 * Z.to_N i) ;; ret (Some vd)
  else ret None.
(** ldms_metric_name_get, ldms.c 1949-1955. *)
Definition metric_name_get (i : Z) : prog (option (list byte)) :=
  d <- desc_get i ;;
  match d with Some vd => n <- cstr (vd + VD_NAME) ;; ret (Some n) | None => ret None end.
(** ldms_metric_unit_get, ldms.c 1957-1968. *)
Definition metric_unit_get (i : Z) : prog (option (list byte)) :=
  d <- desc_get i ;;
  match d with
  | Some vd =>
    n <- cstr (vd + VD_NAME) ;;
    l <- ld 1 (vd + VD_NULEN) ;;
    if (Z.of_N l - 1 =? Z.of_N (blen n))%Z then ret None
    else u <- cstr (vd + VD_NAME + blen n + 1) ;; ret (Some u)
  | None => ret None
  end.
(** ldms_metric_flags_get, ldms.c 1980-1986. *)
Definition metric_flags_get (i : Z) : prog N :=
  d <- desc_get i ;;
  match d with Some vd => ld 1 (vd + VD_FLAGS) | None => ret 0 end.
(** ldms_metric_by_name, ldms.c 1988-1997 (strcmp is modelled by reading the whole name). *)
Fixpoint by_name_loop (n : nat) (i : N) (name : list byte) : prog Z :=
  match n with
  | O => ret (-1)%Z
  | S k =>
    d <- desc_get (Z.of_N i) ;;
    match d with
    | Some vd => nm <- cstr (vd + VD_NAME) ;;
                 if beq nm name then ret (Z.of_N i) else by_name_loop k (i + 1) name
    | None => wild
    end
  end.
Definition metric_by_name (name : list byte) : prog Z :=
  c <- card_get ;; by_name_loop (N.to_nat c) 0 name.

(** The dictionary is read without a range check in some functions; an index
    outside the dictionary is [Wild] there. *)
Definition dict_raw (i : Z) : prog N :=
  d <- desc_get i ;; match d with Some vd => ret vd | None => wild end.
(** ldms_metric_is_array 2245-2250, ldms_metric_array_get_len 2323-2330. *)
Definition metric_is_array (i : Z) : prog bool :=
  vd <- dict_raw i ;; t <- ld 1 (vd + VD_TYPE) ;; ret (type_is_array t).
Definition metric_array_get_len (i : Z) : prog N :=
  vd <- dict_raw i ;; t <- ld 1 (vd + VD_TYPE) ;;
  if type_is_array t then ld 4 (vd + VD_COUNT) else ret 1.

(** __ldms_gn_inc, ldms.c 177-185; LDMS_GN_INCREMENT, ldms_private.h 62-64. *)
Definition gn_inc (vd : N) : prog unit :=
  f <- ld 1 (vd + VD_FLAGS) ;;
  d <- fld dat ;;
  if is_data f then g <- ld 8 (d + D_GN) ;; sto 8 (d + D_GN) (g + 1)
  else g <- ld 8 H_GN ;; sto 8 H_GN (g + 1) ;; g' <- ld 8 H_GN ;; sto 8 (d + D_META_GN) g'.
(** ldms_metric_user_data_set/get, ldms.c 2218-2233. *)
Definition user_data_set (i : Z) (u : N) : prog unit :=
  d <- desc_get i ;;
  match d with Some vd => sto 8 (vd + VD_USER) u ;; gn_inc vd | None => ret tt end.
Definition user_data_get (i : Z) : prog N :=
  d <- desc_get i ;;
  match d with Some vd => ld 8 (vd + VD_USER) | None => ret 18446744073709551615 end.
(** ldms_metric_modify, ldms.c 2252-2260. *)
Definition metric_modify (i : Z) : prog unit := vd <- dict_raw i ;; gn_inc vd.

(** __mval_to_set, ldms.c 2262-2281: address of the value to write, descriptor. *)
Definition mval_to_set (i : Z) : prog (option (N * N)) :=
  d <- desc_get i ;;
  match d with
  | Some vd =>
    f <- ld 1 (vd + VD_FLAGS) ;; o <- ld 4 (vd + VD_OFF) ;; b <- fld dat ;;
    ret (Some ((if is_data f then b + o else o), vd))
  | None => ret None
  end.
(** __mval_to_get, ldms.c 2283-2316: address of the value a reader sees. *)
Definition mval_to_get (i : Z) : prog (option (N * N)) :=
  d <- desc_get i ;;
  match d with
  | Some vd =>
    f <- ld 1 (vd + VD_FLAGS) ;; o <- ld 4 (vd + VD_OFF) ;; b <- fld dat ;;
    if is_data f then
      tf <- ld 4 (b + D_FLAGS) ;; t <- ld 1 (vd + VD_TYPE) ;;
      if negb (tf =? T_END) && negb (t =? V_LIST) && negb (t =? V_RECORD_ARRAY) then
        n <- ld 4 H_ARRAY_CARD ;; c <- fld cur ;;
        p <- arr_get ((c + (n - 1)) mod n) ;;
        ret (Some (p + o, vd))
      else ret (Some (b + o, vd))
    else ret (Some (o, vd))
  | None => ret None
  end.
(** ldms_metric_type_get, ldms.c 1970-1978. *)
Definition metric_type_get (i : Z) : prog N :=
  v <- mval_to_get i ;;
  match v with Some (_, vd) => ld 1 (vd + VD_TYPE) | None => ret 0 end.

(** ** Setters *)
(** ldms_metric_set, ldms.c 2372-2384 with __metric_set 2340-2370; [v] is the union read as
    an integer. *)
Definition metric_set (i : Z) (v : N) : prog unit :=
  x <- mval_to_set i ;;
  match x with
  | None => abort
  | Some (a, vd) =>
    t <- ld 1 (vd + VD_TYPE) ;;
    if type_is_array t then abort
    else match width t with
         | Some w => sto (N.to_nat w) a v ;; gn_inc vd
         | None => abort
         end
  end.
(** ldms_metric_array_set_val, ldms.c 2430-2442 with __metric_array_set 2386-2428. *)
Definition metric_array_set_val (i k : Z) (v : N) : prog unit :=
  x <- mval_to_set i ;;
  match x with
  | None => abort
  | Some (a, vd) =>
    c <- ld 4 (vd + VD_COUNT) ;;
    if (k <? 0)%Z || (Z.of_N c <=? k)%Z then abort
    else
      t <- ld 1 (vd + VD_TYPE) ;;
      if type_is_array t then
        match width t with
        | Some w => sto (N.to_nat w) (a + w * Z.to_N k) v ;; gn_inc vd
        | None => abort
        end
      else abort
  end.
(** ldms_metric_set_char .. ldms_metric_set_double, ldms.c 2444-2571: [w] is the
    width of the function's value type; the metric's type is not looked at. *)
Definition metric_set_w (w : N) (i : Z) (v : N) : prog unit :=
  x <- mval_to_set i ;;
  match x with
  | None => abort
  | Some (a, vd) => sto (N.to_nat w) a v ;; gn_inc vd
  end.
(** ldms_metric_array_set_char .. _double, ldms.c 2584-2715: idx < vd_array_count
    compares as unsigned, so with 2^31 elements or more a negative index passes and
    addresses memory before the value ([Wild]). *)
Definition metric_array_set_w (w : N) (i k : Z) (v : N) : prog unit :=
  x <- mval_to_set i ;;
  match x with
  | None => abort
  | Some (a, vd) =>
    c <- ld 4 (vd + VD_COUNT) ;;
    if (k mod 4294967296 <? Z.of_N c)%Z
    then if (k <? 0)%Z then wild else sto (N.to_nat w) (a + w * Z.to_N k) v ;; gn_inc vd
    else abort
  end.
(** ldms_metric_array_set_str, ldms.c 2573-2582: strncpy pads with NUL. *)
Definition strncpy_bytes (str : list byte) (n : nat) : list byte :=
  firstn n str ++ repeat 0 (n - length str).
Definition metric_array_set_str (i : Z) (str : list byte) : prog unit :=
  x <- mval_to_set i ;;
  match x with
  | None => abort
  | Some (a, vd) =>
    c <- ld 4 (vd + VD_COUNT) ;;
    store a (strncpy_bytes str (N.to_nat c)) ;; gn_inc vd
  end.
(** ldms_metric_array_set, ldms.c 2717-2752.  [src] are the elements of the caller's
    array, read at the same index as written; [i] is an int. *)
Fixpoint array_set_loop (fuel : nat) (i : Z) (stop : Z) (c w a : N) (src : list N) : prog unit :=
  match fuel with
  | O => wild
  | S f =>
    if (i mod 18446744073709551616 <? stop)%Z && (i mod 4294967296 <? Z.of_N c)%Z then
      if (i <? 0)%Z then wild else
      match nth_error src (Z.to_nat i) with
      | None => wild
      | Some v =>
        sto (N.to_nat w) (a + w * Z.to_N i) v ;;
        if (i =? 2147483647)%Z then wild                     (* int overflow *)
        else array_set_loop f (i + 1) stop c w a src
      end
    else ret tt
  end.
Definition to_int (v : N) : Z :=
  let x := (Z.of_N v mod 4294967296)%Z in if (x <? 2147483648)%Z then x else (x - 4294967296)%Z.
Definition metric_array_set (i : Z) (src : list N) (start count : N) : prog unit :=
  _ <- dict_raw i ;;
  x <- mval_to_set i ;;
  match x with
  | None => wild
  | Some (a, vd) =>
    t <- ld 1 (vd + VD_TYPE) ;;
    c <- ld 4 (vd + VD_COUNT) ;;
    if type_is_array t then
      match width t with
      | Some w =>
        array_set_loop (S (N.to_nat c)) (to_int start)
          (Z.of_N ((start + count) mod 18446744073709551616)) c w a src ;; gn_inc vd
      | None => abort
      end
    else abort
  end.

(** ldms_metric_get_u8 .. get_double (2754-2872); array getters (2885-3010);
    ldms_metric_array_get_str 2874-2883. *)
Definition metric_get_w (w : N) (i : Z) : prog N :=
  x <- mval_to_get i ;;
  match x with None => abort | Some (a, _) => ld (N.to_nat w) a end.
Definition metric_array_get_w (w : N) (i k : Z) : prog N :=
  x <- mval_to_get i ;;
  match x with
  | None => abort
  | Some (a, vd) =>
    c <- ld 4 (vd + VD_COUNT) ;;
    if (k mod 4294967296 <? Z.of_N c)%Z
    then if (k <? 0)%Z then wild else ld (N.to_nat w) (a + w * Z.to_N k)
    else abort
  end.
Definition metric_array_get_str (i : Z) : prog (list byte) :=
  x <- mval_to_get i ;;
  match x with None => abort | Some (a, _) => cstr a end.

(** ldms_set_uid_set etc., ldms.c 1794-1820; ldms_set_config_auth 1743-1755
    (the three flags as booleans). *)
Definition uid_set (v : N) : prog unit := sto 4 H_UID v.
Definition gid_set (v : N) : prog unit := sto 4 H_GID v.
Definition perm_set (v : N) : prog unit := sto 4 H_PERM v.
Definition config_auth (uid gid perm : N) (fu fg fp : bool) : prog unit :=
  (if fu then uid_set uid else ret tt) ;;
  (if fg then gid_set gid else ret tt) ;;
  (if fp then perm_set perm else ret tt) ;;
  g <- ld 8 H_GN ;; sto 8 H_GN (g + 1) ;;
  g' <- ld 8 H_GN ;; d <- fld dat ;; sto 8 (d + D_META_GN) g'.

(** ** Transactions *)
(** ldms_set_data_copy_set, ldms.c 311-317. *)
Definition data_copy_set (on : bool) : prog unit := fun m =>
  Ret tt (mkSt (msz m) (mb m) (darr m) (dat m) (cur m) on).
Definition set_cur (c d : N) : prog unit := fun m =>
  Ret tt (mkSt (msz m) (mb m) (darr m) d c (copy m)).
Definition memcpy (dst src : N) (n : N) : prog unit :=
  l <- load src (N.to_nat n) ;; store dst l.
Fixpoint set_curr_idx (n : nat) (i c : N) : prog unit :=
  match n with
  | O => ret tt
  | S k => d <- arr_get i ;; sto 4 (d + D_CURR) c ;; set_curr_idx k (i + 1) c
  end.
(** ldms_transaction_begin, ldms.c 3408-3456; the time of day is an argument.
    The heap handle (3442-3443) is not modelled. *)
Definition transaction_begin (sec usec : N) : prog unit :=
  n <- ld 4 H_ARRAY_CARD ;;
  (if n =? 1 then ret tt else
     if n =? 0 then wild else                     (* division by zero *)
     c <- fld cur ;;
     prev <- arr_get c ;;
     let c' := (c + 1) mod n in
     dh <- arr_get c' ;;
     so <- ld 4 (dh + D_SET_OFF) ;;
     cp <- fld copy ;;
     sz <- ld 8 (dh + D_SIZE) ;;
     g1 <- ld 4 (dh + D_HEAP_GN) ;;
     g2 <- ld 4 (prev + D_HEAP_GN) ;;
     (if cp then memcpy dh prev sz
      else if negb (g1 =? g2) then memcpy dh prev sz
      else memcpy dh prev DATA_HDR) ;;
     sto 4 (dh + D_SET_OFF) so ;;
     set_cur c' dh ;;
     set_curr_idx (N.to_nat n) 0 c') ;;
  d <- fld dat ;;
  sto 4 (d + D_FLAGS) T_BEGIN ;;
  sto 4 (d + D_TS) sec ;; sto 4 (d + D_TS + 4) usec.
(** ldms_transaction_end, ldms.c 3458-3481; the duration fields are uint32_t. *)
Definition sub32 (a b : N) : N := (a + 4294967296 - b mod 4294967296) mod 4294967296.
Definition transaction_end (sec usec : N) : prog unit :=
  c <- fld cur ;;
  dh <- arr_get c ;;
  ts <- ld 4 (dh + D_TS) ;; tu <- ld 4 (dh + D_TS + 4) ;;
  let ds := sub32 sec ts in
  let du := sub32 usec tu in
  (if 2147483648 <=? du
   then sto 4 (dh + D_DUR) (sub32 ds 1) ;; sto 4 (dh + D_DUR + 4) ((du + 1000000) mod 4294967296)
   else sto 4 (dh + D_DUR) ds ;; sto 4 (dh + D_DUR + 4) du) ;;
  sto 4 (dh + D_TS) sec ;; sto 4 (dh + D_TS + 4) usec ;;
  sto 4 (dh + D_FLAGS) T_END ;;
  d <- fld dat ;;
  g <- ld 8 (d + D_GN) ;; sto 8 (d + D_GN) (g + 1).
(** ldms_transaction_timestamp_get / duration_get 3483-3501,
    ldms_set_is_consistent 3523-3527, ldms_set_meta_gn_get / data_gn_get. *)
Definition timestamp_get : prog (N * N) :=
  d <- fld dat ;; s <- ld 4 (d + D_TS) ;; u <- ld 4 (d + D_TS + 4) ;; ret (s, u).
Definition duration_get : prog (N * N) :=
  d <- fld dat ;; s <- ld 4 (d + D_DUR) ;; u <- ld 4 (d + D_DUR + 4) ;; ret (s, u).
Definition is_consistent : prog bool :=
  d <- fld dat ;; f <- ld 4 (d + D_FLAGS) ;; ret (f =? T_END).
Definition data_gn_get : prog N := d <- fld dat ;; ld 8 (d + D_GN).
Definition meta_gn_get : prog N := ld 8 H_GN.
