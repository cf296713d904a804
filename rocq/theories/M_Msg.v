(** Model of the bookkeeping of outstanding messages in ldms/src/ldmsd/ldmsd_request.c:
    the tree of message contexts, keyed by (flags, message number, connection), on
    the red/black tree model (M_Rbt).

    Simplifications: a call of ldmsd_process_config_request or _response is one
    step (the handler runs with the tree unlocked, other threads' steps on other
    messages commute with it); what a handler does is the number of references it
    keeps; the buffers and the validation of a message are parameters, with
    ldmsd_msg_gather and validate_ldmsd_req (M_Request.v) as the instance used in the
    examples; error replies are only named. *)
From Verif Require Export Base M_Rbt.
From Coq Require Export List.
Export ListNotations.
Local Open Scope N_scope.

(** ldmsd_request.h:293-297 struct req_ctxt_key: an 8-bit, a 32-bit and a 64-bit
    field; as a key of the tree, one number. *)
Record mkey := mkKey { k_flags : N; k_conn : N; k_msg : N }.
Definition enc (k : mkey) : N := k_flags k * 79228162514264337593543950336 + k_conn k * 4294967296 + k_msg k.
Definition f_flags (n : N) : N := n / 79228162514264337593543950336.
Definition f_conn (n : N) : N := n / 4294967296 mod 18446744073709551616.
Definition f_msg (n : N) : N := n mod 4294967296.
Definition fits_key (k : mkey) : bool :=
  (k_flags k <? 256) && (k_conn k <? 18446744073709551616) && (k_msg k <? 4294967296).

(** Conversion of a difference to int: the low 32 bits, signed. *)
Definition i32 (z : Z) : Z := let r := (z mod 4294967296)%Z in if (r <? 2147483648)%Z then r else (r - 4294967296)%Z.

(** ldmsd_request.c:164-177 msg_comparator *)
Definition msg_comparator (a b : N) : Z :=
  let rc := (Z.of_N (f_flags a) - Z.of_N (f_flags b))%Z in
  if negb (rc =? 0)%Z then rc else
  let rc := i32 (Z.of_N (f_conn a) - Z.of_N (f_conn b)) in
  if negb (rc =? 0)%Z then rc else
  i32 (Z.of_N (f_msg a) - Z.of_N (f_msg b)).

(** What malloc and calloc do during one call: all succeed, the calloc of the
    context fails, one of its buffers fails, the copy of the transport fails. *)
Inductive memory := MAll | MNoCtxt | MNoBuffer | MNoXprt.

(** What the peer or the caller gets to know of a step. *)
Inductive reply {B : Type} :=
| NoMarker                  (** missing record marker *)
| Duplicate                 (** EADDRINUSE *)
| NotFound                  (** ENOENT *)
| NoMemory                  (** ENOMEM *)
| More                      (** record taken, message not complete *)
| Delivered (b : B)         (** message complete and handled *)
| Done.
Arguments reply : clear implicits.

Section Msg.
Variables B R : Type.
Variable fresh : B.
(** ldmsd_msg_gather; [None]: undefined *)
Variable gather : B -> R -> option B.
(** validate_ldmsd_req; [None]: undefined *)
Variable valid : B -> option bool.
(** LDMSD_REQ_SOM_F and LDMSD_REQ_EOM_F *)
Variables som eom : R -> bool.
(** Steps the tree loops may take *)
Variable fuel : nat.

(** ldmsd_request.h struct ldmsd_req_ctxt: the buffer and the reference count; the
    tree node and the key are in the tree. *)
Record ctxt := mkC { c_buf : B; c_refs : Z }.
(** msg_tree, the contexts by address, msg_tree_lock *)
Record mst := mkM { m_tree : st; m_ctx : N -> option ctxt; m_lock : bool }.
Definition mempty : mst := mkM (rbt_init (fun _ => None)) (fun _ => None) false.

(** [None]: undefined behaviour or self-deadlock *)
Definition mprog (A : Type) := mst -> option (A * mst).
Definition mret {A} (a : A) : mprog A := fun m => Some (a, m).
Definition mbind {A C} (p : mprog A) (k : A -> mprog C) : mprog C :=
  fun m => match p m with None => None | Some (a, m') => k a m' end.
Definition mfail {A} : mprog A := fun _ => None.
Local Notation "x <~ p ;; k" := (mbind p (fun x => k)) (at level 61, p at next level, right associativity).
Local Notation "p ~;; k" := (mbind p (fun _ => k)) (at level 61, right associativity).

Definition on_tree {A} (p : M_Rbt.prog A) : mprog A := fun m =>
  match p (m_tree m) with None => None | Some (a, t) => Some (a, mkM t (m_ctx m) (m_lock m)) end.
Definition get_ctx (x : N) : mprog ctxt := fun m =>
  match m_ctx m x with None => None | Some c => Some (c, m) end.
Definition set_ctx (x : N) (c : option ctxt) : mprog unit := fun m =>
  Some (tt, mkM (m_tree m) (fun a => if a =? x then c else m_ctx m a) (m_lock m)).

(** ldmsd_request.c:799-807 req_ctxt_tree_lock, req_ctxt_tree_unlock on a default
    mutex *)
Definition tree_lock : mprog unit := fun m =>
  if m_lock m then None else Some (tt, mkM (m_tree m) (m_ctx m) true).
Definition tree_unlock : mprog unit := fun m =>
  if m_lock m then Some (tt, mkM (m_tree m) (m_ctx m) false) else None.

(** ldmsd_request.c:725-732 find_req_ctxt *)
Definition find_req_ctxt (k : mkey) : mprog N := on_tree (rbt_find msg_comparator fuel (enc k)).

(** ldmsd_request.c:735-746 __free_req_ctxt, for a context with a transport: the
    node leaves the tree and its memory is freed. *)
Definition free_req_ctxt (x : N) : mprog unit :=
  on_tree (rbt_del fuel x) ~;;
  on_tree (fun s => Some (tt, M_Rbt.mkSt (root s) (card s) (fun a => if a =? x then None else heap s a))) ~;;
  set_ctx x None.
(** ldmsd_request.c:748-752 req_ctxt_ref_get *)
Definition ref_get (x : N) : mprog unit :=
  c <~ get_ctx x ;; if (c_refs c =? 0)%Z then mfail else set_ctx x (Some (mkC (c_buf c) (c_refs c + 1))).
Fixpoint ref_gets (n : nat) (x : N) : mprog unit :=
  match n with O => mret tt | Datatypes.S n => ref_get x ~;; ref_gets n x end.
(** ldmsd_request.c:755-759 req_ctxt_ref_put *)
Definition ref_put (x : N) : mprog unit :=
  c <~ get_ctx x ;;
  let r := (c_refs c - 1)%Z in
  set_ctx x (Some (mkC (c_buf c) r)) ~;;
  if (r =? 0)%Z then free_req_ctxt x else mret tt.

(** ldmsd_request.c:766-797 alloc_req_ctxt: 0 for NULL.  [x] is the address calloc
    returns.  When a buffer cannot be allocated, __free_req_ctxt is called on a node
    that is not in the tree and reads through the NULL transport. *)
Definition alloc_req_ctxt (mm : memory) (x : N) (k : mkey) : mprog N :=
  match mm with
  | MNoCtxt => mret 0
  | MNoBuffer => mfail
  | _ =>
    set_ctx x (Some (mkC fresh 1)) ~;;
    on_tree (fun s => Some (tt, M_Rbt.mkSt (root s) (card s) (upd (heap s) x (mkN 0 0 0 Red 0)))) ~;;
    on_tree (rbn_init x (enc k)) ~;;
    on_tree (rbt_ins msg_comparator fuel x) ~;;
    mret x
  end.

(** ldmsd_request.c:1241-1363 ldmsd_process_config_request.  [mark]: the record has
    its marker; [k]: the key made from transport and message number; [keep]: the
    references the handler keeps when it returns.  When the transport cannot be
    copied, req_ctxt_ref_put frees a context whose transport is NULL (1291-1294). *)
Definition process_request (mm : memory) (x : N) (mark : bool) (k : mkey) (r : R) (keep : nat) : mprog (reply B) :=
  if negb mark then mret NoMarker else
  tree_lock ~;;
  f <~ find_req_ctxt k ;;
  let gathering (c : N) : mprog (reply B) :=
    cc <~ get_ctx c ;;
    match gather (c_buf cc) r with
    | None => mfail
    | Some b =>
      set_ctx c (Some (mkC b (c_refs cc))) ~;;
      tree_unlock ~;;
      if negb (eom r) then mret More else
      match valid b with
      | None => mfail
      | Some false => tree_unlock ~;; mret Done      (** goto err_out: unlocks again *)
      | Some true =>
        ref_gets keep c ~;;                          (** ldmsd_handle_request *)
        tree_lock ~;; ref_put c ~;; tree_unlock ~;;
        mret (Delivered b)
      end
    end in
  if som r then
    if negb (f =? 0) then tree_unlock ~;; mret Duplicate else
    c <~ alloc_req_ctxt mm x k ;;
    if c =? 0 then tree_unlock ~;; mret NoMemory else
    match mm with
    | MNoXprt => mfail
    | _ => gathering c
    end
  else
    if f =? 0 then tree_unlock ~;; mret NotFound else gathering f.

(** ldmsd_request.c:816-856 alloc_req_cmd_ctxt under ldmsd_req_cmd_new (858-871): the
    context of a request sent by this daemon, awaiting its response. *)
Definition req_cmd_new (mm : memory) (x : N) (k : mkey) : mprog (reply B) :=
  tree_lock ~;;
  c <~ alloc_req_ctxt mm x k ;;
  tree_unlock ~;;
  mret (if c =? 0 then NoMemory else Done).

(** ldmsd_request.c:1368-1443 ldmsd_process_config_response, with free_req_cmd_ctxt
    (874-883) of a command that has no original request. *)
Definition process_response (mark : bool) (k : mkey) (r : R) : mprog (reply B) :=
  if negb mark then mret NoMarker else
  tree_lock ~;;
  f <~ find_req_ctxt k ;;
  if f =? 0 then tree_unlock ~;; mret NotFound else
  cc <~ get_ctx f ;;
  match gather (c_buf cc) r with
  | None => mfail
  | Some b =>
    set_ctx f (Some (mkC b (c_refs cc))) ~;;
    tree_unlock ~;;
    if negb (eom r) then mret More else
    match valid b with
    | None => mfail
    | Some false => tree_unlock ~;; mret Done
    | Some true => tree_lock ~;; ref_put f ~;; tree_unlock ~;; mret (Delivered b)
    end
  end.

(** A holder of a reference drops it. *)
Definition drop (x : N) : mprog (reply B) := tree_lock ~;; ref_put x ~;; tree_unlock ~;; mret Done.
End Msg.
