(** Model of the prefix tree lib/src/coll/idx.c. *)
From Verif Require Export Bytes.
Local Open Scope N_scope.

(** struct idx_layer_s, idx_priv.h:63-73: obj_count, layer_count, and of each entry obj
    and next.  Objects are numbers, 0 is NULL.  A layer is a value, not memory with an
    address: every layer has one pointer to it (set by idx_add to a new layer, or t->top),
    and free is always followed by clearing that pointer. *)
Inductive layer := L (obj_count layer_count : Z) (obj : N -> N) (next : N -> option layer).
Definition obj_count (l : layer) : Z := let 'L oc _ _ _ := l in oc.
Definition layer_count (l : layer) : Z := let 'L _ lc _ _ := l in lc.
Definition objs (l : layer) : N -> N := let 'L _ _ o _ := l in o.
Definition nexts (l : layer) : N -> option layer := let 'L _ _ _ n := l in n.
Definition set1 {A} (f : N -> A) (i : N) (v : A) : N -> A := fun j => if j =? i then v else f j.

(** What a call can come to: a result, undefined behaviour, a failed assert *)
Inductive res (A : Type) := Ok (a : A) | UB | Abort.
Arguments Ok {A}. Arguments UB {A}. Arguments Abort {A}.
Definition bindr {A B} (x : res A) (f : A -> res B) : res B := match x with Ok a => f a | UB => UB | Abort => Abort end.

Definition INT_MAX : Z := 2147483647.
Definition INT_MIN : Z := -2147483648.
Definition inc (n : Z) : res Z := if (n =? INT_MAX)%Z then UB else Ok (n + 1)%Z.
Definition dec (n : Z) : res Z := if (n =? INT_MIN)%Z then UB else Ok (n - 1)%Z.

(** idx.c:76-90 new_idx_layer *)
Definition new_layer : layer := L 0 0 (fun _ => 0) (fun _ => None).
(** idx.c:92-112 idx_create: the top layer *)
Definition idx_create : layer := new_layer.

(** The loops at idx.c:151-152 and 286-287, then the access to the last entry.  [buf]
    are the bytes that may be read from the key pointer on, [n] is keylen - 1. *)
Fixpoint find_in (l : layer) (buf : list byte) (n : nat) {struct buf} : res N :=
  match buf with
  | [] => UB
  | c :: buf =>
    match n with
    | O => Ok (objs l c)
    | S n => match nexts l c with None => Ok 0 | Some l => find_in l buf n end
    end
  end.
(** idx.c:142-163 idx_find *)
Definition idx_find (t : layer) (buf : list byte) (keylen : nat) : res N :=
  match keylen with O => Ok 0 | S n => find_in t buf n end.

(** idx.c:204-220, the loop of idx_add from layer [l] on; [ok d] is whether the malloc
    at depth [d] succeeds *)
Fixpoint add_in (l : layer) (buf : list byte) (n : nat) (o : N) (ok : nat -> bool) (d : nat) {struct buf} : res (Z * layer) :=
  match buf with
  | [] => UB
  | c :: buf =>
    match n with
    | O => bindr (inc (obj_count l)) (fun oc => Ok (0%Z, L oc (layer_count l) (set1 (objs l) c o) (nexts l)))
    | S n =>
      match nexts l c with
      | None =>
        if ok d then
          bindr (inc (layer_count l)) (fun lc =>
          bindr (add_in new_layer buf n o ok (S d)) (fun r =>
          Ok (fst r, L (obj_count l) lc (objs l) (set1 (nexts l) c (Some (snd r))))))
        else Ok (ENOMEM, l)
      | Some l' =>
        bindr (add_in l' buf n o ok (S d)) (fun r =>
        Ok (fst r, L (obj_count l) (layer_count l) (objs l) (set1 (nexts l) c (Some (snd r)))))
      end
    end
  end.
(** idx.c:190-221 idx_add.  With keylen 0 the decrement wraps and the loop runs over
    the whole address space: undefined. *)
Definition idx_add (t : layer) (buf : list byte) (keylen : nat) (o : N) (ok : nat -> bool) : res (Z * layer) :=
  if o =? 0 then Ok (EINVAL, t) else
  bindr (idx_find t buf keylen) (fun x =>
  if negb (x =? 0) then Ok (EEXIST, t) else
  match keylen with O => UB | S n => add_in t buf n o ok 0 end).

(** idx.c:286-299 of idx_delete: the object and the tree without it; None where line
    291 or 295 returns *)
Fixpoint clear_in (l : layer) (buf : list byte) (n : nat) {struct buf} : res (option (N * layer)) :=
  match buf with
  | [] => UB
  | c :: buf =>
    match n with
    | O => bindr (dec (obj_count l)) (fun oc => Ok (Some (objs l c, L oc (layer_count l) (set1 (objs l) c 0) (nexts l))))
    | S n =>
      match nexts l c with
      | None => Ok None
      | Some l' =>
        bindr (clear_in l' buf n) (fun r =>
        match r with
        | None => Ok None
        | Some (x, l') => Ok (Some (x, L (obj_count l) (layer_count l) (objs l) (set1 (nexts l) c (Some l'))))
        end)
      end
    end
  end.
(** idx.c:227-252 purge_layer.  [pl] may be NULL: it is not used if keylen < 2.  The
    result is the layer as it is then, None if it was freed (return value 1). *)
Definition empty_layer (l : layer) : bool := (obj_count l =? 0)%Z && (layer_count l =? 0)%Z.
Fixpoint purge_layer (pl : option layer) (buf : list byte) (keylen : nat) {struct buf} : res (option layer) :=
  match buf with
  | [] => UB
  | c :: buf =>
    if c =? 255 then Abort else
    match keylen with
    | O => Ok pl
    | S O => Ok pl
    | S (S n) =>
      match pl with
      | None => UB
      | Some l =>
        match n with
        | O => if empty_layer l then Ok None else Ok (Some l)
        | S _ =>
          match nexts l c with
          | None => Abort
          | Some npl =>
            bindr (purge_layer (Some npl) buf (S n)) (fun r =>
            match r with
            | Some npl => Ok (Some (L (obj_count l) (layer_count l) (objs l) (set1 (nexts l) c (Some npl))))
            | None =>
              bindr (dec (layer_count l)) (fun lc =>
              let l := L (obj_count l) lc (objs l) (set1 (nexts l) c None) in
              if empty_layer l then Ok None else Ok (Some l))
            end)
          end
        end
      end
    end
  end.
(** idx.c:254-266 purge_layers *)
Definition purge_layers (t : layer) (buf : list byte) (keylen : nat) : res layer :=
  match buf, keylen with
  | _, O => Abort
  | [], _ => UB
  | c :: buf, S n =>
    bindr (purge_layer (nexts t c) buf n) (fun r =>
    match r, nexts t c with
    | None, Some _ => bindr (dec (layer_count t)) (fun lc => Ok (L (obj_count t) lc (objs t) (set1 (nexts t) c None)))
    | _, _ => Ok (L (obj_count t) (layer_count t) (objs t) (set1 (nexts t) c r))
    end)
  end.
(** idx.c:275-302 idx_delete *)
Definition idx_delete (t : layer) (buf : list byte) (keylen : nat) : res (N * layer) :=
  match keylen with
  | O => Ok (0, t)
  | S n =>
    bindr (clear_in t buf n) (fun r =>
    match r with
    | None => Ok (0, t)
    | Some (x, t) => bindr (purge_layers t buf keylen) (fun t => Ok (x, t))
    end)
  end.

(** idx.c:165-176 traverse_layer: the objects the callback is called with.  The callback
    does not change the tree. *)
Definition radix : nat := 256.
Definition bytes_all : list N := map N.of_nat (seq 0 radix).
Fixpoint traverse_layer (l : layer) : list N :=
  let 'L _ _ o n := l in
  flat_map (fun e => (if o e =? 0 then [] else [o e]) ++ match n e with Some l => traverse_layer l | None => [] end) bytes_all.
(** idx.c:181-185 idx_traverse *)
Definition idx_traverse (t : layer) : list N := traverse_layer t.
(** idx.c:312-319 idx_count, the sum of size_t *)
Definition idx_count (t : layer) : N := N.of_nat (length (idx_traverse t)) mod 18446744073709551616.
