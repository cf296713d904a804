(** Model of the red/black tree lib/src/coll/rbt.c at the level of nodes, pointers
    and assignments. *)
From Verif Require Export Base.
From Coq Require Export NArith ZArith Lia List.
Export ListNotations.
Local Open Scope N_scope.

(** RBN_RED and RBN_BLACK, rbt.h:61-62 (an int in the code, only these values are
    ever stored) *)
Inductive color := Red | Black.
Definition ceqb (a b : color) : bool :=
  match a, b with Red, Red | Black, Black => true | _, _ => false end.

(** struct rbn, rbt.h:65-71.  Pointers are numbers, NULL is 0.  The key is the
    key pointer. *)
Record node := mkN { left : N; right : N; parent : N; col : color; key : N }.

(** struct rbt, rbt.h:82-86, and the memory holding the nodes: None where no node
    is. *)
Record st := mkSt { root : N; card : Z; heap : N -> option node }.

Definition upd (h : N -> option node) (a : N) (n : node) : N -> option node :=
  fun b => if b =? a then Some n else h b.

(** Programs: None when memory that holds no node is accessed (in particular
    through NULL), when an assert fails or when the fuel of a loop runs out. *)
Definition prog (A : Type) := st -> option (A * st).
Definition ret {A} (a : A) : prog A := fun s => Some (a, s).
Definition bind {A B} (m : prog A) (k : A -> prog B) : prog B :=
  fun s => match m s with None => None | Some (a, s') => k a s' end.
Notation "x <- m ;; k" := (bind m (fun x => k)) (at level 61, m at next level, right associativity).
Notation "m ;;; k" := (bind m (fun _ => k)) (at level 61, right associativity).
Definition fail {A} : prog A := fun _ => None.
Definition assert_ (b : bool) : prog unit := if b then ret tt else fail.

Definition load (a : N) : prog node := fun s =>
  if a =? 0 then None else match heap s a with None => None | Some n => Some (n, s) end.
Definition store (a : N) (f : node -> node) : prog unit := fun s =>
  if a =? 0 then None
  else match heap s a with
       | None => None
       | Some n => Some (tt, mkSt (root s) (card s) (upd (heap s) a (f n)))
       end.
Definition get_left a := n <- load a ;; ret (left n).
Definition get_right a := n <- load a ;; ret (right n).
Definition get_parent a := n <- load a ;; ret (parent n).
Definition get_key a := n <- load a ;; ret (key n).
Definition get_color a := n <- load a ;; ret (col n).
Definition set_left a v := store a (fun n => mkN v (right n) (parent n) (col n) (key n)).
Definition set_right a v := store a (fun n => mkN (left n) v (parent n) (col n) (key n)).
Definition set_parent a v := store a (fun n => mkN (left n) (right n) v (col n) (key n)).
Definition set_color a v := store a (fun n => mkN (left n) (right n) (parent n) v (key n)).
Definition get_root : prog N := fun s => Some (root s, s).
Definition set_root v : prog unit := fun s => Some (tt, mkSt v (card s) (heap s)).
Definition get_card : prog Z := fun s => Some (card s, s).
Definition set_card v : prog unit := fun s => Some (tt, mkSt (root s) v (heap s)).

(** rbt.c:53-58 is_red *)
Definition is_red (x : N) : prog bool :=
  if x =? 0 then ret false else c <- get_color x ;; ret (ceqb c Red).

(** rbt.c:537-539 node_color *)
Definition node_color (x : N) : prog color := if x =? 0 then ret Black else get_color x.

(** rbt.c:60-88 rotate_left *)
Definition rotate_left (x : N) : prog unit :=
  y <- get_right x ;;
  par <- get_parent x ;;
  yl <- get_left y ;;
  set_right x yl ;;;
  yl <- get_left y ;;
  (if yl =? 0 then ret tt else set_parent yl x) ;;;
  xp <- get_parent x ;;
  set_parent y xp ;;;
  r <- get_root ;;
  (if negb (r =? x) then
     xp <- get_parent x ;; assert_ (negb (xp =? 0)) ;;;
     pl <- get_left par ;;
     if pl =? x then set_left par y else set_right par y
   else
     xp <- get_parent x ;; assert_ (xp =? 0) ;;;
     set_root y ;;; set_parent y 0) ;;;
  set_left y x ;;;
  set_parent x y.

(** rbt.c:90-115 rotate_right *)
Definition rotate_right (x : N) : prog unit :=
  y <- get_left x ;;
  par <- get_parent x ;;
  yr <- get_right y ;;
  set_left x yr ;;;
  yr <- get_right y ;;
  (if yr =? 0 then ret tt else set_parent yr x) ;;;
  r <- get_root ;;
  (if negb (r =? x) then
     set_parent y par ;;;
     pr <- get_right par ;;
     if pr =? x then set_right par y else set_left par y
   else
     set_root y ;;; set_parent y 0) ;;;
  set_right y x ;;;
  set_parent x y.

(** rbt.c:124-129 rbt_init *)
Definition rbt_init (h : N -> option node) : st := mkSt 0 0 h.
(** rbt.c:138-141 rbt_empty, 147-150 rbt_card *)
Definition rbt_empty (s : st) : bool := root s =? 0.
Definition rbt_card (s : st) : Z := card s.
(** rbt.c:163-166 rbn_init *)
Definition rbn_init (x k : N) : prog unit := store x (fun n => mkN (left n) (right n) (parent n) (col n) k).

Section Cmp.
(** The user's comparator: called with a tree key and a key. *)
Variable cmp : N -> N -> Z.

(** rbt.c:199-206: the loop descending to a leaf; [c] is the last comparison *)
Fixpoint ins_descend (fuel : nat) (x n par : N) (c : Z) : prog (N * Z) :=
  match fuel with
  | O => fail
  | S fuel' =>
    if n =? 0 then ret (par, c)
    else nk <- get_key n ;; xk <- get_key x ;;
         let c := cmp nk xk in
         if (0 <? c)%Z then l <- get_left n ;; ins_descend fuel' x l n c
         else r <- get_right n ;; ins_descend fuel' x r n c
  end.

(** rbt.c:219-257: the loop restoring the colours *)
Fixpoint ins_fix (fuel : nat) (x : N) : prog unit :=
  match fuel with
  | O => fail
  | S fuel' =>
    r <- get_root ;;
    if x =? r then ret tt
    else
      p <- get_parent x ;;
      red <- is_red p ;;
      if negb red then ret tt
      else
        g <- get_parent p ;;
        gl <- get_left g ;;
        if p =? gl then
          uncle <- get_right g ;;
          ur <- is_red uncle ;;
          if (ur : bool) then
            set_color p Black ;;; set_color uncle Black ;;; set_color g Red ;;; ins_fix fuel' g
          else
            pr <- get_right p ;;
            x <- (if x =? pr then rotate_left p ;;; ret p else ret x) ;;
            p <- get_parent x ;;
            set_color p Black ;;;
            g <- get_parent p ;;
            set_color g Red ;;;
            rotate_right g ;;;
            ins_fix fuel' x
        else
          uncle <- get_left g ;;
          ur <- is_red uncle ;;
          if (ur : bool) then
            set_color p Black ;;; set_color uncle Black ;;; set_color g Red ;;; ins_fix fuel' g
          else
            pl <- get_left p ;;
            x <- (if x =? pl then rotate_right p ;;; ret p else ret x) ;;
            p <- get_parent x ;;
            set_color p Black ;;;
            g <- get_parent p ;;
            (if g =? 0 then ret tt else set_color g Red ;;; rotate_left g) ;;;
            ins_fix fuel' x
  end.

(** rbt.c:179-259 rbt_ins *)
Definition rbt_ins (fuel : nat) (x : N) : prog unit :=
  cd <- get_card ;; set_card (cd + 1) ;;;
  set_right x 0 ;;; set_left x 0 ;;;
  r <- get_root ;;
  if r =? 0 then set_color x Black ;;; set_root x ;;; set_parent x 0
  else
    set_color x Red ;;;
    pc <- ins_descend fuel x r 0 0 ;;
    let '(par, c) := pc in
    assert_ (negb (par =? 0)) ;;;
    set_parent x par ;;;
    (if (0 <? c)%Z then set_left par x else set_right par x) ;;;
    ins_fix fuel x ;;;
    r <- get_root ;; set_color r Black.

(** rbt.c:305-323 rbt_find_glb *)
Fixpoint glb_loop (fuel : nat) (x k glb : N) : prog N :=
  match fuel with
  | O => fail
  | S fuel' =>
    if x =? 0 then ret glb
    else xk <- get_key x ;;
         let c := cmp xk k in
         if (c =? 0)%Z then ret x
         else if (0 <? c)%Z then l <- get_left x ;; glb_loop fuel' l k glb
         else r <- get_right x ;; glb_loop fuel' r k x
  end.
Definition rbt_find_glb (fuel : nat) (k : N) : prog N := r <- get_root ;; glb_loop fuel r k 0.

(** rbt.c:349-367 rbt_find_lub *)
Fixpoint lub_loop (fuel : nat) (x k lub : N) : prog N :=
  match fuel with
  | O => fail
  | S fuel' =>
    if x =? 0 then ret lub
    else xk <- get_key x ;;
         let c := cmp xk k in
         if (c =? 0)%Z then ret x
         else if (c <? 0)%Z then r <- get_right x ;; lub_loop fuel' r k lub
         else l <- get_left x ;; lub_loop fuel' l k x
  end.
Definition rbt_find_lub (fuel : nat) (k : N) : prog N := r <- get_root ;; lub_loop fuel r k 0.

(** rbt.c:377-393 rbt_find *)
Fixpoint find_loop (fuel : nat) (x k : N) : prog N :=
  match fuel with
  | O => fail
  | S fuel' =>
    if x =? 0 then ret 0
    else xk <- get_key x ;;
         let c := cmp xk k in
         if (c =? 0)%Z then ret x
         else if (0 <? c)%Z then l <- get_left x ;; find_loop fuel' l k
         else r <- get_right x ;; find_loop fuel' r k
  end.
Definition rbt_find (fuel : nat) (k : N) : prog N := r <- get_root ;; find_loop fuel r k.
End Cmp.

(** rbt.c:395-405 __rbn_min, __rbn_max *)
Fixpoint rbn_min (fuel : nat) (n : N) : prog N :=
  match fuel with
  | O => fail
  | S fuel' => if n =? 0 then ret n
               else l <- get_left n ;; if l =? 0 then ret n else rbn_min fuel' l
  end.
Fixpoint rbn_max (fuel : nat) (n : N) : prog N :=
  match fuel with
  | O => fail
  | S fuel' => if n =? 0 then ret n
               else r <- get_right n ;; if r =? 0 then ret n else rbn_max fuel' r
  end.
(** rbt.c:413-427 rbt_min, rbt_max *)
Definition rbt_min (fuel : nat) : prog N := r <- get_root ;; rbn_min fuel r.
Definition rbt_max (fuel : nat) : prog N := r <- get_root ;; rbn_max fuel r.

(** rbt.c:429-448 rbt_traverse_subtree: the calls of the callback (node and level)
    in order, and the final return code.  [f] gives the callback's return code from
    the calls made so far; the callback does not change the tree. *)
Fixpoint traverse_sub (fuel : nat) (f : list (N * N) -> Z) (n level : N) (log : list (N * N)) : prog (Z * list (N * N)) :=
  match fuel with
  | O => fail
  | S fuel' =>
    if n =? 0 then ret (0%Z, log)
    else l <- get_left n ;;
         a <- traverse_sub fuel' f l (level + 1) log ;;
         let '(rc, log) := a in
         if negb (rc =? 0)%Z then ret (rc, log)
         else let log := log ++ [(n, level)] in
              let rc := f log in
              if negb (rc =? 0)%Z then ret (rc, log)
              else r <- get_right n ;; traverse_sub fuel' f r (level + 1) log
  end.
(** rbt.c:462-467 rbt_traverse *)
Definition rbt_traverse (fuel : nat) (f : list (N * N) -> Z) : prog (Z * list (N * N)) :=
  r <- get_root ;; if r =? 0 then ret (0%Z, []) else traverse_sub fuel f r 0 [].

(** rbt.c:476-488 rbn_succ *)
Fixpoint succ_up (fuel : nat) (n : N) : prog N :=
  match fuel with
  | O => fail
  | S fuel' =>
    p <- get_parent n ;;
    if p =? 0 then ret p
    else pr <- get_right p ;; if n =? pr then succ_up fuel' p else ret p
  end.
Definition rbn_succ (fuel : nat) (n : N) : prog N :=
  r <- get_right n ;;
  if negb (r =? 0) then rbn_min fuel r
  else p <- get_parent n ;; if negb (p =? 0) then succ_up fuel n else ret 0.
(** rbt.c:497-509 rbn_pred *)
Fixpoint pred_up (fuel : nat) (n : N) : prog N :=
  match fuel with
  | O => fail
  | S fuel' =>
    p <- get_parent n ;;
    if p =? 0 then ret p
    else pl <- get_left p ;; if n =? pl then pred_up fuel' p else ret p
  end.
Definition rbn_pred (fuel : nat) (n : N) : prog N :=
  l <- get_left n ;;
  if negb (l =? 0) then rbn_max fuel l
  else p <- get_parent n ;; if negb (p =? 0) then pred_up fuel n else ret 0.

(** rbt.c:288-295 rbt_greatest_lt_or_eq, 332-339 rbt_least_gt_or_eq *)
Definition rbt_greatest_lt_or_eq (n : N) : prog N :=
  l <- get_left n ;;
  if negb (l =? 0) then ret l
  else p <- get_parent n ;;
       if p =? 0 then ret 0 else pl <- get_left p ;; if pl =? n then ret p else ret 0.
Definition rbt_least_gt_or_eq (n : N) : prog N :=
  r <- get_right n ;;
  if negb (r =? 0) then ret r
  else p <- get_parent n ;;
       if p =? 0 then ret 0 else pr <- get_right p ;; if pr =? n then ret p else ret 0.

(** rbt.h:117-118 RBT_FOREACH: the nodes the loop body sees *)
Fixpoint foreach_loop (m fuel : nat) (n : N) : prog (list N) :=
  match m with
  | O => fail
  | S m' => if n =? 0 then ret []
            else s <- rbn_succ fuel n ;; l <- foreach_loop m' fuel s ;; ret (n :: l)
  end.
Definition rbt_foreach (m fuel : nat) : prog (list N) := n <- rbt_min fuel ;; foreach_loop m fuel n.

(** rbt.c:261-266 find_pred *)
Fixpoint find_pred_loop (fuel : nat) (x : N) : prog N :=
  match fuel with
  | O => fail
  | S fuel' => r <- get_right x ;; if r =? 0 then ret x else find_pred_loop fuel' r
  end.
Definition find_pred (fuel : nat) (n : N) : prog N := l <- get_left n ;; find_pred_loop fuel l.

(** rbt.c:511-519 sibling *)
Definition sibling (n : N) : prog N :=
  assert_ (negb (n =? 0)) ;;;
  p <- get_parent n ;; assert_ (negb (p =? 0)) ;;;
  pl <- get_left p ;; if n =? pl then get_right p else get_left p.

(** rbt.c:521-535 replace_node *)
Definition replace_node (oldn newn : N) : prog unit :=
  p <- get_parent oldn ;;
  (if p =? 0 then set_root newn ;;; set_parent newn 0
   else pl <- get_left p ;; if oldn =? pl then set_left p newn else set_right p newn) ;;;
  if negb (newn =? 0) then p <- get_parent oldn ;; set_parent newn p else ret tt.

(** The test "parent black/red, sibling and its children black" of cases 3 and 4,
    rbt.c:898-901 and 920-923, evaluated left to right with &&. *)
Definition black_around (pc : color) (p s : N) : prog bool :=
  c <- node_color p ;;
  if negb (ceqb c pc) then ret false
  else c <- node_color s ;;
  if negb (ceqb c Black) then ret false
  else sl <- get_left s ;; c <- node_color sl ;;
  if negb (ceqb c Black) then ret false
  else sr <- get_right s ;; c <- node_color sr ;;
  ret (ceqb c Black).

(** rbt.c:990-1006 delete_case6 *)
Definition delete_case6 (n : N) : prog unit :=
  s <- sibling n ;;
  p <- get_parent n ;;
  assert_ (negb (s =? 0)) ;;;
  pc <- get_color p ;; set_color s pc ;;;
  set_color p Black ;;;
  pl <- get_left p ;;
  if n =? pl then
    sr <- get_right s ;; c <- node_color sr ;; assert_ (ceqb c Red) ;;;
    set_color sr Black ;;; rotate_left p
  else
    sl <- get_left s ;; c <- node_color sl ;; assert_ (ceqb c Red) ;;;
    set_color sl Black ;;; rotate_right p.

(** rbt.c:944-967 delete_case5: first condition (n is the left child), second
    condition (right child) *)
Definition case5_left (n p s : N) : prog bool :=
  pl <- get_left p ;;
  if negb (n =? pl) then ret false
  else c <- node_color s ;; if negb (ceqb c Black) then ret false
  else sl <- get_left s ;; c <- node_color sl ;; if negb (ceqb c Red) then ret false
  else sr <- get_right s ;; c <- node_color sr ;; ret (ceqb c Black).
Definition case5_right (n p s : N) : prog bool :=
  pr <- get_right p ;;
  if negb (n =? pr) then ret false
  else c <- node_color s ;; if negb (ceqb c Black) then ret false
  else sr <- get_right s ;; c <- node_color sr ;; if negb (ceqb c Red) then ret false
  else sl <- get_left s ;; c <- node_color sl ;; ret (ceqb c Black).
Definition delete_case5 (n : N) : prog unit :=
  s <- sibling n ;;
  p <- get_parent n ;;
  assert_ (negb (s =? 0)) ;;;
  b1 <- case5_left n p s ;;
  (if (b1 : bool) then
     set_color s Red ;;; sl <- get_left s ;; set_color sl Black ;;; rotate_right s
   else
     b2 <- case5_right n p s ;;
     if (b2 : bool) then set_color s Red ;;; sr <- get_right s ;; set_color sr Black ;;; rotate_left s
     else ret tt) ;;;
  delete_case6 n.

(** rbt.c:915-932 delete_case4 *)
Definition delete_case4 (n : N) : prog unit :=
  s <- sibling n ;;
  p <- get_parent n ;;
  assert_ (negb (s =? 0)) ;;;
  b <- black_around Red p s ;;
  if (b : bool) then set_color s Red ;;; set_color p Black else delete_case5 n.

(** rbt.c:856-909 delete_case1, delete_case2, delete_case3 (mutually recursive) *)
Fixpoint delete_case2 (fuel : nat) (n : N) : prog unit :=
  match fuel with
  | O => fail
  | S fuel' =>
    s <- sibling n ;;
    p <- get_parent n ;;
    c <- node_color s ;;
    (if ceqb c Red then
       set_color p Red ;;; set_color s Black ;;;
       pl <- get_left p ;;
       if n =? pl then rotate_left p else rotate_right p
     else ret tt) ;;;
    (* delete_case3 *)
    s <- sibling n ;;
    p <- get_parent n ;;
    assert_ (negb (s =? 0)) ;;;
    b <- black_around Black p s ;;
    if (b : bool) then
      set_color s Red ;;;
      (* delete_case1(t, p) *)
      pp <- get_parent p ;;
      if pp =? 0 then ret tt else delete_case2 fuel' p
    else delete_case4 n
  end.

(** rbt.c:761-793 and 849-853: the end of rbt_del, when n has at most one child *)
Definition del_leaf (fuel : nat) (n : N) : prog unit :=
  l <- get_left n ;; r <- get_right n ;;
  assert_ ((l =? 0) || (r =? 0))%bool ;;;
  let child := if r =? 0 then l else r in
  c <- node_color n ;;
  if ceqb c Red then replace_node n child
  else
    cc <- node_color child ;; set_color n cc ;;;
    p <- get_parent n ;;
    if p =? 0 then
      set_root child ;;;
      if negb (child =? 0) then set_color child Black ;;; set_parent child 0 else ret tt
    else
      delete_case2 fuel n ;;;
      replace_node n child ;;;
      p <- get_parent n ;;
      if ((p =? 0) && negb (child =? 0))%bool then set_color child Black else ret tt.

(** Attach [new] where [old] hangs: rbt.c:688-695 and 727-733 *)
Definition attach (old new : N) : prog unit :=
  np <- get_parent old ;;
  if negb (np =? 0) then
    npl <- get_left np ;;
    if npl =? old then set_left np new else set_right np new
  else set_root new.

(** rbt.c:645-854 rbt_del *)
Definition rbt_del (fuel : nat) (n : N) : prog unit :=
  assert_ (negb (n =? 0)) ;;;
  cd <- get_card ;; assert_ (negb (cd =? 0)%Z) ;;; set_card (cd - 1) ;;;
  l <- get_left n ;; r <- get_right n ;;
  if (negb (l =? 0) && negb (r =? 0))%bool then
    pred <- find_pred fuel n ;;
    P <- load pred ;;
    pr <- get_right pred ;; assert_ (pr =? 0) ;;;
    pp <- get_parent pred ;; assert_ (negb (pp =? 0)) ;;;
    pp <- get_parent pred ;;
    if negb (pp =? n) then
      nl <- get_left n ;; set_left pred nl ;;;
      nr <- get_right n ;; set_right pred nr ;;;
      np <- get_parent n ;; set_parent pred np ;;;
      nc <- get_color n ;; set_color pred nc ;;;
      set_color n (col P) ;;;
      nr <- get_right n ;; set_parent nr pred ;;;
      nl <- get_left n ;; set_parent nl pred ;;;
      attach n pred ;;;
      c <- node_color n ;;
      if ceqb c Red then set_right (parent P) (left P)
      else
        set_left n (left P) ;;; set_right n 0 ;;; set_parent n (parent P) ;;;
        (if left P =? 0 then ret tt else set_parent (left P) n) ;;;
        ppr <- get_right (parent P) ;; assert_ (ppr =? pred) ;;;
        set_right (parent P) n ;;;
        del_leaf fuel n
    else
      nc <- get_color n ;; set_color pred nc ;;;
      set_color n (col P) ;;;
      np <- get_parent n ;; set_parent pred np ;;;
      nr <- get_right n ;; set_right pred nr ;;;
      nr <- get_right n ;; set_parent nr pred ;;;
      (np <- get_parent n ;;
       if negb (np =? 0) then
         npl <- get_left np ;;
         (if n =? npl then set_left np pred else set_right np pred) ;;;
         np <- get_parent n ;; set_parent pred np
       else set_root pred ;;; set_parent pred 0) ;;;
      c <- node_color n ;;
      if ceqb c Red then ret tt
      else
        set_left n (left P) ;;;
        (if left P =? 0 then ret tt else set_parent (left P) n) ;;;
        set_left pred n ;;;
        set_parent n pred ;;;
        set_right n 0 ;;;
        set_parent n pred ;;;
        del_leaf fuel n
  else del_leaf fuel n.
