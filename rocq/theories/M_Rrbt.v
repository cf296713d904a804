(** Model of the relocatable red/black tree ldms/src/core/rrbt.c at the level of
    nodes, offsets, pointers and assignments. *)
From Verif Require Export M_Rbt.
Local Open Scope N_scope.

(** The memory, the programs and their primitive loads and stores are those of
    M_Rbt.v; here addresses are absolute and the fields [left], [right], [parent]
    of a node and the root word hold offsets from the base (struct rrbn and struct
    rrbt, rrbt.h:74-85 and 107-115).  The tree has no cardinality: [card] is never
    touched.  The key is the value stored in the node (rrbn_init, rrbt.c:171-174).
    Simplification: a field that the code loads twice with no store to that field in
    between is loaded once. *)

(** Pointers and offsets are 64 bits wide, the bit field [left] 63 (rrbt.h:75-76) *)
Definition W64 : N := 18446744073709551616.
Definition W63 : N := 9223372036854775808.

(** rrbt.c:135-138 rrbt_init: an empty tree (the memory is what it was) *)
Definition rrbt_init (h : N -> option node) : st := mkSt 0 0 h.
(** rrbt.c:155-158 rrbt_empty *)
Definition rrbt_empty (s : st) : bool := root s =? 0.

(** rrbt.h:76: a store to [left], a bit field of 63 bits *)
Definition rset_left (a v : N) : prog unit := set_left a (v mod W63).

Section Base.
(** the member base of struct rrbt_instance, rrbt.h:111-115, set by rrbt_get
    (rrbt.c:140-146) *)
Variable base : N.

(** rrbt.h:117-119 rrbn_ptr and rrbt_off *)
Definition ptr (o : N) : N := if o =? 0 then 0 else (base + o) mod W64.
Definition off (p : N) : N := if p =? 0 then 0 else (p + (W64 - base)) mod W64.

(** rrbt.c:64-69 is_red and 318-320 node_color are those of M_Rbt.v *)

(** rrbt.c:71-100 rotate_left *)
Definition rrotate_left (x : N) : prog unit :=
  y <- get_right x ;;
  par <- get_parent x ;;
  yl <- get_left (ptr y) ;;
  set_right x yl ;;;
  yl <- get_left (ptr y) ;;
  (if yl =? 0 then ret tt else set_parent (ptr yl) (off x)) ;;;
  xp <- get_parent x ;;
  set_parent (ptr y) xp ;;;
  r <- get_root ;;
  (if negb (r =? off x) then
     xp <- get_parent x ;; assert_ (negb (xp =? 0)) ;;;
     pl <- get_left (ptr par) ;;
     if pl =? off x then rset_left (ptr par) (off (ptr y)) else set_right (ptr par) (off (ptr y))
   else
     xp <- get_parent x ;; assert_ (xp =? 0) ;;;
     set_root (off (ptr y)) ;;; set_parent (ptr y) 0 ;;; set_color (ptr y) Black) ;;;
  rset_left (ptr y) (off x) ;;;
  set_parent x (off (ptr y)).

(** rrbt.c:102-128 rotate_right *)
Definition rrotate_right (x : N) : prog unit :=
  y <- get_left x ;;
  par <- get_parent x ;;
  yr <- get_right (ptr y) ;;
  rset_left x yr ;;;
  yr <- get_right (ptr y) ;;
  (if yr =? 0 then ret tt else set_parent (ptr yr) (off x)) ;;;
  r <- get_root ;;
  (if negb (r =? off x) then
     set_parent (ptr y) (off (ptr par)) ;;;
     pr <- get_right (ptr par) ;;
     if pr =? off x then set_right (ptr par) (off (ptr y)) else rset_left (ptr par) (off (ptr y))
   else
     set_root (off (ptr y)) ;;; set_color (ptr y) Black ;;; set_parent (ptr y) 0) ;;;
  set_right (ptr y) (off x) ;;;
  set_parent x (off (ptr y)).

(** rrbt.c:331-339 verify_property_1.  The assertion on the colour always holds: the
    field has one bit. *)
Fixpoint verify1 (fuel : nat) (n : N) : prog unit :=
  match fuel with
  | O => fail
  | S fuel' =>
    if n =? 0 then ret tt
    else l <- get_left n ;; assert_ (negb (off n =? l)) ;;; r <- get_right n ;; assert_ (negb (off n =? r)) ;;;
         l <- get_left n ;; verify1 fuel' (ptr l) ;;; r <- get_right n ;; verify1 fuel' (ptr r)
  end.
(** rrbt.c:344-349 verify_property_2 *)
Definition verify2 (n : N) : prog unit :=
  if n =? 0 then ret tt
  else p <- get_parent n ;; assert_ (p =? 0) ;;; c <- node_color n ;; assert_ (ceqb c Black).
(** rrbt.c:360-371 verify_property_4 *)
Fixpoint verify4 (fuel : nat) (n : N) : prog unit :=
  match fuel with
  | O => fail
  | S fuel' =>
    if n =? 0 then ret tt
    else c <- node_color n ;;
         (if ceqb c Red then
            l <- get_left n ;; lc <- node_color (ptr l) ;; assert_ (ceqb lc Black) ;;;
            r <- get_right n ;; rc <- node_color (ptr r) ;; assert_ (ceqb rc Black) ;;;
            p <- get_parent n ;; pc <- node_color (ptr p) ;; assert_ (ceqb pc Black)
          else ret tt) ;;;
         l <- get_left n ;; verify4 fuel' (ptr l) ;;; r <- get_right n ;; verify4 fuel' (ptr r)
  end.
(** rrbt.c:379-399 verify_property_5_helper, verify_property_5: the value of
    *path_black_count is handed through.  The int counters are unbounded here. *)
Fixpoint verify5 (fuel : nat) (n : N) (count path : Z) : prog Z :=
  match fuel with
  | O => fail
  | S fuel' =>
    if n =? 0 then (if (path =? -1)%Z then ret count else assert_ (count =? path)%Z ;;; ret path)
    else c <- node_color n ;;
         let count := if ceqb c Black then (count + 1)%Z else count in
         l <- get_left n ;; path <- verify5 fuel' (ptr l) count path ;;
         r <- get_right n ;; verify5 fuel' (ptr r) count path
  end.
(** rrbt.c:401-409 verify_tree, 414-417 rrbt_verify *)
Definition rrbt_verify (fuel : nat) : prog unit :=
  r <- get_root ;;
  if ptr r =? 0 then ret tt
  else verify1 fuel (ptr r) ;;; verify2 (ptr r) ;;; verify4 fuel (ptr r) ;;; verify5 fuel (ptr r) 0 (-1)%Z ;;; ret tt.

Section Cmp.
Variable cmp : N -> N -> Z.

(** rrbt.c:210-217: the loop descending to a leaf *)
Fixpoint rins_descend (fuel : nat) (x n par : N) (c : Z) : prog (N * Z) :=
  match fuel with
  | O => fail
  | S fuel' =>
    if n =? 0 then ret (par, c)
    else nk <- get_key n ;; xk <- get_key x ;;
         let c := cmp nk xk in
         if (0 <? c)%Z then l <- get_left n ;; rins_descend fuel' x (ptr l) n c
         else r <- get_right n ;; rins_descend fuel' x (ptr r) n c
  end.

(** rrbt.c:230-266: the loop restoring the colours *)
Fixpoint rins_fix (fuel : nat) (x : N) : prog unit :=
  match fuel with
  | O => fail
  | S fuel' =>
    r <- get_root ;;
    if x =? ptr r then ret tt
    else
      p <- get_parent x ;;
      red <- is_red (ptr p) ;;
      if negb red then ret tt
      else
        g <- get_parent (ptr p) ;;
        gl <- get_left (ptr g) ;;
        if p =? gl then
          uncle <- get_right (ptr g) ;;
          ur <- is_red (ptr uncle) ;;
          if (ur : bool) then
            set_color (ptr p) Black ;;; set_color (ptr uncle) Black ;;; set_color (ptr g) Red ;;; rins_fix fuel' (ptr g)
          else
            pr <- get_right (ptr p) ;;
            x <- (if x =? ptr pr then rrotate_left (ptr p) ;;; ret (ptr p) else ret x) ;;
            p <- get_parent x ;;
            set_color (ptr p) Black ;;;
            g <- get_parent (ptr p) ;;
            set_color (ptr g) Red ;;;
            rrotate_right (ptr g) ;;;
            rins_fix fuel' x
        else
          uncle <- get_left (ptr g) ;;
          ur <- is_red (ptr uncle) ;;
          if (ur : bool) then
            set_color (ptr p) Black ;;; set_color (ptr uncle) Black ;;; set_color (ptr g) Red ;;; rins_fix fuel' (ptr g)
          else
            pl <- get_left (ptr p) ;;
            x <- (if x =? ptr pl then rrotate_right (ptr p) ;;; ret (ptr p) else ret x) ;;
            p <- get_parent x ;;
            set_color (ptr p) Black ;;;
            g <- get_parent (ptr p) ;;
            (if g =? 0 then ret tt else set_color (ptr g) Red ;;; rrotate_left (ptr g)) ;;;
            rins_fix fuel' x
  end.

(** rrbt.c:187-269 rrbt_ins *)
Definition rrbt_ins (fuel : nat) (x : N) : prog unit :=
  rrbt_verify fuel ;;;
  set_parent x 0 ;;; set_right x 0 ;;; rset_left x 0 ;;;
  r <- get_root ;;
  if r =? 0 then
    set_parent x 0 ;;; set_color x Black ;;; set_root (off x) ;;; rrbt_verify fuel
  else
    set_color x Red ;;;
    pc <- rins_descend fuel x (ptr r) 0 0 ;;
    let '(par, c) := pc in
    assert_ (negb (par =? 0)) ;;;
    set_parent x (off par) ;;;
    (if (0 <? c)%Z then rset_left par (off x) else set_right par (off x)) ;;;
    rins_fix fuel x ;;;
    r <- get_root ;; set_color (ptr r) Black ;;;
    rrbt_verify fuel.

(** rrbt.c:755-773 rrbt_find_glb *)
Fixpoint rglb_loop (fuel : nat) (x k glb : N) : prog N :=
  match fuel with
  | O => fail
  | S fuel' =>
    if x =? 0 then ret glb
    else xk <- get_key x ;;
         let c := cmp xk k in
         if (c =? 0)%Z then ret x
         else if (0 <? c)%Z then l <- get_left x ;; rglb_loop fuel' (ptr l) k glb
         else r <- get_right x ;; rglb_loop fuel' (ptr r) k x
  end.
Definition rrbt_find_glb (fuel : nat) (k : N) : prog N := r <- get_root ;; rglb_loop fuel (ptr r) k 0.

(** rrbt.c:799-817 rrbt_find_lub *)
Fixpoint rlub_loop (fuel : nat) (x k lub : N) : prog N :=
  match fuel with
  | O => fail
  | S fuel' =>
    if x =? 0 then ret lub
    else xk <- get_key x ;;
         let c := cmp xk k in
         if (c =? 0)%Z then ret x
         else if (c <? 0)%Z then r <- get_right x ;; rlub_loop fuel' (ptr r) k lub
         else l <- get_left x ;; rlub_loop fuel' (ptr l) k x
  end.
Definition rrbt_find_lub (fuel : nat) (k : N) : prog N := r <- get_root ;; rlub_loop fuel (ptr r) k 0.

(** rrbt.c:827-843 rrbt_find *)
Fixpoint rfind_loop (fuel : nat) (x k : N) : prog N :=
  match fuel with
  | O => fail
  | S fuel' =>
    if x =? 0 then ret 0
    else xk <- get_key x ;;
         let c := cmp xk k in
         if (c =? 0)%Z then ret x
         else if (0 <? c)%Z then l <- get_left x ;; rfind_loop fuel' (ptr l) k
         else r <- get_right x ;; rfind_loop fuel' (ptr r) k
  end.
Definition rrbt_find (fuel : nat) (k : N) : prog N := r <- get_root ;; rfind_loop fuel (ptr r) k.
End Cmp.

(** rrbt.c:845-855 __rrbn_min, __rrbn_max *)
Fixpoint rrbn_min (fuel : nat) (n : N) : prog N :=
  match fuel with
  | O => fail
  | S fuel' => if n =? 0 then ret n
               else l <- get_left n ;; if ptr l =? 0 then ret n else rrbn_min fuel' (ptr l)
  end.
Fixpoint rrbn_max (fuel : nat) (n : N) : prog N :=
  match fuel with
  | O => fail
  | S fuel' => if n =? 0 then ret n
               else r <- get_right n ;; if ptr r =? 0 then ret n else rrbn_max fuel' (ptr r)
  end.
(** rrbt.c:863-877 rrbt_min, rrbt_max *)
Definition rrbt_min (fuel : nat) : prog N := r <- get_root ;; rrbn_min fuel (ptr r).
Definition rrbt_max (fuel : nat) : prog N := r <- get_root ;; rrbn_max fuel (ptr r).

(** rrbt.c:879-899 rrbt_traverse_subtree: the calls of the callback (node and level)
    in order, and the final return code.  [f] gives the callback's return code from
    the calls made so far; the callback does not change the tree. *)
Fixpoint rtraverse_sub (fuel : nat) (f : list (N * N) -> Z) (n level : N) (log : list (N * N)) : prog (Z * list (N * N)) :=
  match fuel with
  | O => fail
  | S fuel' =>
    if n =? 0 then ret (0%Z, log)
    else l <- get_left n ;;
         a <- rtraverse_sub fuel' f (ptr l) (level + 1) log ;;
         let '(rc, log) := a in
         if negb (rc =? 0)%Z then ret (rc, log)
         else let log := log ++ [(n, level)] in
              let rc := f log in
              if negb (rc =? 0)%Z then ret (rc, log)
              else r <- get_right n ;; rtraverse_sub fuel' f (ptr r) (level + 1) log
  end.
(** rrbt.c:912-917 rrbt_traverse *)
Definition rrbt_traverse (fuel : nat) (f : list (N * N) -> Z) : prog (Z * list (N * N)) :=
  r <- get_root ;; if r =? 0 then ret (0%Z, []) else rtraverse_sub fuel f (ptr r) 0 [].

(** rrbt.c:931-943 rrbn_succ *)
Fixpoint rsucc_up (fuel : nat) (n : N) : prog N :=
  match fuel with
  | O => fail
  | S fuel' =>
    p <- get_parent n ;;
    if p =? 0 then ret (ptr p)
    else pr <- get_right (ptr p) ;; if n =? ptr pr then rsucc_up fuel' (ptr p) else ret (ptr p)
  end.
Definition rrbn_succ (fuel : nat) (n : N) : prog N :=
  r <- get_right n ;;
  if negb (r =? 0) then rrbn_min fuel (ptr r)
  else p <- get_parent n ;; if negb (p =? 0) then rsucc_up fuel n else ret 0.
(** rrbt.c:952-964 rrbn_pred *)
Fixpoint rpred_up (fuel : nat) (n : N) : prog N :=
  match fuel with
  | O => fail
  | S fuel' =>
    p <- get_parent n ;;
    if p =? 0 then ret (ptr p)
    else pl <- get_left (ptr p) ;; if n =? ptr pl then rpred_up fuel' (ptr p) else ret (ptr p)
  end.
Definition rrbn_pred (fuel : nat) (n : N) : prog N :=
  l <- get_left n ;;
  if negb (l =? 0) then rrbn_max fuel (ptr l)
  else p <- get_parent n ;; if negb (p =? 0) then rpred_up fuel n else ret 0.

(** rrbt.c:738-745 rrbt_greatest_lt_or_eq, 782-789 rrbt_least_gt_or_eq *)
Definition rrbt_greatest_lt_or_eq (n : N) : prog N :=
  l <- get_left n ;;
  if negb (l =? 0) then ret (ptr l)
  else p <- get_parent n ;;
       if p =? 0 then ret 0 else pl <- get_left (ptr p) ;; if pl =? off n then ret (ptr p) else ret 0.
Definition rrbt_least_gt_or_eq (n : N) : prog N :=
  r <- get_right n ;;
  if negb (r =? 0) then ret (ptr r)
  else p <- get_parent n ;;
       if p =? 0 then ret 0 else pr <- get_right (ptr p) ;; if pr =? off n then ret (ptr p) else ret 0.

(** rrbt.c:278-283 find_pred *)
Fixpoint rfind_pred_loop (fuel : nat) (x : N) : prog N :=
  match fuel with
  | O => fail
  | S fuel' => r <- get_right x ;; if r =? 0 then ret x else rfind_pred_loop fuel' (ptr r)
  end.
Definition rfind_pred (fuel : nat) (n : N) : prog N := l <- get_left n ;; rfind_pred_loop fuel (ptr l).

(** rrbt.c:292-300 sibling *)
Definition rsibling (n : N) : prog N :=
  assert_ (negb (n =? 0)) ;;;
  p <- get_parent n ;; assert_ (negb (p =? 0)) ;;;
  pl <- get_left (ptr p) ;;
  if off n =? pl then r <- get_right (ptr p) ;; ret (ptr r) else l <- get_left (ptr p) ;; ret (ptr l).

(** rrbt.c:302-316 replace_node *)
Definition rreplace_node (oldn newn : N) : prog unit :=
  p <- get_parent oldn ;;
  if p =? 0 then set_root (off newn) ;;; set_parent newn 0 ;;; set_color newn Black
  else pl <- get_left (ptr p) ;;
       (if off oldn =? pl then rset_left (ptr p) (off newn) else set_right (ptr p) (off newn)) ;;;
       if negb (newn =? 0) then p <- get_parent oldn ;; set_parent newn p else ret tt.

(** The test of cases 3 and 4, rrbt.c:621-624 and 643-646 *)
Definition rblack_around (pc : color) (p s : N) : prog bool :=
  c <- node_color p ;;
  if negb (ceqb c pc) then ret false
  else c <- node_color s ;;
  if negb (ceqb c Black) then ret false
  else sl <- get_left s ;; c <- node_color (ptr sl) ;;
  if negb (ceqb c Black) then ret false
  else sr <- get_right s ;; c <- node_color (ptr sr) ;;
  ret (ceqb c Black).

(** rrbt.c:713-729 delete_case6 *)
Definition rcase6 (n : N) : prog unit :=
  s <- rsibling n ;;
  p <- get_parent n ;;
  assert_ (negb (s =? 0)) ;;;
  pc <- get_color (ptr p) ;; set_color s pc ;;;
  set_color (ptr p) Black ;;;
  pl <- get_left (ptr p) ;;
  if off n =? pl then
    sr <- get_right s ;; c <- node_color (ptr sr) ;; assert_ (ceqb c Red) ;;;
    set_color (ptr sr) Black ;;; rrotate_left (ptr p)
  else
    sl <- get_left s ;; c <- node_color (ptr sl) ;; assert_ (ceqb c Red) ;;;
    set_color (ptr sl) Black ;;; rrotate_right (ptr p).

(** rrbt.c:667-690 delete_case5 *)
Definition rcase5_left (n p s : N) : prog bool :=
  pl <- get_left p ;;
  if negb (off n =? pl) then ret false
  else c <- node_color s ;; if negb (ceqb c Black) then ret false
  else sl <- get_left s ;; c <- node_color (ptr sl) ;; if negb (ceqb c Red) then ret false
  else sr <- get_right s ;; c <- node_color (ptr sr) ;; ret (ceqb c Black).
Definition rcase5_right (n p s : N) : prog bool :=
  pr <- get_right p ;;
  if negb (off n =? pr) then ret false
  else c <- node_color s ;; if negb (ceqb c Black) then ret false
  else sr <- get_right s ;; c <- node_color (ptr sr) ;; if negb (ceqb c Red) then ret false
  else sl <- get_left s ;; c <- node_color (ptr sl) ;; ret (ceqb c Black).
Definition rcase5 (n : N) : prog unit :=
  s <- rsibling n ;;
  p <- get_parent n ;;
  assert_ (negb (s =? 0)) ;;;
  b1 <- rcase5_left n (ptr p) s ;;
  (if (b1 : bool) then
     set_color s Red ;;; sl <- get_left s ;; set_color (ptr sl) Black ;;; rrotate_right s
   else
     b2 <- rcase5_right n (ptr p) s ;;
     if (b2 : bool) then set_color s Red ;;; sr <- get_right s ;; set_color (ptr sr) Black ;;; rrotate_left s
     else ret tt) ;;;
  rcase6 n.

(** rrbt.c:638-652 delete_case4 *)
Definition rcase4 (n : N) : prog unit :=
  s <- rsibling n ;;
  p <- get_parent n ;;
  assert_ (negb (s =? 0)) ;;;
  b <- rblack_around Red (ptr p) s ;;
  if (b : bool) then set_color s Red ;;; set_color (ptr p) Black else rcase5 n.

(** rrbt.c:577-630 delete_case1, delete_case2, delete_case3 (mutually recursive) *)
Fixpoint rcase2 (fuel : nat) (n : N) : prog unit :=
  match fuel with
  | O => fail
  | S fuel' =>
    s <- rsibling n ;;
    p <- get_parent n ;;
    if s =? 0 then ret tt else
    c <- node_color s ;;
    (if ceqb c Red then
       set_color (ptr p) Red ;;; set_color s Black ;;;
       pl <- get_left (ptr p) ;;
       if off n =? pl then rrotate_left (ptr p) else rrotate_right (ptr p)
     else ret tt) ;;;
    (* delete_case3 *)
    s <- rsibling n ;;
    p <- get_parent n ;;
    assert_ (negb (s =? 0)) ;;;
    b <- rblack_around Black (ptr p) s ;;
    if (b : bool) then
      set_color s Red ;;;
      (* delete_case1(t, p) *)
      pp <- get_parent (ptr p) ;;
      if pp =? 0 then ret tt else rcase2 fuel' (ptr p)
    else rcase4 n
  end.

(** rrbt.c:534-570: the end of rrbt_del, when n has at most one child *)
Definition rdel_leaf (fuel : nat) (n : N) : prog unit :=
  l <- get_left n ;; r <- get_right n ;;
  assert_ ((l =? 0) || (r =? 0))%bool ;;;
  let child := ptr (if r =? 0 then l else r) in
  r <- get_root ;;
  if ((child =? 0) && (r =? off n))%bool then set_root 0
  else
  c <- node_color n ;;
  if ceqb c Red then rreplace_node n child
  else
    cc <- node_color child ;; set_color n cc ;;;
    p <- get_parent n ;;
    if p =? 0 then
      set_root (off child) ;;;
      if negb (child =? 0) then set_color child Black ;;; set_parent child 0 else ret tt
    else
      rcase2 fuel n ;;;
      rreplace_node n child.

(** rrbt.c:462-471: pred takes n's place below n's parent *)
Definition rattach (old new : N) : prog unit :=
  np <- get_parent old ;;
  if negb (np =? 0) then
    npl <- get_left (ptr np) ;;
    if npl =? off old then rset_left (ptr np) (off new) else set_right (ptr np) (off new)
  else set_root (off new) ;;; set_parent new 0.

(** rrbt.c:426-570: the body of rrbt_del up to the label out *)
Definition rdel_core (fuel : nat) (n : N) : prog unit :=
  l <- get_left n ;; r <- get_right n ;;
  if (negb (l =? 0) && negb (r =? 0))%bool then
    pred <- rfind_pred fuel n ;;
    P <- load pred ;;
    pr <- get_right pred ;; assert_ (pr =? 0) ;;;
    pp <- get_parent pred ;; assert_ (negb (pp =? 0)) ;;;
    pp <- get_parent pred ;;
    if negb (pp =? off n) then
      nl <- get_left n ;; rset_left pred nl ;;;
      nr <- get_right n ;; set_right pred nr ;;;
      np <- get_parent n ;; set_parent pred np ;;;
      nc <- get_color n ;; set_color pred nc ;;;
      set_color n (col P) ;;;
      nr <- get_right n ;; set_parent (ptr nr) (off pred) ;;;
      nl <- get_left n ;; set_parent (ptr nl) (off pred) ;;;
      rattach n pred ;;;
      c <- node_color n ;;
      if ceqb c Red then set_right (ptr (parent P)) (left P)
      else
        rset_left n (left P) ;;; set_right n 0 ;;; set_parent n (parent P) ;;;
        (if left P =? 0 then ret tt else set_parent (ptr (left P)) (off n)) ;;;
        ppr <- get_right (ptr (parent P)) ;; assert_ (ppr =? off pred) ;;;
        set_right (ptr (parent P)) (off n) ;;;
        rdel_leaf fuel n
    else
      nc <- get_color n ;; set_color pred nc ;;;
      set_color n (col P) ;;;
      np <- get_parent n ;; set_parent pred np ;;;
      nr <- get_right n ;; set_right pred nr ;;;
      nr <- get_right n ;; set_parent (ptr nr) (off pred) ;;;
      (np <- get_parent n ;;
       if negb (np =? 0) then
         npl <- get_left (ptr np) ;;
         (if off n =? npl then rset_left (ptr np) (off pred) else set_right (ptr np) (off pred)) ;;;
         np <- get_parent n ;; set_parent pred np
       else set_root (off pred) ;;; set_color pred Black ;;; set_parent pred 0) ;;;
      c <- node_color n ;;
      if ceqb c Red then ret tt
      else
        rset_left n (left P) ;;;
        (if left P =? 0 then ret tt else set_parent (ptr (left P)) (off n)) ;;;
        rset_left pred (off n) ;;;
        set_parent n (off pred) ;;;
        set_right n 0 ;;;
        set_parent n (off pred) ;;;
        rdel_leaf fuel n
  else rdel_leaf fuel n.

(** rrbt.c:419-575 rrbt_del *)
Definition rrbt_del (fuel : nat) (n : N) : prog unit :=
  assert_ (negb (n =? 0)) ;;;
  rrbt_verify fuel ;;;
  rdel_core fuel n ;;;
  r <- get_root ;;
  (if r =? 0 then ret tt else set_color (ptr r) Black) ;;;
  rrbt_verify fuel.
End Base.
