(** The two trees differ in a few assignments only.  The proofs are done once, for
    programs with a flag: [false] is lib/src/coll/rbt.c as in M_Rbt.v (see the
    lemmas at the end: equal by computation), [true] is ldms/src/core/rrbt.c with
    offsets in place of pointers (see L_Rrbt.v). *)
From Verif Require Export S_Rbt.
Local Open Scope N_scope.

Section Flag.
Variable v : bool.

Definition grotate_left (x : N) : prog unit :=
  y <- get_right x ;;
  par <- get_parent x ;;
  yl <- get_left y ;;
  set_right x yl ;;;
  yl <- get_left y ;;
  (if yl =? 0 then ret tt else set_parent yl x) ;;;
  xp <- get_parent x ;;
  set_parent y xp ;;;
  r <- get_root ;;
  (if negb (r =? x) then
     xp <- get_parent x ;; assert_ (negb (xp =? 0)) ;;;
     pl <- get_left par ;;
     if pl =? x then set_left par y else set_right par y
   else
     xp <- get_parent x ;; assert_ (xp =? 0) ;;;
     set_root y ;;; if v then set_parent y 0 ;;; set_color y Black else set_parent y 0) ;;;
  set_left y x ;;;
  set_parent x y.
Definition grotate_right (x : N) : prog unit :=
  y <- get_left x ;;
  par <- get_parent x ;;
  yr <- get_right y ;;
  set_left x yr ;;;
  yr <- get_right y ;;
  (if yr =? 0 then ret tt else set_parent yr x) ;;;
  r <- get_root ;;
  (if negb (r =? x) then
     set_parent y par ;;;
     pr <- get_right par ;;
     if pr =? x then set_right par y else set_left par y
   else
     set_root y ;;; if v then set_color y Black ;;; set_parent y 0 else set_parent y 0) ;;;
  set_right y x ;;;
  set_parent x y.

(** rrbt.c verify_tree *)
Fixpoint gverify1 (fuel : nat) (n : N) : prog unit :=
  match fuel with
  | O => fail
  | S fuel' =>
    if n =? 0 then ret tt
    else l <- get_left n ;; assert_ (negb (n =? l)) ;;; r <- get_right n ;; assert_ (negb (n =? r)) ;;;
         l <- get_left n ;; gverify1 fuel' l ;;; r <- get_right n ;; gverify1 fuel' r
  end.
Definition gverify2 (n : N) : prog unit :=
  if n =? 0 then ret tt
  else p <- get_parent n ;; assert_ (p =? 0) ;;; c <- node_color n ;; assert_ (ceqb c Black).
Fixpoint gverify4 (fuel : nat) (n : N) : prog unit :=
  match fuel with
  | O => fail
  | S fuel' =>
    if n =? 0 then ret tt
    else c <- node_color n ;;
         (if ceqb c Red then
            l <- get_left n ;; lc <- node_color l ;; assert_ (ceqb lc Black) ;;;
            r <- get_right n ;; rc <- node_color r ;; assert_ (ceqb rc Black) ;;;
            p <- get_parent n ;; pc <- node_color p ;; assert_ (ceqb pc Black)
          else ret tt) ;;;
         l <- get_left n ;; gverify4 fuel' l ;;; r <- get_right n ;; gverify4 fuel' r
  end.
Fixpoint gverify5 (fuel : nat) (n : N) (count path : Z) : prog Z :=
  match fuel with
  | O => fail
  | S fuel' =>
    if n =? 0 then (if (path =? -1)%Z then ret count else assert_ (count =? path)%Z ;;; ret path)
    else c <- node_color n ;;
         let count := if ceqb c Black then (count + 1)%Z else count in
         l <- get_left n ;; path <- gverify5 fuel' l count path ;;
         r <- get_right n ;; gverify5 fuel' r count path
  end.
Definition gverify (fuel : nat) : prog unit :=
  r <- get_root ;;
  if r =? 0 then ret tt
  else gverify1 fuel r ;;; gverify2 r ;;; gverify4 fuel r ;;; gverify5 fuel r 0 (-1)%Z ;;; ret tt.

Fixpoint gins_fix (fuel : nat) (x : N) : prog unit :=
  match fuel with
  | O => fail
  | S fuel' =>
    r <- get_root ;;
    if x =? r then ret tt
    else
      p <- get_parent x ;;
      red <- is_red p ;;
      if negb red then ret tt
      else
        g <- get_parent p ;;
        gl <- get_left g ;;
        if p =? gl then
          uncle <- get_right g ;;
          ur <- is_red uncle ;;
          if (ur : bool) then
            set_color p Black ;;; set_color uncle Black ;;; set_color g Red ;;; gins_fix fuel' g
          else
            pr <- get_right p ;;
            x <- (if x =? pr then grotate_left p ;;; ret p else ret x) ;;
            p <- get_parent x ;;
            set_color p Black ;;;
            g <- get_parent p ;;
            set_color g Red ;;;
            grotate_right g ;;;
            gins_fix fuel' x
        else
          uncle <- get_left g ;;
          ur <- is_red uncle ;;
          if (ur : bool) then
            set_color p Black ;;; set_color uncle Black ;;; set_color g Red ;;; gins_fix fuel' g
          else
            pl <- get_left p ;;
            x <- (if x =? pl then grotate_right p ;;; ret p else ret x) ;;
            p <- get_parent x ;;
            set_color p Black ;;;
            g <- get_parent p ;;
            (if g =? 0 then ret tt else set_color g Red ;;; grotate_left g) ;;;
            gins_fix fuel' x
  end.

Definition gins_core (cmp : N -> N -> Z) (fuel : nat) (x : N) : prog unit :=
  set_right x 0 ;;; set_left x 0 ;;;
  r <- get_root ;;
  if r =? 0 then
    (if v then set_parent x 0 ;;; set_color x Black ;;; set_root x
     else set_color x Black ;;; set_root x ;;; set_parent x 0)
  else
    set_color x Red ;;;
    pc <- ins_descend cmp fuel x r 0 0 ;;
    let '(par, c) := pc in
    assert_ (negb (par =? 0)) ;;;
    set_parent x par ;;;
    (if (0 <? c)%Z then set_left par x else set_right par x) ;;;
    gins_fix fuel x ;;;
    r <- get_root ;; set_color r Black.
Definition greplace_node (oldn newn : N) : prog unit :=
  if v then
    p <- get_parent oldn ;;
    if p =? 0 then set_root newn ;;; set_parent newn 0 ;;; set_color newn Black
    else pl <- get_left p ;; (if oldn =? pl then set_left p newn else set_right p newn) ;;;
         if negb (newn =? 0) then p <- get_parent oldn ;; set_parent newn p else ret tt
  else replace_node oldn newn.

Definition gcase6 (n : N) : prog unit :=
  s <- sibling n ;;
  p <- get_parent n ;;
  assert_ (negb (s =? 0)) ;;;
  pc <- get_color p ;; set_color s pc ;;;
  set_color p Black ;;;
  pl <- get_left p ;;
  if n =? pl then
    sr <- get_right s ;; c <- node_color sr ;; assert_ (ceqb c Red) ;;;
    set_color sr Black ;;; grotate_left p
  else
    sl <- get_left s ;; c <- node_color sl ;; assert_ (ceqb c Red) ;;;
    set_color sl Black ;;; grotate_right p.
Definition gcase5 (n : N) : prog unit :=
  s <- sibling n ;;
  p <- get_parent n ;;
  assert_ (negb (s =? 0)) ;;;
  b1 <- case5_left n p s ;;
  (if (b1 : bool) then
     set_color s Red ;;; sl <- get_left s ;; set_color sl Black ;;; grotate_right s
   else
     b2 <- case5_right n p s ;;
     if (b2 : bool) then set_color s Red ;;; sr <- get_right s ;; set_color sr Black ;;; grotate_left s
     else ret tt) ;;;
  gcase6 n.
Definition gcase4 (n : N) : prog unit :=
  s <- sibling n ;;
  p <- get_parent n ;;
  assert_ (negb (s =? 0)) ;;;
  b <- black_around Red p s ;;
  if (b : bool) then set_color s Red ;;; set_color p Black else gcase5 n.
Fixpoint gcase2 (fuel : nat) (n : N) : prog unit :=
  match fuel with
  | O => fail
  | S fuel' =>
    s <- sibling n ;;
    p <- get_parent n ;;
    if (v && (s =? 0))%bool then ret tt else
    c <- node_color s ;;
    (if ceqb c Red then
       set_color p Red ;;; set_color s Black ;;;
       pl <- get_left p ;;
       if n =? pl then grotate_left p else grotate_right p
     else ret tt) ;;;
    s <- sibling n ;;
    p <- get_parent n ;;
    assert_ (negb (s =? 0)) ;;;
    b <- black_around Black p s ;;
    if (b : bool) then
      set_color s Red ;;;
      pp <- get_parent p ;;
      if pp =? 0 then ret tt else gcase2 fuel' p
    else gcase4 n
  end.

Definition gdel_rest (fuel : nat) (n child : N) : prog unit :=
  c <- node_color n ;;
  if ceqb c Red then greplace_node n child
  else
    cc <- node_color child ;; set_color n cc ;;;
    p <- get_parent n ;;
    if p =? 0 then
      set_root child ;;;
      if negb (child =? 0) then set_color child Black ;;; set_parent child 0 else ret tt
    else
      gcase2 fuel n ;;;
      greplace_node n child ;;;
      if v then ret tt else
      p <- get_parent n ;;
      if ((p =? 0) && negb (child =? 0))%bool then set_color child Black else ret tt.
Definition gdel_leaf (fuel : nat) (n : N) : prog unit :=
  l <- get_left n ;; r <- get_right n ;;
  assert_ ((l =? 0) || (r =? 0))%bool ;;;
  let child := if r =? 0 then l else r in
  if v then r <- get_root ;; if ((child =? 0) && (r =? n))%bool then set_root 0 else gdel_rest fuel n child
  else gdel_rest fuel n child.

Definition gattach (old new : N) : prog unit :=
  np <- get_parent old ;;
  if negb (np =? 0) then
    npl <- get_left np ;;
    if npl =? old then set_left np new else set_right np new
  else if v then set_root new ;;; set_parent new 0 else set_root new.

Definition gdel_core (fuel : nat) (n : N) : prog unit :=
  l <- get_left n ;; r <- get_right n ;;
  if (negb (l =? 0) && negb (r =? 0))%bool then
    pred <- find_pred fuel n ;;
    P <- load pred ;;
    pr <- get_right pred ;; assert_ (pr =? 0) ;;;
    pp <- get_parent pred ;; assert_ (negb (pp =? 0)) ;;;
    pp <- get_parent pred ;;
    if negb (pp =? n) then
      nl <- get_left n ;; set_left pred nl ;;;
      nr <- get_right n ;; set_right pred nr ;;;
      np <- get_parent n ;; set_parent pred np ;;;
      nc <- get_color n ;; set_color pred nc ;;;
      set_color n (col P) ;;;
      nr <- get_right n ;; set_parent nr pred ;;;
      nl <- get_left n ;; set_parent nl pred ;;;
      gattach n pred ;;;
      c <- node_color n ;;
      if ceqb c Red then set_right (parent P) (left P)
      else
        set_left n (left P) ;;; set_right n 0 ;;; set_parent n (parent P) ;;;
        (if left P =? 0 then ret tt else set_parent (left P) n) ;;;
        ppr <- get_right (parent P) ;; assert_ (ppr =? pred) ;;;
        set_right (parent P) n ;;;
        gdel_leaf fuel n
    else
      nc <- get_color n ;; set_color pred nc ;;;
      set_color n (col P) ;;;
      np <- get_parent n ;; set_parent pred np ;;;
      nr <- get_right n ;; set_right pred nr ;;;
      nr <- get_right n ;; set_parent nr pred ;;;
      (np <- get_parent n ;;
       if negb (np =? 0) then
         npl <- get_left np ;;
         (if n =? npl then set_left np pred else set_right np pred) ;;;
         np <- get_parent n ;; set_parent pred np
       else set_root pred ;;; if v then set_color pred Black ;;; set_parent pred 0 else set_parent pred 0) ;;;
      c <- node_color n ;;
      if ceqb c Red then ret tt
      else
        set_left n (left P) ;;;
        (if left P =? 0 then ret tt else set_parent (left P) n) ;;;
        set_left pred n ;;;
        set_parent n pred ;;;
        set_right n 0 ;;;
        set_parent n pred ;;;
        gdel_leaf fuel n
  else gdel_leaf fuel n.
End Flag.

Definition grbt_ins (v : bool) (cmp : N -> N -> Z) (fuel : nat) (x : N) : prog unit :=
  if v then gverify fuel ;;; set_parent x 0 ;;; gins_core true cmp fuel x ;;; gverify fuel
  else cd <- get_card ;; set_card (cd + 1) ;;; gins_core false cmp fuel x.

Definition grbt_del (v : bool) (fuel : nat) (n : N) : prog unit :=
  assert_ (negb (n =? 0)) ;;;
  if v then
    gverify fuel ;;;
    gdel_core true fuel n ;;;
    r <- get_root ;;
    (if r =? 0 then ret tt else set_color r Black) ;;;
    gverify fuel
  else
    cd <- get_card ;; assert_ (negb (cd =? 0)%Z) ;;; set_card (cd - 1) ;;;
    gdel_core false fuel n.

Lemma rotate_left_false x : grotate_left false x = rotate_left x. Proof. reflexivity. Qed.
Lemma rotate_right_false x : grotate_right false x = rotate_right x. Proof. reflexivity. Qed.
Lemma ins_fix_false fuel x : gins_fix false fuel x = ins_fix fuel x. Proof. reflexivity. Qed.
Lemma ins_false cmp fuel x : grbt_ins false cmp fuel x = rbt_ins cmp fuel x. Proof. reflexivity. Qed.
Lemma case6_false n : gcase6 false n = delete_case6 n. Proof. reflexivity. Qed.
Lemma case5_false n : gcase5 false n = delete_case5 n. Proof. reflexivity. Qed.
Lemma case4_false n : gcase4 false n = delete_case4 n. Proof. reflexivity. Qed.
Lemma case2_false fuel n : gcase2 false fuel n = delete_case2 fuel n. Proof. reflexivity. Qed.
Lemma del_leaf_false fuel n : gdel_leaf false fuel n = del_leaf fuel n. Proof. reflexivity. Qed.
Lemma del_false fuel n : grbt_del false fuel n = rbt_del fuel n. Proof. reflexivity. Qed.
