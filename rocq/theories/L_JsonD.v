(** Lemmas on the dump of the JSON library. *)
From Verif Require Import S_Json L_Dir L_Json L_JsonP.
From Coq Require Import Lia String Ascii.
Import M_Json.
Local Open Scope Z_scope.
Local Arguments Z.add : simpl never.
Local Arguments Z.mul : simpl never.
Local Arguments Z.sub : simpl never.

Fixpoint jrest (l : list text) : text := match l with [] => [] | t :: l => str "," ++ t ++ jrest l end.
Lemma join_cons : forall t l, join (t :: l) = t ++ jrest l.
Proof.
  intros t l; revert t; induction l as [|x l IH]; intros t; [cbn; rewrite app_nil_r; reflexivity|].
  change (join (t :: x :: l)) with (t ++ ","%char :: join (x :: l)). rewrite IH. reflexivity.
Qed.
Lemma dump_list : forall l, dump (JList l) = str "[" ++ join (map dump l) ++ str "]".
Proof.
  intros l; unfold dump; cbn [plainly render]. change ("["%char :: ?x) with (str "[" ++ x). do 2 f_equal.
  rewrite map_map. destruct l as [|e l]; [reflexivity|]. cbn [map]. f_equal. rewrite app_nil_r. cbn [app]. f_equal.
  apply map_ext; intros a. cbn [app]. apply app_nil_r.
Qed.
Definition attr_text (p : text * entity) : text := (quoted (fst p) ++ str ":") ++ dump (snd p).
Lemma dump_dict : forall l, dump (JDict l) = str "{" ++ join (map attr_text l) ++ str "}".
Proof.
  intros l; unfold dump; cbn [plainly render]. change ("{"%char :: ?x) with (str "{" ++ x). do 2 f_equal.
  rewrite map_map. destruct l as [|e l]; [reflexivity|]. 
  assert (G : forall p : text * entity, (let '(u, k, a, b, c, v) := let '(k, e0) := p in (@nil ascii, k, @nil ascii, @nil ascii, plainly e0, @nil ascii) in u ++ quoted k ++ a ++ ":"%char :: b ++ render c ++ v) = attr_text p).
  { intros (k, x). unfold attr_text; cbn [fst snd app]. rewrite app_nil_r, <- app_assoc. reflexivity. }
  cbn [map]. f_equal. rewrite G. f_equal. apply map_ext; exact G.
Qed.

Section Moves.
Variable moves : nat -> bool.
Fixpoint dlist (h : heap) (q : nat) (first : bool) (l : list entity) : hres :=
  match l with
  | [] => HOk h q
  | i :: l =>
      hbind (if first then HOk h q else append moves h q (str ",")) (fun h q =>
      match edump moves h q i with HOk h _ => dlist h q false l | HWild => HWild end)
  end.
Fixpoint ddict (h : heap) (q : nat) (first : bool) (l : list (text * entity)) : hres :=
  match l with
  | [] => HOk h q
  | (k, v) :: l =>
      hbind (if first then HOk h q else append moves h q (str ",")) (fun h q =>
      hbind (append moves h q (quoted k ++ str ":")) (fun h q =>
      hbind (edump moves h q v) (fun h q => ddict h q false l)))
  end.
Definition keep (q : nat) (r : hres) : hres := match r with HOk h _ => HOk h q | HWild => HWild end.
Lemma edump_list : forall h p l, edump moves h p (JList l) =
  keep p (hbind (append moves h p (str "[")) (fun h q => hbind (dlist h q true l) (fun h q => append moves h q (str "]")))).
Proof. reflexivity. Qed.
Lemma edump_dict : forall h p l, edump moves h p (JDict l) =
  keep p (hbind (append moves h p (str "{")) (fun h q => hbind (ddict h q true l) (fun h q => append moves h q (str "}")))).
Proof. reflexivity. Qed.
Lemma dlist_cons : forall h q first i l, dlist h q first (i :: l) =
  hbind (if first then HOk h q else append moves h q (str ",")) (fun h q => hbind (keep q (edump moves h q i)) (fun h q => dlist h q false l)).
Proof. intros; cbn [dlist]. destruct (if first then _ else _); [|reflexivity]. cbn [hbind]. destruct (edump moves h0 p i); reflexivity. Qed.

(** What holds of the appends holds of the dump *)
Section Rule.
Variable G : heap -> nat -> text -> hres -> Prop.
Hypothesis Gapp : forall h p t, G h p t (append moves h p t).
Hypothesis Gnil : forall h p, G h p [] (HOk h p).
Hypothesis Gbind : forall h p t u r k, G h p t r -> (forall h' p', G h' p' u (k h' p')) -> G h p (t ++ u) (hbind r k).
Hypothesis Gkeep : forall h p t r, G h p t r -> G h p t (keep p r).
Lemma rule_list : forall l, Forall (fun e => forall h p, G h p (dump e) (edump moves h p e)) l ->
  forall h p, G h p (join (map dump l)) (dlist h p true l) /\ G h p (jrest (map dump l)) (dlist h p false l).
Proof.
  intros l F; induction F as [|e l H F IH]; intros h p; [split; apply Gnil|]. rewrite !dlist_cons. cbn [map]. rewrite join_cons. cbn [jrest].
  assert (A : forall h' p', G h' p' (dump e ++ jrest (map dump l)) (hbind (keep p' (edump moves h' p' e)) (fun h q => dlist h q false l))).
  { intros h' p'. apply Gbind; [apply Gkeep, H|]. intros h2 p2; apply IH. }
  split; [exact (A h p)|]. apply Gbind; [apply Gapp|exact A].
Qed.
Lemma rule_dict : forall l, Forall (fun '(_, e) => forall h p, G h p (dump e) (edump moves h p e)) l ->
  forall h p, G h p (join (map attr_text l)) (ddict h p true l) /\ G h p (jrest (map attr_text l)) (ddict h p false l).
Proof.
  intros l F; induction F as [|(k, e) l H F IH]; intros h p; [split; apply Gnil|]. cbn [ddict map]. rewrite join_cons. cbn [jrest].
  assert (A : forall h' p', G h' p' (attr_text (k, e) ++ jrest (map attr_text l))
    (hbind (append moves h' p' (quoted k ++ str ":")) (fun h q => hbind (edump moves h q e) (fun h q => ddict h q false l)))).
  { intros h' p'. unfold attr_text; cbn [fst snd]. rewrite <- app_assoc. apply Gbind; [apply Gapp|]. intros h2 p2. apply Gbind; [apply H|]. intros h3 p3; apply IH. }
  split; [exact (A h p)|]. apply Gbind; [apply Gapp|exact A].
Qed.
Lemma rule_dump : forall e h p, G h p (dump e) (edump moves h p e).
Proof.
  induction e as [z|b|t|t| |l IH|l IH] using ent_ind2; intros h p; try apply Gapp.
  - rewrite edump_list, dump_list. apply Gkeep, Gbind; [apply Gapp|]. intros h1 p1. apply Gbind; [apply (rule_list l IH)|intros; apply Gapp].
  - rewrite edump_dict, dump_dict. apply Gkeep, Gbind; [apply Gapp|]. intros h1 p1. apply Gbind; [apply (rule_dict l IH)|intros; apply Gapp].
Qed.
End Rule.

(** ** Nothing moves *)
Definition still : Prop := forall i, moves i = false.
Definition goes (h : heap) (p : nat) (t : text) (r : hres) : Prop :=
  forall b len, bufs h p = Some (b, len) -> (still \/ zlen b + zlen t < len) ->
  exists h' len', r = HOk h' p /\ bufs h' p = Some (b ++ t, len') /\ (len' = len \/ still).
Lemma goes_dump : forall e h p, goes h p (dump e) (edump moves h p e).
Proof.
  apply rule_dump.
  - intros h p t b len B Q. unfold append. rewrite B. destruct (Z.leb_spec (len - zlen b) (zlen t)) as [C|C].
    + destruct Q as [Q|Q]; [|lia]. rewrite Q. eexists _, _. split; [reflexivity|]. cbn. rewrite Nat.eqb_refl. split; [reflexivity|right; exact Q].
    + eexists _, _. split; [reflexivity|]. cbn. rewrite Nat.eqb_refl. split; [reflexivity|left; reflexivity].
  - intros h p b len B _. exists h, len. rewrite app_nil_r. repeat split; [exact B|left; reflexivity].
  - intros h p t u r k G K b len B Q. rewrite zlen_app in Q. pose proof (zlen_nonneg u).
    destruct (G b len B) as (h1 & l1 & -> & B1 & L1); [destruct Q; [left; assumption|right; lia]|]. cbn [hbind].
    destruct (K h1 p (b ++ t) l1 B1) as (h2 & l2 & -> & B2 & L2).
    { destruct Q as [Q|Q]; [left; exact Q|]. destruct L1 as [->|L1]; [right; rewrite zlen_app; lia|left; exact L1]. }
    exists h2, l2. split; [reflexivity|]. rewrite app_assoc. split; [exact B2|]. destruct L2 as [->|L2]; [exact L1|right; exact L2].
  - intros h p t r G b len B Q. destruct (G b len B Q) as (h1 & l1 & -> & H). exists h1, l1. split; [reflexivity|exact H].
Qed.
Lemma dumped_ok : forall e, still \/ zlen (dump e) < 8192 -> dumped moves e = Some (dump e).
Proof.
  intros e Q. unfold dumped. destruct (goes_dump e (mkH (fun i => if Nat.eqb i 0 then Some ([], 8192) else None) 1) 0%nat [] 8192) as (h' & len' & -> & B & _).
  - reflexivity.
  - exact Q.
  - rewrite B. reflexivity.
Qed.

(** ** Everything moves: a buffer that is still there has not been grown *)
Definition fate (h : heap) (q : nat) (t : text) (r : hres) : Prop :=
  forall h' q', r = HOk h' q' -> (q < fresh_at h)%nat -> (fresh_at h <= fresh_at h')%nat /\ (q' < fresh_at h')%nat /\
  (forall p, (p < fresh_at h)%nat -> bufs h p = None -> bufs h' p = None) /\
  (forall b len, bufs h q = Some (b, len) -> zlen b < len -> bufs h' q <> None -> q' = q /\ bufs h' q = Some (b ++ t, len) /\ zlen b + zlen t < len).
Lemma fate_dump : (forall i, moves i = true) -> forall e h p, fate h p (dump e) (edump moves h p e).
Proof.
  intros M. apply rule_dump.
  - intros h q t h' q' E L. unfold append in E. destruct (bufs h q) as [(b0, len0)|] eqn:B; [|discriminate].
    rewrite M in E. destruct (Z.leb_spec (len0 - zlen b0) (zlen t)) as [C|C]; injection E as <- <-; cbn [fresh_at bufs].
    + split; [lia|]. split; [lia|]. split.
      * intros p Lp N. destruct (Nat.eqb_spec p (fresh_at h)); [lia|]. destruct (Nat.eqb_spec p q); [reflexivity|exact N].
      * intros b len X _ N. exfalso; apply N. destruct (Nat.eqb_spec q (fresh_at h)); [lia|]. rewrite Nat.eqb_refl. reflexivity.
    + split; [lia|]. split; [exact L|]. split.
      * intros p Lp N. destruct (Nat.eqb_spec p q); [congruence|exact N].
      * intros b len X _ N. rewrite Nat.eqb_refl. injection X as <- <-. repeat split. lia.
  - intros h q h' q' E L. injection E as <- <-. repeat split; try lia; try assumption.
    + intros; assumption.
    + rewrite app_nil_r. assumption.
    + change (@zlen ascii []) with 0. lia.
  - intros h q t u r k R K h' q' E L. destruct r as [h1 q1|]; [|discriminate]. cbn [hbind] in E.
    destruct (R h1 q1 eq_refl L) as (A1 & A2 & A3 & A4). destruct (K h1 q1 h' q' E A2) as (B1 & B2 & B3 & B4).
    split; [lia|]. split; [exact B2|]. split; [intros p Lp N; apply B3; [lia|apply A3; assumption]|].
    intros b len X Lb N.
    assert (N1 : bufs h1 q <> None) by (intros Z; apply N, B3; [lia|exact Z]).
    destruct (A4 b len X Lb N1) as (-> & X1 & L1).
    destruct (B4 (b ++ t) len X1 ltac:(rewrite zlen_app; lia) N) as (-> & X2 & L2). rewrite zlen_app in L2. rewrite zlen_app, app_assoc. repeat split; [exact X2|lia].
  - intros h q t r R h' q' E L. destruct r as [h1 q1|]; [|discriminate]. injection E as <- <-. destruct (R h1 q1 eq_refl L) as (A1 & A2 & A3 & A4).
    split; [exact A1|]. split; [lia|]. split; [exact A3|]. intros b len X Lb N. destruct (A4 b len X Lb N) as (_ & A5 & A6). repeat split; assumption.
Qed.
End Moves.
Definition container (e : entity) : Prop := match e with JList _ | JDict _ => True | _ => False end.
Lemma container_pointer : forall moves e h p h' p', container e -> edump moves h p e = HOk h' p' -> p' = p.
Proof.
  intros moves [] h p h' p' C; try destruct C; [rewrite edump_list|rewrite edump_dict]; unfold keep; destruct (hbind _ _); intros E; congruence.
Qed.
Lemma dumped_big : forall moves e, (forall i, moves i = true) -> container e -> 8192 <= zlen (dump e) -> dumped moves e = None.
Proof.
  intros moves e M C L. unfold dumped. set (h0 := mkH _ _). destruct (edump moves h0 0 e) as [h' p'|] eqn:E; [|reflexivity].
  pose proof (container_pointer _ _ _ _ _ _ C E). subst p'. destruct (bufs h' 0) as [x|] eqn:B; [|reflexivity].
  destruct (fate_dump moves M e h0 0%nat h' 0%nat E) as (_ & _ & _ & F); [cbn; lia|].
  destruct (F [] 8192 eq_refl) as (_ & _ & X); [reflexivity|rewrite B; discriminate|]. change (zlen []) with 0 in X. lia.
Qed.
Lemma dumped_scalar : forall moves e, ~ container e -> dumped moves e = Some (dump e).
Proof.
  intros moves e C.
  assert (A : forall t, match append moves (mkH (fun i => if Nat.eqb i 0 then Some ([], 8192) else None) 1) 0 t with HOk h p => option_map fst (bufs h p) | HWild => None end = Some t).
  { intros t. unfold append. cbn [bufs Nat.eqb]. destruct (_ <=? _); cbn [bufs]; rewrite Nat.eqb_refl; reflexivity. }
  destruct e; try (exfalso; apply C; exact I); apply A.
Qed.
(** ** What was dumped, read *)
Lemma last_of_nodup : forall l, NoDup (map fst l) -> last_of l = l.
Proof.
  induction l as [|(k, v) l IH]; [reflexivity|]. cbn [map fst last_of]. intros H; inversion H as [|? ? N ND]; subst.
  destruct (existsb (fun p => teq k (fst p)) l) eqn:E; [|f_equal; apply IH, ND].
  exfalso. apply existsb_exists in E. destruct E as (p & I & T). unfold teq in T. destruct (list_eq_dec _ _ _) as [->|]; [|discriminate].
  apply N, in_map, I.
Qed.
Lemma meaning_plainly : forall e, proper e -> meaning (plainly e) = e.
Proof.
  induction e as [z|b|t|t| |l IH|l IH] using ent_ind2; intros P; try reflexivity.
  - cbn [plainly meaning]. f_equal. rewrite map_map. cbn [proper] in P. induction IH as [|e l H IH IHl]; [reflexivity|]. destruct P as (P1 & P2).
    cbn [map]. f_equal; [apply H, P1|apply IHl, P2].
  - cbn [plainly meaning]. f_equal. destruct P as (ND & P). rewrite map_map.
    assert (E : map (fun x : text * entity => let '(_, k, _, _, c, _) := let '(k, e) := x in (@nil ascii, k, @nil ascii, @nil ascii, plainly e, @nil ascii) in (k, meaning c)) l = l).
    { clear ND. induction IH as [|(k, e) l H IH IHl]; [reflexivity|]. destruct P as (P1 & P2). cbn [map]. f_equal; [f_equal; apply H, P1|apply IHl, P2]. }
    rewrite E. apply last_of_nodup, ND.
Qed.
