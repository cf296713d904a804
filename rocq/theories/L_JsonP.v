(** Lemmas on the parser and the dump of the JSON library. *)
From Verif Require Import S_Json L_Dir L_Json L_Info.
From Coq Require Import Lia String Ascii.
Import M_Json.
Local Open Scope Z_scope.
Local Arguments Z.add : simpl never.
Local Arguments Z.mul : simpl never.
Local Arguments Z.sub : simpl never.

Section CstInd.
Variable P : cst -> Prop.
Hypothesis HI : forall z, P (CInt z).
Hypothesis HB : forall b, P (CBool b).
Hypothesis HF : forall t, P (CFloat t).
Hypothesis HS : forall t, P (CStr t).
Hypothesis HN : P CNull.
Hypothesis HL : forall w l, Forall (fun '(_, c, _) => P c) l -> P (CList w l).
Hypothesis HD : forall w l, Forall (fun '(_, _, _, _, c, _) => P c) l -> P (CDict w l).
Fixpoint cst_ind2 (c : cst) : P c :=
  match c with
  | CInt z => HI z | CBool b => HB b | CFloat t => HF t | CStr t => HS t | CNull => HN
  | CList w l => HL w l ((fix go l : Forall (fun '(_, c, _) => P c) l := match l with [] => Forall_nil _ | (u, c, v) :: r => Forall_cons (u, c, v) (cst_ind2 c) (go r) end) l)
  | CDict w l => HD w l ((fix go l : Forall (fun '(_, _, _, _, c, _) => P c) l := match l with [] => Forall_nil _
      | (u, k, a, b, c, v) :: r => Forall_cons (u, k, a, b, c, v) (cst_ind2 c) (go r) end) l)
  end.
End CstInd.
Section EntInd.
Variable P : entity -> Prop.
Hypothesis HI : forall z, P (JInt z).
Hypothesis HB : forall b, P (JBool b).
Hypothesis HF : forall t, P (JFloat t).
Hypothesis HS : forall t, P (JStr t).
Hypothesis HN : P JNull.
Hypothesis HL : forall l, Forall P l -> P (JList l).
Hypothesis HD : forall l, Forall (fun '(_, e) => P e) l -> P (JDict l).
Fixpoint ent_ind2 (e : entity) : P e :=
  match e with
  | JInt z => HI z | JBool b => HB b | JFloat t => HF t | JStr t => HS t | JNull => HN
  | JList l => HL l ((fix go l : Forall P l := match l with [] => Forall_nil _ | e :: r => Forall_cons e (ent_ind2 e) (go r) end) l)
  | JDict l => HD l ((fix go l : Forall (fun '(_, e) => P e) l := match l with [] => Forall_nil _ | (k, e) :: r => Forall_cons (k, e) (ent_ind2 e) (go r) end) l)
  end.
End EntInd.

(** ** Tokens of a text *)
Fixpoint tjoin (l : list (list tok)) : list tok := match l with [] => [] | [t] => t | t :: l => t ++ TP ","%char :: tjoin l end.
Fixpoint toks (c : cst) : list tok :=
  match c with
  | CInt z => [TInt z] | CBool b => [TBool b] | CFloat t => [TFloat t] | CStr t => [TStr t] | CNull => [TNull]
  | CList _ l => TP "["%char :: tjoin (map (fun '(_, c, _) => toks c) l) ++ [TP "]"%char]
  | CDict _ l => TP "{"%char :: tjoin (map (fun '(_, k, _, _, c, _) => TStr k :: TP ":"%char :: toks c) l) ++ [TP "}"%char]
  end.
Lemma valid_list : forall w l, valid (CList w l) -> white w /\ Forall (fun '(u, c, v) => white u /\ valid c /\ white v) l.
Proof. intros w l (W & A). split; [exact W|]. induction l as [|((u, c), v) l IH]; [constructor|]. destruct A as (A & B). constructor; [exact A|apply IH, B]. Qed.
Lemma valid_dict : forall w l, valid (CDict w l) -> white w /\ Forall (fun '(u, k, a, b, c, v) => white u /\ raw k /\ white a /\ white b /\ valid c /\ white v) l.
Proof. intros w l (W & A). split; [exact W|]. induction l as [|(((((u, k), a), b), c), v) l IH]; [constructor|]. destruct A as (A & B). constructor; [exact A|apply IH, B]. Qed.
Lemma list_valid : forall w l, white w -> Forall (fun '(u, c, v) => white u /\ valid c /\ white v) l -> valid (CList w l).
Proof. intros w l W F. split; [exact W|]. induction F as [|((u, c), v) l A F IH]; [exact I|]. split; [exact A|exact IH]. Qed.
Lemma dict_valid : forall w l, white w -> Forall (fun '(u, k, a, b, c, v) => white u /\ raw k /\ white a /\ white b /\ valid c /\ white v) l -> valid (CDict w l).
Proof. intros w l W F. split; [exact W|]. induction F as [|(((((u, k), a), b), c), v) l A F IH]; [exact I|]. split; [exact A|exact IH]. Qed.
Lemma ends_white : forall w t, white w -> ends t -> ends (w ++ t).
Proof.
  intros w t H E; destruct H as [|c w H HW]; [exact E|]. cbn [app].
  repeat destruct H as [->|H]; try (repeat split; fail). subst; repeat split.
Qed.
Lemma lex_join : forall (A : Type) (f : A -> text) (g : A -> list tok) l, 
  Forall (fun x => forall rest, ends rest -> lex (f x ++ rest) = g x ++ lex rest) l ->
  forall rest, ends rest -> lex (join (map f l) ++ rest) = tjoin (map g l) ++ lex rest.
Proof.
  intros A f g l F; induction F as [|x l H F IH]; intros rest E; [reflexivity|].
  destruct l as [|y l].
  - cbn [map join tjoin]. apply H, E.
  - change (join (map f (x :: y :: l))) with (f x ++ ","%char :: join (map f (y :: l))).
    change (tjoin (map g (x :: y :: l))) with (g x ++ TP ","%char :: tjoin (map g (y :: l))).
    rewrite <- !app_assoc. rewrite H by (repeat split). f_equal. cbn [app]. rewrite lex_punct by (cbn; tauto). rewrite IH by exact E. reflexivity.
Qed.
Lemma lex_render : forall c, valid c -> forall rest, ends rest -> lex (render c ++ rest) = toks c ++ lex rest.
Proof.
  induction c as [z|b|t|t| |w l IH|w l IH] using cst_ind2; intros V rest E.
  - cbn [render toks app]. apply lex_int; assumption.
  - destruct b; [apply lex_true|apply lex_false].
  - cbn [render toks app]. apply lex_float; assumption.
  - cbn [render toks app]. apply lex_string; assumption.
  - apply lex_null.
  - apply valid_list in V. destruct V as (W & V). cbn [render toks app]. rewrite lex_punct by (cbn; tauto). f_equal.
    assert (FI : Forall (fun x : text * cst * text => forall rest, ends rest -> lex ((fun '(u, c, v) => u ++ render c ++ v) x ++ rest) = (fun '(_, c, _) => toks c) x ++ lex rest) l).
    { clear - IH V. induction IH as [|((u, c), v) l H IH IHl]; inversion V as [|? ? VX V']; subst; constructor; [|apply IHl; assumption].
      destruct VX as (V1 & V2 & V3). intros rest E. rewrite <- !app_assoc. rewrite lex_white by exact V1. rewrite H by (assumption || apply ends_white; assumption).
      rewrite lex_white by exact V3. reflexivity. }
    rewrite <- !app_assoc. destruct l as [|x l].
    + rewrite lex_white by exact W. cbn [app map tjoin str list_ascii_of_string]. apply lex_punct; cbn; tauto.
    + rewrite (lex_join _ (fun '(u, c, v) => u ++ render c ++ v) (fun '(_, c, _) => toks c)).
      * f_equal; cbn [app str list_ascii_of_string]; apply lex_punct; cbn; tauto.
      * exact FI.
      * repeat split.
  - apply valid_dict in V. destruct V as (W & V). cbn [render toks app]. rewrite lex_punct by (cbn; tauto). f_equal.
    assert (FI : Forall (fun x : text * text * text * text * cst * text => forall rest, ends rest ->
      lex ((fun '(u, k, a, b, c, v) => u ++ quoted k ++ a ++ ":"%char :: b ++ render c ++ v) x ++ rest) = (fun '(_, k, _, _, c, _) => TStr k :: TP ":"%char :: toks c) x ++ lex rest) l).
    { clear - IH V. induction IH as [|(((((u, k), a), b), c), v) l H IH IHl]; inversion V as [|? ? VX V']; subst; constructor; [|apply IHl; assumption].
      destruct VX as (V1 & V2 & V3 & V4 & V5 & V6). intros rest E. rewrite <- !app_assoc. rewrite lex_white by exact V1. rewrite lex_string by exact V2. rewrite lex_white by exact V3.
      cbn [app]. rewrite <- ?app_assoc. rewrite lex_punct by (cbn; tauto). rewrite lex_white by exact V4.
      rewrite H by (assumption || apply ends_white; assumption). rewrite lex_white by exact V6. reflexivity. }
    rewrite <- !app_assoc. destruct l as [|x l].
    + rewrite lex_white by exact W. cbn [app map tjoin str list_ascii_of_string]. apply lex_punct; cbn; tauto.
    + rewrite (lex_join _ (fun '(u, k, a, b, c, v) => u ++ quoted k ++ a ++ ":"%char :: b ++ render c ++ v) (fun '(_, k, _, _, c, _) => TStr k :: TP ":"%char :: toks c)).
      * f_equal; cbn [app str list_ascii_of_string]; apply lex_punct; cbn; tauto.
      * exact FI.
      * repeat split.
Qed.

(** ** The parser *)
Lemma toks_head : forall c, exists k r, toks c = k :: r /\ match k with TP x => x = "["%char \/ x = "{"%char | _ => True end.
Proof. intros []; cbn [toks]; eexists _, _; (split; [reflexivity|]); cbn; auto. Qed.
Fixpoint rest_items (l : list (list tok)) : list tok := match l with [] => [] | t :: l => TP ","%char :: t ++ rest_items l end.
Lemma tjoin_cons : forall t l, tjoin (t :: l) = t ++ rest_items l.
Proof.
  intros t l; revert t; induction l as [|x l IH]; intros t; [cbn; rewrite app_nil_r; reflexivity|].
  change (tjoin (t :: x :: l)) with (t ++ TP ","%char :: tjoin (x :: l)). rewrite IH. reflexivity.
Qed.
Definition parses (c : cst) : Prop := forall f d r, d + 5 * depth c + 1 <= MAXD -> (List.length (toks c ++ r) < f)%nat -> value f d (toks c ++ r) = POk (meaning c) r.
Lemma deepest : forall (A : Type) (g : A -> Z) l n, fold_right Z.max 0 (map g l) <= n -> Forall (fun x => g x <= n) l.
Proof. intros A g l n; induction l as [|x l IH]; cbn; intros H; constructor; [lia|apply IH; lia]. Qed.
Lemma ltb_no : forall a b, b <= a -> (a <? b) = false.
Proof. intros; apply Z.ltb_ge; assumption. Qed.
Lemma items_ok : forall (l : list (text * cst * text)) acc f d r, Forall (fun '(_, c, _) => parses c /\ d + 5 * depth c + 4 <= MAXD) l -> d + 3 <= MAXD ->
  (List.length (rest_items (map (fun '(_, c, _) => toks c) l) ++ TP "]"%char :: r) < f)%nat ->
  items f d acc (rest_items (map (fun '(_, c, _) => toks c) l) ++ TP "]"%char :: r) =
  POk (JList (acc ++ map (fun '(_, c, _) => meaning c) l)) r.
Proof.
  induction l as [|((u, c), v) l IH]; intros acc f d r F D L; (destruct f as [|f]; [lia|]); cbn [map rest_items app] in *; cbn [items].
  - rewrite !ltb_no by lia. rewrite app_nil_r. reflexivity.
  - rewrite !ltb_no by lia. inversion F as [|? ? FX F']; subst. destruct FX as (PC & DC). cbn [List.length] in L. rewrite <- app_assoc in *.
    change (is ","%char "]"%char) with false. change (is ","%char ","%char) with true. cbv iota. rewrite PC by lia.
    rewrite IH.
    + rewrite <- app_assoc. reflexivity.
    + exact F'.
    + exact D.
    + rewrite app_length in L. lia.
Qed.
Definition add_all (l : list (text * entity)) (acc : list (text * entity)) : list (text * entity) := fold_left (fun acc p => attr_add acc (fst p) (snd p)) l acc.
Lemma attrs_ok : forall (l : list (text * text * text * text * cst * text)) acc f d r, Forall (fun '(_, _, _, _, c, _) => parses c /\ d + 5 * depth c + 6 <= MAXD) l -> d + 3 <= MAXD ->
  (List.length (rest_items (map (fun '(_, k, _, _, c, _) => TStr k :: TP ":"%char :: toks c) l) ++ TP "}"%char :: r) < f)%nat ->
  attrs f d acc (rest_items (map (fun '(_, k, _, _, c, _) => TStr k :: TP ":"%char :: toks c) l) ++ TP "}"%char :: r) =
  POk (JDict (add_all (map (fun '(_, k, _, _, c, _) => (k, meaning c)) l) acc)) r.
Proof.
  assert (DP : forall c, 0 <= depth c).
  { assert (G : forall l, 0 <= fold_right Z.max 0 l) by (induction l; cbn; lia). intros []; cbn [depth]; try lia; match goal with |- context [fold_right Z.max 0 ?l] => pose proof (G l) end; lia. }
  induction l as [|(((((u, k), a), b), c), v) l IH]; intros acc f d r F D L; (destruct f as [|f]; [lia|]); cbn [map rest_items app] in *; cbn [attrs].
  - rewrite !ltb_no by lia. reflexivity.
  - inversion F as [|? ? FX F']; subst. destruct FX as (PC & DC). pose proof (DP c). rewrite !ltb_no by lia. cbn [List.length] in L. rewrite <- app_assoc in *.
    change (is ","%char "}"%char) with false. change (is ","%char ","%char) with true. change (is ":"%char ":"%char) with true. cbv iota. rewrite PC by lia.
    rewrite IH.
    + reflexivity.
    + exact F'.
    + exact D.
    + rewrite app_length in L. lia.
Qed.
Lemma add_last : forall l acc, add_all l acc = filter (fun p => negb (existsb (fun q => teq (fst p) (fst q)) l)) acc ++ last_of l.
Proof.
  induction l as [|(k, v) l IH]; intros acc.
  - cbn. rewrite app_nil_r. induction acc as [|a acc IHa]; [reflexivity|]. cbn. f_equal; exact IHa.
  - cbn [add_all fold_left last_of existsb fst snd]. fold (add_all l (attr_add acc k v)). rewrite IH. unfold attr_add. rewrite filter_app. rewrite <- app_assoc.
    f_equal.
    + induction acc as [|(a, x) acc IHa]; [reflexivity|]. cbn [filter fst]. destruct (teq a k); cbn [negb orb filter fst]; [exact IHa|].
      destruct (existsb (fun q => teq a (fst q)) l); cbn [negb]; [exact IHa|]. f_equal; exact IHa.
    + cbn [filter fst]. destruct (existsb (fun p => teq k (fst p)) l); reflexivity.
Qed.
Lemma parse_toks : forall c, parses c.
Proof.
  induction c as [z|b|t|t| |w l IH|w l IH] using cst_ind2; intros f d r D L; (destruct f as [|f]; [lia|]); cbn [depth toks meaning app value] in *.
  1-5: rewrite ltb_no by lia; reflexivity.
  - assert (M : Forall (fun '(_, c, _) => depth c <= fold_right Z.max 0 (map (fun '(_, c, _) => depth c) l)) l).
    { pose proof (deepest _ (fun '(_, c, _) => depth c) l _ (Z.le_refl _)) as M. clear - M. eapply Forall_impl; [|exact M]. intros ((u, c), v) H; exact H. }
    assert (G : 0 <= fold_right Z.max 0 (map (fun '(_, c, _) => depth c) l)) by (generalize (map (fun '(_, c, _) => depth c) l); intros g; clear; induction g; cbn; lia).
    rewrite ltb_no by lia. change (is "["%char "["%char) with true. cbv iota.
    destruct l as [|((u, c), v) l].
    + cbn [map tjoin app]. change (is "]"%char ","%char || is "]"%char "]"%char) with true. cbv iota.
      apply (items_ok [] [] f d r); [constructor|cbn in D; lia|cbn in *; lia].
    + set (m := fold_right Z.max 0 (map (fun '(_, c, _) => depth c) ((u, c, v) :: l))) in *. clearbody m.
      change (tjoin (map (fun '(_, c, _) => toks c) ((u, c, v) :: l))) with (tjoin (toks c :: map (fun '(_, c, _) => toks c) l)) in *. rewrite tjoin_cons in *.
      rewrite <- !app_assoc in *. change ([TP "]"%char] ++ r) with (TP "]"%char :: r) in *.
      destruct (toks_head c) as (k & r0 & E & K).
      assert (Q : match toks c ++ rest_items (map (fun '(_, c, _) => toks c) l) ++ TP "]"%char :: r with
        | TP x :: _ => if is x ","%char || is x "]"%char then items f d [] (toks c ++ rest_items (map (fun '(_, c, _) => toks c) l) ++ TP "]"%char :: r)
                       else match value f (d + 1) (toks c ++ rest_items (map (fun '(_, c, _) => toks c) l) ++ TP "]"%char :: r) with POk e r => items f d [e] r | x => x end
        | _ => match value f (d + 1) (toks c ++ rest_items (map (fun '(_, c, _) => toks c) l) ++ TP "]"%char :: r) with POk e r => items f d [e] r | x => x end end =
        match value f (d + 1) (toks c ++ rest_items (map (fun '(_, c, _) => toks c) l) ++ TP "]"%char :: r) with POk e r => items f d [e] r | x => x end).
      { rewrite E. cbn [app]. destruct k; try reflexivity. destruct K as [->| ->]; reflexivity. }
      rewrite Q. clear Q K E k r0. inversion IH as [|? ? PC IH']; subst. inversion M as [|? ? MC M']; subst.
      rewrite PC by (lia || (cbn [List.length] in L; lia)).
      rewrite items_ok; [reflexivity| |lia|cbn [List.length] in L; rewrite app_length in L; lia].
      clear - IH' M' D. induction IH' as [|((u, c), v) l H IH' IHl]; inversion M'; subst; constructor; [split; [exact H|lia]|apply IHl; assumption].
  - assert (M : Forall (fun '(_, _, _, _, c, _) => depth c <= fold_right Z.max 0 (map (fun '(_, _, _, _, c, _) => depth c) l)) l).
    { pose proof (deepest _ (fun '(_, _, _, _, c, _) => depth c) l _ (Z.le_refl _)) as M. clear - M. eapply Forall_impl; [|exact M]. intros (((((u, k), a), b), c), v) H; exact H. }
    assert (G : 0 <= fold_right Z.max 0 (map (fun '(_, _, _, _, c, _) => depth c) l)) by (generalize (map (fun '(_, _, _, _, c, _) => depth c) l); intros g; clear; induction g; cbn; lia).
    rewrite ltb_no by lia. change (is "{"%char "["%char) with false. change (is "{"%char "{"%char) with true. cbv iota.
    destruct l as [|(((((u, k), a), b), c), v) l].
    + cbn [map tjoin app last_of]. apply (attrs_ok [] [] f d r); [constructor|cbn in D; lia|cbn in *; lia].
    + set (m := fold_right Z.max 0 (map (fun '(_, _, _, _, c, _) => depth c) ((u, k, a, b, c, v) :: l))) in *. clearbody m.
      change (tjoin (map (fun '(_, k, _, _, c, _) => TStr k :: TP ":"%char :: toks c) ((u, k, a, b, c, v) :: l)))
        with (tjoin ((TStr k :: TP ":"%char :: toks c) :: map (fun '(_, k, _, _, c, _) => TStr k :: TP ":"%char :: toks c) l)) in *. rewrite tjoin_cons in *.
      rewrite <- !app_assoc in *. change ([TP "}"%char] ++ r) with (TP "}"%char :: r) in *. cbn [app] in *.
      rewrite !ltb_no by lia. change (is ":"%char ":"%char) with true. cbv iota.
      inversion IH as [|? ? PC IH']; subst. inversion M as [|? ? MC M']; subst. cbn [List.length] in L.
      rewrite PC by lia. rewrite attrs_ok.
      * f_equal. f_equal. change (map (fun '(_, k, _, _, c, _) => (k, meaning c)) ((u, k, a, b, c, v) :: l)) with ((k, meaning c) :: map (fun '(_, k, _, _, c, _) => (k, meaning c)) l).
        pose proof (add_last ((k, meaning c) :: map (fun '(_, k, _, _, c, _) => (k, meaning c)) l) []) as A. exact A.
      * clear - IH' M' D. induction IH' as [|(((((u, k), a), b), c), v) l H IH' IHl]; inversion M'; subst; constructor; [split; [exact H|lia]|apply IHl; assumption].
      * lia.
      * rewrite app_length in L. lia.
Qed.
Lemma parse_render : forall c u v, valid c -> white u -> white v -> 5 * depth c + 1 <= MAXD -> parse (u ++ render c ++ v) = POk (meaning c) [].
Proof.
  intros c u v V U W D; unfold parse. rewrite lex_white by exact U.
  assert (EV : ends v) by (rewrite <- (app_nil_r v); apply ends_white; [exact W|exact I]).
  rewrite lex_render by assumption. replace (lex v) with (@nil tok) by (rewrite <- (app_nil_r v); rewrite lex_white by exact W; reflexivity).
  apply parse_toks; lia.
Qed.
Lemma parse_trailing : forall c u v, valid c -> white u -> ends v -> 5 * depth c + 1 <= MAXD -> parse (u ++ render c ++ v) = POk (meaning c) (lex v).
Proof. intros c u v V U W D; unfold parse. rewrite lex_white by exact U. rewrite lex_render by assumption. apply parse_toks; lia. Qed.

(** ** The parser stops *)
Definition done (ts : list tok) (p : pres) : Prop := p <> PFuel /\ forall e r, p = POk e r -> (List.length r < List.length ts)%nat.
Lemma done_le : forall ts us p, (List.length us <= List.length ts)%nat -> done us p -> done ts p.
Proof. intros ts us p L (A & B); split; [exact A|]. intros e r E. specialize (B e r E). lia. Qed.
Lemma parser_stops : forall f,
  (forall d ts, (List.length ts < f)%nat -> done ts (value f d ts)) /\
  (forall d l ts, (List.length ts < f)%nat -> done ts (items f d l ts)) /\
  (forall d l ts, (List.length ts < f)%nat -> done ts (attrs f d l ts)).
Proof.
  assert (X1 : forall ts, done ts PSyntax) by (split; [discriminate|intros; discriminate]).
  assert (X2 : forall ts, done ts PDeep) by (split; [discriminate|intros; discriminate]).
  assert (X3 : forall k e (r : list tok), done (k :: r) (POk e r)) by (intros k e r; split; [discriminate|intros ? ? E; injection E as _ <-; cbn; lia]).
  assert (XB : forall ts us p (g : entity -> list tok -> pres), done us p -> (List.length us <= List.length ts)%nat ->
     (forall e r, (List.length r < List.length us)%nat -> done r (g e r)) -> done ts (match p with POk e r => g e r | PSyntax => PSyntax | PDeep => PDeep | PFuel => PFuel end)).
  { intros ts us p g (N & H) L G. destruct p; [|apply X1|apply X2|congruence]. specialize (H e r eq_refl). apply (done_le ts r); [lia|]. apply G; exact H. }
  induction f as [|f (IV & II & IA)]; [repeat split; intros; lia|]. split; [|split].
  - intros d ts L. cbn [value]. destruct (MAXD <? d + 1); [destruct ts; auto|]. destruct ts as [|k r]; [auto|]. cbn [List.length] in L.
    assert (IT : done (TP "["%char :: r) (match value f (d + 1) r with POk e r => items f d [e] r | x => x end)).
    { apply (XB _ r (value f (d + 1) r) (fun e r => items f d [e] r)); [apply IV; lia|cbn; lia|]. intros e r0 L0; apply II; lia. }
    assert (IT' : forall c, done (TP c :: r) (match value f (d + 1) r with POk e r => items f d [e] r | x => x end)) by (intros c; exact IT).
    destruct k; try apply X3. destruct (is c "["%char).
    + destruct r as [|[| | | | |x] r]; try apply IT'. destruct (_ || _); [|apply IT']. apply (done_le _ (TP x :: r)); [cbn; lia|]. apply II; cbn in *; lia.
    + destruct (is c "{"%char); [|auto]. destruct r as [|[k| | | | |x] r]; try (apply (done_le _ (List.tl (TP c :: r))); [cbn; lia|apply IA; cbn in *; lia]).
      all: try (match goal with |- done (_ :: ?u) (attrs _ _ _ ?u) => apply (done_le _ u); [cbn; lia|apply IA; cbn in *; lia] end).
      destruct (MAXD <? d + 2); [auto|]. destruct r as [|[| | | | |x] r]; auto. destruct (is x ":"%char); [|auto]. destruct (MAXD <? d + 3); [auto|]. cbn [List.length] in L.
      apply (XB _ r (value f (d + 3) r) (fun e r => attrs f d [(k, e)] r)); [apply IV; lia|cbn; lia|]. intros e r0 L0; apply IA; lia.
  - intros d l ts L. cbn [items]. destruct (MAXD <? d + 2); [auto|]. destruct ts as [|[| | | | |c] r]; auto. cbn [List.length] in L.
    destruct (is c "]"%char); [destruct (MAXD <? d + 3); auto|]. destruct (is c ","%char); [|auto]. destruct (MAXD <? d + 3); [auto|].
    apply (XB _ r (value f (d + 3) r) (fun e r => items f d (l ++ [e]) r)); [apply IV; lia|cbn; lia|]. intros e r0 L0; apply II; lia.
  - intros d l ts L. cbn [attrs]. destruct (MAXD <? d + 2); [auto|]. destruct ts as [|[| | | | |c] r]; auto. cbn [List.length] in L.
    destruct (is c "}"%char); [destruct (MAXD <? d + 3); auto|]. destruct (is c ","%char); [|auto]. destruct (MAXD <? d + 3); [auto|].
    destruct r as [|[k| | | | |] r]; auto. destruct (MAXD <? d + 4); [auto|]. destruct r as [|[| | | | |x] r]; auto. destruct (is x ":"%char); [|auto]. destruct (MAXD <? d + 5); [auto|].
    cbn [List.length] in L.
    apply (XB _ r (value f (d + 5) r) (fun e r => attrs f d (attr_add l k e) r)); [apply IV; lia|cbn; lia|]. intros e r0 L0; apply IA; lia.
Qed.
Lemma parse_stops : forall t, parse t <> PFuel.
Proof. intros t; unfold parse. apply (proj1 (parser_stops _)). lia. Qed.
