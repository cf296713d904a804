(** Theorems on the key-value information of sets. *)
From Verif Require Import S_Info L_Dir L_Info.
From Coq Require Import Lia String.
Local Open Scope Z_scope.

Definition fresh (pub : bool) : iset := mkI [] [] pub.
Definition nothing : kv * kv := (fun _ => None, fun _ => None).
Definition wf (s : iset) : Prop := NoDup (keys (loc s)) /\ NoDup (keys (rem s)).

Lemma step_ok : forall s o s' rc u, wf s -> mstep s o = (s', rc, u) -> wf s' /\ published s' = published s /\
  (speaks o -> forall a, (forall k, find k (loc s) = fst a k) -> (forall k, find k (rem s) = snd a k) ->
    (forall k, find k (loc s') = fst (astep a o) k) /\ (forall k, find k (rem s') = snd (astep a o) k)).
Proof.
  intros s o s' rc u (N1 & N2) E. destruct o as [k v|k|b l|]; cbn [mstep] in E.
  - unfold set_info_set in E. destruct (info_set true true (loc s) k v) as (l1, r1) eqn:E1.
    destruct (info_set_ok _ _ _ _ _ N1 E1) as (M & F & D).
    assert (ES : s' = mkI l1 (rem s) (published s)) by (destruct (0 <? r1); [congruence|]; destruct (r1 =? -1); congruence).
    subst s'. split; [split; [exact M|exact N2]|]. split; [reflexivity|]. intros _ a A1 A2; cbn [loc rem astep fst snd].
    split; [|exact A2]. intros x; rewrite F. unfold put. destruct (list_eq_dec ascii_dec x k); [reflexivity|apply A1].
  - unfold set_info_unset in E. destruct (find k (loc s)) as [w|] eqn:FK; injection E as <- _ _.
    + split; [split; [apply nodup_remove, N1|exact N2]|]. split; [reflexivity|]. intros _ a A1 A2; cbn [loc rem astep fst snd].
      split; [|exact A2]. intros x; rewrite find_remove by exact N1. unfold put. destruct (list_eq_dec ascii_dec x k); [reflexivity|apply A1].
    + split; [split; assumption|]. split; [reflexivity|]. intros _ a A1 A2; cbn [astep fst snd]. split; [|exact A2].
      intros x; unfold put. destruct (list_eq_dec ascii_dec x k) as [->|]; [exact FK|apply A1].
  - destruct (dir_info b s l) as (s1, u1) eqn:E1. injection E as <- _ _. destruct l as [|p l].
    { cbn in E1. injection E1 as <- _. split; [split; assumption|]. split; [reflexivity|]. intros []. }
    destruct (dir_info_ok b s (p :: l) s1 u1 N2 ltac:(discriminate) E1) as (L & P & N & F & _).
    split; [split; [rewrite L; exact N1|exact N]|]. split; [exact P|]. intros _ a A1 A2; cbn [astep fst snd].
    rewrite L; split; [exact A1|exact F].
  - cbn in E. injection E as <- _ _. split; [split; assumption|]. split; [reflexivity|]. intros _ a A1 A2. split; assumption.
Qed.
Lemma run_wf : forall l s, wf s -> wf (mrun s l) /\ published (mrun s l) = published s.
Proof.
  induction l as [|o l IH]; intros s W; [split; [exact W|reflexivity]|]. cbn [mrun]. destruct (mstep s o) as ((s', rc), u) eqn:E.
  destruct (step_ok _ _ _ _ _ W E) as (W' & P & _). destruct (IH s' W') as (A & B). split; [exact A|]. cbn [fst]. congruence.
Qed.
Lemma fresh_wf : forall pub, wf (fresh pub).
Proof. intros; split; constructor. Qed.

(** ** A map with the own information first: a key has the value it was last given by
    this process, else what the peer's last reply says.  Missing: replies that list
    nothing. *)
Theorem info_get_partial : forall pub l k, Forall speaks l -> set_info_get (mrun (fresh pub) l) k = view (arun nothing l) k.
Proof.
  intros pub l k F.
  assert (G : forall l s a, Forall speaks l -> wf s -> (forall k, find k (loc s) = fst a k) -> (forall k, find k (rem s) = snd a k) ->
    (forall k, find k (loc (mrun s l)) = fst (arun a l) k) /\ (forall k, find k (rem (mrun s l)) = snd (arun a l) k)).
  { clear; induction l as [|o l IH]; intros s a F W A1 A2; [split; assumption|]. inversion F; subst. cbn [mrun arun].
    destruct (mstep s o) as ((s', rc), u) eqn:E. destruct (step_ok _ _ _ _ _ W E) as (W' & _ & X). destruct (X H1 a A1 A2). apply IH; assumption. }
  destruct (G l (fresh pub) nothing F (fresh_wf pub)) as (B1 & B2); try reflexivity.
  unfold set_info_get, view. rewrite B1, B2. reflexivity.
Qed.
Print Assumptions info_get_partial.
(** The peer removes its last pair: its old value stays *)
Theorem info_get_refuted : exists l k, set_info_get (mrun (fresh true) l) k <> view (arun nothing l) k.
Proof.
  exists [ODir true [(str "hint", str "1000000:0")]; ODir true []], (str "hint"). vm_compute. congruence.
Qed.
Print Assumptions info_get_refuted.

(** ** Listings name each key once, with the value get returns *)
Theorem info_listed : forall pub l, let s := mrun (fresh pub) l in tells (shown_info s) (set_info_get s).
Proof. intros pub l s. destruct (run_wf l (fresh pub) (fresh_wf pub)) as ((W1 & W2) & _). apply shown_tells; assumption. Qed.
Print Assumptions info_listed.

(** ** Peers are told: each call or update that changes what is visible of a published
    set sends its new information.  Missing: replies to a directory request. *)
Definition asked (o : op) : Prop := match o with ODir false _ => True | _ => False end.
Theorem info_announced_partial : forall l o s' rc u, let s := mrun (fresh true) l in
  mstep s o = (s', rc, u) -> ~ asked o -> (exists k, set_info_get s' k <> set_info_get s k) -> u = [shown_info s'].
Proof.
  intros l o s' rc u s E A (k & K). destruct (run_wf l (fresh true) (fresh_wf true)) as (W & P).
  fold s in W, P. cbn in P.
  destruct (step_ok _ _ _ _ _ W E) as (_ & P' & _). rewrite P in P'.
  assert (U : upd s' = [shown_info s']) by (unfold upd; rewrite P'; reflexivity).
  destruct W as (N1 & N2). destruct o as [x v|x|b d|]; cbn [mstep] in E.
  - unfold set_info_set in E. destruct (info_set true true (loc s) x v) as (l1, r1) eqn:E1.
    destruct (info_set_ok _ _ _ _ _ N1 E1) as (_ & _ & [(-> & -> & _)|(-> & _)]); cbn in E; injection E as <- <- <-.
    + exfalso; apply K; destruct s; reflexivity.
    + exact U.
  - unfold set_info_unset in E. destruct (find x (loc s)); injection E as <- _ <-; [exact U|congruence].
  - destruct b; [|exfalso; apply A; exact I]. destruct (dir_info true s d) as (s1, u1) eqn:E1. injection E as <- _ <-.
    destruct d as [|p d]; [cbn in E1; congruence|].
    destruct (dir_info_ok true s (p :: d) s1 u1 N2 ltac:(discriminate) E1) as (_ & _ & _ & _ & _ & X).
    destruct (X eq_refl) as [->| ->]; [exact U|congruence].
  - cbn in E. injection E as <- _ _. congruence.
Qed.
Print Assumptions info_announced_partial.
(** ... never anything else *)
Theorem info_updates : forall l o s' rc u, mstep (mrun (fresh true) l) o = (s', rc, u) -> u = [] \/ u = [shown_info s'].
Proof.
  intros l o s' rc u E. destruct (run_wf l (fresh true) (fresh_wf true)) as (W & P).
  destruct (step_ok _ _ _ _ _ W E) as (_ & P' & _). rewrite P in P'. cbn in P'.
  assert (U : upd s' = [shown_info s']) by (unfold upd; rewrite P'; reflexivity).
  set (s := mrun (fresh true) l) in *. destruct W as (N1 & N2). destruct o as [x v|x|b d|]; cbn [mstep] in E.
  - unfold set_info_set in E. destruct (info_set true true (loc s) x v) as (l1, r1).
    destruct (0 <? r1); [left; congruence|]. destruct (r1 =? -1); [left; congruence|]. right; rewrite <- U; congruence.
  - unfold set_info_unset in E. destruct (find x (loc s)); [right; rewrite <- U; congruence|left; congruence].
  - destruct (dir_info b s d) as (s1, u1) eqn:E1. injection E as <- _ <-.
    destruct d as [|p d]; [left; cbn in E1; congruence|].
    destruct (dir_info_ok b s (p :: d) s1 u1 N2 ltac:(discriminate) E1) as (_ & _ & _ & _ & X & _). rewrite <- U; exact X.
  - left; cbn in E; congruence.
Qed.
Print Assumptions info_updates.
(** A change learnt from the reply to a directory request is not passed on *)
Theorem info_announced_refuted : exists l o s' rc k, mstep (mrun (fresh true) l) o = (s', rc, []) /\
  set_info_get s' k <> set_info_get (mrun (fresh true) l) k.
Proof.
  exists [ODir true [(str "hint", str "1")]], (ODir false [(str "hint", str "2")]), (mkI [] [(str "hint", str "2")] true), 0, (str "hint").
  split; [vm_compute; reflexivity|vm_compute; congruence].
Qed.
Print Assumptions info_announced_refuted.

(** ** Results of the calls *)
Theorem info_set_returns : forall l pub k v s' rc u, set_info_set true true (mrun (fresh pub) l) k v = (s', rc, u) ->
  (rc = 0 <-> k <> None /\ v <> None) /\ (rc <> 0 -> rc = EINVAL /\ s' = mrun (fresh pub) l /\ u = []).
Proof.
  intros l pub k v s' rc u E. destruct (run_wf l (fresh pub) (fresh_wf pub)) as ((N & _) & _).
  set (s := mrun (fresh pub) l) in *. unfold set_info_set in E. destruct k as [k|]; [destruct v as [v|]|].
  - destruct (info_set true true (loc s) k v) as (l1, r1) eqn:E1.
    destruct (info_set_ok _ _ _ _ _ N E1) as (_ & _ & [(-> & _ & _)|(-> & _)]); cbn in E; injection E as <- <- <-;
    (split; [split; [intros _; split; discriminate|reflexivity]|congruence]).
  - injection E as <- <- <-. split; [split; [discriminate|intros (_ & X); congruence]|]. intros _; repeat split.
  - injection E as <- <- <-. split; [split; [discriminate|intros (X & _); congruence]|]. intros _; repeat split.
Qed.
Print Assumptions info_set_returns.
(** Out of memory for the pair: nothing changes.  The full claim, that a call which fails
    changes nothing, is false when the copy of the value fails: *)
Theorem info_failed_partial : forall val_ok s k v s' rc u, set_info_set false val_ok s (Some k) (Some v) = (s', rc, u) ->
  find k (loc s) = None -> rc = ENOMEM /\ s' = s /\ u = [].
Proof.
  intros b s k v s' rc u E F. unfold set_info_set, info_set in E. rewrite F in E. cbn in E. injection E as <- <- <-.
  destruct s; repeat split.
Qed.
Print Assumptions info_failed_partial.
(** the old value is gone, and nobody is told *)
Theorem info_failed_refuted : exists l k v s', set_info_set true false (mrun (fresh true) l) (Some k) (Some v) = (s', ENOMEM, []) /\
  set_info_get (mrun (fresh true) l) k <> None /\ set_info_get s' k = None.
Proof.
  exists [OSet (str "k") (str "old")], (str "k"), (str "new"), (fresh true).
  split; [reflexivity|]. split; [vm_compute; congruence|reflexivity].
Qed.
Print Assumptions info_failed_refuted.

(** ** From process to process: having taken the listing of a set of another process,
    this process sees its own information and else exactly what that one sees.  Missing:
    listings without information (see info_get_refuted). *)
Theorem info_chain_partial : forall p1 l1 p2 l2 b, let s := mrun (fresh p1) l1 in let r := mrun (fresh p2) l2 in
  shown_info s <> [] -> forall k, set_info_get (fst (dir_info b r (shown_info s))) k =
  match find k (loc r) with Some v => Some v | None => set_info_get s k end.
Proof.
  intros p1 l1 p2 l2 b s r NE k. destruct (run_wf l2 (fresh p2) (fresh_wf p2)) as ((_ & N2) & _). fold r in N2.
  pose proof (info_listed p1 l1) as T. cbv zeta in T. fold s in T.
  destruct (dir_info b r (shown_info s)) as (r', u) eqn:E.
  destruct (dir_info_ok b r _ r' u N2 NE E) as (L & _ & _ & F & _). cbn [fst]. unfold set_info_get at 1.
  rewrite L, F. rewrite (said_tells _ _ T). reflexivity.
Qed.
Print Assumptions info_chain_partial.

(** ** By lookup: the new set has the same names and shows the same information, if no
    string is longer than 254; the message is written and read within its bounds. *)
Theorem info_lookup_partial : forall pub l sch inst, let s := mrun (fresh pub) l in
  plain sch -> plain inst -> short sch -> short inst -> Forall ok_pair (shown_info s) ->
  exists m size r, lookup_msg sch inst s = Some (m, size) /\ size = msg_size sch inst (shown_info s) /\
  lookup_reply (fun _ => false) size m = Created sch inst r /\ forall k, set_info_get r k = set_info_get s k.
Proof.
  intros pub l sch inst s P1 P2 S1 S2 F. destruct (lookup_roundtrip sch inst s P1 P2 S1 S2 F) as (m & size & E & Z & R).
  pose proof (info_listed pub l) as T. cbv zeta in T. fold s in T.
  destruct (set_all [] (shown_info s) false) as (l1, c1) eqn:EA.
  destruct (set_all_ok (shown_info s) [] false l1 c1 (NoDup_nil _) EA) as (_ & FA & _).
  exists m, size, (mkI [] l1 false). split; [exact E|]. split; [exact Z|]. unfold lookup_reply. rewrite R. cbn [fst].
  split; [reflexivity|]. intros k. unfold set_info_get at 1. cbn [loc rem find]. rewrite FA. rewrite (said_tells _ _ T).
  cbn [find]. destruct (set_info_get s k); reflexivity.
Qed.
Print Assumptions info_lookup_partial.
(** A value of 300 characters arrives cut to 45; a key of 255 hides everything *)
Theorem info_lookup_refuted : exists s1 s2 k1 k2, let received s := match lookup_msg (str "schema") (str "inst") s with Some (m, size) => lookup_reply (fun _ => false) size m | None => Overread end in
  (match received s1 with Created _ _ r => set_info_get r k1 <> set_info_get s1 k1 /\ option_map (@List.length ascii) (set_info_get r k1) = Some 45%nat | _ => False end) /\
  (match received s2 with Created _ _ r => set_info_get s2 k2 = Some (str "v") /\ set_info_get r k2 = None | _ => False end).
Proof.
  exists (mkI [(str "k", repeat "x"%char 300)] [] true), (mkI [(repeat "x"%char 255, []); (str "k", str "v")] [] true), (str "k"), (str "k").
  vm_compute. split; [split; [congruence|reflexivity]|split; reflexivity].
Qed.
Print Assumptions info_lookup_refuted.
(** The reply names a set that exists by now: a reference is put through NULL *)
Theorem info_lookup_exists_refuted : exists sch inst s m size, lookup_msg sch inst s = Some (m, size) /\
  lookup_reply (teq inst) size m = NullRef.
Proof.
  destruct (lookup_roundtrip (str "schema") (str "inst") (fresh true)) as (m & size & E & _ & R).
  1,2: intros X; vm_compute in X; intuition discriminate.
  1,2: vm_compute; congruence.
  { constructor. }
  exists (str "schema"), (str "inst"), (fresh true), m, size. split; [exact E|]. unfold lookup_reply. rewrite R. reflexivity.
Qed.
Print Assumptions info_lookup_exists_refuted.

(** ** Cases *)
Definition o1 := [OSet (str "k") (str "1"); ODir true [(str "k", str "2"); (str "p", str "q")]; OSet (str "x") []; OBad; OUnset (str "x"); OUnset (str "y")].
Example info_ex : Forall speaks o1 /\ set_info_get (mrun (fresh true) o1) (str "k") = Some (str "1") /\
  set_info_get (mrun (fresh true) (o1 ++ [OUnset (str "k")])) (str "k") = Some (str "2") /\
  set_info_get (mrun (fresh true) o1) (str "p") = Some (str "q") /\ set_info_get (mrun (fresh true) o1) (str "x") = None /\
  shown_info (mrun (fresh true) o1) = [(str "k", str "1"); (str "p", str "q")] /\
  (let '(_, rc, u) := mstep (mrun (fresh true) o1) (OSet (str "k") (str "3")) in rc = 0 /\ u = [[(str "k", str "3"); (str "p", str "q")]]) /\
  (let '(_, rc, u) := mstep (mrun (fresh true) o1) (OSet (str "k") (str "1")) in rc = 0 /\ u = []).
Proof. split; [repeat constructor|]. vm_compute. repeat split. Qed.
Example info_lookup_ex : Forall ok_pair (shown_info (mrun (fresh true) o1)).
Proof.
  change (shown_info (mrun (fresh true) o1)) with [(str "k", str "1"); (str "p", str "q")].
  repeat constructor; try (intros X; vm_compute in X; intuition discriminate); vm_compute; congruence.
Qed.
