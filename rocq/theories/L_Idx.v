(** Lemmas about the prefix tree. *)
From Verif Require Export S_Idx.
Local Open Scope N_scope.
Ltac sp := repeat match goal with |- _ /\ _ => split end.

Lemma set1_eq {A} (f : N -> A) i v : set1 f i v i = v.
Proof. unfold set1. now rewrite N.eqb_refl. Qed.
Lemma set1_ne {A} (f : N -> A) i v j : j <> i -> set1 f i v j = f j.
Proof. unfold set1. intros H. now rewrite (proj2 (N.eqb_neq _ _) H). Qed.

(** ** lex *)
Lemma lex_eq a : forall b, lex a b = Eq <-> a = b.
Proof.
  induction a as [|x a IH]; intros [|y b]; cbn [lex]; split; intros H; try congruence.
  - destruct (N.compare_spec x y); try discriminate. subst. f_equal. now apply IH.
  - injection H as -> ->. rewrite N.compare_refl. now apply IH.
Qed.
Lemma lex_refl a : lex a a = Eq. Proof. now apply lex_eq. Qed.
Lemma lex_antisym a : forall b, lex b a = CompOpp (lex a b).
Proof. induction a as [|x a IH]; intros [|y b]; cbn [lex CompOpp]; auto. rewrite (N.compare_antisym x y). destruct (x ?= y); cbn [CompOpp]; auto. Qed.
Lemma lex_trans a : forall b c, lex a b = Lt -> lex b c = Lt -> lex a c = Lt.
Proof.
  induction a as [|x a IH]; intros [|y b] [|z c]; cbn [lex]; try congruence. intros H1 H2.
  destruct (N.compare_spec x y), (N.compare_spec y z), (N.compare_spec x z); try congruence; try lia. subst. eauto.
Qed.
Lemma lex_gt a b : lex a b = Gt <-> lex b a = Lt.
Proof. rewrite (lex_antisym a b). destruct (lex a b); cbn; split; congruence. Qed.

(** ** ordered maps *)
Definition srt := StronglySorted before.
Lemma srt_lt k o M : srt ((k, o) :: M) -> forall k' o', In (k', o') M -> lex k k' = Lt.
Proof. intros H k' o' Hin. apply StronglySorted_inv in H as [_ H]. rewrite Forall_forall in H. exact (H _ Hin). Qed.
Lemma srt_uniq M : forall M', srt M -> srt M' -> (forall p, In p M <-> In p M') -> M = M'.
Proof.
  induction M as [|[k o] M IH]; intros [|[k' o'] M'] H H' E.
  - reflexivity.
  - exfalso. now apply (proj2 (E (k', o')) (or_introl eq_refl)).
  - exfalso. now apply (proj1 (E (k, o)) (or_introl eq_refl)).
  - assert (Ek : (k, o) = (k', o')).
    { destruct (proj1 (E (k, o)) (or_introl eq_refl)) as [->|Hin]; [reflexivity|]. destruct (proj2 (E (k', o')) (or_introl eq_refl)) as [->|Hin']; [reflexivity|].
      pose proof (srt_lt _ _ _ H _ _ Hin') as A. pose proof (srt_lt _ _ _ H' _ _ Hin) as B. pose proof (lex_trans _ _ _ A B) as C. rewrite lex_refl in C. discriminate. }
    injection Ek as <- <-. f_equal. pose proof (proj1 (StronglySorted_inv H)). pose proof (proj1 (StronglySorted_inv H')). apply IH; auto.
    intros [q w]. split; intros Hin.
    + destruct (proj1 (E (q, w)) (or_intror Hin)) as [Eq|?]; [|assumption]. injection Eq as <- <-. pose proof (srt_lt _ _ _ H _ _ Hin) as B. rewrite lex_refl in B. discriminate.
    + destruct (proj2 (E (q, w)) (or_intror Hin)) as [Eq|?]; [|assumption]. injection Eq as <- <-. pose proof (srt_lt _ _ _ H' _ _ Hin) as B. rewrite lex_refl in B. discriminate.
Qed.
Definition nz (M : list (list byte * N)) : Prop := Forall (fun p => snd p <> 0) M.
Lemma mget_in M k o : srt M -> nz M -> o <> 0 -> In (k, o) M <-> mget M k = o.
Proof.
  intros HS HZ Ho. induction M as [|[k' o'] M IH]; cbn [mget In]; [split; [easy|congruence]|].
  pose proof (proj1 (StronglySorted_inv HS)) as HS'. apply (proj1 (Forall_cons_iff _ _ _)) in HZ as [HZ1 HZ].
  destruct (lex k k') eqn:E.
  - apply lex_eq in E. subst k'. split; [intros [Eq|Hin]; [congruence|]|intros ->; now left]. pose proof (srt_lt _ _ _ HS _ _ Hin) as B. rewrite lex_refl in B. discriminate.
  - rewrite <- IH by assumption. split; [intros [Eq|?]; [|assumption]|now right]. injection Eq as -> ->. rewrite lex_refl in E. discriminate.
  - rewrite <- IH by assumption. split; [intros [Eq|?]; [|assumption]|now right]. injection Eq as -> ->. rewrite lex_refl in E. discriminate.
Qed.
Lemma mset_in M k o : srt M -> forall q w, In (q, w) (mset M k o) <-> (q = k /\ w = o) \/ (q <> k /\ In (q, w) M).
Proof.
  intros HS q w. induction M as [|[k' o'] M IH]; cbn [mset].
  - cbn. split; [intros [E|[]]; injection E as <- <-; auto|intros [[-> ->]|[_ []]]; auto].
  - pose proof (proj1 (StronglySorted_inv HS)) as HS'. pose proof (srt_lt _ _ _ HS) as HL. destruct (lex k k') eqn:E.
    + apply lex_eq in E. subst k'. cbn [In]. split.
      * intros [Eq|Hin]; [injection Eq as <- <-; auto|]. right. split; [|now right]. intros ->. specialize (HL _ _ Hin). rewrite lex_refl in HL. discriminate.
      * intros [[-> ->]|[Hn [Eq|Hin]]]; [now left|congruence|now right].
    + cbn [In]. split.
      * intros [Eq|Hin]; [injection Eq as <- <-; auto|]. right. split; [|exact Hin]. intros ->. destruct Hin as [Eq|Hin]; [injection Eq as -> ->; rewrite lex_refl in E; discriminate|].
        pose proof (lex_trans _ _ _ E (HL _ _ Hin)) as C. rewrite lex_refl in C. discriminate.
      * intros [[-> ->]|[Hn Hin]]; [now left|now right].
    + cbn [In]. rewrite IH by assumption. split.
      * intros [Eq|[H|[H1 H2]]]; [|now left|right; auto]. injection Eq as <- <-. right. split; [|now left]. intros ->. rewrite lex_refl in E. discriminate.
      * intros [H|[H1 [H2|H2]]]; auto.
Qed.
Lemma mset_srt M k o : srt M -> srt (mset M k o).
Proof.
  induction M as [|[k' o'] M IH]; cbn [mset]; intros HS; [repeat constructor|]. pose proof (proj1 (StronglySorted_inv HS)) as HS'. pose proof (srt_lt _ _ _ HS) as HL.
  destruct (lex k k') eqn:E.
  - apply lex_eq in E. subst k'. constructor; [exact HS'|]. apply Forall_forall. intros [q w] Hin. exact (HL _ _ Hin).
  - constructor; [exact HS|]. constructor; [exact E|]. apply Forall_forall. intros [q w] Hin. exact (lex_trans _ _ _ E (HL _ _ Hin)).
  - constructor; [now apply IH|]. apply Forall_forall. intros [q w] Hin. apply mset_in in Hin as [[-> ->]|[_ Hin]]; [now apply lex_gt|exact (HL _ _ Hin)|exact HS'].
Qed.
Lemma mdel_in M k : forall q w, In (q, w) (mdel M k) <-> q <> k /\ In (q, w) M.
Proof.
  intros q w. induction M as [|[k' o'] M IH]; cbn [mdel]; [cbn; tauto|]. destruct (lex k k') eqn:E.
  - apply lex_eq in E. subst k'. rewrite IH. cbn [In]. split; [intros [H1 H2]; auto|]. intros [H1 [H|H]]; [congruence|auto].
  - cbn [In]. rewrite IH. assert (k' <> k) by (intros ->; rewrite lex_refl in E; discriminate). split; [intros [H'|[H1 H2]]; [|auto]; injection H' as <- <-; auto|intros [H1 [H2|H2]]; auto].
  - cbn [In]. rewrite IH. assert (k' <> k) by (intros ->; rewrite lex_refl in E; discriminate). split; [intros [H'|[H1 H2]]; [|auto]; injection H' as <- <-; auto|intros [H1 [H2|H2]]; auto].
Qed.
Lemma mdel_srt M k : srt M -> srt (mdel M k).
Proof.
  induction M as [|[k' o'] M IH]; cbn [mdel]; intros HS; [constructor|]. pose proof (proj1 (StronglySorted_inv HS)) as HS'. pose proof (srt_lt _ _ _ HS) as HL.
  destruct (lex k k'); auto; (constructor; [now apply IH|]; apply Forall_forall; intros [q w] Hin; apply mdel_in in Hin as [_ Hin]; exact (HL _ _ Hin)).
Qed.

(** ** layers *)
Section Ind.
  Variable P : layer -> Prop.
  Hypothesis H : forall oc lc o n, (forall e l, n e = Some l -> P l) -> P (L oc lc o n).
  Fixpoint layer_ind2 (l : layer) : P l :=
    let 'L oc lc o n := l in H oc lc o n (fun e l' E => match n e as x return (x = Some l' -> P l') with
      | None => fun E => match E in _ = y return match y with None => True | Some z => P z end with eq_refl => I end
      | Some l0 => fun E => match E in _ = y return match y with None => True | Some z => P z end with eq_refl => layer_ind2 l0 end end E).
End Ind.
Fixpoint get (l : layer) (k : list byte) {struct k} : N :=
  match k with
  | [] => 0
  | c :: k => match k with [] => objs l c | _ => match nexts l c with None => 0 | Some l => get l k end end
  end.
Definition some {A} (o : option A) : bool := match o with Some _ => true | None => false end.
Definition subs (n : N -> option layer) : Z := Z.of_nat (length (filter (fun e => some (n e)) bytes_all)).
Inductive wf (m : Z) : layer -> Prop :=
| wf_L oc lc o n : (- m <= oc <= m)%Z -> lc = subs n -> (forall e l, n e = Some l -> wf m l) -> (forall e, 256 <= e -> o e = 0 /\ n e = None) -> wf m (L oc lc o n).
Lemma wf_inv m oc lc o n : wf m (L oc lc o n) -> (- m <= oc <= m)%Z /\ lc = subs n /\ (forall e l, n e = Some l -> wf m l) /\ (forall e, 256 <= e -> o e = 0 /\ n e = None).
Proof. intros H. inversion H. auto. Qed.
Lemma wf_new m : (0 <= m)%Z -> wf m new_layer.
Proof. intros H. constructor; [lia| |discriminate|auto]. unfold subs. replace (filter _ bytes_all) with (@nil N); [reflexivity|]. symmetry. induction bytes_all; auto. Qed.
Lemma wf_mono m m' l : (m <= m')%Z -> wf m l -> wf m' l.
Proof. intros Hm. revert l. refine (layer_ind2 _ _). intros oc lc o n IH H. inversion H; subst. constructor; auto; [lia|]. eauto. Qed.
Lemma bytes_all_in e : In e bytes_all <-> e < 256.
Proof. unfold bytes_all, radix. rewrite in_map_iff. split; [intros (x & <- & H); apply in_seq in H; lia|]. intros H. exists (N.to_nat e). rewrite in_seq. lia. Qed.
Lemma bytes_all_nodup : NoDup bytes_all.
Proof. unfold bytes_all. apply FinFun.Injective_map_NoDup; [intros x y; lia|apply seq_NoDup]. Qed.
Lemma bytes_all_sorted : StronglySorted N.lt bytes_all.
Proof.
  unfold bytes_all. generalize radix, 0%nat. intros n. induction n as [|n IH]; intros a; cbn [seq map]; constructor; auto.
  apply Forall_forall. intros x Hx. apply in_map_iff in Hx as (y & <- & Hy). apply in_seq in Hy. lia.
Qed.
Lemma subs_range n : (0 <= subs n <= 256)%Z.
Proof.
  unfold subs. assert (H : (length (filter (fun e => some (n e)) bytes_all) <= length bytes_all)%nat) by (induction bytes_all; cbn; [lia|destruct (some _); cbn; lia]).
  assert (E : length bytes_all = 256%nat) by reflexivity. rewrite E in H. lia.
Qed.
Lemma count_set {A} (n : N -> option A) c v : forall l, NoDup l -> In c l -> Z.of_nat (length (filter (fun e => some (set1 n c v e)) l)) = (Z.of_nat (length (filter (fun e => some (n e)) l)) - Z.b2z (some (n c)) + Z.b2z (some v))%Z.
Proof.
  induction l as [|x l IH]; [easy|]. intros HN Hin. apply (proj1 (NoDup_cons_iff _ _)) in HN as [HN1 HN2]. cbn [filter]. destruct Hin as [->|Hin].
  - rewrite set1_eq. assert (E : filter (fun e => some (set1 n c v e)) l = filter (fun e => some (n e)) l). { apply filter_ext_in. intros e He. rewrite set1_ne; [reflexivity|]. intros ->. contradiction. }
    rewrite E. destruct (some v), (some (n c)); cbn [length Z.b2z]; lia.
  - rewrite set1_ne by (intros ->; contradiction). specialize (IH HN2 Hin). destruct (some (n x)); cbn [length]; lia.
Qed.
Lemma subs_set n c v : c < 256 -> subs (set1 n c v) = (subs n - Z.b2z (some (n c)) + Z.b2z (some v))%Z.
Proof. intros H. exact (count_set n c v bytes_all bytes_all_nodup (proj2 (bytes_all_in c) H)). Qed.
Lemma wf_set m oc lc o n c l : wf m (L oc lc o n) -> c < 256 -> wf m l -> wf m (L oc (lc + 1 - Z.b2z (some (n c))) o (set1 n c (Some l))).
Proof.
  intros H Hc Hl. inversion H; subst. constructor; auto.
  - rewrite subs_set by exact Hc. cbn [some Z.b2z]. lia.
  - intros e l'. destruct (N.eq_dec e c) as [->|Hn]; [rewrite set1_eq; intros E; now injection E as <-|rewrite set1_ne by exact Hn; eauto].
  - intros e He. rewrite set1_ne by lia. auto.
Qed.

(** find *)
Lemma find_in_get k : forall l after, k <> [] -> find_in l (k ++ after) (length k - 1) = Ok (get l k).
Proof.
  induction k as [|c k IH]; intros l after Hk; [congruence|]. destruct k as [|c' k].
  - reflexivity.
  - cbn [app length Nat.sub find_in get]. destruct (nexts l c); [|reflexivity]. specialize (IH l0 after ltac:(discriminate)). cbn [app length Nat.sub] in IH. rewrite Nat.sub_0_r in IH. exact IH.
Qed.
Lemma idx_find_get t k after : idx_find t (k ++ after) (length k) = Ok (get t k).
Proof. destruct k as [|c k]; [reflexivity|]. unfold idx_find. cbn [length]. pose proof (find_in_get (c :: k) t after ltac:(discriminate)) as H. cbn [length Nat.sub] in H. rewrite Nat.sub_0_r in H. exact H. Qed.
Lemma get_new k : get new_layer k = 0.
Proof. destruct k as [|c [|c' k]]; reflexivity. Qed.

(** add *)
Lemma get_cons l c k : k <> [] -> get l (c :: k) = match nexts l c with None => 0 | Some l => get l k end.
Proof. destruct k; [congruence|reflexivity]. Qed.
Lemma get_obj l oc lc c o : forall k', get (L oc lc (set1 (objs l) c o) (nexts l)) k' = if list_eq_dec N.eq_dec k' [c] then o else get l k'.
Proof.
  intros [|x [|y k']]; cbn [get objs nexts]; destruct (list_eq_dec N.eq_dec _ _) as [E|E]; try discriminate; try reflexivity.
  - injection E as ->. apply set1_eq.
  - rewrite set1_ne; [reflexivity|]. congruence.
Qed.
Lemma get_sub l oc lc c l' (k : list byte) o : k <> [] ->
  (forall k', get l' k' = if list_eq_dec N.eq_dec k' k then o else match nexts l c with None => 0 | Some l => get l k' end) ->
  forall k', get (L oc lc (objs l) (set1 (nexts l) c (Some l'))) k' = if list_eq_dec N.eq_dec k' (c :: k) then o else get l k'.
Proof.
  intros Hk H [|x k']; [reflexivity|]. destruct k' as [|y k'].
  - cbn [get objs]. destruct (list_eq_dec _ _ _) as [E|E]; [injection E as -> <-; congruence|reflexivity].
  - rewrite !get_cons by discriminate. cbn [nexts]. destruct (N.eq_dec x c) as [->|Hx].
    + rewrite set1_eq, H. destruct (list_eq_dec N.eq_dec (y :: k') k) as [E|E], (list_eq_dec N.eq_dec (c :: y :: k') (c :: k)) as [E'|E']; congruence.
    + rewrite set1_ne by exact Hx. destruct (list_eq_dec _ _ _) as [E|E]; [congruence|reflexivity].
Qed.
Lemma get_sub_same l oc lc c l' : (forall k', get l' k' = match nexts l c with None => 0 | Some l => get l k' end) ->
  forall k', get (L oc lc (objs l) (set1 (nexts l) c (Some l'))) k' = get l k'.
Proof.
  intros H [|x k']; [reflexivity|]. destruct k' as [|y k']; [reflexivity|]. rewrite !get_cons by discriminate. cbn [nexts]. destruct (N.eq_dec x c) as [->|Hx]; [rewrite set1_eq; apply H|now rewrite set1_ne].
Qed.
Definition added (l l' : layer) (k : list byte) (o : N) (ok : nat -> bool) (r : Z) : Prop :=
  (r = 0%Z /\ forall k', get l' k' = if list_eq_dec N.eq_dec k' k then o else get l k') \/
  (r = ENOMEM /\ (forall k', get l' k' = get l k') /\ exists d, ok d = false).
Lemma add_in_ok o ok m : (0 <= m < INT_MAX)%Z -> forall k l after d, k <> [] -> Forall is_byte k -> wf m l ->
  exists r l', add_in l (k ++ after) (length k - 1) o ok d = Ok (r, l') /\ wf (m + 1) l' /\ added l l' k o ok r.
Proof.
  intros Hm. induction k as [|c k IH]; intros l after d Hk HB HW; [congruence|]. apply (proj1 (Forall_cons_iff _ _ _)) in HB as [Hc HB]. unfold is_byte in Hc.
  destruct k as [|c' k].
  - cbn [app length Nat.sub add_in]. destruct l as [oc lc ob n]. destruct (wf_inv _ _ _ _ _ HW) as (V1 & V2 & V3 & V4); subst lc. cbn [obj_count]. unfold inc. replace (oc =? INT_MAX)%Z with false by (symmetry; apply Z.eqb_neq; unfold INT_MAX in *; lia). cbn [bindr layer_count objs nexts].
    eexists _, _. split; [reflexivity|]. split.
    + constructor; [lia|reflexivity| |].
      * intros e l E. eapply wf_mono; [|eauto]; lia.
      * intros e He. split; [|now apply V4]. rewrite set1_ne by lia. now apply V4.
    + left. split; [reflexivity|]. exact (get_obj (L oc (subs n) ob n) (oc + 1) (subs n) c o).
  - change ((c :: c' :: k) ++ after) with (c :: ((c' :: k) ++ after)). cbn [length Nat.sub] in *. rewrite ?Nat.sub_0_r in *. set (b := (c' :: k) ++ after) in *.
    cbn [add_in]. destruct l as [oc lc ob n]. cbn [nexts obj_count layer_count objs].
    assert (HW1 : wf (m + 1) (L oc lc ob n)) by (eapply wf_mono; [|exact HW]; lia).
    destruct (n c) as [l0|] eqn:En.
    + assert (HW0 : wf m l0) by (inversion HW; subst; eauto). destruct (IH l0 after (S d) ltac:(discriminate) HB HW0) as (r & l1 & E & HWl & HA). fold b in E.
      rewrite E. cbn [bindr fst snd]. eexists _, _. split; [reflexivity|]. split.
      * pose proof (wf_set _ _ _ _ _ c l1 HW1 Hc HWl) as X. rewrite En in X. cbn [some Z.b2z] in X. replace (lc + 1 - 1)%Z with lc in X by lia. exact X.
      * destruct HA as [[-> HA]|(-> & HA & Hok)]; [left; split; [reflexivity|]|right; sp; auto].
        -- apply (get_sub (L oc lc ob n)); [discriminate|]. cbn [nexts]. now rewrite En.
        -- apply (get_sub_same (L oc lc ob n)). cbn [nexts]. now rewrite En.
    + destruct (ok d) eqn:Eok.
      * assert (HW0 : wf m new_layer) by (apply wf_new; lia). destruct (IH new_layer after (S d) ltac:(discriminate) HB HW0) as (r & l1 & E & HWl & HA). fold b in E.
        assert (Hlc : lc = subs n) by (inversion HW; auto). pose proof (subs_range n). unfold inc. replace (lc =? INT_MAX)%Z with false by (symmetry; apply Z.eqb_neq; unfold INT_MAX; lia). cbn [bindr].
        rewrite E. cbn [bindr fst snd]. eexists _, _. split; [reflexivity|]. split.
        -- pose proof (wf_set _ _ _ _ _ c l1 HW1 Hc HWl) as X. rewrite En in X. cbn [some Z.b2z] in X. replace (lc + 1 - 0)%Z with (lc + 1)%Z in X by lia. exact X.
        -- destruct HA as [[-> HA]|(-> & HA & Hok)]; [left; split; [reflexivity|]|right; sp; auto].
           ++ apply (get_sub (L oc lc ob n)); [discriminate|]. cbn [nexts]. rewrite En. intros k'. rewrite HA, get_new. reflexivity.
           ++ apply (get_sub_same (L oc lc ob n)). cbn [nexts]. rewrite En. intros k'. rewrite HA. apply get_new.
      * eexists _, _. split; [reflexivity|]. split; [exact HW1|]. right. sp; auto. now exists d.
Qed.

(** delete *)
Fixpoint path (l : layer) (k : list byte) {struct k} : Prop :=
  match k with
  | [] => True
  | c :: k => match k with [] => True | _ => match nexts l c with None => False | Some l => path l k end end
  end.
Lemma path_cons l c k : k <> [] -> path l (c :: k) = match nexts l c with None => False | Some l => path l k end.
Proof. destruct k; [congruence|reflexivity]. Qed.
Lemma clear_in_ok m : (0 <= m < INT_MAX)%Z -> forall k l after, k <> [] -> Forall is_byte k -> wf m l ->
  (clear_in l (k ++ after) (length k - 1) = Ok None /\ get l k = 0 /\ ~ path l k) \/
  exists l', clear_in l (k ++ after) (length k - 1) = Ok (Some (get l k, l')) /\ wf (m + 1) l' /\ (forall k', get l' k' = if list_eq_dec N.eq_dec k' k then 0 else get l k') /\ path l' k /\ path l k.
Proof.
  intros Hm. induction k as [|c k IH]; intros l after Hk HB HW; [congruence|]. apply (proj1 (Forall_cons_iff _ _ _)) in HB as [Hc HB]. unfold is_byte in Hc.
  destruct k as [|c' k].
  - right. cbn [app length Nat.sub clear_in get path]. destruct l as [oc lc ob n]. destruct (wf_inv _ _ _ _ _ HW) as (V1 & V2 & V3 & V4); subst lc. cbn [obj_count]. unfold dec. replace (oc =? INT_MIN)%Z with false by (symmetry; apply Z.eqb_neq; unfold INT_MIN, INT_MAX in *; lia). cbn [bindr layer_count objs nexts].
    eexists. split; [reflexivity|]. split.
    + constructor; [lia|reflexivity| |].
      * intros e l E. eapply wf_mono; [|eauto]; lia.
      * intros e He. split; [|now apply V4]. rewrite set1_ne by lia. now apply V4.
    + split; [exact (get_obj (L oc (subs n) ob n) (oc - 1) (subs n) c 0)|auto].
  - change ((c :: c' :: k) ++ after) with (c :: ((c' :: k) ++ after)). cbn [length Nat.sub] in *. rewrite ?Nat.sub_0_r in *. set (b := (c' :: k) ++ after) in *.
    cbn [clear_in]. rewrite !get_cons, !path_cons by discriminate. destruct l as [oc lc ob n]. cbn [nexts obj_count layer_count objs].
    assert (HW1 : wf (m + 1) (L oc lc ob n)) by (eapply wf_mono; [|exact HW]; lia).
    destruct (n c) as [l0|] eqn:En; [|left; sp; auto].
    assert (HW0 : wf m l0) by (inversion HW; subst; eauto). specialize (IH l0 after ltac:(discriminate) HB HW0). fold b in IH.
    destruct IH as [(E & HG & HP)|(l1 & E & HWl & HA & HP & HP0)]; rewrite E; cbn [bindr]; [left; auto|]. right. eexists. split; [reflexivity|]. split; [|split; [|split]].
    + pose proof (wf_set _ _ _ _ _ c l1 HW1 Hc HWl) as X. rewrite En in X. cbn [some Z.b2z] in X. replace (lc + 1 - 1)%Z with lc in X by lia. exact X.
    + apply (get_sub (L oc lc ob n)); [discriminate|]. cbn [nexts]. now rewrite En.
    + rewrite path_cons by discriminate. cbn [nexts]. now rewrite set1_eq.
    + exact HP0.
Qed.
Lemma subs_ext n n' : (forall e, some (n e) = some (n' e)) -> subs n = subs n'.
Proof. intros H. unfold subs. now rewrite (filter_ext _ _ H). Qed.
Lemma reset_ok m l c v v' : wf m l -> c < 256 -> nexts l c = Some v -> wf m v' -> (forall k, get v' k = get v k) ->
  let l' := L (obj_count l) (layer_count l) (objs l) (set1 (nexts l) c (Some v')) in wf m l' /\ forall k, get l' k = get l k.
Proof.
  intros HW Hc E Hv HG l'. subst l'. destruct l as [oc lc ob n]. cbn [nexts obj_count layer_count objs] in *. split.
  - pose proof (wf_set _ _ _ _ _ c v' HW Hc Hv) as X. rewrite E in X. cbn [some Z.b2z] in X. replace (lc + 1 - 1)%Z with lc in X by lia. exact X.
  - apply (get_sub_same (L oc lc ob n)). cbn [nexts]. now rewrite E.
Qed.
Lemma not_empty m l c v : wf m l -> c < 256 -> nexts l c = Some v -> empty_layer l = false.
Proof.
  intros HW Hc E. inversion HW as [oc lc ob n H1 H2 H3 H4]. subst l. cbn [nexts] in E. unfold empty_layer. cbn [obj_count layer_count]. rewrite H2.
  assert (Hs := subs_set n c None Hc). rewrite E in Hs. cbn [some Z.b2z] in Hs. pose proof (subs_range (set1 n c None)). replace (subs n =? 0)%Z with false by (symmetry; apply Z.eqb_neq; lia). apply andb_false_r.
Qed.
Definition seen (k : list byte) : list byte := match k with [_] => k | _ => removelast k end.
Lemma purge_ok m : forall k l after, k <> [] -> Forall is_byte k -> wf m l -> path l k -> ~ In 255 (seen k) ->
  exists l', purge_layer (Some l) (k ++ after) (length k) = Ok (Some l') /\ wf m l' /\ forall k', get l' k' = get l k'.
Proof.
  induction k as [|c k IH]; intros l after Hk HB HW HP HS; [congruence|]. apply (proj1 (Forall_cons_iff _ _ _)) in HB as [Hc HB]. unfold is_byte in Hc.
  assert (Hc5 : (c =? 255) = false). { apply N.eqb_neq. intros ->. apply HS. destruct k; now left. }
  destruct k as [|c1 k]; [cbn [app length purge_layer]; rewrite Hc5; eauto|].
  rewrite path_cons in HP by discriminate. destruct (nexts l c) as [npl|] eqn:En; [|easy].
  destruct k as [|c2 k].
  - cbn [app length purge_layer]. rewrite Hc5, (not_empty m l c npl HW Hc En). eauto.
  - assert (HWn : wf m npl) by (inversion HW; subst; cbn [nexts] in En; eauto).
    destruct (IH npl after ltac:(discriminate) HB HWn HP) as (npl' & E & HW' & HG). { intros H. apply HS. cbn [seen removelast] in *. now right. }
    change ((c :: c1 :: c2 :: k) ++ after) with (c :: ((c1 :: c2 :: k) ++ after)). cbn [length] in *. set (b := (c1 :: c2 :: k) ++ after) in *.
    cbn [purge_layer]. rewrite Hc5, En. rewrite E. cbn [bindr]. eexists. split; [reflexivity|]. exact (reset_ok m l c npl npl' HW Hc En HW' HG).
Qed.
Lemma purge_layers_ok m k t after : k <> [] -> Forall is_byte k -> wf m t -> path t k -> deletable k after ->
  exists t', purge_layers t (k ++ after) (length k) = Ok t' /\ wf m t' /\ forall k', get t' k' = get t k'.
Proof.
  intros Hk HB HW HP (s & Hs & Hn). destruct k as [|c k]; [congruence|]. apply (proj1 (Forall_cons_iff _ _ _)) in HB as [Hc HB]. unfold is_byte in Hc. cbn [app length purge_layers].
  destruct k as [|c1 k].
  - cbn [looked_at] in Hs. destruct after as [|x after]; [discriminate|]. injection Hs as <-. cbn [app length purge_layer]. rewrite (proj2 (N.eqb_neq x 255)) by (intros ->; apply Hn; now left). cbn [bindr].
    destruct (nexts t c) as [l|] eqn:En.
    + eexists. split; [reflexivity|]. assert (wf m l) by (inversion HW; subst; cbn [nexts] in En; eauto). now apply (reset_ok m t c l l).
    + eexists. split; [reflexivity|]. destruct t as [oc lc ob n]. cbn [nexts obj_count layer_count objs] in *. destruct (wf_inv _ _ _ _ _ HW) as (V1 & V2 & V3 & V4); subst lc. split.
      * constructor; auto.
        -- apply subs_ext. intros e. destruct (N.eq_dec e c) as [->|He]; [now rewrite set1_eq, En|now rewrite set1_ne].
        -- intros e l. destruct (N.eq_dec e c) as [->|He]; [rewrite set1_eq; discriminate|rewrite set1_ne by exact He; eauto].
        -- intros e He. rewrite set1_ne by lia. auto.
      * intros [|x0 [|y k']]; [reflexivity|reflexivity|]. rewrite !get_cons by discriminate. cbn [nexts]. destruct (N.eq_dec x0 c) as [->|He]; [now rewrite set1_eq, En|now rewrite set1_ne].
  - rewrite path_cons in HP by discriminate. destruct (nexts t c) as [l|] eqn:En; [|easy]. assert (HWl : wf m l) by (inversion HW; subst; cbn [nexts] in En; eauto).
    destruct (purge_ok m (c1 :: k) l after ltac:(discriminate) HB HWl HP) as (l' & E & HW' & HG).
    { destruct k; cbn [looked_at] in Hs; injection Hs as <-; exact Hn. }
    rewrite E. cbn [bindr]. eexists. split; [reflexivity|]. now apply (reset_ok m t c l l').
Qed.

(** traversal *)
Fixpoint contents (l : layer) : list (list byte * N) :=
  let 'L _ _ o n := l in
  flat_map (fun e => (if o e =? 0 then [] else [([e], o e)]) ++ match n e with Some l => map (fun p => (e :: fst p, snd p)) (contents l) | None => [] end) bytes_all.
Lemma traverse_contents l : traverse_layer l = map snd (contents l).
Proof.
  revert l. refine (layer_ind2 _ _). intros oc lc o n IH. cbn [traverse_layer contents]. induction bytes_all as [|e es IHe]; [reflexivity|]. cbn [flat_map]. rewrite map_app, IHe. f_equal.
  rewrite map_app. f_equal; [destruct (o e =? 0); reflexivity|]. destruct (n e) as [l|] eqn:E; [|reflexivity]. rewrite map_map. cbn [snd]. now apply (IH e).
Qed.
Lemma contents_nonempty l k o : In (k, o) (contents l) -> k <> [].
Proof. destruct l as [oc lc ob n]. cbn [contents]. intros H. apply in_flat_map in H as (e & _ & H). apply in_app_or in H as [H|H]; [destruct (ob e =? 0); [easy|]; destruct H as [H|[]]; congruence|]. destruct (n e); [|easy]. apply in_map_iff in H as (p & E & _). congruence. Qed.
Lemma contents_in m l : wf m l -> forall k o, o <> 0 -> In (k, o) (contents l) <-> get l k = o.
Proof.
  revert l. refine (layer_ind2 _ _). intros oc lc ob n IH HW k o Ho. destruct (wf_inv _ _ _ _ _ HW) as (V1 & V2 & V3 & V4); subst lc. cbn [contents]. rewrite in_flat_map. split.
  - intros (e & He & H). apply in_app_or in H as [H|H].
    + destruct (N.eqb_spec (ob e) 0); [easy|]. destruct H as [H|[]]. injection H as <- <-. reflexivity.
    + destruct (n e) as [l|] eqn:En; [|easy]. apply in_map_iff in H as ([k' o'] & E & H). injection E as <- <-. rewrite get_cons by exact (contents_nonempty _ _ _ H). cbn [nexts]. rewrite En. cbn [snd] in *. apply (IH e l En); eauto.
  - intros HG. destruct k as [|c k]; [cbn in HG; congruence|]. destruct k as [|c1 k].
    + cbn [get objs] in HG. exists c. assert (Hc : c < 256). { destruct (N.lt_ge_cases c 256); [assumption|]. destruct (V4 c H); congruence. } split; [now apply bytes_all_in|]. apply in_or_app. left. rewrite HG, (proj2 (N.eqb_neq _ _) Ho). now left.
    + rewrite get_cons in HG by discriminate. cbn [nexts] in HG. destruct (n c) as [l|] eqn:En; [|congruence]. exists c. assert (Hc : c < 256). { destruct (N.lt_ge_cases c 256); [assumption|]. destruct (V4 c H); congruence. } split; [now apply bytes_all_in|]. apply in_or_app. right. rewrite En.
      apply in_map_iff. exists (c1 :: k, o). split; [reflexivity|]. apply (IH c l En); eauto.
Qed.
Lemma srt_app A B : srt A -> srt B -> (forall p q, In p A -> In q B -> before p q) -> srt (A ++ B).
Proof.
  intros HA HB H. induction A as [|a A IH]; [exact HB|]. apply StronglySorted_inv in HA as [HA1 HA2]. cbn [app]. constructor; [apply IH; auto; intros; apply H; auto; now right|].
  apply Forall_app. split; [exact HA2|]. apply Forall_forall. intros q Hq. apply H; [now left|exact Hq].
Qed.
Lemma contents_srt l : srt (contents l).
Proof.
  revert l. refine (layer_ind2 _ _). intros oc lc ob n IH. cbn [contents]. pose proof bytes_all_sorted as HB. induction bytes_all as [|e es IHe]; [constructor|]. apply StronglySorted_inv in HB as [HB1 HB2]. cbn [flat_map]. apply srt_app; [| |].
  - apply srt_app.
    + destruct (ob e =? 0); repeat constructor.
    + destruct (n e) as [l|] eqn:En; [|constructor]. specialize (IH e l En). induction (contents l) as [|p S IHS]; [constructor|]. cbn [map]. apply StronglySorted_inv in IH as [I1 I2]. constructor; [now apply IHS|].
      apply Forall_forall. intros q Hq. apply in_map_iff in Hq as (q' & <- & Hq'). rewrite Forall_forall in I2. unfold before. cbn [fst lex]. rewrite N.compare_refl. exact (I2 _ Hq').
    + intros p q Hp Hq. destruct (ob e =? 0); [easy|]. destruct Hp as [<-|[]]. destruct (n e) as [l|]; [|easy]. apply in_map_iff in Hq as ([k o] & <- & Hq). apply contents_nonempty in Hq. unfold before. cbn [fst lex]. rewrite N.compare_refl. destruct k; [congruence|reflexivity].
  - now apply IHe.
  - intros p q Hp Hq. apply in_flat_map in Hq as (e' & He' & Hq). rewrite Forall_forall in HB2. specialize (HB2 _ He').
    assert (HF : forall x r, In r ((if ob x =? 0 then [] else [([x], ob x)]) ++ match n x with Some l => map (fun p => (x :: fst p, snd p)) (contents l) | None => [] end) -> exists k o, r = (x :: k, o)).
    { intros x r H. apply in_app_or in H as [H|H]; [destruct (ob x =? 0); [easy|]; destruct H as [<-|[]]; eauto|]. destruct (n x); [|easy]. apply in_map_iff in H as (r' & <- & _). eauto. }
    destruct (HF _ _ Hp) as (k & o & ->). destruct (HF _ _ Hq) as (k' & o' & ->). unfold before. cbn [fst lex]. rewrite (proj2 (N.compare_lt_iff _ _) HB2). reflexivity.
Qed.
Lemma contents_nz l : nz (contents l).
Proof.
  revert l. refine (layer_ind2 _ _). intros oc lc ob n IH. cbn [contents]. apply Forall_forall. intros p Hp. apply in_flat_map in Hp as (e & _ & H). apply in_app_or in H as [H|H].
  - destruct (N.eqb_spec (ob e) 0); [easy|]. destruct H as [<-|[]]. exact n0.
  - destruct (n e) as [l|] eqn:En; [|easy]. apply in_map_iff in H as (q & <- & Hq). specialize (IH e l En). unfold nz in IH. rewrite Forall_forall in IH. exact (IH _ Hq).
Qed.

(** ** sessions *)
Definition rep (m : Z) (t : layer) (M : list (list byte * N)) : Prop := wf m t /\ contents t = M.
Lemma rep_get m t M k : rep m t M -> get t k = mget M k.
Proof.
  intros [HW <-]. destruct (N.eq_dec (get t k) 0) as [E|E].
  - destruct (N.eq_dec (mget (contents t) k) 0) as [E'|E']; [congruence|]. rewrite E. pose proof (proj2 (mget_in _ k _ (contents_srt t) (contents_nz t) E') eq_refl) as H. apply (contents_in m) in H; congruence.
  - symmetry. apply mget_in; [apply contents_srt|apply contents_nz|exact E|]. now apply (contents_in m).
Qed.
Lemma contents_set m m' t t' k o : wf m t -> wf m' t' -> o <> 0 -> (forall k', get t' k' = if list_eq_dec N.eq_dec k' k then o else get t k') -> contents t' = mset (contents t) k o.
Proof.
  intros HW HW' Ho HG. apply srt_uniq; [apply contents_srt|apply mset_srt, contents_srt|]. intros [q w]. rewrite mset_in by apply contents_srt.
  destruct (N.eq_dec w 0) as [->|Hw].
  - pose proof (contents_nz t') as H1. pose proof (contents_nz t) as H2. unfold nz in *. rewrite Forall_forall in *. split; [intros H; now elim (H1 _ H)|intros [[-> H]|[_ H]]; [congruence|now elim (H2 _ H)]].
  - rewrite (contents_in m'), (contents_in m), HG by assumption. destruct (list_eq_dec _ _ _) as [->|Hq]; split; [intros ->; now left|intros [[_ ->]|[H _]]; congruence|intros H; now right|intros [[H _]|[_ H]]; congruence].
Qed.
Lemma contents_del m m' t t' k : wf m t -> wf m' t' -> (forall k', get t' k' = if list_eq_dec N.eq_dec k' k then 0 else get t k') -> contents t' = mdel (contents t) k.
Proof.
  intros HW HW' HG. apply srt_uniq; [apply contents_srt|apply mdel_srt, contents_srt|]. intros [q w]. rewrite mdel_in.
  destruct (N.eq_dec w 0) as [->|Hw].
  - pose proof (contents_nz t') as H1. pose proof (contents_nz t) as H2. unfold nz in *. rewrite Forall_forall in *. split; [intros H; now elim (H1 _ H)|intros [_ H]; now elim (H2 _ H)].
  - rewrite (contents_in m'), (contents_in m), HG by assumption. destruct (list_eq_dec _ _ _) as [->|Hq]; split; [congruence|intros [H _]; congruence|intros H; now split|now intros [_ H]].
Qed.
Lemma contents_same m m' t t' : wf m t -> wf m' t' -> (forall k', get t' k' = get t k') -> contents t' = contents t.
Proof.
  intros HW HW' HG. apply srt_uniq; [apply contents_srt|apply contents_srt|]. intros [q w].
  destruct (N.eq_dec w 0) as [->|Hw].
  - pose proof (contents_nz t') as H1. pose proof (contents_nz t) as H2. unfold nz in *. rewrite Forall_forall in *. split; [intros H; now elim (H1 _ H)|intros H; now elim (H2 _ H)].
  - rewrite (contents_in m'), (contents_in m), HG by assumption. reflexivity.
Qed.
Lemma mdel_absent M k : mget M k = 0 -> srt M -> nz M -> mdel M k = M.
Proof.
  intros HG HS HZ. apply srt_uniq; [now apply mdel_srt|exact HS|]. intros [q w]. rewrite mdel_in. split; [now intros [_ H]|]. intros H. split; [|exact H]. intros ->.
  unfold nz in HZ. rewrite Forall_forall in HZ. pose proof (HZ _ H) as Hw. cbn [snd] in Hw. apply (mget_in M k w HS) in H; [congruence|now apply Forall_forall|exact Hw].
Qed.
Definition undeletable (op : iop) (t : layer) : Prop := match op with IDel k after => path t k /\ ~ deletable k after | _ => False end.
Lemma ido_ok m op t M : (0 <= m < INT_MAX)%Z -> rep m t M -> valid_op op -> (match op with IDel k after => deletable k after \/ ~ path t k | _ => True end) ->
  exists o t' M', ido op t = Ok (o, t') /\ rep (m + 1) t' M' /\ iwant op M o M'.
Proof.
  intros Hm HR HV HD. assert (HW1 : wf (m + 1) t) by (eapply wf_mono; [|exact (proj1 HR)]; lia).
  assert (HR1 : rep (m + 1) t M) by (split; [exact HW1|exact (proj2 HR)]).
  destruct op as [k after o ok|k after|k after| |]; cbn [ido valid_op ikey] in *.
  - unfold idx_add. destruct (N.eqb_spec o 0) as [->|Ho]; [eexists _, _, M; sp; [reflexivity|exact HR1|constructor]|].
    rewrite idx_find_get. cbn [bindr]. rewrite (rep_get m t M k HR). destruct (N.eqb_spec (mget M k) 0) as [E|E]; cbn [negb].
    + destruct HV as [Hk HB]. destruct (add_in_ok o ok m Hm k t after 0 Hk HB (proj1 HR)) as (r & t' & EA & HW' & HA). destruct k as [|c k]; [congruence|]. cbn [length] in EA |- *. cbn [Nat.sub] in EA. rewrite Nat.sub_0_r in EA. rewrite EA. cbn [bindr fst snd].
      destruct HA as [[-> HG]|(-> & HG & d & Hd)].
      * eexists _, _, _. sp; [reflexivity|split; [exact HW'|]|now apply iw_add]. rewrite <- (proj2 HR). eapply contents_set; [exact (proj1 HR)|exact HW'|exact Ho|exact HG].
      * eexists _, _, _. sp; [reflexivity|split; [exact HW'|]|now apply (iw_nomem _ _ _ _ _ d)]. rewrite <- (proj2 HR). eapply contents_same; [exact (proj1 HR)|exact HW'|exact HG].
    + eexists _, _, _. sp; [reflexivity|exact HR1|now constructor].
  - destruct HV as [Hk HB]. unfold idx_delete. pose proof (clear_in_ok m Hm k t after Hk HB (proj1 HR)) as HC.
    assert (El : match length k with O => Ok (0, t) | S n => bindr (clear_in t (k ++ after) n) (fun r => match r with None => Ok (0, t) | Some (x, t) => bindr (purge_layers t (k ++ after) (length k)) (fun t => Ok (x, t)) end) end
      = bindr (clear_in t (k ++ after) (length k - 1)) (fun r => match r with None => Ok (0, t) | Some (x, t) => bindr (purge_layers t (k ++ after) (length k)) (fun t => Ok (x, t)) end)).
    { destruct k; [congruence|]. cbn [length Nat.sub]. now rewrite Nat.sub_0_r. }
    rewrite El. clear El.
    destruct HC as [(EC & HG & HP)|(t1 & EC & HW' & HG & HP & HP0)]; rewrite EC; cbn [bindr].
    + eexists _, _, _. sp; [reflexivity|exact HR1|]. cbn [fst snd]. assert (E0 : mget M k = 0) by (now rewrite <- (rep_get m t M k HR)).
      assert (X := iw_del k after M). rewrite E0 in X. rewrite mdel_absent in X; [exact X|exact E0| |]; rewrite <- (proj2 HR); [apply contents_srt|apply contents_nz].
    + destruct HD as [HD|HD]; [|contradiction]. destruct (purge_layers_ok (m + 1) k t1 after Hk HB HW' HP HD) as (t2 & E2 & HW2 & HG2). rewrite E2. cbn [bindr fst snd].
      eexists _, _, _. sp; [reflexivity|split; [exact HW2|reflexivity]|]. rewrite (rep_get m t M k HR).
      rewrite (contents_del m (m + 1) t t2 k (proj1 HR) HW2), (proj2 HR); [constructor|]. intros k'. now rewrite HG2, HG.
  - rewrite idx_find_get. cbn [bindr]. eexists _, _, _. sp; [reflexivity|exact HR1|]. rewrite (rep_get m t M k HR). constructor.
  - eexists _, _, _. sp; [reflexivity|exact HR1|]. unfold idx_count, idx_traverse. rewrite traverse_contents, map_length, (proj2 HR). constructor.
  - eexists _, _, _. sp; [reflexivity|exact HR1|]. unfold idx_traverse. rewrite traverse_contents, (proj2 HR). constructor.
Qed.
Lemma purge_bad m : forall k l after, k <> [] -> Forall is_byte k -> wf m l -> path l k -> In 255 (seen k) -> purge_layer (Some l) (k ++ after) (length k) = Abort.
Proof.
  induction k as [|c k IH]; intros l after Hk HB HW HP HS; [congruence|]. apply (proj1 (Forall_cons_iff _ _ _)) in HB as [Hc HB]. unfold is_byte in Hc.
  destruct (N.eqb_spec c 255) as [->|Hc5]; [reflexivity|].
  destruct k as [|c1 k]; [destruct HS as [HS|[]]; congruence|]. rewrite path_cons in HP by discriminate. destruct (nexts l c) as [npl|] eqn:En; [|easy].
  destruct k as [|c2 k]; [destruct HS as [HS|[]]; congruence|]. assert (HWn : wf m npl) by (inversion HW; subst; cbn [nexts] in En; eauto).
  assert (E := IH npl after ltac:(discriminate) HB HWn HP).
  change ((c :: c1 :: c2 :: k) ++ after) with (c :: ((c1 :: c2 :: k) ++ after)). cbn [length] in *. set (b := (c1 :: c2 :: k) ++ after) in *.
  cbn [purge_layer]. rewrite (proj2 (N.eqb_neq _ _) Hc5), En, E; [reflexivity|]. cbn [seen removelast In] in *. destruct HS as [HS|HS]; [congruence|exact HS].
Qed.
Lemma purge_layers_bad m k t after : k <> [] -> Forall is_byte k -> wf m t -> path t k -> ~ deletable k after ->
  purge_layers t (k ++ after) (length k) = if list_eq_dec N.eq_dec after [] then match k with [_] => UB | _ => Abort end else Abort.
Proof.
  intros Hk HB HW HP HD. destruct k as [|c k]; [congruence|]. apply (proj1 (Forall_cons_iff _ _ _)) in HB as [Hc HB]. cbn [app length purge_layers].
  destruct k as [|c1 k].
  - destruct after as [|x after]; [reflexivity|]. destruct (list_eq_dec N.eq_dec (x :: after) []); [discriminate|]. cbn [app purge_layer]. destruct (N.eqb_spec x 255) as [->|Hx]; [reflexivity|]. exfalso. apply HD. exists [x]. split; [reflexivity|]. intros [H|[]]. congruence.
  - rewrite path_cons in HP by discriminate. destruct (nexts t c) as [l|] eqn:En; [|easy]. assert (HWl : wf m l) by (inversion HW; subst; cbn [nexts] in En; eauto).
    assert (HS : In 255 (seen (c1 :: k))). { destruct (in_dec N.eq_dec 255 (seen (c1 :: k))) as [H|H]; [exact H|]. exfalso. apply HD. exists (seen (c1 :: k)). split; [destruct k; reflexivity|exact H]. }
    rewrite (purge_bad m (c1 :: k) l after ltac:(discriminate) HB HWl HP HS). cbn [bindr]. now destruct (list_eq_dec _ _ _).
Qed.
Lemma idel_bad m k after t : (0 <= m < INT_MAX)%Z -> wf m t -> valid_key k -> path t k -> ~ deletable k after ->
  idx_delete t (k ++ after) (length k) = if list_eq_dec N.eq_dec after [] then match k with [_] => UB | _ => Abort end else Abort.
Proof.
  intros Hm HW [Hk HB] HP HD. unfold idx_delete.
  destruct (clear_in_ok m Hm k t after Hk HB HW) as [(_ & _ & H)|(t1 & EC & HW' & HG & HP1 & _)]; [contradiction|].
  pose proof (purge_layers_bad (m + 1) k t1 after Hk HB HW' HP1 HD) as E. destruct k as [|c k]; [congruence|]. cbn [length Nat.sub] in *. rewrite Nat.sub_0_r in EC. rewrite EC. cbn [bindr]. rewrite E.
  destruct (list_eq_dec _ _ _); destruct k; reflexivity.
Qed.
Lemma get_path : forall k t, k <> [] -> get t k <> 0 -> path t k.
Proof. induction k as [|c k IH]; intros t Hk H; [congruence|]. destruct k as [|c1 k]; [exact I|]. rewrite get_cons in H by discriminate. rewrite path_cons by discriminate. destruct (nexts t c); [|congruence]. apply IH; [discriminate|exact H]. Qed.
Fixpoint pathb (l : layer) (k : list byte) {struct k} : bool :=
  match k with
  | [] => true
  | c :: k => match k with [] => true | _ => match nexts l c with None => false | Some l => pathb l k end end
  end.
Lemma pathb_ok : forall k l, pathb l k = true <-> path l k.
Proof. induction k as [|c [|c1 k] IH]; intros l; [easy|easy|]. cbn [pathb path] in *. destruct (nexts l c); [apply IH|easy]. Qed.
Lemma path_dec l k : path l k \/ ~ path l k.
Proof. rewrite <- pathb_ok. destruct (pathb l k); auto. Qed.
Lemma deletable_dec k after : deletable k after \/ ~ deletable k after.
Proof.
  destruct (looked_at k after) as [s|] eqn:E; [|right; intros (s & E' & _); congruence]. destruct (in_dec N.eq_dec 255 s) as [H|H]; [right; intros (s' & E' & H'); congruence|left; exists s; auto].
Qed.
Lemma ido_ok2 m op t M o t' : (0 <= m < INT_MAX)%Z -> rep m t M -> valid_op op -> ido op t = Ok (o, t') -> exists M', rep (m + 1) t' M' /\ iwant op M o M'.
Proof.
  intros Hm HR HV E. assert (HX : match op with IDel k after => deletable k after \/ ~ path t k | _ => True end).
  { destruct op; auto. destruct (deletable_dec k after) as [H|H]; [now left|]. destruct (path_dec t k) as [H'|H']; [|now right]. exfalso. cbn [ido] in E. rewrite (idel_bad m k after t Hm (proj1 HR) HV H' H) in E.
    destruct (list_eq_dec _ _ _); [|discriminate]. destruct k as [|? [|? ?]]; discriminate. }
  destruct (ido_ok m op t M Hm HR HV HX) as (o2 & t2 & M' & E2 & HR2 & HW). rewrite E in E2. injection E2 as <- <-. eauto.
Qed.
Lemma isession_ok t ops os t' : isession t ops os t' -> forall m M, (0 <= m)%Z -> (m + Z.of_nat (length ops) < INT_MAX)%Z -> rep m t M -> Forall valid_op ops ->
  exists M', iwants ops M os M' /\ rep (m + Z.of_nat (length ops)) t' M'.
Proof.
  induction 1 as [t|t op o t1 ops os t2 E _ IH]; intros m M Hm HB HR HV.
  - exists M. split; [constructor|]. cbn [length]. now rewrite Z.add_0_r.
  - apply (proj1 (Forall_cons_iff _ _ _)) in HV as [HV1 HV]. cbn [length] in *. destruct (ido_ok2 m op t M o t1 ltac:(lia) HR HV1 E) as (M1 & HR1 & HW1).
    destruct (IH (m + 1)%Z M1 ltac:(lia) ltac:(lia) HR1 HV) as (M2 & HW2 & HR2). exists M2. split; [econstructor; eauto|]. replace (m + Z.of_nat (S (length ops)))%Z with (m + 1 + Z.of_nat (length ops))%Z by lia. exact HR2.
Qed.
Lemma rep_new : rep 0 idx_create [].
Proof. split; [apply wf_new; lia|]. unfold idx_create, new_layer. cbn [contents]. induction bytes_all as [|e es IH]; [reflexivity|]. cbn [flat_map]. now rewrite IH. Qed.
