(** Reference counts (C38). *)
From Verif Require Export S_Ref.
From Coq Require Import Lia ZifyBool ZifyNat.
Local Open Scope Z_scope.

Lemma i32_small z : -2147483648 <= z < 2147483648 -> i32 z = z.
Proof.
  intros H. unfold i32. destruct (Z.leb_spec 0 z).
  - rewrite Z.mod_small by lia. destruct (Z.ltb_spec z 2147483648); lia.
  - replace (z mod 4294967296) with (z + 4294967296) by (apply (Z.mod_unique z 4294967296 (-1)); lia).
    destruct (Z.ltb_spec (z + 4294967296) 2147483648); lia.
Qed.

(** The references as a list of their holders *)
Definition cnt (l : list nat) (t : nat) : nat := count_occ Nat.eq_dec l t.
Lemma cnt_remove1 l t u : In t l -> cnt (remove1 t l) u = (cnt l u - if Nat.eqb u t then 1 else 0)%nat.
Proof.
  unfold cnt. induction l as [|x l IH]; [intros []|]. intros HI. cbn [remove1 count_occ].
  change ((fix go (l : list nat) : list nat := match l with [] => [] | x :: l0 => if Nat.eqb x t then l0 else x :: go l0 end) l) with (remove1 t l).
  destruct (Nat.eqb_spec x t) as [->|Hx].
  - destruct (Nat.eq_dec t u) as [->|]; [rewrite Nat.eqb_refl; lia|]. destruct (Nat.eqb_spec u t); lia.
  - destruct HI as [->|HI]; [congruence|]. specialize (IH HI). cbn [count_occ]. rewrite IH.
    destruct (Nat.eq_dec x u) as [->|]; [|reflexivity]. destruct (Nat.eqb_spec u t); [congruence|lia].
Qed.
Lemma len_remove1 l t : In t l -> length (remove1 t l) = (length l - 1)%nat.
Proof.
  induction l as [|x l IH]; [intros []|]. intros HI. cbn [remove1].
  change ((fix go (l : list nat) : list nat := match l with [] => [] | x :: l0 => if Nat.eqb x t then l0 else x :: go l0 end) l) with (remove1 t l).
  destruct (Nat.eqb_spec x t) as [->|Hx]; [cbn [length]; lia|]. destruct HI as [->|HI]; [congruence|]. cbn [length]. rewrite IH by exact HI.
  destruct l; [destruct HI|cbn [length]; lia].
Qed.
Lemma cnt_pos l t : (0 < cnt l t)%nat <-> In t l.
Proof. unfold cnt. rewrite (count_occ_In Nat.eq_dec). lia. Qed.

Record inv (l : list step) (h : holders) (n : nat) (o : obj) : Prop := mkI {
  i_tok : exists tk, length tk = n /\ forall t, h t = cnt tk t;
  i_cnt : count o = Z.of_nat n;
  i_live : (0 < n)%nat -> dying o = [] /\ frees o = O;
  i_dead : n = O -> (exists t, dying o = [t] /\ frees o = O) \/ (dying o = [] /\ frees o = 1%nat);
  i_bal : (gets l + 1 = puts l + n)%nat }.
Lemma inv_step l h n o s : inv l h n o -> may s h (dying o) -> Z.of_nat (total_after s n) < 2147483648 ->
  exists o', do_step s o = Some o' /\ inv (l ++ [s]) (holds_after s h) (total_after s n) o'.
Proof.
  intros [(tk & HL & HT) HC HV HD HB] HM HS.
  assert (POS : forall t, (0 < h t)%nat -> In t tk) by (intros t Ht; apply cnt_pos; rewrite <- HT; exact Ht).
  assert (LEN : forall t, In t tk -> (0 < n)%nat) by (intros t Ht; destruct tk; [destruct Ht|cbn [length] in HL; lia]).
  assert (BAL : forall s, gets (l ++ [s]) = (gets l + match s with SGet _ => 1 | _ => 0 end)%nat /\ puts (l ++ [s]) = (puts l + match s with SPut _ => 1 | _ => 0 end)%nat).
  { intros s0. unfold gets, puts. rewrite !filter_app, !app_length. destruct s0; split; reflexivity. }
  destruct (BAL s) as [BG BP].
  destruct s as [t|t|t|t u]; cbn [may do_step holds_after total_after] in *.
  - specialize (POS t HM). specialize (LEN t POS). destruct (HV LEN) as [D1 D2]. rewrite D1, D2.
    eexists. split; [reflexivity|]. constructor; cbn [count dying frees].
    + exists (t :: tk). split; [cbn [length]; lia|]. intros u. unfold set. rewrite !HT. unfold cnt. cbn [count_occ].
      destruct (Nat.eq_dec t u) as [->|]; [now rewrite Nat.eqb_refl|]. destruct (Nat.eqb_spec u t); [congruence|reflexivity].
    + rewrite i32_small by lia. lia.
    + auto.
    + discriminate.
    + lia.
  - specialize (POS t HM). specialize (LEN t POS). destruct (HV LEN) as [D1 D2]. rewrite D1, D2.
    rewrite HC. rewrite i32_small by lia. eexists. split; [reflexivity|]. constructor; cbn [count dying frees].
    + exists (remove1 t tk). split; [rewrite len_remove1 by exact POS; lia|]. intros u. unfold set. rewrite cnt_remove1 by exact POS. rewrite !HT.
      destruct (Nat.eqb_spec u t) as [->|]; lia.
    + lia.
    + intros Hn. destruct (Z.eqb_spec (Z.of_nat n - 1) 0); [lia|auto].
    + intros Hn. left. exists t. destruct (Z.eqb_spec (Z.of_nat n - 1) 0); [auto|lia].
    + lia.
  - assert (n = O) as -> by (destruct n; [reflexivity|]; destruct HV as [D1 D2]; [lia|]; rewrite D1 in HM; destruct HM).
    destruct (HD eq_refl) as [(t' & D1 & D2)|[D1 D2]]; rewrite D1 in *; [|destruct HM]. destruct HM as [->|[]].
    eexists. split; [reflexivity|]. constructor; cbn [count dying frees]; [now exists tk|exact HC|lia| |lia].
    intros _. right. cbn [remove1]. rewrite Nat.eqb_refl, D2. auto.
  - specialize (POS t HM). specialize (LEN t POS). eexists. split; [reflexivity|]. constructor; [|exact HC|exact HV|exact HD|lia].
    exists (u :: remove1 t tk). split; [cbn [length]; rewrite len_remove1 by exact POS; lia|]. intros v. unfold set.
    unfold cnt. cbn [count_occ]. fold (cnt (remove1 t tk) v). rewrite cnt_remove1 by exact POS. rewrite !HT.
    pose proof (proj2 (cnt_pos tk t) POS). destruct (Nat.eq_dec u v) as [->|Hu].
    + rewrite Nat.eqb_refl. destruct (Nat.eqb_spec v t) as [->|]; lia.
    + destruct (Nat.eqb_spec v u); [congruence|]. destruct (Nat.eqb_spec v t) as [->|]; lia.
Qed.
Lemma exec_inv l h n o : exec l h n o -> inv l h n o.
Proof.
  induction 1 as [t|l h n o s o' E IH HM HS HD].
  - constructor; cbn [count dying frees]; [|reflexivity|auto|discriminate|reflexivity].
    exists [t]. split; [reflexivity|]. intros u. unfold start, set, cnt. cbn [count_occ]. destruct (Nat.eq_dec t u) as [->|]; [now rewrite Nat.eqb_refl|].
    destruct (Nat.eqb_spec u t); [congruence|reflexivity].
  - destruct (inv_step l h n o s IH HM HS) as (o1 & E1 & H1). rewrite HD in E1. injection E1 as ->. exact H1.
Qed.
Lemma inv_released l h n o : inv l h n o -> (released h <-> n = O).
Proof.
  intros [(tk & HL & HT) _ _ _ _]. split.
  - intros HR. destruct tk as [|t tk]; [now subst|]. specialize (HR t). rewrite HT in HR. unfold cnt in HR. cbn [count_occ] in HR.
    destruct (Nat.eq_dec t t); [discriminate|congruence].
  - intros ->. destruct tk; [|discriminate]. intros t. now rewrite HT.
Qed.

(** ** Tracking *)
Lemma sum_app (a b : list Z) : fold_right Z.add 0 (a ++ b) = fold_right Z.add 0 a + fold_right Z.add 0 b.
Proof. induction a as [|x a IH]; cbn [app fold_right]; lia. Qed.
Lemma named_app n0 n l p : named n0 n (l ++ [p]) =
  named n0 n l + match p with TGet m => if Nat.eqb m n then 1 else 0 | TPut m => if Nat.eqb m n then -1 else 0 end.
Proof. unfold named. rewrite map_app, sum_app. cbn [map fold_right]. lia. Qed.
Lemma all_app l p : all (l ++ [p]) = all l + match p with TGet _ => 1 | TPut _ => -1 end.
Proof. unfold all. rewrite map_app, sum_app. cbn [map fold_right]. lia. Qed.
Lemma fair_app n0 l p : fair n0 (l ++ [p]) <-> fair n0 l /\ match p with TGet _ => 0 < all l | TPut n => 0 < named n0 n l end.
Proof.
  unfold fair. split.
  - intros H. split; [|exact (H l p [] eq_refl)]. intros l1 q l2 E. apply (H l1 q (l2 ++ [p])). now rewrite E, <- app_assoc.
  - intros [H1 H2] l1 q l2 E. destruct l2 as [|z l2 _] using rev_ind.
    + apply app_inj_tail in E as [<- <-]. exact H2.
    + rewrite app_comm_cons, app_assoc in E. apply app_inj_tail in E as [E _]. exact (H1 l1 q l2 E).
Qed.
Definition sums (l : list (nat * Z)) : Z := fold_right Z.add 0 (map snd l).
Lemma bump_sums n d l c : count_of n l = Some c -> sums (bump n d l) = sums l + d.
Proof.
  unfold sums. induction l as [|[m x] l IH]; cbn [count_of bump]; [discriminate|]. destruct (Nat.eqb m n).
  - intros _. cbn [map snd fold_right]. lia.
  - intros H. cbn [map snd fold_right]. rewrite (IH H). lia.
Qed.
Lemma bump_count n d l m : count_of m (bump n d l) = match count_of m l with Some c => Some (if Nat.eqb m n then c + d else c) | None => None end.
Proof.
  induction l as [|[k x] l IH]; cbn [count_of bump]; [reflexivity|]. destruct (Nat.eqb_spec k n) as [->|Hk]; cbn [count_of].
  - destruct (Nat.eqb_spec n m) as [->|]; [now rewrite Nat.eqb_refl|]. destruct (count_of m l); [|reflexivity]. destruct (Nat.eqb_spec m n); [congruence|reflexivity].
  - destruct (Nat.eqb_spec k m) as [->|]; [destruct (Nat.eqb_spec m n); [congruence|reflexivity]|exact IH].
Qed.
Lemma bump_nonneg n d l : Forall (fun p => 0 <= snd p) l -> (forall c, count_of n l = Some c -> 0 <= c + d) -> Forall (fun p => 0 <= snd p) (bump n d l).
Proof.
  induction l as [|[k x] l IH]; cbn [count_of bump]; intros H1 H2; [constructor|]. inversion_clear H1. destruct (Nat.eqb k n).
  - constructor; [apply H2; reflexivity|assumption].
  - constructor; [assumption|now apply IH].
Qed.
Lemma count_sums n l c : count_of n l = Some c -> Forall (fun p => 0 <= snd p) l -> c <= sums l.
Proof.
  unfold sums. induction l as [|[k x] l IH]; cbn [count_of]; [discriminate|]. intros H1 H2. inversion_clear H2. cbn [map snd fold_right] in *.
  assert (0 <= fold_right Z.add 0 (map snd l)). { clear -H0. induction H0; cbn [map fold_right]; lia. }
  destruct (Nat.eqb k n); [injection H1 as <-; lia|]. specialize (IH H1 H0). lia.
Qed.
Definition tracks (n0 : nat) (l : list top) (o : tobj) : Prop :=
  total o = all l /\ sums (insts o) = all l /\ Forall (fun p => 0 <= snd p) (insts o) /\
  (forall n, named n0 n l = match count_of n (insts o) with Some c => c | None => 0 end) /\
  tfrees o = (if Z.eqb (all l) 0 then 1 else 0)%nat /\ tlock o = (all l =? 0).
Lemma t_run_app l p o : t_run (l ++ [p]) o = match t_run l o with TRet o' => t_do p o' | x => x end.
Proof. revert o. induction l as [|q l IH]; intros o; cbn [app t_run]; [destruct (t_do p o); reflexivity|]. destruct (t_do q o); [apply IH|reflexivity..]. Qed.
Lemma fair_tracks n0 l : fair n0 l -> exists o, t_run l (t_init n0) = TRet o /\ tracks n0 l o.
Proof.
  induction l as [|p l IH] using rev_ind; intros HF.
  - exists (t_init n0). split; [reflexivity|]. split; [reflexivity|]. split; [reflexivity|]. split; [repeat constructor; cbn; lia|].
    split; [|split; reflexivity]. intros n. unfold named. cbn [map fold_right t_init insts count_of]. destruct (Nat.eqb n0 n); reflexivity.
  - apply fair_app in HF as [HF HP]. destruct (IH HF) as (o & E & T1 & T2 & T3 & T4 & T5 & T6). rewrite t_run_app, E. destruct p as [n|n]; cbn [t_do].
    + unfold t_get. rewrite T5, T6, T1. destruct (Z.eqb_spec (all l) 0); [lia|]. specialize (T4 n) as T4n. destruct (count_of n (insts o)) as [c|] eqn:EC.
      * eexists. split; [reflexivity|]. unfold tracks. rewrite all_app. cbn [total insts tfrees tlock]. split; [reflexivity|].
        split; [rewrite (bump_sums _ _ _ _ EC); lia|]. split; [apply bump_nonneg; [exact T3|]; intros c' Q; rewrite EC in Q; injection Q as <-; pose proof (fun x => proj1 (Forall_forall _ _) T3 x); assert (0 <= c) by (clear -EC T3; induction (insts o) as [|[k x] l IH]; [discriminate|]; cbn [count_of] in EC; inversion_clear T3; destruct (Nat.eqb k n); [injection EC as <-; assumption|auto]); lia|].
        split; [|split; [destruct (Z.eqb_spec (all l + 1) 0); [lia|reflexivity]|destruct (Z.eqb_spec (all l + 1) 0); [lia|reflexivity]]].
        intros m. rewrite named_app, bump_count, T4. destruct (Nat.eqb_spec n m) as [->|Hm].
        -- rewrite EC, Nat.eqb_refl. lia.
        -- destruct (count_of m (insts o)); [|lia]. destruct (Nat.eqb_spec m n); [congruence|lia].
      * eexists. split; [reflexivity|]. unfold tracks. rewrite all_app. cbn [total insts tfrees tlock]. split; [reflexivity|].
        split; [unfold sums in *; cbn [map snd fold_right]; lia|]. split; [constructor; [cbn; lia|exact T3]|].
        split; [|split; [destruct (Z.eqb_spec (all l + 1) 0); [lia|reflexivity]|destruct (Z.eqb_spec (all l + 1) 0); [lia|reflexivity]]].
        intros m. rewrite named_app. cbn [count_of]. destruct (Nat.eqb_spec n m) as [->|Hm]; [lia|]. rewrite T4. lia.
    + specialize (T4 n) as T4n. destruct (count_of n (insts o)) as [c|] eqn:EC; [|lia].
      pose proof (count_sums _ _ _ EC T3) as HC. unfold t_put. rewrite T5, T6, T1, EC. destruct (Z.eqb_spec (all l) 0); [lia|].
      destruct (Z.eqb_spec c 0); [lia|].
      assert (TR : forall b k, k = (if Z.eqb (all l - 1) 0 then 1 else 0)%nat -> b = (all l - 1 =? 0) -> tracks n0 (l ++ [TPut n]) (mkTO (all l - 1) (bump n (-1) (insts o)) b k)).
      { intros b k -> ->. unfold tracks. rewrite all_app. cbn [total insts tfrees tlock]. split; [lia|]. split; [rewrite (bump_sums _ _ _ _ EC); lia|].
        split; [apply bump_nonneg; [exact T3|]; intros c' Q; rewrite EC in Q; injection Q as <-; lia|].
        split; [|split; replace (all l + -1) with (all l - 1) by lia; reflexivity].
        intros m. rewrite named_app, bump_count, T4. destruct (Nat.eqb_spec n m) as [->|Hm].
        - rewrite EC, Nat.eqb_refl. lia.
        - destruct (count_of m (insts o)); [|lia]. destruct (Nat.eqb_spec m n); [congruence|lia]. }
      destruct (Z.eqb_spec (all l - 1) 0) as [E0|E0]; (eexists; split; [reflexivity|]; apply TR; [reflexivity|]); reflexivity.
Qed.
