(** List metrics: the memory of the heap as 32-bit words, then the lists. *)
From Verif Require Import L_LHeap L_LHeapTop.
From Verif Require Export S_List.
From Coq Require Import Lia ZifyBool ZifyN ZifyNat Permutation.
Local Open Scope N_scope.
Local Arguments N.div : simpl never.
Local Arguments N.modulo : simpl never.
Local Arguments N.mul : simpl never.
Local Arguments N.add : simpl never.
Local Arguments N.sub : simpl never.
Local Arguments W32 : simpl never.
Local Arguments W64 : simpl never.

(** ** Words and halves *)
Lemma word_set n j w j' : j < 4 -> j' < 4 -> word (set_word n j w) j' = if j' =? j then w else word n j'.
Proof.
  intros Hj Hj'. assert (j = 0 \/ j = 1 \/ j = 2 \/ j = 3) as Cj by lia. assert (j' = 0 \/ j' = 1 \/ j' = 2 \/ j' = 3) as Cj' by lia.
  destruct Cj as [ -> | [ -> | [ -> | -> ]]]; destruct Cj' as [ -> | [ -> | [ -> | -> ]]]; try reflexivity.
  change (word0 (with_word0 n w) = w). apply with_word0_word.
Qed.
Lemma half_set w hi v hi' : v < W32 -> half (set_half w hi v) hi' = if Bool.eqb hi hi' then v else half w hi'.
Proof.
  intros Hv. unfold W32 in *. destruct hi, hi'; unfold half, set_half; cbn [Bool.eqb]; unfold W32.
  - rewrite (N.mul_comm _ v), N.div_add by discriminate. rewrite N.div_small by (apply N.mod_lt; discriminate). now apply N.mod_small.
  - rewrite (N.mul_comm _ v), N.mod_add by discriminate. apply N.mod_mod. discriminate.
  - rewrite N.div_add_l by discriminate. rewrite (N.div_small v) by exact Hv. now rewrite N.add_0_r.
  - rewrite N.add_comm, N.mod_add by discriminate. now apply N.mod_small.
Qed.
Lemma half_lt w hi : half w hi < W32.
Proof. destruct hi; cbn [half]; apply N.mod_lt; discriminate. Qed.
Lemma halves w : w < W64 -> w = half w false + W32 * half w true.
Proof.
  intros H. cbn [half]. rewrite (N.mod_small (w / W32)). - pose proof (N.div_mod w W32 ltac:(discriminate)). lia.
  - apply N.div_lt_upper_bound; [discriminate|]. exact H.
Qed.

(** The offsets at which there are 32-bit words *)
Definition aligned (o : N) : Prop := 8 <= o /\ o mod 4 = 0.
Lemma aligned_form o : aligned o -> exists u, o = 8 + 4 * u.
Proof. intros (H1 & H2). exists ((o - 8) / 4). pose proof (N.div_mod o 4 ltac:(lia)). assert (o - 8 = (o / 4 - 2) * 4) as -> by lia. rewrite N.div_mul by lia. lia. Qed.
Lemma form_aligned u : aligned (8 + 4 * u).
Proof. split; [lia|]. replace (8 + 4 * u) with ((2 + u) * 4) by lia. apply N.mod_mul. lia. Qed.
Lemma cell_form u : cell (8 + 4 * u) = 8 + 32 * (u / 8).
Proof. unfold cell. replace (8 + 4 * u - 8) with (4 * u) by lia. f_equal. change 32 with (4 * 8). now rewrite N.div_mul_cancel_l by lia. Qed.
Lemma wordno_form u : wordno (8 + 4 * u) = u mod 8 / 2.
Proof.
  unfold wordno. replace (8 + 4 * u - 8) with (4 * u) by lia. change 32 with (4 * 8). rewrite N.mul_mod_distr_l by lia.
  change 8 with (4 * 2) at 2. now rewrite N.div_mul_cancel_l by lia.
Qed.
Lemma high_form u : high (8 + 4 * u) = (u mod 2 =? 1).
Proof.
  unfold high. replace (8 + 4 * u - 8) with (4 * u) by lia. change 8 with (4 * 2). rewrite N.mul_mod_distr_l by lia.
  pose proof (N.mod_lt u 2 ltac:(lia)). destruct (N.eqb_spec (u mod 2) 1); [rewrite e; reflexivity|]. assert (u mod 2 = 0) as -> by lia. reflexivity.
Qed.
Lemma mod8_2 u : u = 8 * (u / 8) + 2 * (u mod 8 / 2) + u mod 2.
Proof.
  pose proof (N.div_mod u 8 ltac:(lia)) as E. pose proof (N.div_mod (u mod 8) 2 ltac:(lia)) as E2.
  assert (u mod 8 mod 2 = u mod 2) as Em; [|lia]. rewrite E at 2. replace (8 * (u / 8) + u mod 8) with (u mod 8 + (4 * (u / 8)) * 2) by lia. now rewrite N.mod_add by lia.
Qed.
Lemma wordno_lt o : wordno o < 4.
Proof. unfold wordno. apply N.div_lt_upper_bound; [lia|]. apply N.mod_lt. lia. Qed.
Lemma place_inj o o' : aligned o -> aligned o' -> cell o = cell o' -> wordno o = wordno o' -> high o = high o' -> o = o'.
Proof.
  intros H H'. destruct (aligned_form _ H) as (u & ->), (aligned_form _ H') as (v & ->). rewrite !cell_form, !wordno_form, !high_form. intros E1 E2 E3.
  pose proof (mod8_2 u). pose proof (mod8_2 v). pose proof (N.mod_lt u 2 ltac:(lia)). pose proof (N.mod_lt v 2 ltac:(lia)). lia.
Qed.
Lemma cell_bounds o : aligned o -> cell o <= o < cell o + 32.
Proof. intros H. destruct (aligned_form _ H) as (u & ->). rewrite cell_form. pose proof (N.div_mod u 8 ltac:(lia)). pose proof (N.mod_lt u 8 ltac:(lia)). lia. Qed.
Lemma cell_cell o : aligned o -> cell (cell o) = cell o.
Proof. intros H. unfold cell. f_equal. replace (8 + 32 * ((o - 8) / 32) - 8) with ((o - 8) / 32 * 32) by lia. rewrite N.div_mul by lia. reflexivity. Qed.

(** The word at an offset *)
Definition rdm (base : N) (m : N -> option node) (o : N) : N :=
  match m (base + cell o) with Some n => half (word n (wordno o)) (high o) | None => 0 end.
Lemma rdm_lt base m o : rdm base m o < W32.
Proof. unfold rdm. destruct (m _); [apply half_lt|unfold W32; lia]. Qed.
Lemma valid_off_ok base o : aligned o -> valid_off base (base + o) = Some o.
Proof.
  intros (H1 & H2). unfold valid_off. rewrite (proj2 (N.eqb_neq (base + o) 0)) by lia. rewrite (proj2 (N.ltb_ge _ _)) by lia.
  replace (base + o - base) with o by lia. rewrite H2. reflexivity.
Qed.
Lemma ld32_eq s o : aligned o -> mem (hst s) (lbase s + cell o) <> None -> ld32 (lbase s + o) s = Some (rdm (lbase s) (mem (hst s)) o, s).
Proof. intros Ha Hm. unfold ld32, rdm. rewrite valid_off_ok by exact Ha. destruct (mem (hst s) (lbase s + cell o)); [reflexivity|now elim Hm]. Qed.
Lemma st32_eq s o v : aligned o -> mem (hst s) (lbase s + cell o) <> None ->
  exists n', st32 (lbase s + o) v s = Some (tt, with_heap s (put_mem (hst s) (upd (mem (hst s)) (lbase s + cell o) n'))) /\
    (forall n, mem (hst s) (lbase s + cell o) = Some n -> (wordno o <> 0 \/ high o = true) -> word0 n' mod W32 = word0 n mod W32) /\
    (forall o', aligned o' -> rdm (lbase s) (upd (mem (hst s)) (lbase s + cell o) n') o' = if o' =? o then v mod W32 else rdm (lbase s) (mem (hst s)) o').
Proof.
  intros Ha Hm. unfold st32. rewrite valid_off_ok by exact Ha. destruct (mem (hst s) (lbase s + cell o)) as [n|] eqn:En; [|now elim Hm]. cbv zeta.
  eexists. split; [reflexivity|]. pose proof (wordno_lt o) as Hw. assert (Hv : v mod W32 < W32) by (apply N.mod_lt; discriminate). split.
  - intros n0 E0 Hx. injection E0 as <-. change (word0 ?n) with (word n 0). rewrite word_set by lia. destruct (N.eqb_spec 0 (wordno o)) as [E|E]; [|reflexivity].
    destruct Hx as [Hx|Hx]; [lia|]. rewrite Hx, <- E. cbn [set_half]. rewrite (N.mul_comm W32), N.mod_add by discriminate. apply N.mod_mod. discriminate.
  - intros o' Ha'. unfold rdm, upd. destruct (N.eqb_spec (lbase s + cell o') (lbase s + cell o)) as [Ec|Ec].
    + pose proof (wordno_lt o') as Hw'. rewrite word_set by lia. destruct (N.eqb_spec (wordno o') (wordno o)) as [Ew|Ew].
      * rewrite half_set by exact Hv. destruct (Bool.eqb (high o) (high o')) eqn:Eh.
        -- apply Bool.eqb_prop in Eh. rewrite (proj2 (N.eqb_eq o' o)); [reflexivity|]. apply place_inj; auto. lia.
        -- rewrite (proj2 (N.eqb_neq o' o)); [replace (cell o') with (cell o) by lia; rewrite En, Ew; reflexivity|]. intros ->. now rewrite Bool.eqb_reflx in Eh.
      * rewrite (proj2 (N.eqb_neq o' o)); [replace (cell o') with (cell o) by lia; rewrite En; reflexivity|]. now intros ->.
    + rewrite (proj2 (N.eqb_neq o' o)); [reflexivity|]. now intros ->.
Qed.

(** ** Writing a range *)
Lemma fill_cell_word o len f c n j : j < 4 ->
  word (fill_cell o len f c n) j = if (o <=? c + 8 * j) && (c + 8 * j <? o + len) then f (c + 8 * j - o) mod W64 else word n j.
Proof.
  intros Hj. unfold fill_cell. cbn [fold_left].
  set (b := fun j => (o <=? c + 8 * j) && (c + 8 * j <? o + len)). set (w := fun j => f (c + 8 * j - o) mod W64).
  change (word (let n0 := if b 0 then set_word n 0 (w 0) else n in let n1 := if b 1 then set_word n0 1 (w 1) else n0 in
          let n2 := if b 2 then set_word n1 2 (w 2) else n1 in if b 3 then set_word n2 3 (w 3) else n2) j = if b j then w j else word n j). cbv zeta.
  clearbody b w. assert (j = 0 \/ j = 1 \/ j = 2 \/ j = 3) as C by lia.
  destruct C as [-> | [-> | [-> | ->]]]; destruct (b 0), (b 1), (b 2), (b 3); repeat (rewrite word_set by lia; cbn [N.eqb Pos.eqb]); reflexivity.
Qed.
Lemma fill_cell_id o len f c n : (forall j, j < 4 -> (o <=? c + 8 * j) && (c + 8 * j <? o + len) = false) -> fill_cell o len f c n = n.
Proof. intros H. unfold fill_cell. cbn [fold_left]. now rewrite !H by lia. Qed.
Lemma x8_place x : aligned x -> cell x + 8 * wordno x = 8 * (x / 8).
Proof.
  intros H. destruct (aligned_form _ H) as (u & ->). rewrite cell_form, wordno_form. pose proof (mod8_2 u) as E. pose proof (N.mod_lt u 2 ltac:(lia)) as Hm.
  assert ((8 + 4 * u) / 8 = 1 + (4 * (u / 8) + u mod 8 / 2)) as ->; [|lia]. symmetry. apply (N.div_unique _ _ _ (4 * (u mod 2))); lia.
Qed.
Definition filled (base o len : N) (f : N -> N) (m : N -> option node) : N -> option node := fun a =>
  match m a with
  | Some n => if (base <=? a) && (a =? base + cell (a - base)) then Some (fill_cell o len f (a - base) n) else Some n
  | None => None
  end.
Lemma fill_eq s o len f : aligned o -> 0 < len -> mem (hst s) (lbase s + cell o) <> None -> mem (hst s) (lbase s + cell (o + len - 8)) <> None ->
  fill (lbase s + o) len f s = Some (tt, with_heap s (put_mem (hst s) (filled (lbase s) o len f (mem (hst s))))).
Proof.
  intros Ha Hl H1 H2. unfold fill. rewrite (proj2 (N.eqb_neq _ _)) by lia. rewrite valid_off_ok by exact Ha.
  destruct (mem (hst s) (lbase s + cell o)); [|now elim H1]. destruct (mem (hst s) (lbase s + cell (o + len - 8))); [reflexivity|now elim H2].
Qed.
Lemma rdm_filled base o len f m x : aligned x -> o mod 8 = 0 -> len mod 8 = 0 -> m (base + cell x) <> None ->
  rdm base (filled base o len f m) x = if (o <=? x) && (x <? o + len) then half (f (8 * (x / 8) - o) mod W64) (high x) else rdm base m x.
Proof.
  intros Hx Ho Hl Hm. unfold rdm, filled. destruct (m (base + cell x)) as [n|] eqn:E; [|now elim Hm].
  rewrite (proj2 (N.leb_le base _)) by lia. replace (base + cell x - base) with (cell x) by lia. rewrite cell_cell by exact Hx. rewrite N.eqb_refl. cbn [andb].
  rewrite fill_cell_word by apply wordno_lt. rewrite x8_place by exact Hx.
  pose proof (N.div_mod x 8 ltac:(lia)). pose proof (N.mod_lt x 8 ltac:(lia)). pose proof (N.div_mod o 8 ltac:(lia)). pose proof (N.div_mod len 8 ltac:(lia)).
  assert ((o <=? 8 * (x / 8)) && (8 * (x / 8) <? o + len) = (o <=? x) && (x <? o + len)) as -> by lia. destruct (_ && _); reflexivity.
Qed.

(** ** The words a program reads and writes *)
Inductive adr := AT (i : N) (k : lfield) | AH (o : N).
Lemma adr_dec (a b : adr) : {a = b} + {a <> b}.
Proof. decide equality; try apply N.eq_dec. decide equality. Defined.
Definition obs (s : lst) (a : adr) : N :=
  match a with
  | AT i k => let '(h, t, c) := tops s i in match k with FHead => h | FTail => t | FCount => c end
  | AH o => rdm (lbase s) (mem (hst s)) o
  end.
Definition al (a : adr) : Prop := match a with AT _ _ => True | AH o => aligned o end.
Definition mine (A : list (N * N)) (a : adr) : Prop :=
  match a with AT _ _ => True | AH o => (exists e, In e A /\ fst e <= o < fst e + snd e) /\ o mod 4 = 0 end.
Lemma lbind_eq {A B} (m : lprog A) (k : A -> lprog B) s a s' : m s = Some (a, s') -> lbind m k s = k a s'.
Proof. intros H. unfold lbind. now rewrite H. Qed.

Section Lists.
Variables (fuel : nat) (size hgrain : N).
Hypothesis Hf : enough (S (N.to_nat (grains size hgrain))) fuel.
Hypothesis H32 : up512 size <= W32.

Definition HL (B : N) (s : lst) (A : list (N * N)) : Prop := lbase s = B /\ hl size hgrain B (hst s) A.
Lemma hl_bounds B s A e : HL B s A -> In e A -> exists i, fst e = 12 + 64 * i /\ (fst e + snd e <= 8 + up512 size /\ fst e + 52 <= up512 size) /\ B + fst e + snd e <= W64.
Proof.
  intros (_ & H) Hin. pose proof (live_bounds _ _ _ _ _ H) as HB. rewrite Forall_forall in HB. destruct (HB _ Hin) as (H1 & H2 & H3 & H4).
  rewrite gsz_qq in *. pose proof (grains_fit size hgrain). exists ((fst e - 12) / (64 * qq hgrain) * qq hgrain). pose proof (qq_pos hgrain).
  pose proof (N.div_mod (fst e - 12) (64 * qq hgrain) ltac:(lia)). split; [lia|]. split; [|lia]. split; [lia|]. unfold up512 in *. lia.
Qed.
Lemma hl_fits B s A : HL B s A -> B + up512 size + 8 <= W64 /\ up512 size + 8 <= W63.
Proof. intros (_ & (F1 & F2 & F3 & F4) & _). auto. Qed.
Lemma mine_al B s A a : HL B s A -> mine A a -> al a.
Proof. intros H. destruct a as [i k|o]; [auto|]. intros ((e & Hin & Ho) & Hm). destruct (hl_bounds _ _ _ _ H Hin) as (i & Hi & _). split; [lia|exact Hm]. Qed.
Lemma mapped B s A o : HL B s A -> aligned o -> o < 8 + up512 size -> mem (hst s) (B + cell o) <> None.
Proof.
  intros (_ & H) Ha Ho. pose proof (cell_bounds _ Ha) as Hc. unfold cell in *. rewrite N.add_assoc. apply (mapped_top _ _ _ _ _ _ H). lia.
Qed.
Lemma mine_mapped B s A o : HL B s A -> mine A (AH o) -> aligned o /\ mem (hst s) (B + cell o) <> None.
Proof.
  intros H Hm. pose proof (mine_al _ _ _ _ H Hm) as Ha. split; [exact Ha|]. destruct Hm as ((e & Hin & Ho) & _). destruct (hl_bounds _ _ _ _ H Hin) as (i & Hi & Hb & _).
  apply (mapped _ _ _ _ H Ha). lia.
Qed.
Lemma ld_ok B s A o : HL B s A -> mine A (AH o) -> ld32 (B + o) s = Some (obs s (AH o), s).
Proof. intros H Hm. destruct (mine_mapped _ _ _ _ H Hm) as (Ha & Hs). destruct H as (<- & _). now apply ld32_eq. Qed.

Definition wrote (B : N) (A : list (N * N)) (s s' : lst) (a : adr) (v : N) : Prop :=
  HL B s' A /\ dgn s' = dgn s /\ forall x, al x -> obs s' x = if adr_dec x a then v else obs s x.

Lemma block_cell B s A e o : HL B s A -> In e A -> fst e <= o < fst e + snd e -> aligned o ->
  fst e - 4 <= cell o /\ in_block B (gsz hgrain) e (B + cell o) = true /\ (cell o = fst e - 4 -> wordno o <> 0 \/ high o = true).
Proof.
  intros H Hin Ho Ha. destruct (hl_bounds _ _ _ _ H Hin) as (i & Hi & Hb & _). pose proof (cell_bounds _ Ha) as Hc.
  assert (Hge : fst e - 4 <= cell o). { unfold cell in *. rewrite Hi in *. assert ((o - 8) / 32 >= 2 * i); [|lia]. apply N.le_ge. apply N.div_le_lower_bound; lia. }
  split; [exact Hge|]. split.
  - unfold in_block. pose proof (need_room hgrain (snd e)). lia.
  - intros Ec. destruct (N.eq_dec (wordno o) 0) as [Ew|Ew]; [right|now left]. destruct (aligned_form _ Ha) as (u & ->). rewrite cell_form, wordno_form in *. rewrite high_form.
    pose proof (mod8_2 u). pose proof (N.mod_lt u 2 ltac:(lia)). lia.
Qed.
Lemma st_ok B s A o v : HL B s A -> mine A (AH o) -> v < W32 -> exists s', st32 (B + o) v s = Some (tt, s') /\ wrote B A s s' (AH o) v.
Proof.
  intros H Hm Hv. destruct (mine_mapped _ _ _ _ H Hm) as (Ha & Hs). destruct Hm as ((e & Hin & Ho) & Hmod). destruct (block_cell _ _ _ _ _ H Hin Ho Ha) as (Hge & Hblk & Hw0).
  destruct (hl_bounds _ _ _ _ H Hin) as (i & Hi & _).
  pose proof H as (EB & Hhl). subst B. destruct (st32_eq s o v Ha Hs) as (n' & E & Hcnt & Hrd). eexists. split; [exact E|]. split; [|split; [reflexivity|]].
  - split; [reflexivity|]. cbn [with_heap hst]. apply (write_top size hgrain _ _ _ e); [exact Hhl|exact Hin| | |].
    + intros a Hout. unfold upd. destruct (N.eqb_spec a (lbase s + cell o)) as [->|]; [congruence|reflexivity].
    + intros a Hne. unfold upd. destruct (_ =? _); [discriminate|exact Hne].
    + intros n En. unfold upd. destruct (N.eqb_spec (lbase s + (fst e - 4)) (lbase s + cell o)) as [Ec|Ec]; [|now exists n].
      exists n'. split; [reflexivity|]. apply Hcnt; [|apply Hw0; lia]. replace (cell o) with (fst e - 4) by lia. exact En.
  - intros [j k|x] Hx; [reflexivity|]. cbn [obs with_heap lbase hst put_mem mem] in *. rewrite Hrd by exact Hx. rewrite (N.mod_small v) by exact Hv.
    destruct (N.eqb_spec x o) as [->|Hne]; destruct (adr_dec _ _) as [E1|E1]; try reflexivity; congruence.
Qed.

Definition koff (k : lfield) : N := match k with FHead => 0 | FTail => 4 | FCount => 8 end.
Definition hda (l : loc) (k : lfield) : adr := match l with Top i => AT i k | Sub e => AH (e + 12 + koff k) end.
Lemma hget_ok B s A l k : HL B s A -> mine A (hda l k) -> lh_get (head_of B l) k s = Some (obs s (hda l k), s).
Proof.
  intros H Hm. destruct l as [i|e]; cbn [hda head_of lh_get] in *.
  - cbn [obs]. destruct (tops s i) as [[h t] c]. reflexivity.
  - fold (koff k). rewrite <- !N.add_assoc. rewrite <- N.add_assoc in Hm. now apply (ld_ok _ _ A).
Qed.
Lemma hset_ok B s A l k v : HL B s A -> mine A (hda l k) -> v < W32 -> exists s', lh_set (head_of B l) k v s = Some (tt, s') /\ wrote B A s s' (hda l k) v.
Proof.
  intros H Hm Hv. destruct l as [i|e]; cbn [hda head_of lh_set] in *.
  - destruct (tops s i) as [[h t] c] eqn:E. eexists. split; [reflexivity|]. destruct H as (HB & H). split; [split; [exact HB|exact H]|]. split; [reflexivity|].
    intros [j k'|o] Hx; cbn [obs tops lbase hst].
    + destruct (N.eqb_spec j i) as [->|Hne].
      * rewrite E. destruct (adr_dec _ _) as [E1|E1]; [injection E1 as <-; now destruct k'|]. destruct k, k'; try reflexivity; now elim E1.
      * destruct (adr_dec _ _) as [E1|E1]; [congruence|reflexivity].
    + destruct (adr_dec _ _) as [E1|E1]; [discriminate|reflexivity].
  - fold (koff k). rewrite <- !N.add_assoc. rewrite <- N.add_assoc in Hm. now apply st_ok.
Qed.
Lemma hoff_ok B s A e : HL B s A -> In e A -> h_off (B + fst e) s = Some (fst e, s).
Proof.
  intros H Hin. destruct (hl_bounds _ _ _ _ H Hin) as (i & Hi & Hb & Hw). destruct (hl_fits _ _ _ H) as (F2 & F3). destruct H as (HB & H). pose proof (size_top _ _ _ _ _ H) as Hs.
  unfold h_off, on_heap. rewrite HB. unfold heap_off. rewrite (proj2 (N.eqb_neq _ _)) by lia. cbv zeta.
  assert (E : sub64 (B + fst e) B = fst e).
  { unfold sub64, W64, W63 in *. rewrite (N.mod_small B) by lia.
    replace (B + fst e + (18446744073709551616 - B)) with (fst e + 1 * 18446744073709551616) by lia. rewrite N.mod_add by lia. apply N.mod_small. lia. }
  rewrite E, Hs. rewrite (proj2 (N.ltb_lt _ _)) by lia. destruct s; reflexivity.
Qed.
Lemma hptr_ok B s A e : HL B s A -> In e A -> h_ptr (fst e) s = Some (B + fst e, s).
Proof.
  intros H Hin. destruct (hl_bounds _ _ _ _ H Hin) as (i & Hi & Hb & Hw). destruct (hl_fits _ _ _ H) as (F2 & F3). destruct H as (HB & H). pose proof (size_top _ _ _ _ _ H) as Hs.
  unfold h_ptr, on_heap. rewrite HB. unfold heap_ptr. rewrite (proj2 (N.eqb_neq _ _)) by lia. rewrite Hs. rewrite (proj2 (N.ltb_lt _ _)) by lia.
  unfold add64. rewrite N.mod_small by (unfold W64 in *; lia). destruct s; reflexivity.
Qed.
Lemma hptr_0 s : h_ptr 0 s = Some (0, s).
Proof. unfold h_ptr, on_heap, heap_ptr. cbn [N.eqb]. destruct s; reflexivity. Qed.
Lemma entry_lt B s A e : HL B s A -> In e A -> 0 < fst e < W32.
Proof. intros H Hin. destruct (hl_bounds _ _ _ _ H Hin) as (i & Hi & Hb & Hw). destruct (hl_fits _ _ _ H) as (F2 & F3). unfold W32 in *. lia. Qed.

(** ** Doubly linked lists *)
Definition nx (e : N) : adr := AH e.
Definition pv (e : N) : adr := AH (e + 4).
Definition tca (e : N) : adr := AH (e + 8).
Fixpoint chain (g : adr -> N) (p : N) (L : list N) : Prop :=
  match L with [] => True | e :: L' => g (pv e) = p /\ g (nx e) = hd 0 L' /\ chain g e L' end.
Definition dll (g : adr -> N) (l : loc) (L : list N) (n : N) : Prop :=
  g (hda l FHead) = hd 0 L /\ g (hda l FTail) = last L 0 /\ g (hda l FCount) = n /\ chain g 0 L.
Definition ent (A : list (N * N)) (e : N) : Prop := exists sz, In (e, sz) A /\ 12 <= sz.
Definition lok (A : list (N * N)) (l : loc) : Prop := match l with Top _ => True | Sub e => exists sz, In (e, sz) A /\ 24 <= sz end.
Lemma ent_form B s A e : HL B s A -> ent A e -> exists i, e = 12 + 64 * i.
Proof. intros H (sz & Hin & _). destruct (hl_bounds _ _ _ _ H Hin) as (i & Hi & _). now exists i. Qed.
Lemma lok_form B s A e : HL B s A -> lok A (Sub e) -> exists i, e = 12 + 64 * i.
Proof. intros H (sz & Hin & _). destruct (hl_bounds _ _ _ _ H Hin) as (i & Hi & _). now exists i. Qed.
Lemma mod4 i j : j mod 4 = 0 -> (12 + 64 * i + j) mod 4 = 0.
Proof. intros Hj. replace (12 + 64 * i + j) with (j + (3 + 16 * i) * 4) by lia. now rewrite N.mod_add by lia. Qed.
Lemma mine_f B s A e sz j : HL B s A -> In (e, sz) A -> j < sz -> j mod 4 = 0 -> mine A (AH (e + j)).
Proof. intros H Hin Hj Hm. destruct (hl_bounds _ _ _ _ H Hin) as (i & Hi & _). cbn [fst] in Hi. split; [exists (e, sz); split; [exact Hin|]; cbn [fst snd]; lia|]. rewrite Hi. now apply mod4. Qed.
Lemma mine_nx B s A e : HL B s A -> ent A e -> mine A (nx e).
Proof. intros H (sz & Hin & Hs). unfold nx. rewrite <- (N.add_0_r e) at 1. eapply mine_f; eauto; lia. Qed.
Lemma mine_pv B s A e : HL B s A -> ent A e -> mine A (pv e).
Proof. intros H (sz & Hin & Hs). eapply mine_f; eauto; lia. Qed.
Lemma mine_tc B s A e : HL B s A -> ent A e -> mine A (tca e).
Proof. intros H (sz & Hin & Hs). eapply mine_f; eauto; lia. Qed.
Lemma mine_hd B s A l k : HL B s A -> lok A l -> mine A (hda l k).
Proof. intros H Hl. destruct l as [i|e]; [exact I|]. destruct Hl as (sz & Hin & Hs). cbn [hda]. rewrite <- N.add_assoc. eapply mine_f; eauto; destruct k; cbn [koff]; lia. Qed.
Lemma al_nx B s A e : HL B s A -> ent A e -> al (nx e). Proof. intros H He. eapply mine_al, mine_nx; eassumption. Qed.
Lemma al_pv B s A e : HL B s A -> ent A e -> al (pv e). Proof. intros H He. eapply mine_al, mine_pv; eassumption. Qed.
Lemma al_tc B s A e : HL B s A -> ent A e -> al (tca e). Proof. intros H He. eapply mine_al, mine_tc; eassumption. Qed.
Lemma al_hd B s A l k : HL B s A -> lok A l -> al (hda l k). Proof. intros H He. eapply mine_al, mine_hd; eassumption. Qed.
Lemma nx_pv B s A x y : HL B s A -> ent A x -> ent A y -> nx x <> pv y.
Proof. intros H Hx Hy. destruct (ent_form _ _ _ _ H Hx) as (i & ->), (ent_form _ _ _ _ H Hy) as (j & ->). unfold nx, pv. intros E. injection E. lia. Qed.
Lemma nx_hd B s A x l k : HL B s A -> ent A x -> lok A l -> nx x <> hda l k.
Proof. intros H Hx Hl. destruct (ent_form _ _ _ _ H Hx) as (i & ->). destruct l as [m|e]; [discriminate|]. destruct (lok_form _ _ _ _ H Hl) as (j & ->). unfold nx, hda. intros E. injection E. destruct k; cbn [koff]; lia. Qed.
Lemma pv_hd B s A x l k : HL B s A -> ent A x -> lok A l -> pv x <> hda l k.
Proof. intros H Hx Hl. destruct (ent_form _ _ _ _ H Hx) as (i & ->). destruct l as [m|e]; [discriminate|]. destruct (lok_form _ _ _ _ H Hl) as (j & ->). unfold pv, hda. intros E. injection E. destruct k; cbn [koff]; lia. Qed.
Lemma hd_hd B s A l l' k k' : HL B s A -> lok A l -> lok A l' -> hda l k = hda l' k' -> l = l' /\ k = k'.
Proof.
  intros H Hl Hl'. destruct l as [m|e], l' as [m'|e']; cbn [hda]; intros E; try discriminate; [injection E as -> ->; auto|].
  destruct (lok_form _ _ _ _ H Hl) as (i & ->), (lok_form _ _ _ _ H Hl') as (j & ->). injection E as E. destruct k, k'; cbn [koff] in E; try (exfalso; lia); (split; [f_equal; lia|reflexivity]).
Qed.
Lemma nx_inj x y : nx x = nx y -> x = y. Proof. intros E. now injection E. Qed.
Lemma pv_inj x y : pv x = pv y -> x = y. Proof. unfold pv. intros E. injection E. lia. Qed.

Lemma chain_ext g g' : forall L p, (forall y, In y L -> g' (nx y) = g (nx y) /\ g' (pv y) = g (pv y)) -> chain g p L -> chain g' p L.
Proof.
  induction L as [|e L IH]; intros p H HC; [exact I|]. destruct HC as (H1 & H2 & H3). destruct (H e (or_introl eq_refl)) as (E1 & E2). split; [congruence|]. split; [congruence|].
  apply IH; [|exact H3]. intros y Hy. apply H. now right.
Qed.
Lemma dll_ext g g' l L n : (forall k, g' (hda l k) = g (hda l k)) -> (forall y, In y L -> g' (nx y) = g (nx y) /\ g' (pv y) = g (pv y)) -> dll g l L n -> dll g' l L n.
Proof. intros H1 H2 (A1 & A2 & A3 & A4). repeat split; try (rewrite H1; assumption). now apply (chain_ext g). Qed.
Lemma last_in (L : list N) d : L <> [] -> In (last L d) L.
Proof. intros H. destruct L as [|x L]; [now elim H|]. clear H. revert x. induction L as [|y L IH]; intros x; [now left|]. right. apply IH. Qed.
Lemma last_def (L : list N) a b : L <> [] -> last L a = last L b.
Proof. intros H. destruct L as [|x L]; [now elim H|]. clear H. revert x. induction L as [|y L IH]; intros x; [reflexivity|]. apply (IH y). Qed.
Lemma chain_snoc g g' e : forall L p, NoDup L -> chain g p L ->
  (forall y, In y L -> g' (pv y) = g (pv y)) -> (forall y, In y L -> y <> last L 0 -> g' (nx y) = g (nx y)) ->
  (L <> [] -> g' (nx (last L 0)) = e) -> g' (pv e) = last L p -> g' (nx e) = 0 -> chain g' p (L ++ [e]).
Proof.
  induction L as [|x L IH]; intros p HN HC Hp Hn Hl Ee En; [cbn; auto|]. inversion HN as [|? ? N1 N2]; subst. destruct HC as (C1 & C2 & C3). cbn [app chain].
  split; [rewrite Hp by (now left); exact C1|]. destruct L as [|y L]; [cbn [app hd chain]; split; [apply Hl; discriminate|]; cbn [last] in *; auto|].
  assert (Elast : last (x :: y :: L) 0 = last (y :: L) 0) by reflexivity. rewrite Elast in *.
  split.
  - rewrite Hn; [exact C2|now left|]. intros ->. now apply N1, last_in.
  - apply IH; auto; try (intros z Hz; apply Hp; now right); try (intros z Hz Hne; apply Hn; [now right|exact Hne]).
    + intros _. apply Hl. discriminate.
    + rewrite Ee. change (last (x :: y :: L) p) with (last (y :: L) p). apply last_def. discriminate.
Qed.
Lemma chain_at g e L2 : forall L1 p, chain g p (L1 ++ e :: L2) -> g (pv e) = last L1 p /\ g (nx e) = hd 0 L2.
Proof.
  induction L1 as [|x L1 IH]; intros p H; [cbn in H; tauto|]. destruct H as (_ & _ & H). destruct (IH _ H) as (E1 & E2). split; [|exact E2]. rewrite E1.
  destruct L1 as [|y L1]; [reflexivity|]. change (last (x :: y :: L1) p) with (last (y :: L1) p). apply last_def. discriminate.
Qed.
Lemma chain_del g g' e L2 : forall L1 p, NoDup (L1 ++ e :: L2) -> chain g p (L1 ++ e :: L2) ->
  (forall y, In y (L1 ++ L2) -> (L2 = [] \/ y <> hd 0 L2) -> g' (pv y) = g (pv y)) ->
  (forall y, In y (L1 ++ L2) -> (L1 = [] \/ y <> last L1 0) -> g' (nx y) = g (nx y)) ->
  (L1 <> [] -> g' (nx (last L1 0)) = hd 0 L2) -> (L2 <> [] -> g' (pv (hd 0 L2)) = last L1 p) -> chain g' p (L1 ++ L2).
Proof.
  induction L1 as [|x L1 IH]; intros p HN HC Hp Hn Hl Hh.
  - cbn [app] in *. destruct HC as (_ & _ & HC). inversion HN as [|? ? N1 N2]; subst. destruct L2 as [|y L3]; [exact I|]. destruct HC as (C1 & C2 & C3). inversion N2 as [|? ? N3 N4]; subst.
    cbn [chain]. cbn [hd] in *. split; [rewrite Hh by discriminate; reflexivity|]. split; [rewrite Hn by (auto; now left); exact C2|].
    apply (chain_ext g); [|exact C3]. intros z Hz. split; [apply Hn; [now right|now left]|]. apply Hp; [now right|]. right. now intros ->.
  - cbn [app] in *. inversion HN as [|? ? N1 N2]; subst. destruct HC as (C1 & C2 & C3). cbn [chain].
    assert (Hx : L2 = [] \/ x <> hd 0 L2). { destruct L2 as [|y L2]; [now left|right]. cbn [hd]. intros ->. apply N1. apply in_app_iff. right. right. now left. }
    split; [rewrite Hp by (auto; now left); exact C1|]. destruct L1 as [|y L1].
    + cbn [app hd last] in *. split; [apply Hl; discriminate|]. apply (IH x); auto; try (intros H; now elim H).
      * intros z Hz [E|E]; [apply Hp; [now right|now left]|apply Hp; [now right|now right]].
      * intros z Hz _. apply Hn; [now right|]. right. intros ->. apply N1. right. exact Hz.
    + change (last (x :: y :: L1) 0) with (last (y :: L1) 0) in *. change (last (x :: y :: L1) p) with (last (y :: L1) p) in *.
      split.
      * rewrite Hn; [exact C2|now left|]. right. intros ->. apply N1. apply in_app_iff. left. apply last_in. discriminate.
      * apply (IH x); auto.
        -- intros z Hz E. apply Hp; [now right|exact E].
        -- intros z Hz [E|E]; [discriminate E|]. apply Hn; [now right|now right].
        -- intros _. apply Hl. discriminate.
        -- intros H. rewrite Hh by exact H. apply last_def. discriminate.
Qed.

Ltac other a := match goal with |- context [adr_dec ?x a] => let EE := fresh "EE" in destruct (adr_dec x a) as [EE|EE]; [exfalso|clear EE] end.

(** ** Appending *)
Definition append_touches (L : list N) (l : loc) (e : N) (x : adr) : Prop := x = nx e \/ x = pv e \/ (exists k, x = hda l k) \/ exists y, In y L /\ x = nx y.
Lemma append_ok B s A e l L : HL B s A -> ent A e -> lok A l -> Forall (ent A) L -> NoDup L -> ~ In e L ->
  N.of_nat (length L) + 1 < W32 -> dll (obs s) l L (N.of_nat (length L)) ->
  exists s', list_append (head_of B l) (B + e) s = Some (tt, s') /\ HL B s' A /\ dgn s' = dgn s /\ dll (obs s') l (L ++ [e]) (N.of_nat (length (L ++ [e]))) /\
    forall x, al x -> ~ append_touches L l e x -> obs s' x = obs s x.
Proof.
  intros H He Hl HA HN Hni Hlen (D1 & D2 & D3 & D4). destruct He as (sz & Hin & Hsz). assert (He : ent A e) by (now exists sz).
  pose proof (entry_lt _ _ _ _ H Hin) as Hlt. cbn [fst] in Hlt. unfold list_append.
  rewrite (lbind_eq _ _ _ _ _ (hoff_ok _ _ _ (e, sz) H Hin)). cbn [fst]. rewrite (N.mod_small e) by lia. cbv zeta.
  rewrite (lbind_eq _ _ _ _ _ (hget_ok _ _ _ _ _ H (mine_hd _ _ _ _ FHead H Hl))). rewrite D1. destruct L as [|y0 L0] eqn:EL.
  - cbn [hd N.eqb]. destruct (st_ok _ _ _ (e + 4) 0 H (mine_pv _ _ _ _ H He) ltac:(lia)) as (s1 & E1 & H1 & G1 & O1).
    destruct (hset_ok _ _ _ l FHead e H1 (mine_hd _ _ _ _ FHead H Hl) ltac:(lia)) as (s2 & E2 & H2 & G2 & O2).
    destruct (hset_ok _ _ _ l FCount 1 H2 (mine_hd _ _ _ _ FCount H Hl) ltac:(unfold W32; lia)) as (s3 & E3 & H3 & G3 & O3).
    destruct (hset_ok _ _ _ l FTail e H3 (mine_hd _ _ _ _ FTail H Hl) ltac:(lia)) as (s4 & E4 & H4 & G4 & O4).
    destruct (st_ok _ _ _ e 0 H4 (mine_nx _ _ _ _ H He) ltac:(lia)) as (s5 & E5 & H5 & G5 & O5).
    exists s5. split.
    { assert (E : (st32 (le_prev (B + e)) 0 ;;~ lh_set (head_of B l) FHead e ;;~ lh_set (head_of B l) FCount 1) s = Some (tt, s3)).
      { unfold le_prev. rewrite <- N.add_assoc. rewrite (lbind_eq _ _ _ _ _ E1), (lbind_eq _ _ _ _ _ E2). exact E3. }
      rewrite (lbind_eq _ _ _ _ _ E), (lbind_eq _ _ _ _ _ E4). exact E5. }
    split; [exact H5|]. split; [congruence|]. fold (pv e) in O1. fold (nx e) in O5.
    assert (O : forall x, al x -> obs s5 x = if adr_dec x (nx e) then 0 else if adr_dec x (hda l FTail) then e else if adr_dec x (hda l FCount) then 1 else if adr_dec x (hda l FHead) then e else if adr_dec x (pv e) then 0 else obs s x).
    { intros x Hx. now rewrite O5, O4, O3, O2, O1. }
    pose proof (fun k => nx_hd _ _ _ _ _ k H He Hl) as X1. pose proof (fun k => pv_hd _ _ _ _ _ k H He Hl) as X2. pose proof (nx_pv _ _ _ _ _ H He He) as X3.
    split.
    + unfold dll. cbn [app hd last length chain]. rewrite !O by (first [now apply (al_hd _ _ _ _ _ H)|now apply (al_nx _ _ _ _ H)|now apply (al_pv _ _ _ _ H)]).
      assert (X4 : forall k k', hda l k = hda l k' -> k = k') by (intros k k' E; now apply (hd_hd _ _ _ _ _ _ _ H Hl Hl) in E).
      repeat split; repeat (match goal with |- context [adr_dec ?x ?a] => destruct (adr_dec x a) as [?E|?E] end); try reflexivity; try (exfalso; congruence);
        try (match goal with E : hda l _ = hda l _ |- _ => apply X4 in E; discriminate end); try (exfalso; eapply X1; congruence); try (exfalso; eapply X2; congruence).
    + intros x Hx Ht. rewrite O by exact Hx. repeat (match goal with |- context [adr_dec x ?a] => destruct (adr_dec x a) as [->|?E]; [exfalso; apply Ht; unfold append_touches; eauto 8|] end). reflexivity.
  - rewrite <- EL in *. assert (HLne : L <> []) by (rewrite EL; discriminate). pose proof (last_in L 0 HLne) as Hlast. set (t := last L 0) in *.
    assert (Het : ent A t) by (rewrite Forall_forall in HA; auto). assert (Hte : t <> e) by (intros E; rewrite E in Hlast; contradiction).
    destruct Het as (sz' & Hint & Hsz'). assert (Het : ent A t) by (now exists sz'). pose proof (entry_lt _ _ _ _ H Hint) as Htlt. cbn [fst] in Htlt.
    assert (Hhd : (hd 0 L =? 0) = false).
    { rewrite Forall_forall in HA. assert (In (hd 0 L) L) as Hh by (rewrite EL; now left). destruct (HA _ Hh) as (z & Hz & _). pose proof (entry_lt _ _ _ _ H Hz) as Q. cbn [fst] in Q. apply N.eqb_neq. lia. }
    rewrite Hhd.
    destruct (st_ok _ _ _ t e H (mine_nx _ _ _ _ H Het) ltac:(lia)) as (s1 & E1 & H1 & G1 & O1). fold (nx t) in O1.
    assert (T1 : obs s1 (hda l FTail) = t). { rewrite O1 by now apply (al_hd _ _ _ _ _ H). other (nx t); [|exact D2]. now apply (nx_hd _ _ _ _ _ FTail H Het Hl). }
    destruct (st_ok _ _ _ (e + 4) t H1 (mine_pv _ _ _ _ H He) ltac:(lia)) as (s2 & E2 & H2 & G2 & O2). fold (pv e) in O2.
    assert (T2 : obs s2 (hda l FCount) = N.of_nat (length L)).
    { rewrite O2 by now apply (al_hd _ _ _ _ _ H). other (pv e); [now apply (pv_hd _ _ _ _ _ FCount H He Hl)|]. rewrite O1 by now apply (al_hd _ _ _ _ _ H).
      other (nx t); [now apply (nx_hd _ _ _ _ _ FCount H Het Hl)|exact D3]. }
    destruct (hset_ok _ _ _ l FCount (add32 (N.of_nat (length L)) 1) H2 (mine_hd _ _ _ _ FCount H Hl)) as (s3 & E3 & H3 & G3 & O3); [apply N.mod_lt; discriminate|].
    unfold add32 in O3. rewrite N.mod_small in O3 by exact Hlen.
    destruct (hset_ok _ _ _ l FTail e H3 (mine_hd _ _ _ _ FTail H Hl) ltac:(lia)) as (s4 & E4 & H4 & G4 & O4).
    destruct (st_ok _ _ _ e 0 H4 (mine_nx _ _ _ _ H He) ltac:(lia)) as (s5 & E5 & H5 & G5 & O5). fold (nx e) in O5.
    exists s5. split.
    { match goal with |- lbind ?m _ _ = _ => assert (E : m s = Some (tt, s3)) end.
      { rewrite (lbind_eq _ _ _ _ _ (hget_ok _ _ _ _ _ H (mine_hd _ _ _ _ FTail H Hl))). rewrite D2. rewrite (lbind_eq _ _ _ _ _ (hptr_ok _ _ _ (t, sz') H Hint)). cbn [fst]. unfold le_next.
        rewrite (lbind_eq _ _ _ _ _ E1). rewrite (lbind_eq _ _ _ _ _ (hget_ok _ _ _ _ _ H1 (mine_hd _ _ _ _ FTail H Hl))). rewrite T1. unfold le_prev. rewrite <- N.add_assoc.
        rewrite (lbind_eq _ _ _ _ _ E2). rewrite (lbind_eq _ _ _ _ _ (hget_ok _ _ _ _ _ H2 (mine_hd _ _ _ _ FCount H Hl))). rewrite T2. exact E3. }
      rewrite (lbind_eq _ _ _ _ _ E), (lbind_eq _ _ _ _ _ E4). exact E5. }
    split; [exact H5|]. split; [congruence|].
    assert (O : forall x, al x -> obs s5 x = if adr_dec x (nx e) then 0 else if adr_dec x (hda l FTail) then e else if adr_dec x (hda l FCount) then N.of_nat (length L) + 1 else if adr_dec x (pv e) then t else if adr_dec x (nx t) then e else obs s x).
    { intros x Hx. now rewrite O5, O4, O3, O2, O1. }
    pose proof (fun x k Hx => nx_hd _ _ _ x _ k H Hx Hl) as X1. pose proof (fun x k Hx => pv_hd _ _ _ x _ k H Hx Hl) as X2. pose proof (fun x y Hx Hy => nx_pv _ _ _ x y H Hx Hy) as X3.
    assert (X4 : forall k k', hda l k = hda l k' -> k = k') by (intros k k' E; now apply (hd_hd _ _ _ _ _ _ _ H Hl Hl) in E).
    rewrite Forall_forall in HA.
    assert (Q1 : forall k, obs s5 (hda l k) = match k with FTail => e | FCount => N.of_nat (length L) + 1 | FHead => obs s (hda l FHead) end).
    { intros k. rewrite O by now apply (al_hd _ _ _ _ _ H). other (nx e); [now apply (X1 e k)|]. destruct (adr_dec (hda l k) (hda l FTail)) as [Ek|Ek]; [apply X4 in Ek as ->; reflexivity|].
      destruct (adr_dec (hda l k) (hda l FCount)) as [Ek'|Ek']; [apply X4 in Ek' as ->; reflexivity|]. other (pv e); [now apply (X2 e k)|]. other (nx t); [now apply (X1 t k)|]. destruct k; congruence. }
    split.
    + unfold dll. rewrite !Q1, D1. split; [|split; [|split]].
      * rewrite EL. reflexivity.
      * rewrite last_last. reflexivity.
      * rewrite app_length. cbn [length]. lia.
      * apply (chain_snoc (obs s)); auto.
        -- intros y Hy. specialize (HA y Hy). rewrite O by now apply (al_pv _ _ _ _ H). other (nx e); [now apply (X3 e y)|]. other (hda l FTail); [now apply (X2 y FTail)|]. other (hda l FCount); [now apply (X2 y FCount)|].
           other (pv e); [apply pv_inj in EE; now subst y|]. other (nx t); [now apply (X3 t y)|]. reflexivity.
        -- intros y Hy Hne. specialize (HA y Hy). rewrite O by now apply (al_nx _ _ _ _ H). other (nx e); [apply nx_inj in EE; now subst y|]. other (hda l FTail); [now apply (X1 y FTail)|]. other (hda l FCount); [now apply (X1 y FCount)|].
           other (pv e); [now apply (X3 y e)|]. other (nx t); [now apply nx_inj in EE|]. reflexivity.
        -- intros _. fold t. rewrite O by now apply (al_nx _ _ _ _ H). other (nx e); [now apply nx_inj in EE|]. other (hda l FTail); [now apply (X1 t FTail)|]. other (hda l FCount); [now apply (X1 t FCount)|].
           other (pv e); [now apply (X3 t e)|]. destruct (adr_dec _ _); [reflexivity|now elim n].
        -- rewrite O by now apply (al_pv _ _ _ _ H). other (nx e); [now apply (X3 e e)|]. other (hda l FTail); [now apply (X2 e FTail)|]. other (hda l FCount); [now apply (X2 e FCount)|].
           destruct (adr_dec _ _); [reflexivity|now elim n].
        -- rewrite O by now apply (al_nx _ _ _ _ H). destruct (adr_dec _ _); [reflexivity|now elim n].
    + intros x Hx Ht. rewrite O by exact Hx. repeat (match goal with |- context [adr_dec x ?a] => destruct (adr_dec x a) as [->|?E]; [exfalso; apply Ht; unfold append_touches; eauto 10|] end). reflexivity.
Qed.

(** ** Removing *)
Definition unlink_touches (L : list N) (l : loc) (x : adr) : Prop :=
  x = hda l FHead \/ x = hda l FTail \/ exists y, In y L /\ (x = nx y \/ x = pv y).
Definition remove_rest (f : nat) (lh : lhead) (v : N) : lprog unit :=
  tc <~ ld32 (le_tc (v - ENTRY)) ;;
  (if tc mod 256 =? M_Set.V_LIST then purge fuel f (HVal v) else lret tt) ;;~
  on_heap (fun b => heap_free b fuel (v - ENTRY)) ;;~
  c <~ lh_get lh FCount ;;
  lh_set lh FCount (add32 c (W32 - 1)).
Ltac clash_ent := first [assumption|match goal with H : _ -> ent _ _ |- _ => apply H; discriminate end|match goal with H : forall x, In x _ -> ent _ x |- _ => now apply H end].
Ltac clash EE := first
  [ match goal with X : forall k k', _ = _ -> k = k' |- _ => apply X in EE; discriminate EE end
  | match goal with X : forall (x : N) (k : lfield), ent _ x -> _ <> _ |- _ => refine (X _ _ _ EE); clash_ent end ].
Lemma unlink_ok B s A e l L1 L2 n f : HL B s A -> ent A e -> lok A l -> Forall (ent A) (L1 ++ L2) -> NoDup (L1 ++ e :: L2) ->
  dll (obs s) l (L1 ++ e :: L2) n ->
  exists s', remove_item fuel (S f) (head_of B l) (value_ptr B e) s = remove_rest f (head_of B l) (value_ptr B e) s' /\
    HL B s' A /\ dgn s' = dgn s /\ dll (obs s') l (L1 ++ L2) n /\
    forall x, al x -> ~ unlink_touches (L1 ++ L2) l x -> obs s' x = obs s x.
Proof.
  intros H He Hl HA HN (D1 & D2 & D3 & D4). destruct (chain_at _ _ _ _ _ D4) as (Cp & Cn).
  assert (Ele : value_ptr B e - ENTRY = B + e) by (unfold value_ptr, ENTRY; lia).
  cbn [remove_item]. unfold remove_rest. rewrite Ele. unfold le_prev, le_next, le_tc. rewrite <- !N.add_assoc.
  rewrite Forall_forall in HA.
  assert (Hl1 : L1 <> [] -> ent A (last L1 0)) by (intros Hne; apply HA, in_app_iff; left; now apply last_in).
  assert (Hh2 : L2 <> [] -> ent A (hd 0 L2)) by (intros Hne; apply HA, in_app_iff; right; destruct L2; [now elim Hne|now left]).
  assert (Epos : forall y, ent A y -> 0 < y < W32) by (intros y (z & Hz & _); apply (entry_lt _ _ _ _ H Hz)).
  assert (Vp : last L1 0 < W32) by (destruct L1; [cbn; unfold W32; lia|apply Epos, Hl1; discriminate]).
  assert (Vn : hd 0 L2 < W32) by (destruct L2; [cbn; unfold W32; lia|apply Epos, Hh2; discriminate]).
  assert (Hptr : forall y s, (y = 0 \/ ent A y) -> HL B s A -> h_ptr y s = Some (if y =? 0 then 0 else B + y, s)).
  { intros y s0 [->|(z & Hz & Hz12)] H0; [apply hptr_0|]. pose proof (Epos y (ex_intro _ z (conj Hz Hz12))) as Hy. rewrite (proj2 (N.eqb_neq y 0)) by lia. exact (hptr_ok _ _ _ (y, z) H0 Hz). }
  assert (Cl : last L1 0 = 0 \/ ent A (last L1 0)) by (destruct L1; [now left|right; apply Hl1; discriminate]).
  assert (Ch : hd 0 L2 = 0 \/ ent A (hd 0 L2)) by (destruct L2; [now left|right; apply Hh2; discriminate]).
  rewrite (lbind_eq _ _ _ _ _ (ld_ok _ _ _ _ H (mine_pv _ _ _ _ H He))). fold (pv e). rewrite Cp.
  rewrite (lbind_eq _ _ _ _ _ (Hptr _ _ Cl H)).
  rewrite (lbind_eq _ _ _ _ _ (ld_ok _ _ _ _ H (mine_nx _ _ _ _ H He))). fold (nx e). rewrite Cn.
  rewrite (lbind_eq _ _ _ _ _ (Hptr _ _ Ch H)).
  rewrite (lbind_eq _ _ _ _ _ (ld_ok _ _ _ _ H (mine_nx _ _ _ _ H He))). fold (nx e). rewrite Cn.
  pose proof (fun x k Hx => nx_hd _ _ _ x _ k H Hx Hl) as X1. pose proof (fun x k Hx => pv_hd _ _ _ x _ k H Hx Hl) as X2. pose proof (fun x y Hx Hy => nx_pv _ _ _ x y H Hx Hy) as X3.
  assert (X4 : forall k k', hda l k = hda l k' -> k = k') by (intros k k' E; now apply (hd_hd _ _ _ _ _ _ _ H Hl Hl) in E).
  assert (Y1 : forall x k, ent A x -> hda l k <> nx x) by (intros x k Hx Q; exact (X1 x k Hx (eq_sym Q))).
  assert (Y2 : forall x k, ent A x -> hda l k <> pv x) by (intros x k Hx Q; exact (X2 x k Hx (eq_sym Q))).
  (* the first write *)
  set (a1 := match L1 with [] => hda l FHead | _ => nx (last L1 0) end).
  assert (W1 : exists s1, (if negb ((if last L1 0 =? 0 then 0 else B + last L1 0) =? 0) then st32 (if last L1 0 =? 0 then 0 else B + last L1 0) (hd 0 L2) else lh_set (head_of B l) FHead (hd 0 L2)) s = Some (tt, s1)
     /\ wrote B A s s1 a1 (hd 0 L2)).
  { unfold a1. destruct L1 as [|y L1]; [cbn [last N.eqb negb]; apply hset_ok; auto; now apply (mine_hd _ _ _ _ _ H)|].
    pose proof (Epos _ (Hl1 ltac:(discriminate))) as Hp. rewrite (proj2 (N.eqb_neq (last (y :: L1) 0) 0)) by lia. rewrite (proj2 (N.eqb_neq (B + _) 0)) by lia. cbn [negb].
    apply st_ok; auto. apply (mine_nx _ _ _ _ H). apply Hl1. discriminate. }
  destruct W1 as (s1 & E1 & H1 & G1 & O1). rewrite (lbind_eq _ _ _ _ _ E1).
  assert (P1 : obs s1 (pv e) = last L1 0).
  { rewrite O1 by now apply (al_pv _ _ _ _ H). other a1; [|exact Cp]. unfold a1 in EE. destruct L1 as [|y L1]; [now apply (X2 e FHead)|]. symmetry in EE. apply (X3 _ _ (Hl1 ltac:(discriminate)) He) in EE. exact EE. }
  rewrite (lbind_eq _ _ _ _ _ (ld_ok _ _ _ _ H1 (mine_pv _ _ _ _ H1 He))). fold (pv e). rewrite P1.
  set (a2 := match L2 with [] => hda l FTail | _ => pv (hd 0 L2) end).
  assert (W2 : exists s2, (if negb ((if hd 0 L2 =? 0 then 0 else B + hd 0 L2) =? 0) then st32 ((if hd 0 L2 =? 0 then 0 else B + hd 0 L2) + 4) (last L1 0) else lh_set (head_of B l) FTail (last L1 0)) s1 = Some (tt, s2)
     /\ wrote B A s1 s2 a2 (last L1 0)).
  { unfold a2. destruct L2 as [|y L2]; [cbn [hd N.eqb negb]; apply hset_ok; auto; now apply (mine_hd _ _ _ _ _ H)|].
    pose proof (Epos _ (Hh2 ltac:(discriminate))) as Hp. rewrite (proj2 (N.eqb_neq (hd 0 (y :: L2)) 0)) by lia. rewrite (proj2 (N.eqb_neq (B + _) 0)) by lia. cbn [negb].
    rewrite <- N.add_assoc. apply st_ok; auto. apply (mine_pv _ _ _ _ H). apply Hh2. discriminate. }
  destruct W2 as (s2 & E2 & H2 & G2 & O2). rewrite (lbind_eq _ _ _ _ _ E2).
  exists s2. split; [reflexivity|]. split; [exact H2|]. split; [congruence|].
  assert (O : forall x, al x -> obs s2 x = if adr_dec x a2 then last L1 0 else if adr_dec x a1 then hd 0 L2 else obs s x) by (intros x Hx; now rewrite O2, O1).
  assert (Ha1 : forall y, ent A y -> a1 <> pv y).
  { intros y Hy E. unfold a1 in E. destruct L1 as [|z L1]; [symmetry in E; now apply (X2 y FHead) in E|]. now apply (X3 _ _ (Hl1 ltac:(discriminate)) Hy) in E. }
  assert (Ha2 : forall y, ent A y -> a2 <> nx y).
  { intros y Hy E. unfold a2 in E. destruct L2 as [|z L2]; [symmetry in E; now apply (X1 y FTail) in E|]. symmetry in E. now apply (X3 _ _ Hy (Hh2 ltac:(discriminate))) in E. }
  split.
  - unfold dll. rewrite !O by now apply (al_hd _ _ _ _ _ H).
    assert (Hx : L1 ++ e :: L2 <> []) by (destruct L1; discriminate).
    split; [|split; [|split]].
    + other a2; [unfold a2 in EE; destruct L2; [clash EE|clash EE]|].
      destruct L1 as [|y L1]; unfold a1; cbn [app].
      * destruct (adr_dec _ _) as [E|E]; [reflexivity|now elim E].
      * other (nx (last (y :: L1) 0)); [clash EE|]. exact D1.
    + destruct L2 as [|y L2]; unfold a2.
      * destruct (adr_dec _ _) as [E|E]; [|now elim E]. now rewrite app_nil_r.
      * other (pv (hd 0 (y :: L2))); [clash EE|]. other a1; [unfold a1 in EE; destruct L1; [clash EE|clash EE]|].
        rewrite D2. clear. induction L1 as [|x L1 IH]; [reflexivity|]. cbn [app]. destruct (L1 ++ e :: y :: L2) eqn:E1; [destruct L1; discriminate|]. destruct (L1 ++ y :: L2) eqn:E2; [destruct L1; discriminate|]. exact IH.
    + other a2; [unfold a2 in EE; destruct L2; [clash EE|clash EE]|]. other a1; [unfold a1 in EE; destruct L1; [clash EE|clash EE]|]. exact D3.
    + apply (chain_del (obs s) _ e); auto.
      * intros y Hy Hne. rewrite O by (apply (al_pv _ _ _ _ H); auto). other a1 || idtac. 2:{ other a2; [|reflexivity]. unfold a2 in EE. destruct Hne as [->|Hne]; [clash EE|]. destruct L2; [clash EE|]. now apply pv_inj in EE. }
        symmetry in EE. now apply Ha1 in EE; auto.
      * intros y Hy Hne. rewrite O by (apply (al_nx _ _ _ _ H); auto). other a2; [symmetry in EE; now apply Ha2 in EE; auto|]. other a1; [|reflexivity].
        unfold a1 in EE. destruct Hne as [->|Hne]; [clash EE|]. destruct L1; [clash EE|]. now apply nx_inj in EE.
      * intros Hne. rewrite O by (apply (al_nx _ _ _ _ H); auto). other a2; [symmetry in EE; now apply Ha2 in EE; auto|]. unfold a1. destruct L1; [now elim Hne|]. destruct (adr_dec _ _) as [E|E]; [reflexivity|now elim E].
      * intros Hne. rewrite O by (apply (al_pv _ _ _ _ H); auto). unfold a2. destruct L2; [now elim Hne|]. destruct (adr_dec _ _) as [E|E]; [reflexivity|now elim E].
  - intros x Hx Ht. rewrite O by exact Hx. other a2; [|other a1; [|reflexivity]]; apply Ht; unfold unlink_touches.
    + unfold a2 in EE. destruct L2 as [|y L2]; [auto|]. right. right. exists y. split; [apply in_app_iff; right; now left|auto].
    + unfold a1 in EE. destruct L1 as [|y L1]; [auto|]. right. right. exists (last (y :: L1) 0). split; [apply in_app_iff; left; apply last_in; discriminate|auto].
Qed.

(** ** States and what they stand for *)
Variable hoff : N.
Record shape (rk : N -> nat) (a : abs) : Prop := mkShape {
  sh_nodup : NoDup (ents a);
  sh_in : forall l e, has a l -> In e (seq a l) -> In e (ents a);
  sh_nd : forall l, has a l -> NoDup (seq a l);
  sh_one : forall l l' e, has a l -> has a l' -> In e (seq a l) -> In e (seq a l') -> l = l';
  sh_rk : forall p e, has a (Sub p) -> In e (seq a (Sub p)) -> (rk p < rk e)%nat;
  sh_sz : forall e, In e (ents a) -> typ a e = LIST -> siz a e = 16;
  sh_typ : forall e, In e (ents a) -> typ a e < 256;
  sh_rec : forall e, In e (ents a) -> isrec a e = true ->
    typ a e = 26 /\ 16 <= siz a e /\ cont a e 0 mod W32 = 2 /\ cont a e 1 mod W32 = (hoff + e + 12) mod W32 }.
Definition edata (g : adr -> N) (a : abs) (e : N) : Prop :=
  g (tca e) = typ a e + 256 * cnt a e /\
  (typ a e <> LIST -> forall k, 8 * k + 8 <= siz a e -> g (AH (e + 12 + 8 * k)) = cont a e k mod W32 /\ g (AH (e + 16 + 8 * k)) = cont a e k / W32).
Definition det (x : N) (g : adr -> N) (a : abs) : Prop :=
  forall e, In e (ents a) -> e <> x -> isrec a e = true -> detached a e -> g (nx e) = 0 /\ g (pv e) = 0.
Record Rel (rk : N -> nat) (adj : loc -> N) (x : N) (B : N) (s : lst) (a : abs) : Prop := mkRel {
  r_hl : HL B s (allocs a);
  r_sh : shape rk a;
  r_dll : forall l, has a l -> dll (obs s) l (seq a l) (N.of_nat (length (seq a l)) + adj l);
  r_len : forall l, has a l -> N.of_nat (length (seq a l)) + adj l < W32;
  r_dat : forall e, In e (ents a) -> edata (obs s) a e;
  r_det : det x (obs s) a;
  r_gen : dgn s = gen a }.

Lemma in_allocs a e : In e (ents a) -> In (e, siz a e + 12) (allocs a).
Proof. intros H. unfold allocs. now apply (in_map (fun e => (e, siz a e + 12))). Qed.
Lemma ent_a a e : In e (ents a) -> ent (allocs a) e.
Proof. intros H. exists (siz a e + 12). split; [now apply in_allocs|lia]. Qed.
Lemma lok_a rk a l : shape rk a -> has a l -> lok (allocs a) l.
Proof. intros HS H. destruct l as [i|e]; [exact I|]. destruct H as (Hin & Ht). exists (siz a e + 12). split; [now apply in_allocs|]. rewrite (sh_sz _ _ HS _ Hin Ht). lia. Qed.
Lemma own_one B s a e e' o : HL B s (allocs a) -> In e (ents a) -> In e' (ents a) -> e <= o < e + 12 + siz a e -> e' <= o < e' + 12 + siz a e' -> e = e'.
Proof.
  intros H He He' Ho Ho'. destruct (hl_bounds _ _ _ _ H (in_allocs _ _ He)) as (i & Hi & _). destruct (hl_bounds _ _ _ _ H (in_allocs _ _ He')) as (j & Hj & _). cbn [fst] in *.
  destruct H as (_ & H). destruct (ForallOrdPairs_In (live_apart _ _ _ _ _ H) _ _ (in_allocs _ _ He) (in_allocs _ _ He')) as [E|[E|E]]; [now injection E| |]; unfold apart in E; cbn [fst snd] in E; lia.
Qed.
Lemma cont_nx B s a e o y : HL B s (allocs a) -> In e (ents a) -> In y (ents a) -> e + 8 <= o < e + 12 + siz a e -> AH o <> nx y /\ AH o <> pv y.
Proof.
  intros H He Hy Ho. assert (Q : forall j, j < 8 -> o <> y + j).
  { intros j Hj ->. assert (e = y) as ->; [|lia]. apply (own_one _ _ _ _ _ (y + j) H He Hy); lia. }
  split; intros E; injection E as E; [apply (Q 0)|apply (Q 4)]; lia.
Qed.
Lemma cont_hd B s rk a e o l k : HL B s (allocs a) -> shape rk a -> In e (ents a) -> has a l -> e <= o < e + 12 + siz a e -> (o < e + 12 \/ typ a e <> LIST) -> AH o <> hda l k.
Proof.
  intros H HS He Hl Ho Ht E. destruct l as [i|p]; [discriminate|]. destruct Hl as (Hp & Tp). injection E as ->.
  pose proof (sh_sz _ _ HS _ Hp Tp) as Hsz. assert (e = p) as -> by (apply (own_one _ _ _ _ _ (p + 12 + koff k) H He Hp); [lia|destruct k; cbn [koff] in *; lia]). destruct k; cbn [koff] in *; intuition lia.
Qed.
Lemma mine_cont B s a e o : HL B s (allocs a) -> In e (ents a) -> e <= o < e + 12 + siz a e -> (o - e) mod 4 = 0 -> mine (allocs a) (AH o).
Proof. intros H He Ho Hm. replace o with (e + (o - e)) by lia. apply (mine_f _ _ _ _ (siz a e + 12) _ H (in_allocs _ _ He)); [lia|exact Hm]. Qed.
Lemma mod48 k j : j mod 4 = 0 -> (j + 8 * k) mod 4 = 0.
Proof. intros H. replace (j + 8 * k) with (j + (2 * k) * 4) by lia. now rewrite N.mod_add by lia. Qed.
(** The data of entries survives writes to links and list heads. *)
Lemma edata_frame B s rk a e g' : HL B s (allocs a) -> shape rk a -> In e (ents a) -> edata (obs s) a e ->
  (forall x, al x -> (forall y, In y (ents a) -> x <> nx y /\ x <> pv y) -> (forall l k, has a l -> x <> hda l k) -> g' x = obs s x) -> edata g' a e.
Proof.
  intros H HS He (D1 & D2) HO. assert (Q : forall o, e + 8 <= o < e + 12 + siz a e -> (o - e) mod 4 = 0 -> (o < e + 12 \/ typ a e <> LIST) -> g' (AH o) = obs s (AH o)).
  { intros o Ho Hm Ht. apply HO; [|intros y Hy; now apply (cont_nx _ _ _ e _ _ H)|intros l k Hl; apply (cont_hd _ _ _ _ e _ _ _ H HS); auto; lia].
    apply (mine_al _ _ _ _ H). apply (mine_cont _ _ _ e _ H He); [lia|exact Hm]. }
  split.
  - unfold tca in *. rewrite Q; [exact D1|lia| |lia]. now replace (e + 8 - e) with 8 by lia.
  - intros Ht k Hk. destruct (D2 Ht k Hk) as (E1 & E2). rewrite !Q; auto; lia.
Qed.
Lemma loc_eqb_spec l l' : Bool.reflect (l = l') (loc_eqb l l').
Proof. destruct l as [i|e], l' as [j|f]; cbn [loc_eqb]; try (constructor; discriminate); [destruct (N.eqb_spec i j)|destruct (N.eqb_spec e f)]; constructor; congruence. Qed.
Lemma setl_eq f l x : setl f l x l = x.
Proof. unfold setl. destruct (loc_eqb_spec l l); [reflexivity|now elim n]. Qed.
Lemma setl_ne f l x l' : l' <> l -> setl f l x l' = f l'.
Proof. intros H. unfold setl. destruct (loc_eqb_spec l' l); [now elim H|reflexivity]. Qed.
Definition bumped (adj : loc -> N) (l : loc) : loc -> N := fun y => if loc_eqb y l then adj y + 1 else adj y.
Definition with_seq (a : abs) (f : loc -> list N) : abs := mkAbs (ents a) f (typ a) (cnt a) (siz a) (isrec a) (cont a) (gen a).
Definition with_ents (a : abs) (E : list N) : abs := mkAbs E (seq a) (typ a) (cnt a) (siz a) (isrec a) (cont a) (gen a).
Definition with_both (a : abs) (E : list N) (f : loc -> list N) : abs := mkAbs E f (typ a) (cnt a) (siz a) (isrec a) (cont a) (gen a).

Lemma has_seq a f l : has (with_seq a f) l <-> has a l.
Proof. destruct l; reflexivity. Qed.
Lemma Forall_ents rk a l : shape rk a -> has a l -> Forall (ent (allocs a)) (seq a l).
Proof. intros HS Hl. apply Forall_forall. intros x Hx. apply ent_a. now apply (sh_in _ _ HS l). Qed.

Lemma shape_del rk a l L1 e L2 : shape rk a -> has a l -> seq a l = L1 ++ e :: L2 -> shape rk (with_seq a (setl (seq a) l (L1 ++ L2))).
Proof.
  intros HS Hl El. assert (Hsub : forall l' y, has a l' -> In y (setl (seq a) l (L1 ++ L2) l') -> In y (seq a l')).
  { intros l' y Hl' Hy. destruct (loc_eqb_spec l' l) as [->|Hne]; [rewrite setl_eq in Hy; rewrite El; apply in_app_iff; apply in_app_iff in Hy; cbn [In]; tauto|now rewrite setl_ne in Hy by exact Hne]. }
  constructor; cbn [with_seq ents seq typ cnt siz isrec cont]; try apply HS.
  - intros l' y Hl' Hy. rewrite has_seq in Hl'. apply (sh_in _ _ HS l'); auto.
  - intros l' Hl'. rewrite has_seq in Hl'. pose proof (sh_nd _ _ HS _ Hl') as HN. destruct (loc_eqb_spec l' l) as [->|Hne]; [rewrite setl_eq; rewrite El in HN; now apply NoDup_remove_1 in HN|now rewrite setl_ne].
  - intros l1 l2 y H1 H2 Y1 Y2. rewrite has_seq in H1, H2. apply (sh_one _ _ HS _ _ y); auto.
  - intros p y Hp Hy. rewrite has_seq in Hp. apply (sh_rk _ _ HS); auto.
Qed.
Lemma dll_frame B s rk a l g' n : HL B s (allocs a) -> shape rk a -> has a l -> dll (obs s) l (seq a l) n ->
  (forall k, g' (hda l k) = obs s (hda l k)) -> (forall y, In y (seq a l) -> g' (nx y) = obs s (nx y) /\ g' (pv y) = obs s (pv y)) -> dll g' l (seq a l) n.
Proof. intros H HS Hl HD H1 H2. now apply (dll_ext (obs s)). Qed.

Lemma unlink_rel rk adj B s a l L1 e L2 f : Rel rk adj 0 B s a -> has a l -> seq a l = L1 ++ e :: L2 ->
  exists s', remove_item fuel (S f) (head_of B l) (value_ptr B e) s = remove_rest f (head_of B l) (value_ptr B e) s' /\
    Rel rk (bumped adj l) e B s' (with_seq a (setl (seq a) l (L1 ++ L2))).
Proof.
  intros [H HS HD HLn Hdat Hdet Hg] Hl El. pose proof (HD l Hl) as Dl. rewrite El in Dl. pose proof (sh_nd _ _ HS l Hl) as HN. rewrite El in HN.
  assert (Hsub : forall y, In y (L1 ++ L2) -> In y (seq a l)) by (intros y; rewrite El, !in_app_iff; cbn [In]; tauto).
  assert (He : In e (seq a l)) by (rewrite El; apply in_app_iff; right; now left).
  assert (HA : Forall (ent (allocs a)) (L1 ++ L2)). { pose proof (Forall_ents _ _ _ HS Hl) as Q. rewrite Forall_forall in *. auto. }
  destruct (unlink_ok B s (allocs a) e l L1 L2 _ f H (ent_a _ _ (sh_in _ _ HS _ _ Hl He)) (lok_a _ _ _ HS Hl) HA HN Dl) as (s' & E & H' & G' & D' & O').
  exists s'. split; [exact E|]. pose proof (NoDup_remove_2 _ _ _ HN) as Hni.
  assert (Ol : forall l' k, has a l' -> l' <> l -> obs s' (hda l' k) = obs s (hda l' k)).
  { intros l' k Hl' Hne. apply O'; [now apply (al_hd _ _ _ _ _ H), (lok_a _ _ _ HS)|]. intros [Q|[Q|(y & Hy & [Q|Q])]].
    - apply (hd_hd _ _ _ _ _ _ _ H (lok_a _ _ _ HS Hl') (lok_a _ _ _ HS Hl)) in Q. tauto.
    - apply (hd_hd _ _ _ _ _ _ _ H (lok_a _ _ _ HS Hl') (lok_a _ _ _ HS Hl)) in Q. tauto.
    - symmetry in Q. refine (nx_hd _ _ _ _ _ _ H (ent_a _ _ (sh_in _ _ HS l _ Hl (Hsub _ Hy))) (lok_a _ _ _ HS Hl') Q).
    - symmetry in Q. refine (pv_hd _ _ _ _ _ _ H (ent_a _ _ (sh_in _ _ HS l _ Hl (Hsub _ Hy))) (lok_a _ _ _ HS Hl') Q). }
  assert (Oe : forall y, In y (ents a) -> ~ In y (L1 ++ L2) -> obs s' (nx y) = obs s (nx y) /\ obs s' (pv y) = obs s (pv y)).
  { intros y Hy Hny. pose proof (ent_a _ _ Hy) as Ey. split; (apply O'; [first [now apply (al_nx _ _ _ _ H)|now apply (al_pv _ _ _ _ H)]|]); intros [Q|[Q|(z & Hz & [Q|Q])]].
    - exact (nx_hd _ _ _ _ _ _ H Ey (lok_a _ _ _ HS Hl) Q).
    - exact (nx_hd _ _ _ _ _ _ H Ey (lok_a _ _ _ HS Hl) Q).
    - apply nx_inj in Q. subst z. contradiction.
    - exact (nx_pv _ _ _ _ _ H Ey (ent_a _ _ (sh_in _ _ HS l _ Hl (Hsub _ Hz))) Q).
    - exact (pv_hd _ _ _ _ _ _ H Ey (lok_a _ _ _ HS Hl) Q).
    - exact (pv_hd _ _ _ _ _ _ H Ey (lok_a _ _ _ HS Hl) Q).
    - symmetry in Q. exact (nx_pv _ _ _ _ _ H (ent_a _ _ (sh_in _ _ HS l _ Hl (Hsub _ Hz))) Ey Q).
    - apply pv_inj in Q. subst z. contradiction. }
  constructor.
  - exact H'.
  - now apply (shape_del _ _ _ _ e).
  - intros l' Hl'. rewrite has_seq in Hl'. cbn [with_seq seq]. destruct (loc_eqb_spec l' l) as [->|Hne].
    + rewrite setl_eq. unfold bumped. destruct (loc_eqb_spec l l) as [_|Q]; [|now elim Q]. replace (N.of_nat (length (L1 ++ L2)) + (adj l + 1)) with (N.of_nat (length (L1 ++ e :: L2)) + adj l); [exact D'|]. rewrite !app_length. cbn [length]. lia.
    + rewrite setl_ne by exact Hne. unfold bumped. destruct (loc_eqb_spec l' l) as [Q|_]; [now elim Hne|]. apply (dll_frame _ _ _ _ _ _ _ H HS Hl'); [now apply HD|now intros k; apply Ol|].
      intros y Hy. apply Oe; [now apply (sh_in _ _ HS l')|]. intros Q. apply Hne. apply (sh_one _ _ HS _ _ y); auto.
  - intros l' Hl'. rewrite has_seq in Hl'. specialize (HLn l' Hl'). cbn [with_seq seq]. unfold bumped. destruct (loc_eqb_spec l' l) as [->|Hne]; [rewrite setl_eq; rewrite El in HLn; rewrite !app_length in *; cbn [length] in *; lia|now rewrite setl_ne].
  - intros y Hy. cbn [with_seq ents] in Hy. change (edata (obs s') a y). apply (edata_frame B s rk); auto. intros x Hx N1 N2. apply O'; [exact Hx|]. intros [Q|[Q|(z & Hz & Q)]]; [now apply (N2 l FHead)|now apply (N2 l FTail)|].
    destruct (N1 z (sh_in _ _ HS l _ Hl (Hsub _ Hz))). tauto.
  - intros y Hy Hne Hr Hd. cbn [with_seq ents isrec] in *. assert (Hda : detached a y).
    { intros l' Hl' Hin. destruct (loc_eqb_spec l' l) as [->|Hnl].
      - apply (Hd l); [now rewrite has_seq|]. cbn [with_seq seq]. rewrite setl_eq. rewrite El in Hin. apply in_app_iff in Hin. apply in_app_iff. cbn [In] in Hin. destruct Hin as [?|[?|?]]; [now left|congruence|now right].
      - apply (Hd l'); [now rewrite has_seq|]. cbn [with_seq seq]. now rewrite setl_ne. }
    assert (y <> 0) as Hy0. { destruct (ent_form _ _ _ _ H (ent_a _ _ Hy)) as (i & ->). lia. }
    destruct (Hdet y Hy Hy0 Hr Hda) as (Z1 & Z2). destruct (Oe y Hy) as (-> & ->); [|auto]. intros Q. now apply (Hda l Hl), Hsub.
  - cbn [with_seq gen]. congruence.
Qed.

(** ** Freeing, counting, purging *)
Lemma undist_obs B s s' A o : HL B s A -> HL B s' A -> undisturbed B (gsz hgrain) A (mem (hst s)) (mem (hst s')) -> mine A (AH o) -> obs s' (AH o) = obs s (AH o).
Proof.
  intros H H' HU Hm. pose proof (mine_al _ _ _ _ H' Hm) as Ha. destruct Hm as ((e & Hin & Ho) & _). destruct (block_cell _ _ _ _ _ H' Hin Ho Ha) as (_ & Hb & _).
  cbn [obs]. destruct H as (-> & _), H' as (-> & _). unfold rdm. now rewrite (HU _ _ Hin Hb).
Qed.
Lemma has_sub a E f l : (forall x, In x E -> In x (ents a)) -> has (with_both a E f) l -> has a l.
Proof. intros HE. destruct l as [i|e]; [auto|]. intros (H1 & H2). split; [now apply HE|exact H2]. Qed.
(** The state seen through other entries and sequences *)
Lemma rel_same rk rk' adj x x' B s s' a E f : Rel rk adj x B s a -> HL B s' (allocs (with_both a E f)) -> (forall y, In y E -> In y (ents a)) ->
  dgn s' = gen a -> shape rk' (with_both a E f) ->
  (forall z, mine (allocs (with_both a E f)) z -> obs s' z = obs s z) ->
  (forall l, has (with_both a E f) l -> f l = seq a l) -> (x = 0 \/ ~ In x E) -> (forall y, In y E -> detached (with_both a E f) y -> detached a y) -> Rel rk' adj x' B s' (with_both a E f).
Proof.
  intros [H HS HD HLn Hdat Hdet Hg] H' HE Hg' HS' HO Hf' Hx Hdd. constructor; auto.
  - intros l Hl. pose proof (has_sub _ _ _ _ HE Hl) as Hl0. cbn [with_both seq]. rewrite (Hf' l Hl). specialize (HD l Hl0). apply (dll_ext (obs s)); [| |exact HD].
    + intros k. apply HO. apply (mine_hd _ _ _ _ _ H'). now apply (lok_a rk').
    + intros y Hy. rewrite <- (Hf' l Hl) in Hy. pose proof (sh_in _ _ HS' l y Hl Hy) as Hy'. split; apply HO; [now apply (mine_nx _ _ _ _ H'), ent_a|now apply (mine_pv _ _ _ _ H'), ent_a].
  - intros l Hl. cbn [with_both seq]. rewrite (Hf' l Hl). apply HLn. now apply (has_sub a E f).
  - intros e He. cbn [with_both ents] in He. destruct (Hdat e (HE e He)) as (D1 & D2). split; [rewrite HO; [exact D1|now apply (mine_tc _ _ _ _ H'), ent_a]|].
    intros Ht k Hk. cbn [with_both typ siz cont] in *. destruct (D2 Ht k Hk) as (E1 & E2). rewrite !HO; [auto| |]; apply (mine_cont B s' (with_both a E f) e); cbn [with_both ents siz]; auto; lia.
  - intros e He Hne Hr Hd. cbn [with_both ents isrec] in *. pose proof (HE e He) as He0. assert (e <> x) as Hex. { destruct Hx as [->|Hx]; [destruct (ent_form _ _ _ _ H (ent_a _ _ He0)) as (i & ->); lia|]. now intros ->. }
    destruct (Hdet e He0 Hex Hr (Hdd e He Hd)) as (Z1 & Z2). rewrite !HO; [auto|now apply (mine_pv _ _ _ _ H'), ent_a|now apply (mine_nx _ _ _ _ H'), ent_a].
Qed.

Lemma shape_sub rk a E f : shape rk a -> NoDup E -> (forall y, In y E -> In y (ents a)) -> (forall l, has (with_both a E f) l -> f l = seq a l) ->
  (forall l y, has (with_both a E f) l -> In y (f l) -> In y E) -> shape rk (with_both a E f).
Proof.
  intros HS HN HE Hf' Hcl. pose proof (fun l => has_sub a E f l HE) as Hh. constructor; cbn [with_both ents seq typ cnt siz isrec cont].
  - exact HN.
  - exact Hcl.
  - intros l Hl. rewrite Hf' by exact Hl. apply (sh_nd _ _ HS). auto.
  - intros l l' y Hl Hl' Hy Hy'. rewrite Hf' in Hy, Hy' by assumption. apply (sh_one _ _ HS _ _ y); auto.
  - intros p y Hp Hy. rewrite Hf' in Hy by assumption. apply (sh_rk _ _ HS); auto.
  - intros y Hy. apply (sh_sz _ _ HS). auto.
  - intros y Hy. apply (sh_typ _ _ HS). auto.
  - intros y Hy. apply (sh_rec _ _ HS). auto.
Qed.
Lemma free_rel rk adj x B s a E1 e E2 : Rel rk adj x B s a -> ents a = E1 ++ e :: E2 -> detached a e -> (typ a e = LIST -> seq a (Sub e) = []) -> (x = 0 \/ x = e) ->
  exists s', on_heap (fun b => heap_free b fuel (B + e)) s = Some (tt, s') /\ Rel rk adj 0 B s' (with_both a (E1 ++ E2) (seq a)).
Proof.
  intros HR EE Hd Hkids Hx. pose proof HR as [(HB & H) HS HD HLn Hdat Hdet Hg].
  assert (EA : allocs a = allocs (with_ents a E1) ++ (e, siz a e + 12) :: allocs (with_ents a E2)) by (unfold allocs; rewrite EE, map_app; reflexivity).
  rewrite EA in H. destruct (free_top _ _ _ Hf _ _ _ _ _ _ H) as (h' & Ef & HU & H').
  assert (EA' : allocs (with_both a (E1 ++ E2) (seq a)) = allocs (with_ents a E1) ++ allocs (with_ents a E2)) by (unfold allocs; cbn [with_both with_ents ents siz]; now rewrite map_app).
  rewrite <- EA' in *. exists (with_heap s h'). split; [unfold on_heap; now rewrite HB, Ef|].
  assert (HE : forall y, In y (E1 ++ E2) -> In y (ents a)) by (intros y; rewrite EE, !in_app_iff; cbn [In]; tauto).
  assert (Hni : ~ In e (E1 ++ E2)) by (pose proof (sh_nodup _ _ HS) as HN; rewrite EE in HN; now apply NoDup_remove_2 in HN).
  assert (HLs : HL B s (allocs (with_both a (E1 ++ E2) (seq a))) -> True) by auto.
  apply (rel_same rk rk adj x 0 B s); auto.
  - split; [exact HB|exact H'].
  - apply shape_sub; auto.
    + pose proof (sh_nodup _ _ HS) as HN. rewrite EE in HN. now apply NoDup_remove_1 in HN.
    + intros l y Hl Hy. pose proof (has_sub _ _ _ _ HE Hl) as Hl0. pose proof (sh_in _ _ HS _ _ Hl0 Hy) as Hin. rewrite EE in Hin. apply in_app_iff in Hin. apply in_app_iff. cbn [In] in Hin.
      destruct Hin as [?|[<-|?]]; [now left| |now right]. now apply Hd in Hy.
  - intros [i k|o] Hz; [reflexivity|]. pose proof (mine_al B (with_heap s h') _ _ (conj HB H') Hz) as Ha. destruct Hz as ((z & Hin & Ho) & Hm4). destruct (block_cell B (with_heap s h') _ _ _ (conj HB H') Hin Ho Ha) as (_ & Hb & _).
    cbn [obs with_heap lbase hst]. unfold rdm. rewrite HB. now rewrite (HU _ _ Hin Hb).
  - destruct Hx as [->| ->]; [now left|now right].
  - intros y Hy Hdy l Hl Hin. destruct l as [i|p]; [exact (Hdy (Top i) I Hin)|]. destruct Hl as (Hp & Tp). destruct (N.eq_dec p e) as [->|Hne]; [rewrite (Hkids Tp) in Hin; contradiction|].
    apply (Hdy (Sub p)); [|exact Hin]. split; [|exact Tp]. cbn [with_both ents]. rewrite EE in Hp. apply in_app_iff in Hp. apply in_app_iff. cbn [In] in Hp. destruct Hp as [?|[?|?]]; [now left|congruence|now right].
Qed.
Lemma dec_rel rk adj x B s a l : Rel rk (bumped adj l) x B s a -> has a l ->
  exists s', (c <~ lh_get (head_of B l) FCount ;; lh_set (head_of B l) FCount (add32 c (W32 - 1))) s = Some (tt, s') /\ Rel rk adj x B s' a.
Proof.
  intros [H HS HD HLn Hdat Hdet Hg] Hl. pose proof (lok_a _ _ _ HS Hl) as Lk. rewrite (lbind_eq _ _ _ _ _ (hget_ok _ _ _ _ _ H (mine_hd _ _ _ _ FCount H Lk))).
  pose proof (HD l Hl) as (D1 & D2 & D3 & D4). rewrite D3. pose proof (HLn l Hl) as Hn. assert (Eb : bumped adj l l = adj l + 1) by (unfold bumped; destruct (loc_eqb_spec l l); [reflexivity|now elim n]). rewrite Eb in *.
  set (n := N.of_nat (length (seq a l))) in *. assert (Ec : add32 (n + (adj l + 1)) (W32 - 1) = n + adj l).
  { unfold add32. replace (n + (adj l + 1) + (W32 - 1)) with (n + adj l + 1 * W32) by (unfold W32; lia). rewrite N.mod_add by discriminate. apply N.mod_small. lia. }
  rewrite Ec. destruct (hset_ok _ _ _ l FCount (n + adj l) H (mine_hd _ _ _ _ FCount H Lk) ltac:(lia)) as (s' & E & H' & G' & O'). exists s'. split; [exact E|].
  assert (Oe : forall y, In y (ents a) -> obs s' (nx y) = obs s (nx y) /\ obs s' (pv y) = obs s (pv y)).
  { intros y Hy. pose proof (ent_a _ _ Hy) as Ey. rewrite !O' by (first [now apply (al_nx _ _ _ _ H)|now apply (al_pv _ _ _ _ H)]). split.
    - other (hda l FCount); [now apply (nx_hd _ _ _ _ _ _ H Ey Lk) in EE|reflexivity].
    - other (hda l FCount); [now apply (pv_hd _ _ _ _ _ _ H Ey Lk) in EE|reflexivity]. }
  constructor; auto.
  - intros l' Hl'. pose proof (lok_a _ _ _ HS Hl') as Lk'. destruct (loc_eqb_spec l' l) as [->|Hne].
    + unfold dll. rewrite !O' by now apply (al_hd _ _ _ _ _ H). other (hda l FCount); [now apply (hd_hd _ _ _ _ _ _ _ H Lk Lk) in EE|]. other (hda l FCount); [now apply (hd_hd _ _ _ _ _ _ _ H Lk Lk) in EE|].
      destruct (adr_dec (hda l FCount) (hda l FCount)) as [_|Q]; [|now elim Q]. split; [exact D1|]. split; [exact D2|]. split; [reflexivity|]. apply (chain_ext (obs s)); [|exact D4]. intros y Hy. apply Oe. now apply (sh_in _ _ HS l).
    + specialize (HD l' Hl'). assert (Eb' : bumped adj l l' = adj l') by (unfold bumped; destruct (loc_eqb_spec l' l); [now elim Hne|reflexivity]). rewrite Eb' in HD. apply (dll_ext (obs s)); [| |exact HD].
      * intros k. rewrite O' by now apply (al_hd _ _ _ _ _ H). other (hda l FCount); [now apply (hd_hd _ _ _ _ _ _ _ H Lk' Lk) in EE|reflexivity].
      * intros y Hy. apply Oe. now apply (sh_in _ _ HS l').
  - intros l' Hl'. specialize (HLn l' Hl'). unfold bumped in HLn. destruct (loc_eqb l' l); lia.
  - intros e He. apply (edata_frame B s rk); auto. intros z Hz N1 N2. rewrite O' by exact Hz. other (hda l FCount); [now apply (N2 l FCount)|reflexivity].
  - intros e He Hne Hr Hde. destruct (Oe e He) as (-> & ->). now apply Hdet.
  - congruence.
Qed.

(** What is inside a list *)
Lemma inside_rank rk a l x : shape rk a -> has a l -> inside a l x -> In x (ents a) /\ match l with Top _ => True | Sub p => (rk p < rk x)%nat end.
Proof.
  intros HS Hl HI. induction HI as [l e Hin|l e x Hin Ht HI IH].
  - split; [now apply (sh_in _ _ HS l)|]. destruct l as [i|p]; [exact I|]. now apply (sh_rk _ _ HS).
  - destruct IH as (I1 & I2); [split; [now apply (sh_in _ _ HS l)|exact Ht]|]. split; [exact I1|]. destruct l as [i|p]; [exact I|]. pose proof (sh_rk _ _ HS _ _ Hl Hin). lia.
Qed.
Lemma inside_cong (P : loc -> Prop) a a' : (forall e, typ a' e = typ a e) -> (forall l, P l -> seq a' l = seq a l) -> (forall l e, P l -> In e (seq a l) -> typ a e = LIST -> P (Sub e)) ->
  forall l x, P l -> inside a l x <-> inside a' l x.
Proof.
  intros Ht Hs Hc l x HP. split; intros HI; revert HP.
  - induction HI as [l e Hin|l e x Hin Tl HI IH]; intros HP; [apply in_here; now rewrite Hs|]. apply (in_below _ _ e); [now rewrite Hs|now rewrite Ht|]. apply IH. now apply (Hc l).
  - induction HI as [l e Hin|l e x Hin Tl HI IH]; intros HP; rewrite Hs in Hin by exact HP; [now apply in_here|]. rewrite Ht in Tl. apply (in_below _ _ e); auto. apply IH. now apply (Hc l).
Qed.
Lemma inside_below rk a l e f x : shape rk a -> has a l -> In e (seq a l) -> typ a e = LIST -> (forall l', l' <> l -> f l' = seq a l') -> forall E, inside a (Sub e) x <-> inside (with_both a E f) (Sub e) x.
Proof.
  intros HS Hl Hin Ht Hf' E. apply (inside_cong (fun l' => exists p, l' = Sub p /\ has a (Sub p) /\ (rk e <= rk p)%nat)).
  - reflexivity.
  - intros l' (p & -> & Hp & Hr). cbn [with_both seq]. apply Hf'. intros <-. pose proof (sh_rk _ _ HS _ _ Hl Hin). lia.
  - intros l' y (p & -> & Hp & Hr) Hy Ty. exists y. split; [reflexivity|]. split; [split; [now apply (sh_in _ _ HS (Sub p))|exact Ty]|]. pose proof (sh_rk _ _ HS _ _ Hp Hy). lia.
  - exists e. split; [reflexivity|]. split; [|lia]. split; [now apply (sh_in _ _ HS l)|exact Ht].
Qed.
Definition aboveb (rk : N -> nat) (l : loc) (x : N) : bool := match l with Top _ => true | Sub p => (rk p <? rk x)%nat end.
Definition nab (rk : N -> nat) (a : abs) (l : loc) : nat := length (filter (aboveb rk l) (ents a)).
Lemma nab_less rk a l E m : NoDup E -> (forall y, In y E -> In y (ents a) /\ y <> m) -> In m (ents a) -> aboveb rk l m = true -> (length (filter (aboveb rk l) E) < nab rk a l)%nat.
Proof.
  intros HN HE Hm Ha. unfold nab. assert (NoDup (m :: filter (aboveb rk l) E)) as HN'. { constructor; [|now apply NoDup_filter]. intros Q. apply filter_In in Q as (Q & _). now apply HE in Q. }
  apply (NoDup_incl_length HN'). intros y [<-|Hy]; apply filter_In; [now split|]. apply filter_In in Hy as (Hy & Hy'). split; [now apply HE|exact Hy'].
Qed.
Lemma nab_down rk a l e : shape rk a -> has a l -> In e (seq a l) -> (nab rk a (Sub e) < nab rk a l)%nat.
Proof.
  intros HS Hl He. assert (He' : In e (ents a)) by now apply (sh_in _ _ HS l). unfold nab.
  assert (HN' : NoDup (e :: filter (aboveb rk (Sub e)) (ents a))). { constructor; [|apply NoDup_filter, HS]. intros Q. apply filter_In in Q as (_ & Q). cbn [aboveb] in Q. lia. }
  apply (NoDup_incl_length HN'). intros y Hy. apply filter_In. destruct l as [i|p]; cbn [aboveb]; [split; [|reflexivity]; destruct Hy as [<-|Hy]; [exact He'|now apply filter_In in Hy]|].
  pose proof (sh_rk _ _ HS _ _ Hl He) as Hr. destruct Hy as [<-|Hy]; [split; [exact He'|now apply Nat.ltb_lt]|]. apply filter_In in Hy as (Hy & Hy'). cbn [aboveb] in Hy'. split; [exact Hy|]. apply Nat.ltb_lt in Hy'. apply Nat.ltb_lt. lia.
Qed.
Lemma remove_mid e L1 L2 : NoDup (L1 ++ e :: L2) -> remove N.eq_dec e (L1 ++ e :: L2) = L1 ++ L2.
Proof.
  intros HN. rewrite remove_app. cbn [remove]. destruct (N.eq_dec e e) as [_|Q]; [|now elim Q]. apply NoDup_remove_2 in HN. rewrite in_app_iff in HN. rewrite !notin_remove by tauto. reflexivity.
Qed.
Lemma rel_ext rk adj x B s a E f f' : Rel rk adj x B s (with_both a E f) -> (forall l, has (with_both a E f) l -> f' l = f l) -> Rel rk adj x B s (with_both a E f').
Proof.
  intros HR Hx. pose proof HR as [H HS HD HLn Hdat Hdet Hg].
  assert (HS' : shape rk (with_both a E f')).
  { apply (shape_sub rk (with_both a E f) E f'); auto; [apply HS|]. intros l y Hl Hy. assert (Hl' : has (with_both a E f) l) by (destruct l; exact Hl). rewrite Hx in Hy by exact Hl'. exact (sh_in _ _ HS l y Hl' Hy). }
  constructor; auto.
  - intros l Hl. assert (Hl' : has (with_both a E f) l) by (destruct l; exact Hl). cbn [with_both seq]. rewrite Hx by exact Hl'. now apply HD.
  - intros l Hl. assert (Hl' : has (with_both a E f) l) by (destruct l; exact Hl). cbn [with_both seq]. rewrite Hx by exact Hl'. now apply HLn.
  - intros e He Hne Hr Hd. apply (Hdet e He Hne Hr). intros l Hl Hin. apply (Hd l); [destruct l; exact Hl|]. cbn [with_both seq] in *. now rewrite Hx.
Qed.
Lemma rel_exempt rk adj e B s a : Rel rk adj e B s a -> isrec a e = false -> Rel rk adj 0 B s a.
Proof. intros [H HS HD HLn Hdat Hdet Hg] Hr. constructor; auto. intros y Hy Hne Hry Hd. apply Hdet; auto. intros ->. congruence. Qed.

Definition purge_spec (n : nat) : Prop := forall rk adj B s a l f, Rel rk adj 0 B s a -> has a l -> (nab rk a l <= n)%nat -> (2 * n + 1 <= f)%nat ->
  exists s' E, purge fuel f (head_of B l) s = Some (tt, s') /\ NoDup E /\ (forall x, In x E <-> In x (ents a) /\ ~ inside a l x) /\
    Rel rk adj 0 B s' (with_both a E (setl (seq a) l [])).
Lemma remove_rel rk adj B s a l e f n : Rel rk adj 0 B s a -> has a l -> In e (seq a l) -> (nab rk a (Sub e) <= n)%nat -> (typ a e = LIST -> purge_spec n) -> (2 * n + 2 <= f)%nat ->
  exists s' E, remove_item fuel f (head_of B l) (value_ptr B e) s = Some (tt, s') /\ NoDup E /\
    (forall x, In x E <-> In x (ents a) /\ x <> e /\ ~ (typ a e = LIST /\ inside a (Sub e) x)) /\
    Rel rk adj 0 B s' (with_both a E (setl (seq a) l (remove N.eq_dec e (seq a l)))).
Proof.
  intros HR Hl Hin Hn HP Hfu. pose proof (r_sh _ _ _ _ _ _ HR) as HS. pose proof (sh_in _ _ HS _ _ Hl Hin) as He. destruct f as [|f]; [lia|].
  destruct (in_split _ _ Hin) as (L1 & L2 & El). destruct (unlink_rel rk adj B s a l L1 e L2 f HR Hl El) as (s1 & E1 & R1). rewrite E1. clear E1.
  pose proof (sh_nd _ _ HS _ Hl) as HN. rewrite El in HN. pose proof (NoDup_remove_2 _ _ _ HN) as Hni.
  set (g1 := setl (seq a) l (L1 ++ L2)) in *. set (a1 := with_seq a g1) in *. pose proof (r_sh _ _ _ _ _ _ R1) as HS1. pose proof (r_hl _ _ _ _ _ _ R1) as H1.
  assert (He1 : In e (ents a1)) by exact He. unfold remove_rest. replace (value_ptr B e - ENTRY) with (B + e) by (unfold value_ptr, ENTRY; lia). unfold le_tc. rewrite <- N.add_assoc.
  rewrite (lbind_eq _ _ _ _ _ (ld_ok _ _ _ _ H1 (mine_tc _ _ _ _ H1 (ent_a _ _ He1)))). fold (tca e). destruct (r_dat _ _ _ _ _ _ R1 e He1) as (Dt & _). rewrite Dt.
  assert (Et : (typ a1 e + 256 * cnt a1 e) mod 256 = typ a e). { change (typ a1 e) with (typ a e). rewrite (N.mul_comm 256), N.mod_add by discriminate. apply N.mod_small. now apply (sh_typ _ _ HS). }
  rewrite Et. change M_Set.V_LIST with LIST.
  assert (Hd1 : detached a1 e).
  { intros l' Hl' Q. cbn [a1 with_seq seq] in Q. apply has_seq in Hl'. unfold g1 in Q. destruct (loc_eqb_spec l' l) as [->|Hne]; [rewrite setl_eq in Q; contradiction|]. rewrite setl_ne in Q by exact Hne. apply Hne. apply (sh_one _ _ HS _ _ e); auto. }
  (* after the purge of the value *)
  assert (HM : exists s2 E2, (if typ a e =? LIST then purge fuel f (HVal (value_ptr B e)) else lret tt) s1 = Some (tt, s2) /\ NoDup E2 /\
     (forall x, In x E2 <-> In x (ents a) /\ ~ (typ a e = LIST /\ inside a (Sub e) x)) /\
     (exists x, (x = 0 \/ x = e) /\ Rel rk (bumped adj l) x B s2 (with_both a E2 (if typ a e =? LIST then setl g1 (Sub e) [] else g1)))).
  { destruct (N.eqb_spec (typ a e) LIST) as [Ht|Ht].
    - assert (Hr : isrec a e = false) by (destruct (isrec a e) eqn:Q; [|reflexivity]; destruct (sh_rec _ _ HS _ He Q) as (Q1 & _); unfold LIST in Ht; lia).
      assert (Hsub : has a1 (Sub e)) by (split; assumption).
      destruct (HP Ht rk (bumped adj l) B s1 a1 (Sub e) f (rel_exempt _ _ _ _ _ _ R1 Hr) Hsub Hn ltac:(lia)) as (s2 & E2 & P1 & P2 & P3 & P4).
      exists s2, E2. split; [exact P1|]. split; [exact P2|]. split; [|exists 0; split; [now left|exact P4]].
      intros x. rewrite P3. change (ents a1) with (ents a). assert (Hii : inside a (Sub e) x <-> inside a1 (Sub e) x); [|rewrite Hii; intuition].
      apply (inside_below rk a l e g1 x HS Hl Hin Ht). intros l' Hne. unfold g1. now rewrite setl_ne.
    - exists s1, (ents a). split; [reflexivity|]. split; [apply HS|]. split; [intros x; tauto|]. exists e. split; [now right|exact R1]. }
  destruct HM as (s2 & E2 & M1 & M2 & M3 & x & Hx & R2). rewrite (lbind_eq _ _ _ _ _ M1).
  assert (Hself : ~ (typ a e = LIST /\ inside a (Sub e) e)). { intros (Ht & Q). apply (inside_rank rk) in Q as (_ & Q); [lia|exact HS|now split]. }
  assert (He2 : In e E2) by (apply M3; auto). destruct (in_split _ _ He2) as (F1 & F2 & EF).
  set (g2 := if typ a e =? LIST then setl g1 (Sub e) [] else g1) in *.
  assert (HE2 : forall y, In y E2 -> In y (ents a)) by (intros y Hy; now apply M3 in Hy).
  destruct (free_rel rk (bumped adj l) x B s2 (with_both a E2 g2) F1 e F2 R2 EF) as (s3 & E3 & R3); [| |exact Hx|].
  { intros l' Hl' Q. cbn [with_both seq] in Q. assert (Q1 : In e (g1 l')). { unfold g2 in Q. destruct (N.eqb_spec (typ a e) LIST); [|exact Q]. destruct (loc_eqb_spec l' (Sub e)) as [->|Hne]; [now rewrite setl_eq in Q|now rewrite setl_ne in Q]. }
    apply (Hd1 l'); [|exact Q1]. apply has_seq. exact (has_sub _ _ _ _ HE2 Hl'). }
  { intros Ht. cbn [with_both typ seq] in *. unfold g2. rewrite Ht, N.eqb_refl. apply setl_eq. }
  rewrite (lbind_eq _ _ _ _ _ E3). cbn [with_both seq] in R3.
  assert (Hni2 : ~ In e (F1 ++ F2)) by (rewrite EF in M2; now apply NoDup_remove_2 in M2).
  assert (HF : forall y, In y (F1 ++ F2) <-> In y E2 /\ y <> e).
  { intros y. rewrite EF, !in_app_iff. cbn [In]. rewrite in_app_iff in Hni2. split; [intros [Q|Q]; (split; [tauto|intros ->; tauto])|]. intros ([Q|[Q|Q]] & Hne); auto. now elim Hne. }
  change (with_both (with_both a E2 g2) (F1 ++ F2) g2) with (with_both a (F1 ++ F2) g2) in R3.
  assert (Hl3 : has (with_both a (F1 ++ F2) g2) l).
  { destruct l as [i|p]; [exact I|]. destruct Hl as (Hp & Tp). split; [|exact Tp]. cbn [with_both ents]. apply HF. pose proof (sh_rk _ _ HS p e (conj Hp Tp) Hin) as Hr. split; [|intros ->; lia].
    apply M3. split; [exact Hp|]. intros (Ht & Q). apply (inside_rank rk) in Q as (_ & Q); [lia|exact HS|now split]. }
  destruct (dec_rel rk adj 0 B s3 (with_both a (F1 ++ F2) g2) l R3 Hl3) as (s4 & E4 & R4).
  exists s4, (F1 ++ F2). split; [exact E4|]. split; [rewrite EF in M2; now apply NoDup_remove_1 in M2|]. split.
  - intros y. rewrite HF, M3. tauto.
  - rewrite El, remove_mid by exact HN. fold g1. apply (rel_ext _ _ _ _ _ _ _ g2); [exact R4|]. intros l' Hl'. unfold g2. destruct (typ a e =? LIST); [|reflexivity]. rewrite setl_ne; [reflexivity|]. intros ->. destruct Hl' as (Q & _). contradiction.
Qed.

Lemma first_ok rk adj x B s a l : Rel rk adj x B s a -> has a l ->
  list_first (head_of B l) s = Some (match seq a l with [] => None | e :: _ => Some (value_ptr B e, typ a e, cnt a e) end, s).
Proof.
  intros HR Hl. pose proof (r_hl _ _ _ _ _ _ HR) as H. pose proof (r_sh _ _ _ _ _ _ HR) as HS. unfold list_first.
  rewrite (lbind_eq _ _ _ _ _ (hget_ok _ _ _ _ _ H (mine_hd _ _ _ _ FHead H (lok_a _ _ _ HS Hl)))). destruct (r_dll _ _ _ _ _ _ HR l Hl) as (D1 & _). rewrite D1.
  destruct (seq a l) as [|e L] eqn:El; [reflexivity|]. cbn [hd]. assert (He : In e (ents a)) by (apply (sh_in _ _ HS l); [exact Hl|rewrite El; now left]).
  pose proof (entry_lt _ _ _ _ H (in_allocs _ _ He)) as Hlt. cbn [fst] in Hlt. rewrite (proj2 (N.eqb_neq e 0)) by lia. unfold entry_at.
  rewrite (lbind_eq _ _ _ _ _ (hptr_ok _ _ _ _ H (in_allocs _ _ He))). cbn [fst]. unfold le_tc. rewrite <- N.add_assoc. rewrite (lbind_eq _ _ _ _ _ (ld_ok _ _ _ _ H (mine_tc _ _ _ _ H (ent_a _ _ He)))).
  fold (tca e). destruct (r_dat _ _ _ _ _ _ HR e He) as (Dt & _). rewrite Dt. pose proof (sh_typ _ _ HS e He) as Ht. unfold lret, value_ptr, ENTRY.
  rewrite (N.mul_comm 256), N.mod_add, N.div_add by discriminate. rewrite N.mod_small, N.div_small by exact Ht. reflexivity.
Qed.
Lemma purge_ok : forall n, purge_spec n.
Proof.
  induction n as [n IHn] using lt_wf_ind. intros rk adj B s a l f HR Hl Hn Hfu. destruct f as [|f]; [lia|]. pose proof (r_sh _ _ _ _ _ _ HR) as HS.
  cbn [purge]. rewrite (lbind_eq _ _ _ _ _ (first_ok _ _ _ _ _ _ _ HR Hl)). destruct (seq a l) as [|m L] eqn:El.
  - exists s, (ents a). split; [reflexivity|]. split; [apply HS|]. split.
    + intros x. split; [|tauto]. intros Hx. split; [exact Hx|]. intros HI. inversion HI as [l0 y Q|l0 y z Q]; subst; rewrite El in Q; contradiction.
    + apply (rel_ext _ _ _ _ _ _ _ (seq a)); [destruct a; exact HR|]. intros l' _. destruct (loc_eqb_spec l' l) as [->|Hne]; [now rewrite setl_eq, El|now rewrite setl_ne].
  - assert (Hm : In m (seq a l)) by (rewrite El; now left). pose proof (nab_down _ _ _ _ HS Hl Hm) as Hdn. pose proof (sh_in _ _ HS _ _ Hl Hm) as Hme.
    destruct (remove_rel rk adj B s a l m f (n - 1) HR Hl Hm ltac:(lia) (fun _ => IHn (n - 1)%nat ltac:(lia)) ltac:(lia)) as (s1 & E1 & P1 & P2 & P3 & R1). rewrite (lbind_eq _ _ _ _ _ P1).
    assert (Er : remove N.eq_dec m (seq a l) = L). { rewrite El. apply (remove_mid m [] L). rewrite <- El. now apply (sh_nd _ _ HS). }
    rewrite Er in R1. set (g1 := setl (seq a) l L) in *. set (a1 := with_both a E1 g1) in *.
    assert (HE1 : forall y, In y E1 -> In y (ents a)) by (intros y Hy; now apply P3 in Hy).
    assert (Hl1 : has a1 l).
    { destruct l as [i|p]; [exact I|]. destruct Hl as (Hp & Tp). split; [|exact Tp]. cbn [a1 with_both ents]. apply P3. pose proof (sh_rk _ _ HS p m (conj Hp Tp) Hm) as Hr. split; [exact Hp|]. split; [intros ->; lia|].
      intros (Ht & Q). apply (inside_rank rk) in Q as (_ & Q); [lia|exact HS|now split]. }
    assert (Hab : aboveb rk l m = true) by (destruct l as [i|p]; [reflexivity|cbn [aboveb]; apply Nat.ltb_lt; now apply (sh_rk _ _ HS)]).
    assert (Hn1 : (nab rk a1 l < nab rk a l)%nat) by (apply (nab_less rk a l E1 m P2); auto; intros y Hy; apply P3 in Hy; tauto).
    destruct (IHn (n - 1)%nat ltac:(lia) rk adj B s1 a1 l f R1 Hl1 ltac:(lia) ltac:(lia)) as (s2 & E2 & Q1 & Q2 & Q3 & R2).
    exists s2, E2. split; [exact Q1|]. split; [exact Q2|]. split.
    + assert (Hins : forall x, inside a l x <-> x = m \/ (typ a m = LIST /\ inside a (Sub m) x) \/ inside a1 l x).
      { assert (Hkid : forall e x, In e L -> typ a e = LIST -> inside a (Sub e) x <-> inside a1 (Sub e) x).
        { intros e x He Ht. apply (inside_below rk a l e g1 x HS Hl); [rewrite El; now right|exact Ht|]. intros l' Hne. unfold g1. now rewrite setl_ne. }
        assert (Sl : seq a1 l = L) by (cbn [a1 with_both seq]; apply setl_eq).
        intros x. split.
        - intros HI. inversion HI as [l0 y Q|l0 y z Q T Q']; subst.
          + rewrite El in Q. destruct Q as [<-|Q]; [now left|]. right. right. apply in_here. now rewrite Sl.
          + rewrite El in Q. destruct Q as [<-|Q]; [right; left; now split|]. right. right. apply (in_below _ _ y); [now rewrite Sl|exact T|]. now apply Hkid.
        - intros [->|[(T & Q)|Q]]; [now apply in_here|now apply (in_below _ _ m)|]. inversion Q as [l0 y Qy|l0 y z Qy T Q']; subst; rewrite Sl in Qy.
          + apply in_here. rewrite El. now right.
          + apply (in_below _ _ y); [rewrite El; now right|exact T|]. now apply Hkid. }
      intros x. rewrite Q3, Hins. cbn [a1 with_both ents]. rewrite P3. tauto.
    + apply (rel_ext _ _ _ _ _ _ _ (setl g1 l [])); [exact R2|]. intros l' _. unfold g1. destruct (loc_eqb_spec l' l) as [->|Hne]; [now rewrite !setl_eq|now rewrite !setl_ne].
Qed.

(** ** Appending, allocating *)
Lemma nodup_snoc {A} (l : list A) x : NoDup l -> ~ In x l -> NoDup (l ++ [x]).
Proof.
  induction l as [|y l IH]; intros H Hn; [repeat constructor; auto|]. inversion H; subst. cbn. constructor; [rewrite in_app_iff; cbn in *; intuition congruence|]. apply IH; cbn in *; auto.
Qed.
Lemma set1_eq {A} (f : N -> A) e x : set1 f e x e = x.
Proof. unfold set1. now rewrite N.eqb_refl. Qed.
Lemma set1_ne {A} (f : N -> A) e x y : y <> e -> set1 f e x y = f y.
Proof. intros H. unfold set1. now rewrite (proj2 (N.eqb_neq _ _)). Qed.
Lemma ents_room rk adj x B s a l e : Rel rk adj x B s a -> has a l -> In e (ents a) -> ~ In e (seq a l) -> N.of_nat (length (seq a l)) + 1 < W32.
Proof.
  intros HR Hl He Hni. pose proof (r_sh _ _ _ _ _ _ HR) as HS. destruct (r_hl _ _ _ _ _ _ HR) as (_ & H). pose proof (count_top _ _ _ _ _ H) as Hc. destruct H as ((_ & _ & _ & _ & F5) & _).
  assert ((length (e :: seq a l) <= length (ents a))%nat) as Q. { apply NoDup_incl_length; [constructor; [exact Hni|now apply (sh_nd _ _ HS)]|]. intros y [<-|Hy]; [exact He|now apply (sh_in _ _ HS l)]. }
  unfold allocs in Hc. rewrite map_length in Hc. cbn [length] in Q. lia.
Qed.
Lemma append_rel rk adj B s a l e : Rel rk adj 0 B s a -> has a l -> adj l = 0 -> In e (ents a) -> detached a e -> l <> Sub e -> (typ a e = LIST -> seq a (Sub e) = []) ->
  exists s' rk', list_append (head_of B l) (B + e) s = Some (tt, s') /\ Rel rk' adj 0 B s' (with_seq a (setl (seq a) l (seq a l ++ [e]))).
Proof.
  intros HR Hl Hadj He Hd Hle Hkids. pose proof HR as [H HS HD HLn Hdat Hdet Hg]. pose proof (lok_a _ _ _ HS Hl) as Lk. pose proof (Hd l Hl) as Hni. pose proof (HD l Hl) as Dl. rewrite Hadj, N.add_0_r in Dl.
  pose proof (ents_room _ _ _ _ _ _ _ _ HR Hl He Hni) as Hroom.
  destruct (append_ok B s (allocs a) e l (seq a l) H (ent_a _ _ He) Lk (Forall_ents _ _ _ HS Hl) (sh_nd _ _ HS l Hl) Hni Hroom Dl) as (s' & E & H' & G' & D' & O').
  exists s', (fun y => if y =? e then match l with Top _ => O | Sub p => S (rk p) end else rk y). split; [exact E|].
  assert (Ol : forall l' k, has a l' -> l' <> l -> obs s' (hda l' k) = obs s (hda l' k)).
  { intros l' k Hl' Hne. pose proof (lok_a _ _ _ HS Hl') as Lk'. apply O'; [now apply (al_hd _ _ _ _ _ H)|]. intros [Q|[Q|[(k' & Q)|(y & Hy & Q)]]].
    - symmetry in Q. exact (nx_hd _ _ _ _ _ _ H (ent_a _ _ He) Lk' Q).
    - symmetry in Q. exact (pv_hd _ _ _ _ _ _ H (ent_a _ _ He) Lk' Q).
    - apply (hd_hd _ _ _ _ _ _ _ H Lk' Lk) in Q. tauto.
    - symmetry in Q. exact (nx_hd _ _ _ _ _ _ H (ent_a _ _ (sh_in _ _ HS l _ Hl Hy)) Lk' Q). }
  assert (Oe : forall y, In y (ents a) -> y <> e -> ~ In y (seq a l) -> obs s' (nx y) = obs s (nx y) /\ obs s' (pv y) = obs s (pv y)).
  { intros y Hy Hne Hny. pose proof (ent_a _ _ Hy) as Ey. pose proof (ent_a _ _ He) as Ee. split; (apply O'; [first [now apply (al_nx _ _ _ _ H)|now apply (al_pv _ _ _ _ H)]|]); intros [Q|[Q|[(k' & Q)|(z & Hz & Q)]]].
    - now apply nx_inj in Q.
    - exact (nx_pv _ _ _ _ _ H Ey Ee Q).
    - exact (nx_hd _ _ _ _ _ _ H Ey Lk Q).
    - apply nx_inj in Q. subst z. contradiction.
    - symmetry in Q. exact (nx_pv _ _ _ _ _ H Ee Ey Q).
    - now apply pv_inj in Q.
    - exact (pv_hd _ _ _ _ _ _ H Ey Lk Q).
    - symmetry in Q. exact (nx_pv _ _ _ _ _ H (ent_a _ _ (sh_in _ _ HS l _ Hl Hz)) Ey Q). }
  assert (Hdec : forall l' y, has a l' -> In y (setl (seq a) l (seq a l ++ [e]) l') -> In y (seq a l') \/ (l' = l /\ y = e)).
  { intros l' y Hl' Hy. destruct (loc_eqb_spec l' l) as [->|Hne]; [rewrite setl_eq in Hy; apply in_app_iff in Hy as [Hy|[<-|[]]]; auto|rewrite setl_ne in Hy by exact Hne; auto]. }
  assert (HS' : shape (fun y => if y =? e then match l with Top _ => O | Sub p => S (rk p) end else rk y) (with_seq a (setl (seq a) l (seq a l ++ [e])))).
  { constructor; cbn [with_seq ents seq typ cnt siz isrec cont]; try apply HS.
    - intros l' y Hl' Hy. rewrite has_seq in Hl'. destruct (Hdec l' y Hl' Hy) as [Q|(-> & ->)]; [now apply (sh_in _ _ HS l')|exact He].
    - intros l' Hl'. rewrite has_seq in Hl'. destruct (loc_eqb_spec l' l) as [->|Hne]; [rewrite setl_eq|rewrite setl_ne by exact Hne; now apply (sh_nd _ _ HS)].
      apply nodup_snoc; [now apply (sh_nd _ _ HS)|exact Hni].
    - intros l1 l2 y H1 H2 Y1 Y2. rewrite has_seq in H1, H2. destruct (Hdec _ _ H1 Y1) as [Q1|(-> & ->)], (Hdec _ _ H2 Y2) as [Q2|(-> & Q2)]; subst; auto.
      + now apply (sh_one _ _ HS _ _ y).
      + now apply Hd in Q1.
      + now apply Hd in Q2.
    - intros p y Hp Hy. rewrite has_seq in Hp. destruct (Hdec _ _ Hp Hy) as [Q|(<- & ->)].
      + destruct (N.eqb_spec y e) as [->|_]; [now apply Hd in Q|]. destruct (N.eqb_spec p e) as [->|_]; [rewrite (Hkids (proj2 Hp)) in Q; contradiction|]. now apply (sh_rk _ _ HS).
      + rewrite N.eqb_refl. destruct (N.eqb_spec p e) as [->|_]; [now elim Hle|lia]. }
  constructor; auto.
  - intros l' Hl'. rewrite has_seq in Hl'. cbn [with_seq seq]. destruct (loc_eqb_spec l' l) as [->|Hne]; [rewrite setl_eq, Hadj, N.add_0_r; exact D'|rewrite setl_ne by exact Hne].
    apply (dll_ext (obs s)); [intros k; now apply Ol| |now apply HD]. intros y Hy. apply Oe; [now apply (sh_in _ _ HS l')|intros ->; now apply Hd in Hy|]. intros Q. apply Hne. now apply (sh_one _ _ HS _ _ y).
  - intros l' Hl'. rewrite has_seq in Hl'. cbn [with_seq seq]. destruct (loc_eqb_spec l' l) as [->|Hne]; [rewrite setl_eq, Hadj, app_length; cbn [length]; lia|rewrite setl_ne by exact Hne; now apply HLn].
  - intros y Hy. cbn [with_seq ents] in Hy. change (edata (obs s') a y). apply (edata_frame B s rk); auto. intros x Hx N1 N2. apply O'; [exact Hx|].
    intros [Q|[Q|[(k & Q)|(z & Hz & Q)]]]; [now apply (proj1 (N1 e He))|now apply (proj2 (N1 e He))|now apply (N2 l k)|]. now apply (proj1 (N1 z (sh_in _ _ HS l _ Hl Hz))).
  - intros y Hy Hne Hr Hdy. cbn [with_seq ents isrec] in *.
    assert (Hda : detached a y). { intros l' Hl' Q. apply (Hdy l'); [now apply has_seq|]. cbn [with_seq seq]. destruct (loc_eqb_spec l' l) as [->|Hnl]; [rewrite setl_eq; apply in_app_iff; now left|now rewrite setl_ne]. }
    assert (Hye : y <> e). { intros ->. apply (Hdy l); [now apply has_seq|]. cbn [with_seq seq]. rewrite setl_eq. apply in_app_iff. right. now left. }
    destruct (Oe y Hy Hye (Hda l Hl)) as (-> & ->). now apply Hdet.
  - cbn [with_seq gen]. congruence.
Qed.

(** A new entry *)
Definition with_new (a : abs) (e t c z : N) (r : bool) (w : N -> N) (f : loc -> list N) : abs :=
  mkAbs (e :: ents a) f (set1 (typ a) e t) (set1 (cnt a) e c) (set1 (siz a) e z) (set1 (isrec a) e r) (set1 (cont a) e w) (gen a).
Lemma new_allocs a e t c z r w f : ~ In e (ents a) -> allocs (with_new a e t c z r w f) = (e, z + 12) :: allocs a.
Proof.
  intros Hni. unfold allocs. cbn [with_new ents siz map]. rewrite set1_eq. f_equal. apply map_ext_in. intros y Hy. rewrite set1_ne; [reflexivity|]. now intros ->.
Qed.
Lemma new_rel rk adj B s s' a e t c z r w f : Rel rk adj 0 B s a -> HL B s' ((e, z + 12) :: allocs a) -> ~ In e (ents a) -> dgn s' = dgn s ->
  (forall x, mine (allocs a) x -> obs s' x = obs s x) -> t < 256 -> obs s' (tca e) = t + 256 * c -> adj (Sub e) = 0 ->
  (forall l, l <> Sub e -> f l = seq a l) ->
  (t = LIST -> z = 16 /\ f (Sub e) = [] /\ forall k, obs s' (hda (Sub e) k) = 0) ->
  (t <> LIST -> forall k, 8 * k + 8 <= z -> obs s' (AH (e + 12 + 8 * k)) = w k mod W32 /\ obs s' (AH (e + 16 + 8 * k)) = w k / W32) ->
  (r = true -> t = 26 /\ 16 <= z /\ w 0 mod W32 = 2 /\ w 1 mod W32 = (hoff + e + 12) mod W32 /\ obs s' (nx e) = 0 /\ obs s' (pv e) = 0) ->
  Rel rk adj 0 B s' (with_new a e t c z r w f).
Proof.
  intros [H HS HD HLn Hdat Hdet Hg] H' Hni Hdg HO Ht Htc Hae Hf' HT HC HRr. set (a' := with_new a e t c z r w f).
  assert (Hold : forall y, In y (ents a) -> y <> e) by (now intros y Hy ->).
  assert (Ty : forall y, In y (ents a) -> typ a' y = typ a y) by (intros y Hy; cbn [a' with_new typ]; apply set1_ne; auto).
  assert (Hh : forall l, has a' l <-> has a l \/ (l = Sub e /\ t = LIST)).
  { intros [i|p]; cbn [has]; [tauto|]. cbn [a' with_new ents typ In]. destruct (N.eq_dec p e) as [->|Hne].
    - rewrite set1_eq. split; [intros (_ & ->); right; auto|intros [(Q & _)|(_ & ->)]; [contradiction|auto]].
    - rewrite set1_ne by exact Hne. split; [intros ([Q|Q] & T); [now elim Hne|left; auto]|intros [(Q & T)|(Q & _)]; [auto|congruence]]. }
  assert (Hnl : forall l, has a l -> l <> Sub e) by (intros l Hl ->; destruct Hl as (Q & _); contradiction).
  assert (Hfl : forall l, has a l -> f l = seq a l) by (intros l Hl; apply Hf'; auto).
  assert (Hmn : forall y, In y (ents a) -> obs s' (nx y) = obs s (nx y) /\ obs s' (pv y) = obs s (pv y)) by (intros y Hy; split; apply HO; [now apply (mine_nx _ _ _ _ H), ent_a|now apply (mine_pv _ _ _ _ H), ent_a]).
  constructor.
  - unfold a'. now rewrite new_allocs.
  - constructor; cbn [a' with_new ents seq].
    + constructor; [exact Hni|apply HS].
    + intros l y Hl Hy. apply Hh in Hl as [Hl|(-> & Hl)]; [rewrite Hfl in Hy by exact Hl; right; now apply (sh_in _ _ HS l)|]. destruct (HT Hl) as (_ & Q & _). rewrite Q in Hy. contradiction.
    + intros l Hl. apply Hh in Hl as [Hl|(-> & Hl)]; [rewrite Hfl by exact Hl; now apply (sh_nd _ _ HS)|]. destruct (HT Hl) as (_ & -> & _). constructor.
    + intros l l' y Hl Hl' Hy Hy'. apply Hh in Hl as [Hl|(-> & Hl)]; [|destruct (HT Hl) as (_ & Q & _); rewrite Q in Hy; contradiction]. apply Hh in Hl' as [Hl'|(-> & Hl')]; [|destruct (HT Hl') as (_ & Q & _); rewrite Q in Hy'; contradiction].
      rewrite Hfl in Hy, Hy' by assumption. now apply (sh_one _ _ HS _ _ y).
    + intros p y Hp Hy. apply Hh in Hp as [Hp|(Q & Hl)]; [rewrite Hfl in Hy by exact Hp; now apply (sh_rk _ _ HS)|]. injection Q as ->. destruct (HT Hl) as (_ & Q & _). rewrite Q in Hy. contradiction.
    + intros y [<-|Hy] T; cbn [a' with_new siz typ] in *; [rewrite set1_eq in *; now apply HT|]. rewrite set1_ne in * by auto. now apply (sh_sz _ _ HS).
    + intros y [<-|Hy]; cbn [a' with_new typ]; [now rewrite set1_eq|]. rewrite set1_ne by auto. now apply (sh_typ _ _ HS).
    + intros y [<-|Hy]; cbn [a' with_new isrec typ siz cont]; [rewrite !set1_eq; intros Q; destruct (HRr Q) as (Q1 & Q2 & Q3 & Q4 & _); auto|]. rewrite !set1_ne by auto. now apply (sh_rec _ _ HS).
  - intros l Hl. cbn [a' with_new seq]. apply Hh in Hl as [Hl|(-> & Hl)].
    + rewrite Hfl by exact Hl. apply (dll_ext (obs s)); [| |now apply HD].
      * intros k. apply HO. now apply (mine_hd _ _ _ _ _ H), (lok_a rk).
      * intros y Hy. apply Hmn. now apply (sh_in _ _ HS l).
    + destruct (HT Hl) as (_ & Ef & Q). rewrite Ef, Hae. unfold dll. rewrite !Q. cbn. auto.
  - intros l Hl. cbn [a' with_new seq]. apply Hh in Hl as [Hl|(-> & Hl)]; [rewrite Hfl by exact Hl; now apply HLn|]. destruct (HT Hl) as (_ & Ef & Q). rewrite Ef, Hae. cbn. unfold W32. lia.
  - intros y [<-|Hy]; unfold edata; cbn [a' with_new typ cnt siz cont].
    + rewrite !set1_eq. split; [exact Htc|exact HC].
    + rewrite !set1_ne by auto. destruct (Hdat y Hy) as (D1 & D2). split; [rewrite HO; [exact D1|now apply (mine_tc _ _ _ _ H), ent_a]|]. intros T k Hk. destruct (D2 T k Hk) as (E1 & E2). rewrite !HO; [split; assumption| |]; apply (mine_cont B s a y _ H Hy); clear - Hk; lia.
  - intros y Hy Hy0 Hr Hd. destruct Hy as [<-|Hy]; cbn [a' with_new isrec] in Hr.
    + rewrite set1_eq in Hr. destruct (HRr Hr) as (_ & _ & _ & _ & Q1 & Q2). auto.
    + rewrite set1_ne in Hr by auto. destruct (Hmn y Hy) as (-> & ->). apply Hdet; auto. intros l Hl Q. apply (Hd l); [apply Hh; now left|]. cbn [a' with_new seq]. now rewrite Hfl.
  - cbn [a' with_new gen]. congruence.
Qed.

(** Writing a range of a value *)
Lemma fill_ok B s A e z o len f : HL B s A -> In (e, z + 12) A -> e + 12 <= o -> o mod 8 = 0 -> len mod 8 = 0 -> o + len <= e + 12 + z ->
  exists s', fill (B + o) len f s = Some (tt, s') /\ HL B s' A /\ dgn s' = dgn s /\
    forall x, mine A x -> obs s' x = match x with AT _ _ => obs s x | AH y => if (o <=? y) && (y <? o + len) then half (f (8 * (y / 8) - o) mod W64) (high y) else obs s x end.
Proof.
  intros H Hin Ho Ho8 Hl8 Hend. destruct (N.eq_dec len 0) as [->|Hl].
  - exists s. split; [reflexivity|]. split; [exact H|]. split; [reflexivity|]. intros [i k|y] _; [reflexivity|]. replace ((o <=? y) && (y <? o + 0)) with false by lia. reflexivity.
  - assert (A1 : aligned o) by (split; lia). assert (A2 : aligned (o + len - 8)) by (split; lia).
    destruct (hl_bounds _ _ _ _ H Hin) as (i & Hi & (Hb & _) & _). cbn [fst snd] in Hi, Hb.
    assert (M1 : mem (hst s) (B + cell o) <> None) by (apply (mapped _ _ _ _ H A1); lia). assert (M2 : mem (hst s) (B + cell (o + len - 8)) <> None) by (apply (mapped _ _ _ _ H A2); lia).
    pose proof H as (EB & Hhl). subst B. eexists. split; [apply fill_eq; auto; lia|]. split; [|split; [reflexivity|]].
    + split; [reflexivity|]. cbn [with_heap hst]. apply (write_top size hgrain _ _ _ (e, z + 12)); [exact Hhl|exact Hin| | |].
      * intros x Hout. unfold filled. destruct (mem (hst s) x) as [n|] eqn:En; [|reflexivity]. destruct (N.leb_spec (lbase s) x) as [Hx|]; [|reflexivity]. cbn [andb].
        destruct (N.eqb_spec x (lbase s + cell (x - lbase s))) as [Ex|]; [|reflexivity]. f_equal. apply fill_cell_id. intros j Hj. apply Bool.not_true_is_false. intros Q.
        assert (Ec : x - lbase s = cell (x - lbase s)) by lia. set (c := x - lbase s) in *. assert (exists u, c = 8 + 32 * u) as (u & Eu) by (rewrite Ec; unfold cell; eauto).
        assert (Hal : aligned (c + 8 * j)) by (rewrite Eu; split; lia). assert (Hcc : cell (c + 8 * j) = c). { rewrite Eu. replace (8 + 32 * u + 8 * j) with (8 + 4 * (8 * u + 2 * j)) by lia. rewrite cell_form. f_equal. f_equal. symmetry. apply (N.div_unique _ _ _ (2 * j)); lia. }
        destruct (block_cell _ _ _ _ (c + 8 * j) H Hin) as (_ & Q2 & _); [cbn [fst snd]; lia|exact Hal|]. rewrite Hcc in Q2. replace (lbase s + c) with x in Q2 by lia. congruence.
      * intros x Hne. unfold filled. destruct (mem (hst s) x) as [n|]; [|exact Hne]. destruct (_ && _); discriminate.
      * intros n En. unfold filled. cbn [fst] in *. rewrite En. destruct (_ && _); [|exists n; split; reflexivity]. eexists. split; [reflexivity|].
        pose proof (fill_cell_word o len f (lbase s + (e - 4) - lbase s) n 0 ltac:(lia)) as Q. unfold word at 1 2 in Q. cbn [N.eqb] in Q. rewrite Q. replace (o <=? _) with false by lia. reflexivity.
    + intros [j k|y] Hm; [reflexivity|]. destruct (mine_mapped _ _ _ _ H Hm) as (Ha & Hs). cbn [obs with_heap lbase hst put_mem mem]. now apply rdm_filled.
Qed.
Lemma fresh_apart B s A e w y : HL B s ((e, w) :: A) -> mine A (AH y) -> y < e \/ e + w <= y.
Proof.
  intros H ((x & Hin & Hy) & _). destruct H as (_ & H). pose proof (live_apart _ _ _ _ _ H) as HA. inversion HA as [|? ? HF HF2]; subst. rewrite Forall_forall in HF. specialize (HF _ Hin). unfold apart in HF. cbn [fst snd] in HF. lia.
Qed.
Lemma mine_more A e x : mine A x -> mine (e :: A) x.
Proof. destruct x as [i k|o]; [auto|]. intros ((y & Hy & Ho) & Hm). split; [exists y; split; [now right|exact Ho]|exact Hm]. Qed.
(** The same entries in other memory *)
Lemma rel_obs rk adj x B B' s s' a g : Rel rk adj x B s a -> HL B' s' (allocs a) -> (forall y, mine (allocs a) y -> obs s' y = obs s y) -> dgn s' = g ->
  Rel rk adj x B' s' (mkAbs (ents a) (seq a) (typ a) (cnt a) (siz a) (isrec a) (cont a) g).
Proof.
  intros [H HS HD HLn Hdat Hdet Hg] H' HO Hd. assert (Hmn : forall y, In y (ents a) -> obs s' (nx y) = obs s (nx y) /\ obs s' (pv y) = obs s (pv y)) by (intros y Hy; split; apply HO; [now apply (mine_nx _ _ _ _ H), ent_a|now apply (mine_pv _ _ _ _ H), ent_a]).
  constructor; auto.
  - destruct HS. now constructor.
  - intros l Hl. cbn [seq]. apply (dll_ext (obs s)); [| |now apply HD].
    + intros k. apply HO. now apply (mine_hd _ _ _ _ _ H), (lok_a rk).
    + intros y Hy. apply Hmn. now apply (sh_in _ _ HS l).
  - intros y Hy. cbn [ents] in Hy. destruct (Hdat y Hy) as (D1 & D2). unfold edata. cbn [typ cnt siz cont]. split; [rewrite HO; [exact D1|now apply (mine_tc _ _ _ _ H), ent_a]|].
    intros T k Hk. destruct (D2 T k Hk) as (E1 & E2). rewrite !HO; [split; assumption| |]; apply (mine_cont B s a y _ H Hy); clear - Hk; lia.
  - intros y Hy Hne Hr Hdt. cbn [ents isrec] in *. destruct (Hmn y Hy) as (-> & ->). now apply Hdet.
Qed.
Lemma abs_eta a : mkAbs (ents a) (seq a) (typ a) (cnt a) (siz a) (isrec a) (cont a) (gen a) = a.
Proof. now destruct a. Qed.
Definition with_cont (a : abs) (c : N -> N -> N) : abs := mkAbs (ents a) (seq a) (typ a) (cnt a) (siz a) (isrec a) c (gen a).
Lemma wr_at e lo len k (Hf8 : (e + 12) mod 8 = 0) : lo mod 8 = 0 -> len mod 8 = 0 -> 
  ((e + 12 + lo <=? e + 12 + 8 * k) && (e + 12 + 8 * k <? e + 12 + lo + len) = (lo <=? 8 * k) && (8 * k <? lo + len)) /\
  ((e + 12 + lo <=? e + 16 + 8 * k) && (e + 16 + 8 * k <? e + 12 + lo + len) = (lo <=? 8 * k) && (8 * k <? lo + len)) /\
  8 * ((e + 12 + 8 * k) / 8) - (e + 12 + lo) = 8 * k - lo /\ 8 * ((e + 16 + 8 * k) / 8) - (e + 12 + lo) = 8 * k - lo /\ high (e + 12 + 8 * k) = false /\ high (e + 16 + 8 * k) = true.
Proof.
  intros H1 H2. assert (exists u, e + 12 = 8 + 8 * u) as (u & Eu). { exists ((e + 12) / 8 - 1). pose proof (N.div_mod (e + 12) 8 ltac:(lia)). lia. }
  replace (e + 16 + 8 * k) with (e + 12 + 8 * k + 4) by lia. rewrite Eu. split; [lia|]. split; [lia|]. split; [|split; [|split]].
  - replace (8 + 8 * u + 8 * k) with ((1 + u + k) * 8) by lia. rewrite N.div_mul by lia. lia.
  - replace (8 + 8 * u + 8 * k + 4) with (4 + (1 + u + k) * 8) by lia. rewrite N.div_add by lia. change (4 / 8) with 0. lia.
  - unfold high. replace (8 + 8 * u + 8 * k - 8) with (0 + (u + k) * 8) by lia. now rewrite N.mod_add by lia.
  - unfold high. replace (8 + 8 * u + 8 * k + 4 - 8) with (4 + (u + k) * 8) by lia. now rewrite N.mod_add by lia.
Qed.
Lemma half_64 v : half (v mod W64) false = v mod W64 mod W32 /\ half (v mod W64) true = v mod W64 / W32.
Proof. unfold half. split; [reflexivity|]. apply N.mod_small. apply N.div_lt_upper_bound; [discriminate|]. change (W32 * W32) with W64. apply N.mod_lt. discriminate. Qed.
Lemma write_rel rk B s a e lo len f : Rel rk (fun _ => 0) 0 B s a -> In e (ents a) -> typ a e <> LIST -> lo mod 8 = 0 -> len mod 8 = 0 -> lo + len <= siz a e -> (isrec a e = true -> 16 <= lo) ->
  exists s', fill (value_ptr B e + lo) len f s = Some (tt, s') /\
    Rel rk (fun _ => 0) 0 B s' (with_cont a (set1 (cont a) e (fun k => if (lo <=? 8 * k) && (8 * k <? lo + len) then f (8 * k - lo) mod W64 else cont a e k))).
Proof.
  intros [H HS HD HLn Hdat Hdet Hg] He Ht Hlo Hlen Hend Hrec. destruct (hl_bounds _ _ _ _ H (in_allocs _ _ He)) as (i & Hi & _). cbn [fst] in Hi.
  assert (He8 : (e + 12) mod 8 = 0) by (rewrite Hi; replace (12 + 64 * i + 12) with (0 + (3 + 8 * i) * 8) by lia; now rewrite N.mod_add by lia).
  destruct (fill_ok B s (allocs a) e (siz a e) (e + 12 + lo) len f H (in_allocs _ _ He)) as (s' & E & H' & Hd & HO); [lia|lia|exact Hlen|lia|].
  exists s'. split; [rewrite <- E; f_equal; unfold value_ptr; lia|].
  assert (Hfr : forall x, mine (allocs a) x -> (forall y, x = AH y -> y < e + 12 + lo \/ e + 12 + lo + len <= y) -> obs s' x = obs s x).
  { intros x Hm Hx. rewrite HO by exact Hm. destruct x as [j k|y]; [reflexivity|]. specialize (Hx y eq_refl). replace (_ && _) with false by lia. reflexivity. }
  assert (Hout : forall y o, In y (ents a) -> y <= o < y + 12 + siz a y -> (y <> e \/ o < e + 12) -> o < e + 12 + lo \/ e + 12 + lo + len <= o).
  { intros y o Hy Ho [Hne|Hlt]; [|lia]. destruct (N.lt_ge_cases o (e + 12 + lo)) as [|G1]; [now left|]. destruct (N.lt_ge_cases o (e + 12 + lo + len)) as [G2|]; [|now right]. elim Hne. apply (own_one B s a y e o H Hy He Ho). lia. }
  assert (Hmn : forall y, In y (ents a) -> obs s' (nx y) = obs s (nx y) /\ obs s' (pv y) = obs s (pv y) /\ obs s' (tca y) = obs s (tca y)).
  { intros y Hy. pose proof (ent_a _ _ Hy) as Ey. split; [|split]; (apply Hfr; [first [now apply (mine_nx _ _ _ _ H)|now apply (mine_pv _ _ _ _ H)|now apply (mine_tc _ _ _ _ H)]|]); intros o Q; injection Q as <-; apply (Hout y); auto; lia. }
  constructor; auto.
  - destruct HS. constructor; auto. cbn [with_cont ents isrec typ siz cont]. intros y Hy Hr. destruct (N.eq_dec y e) as [->|Hne]; [rewrite set1_eq|rewrite set1_ne by exact Hne; now apply sh_rec0]. specialize (Hrec Hr).
    replace (lo <=? 8 * 0) with false by lia. replace (lo <=? 8 * 1) with false by lia. cbn [andb]. now apply sh_rec0.
  - intros l Hl. cbn [with_cont seq]. change (has a l) in Hl. apply (dll_ext (obs s)); [| |now apply HD].
    + intros k. apply Hfr; [now apply (mine_hd _ _ _ _ _ H), (lok_a rk)|]. intros o Q. destruct l as [j|p]; [discriminate|]. cbn [hda] in Q. injection Q as <-. destruct Hl as (Hp & Tp). apply (Hout p); [exact Hp| |left; congruence].
      rewrite (sh_sz _ _ HS p Hp Tp). destruct k; cbn [koff]; lia.
    + intros y Hy. destruct (Hmn y (sh_in _ _ HS l y Hl Hy)) as (Q1 & Q2 & _). auto.
  - intros y Hy. cbn [with_cont ents] in Hy. destruct (Hdat y Hy) as (D1 & D2). destruct (Hmn y Hy) as (_ & _ & Q). unfold edata. cbn [with_cont typ cnt siz cont]. rewrite Q. split; [exact D1|].
    intros T k Hk. destruct (D2 T k Hk) as (E1 & E2).
    assert (M1 : mine (allocs a) (AH (y + 12 + 8 * k))) by (apply (mine_cont B s a y _ H Hy); clear - Hk; lia). assert (M2 : mine (allocs a) (AH (y + 16 + 8 * k))) by (apply (mine_cont B s a y _ H Hy); clear - Hk; lia).
    destruct (N.eq_dec y e) as [->|Hne].
    + rewrite set1_eq, !HO by assumption. destruct (wr_at e lo len k He8 Hlo Hlen) as (-> & -> & -> & -> & -> & ->). destruct (_ && _); [|split; assumption]. exact (half_64 (f (8 * k - lo))).
    + rewrite set1_ne by exact Hne. rewrite !Hfr; [split; assumption|exact M2| |exact M1|]; intros o Q'; injection Q' as <-; apply (Hout y); auto; lia.
  - intros y Hy Hne Hr Hdt. cbn [with_cont ents isrec] in *. destruct (Hmn y Hy) as (-> & -> & _). now apply Hdet.
  - cbn [with_cont gen]. congruence.
Qed.

(** Allocation of an entry *)
Lemma alloc_rel rk adj B s a z : Rel rk adj 0 B s a -> z <= 1099511627776 ->
  exists r s1, on_heap (fun b => heap_alloc b fuel (z + ENTRY)) s = Some (r, s1) /\
   ((r = 0 /\ s1 = s /\ full size hgrain a z) \/
    (exists e, r = B + e /\ e <> 0 /\ ~ In e (ents a) /\ HL B s1 ((e, z + 12) :: allocs a) /\ dgn s1 = dgn s /\ forall x, mine (allocs a) x -> obs s1 x = obs s x)).
Proof.
  intros [H HS HD HLn Hdat Hdet Hg] Hz. pose proof H as (EB & Hhl). pose proof Hhl as ((F1 & _) & _). pose proof (gsz_high _ F1) as Hgs.
  destruct (alloc_top fuel size hgrain Hf B (hst s) (allocs a) (z + 12) Hhl) as (r & h' & E & H0 & Hsame & Hnew); [unfold W64; lia|].
  exists r, (with_heap s h'). split; [unfold on_heap, ENTRY; now rewrite EB, E|]. destruct (N.eq_dec r 0) as [Hr|Hr].
  - left. split; [exact Hr|]. split; [rewrite (Hsame Hr); now destruct s|exact (proj1 H0 Hr)].
  - right. destruct (Hnew Hr) as (i & n & -> & _ & _ & _ & HU & H'). exists (12 + i * gsz hgrain). split; [reflexivity|]. split; [lia|].
    assert (H1 : HL B (with_heap s h') ((12 + i * gsz hgrain, z + 12) :: allocs a)) by (split; [exact EB|exact H']).
    assert (Hni : ~ In (12 + i * gsz hgrain) (ents a)). { intros Q. destruct (hl_bounds _ _ _ _ H (in_allocs _ _ Q)) as (j & Hj & _). cbn [fst] in Hj.
      assert (M : mine (allocs a) (AH (12 + i * gsz hgrain))) by (apply (mine_cont B s a _ _ H Q); [lia|now rewrite N.sub_diag]). pose proof (fresh_apart _ _ _ _ _ _ H1 M). lia. }
    split; [exact Hni|]. split; [exact H1|]. split; [reflexivity|]. intros [j k|o] Hm; [reflexivity|]. cbn [obs with_heap lbase hst]. rewrite EB.
    destruct (mine_mapped _ _ _ _ H Hm) as (Ha & Hs). pose proof Hm as ((x & Hin & Ho) & _). destruct (block_cell _ _ _ _ _ H Hin Ho Ha) as (_ & Hblk & _).
    unfold rdm. now rewrite (HU _ _ Hin Hblk).
Qed.

(** ** The calls *)
Definition Inv (s : lst) (a : abs) : Prop := exists rk, Rel rk (fun _ => 0) 0 (lbase s) s a.
Lemma value_size_ok t c z : M_Set.value_size t c = Some z -> z mod 8 = 0 /\ z <= 8 * c + 32 /\ (t = LIST -> z = 16).
Proof.
  unfold M_Set.value_size. intros H. assert (R : forall v, M_Set.round8 v mod 8 = 0 /\ M_Set.round8 v <= v + 7) by (intros v; unfold M_Set.round8; lia).
  destruct (M_Set.width t) as [w|] eqn:W.
  - injection H as <-. assert (w <= 8 /\ t <> LIST) as (Hw & Ht).
    { unfold M_Set.width, M_Set.V_CHAR_ARRAY, M_Set.V_D64_ARRAY in W. cbv zeta in W. destruct ((12 <=? t) && (t <=? 22)) eqn:?; repeat match type of W with (if ?b then _ else _) = _ => destruct b eqn:? end; try discriminate; injection W as <-; unfold LIST in *; lia. }
    destruct (R (if M_Set.type_is_array t then w * c else w)) as (R1 & R2). split; [exact R1|]. split; [destruct (M_Set.type_is_array t); nia|]. intros Q. contradiction.
  - destruct (N.eqb_spec t 23) as [->|Ht].
    + injection H as <-. split; [reflexivity|]. split; [change (M_Set.round8 12) with 16; lia|reflexivity].
    + assert (T : t <> LIST) by exact Ht. repeat match type of H with context [if ?b then _ else _] => destruct b eqn:? end; try discriminate; injection H as <-;
        (split; [reflexivity|]; split; [unfold M_Set.round8; lia|intros Q; contradiction]).
Qed.
Lemma e_mod8 B s A e w : HL B s A -> In (e, w) A -> (e + 12) mod 8 = 0.
Proof. intros H Hin. destruct (hl_bounds _ _ _ _ H Hin) as (i & Hi & _). cbn [fst] in Hi. rewrite Hi. replace (12 + 64 * i + 12) with (0 + (3 + 8 * i) * 8) by lia. now rewrite N.mod_add by lia. Qed.
Lemma st_mod p v s : st32 p v s = st32 p (v mod W32) s.
Proof. unfold st32. now rewrite N.mod_mod by discriminate. Qed.
Lemma item_rel rk B s a l t c z : Rel rk (fun _ => 0) 0 B s a -> has a l -> t < 256 -> M_Set.value_size t (c mod W32) = Some z ->
  exists p s', append_item fuel (head_of B l) t c s = Some (p, s') /\
   ((p = 0 /\ s' = s /\ full size hgrain a z) \/
    (exists e rk', p = B + e + 12 /\ ~ In e (ents a) /\ e <> 0 /\
       Rel rk' (fun _ => 0) 0 B s' (mkAbs (e :: ents a) (setl (setl (seq a) (Sub e) []) l (seq a l ++ [e])) (set1 (typ a) e t)
             (set1 (cnt a) e (if M_Set.type_is_array t then c mod 16777216 else 1)) (set1 (siz a) e z) (set1 (isrec a) e false)
             (set1 (cont a) e (fun _ => 0)) ((gen a + 1) mod W64)))).
Proof.
  intros HR Hl Ht Hz. destruct (value_size_ok _ _ _ Hz) as (Z8 & Zle & ZL). unfold append_item. rewrite Hz. pose proof (N.mod_lt c W32 ltac:(discriminate)) as Hc32. unfold W32 in Hc32 at 2.
  destruct (alloc_rel _ _ _ _ _ z HR) as (r & s1 & E & [(-> & -> & Hfull)|(e & -> & He0 & Hni & H1 & Hd1 & HO1)]); [lia| |].
  - exists 0, s. rewrite (lbind_eq _ _ _ _ _ E). split; [reflexivity|]. left. auto.
  - rewrite (lbind_eq _ _ _ _ _ E). rewrite (proj2 (N.eqb_neq (B + e) 0)) by lia. pose proof (r_hl _ _ _ _ _ _ HR) as H.
    set (A1 := (e, z + 12) :: allocs a) in *. assert (Hin : In (e, z + 12) A1) by now left. pose proof (e_mod8 _ _ _ _ _ H1 Hin) as He8.
    destruct (fill_ok B s1 A1 e z (e + 12) z (fun _ => 0) H1 Hin ltac:(lia) He8 Z8 ltac:(lia)) as (s2 & E2 & H2 & Hd2 & HO2).
    unfold ENTRY. rewrite <- N.add_assoc. rewrite (lbind_eq _ _ _ _ _ E2). set (n := if M_Set.type_is_array t then c mod 16777216 else 1).
    assert (Hn : n < 16777216) by (unfold n; pose proof (N.mod_lt c 16777216 ltac:(discriminate)); destruct (M_Set.type_is_array t); lia).
    assert ((if M_Set.type_is_array t then c else 1) mod 16777216 = n) as -> by (unfold n; destruct (M_Set.type_is_array t); reflexivity). clearbody n. rewrite (N.mod_small t) by assumption.
    assert (Mtc : mine A1 (AH (e + 8))) by (apply (mine_f _ _ _ e (z + 12) 8 H1 Hin); [lia|reflexivity]).
    destruct (st_ok B s2 A1 (e + 8) (t + 256 * n) H2 Mtc) as (s3 & E3 & H3 & Hd3 & HO3); [unfold W32; lia|]. unfold le_tc. rewrite <- (N.add_assoc B e 8). rewrite (lbind_eq _ _ _ _ _ E3).
    assert (Hold : forall x, mine (allocs a) x -> obs s3 x = obs s x).
    { intros x Hm. pose proof (mine_more _ (e, z + 12) _ Hm) as Hm1. rewrite HO3 by (apply (mine_al _ _ _ _ H1 Hm1)). assert (x <> AH (e + 8)) as Hne. { intros ->. pose proof (fresh_apart _ _ _ _ _ _ H1 Hm). lia. }
      destruct (adr_dec x (AH (e + 8))); [contradiction|]. rewrite HO2 by exact Hm1. rewrite <- HO1 by exact Hm. destruct x as [j k|y]; [reflexivity|]. pose proof (fresh_apart _ _ _ _ _ _ H1 Hm).
      replace (_ && _) with false by lia. reflexivity. }
    assert (Hnew : forall y, e + 12 <= y < e + 12 + z -> (y - e) mod 4 = 0 -> obs s3 (AH y) = 0).
    { intros y Hy Hm. assert (M : mine A1 (AH y)). { replace y with (e + (y - e)) by lia. apply (mine_f _ _ _ e (z + 12) _ H1 Hin); [lia|exact Hm]. }
      rewrite HO3 by (apply (mine_al _ _ _ _ H1 M)). destruct (adr_dec _ _) as [Q|_]; [injection Q; lia|]. rewrite HO2 by exact M. replace (_ && _) with true by lia. change (0 mod W64) with 0. unfold half. destruct (high y); reflexivity. }
    assert (HR3 : Rel rk (fun _ => 0) 0 B s3 (with_new a e t n z false (fun _ => 0) (setl (seq a) (Sub e) []))).
    { apply (new_rel rk _ B s s3); auto.
      - congruence.
      - unfold tca. rewrite HO3 by (apply (mine_al _ _ _ _ H1 Mtc)). destruct (adr_dec _ _) as [_|Q]; [reflexivity|now elim Q].
      - intros l' Hl'. now rewrite setl_ne.
      - intros HT. specialize (ZL HT). split; [exact ZL|]. split; [apply setl_eq|]. intros k. cbn [hda]. apply Hnew; destruct k; cbn [koff]; clear - ZL; lia.
      - intros HT k Hk. rewrite !Hnew; [split; reflexivity| | | |]; clear - Hk; lia.
      - discriminate. }
    assert (Hnl : l <> Sub e) by (intros ->; destruct Hl as (Q & _); contradiction).
    destruct (append_rel rk (fun _ => 0) B s3 _ l e HR3) as (s4 & rk' & E4 & HR4).
    + destruct l as [j|p]; [exact I|]. destruct Hl as (Hp & Tp). split; [now right|]. cbn [with_new typ]. rewrite set1_ne; [exact Tp|]. now intros ->.
    + reflexivity.
    + now left.
    + intros l' Hl' Q. cbn [with_new seq] in Q. destruct (loc_eqb_spec l' (Sub e)) as [->|Hne]; [rewrite setl_eq in Q; contradiction|]. rewrite setl_ne in Q by exact Hne.
      apply Hni. apply (sh_in _ _ (r_sh _ _ _ _ _ _ HR) l'); [|exact Q]. destruct l' as [j|p]; [exact I|]. destruct Hl' as (Hp & Tp). cbn [with_new ents typ] in *. assert (p <> e) by congruence. rewrite set1_ne in Tp by assumption. destruct Hp as [Hp|Hp]; [congruence|]. split; assumption.
    + exact Hnl.
    + intros _. cbn [with_new seq]. apply setl_eq.
    + rewrite (lbind_eq _ _ _ _ _ E4). eexists _, _. split; [reflexivity|]. right. exists e, rk'. split; [lia|]. split; [exact Hni|]. split; [exact He0|].
      cbn [with_seq with_new ents seq typ cnt siz isrec cont gen] in HR4. rewrite (setl_ne (seq a) (Sub e) [] l) in HR4 by exact Hnl.
      pose proof (rel_obs _ _ _ _ B _ (mkL (lbase s4) (hst s4) (tops s4) ((dgn s4 + 1) mod W64)) _ ((gen a + 1) mod W64) HR4) as Q. cbn [ents seq typ cnt siz isrec cont] in Q. apply Q.
      * exact (r_hl _ _ _ _ _ _ HR4).
      * intros y _. reflexivity.
      * cbn [dgn]. rewrite (r_gen _ _ _ _ _ _ HR4). reflexivity.
Qed.

Ltac pick := repeat match goal with |- context [adr_dec ?x ?y] => let Q := fresh in destruct (adr_dec x y) as [Q|Q]; [try reflexivity; exfalso; injection Q; lia|first [now elim Q|clear Q]] end; try reflexivity.
Lemma record_rel rk B s a z m : Rel rk (fun _ => 0) 0 B s a -> 16 <= z -> z mod 8 = 0 -> z < 4294967296 ->
  exists p s', record_alloc fuel hoff z m s = Some (p, s') /\
   ((p = 0 /\ s' = s /\ full size hgrain a z) \/
    (exists e w, p = B + e + 12 /\ ~ In e (ents a) /\ e <> 0 /\
       (forall k, 8 * k + 8 <= z -> ld32 (value_ptr B e + 8 * k) s' = Some (w k mod W32, s') /\ ld32 (value_ptr B e + 8 * k + 4) s' = Some (w k / W32, s')) /\
       w 0 mod W32 = 2 /\ w 1 = (hoff + e + 12) mod W32 + W32 * (m mod W32) /\
       Rel rk (fun _ => 0) 0 B s' (with_new a e 26 1 z true w (seq a)))).
Proof.
  intros HR Hz16 Z8 Zlt. unfold record_alloc. pose proof (r_hl _ _ _ _ _ _ HR) as H.
  destruct (alloc_rel _ _ _ _ _ z HR) as (r & s1 & E & [(-> & -> & Hfull)|(e & -> & He0 & Hni & H1 & Hd1 & HO1)]); [lia| |].
  - exists 0, s. rewrite (lbind_eq _ _ _ _ _ E). split; [reflexivity|]. left. auto.
  - rewrite (lbind_eq _ _ _ _ _ E). rewrite (proj2 (N.eqb_neq (B + e) 0)) by lia.
    set (A1 := (e, z + 12) :: allocs a) in *. assert (Hin : In (e, z + 12) A1) by now left.
    assert (M : forall j, j < z + 12 -> j mod 4 = 0 -> mine A1 (AH (e + j))) by (intros j Hj Hm; apply (mine_f _ _ _ e (z + 12) j H1 Hin); assumption).
    assert (M0 : mine A1 (AH e)) by (rewrite <- (N.add_0_r e); apply M; [lia|reflexivity]).
    unfold le_prev, le_next, le_tc, ENTRY. rewrite <- !(N.add_assoc B e).
    destruct (st_ok B s1 A1 (e + 4) 0 H1 (M 4 ltac:(lia) eq_refl) eq_refl) as (s2 & E2 & H2 & Hd2 & HO2). rewrite (lbind_eq _ _ _ _ _ E2).
    destruct (st_ok B s2 A1 e 0 H2 M0 eq_refl) as (s3 & E3 & H3 & Hd3 & HO3). rewrite (lbind_eq _ _ _ _ _ E3).
    destruct (st_ok B s3 A1 (e + 8) (26 + 256 * 1) H3 (M 8 ltac:(lia) eq_refl) eq_refl) as (s4 & E4 & H4 & Hd4 & HO4). rewrite (lbind_eq _ _ _ _ _ E4). cbv zeta.
    destruct (st_ok B s4 A1 (e + 12) 2 H4 (M 12 ltac:(lia) eq_refl) eq_refl) as (s5 & E5 & H5 & Hd5 & HO5). rewrite (lbind_eq _ _ _ _ _ E5).
    destruct (st_ok B s5 A1 (e + 24) (m mod W32) H5 (M 24 ltac:(lia) eq_refl)) as (s6 & E6 & H6 & Hd6 & HO6); [apply N.mod_lt; discriminate|].
    rewrite <- st_mod in E6. replace (B + (e + 24)) with (B + (e + 12) + 12) in E6 by lia. rewrite (lbind_eq _ _ _ _ _ E6).
    destruct (st_ok B s6 A1 (e + 20) ((hoff + e + 12) mod W32) H6 (M 20 ltac:(lia) eq_refl)) as (s7 & E7 & H7 & Hd7 & HO7); [apply N.mod_lt; discriminate|].
    rewrite <- st_mod in E7. replace (B + (e + 20)) with (B + (e + 12) + 8) in E7 by lia. replace (hoff + e + 12) with (hoff + (B + (e + 12) - lbase s6)) in E7 by (rewrite (proj1 H6); lia).
    rewrite (lbind_eq _ _ _ _ _ E7). exists (B + (e + 12)), s7. split; [reflexivity|]. right. exists e, (fun k => obs s7 (AH (e + 12 + 8 * k)) + W32 * obs s7 (AH (e + 16 + 8 * k))). split; [lia|]. split; [exact Hni|]. split; [exact He0|].
    assert (Hobs : forall x, mine A1 x -> obs s7 x = if adr_dec x (AH (e + 20)) then (hoff + e + 12) mod W32 else if adr_dec x (AH (e + 24)) then m mod W32 else if adr_dec x (AH (e + 12)) then 2
       else if adr_dec x (AH (e + 8)) then 26 + 256 * 1 else if adr_dec x (AH e) then 0 else if adr_dec x (AH (e + 4)) then 0 else obs s1 x).
    { intros x Hm. pose proof (mine_al _ _ _ _ H1 Hm) as Ha. now rewrite HO7, HO6, HO5, HO4, HO3, HO2 by exact Ha. }
    assert (Hlt : forall o, obs s7 (AH o) < W32) by (intros o; apply rdm_lt).
    assert (Hmod : forall k, (obs s7 (AH (e + 12 + 8 * k)) + W32 * obs s7 (AH (e + 16 + 8 * k))) mod W32 = obs s7 (AH (e + 12 + 8 * k))) by (intros k; rewrite (N.mul_comm W32), N.mod_add by discriminate; now apply N.mod_small).
    assert (Hdiv : forall k, (obs s7 (AH (e + 12 + 8 * k)) + W32 * obs s7 (AH (e + 16 + 8 * k))) / W32 = obs s7 (AH (e + 16 + 8 * k))) by (intros k; rewrite (N.mul_comm W32), N.div_add by discriminate; now rewrite N.div_small).
    assert (Ho : forall j v, obs s7 (AH (e + j)) = v -> True) by auto.
    assert (W0 : obs s7 (AH (e + 12)) = 2). { rewrite Hobs by (apply M; [lia|reflexivity]). pick. }
    assert (W1 : obs s7 (AH (e + 20)) = (hoff + e + 12) mod W32). { rewrite Hobs by (apply M; [lia|reflexivity]). destruct (adr_dec _ _) as [Q|Q]; [reflexivity|now elim Q]. }
    assert (W2 : obs s7 (AH (e + 24)) = m mod W32). { rewrite Hobs by (apply M; [lia|reflexivity]). destruct (adr_dec _ _) as [Q|Q]; [injection Q; lia|]. destruct (adr_dec _ _) as [Q'|Q']; [reflexivity|now elim Q']. }
    split; [|split; [|split]].
    + intros k Hk. rewrite Hmod, Hdiv. unfold value_ptr. split.
      * replace (B + e + 12 + 8 * k) with (B + (e + (12 + 8 * k))) by lia. replace (e + 12 + 8 * k) with (e + (12 + 8 * k)) by lia. apply (ld_ok _ _ A1 _ H7). apply M; clear - Hk; lia.
      * replace (B + e + 12 + 8 * k + 4) with (B + (e + (16 + 8 * k))) by lia. replace (e + 16 + 8 * k) with (e + (16 + 8 * k)) by lia. apply (ld_ok _ _ A1 _ H7). apply M; clear - Hk; lia.
    + rewrite Hmod. now rewrite N.mul_0_r, N.add_0_r.
    + replace (e + 12 + 8 * 1) with (e + 20) by lia. replace (e + 16 + 8 * 1) with (e + 24) by lia. now rewrite W1, W2.
    + apply (new_rel rk _ B s s7); auto.
      * congruence.
      * intros x Hm. pose proof (mine_more _ (e, z + 12) _ Hm) as Hm1. rewrite Hobs by exact Hm1. rewrite <- HO1 by exact Hm. destruct x as [j k|y]; [repeat (destruct (adr_dec _ _) as [Q|Q]; [discriminate|clear Q]); reflexivity|].
        pose proof (fresh_apart _ _ _ _ _ _ H1 Hm). repeat (destruct (adr_dec _ _) as [Q|Q]; [injection Q; lia|clear Q]). reflexivity.
      * reflexivity.
      * unfold tca. rewrite Hobs by (apply M; [lia|reflexivity]). pick.
      * discriminate.
      * intros _. split; [reflexivity|]. split; [exact Hz16|]. rewrite !Hmod. split; [now rewrite N.mul_0_r, N.add_0_r|]. split; [now replace (e + 12 + 8 * 1) with (e + 20) by lia|].
        unfold nx, pv. split; (rewrite Hobs; [|first [exact M0|apply M; [lia|reflexivity]]]); pick.
Qed.

Lemma hl_gn B s A g : HL B s A -> HL B (with_heap s (mkHp (grain_bits (hst s)) (grain (hst s)) (hsize (hst s)) g (sroot (hst s)) (aroot (hst s)) (mem (hst s)))) A.
Proof. intros (E & F & C & HI & HLv). split; [exact E|]. split; [exact F|]. exists C. split; [|exact HLv]. destruct HI as [I1 I2 I3 I4 I5 I6 I7 I8]. constructor; try assumption. destruct I6; constructor; assumption. Qed.
Lemma apprec_rel rk B s a l e : Rel rk (fun _ => 0) 0 B s a -> legal size a (AppendRec l e) ->
  exists z s' a' rk', append_record hoff (head_of B l) (value_ptr B e) s = Some (z, s') /\ does size hgrain hoff a (AppendRec l e) (RCode z) s' a' /\ Rel rk' (fun _ => 0) 0 B s' a'.
Proof.
  intros HR (Hl & He & Hcase). pose proof HR as [H HS HD HLn Hdat Hdet Hg]. unfold append_record, value_ptr. rewrite <- N.add_assoc.
  assert (Hrd : forall j, j < siz a e + 12 -> j mod 4 = 0 -> ld32 (B + (e + j)) s = Some (obs s (AH (e + j)), s)) by (intros j Hj Hm; apply (ld_ok _ _ _ _ H), (mine_f _ _ _ e (siz a e + 12) _ H (in_allocs _ _ He)); assumption).
  destruct (Hdat e He) as (_ & Dc).
  assert (Hflag : typ a e <> LIST -> 8 <= siz a e -> ld32 (B + (e + 12)) s = Some (cont a e 0 mod W32, s)).
  { intros T Q. rewrite Hrd; [|lia|reflexivity]. destruct (Dc T 0) as (Q0 & _); [lia|]. rewrite N.mul_0_r, N.add_0_r in Q0. now rewrite Q0. }
  assert (Hlinks : ld32 (B + (e + 4)) s = Some (obs s (pv e), s) /\ ld32 (B + e) s = Some (obs s (nx e), s)) by (split; apply (ld_ok _ _ _ _ H); [now apply (mine_pv _ _ _ _ H), ent_a|now apply (mine_nx _ _ _ _ H), ent_a]).
  destruct Hlinks as (Epv & Enx). unfold le_prev, le_next, ENTRY. replace (B + (e + 12) - 12) with (B + e) by lia. rewrite <- (N.add_assoc B e 4).
  destruct Hcase as [(Hr & Hdt)|[(Hr & l' & Hl' & Hin & Hlen)|(T & Hsz & Hc)]].
  - destruct (sh_rec _ _ HS e He Hr) as (T & Hsz & C0 & C1). assert (T' : typ a e <> LIST) by (rewrite T; discriminate). rewrite (lbind_eq _ _ _ _ _ (Hflag T' ltac:(lia))). rewrite C0. cbn [N.eqb Pos.eqb negb].
    rewrite (lbind_eq _ _ _ _ _ Epv), (lbind_eq _ _ _ _ _ Enx). assert (He0 : e <> 0) by (destruct (entry_lt _ _ _ _ H (in_allocs _ _ He)); cbn [fst] in *; lia).
    destruct (Hdet e He He0 Hr Hdt) as (-> & ->). cbn [N.eqb negb orb].
    assert (Eo : ld32 (B + (e + 12) + 8) s = Some (cont a e 1 mod W32, s)). { replace (B + (e + 12) + 8) with (B + (e + 20)) by lia. rewrite Hrd; [|lia|reflexivity]. destruct (Dc T' 1) as (Q0 & _); [lia|]. replace (e + 12 + 8 * 1) with (e + 20) in Q0 by lia. now rewrite Q0. }
    rewrite (lbind_eq _ _ _ _ _ Eo). replace (hoff + (B + (e + 12) - lbase s)) with (hoff + e + 12) by (rewrite (proj1 H); lia). rewrite C1, N.eqb_refl.
    destruct (append_rel rk (fun _ => 0) B s a l e HR Hl eq_refl He Hdt) as (s' & rk' & E & HR').
    + intros ->. destruct Hl as (_ & Q). contradiction.
    + intros Q. contradiction.
    + rewrite (lbind_eq _ _ _ _ _ E). eexists 0%Z, _, _, rk'. split; [reflexivity|]. split.
      * left. split; [reflexivity|]. split; [exact Hr|]. split; [exact Hdt|]. reflexivity.
      * change (mkAbs (ents a) (setl (seq a) l (seq a l ++ [e])) (typ a) (cnt a) (siz a) (isrec a) (cont a) (gen a)) with (with_seq a (setl (seq a) l (seq a l ++ [e]))).
        apply (rel_obs rk' _ 0 B B s' _ (with_seq a (setl (seq a) l (seq a l ++ [e]))) (gen a) HR'); [apply hl_gn; exact (r_hl _ _ _ _ _ _ HR')|reflexivity|exact (r_gen _ _ _ _ _ _ HR')].
  - destruct (sh_rec _ _ HS e He Hr) as (T & Hsz & C0 & C1). assert (T' : typ a e <> LIST) by (rewrite T; discriminate). rewrite (lbind_eq _ _ _ _ _ (Hflag T' ltac:(lia))). rewrite C0. cbn [N.eqb Pos.eqb negb].
    rewrite (lbind_eq _ _ _ _ _ Epv), (lbind_eq _ _ _ _ _ Enx). destruct (in_split _ _ Hin) as (L1 & L2 & EL). destruct (HD l' Hl') as (_ & _ & _ & Hch). rewrite EL in Hch. destruct (chain_at _ _ _ _ _ Hch) as (P1 & P2).
    assert (Hnz : forall y, In y (seq a l') -> y <> 0) by (intros y Hy; destruct (entry_lt _ _ _ _ H (in_allocs _ _ (sh_in _ _ HS l' y Hl' Hy))); cbn [fst] in *; lia).
    assert (negb (obs s (pv e) =? 0) || negb (obs s (nx e) =? 0) = true) as ->.
    { apply Bool.orb_true_iff. rewrite P1, P2. destruct L2 as [|y L2].
      - left. destruct L1 as [|y L1]; [rewrite EL in Hlen; cbn in Hlen; lia|]. apply Bool.negb_true_iff, N.eqb_neq, Hnz. rewrite EL. apply in_app_iff. left. apply last_in. discriminate.
      - right. apply Bool.negb_true_iff, N.eqb_neq, Hnz. rewrite EL. apply in_app_iff. right. right. now left. }
    exists EBUSY, s, a, rk. split; [reflexivity|]. split; [|exact HR]. right. left. split; [reflexivity|]. split; [exact Hr|]. split; [|reflexivity]. intros Q. exact (Q l' Hl' Hin).
  - rewrite (lbind_eq _ _ _ _ _ (Hflag T Hsz)). change 4294967296 with W32 in Hc. rewrite (proj2 (N.eqb_neq _ _) Hc). cbn [negb]. exists EINVAL, s, a, rk. split; [reflexivity|]. split; [|exact HR].
    right. right. split; [reflexivity|]. split; [|reflexivity]. destruct (isrec a e) eqn:Hr; [|reflexivity]. destruct (sh_rec _ _ HS e He Hr) as (_ & _ & C0 & _). contradiction.
Qed.
Lemma move_rel rk B s a base o : Rel rk (fun _ => 0) 0 B s a -> base + up512 size + 8 <= W64 ->
  Rel rk (fun _ => 0) 0 base (mkL base (moved (lbase s) base o (hst s)) (tops s) (dgn s)) a.
Proof.
  intros HR Hw. pose proof (r_hl _ _ _ _ _ _ HR) as H. pose proof H as (EB & Hhl). rewrite <- (abs_eta a).
  apply (rel_obs rk _ 0 B base s _ a (gen a) HR); [|  |exact (r_gen _ _ _ _ _ _ HR)].
  - split; [reflexivity|]. cbn [hst]. rewrite EB. now apply move_top.
  - intros [i k|y] Hm; [reflexivity|]. destruct (mine_mapped _ _ _ _ H Hm) as (Ha & Hs). pose proof (cell_bounds _ Ha) as Hc. destruct Hm as ((x & Hin & Hy) & _). destruct (hl_bounds _ _ _ _ H Hin) as (i & Hi & (Hb & _) & _).
    cbn [obs lbase hst]. unfold rdm, moved. cbn [set_mem mem]. rewrite (size_top _ _ _ _ _ Hhl). replace (_ && _) with true by lia. now replace (base + cell y - base) with (cell y) by lia.
Qed.
Lemma nab_le rk a l : (nab rk a l <= length (ents a))%nat.
Proof. unfold nab. induction (ents a) as [|x E IH]; cbn; [lia|]. destruct (aboveb rk l x); cbn; lia. Qed.
Lemma ents_le rk adj x B s a : Rel rk adj x B s a -> (length (ents a) <= N.to_nat (grains size hgrain))%nat.
Proof. intros HR. destruct (r_hl _ _ _ _ _ _ HR) as (_ & H). pose proof (count_top _ _ _ _ _ H) as Q. unfold allocs in Q. rewrite map_length in Q. lia. Qed.

Theorem call_ok lf s a o : (2 * N.to_nat (grains size hgrain) + 2 <= lf)%nat -> Inv s a -> legal size a o ->
  exists r s' a', call fuel lf hoff o s = Some (r, s') /\ does size hgrain hoff a o r s' a' /\ Inv s' a'.
Proof.
  intros Hlf (rk & HR) HL. pose proof (ents_le _ _ _ _ _ _ HR) as Hen. assert (INV : forall rk' s' a', Rel rk' (fun _ => 0) 0 (lbase s) s' a' -> Inv s' a').
  { intros rk' s' a' Q. exists rk'. now rewrite (proj1 (r_hl _ _ _ _ _ _ Q)). }
  assert (HP : forall e, ptr_res (lbase s) (lbase s + e + 12) = RPtr e) by (intros e; unfold ptr_res; rewrite (proj2 (N.eqb_neq _ 0)) by lia; f_equal; lia).
  destruct o as [l t c|l e|l|z m|l e|e lo len f|base o]; cbn [call].
  - destruct HL as (Hl & Ht & Hv). destruct (M_Set.value_size t (c mod W32)) as [z|] eqn:Hz; [|now elim Hv].
    destruct (item_rel _ _ _ _ _ _ _ _ HR Hl Ht Hz) as (p & s' & E & [(-> & -> & Hfull)|(e & rk' & -> & Hni & He0 & HR')]); rewrite (lbind_eq _ _ _ _ _ E).
    + exists RNull, s, a. split; [reflexivity|]. split; [exists z; auto|]. now exists rk.
    + eexists (RPtr e), s', _. split; [unfold lret; now rewrite HP|]. split; [exists z; split; [exact Hz|]; split; [exact Hni|]; split; [exact He0|reflexivity]|]. exact (INV _ _ _ HR').
  - destruct HL as (Hl & Hin). pose proof (nab_le rk a (Sub e)). destruct (remove_rel _ _ _ _ _ _ _ lf _ HR Hl Hin (le_n _) (fun _ => purge_ok _)) as (s' & E & Ec & Q1 & Q2 & HR'); [lia|].
    rewrite (lbind_eq _ _ _ _ _ Ec). eexists RUnit, s', _. split; [reflexivity|]. split; [exists E; split; [exact Q1|]; split; [exact Q2|reflexivity]|]. exact (INV _ _ _ HR').
  - cbn in HL. pose proof (nab_le rk a l). destruct (purge_ok _ _ _ _ _ _ _ lf HR HL (le_n _)) as (s' & E & Ec & Q1 & Q2 & HR'); [lia|].
    rewrite (lbind_eq _ _ _ _ _ Ec). eexists RUnit, s', _. split; [reflexivity|]. split; [exists E; split; [exact Q1|]; split; [exact Q2|reflexivity]|]. exact (INV _ _ _ HR').
  - destruct HL as (Hz & Hz8 & Hzl). destruct (record_rel _ _ _ _ z m HR Hz Hz8 Hzl) as (p & s' & E & [(-> & -> & Hfull)|(e & w & -> & Hni & He0 & Hld & W0 & W1 & HR')]); rewrite (lbind_eq _ _ _ _ _ E).
    + exists RNull, s, a. split; [reflexivity|]. split; [split; auto|]. now exists rk.
    + eexists (RPtr e), s', _. split; [unfold lret; now rewrite HP|]. split; [|exact (INV _ _ _ HR')]. exists w. split; [exact Hni|]. split; [exact He0|]. split; [rewrite (proj1 (r_hl _ _ _ _ _ _ HR')); exact Hld|]. split; [exact W0|]. split; [exact W1|reflexivity].
  - destruct (apprec_rel _ _ _ _ _ _ HR HL) as (z & s' & a' & rk' & E & Q & HR'). rewrite (lbind_eq _ _ _ _ _ E). exists (RCode z), s', a'. split; [reflexivity|]. split; [exact Q|exact (INV _ _ _ HR')].
  - destruct HL as (He & Ht & Hlo & Hlen & Hend & Hrec). destruct (write_rel _ _ _ _ _ _ _ f HR He Ht Hlo Hlen Hend Hrec) as (s' & E & HR'). rewrite (lbind_eq _ _ _ _ _ E).
    eexists RUnit, s', _. split; [reflexivity|]. split; [reflexivity|]. exact (INV _ _ _ HR').
  - exists RUnit, (mkL base (moved (lbase s) base o (hst s)) (tops s) (dgn s)), a. split; [reflexivity|]. split; [reflexivity|]. exists rk. cbn [lbase]. now apply (move_rel rk (lbase s)).
Qed.

(** What a call does is determined, up to the order in which entries are listed. *)
Record same (a a' : abs) : Prop := mkSame {
  sm_ents : Permutation (ents a) (ents a'); sm_seq : seq a = seq a'; sm_typ : typ a = typ a'; sm_cnt : cnt a = cnt a'; sm_siz : siz a = siz a'; sm_rec : isrec a = isrec a';
  sm_cont : forall e k, In e (ents a) -> 8 * k + 8 <= siz a e -> cont a e k = cont a' e k; sm_gen : gen a = gen a' }.
Lemma same_refl a : same a a.
Proof. constructor; auto. Qed.
Lemma does_same a o r s' a1 a2 : does size hgrain hoff a o r s' a1 -> does size hgrain hoff a o r s' a2 -> same a1 a2.
Proof.
  destruct o as [l t c|l e|l|z m|l e|e lo len f|base o]; destruct r as [|e'|z'|]; cbn [does]; try contradiction.
  - intros (z & _ & _ & ->) (z2 & _ & _ & ->). apply same_refl.
  - intros (z & Hz & _ & _ & ->) (z2 & Hz2 & _ & _ & ->). rewrite Hz in Hz2. injection Hz2 as <-. apply same_refl.
  - intros (E & N1 & Q1 & ->) (E2 & N2 & Q2 & ->). constructor; auto. cbn [ents]. apply NoDup_Permutation; auto. intros x. rewrite Q1, Q2. reflexivity.
  - intros (E & N1 & Q1 & ->) (E2 & N2 & Q2 & ->). constructor; auto. cbn [ents]. apply NoDup_Permutation; auto. intros x. rewrite Q1, Q2. reflexivity.
  - intros (_ & ->) (_ & ->). apply same_refl.
  - intros (w & _ & _ & R1 & _ & _ & ->) (w2 & _ & _ & R2 & _ & _ & ->). constructor; auto. cbn [ents siz cont]. intros e k _. unfold set1. destruct (e =? e'); [|reflexivity]. intros Hk.
    destruct (R1 k Hk) as (X1 & Y1), (R2 k Hk) as (X2 & Y2). rewrite X1 in X2. rewrite Y1 in Y2. injection X2 as X2. injection Y2 as Y2. rewrite (N.div_mod (w k) W32), (N.div_mod (w2 k) W32) by discriminate. now rewrite X2, Y2.
  - intros [(-> & R1 & _ & ->)|[(-> & R1 & _ & ->)|(-> & R1 & ->)]] [(Q & R2 & _ & ->)|[(Q & R2 & _ & ->)|(Q & R2 & ->)]]; try discriminate Q; try apply same_refl.
  - intros -> ->. apply same_refl.
  - intros -> ->. apply same_refl.
Qed.
Lemma same_inv s a a' : same a a' -> Inv s a -> Inv s a'.
Proof.
  intros [S1 S2 S3 S4 S5 S6 S7 S8] (rk & [H HS HD HLn Hdat Hdet Hg]). exists rk. destruct a as [E f t c z r w g], a' as [E' f' t' c' z' r' w' g']. cbn in S1, S2, S3, S4, S5, S6, S7, S8. subst f' t' c' z' r' g'.
  assert (Pin : forall x, In x E' <-> In x E) by (intros x; split; apply Permutation_in; [now apply Permutation_sym|exact S1]).
  assert (Hh : forall l, has (mkAbs E' f t c z r w' g) l <-> has (mkAbs E f t c z r w g) l) by (intros [i|p]; cbn [has ents typ]; [tauto|now rewrite Pin]).
  constructor.
  - destruct H as (EB & H). split; [exact EB|]. apply (perm_top size hgrain _ _ (allocs (mkAbs E f t c z r w g))); [|exact H]. unfold allocs. cbn [ents siz]. now apply Permutation_map.
  - destruct HS as [Q1 Q2 Q3 Q4 Q5 Q6 Q7 Q8]. cbn [ents seq typ siz isrec cont] in *. constructor; cbn [ents seq typ siz isrec cont].
    + exact (Permutation_NoDup S1 Q1).
    + intros l e Hl He. apply Pin. apply (Q2 l); [now apply Hh|exact He].
    + intros l Hl. apply Q3. now apply Hh.
    + intros l l' e Hl Hl'. apply Q4; now apply Hh.
    + intros p e Hp. apply Q5. now apply Hh.
    + intros e He. apply Q6. now apply Pin.
    + intros e He. apply Q7. now apply Pin.
    + intros e He Hr. apply Pin in He. destruct (Q8 e He Hr) as (A1 & A2 & A3 & A4). rewrite <- !S7 by (auto; lia). auto.
  - intros l Hl. apply HD. now apply Hh.
  - intros l Hl. apply HLn. now apply Hh.
  - intros e He. apply Pin in He. destruct (Hdat e He) as (D1 & D2). split; [exact D1|]. cbn [ents seq typ cnt siz isrec cont] in *. intros T k Hk. rewrite <- S7 by assumption. now apply D2.
  - intros e He Hne Hr Hd. apply Pin in He. apply (Hdet e); auto. intros l Hl. apply (Hd l). now apply Hh.
  - exact Hg.
Qed.
Theorem hist_inv lf s a : (2 * N.to_nat (grains size hgrain) + 2 <= lf)%nat -> hist fuel lf size hgrain hoff s a -> Inv s a.
Proof.
  intros Hlf Hh. induction Hh as [base h h' g HG E|s a o r s' a' Hh IH HLg Ec Hd].
  - exists (fun _ => O). cbn [lbase]. pose proof (reach_inv fuel size hgrain Hf _ _ _ (re_init fuel size hgrain base h h' HG E)) as Q. constructor.
    + split; [reflexivity|exact Q].
    + constructor; cbn; try (intros; tauto); intros; constructor.
    + intros [i|p] Hl; [|destruct Hl; contradiction]. unfold dll. cbn. auto.
    + intros l _. reflexivity.
    + intros e [].
    + intros e [].
    + reflexivity.
  - destruct (call_ok lf s a o Hlf IH HLg) as (r2 & s2 & a2 & Ec2 & Hd2 & HI). rewrite Ec in Ec2. injection Ec2 as <- <-. exact (same_inv _ _ _ (does_same _ _ _ _ _ _ Hd2 Hd) HI).
Qed.

(** ** What readers see *)
Definition desc (B : N) (a : abs) (e : N) : N * N * N := (value_ptr B e, typ a e, cnt a e).
Lemma entry_ok rk adj x B s a e : Rel rk adj x B s a -> In e (ents a) -> entry_at e s = Some (Some (desc B a e), s).
Proof.
  intros HR He. pose proof (r_hl _ _ _ _ _ _ HR) as H. pose proof (r_sh _ _ _ _ _ _ HR) as HS. unfold entry_at.
  rewrite (lbind_eq _ _ _ _ _ (hptr_ok _ _ _ _ H (in_allocs _ _ He))). cbn [fst]. unfold le_tc. rewrite <- N.add_assoc. rewrite (lbind_eq _ _ _ _ _ (ld_ok _ _ _ _ H (mine_tc _ _ _ _ H (ent_a _ _ He)))).
  fold (tca e). destruct (r_dat _ _ _ _ _ _ HR e He) as (Dt & _). rewrite Dt. pose proof (sh_typ _ _ HS e He) as Ht. unfold lret, desc, value_ptr, ENTRY.
  rewrite (N.mul_comm 256), N.mod_add, N.div_add by discriminate. rewrite N.mod_small, N.div_small by exact Ht. reflexivity.
Qed.
Definition at_head (B : N) (a : abs) (L : list N) : option (N * N * N) := match L with [] => None | e :: _ => Some (desc B a e) end.
Lemma link_ok rk adj x B s a l o : Rel rk adj x B s a -> has a l -> (o = 0 \/ In o (seq a l)) ->
  (if o =? 0 then lret None else entry_at o) s = Some (if o =? 0 then None else Some (desc B a o), s).
Proof.
  intros HR Hl [->|Ho]; [reflexivity|]. pose proof (r_hl _ _ _ _ _ _ HR) as H. pose proof (sh_in _ _ (r_sh _ _ _ _ _ _ HR) l o Hl Ho) as He.
  destruct (entry_lt _ _ _ _ H (in_allocs _ _ He)) as (Q & _). cbn [fst] in Q. rewrite (proj2 (N.eqb_neq o 0)) by lia. exact (entry_ok _ _ _ _ _ _ _ HR He).
Qed.
Lemma nonzero rk adj x B s a l o : Rel rk adj x B s a -> has a l -> In o (seq a l) -> (o =? 0) = false.
Proof.
  intros HR Hl Ho. pose proof (r_hl _ _ _ _ _ _ HR) as H. pose proof (sh_in _ _ (r_sh _ _ _ _ _ _ HR) l o Hl Ho) as He.
  destruct (entry_lt _ _ _ _ H (in_allocs _ _ He)) as (Q & _). cbn [fst] in Q. apply N.eqb_neq. lia.
Qed.
Lemma next_ok rk adj x B s a l L1 e L2 : Rel rk adj x B s a -> has a l -> seq a l = L1 ++ e :: L2 -> list_next (value_ptr B e) s = Some (at_head B a L2, s).
Proof.
  intros HR Hl EL. pose proof (r_hl _ _ _ _ _ _ HR) as H. assert (He : In e (seq a l)) by (rewrite EL; apply in_app_iff; right; now left). pose proof (sh_in _ _ (r_sh _ _ _ _ _ _ HR) l e Hl He) as Hen.
  unfold list_next, le_next, value_ptr, ENTRY. replace (B + e + 12 - 12) with (B + e) by lia. rewrite (lbind_eq _ _ _ _ _ (ld_ok _ _ _ _ H (mine_nx _ _ _ _ H (ent_a _ _ Hen)))).
  destruct (r_dll _ _ _ _ _ _ HR l Hl) as (_ & _ & _ & Hch). rewrite EL in Hch. destruct (chain_at _ _ _ _ _ Hch) as (_ & P). fold (nx e). rewrite P.
  rewrite (link_ok _ _ _ _ _ _ l _ HR Hl).
  - destruct L2 as [|y L2]; [reflexivity|]. cbn [hd at_head]. now rewrite (nonzero _ _ _ _ _ _ l y HR Hl) by (rewrite EL; apply in_app_iff; right; right; now left).
  - destruct L2 as [|y L2]; [now left|]. right. rewrite EL. apply in_app_iff. right. right. now left.
Qed.
Lemma last_ok rk adj x B s a l : Rel rk adj x B s a -> has a l -> list_last (head_of B l) s = Some (match seq a l with [] => None | y :: L => Some (desc B a (last (y :: L) 0)) end, s).
Proof.
  intros HR Hl. pose proof (r_hl _ _ _ _ _ _ HR) as H. pose proof (lok_a _ _ _ (r_sh _ _ _ _ _ _ HR) Hl) as Lk. destruct (r_dll _ _ _ _ _ _ HR l Hl) as (D1 & D2 & _). unfold list_last.
  rewrite (lbind_eq _ _ _ _ _ (hget_ok _ _ _ _ _ H (mine_hd _ _ _ _ FHead H Lk))), D1. destruct (seq a l) as [|y L] eqn:EL; [reflexivity|]. cbn [hd].
  rewrite (nonzero _ _ _ _ _ _ l y HR Hl) by (rewrite EL; now left). rewrite (lbind_eq _ _ _ _ _ (hget_ok _ _ _ _ _ H (mine_hd _ _ _ _ FTail H Lk))), D2.
  apply (entry_ok _ _ _ _ _ _ _ HR). apply (sh_in _ _ (r_sh _ _ _ _ _ _ HR) l _ Hl). rewrite EL. now apply last_in.
Qed.
Lemma len_ok rk B s a l : Rel rk (fun _ => 0) 0 B s a -> has a l -> list_len (head_of B l) s = Some (N.of_nat (length (seq a l)), s).
Proof.
  intros HR Hl. pose proof (r_hl _ _ _ _ _ _ HR) as H. pose proof (lok_a _ _ _ (r_sh _ _ _ _ _ _ HR) Hl) as Lk. destruct (r_dll _ _ _ _ _ _ HR l Hl) as (_ & _ & D3 & _). unfold list_len.
  now rewrite (hget_ok _ _ _ _ _ H (mine_hd _ _ _ _ FCount H Lk)), D3, N.add_0_r.
Qed.
Lemma walk_ok rk adj x B s a l : Rel rk adj x B s a -> has a l -> forall L2 L1 f, seq a l = L1 ++ L2 -> (length L2 < f)%nat -> walk f (at_head B a L2) s = Some (map (desc B a) L2, s).
Proof.
  intros HR Hl. induction L2 as [|e L2 IH]; intros L1 f EL Hfu; (destruct f as [|f]; [inversion Hfu|]).
  - reflexivity.
  - cbn [at_head walk]. unfold desc at 1. rewrite (lbind_eq _ _ _ _ _ (next_ok _ _ _ _ _ _ _ _ _ _ HR Hl EL)). rewrite (lbind_eq _ _ _ _ _ (IH (L1 ++ [e]) f ltac:(now rewrite <- app_assoc) ltac:(cbn in Hfu; lia))). reflexivity.
Qed.
Lemma list_walk_ok rk adj x B s a l f : Rel rk adj x B s a -> has a l -> (length (seq a l) < f)%nat -> list_walk f (head_of B l) s = Some (map (desc B a) (seq a l), s).
Proof.
  intros HR Hl Hfu. unfold list_walk. rewrite (lbind_eq _ _ _ _ _ (first_ok _ _ _ _ _ _ _ HR Hl)). exact (walk_ok _ _ _ _ _ _ _ HR Hl (seq a l) [] f eq_refl Hfu).
Qed.
Lemma value_ok rk adj x B s a e k : Rel rk adj x B s a -> In e (ents a) -> typ a e <> LIST -> 8 * k + 8 <= siz a e ->
  ld32 (value_ptr B e + 8 * k) s = Some (cont a e k mod W32, s) /\ ld32 (value_ptr B e + 8 * k + 4) s = Some (cont a e k / W32, s).
Proof.
  intros HR He T Hk. pose proof (r_hl _ _ _ _ _ _ HR) as H. destruct (r_dat _ _ _ _ _ _ HR e He) as (_ & D). destruct (D T k Hk) as (D1 & D2). unfold value_ptr.
  replace (B + e + 12 + 8 * k) with (B + (e + 12 + 8 * k)) by lia. replace (B + (e + 12 + 8 * k) + 4) with (B + (e + 16 + 8 * k)) by lia.
  rewrite <- D1, <- D2. split; apply (ld_ok _ _ _ _ H); apply (mine_cont B s a e _ H He); clear - Hk; lia.
Qed.
End Lists.
