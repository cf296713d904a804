(** The heap inside a metric set: arithmetic, initialisation, reachable states. *)
From Verif Require Import L_LHeap L_RrbtTop S_Rrbt.
From Verif Require Export S_LHeap.
From Coq Require Import Lia ZifyBool ZifyN ZifyNat Permutation.
Local Open Scope N_scope.

Lemma land_high x b : b <= 64 -> x < W64 -> N.land x (W64 - 1 - (2 ^ b - 1)) = x / 2 ^ b * 2 ^ b.
Proof.
  intros Hb Hx. rewrite <- N.shiftr_div_pow2, <- N.shiftl_mul_pow2, <- N.ldiff_ones_r.
  assert (E : W64 - 1 - (2 ^ b - 1) = N.ldiff (N.ones 64) (N.ones b)).
  { rewrite N.ldiff_ones_r, N.shiftl_mul_pow2, N.shiftr_div_pow2. unfold N.ones. rewrite N.shiftl_1_l.
    assert (2 ^ 64 = 2 ^ (64 - b) * 2 ^ b) as E by (rewrite <- N.pow_add_r; f_equal; lia).
    change W64 with (2 ^ 64). rewrite E. pose proof (N.pow_nonzero 2 b ltac:(lia)). pose proof (N.pow_nonzero 2 (64 - b) ltac:(lia)).
    set (p := 2 ^ b) in *. set (r := 2 ^ (64 - b)) in *. assert (N.pred (r * p) / p = r - 1) as ->; [|nia].
    symmetry. apply (N.div_unique _ _ _ (p - 1)); nia. }
  rewrite E. apply N.bits_inj. intros i. rewrite N.land_spec, !N.ldiff_spec.
  destruct (N.lt_ge_cases i 64) as [Hi|Hi].
  - rewrite (N.ones_spec_low 64) by exact Hi. now rewrite Bool.andb_true_l.
  - assert (N.testbit x i = false) as ->; [|reflexivity]. destruct (N.eq_dec x 0) as [->|Hx0]; [apply N.bits_0|].
    apply N.bits_above_log2. apply N.log2_lt_pow2; [lia|]. eapply N.lt_le_trans; [exact Hx|]. change W64 with (2 ^ 64). apply N.pow_le_mono_r; lia.
Qed.
Lemma roundup_ok x b : b <= 64 -> x + (2 ^ b - 1) < W64 -> roundup x (2 ^ b) = (x + (2 ^ b - 1)) / 2 ^ b * 2 ^ b.
Proof. intros Hb Hx. unfold roundup, add64. rewrite (N.mod_small (x + _)) by exact Hx. now apply land_high. Qed.

Definition gb (hgrain : N) : N := N.log2_up (N.max 64 hgrain).
Lemma gb_gsz hgrain : gsz hgrain = 2 ^ gb hgrain.
Proof. reflexivity. Qed.
Lemma gb_low hgrain : 6 <= gb hgrain.
Proof. unfold gb. change 6 with (N.log2_up 64). apply N.log2_up_le_mono. lia. Qed.
Lemma gb_high hgrain : hgrain <= 8388608 -> gb hgrain <= 23.
Proof. intros H. unfold gb. change 23 with (N.log2_up 8388608). apply N.log2_up_le_mono. lia. Qed.
Definition qq (hgrain : N) : N := 2 ^ (gb hgrain - 6).
Lemma gsz_qq hgrain : gsz hgrain = 64 * qq hgrain.
Proof. rewrite gb_gsz. unfold qq. change 64 with (2 ^ 6). rewrite <- N.pow_add_r. f_equal. pose proof (gb_low hgrain). lia. Qed.
Lemma qq_pos hgrain : 1 <= qq hgrain.
Proof. unfold qq. pose proof (N.pow_nonzero 2 (gb hgrain - 6) ltac:(lia)). lia. Qed.
Lemma gsz_high hgrain : hgrain <= 8388608 -> gsz hgrain <= 8388608.
Proof. intros H. rewrite gb_gsz. change 8388608 with (2 ^ 23). apply N.pow_le_mono_r; [lia|]. now apply gb_high. Qed.
Lemma gsz_self hgrain : N.max 64 (gsz hgrain) = gsz hgrain.
Proof. rewrite gsz_qq. pose proof (qq_pos hgrain). lia. Qed.

Lemma grain_loop_ok hgrain : hgrain <= 8388608 -> forall f k, k <= gb hgrain -> (N.to_nat (gb hgrain - k) < f)%nat ->
  grain_loop f (N.max 64 hgrain) (2 ^ k) k = Some (gsz hgrain, gb hgrain).
Proof.
  intros H. pose proof (gb_high _ H) as Hh. induction f as [|f IH]; intros k Hk Hf; [lia|]. cbn [grain_loop].
  destruct (N.eq_dec k (gb hgrain)) as [->|Hne].
  - destruct (N.ltb_spec (2 ^ gb hgrain) (N.max 64 hgrain)) as [Hc|_]; [exfalso|reflexivity].
    unfold gb in Hc. pose proof (N.log2_up_spec (N.max 64 hgrain) ltac:(lia)). lia.
  - assert (Hlt : 2 ^ k < N.max 64 hgrain) by (apply N.log2_up_lt_pow2; [lia|unfold gb in *; lia]).
    rewrite (proj2 (N.ltb_lt _ _) Hlt). rewrite (N.mod_small (2 * 2 ^ k)); [rewrite N.mod_small by lia|].
    + replace (2 * 2 ^ k) with (2 ^ (k + 1)) by (rewrite N.pow_add_r; lia). apply IH; lia.
    + replace (2 * 2 ^ k) with (2 ^ (k + 1)) by (rewrite N.pow_add_r; lia). change 16777216 with (2 ^ 24). apply N.pow_lt_mono_r; lia.
Qed.
Lemma grain_size_max g : grain_size g = N.max 64 g.
Proof. unfold grain_size, MM_FREE. destruct (N.ltb_spec 64 g); lia. Qed.

Lemma alloc_size_ok hgrain sz : hgrain <= 8388608 -> sz + 4 + gsz hgrain <= W64 ->
  N.shiftr (alloc_size (gsz hgrain) sz) (gb hgrain) = need (gsz hgrain) sz.
Proof.
  intros H Hs. unfold alloc_size, add64, MM_ALLOC, MM_FREE. rewrite grain_size_max, gsz_self. rewrite N.mod_small by (rewrite gsz_qq in Hs; pose proof (qq_pos hgrain); lia).
  pose proof (qq_pos hgrain) as Hq. pose proof (gsz_qq hgrain) as Eg.
  assert (Hp : gsz hgrain <> 0) by lia.
  set (x := if sz + 4 <? 64 then 64 else sz + 4).
  assert (Hx : x + (gsz hgrain - 1) < W64).
  { unfold x. pose proof (gsz_high _ H). destruct (N.ltb_spec (sz + 4) 64); [unfold W64; lia|lia]. }
  rewrite gb_gsz in *. rewrite roundup_ok by (try exact Hx; pose proof (gb_high _ H); lia).
  rewrite N.shiftr_div_pow2, N.div_mul by exact Hp. unfold need, x. destruct (N.ltb_spec (sz + 4) 64) as [Hl|Hl]; [|reflexivity].
  symmetry. rewrite <- (N.div_unique (64 + (2 ^ gb hgrain - 1)) (2 ^ gb hgrain) 1 63) by lia.
  symmetry. apply (N.div_unique _ _ 1 (sz + 3)); lia.
Qed.
Lemma up512_ok size : up512 size + 8 <= W63 -> roundup size HEAP_MIN = up512 size.
Proof.
  intros H. unfold HEAP_MIN. change 512 with (2 ^ 9). rewrite roundup_ok; [unfold up512; change (2 ^ 9) with 512; change (512 - 1) with 511; lia|lia|].
  unfold up512 in H. change (2 ^ 9) with 512. pose proof (N.div_mod (size + 511) 512 ltac:(lia)). pose proof (N.mod_lt (size + 511) 512 ltac:(lia)). unfold W63, W64 in *. lia.
Qed.

Lemma grains_fit size hgrain : grains size hgrain * (64 * qq hgrain) <= up512 size.
Proof. unfold grains. rewrite <- gsz_qq. rewrite N.mul_comm. apply N.mul_div_le. rewrite gsz_qq. pose proof (qq_pos hgrain). lia. Qed.

Definition hinv (base size hgrain : N) : hp -> list (N * N * bool) -> Prop := inv base (qq hgrain) (up512 size) (grains size hgrain) (gb hgrain).
(** What a caller promised at the beginning *)
Definition fits (base size hgrain : N) : Prop :=
  hgrain <= 8388608 /\ base + up512 size + 8 <= W64 /\ up512 size + 8 <= W63 /\ 1 <= grains size hgrain < W32.

Lemma good_fits base size hgrain m : good_init base size hgrain m -> fits base size hgrain.
Proof.
  intros [H1 H2 H3 H4 H5 H6 H7 H8]. split; [exact H2|]. split; [exact H4|]. split; [exact H5|]. split; [|exact H7].
  apply N.div_le_lower_bound; [rewrite gsz_qq; pose proof (qq_pos hgrain); lia|lia].
Qed.
Lemma heap_init_ok base size hgrain fuel h : good_init base size hgrain (mem h) -> enough (S (N.to_nat (grains size hgrain))) fuel ->
  exists h', heap_init base fuel size hgrain h = Some (tt, h') /\ hinv base size hgrain h' [((0, grains size hgrain), false)].
Proof.
  intros HG Hf. pose proof (good_fits _ _ _ _ HG) as (F1 & F2 & F3 & F4 & F5). destruct HG as [H1 H2 H3 H4 H5 H6 H7 H8].
  unfold heap_init. rewrite (proj2 (N.eqb_neq _ _)) by lia. rewrite up512_ok by exact H5.
  rewrite grain_size_max. change 1 with (2 ^ 0) at 1. rewrite grain_loop_ok; [|exact H2|apply N.le_0_l|pose proof (gb_high _ H2); lia].
  cbv zeta. assert (Ep : add64 base START = base + 8) by (unfold add64, START; rewrite N.mod_small; [reflexivity|pose proof (gsz_qq hgrain); pose proof (qq_pos hgrain); lia]).
  rewrite Ep. assert (Hal : N.land (base + 8) 7 = 0).
  { change 7 with (N.ones 3). rewrite N.land_ones. change (2 ^ 3) with 8. rewrite <- (N.mul_1_l 8) at 1. rewrite N.mod_add by lia. exact H1. }
  unfold hbind at 1, hassert. rewrite Hal. cbn [N.eqb].
  assert (Es : add64 (base + 8) SIZE_NODE = base + so (qq hgrain) 0).
  { unfold add64, SIZE_NODE, so. rewrite N.mod_small; [lia|]. pose proof (gsz_qq hgrain). pose proof (qq_pos hgrain). lia. }
  assert (Eo : sub64 (base + 8) base = ao (qq hgrain) 0).
  { unfold sub64, ao. rewrite (N.mod_small base) by lia. replace (base + 8 + (W64 - base)) with (8 + 1 * W64) by lia. rewrite N.mod_add by (unfold W64; lia). rewrite N.mod_small by (unfold W64; lia). lia. }
  rewrite Es, Eo. replace (base + 8) with (base + ao (qq hgrain) 0) by (unfold ao; lia).
  fold (grains size hgrain). apply init_ok; cbn [grain_bits grain hsize sroot aroot mem]; try reflexivity; try assumption.
  - apply qq_pos.
  - apply grains_fit.
  - rewrite <- gsz_qq. reflexivity.
  - apply gsz_qq.
Qed.

Lemma need_room hgrain sz : sz + 4 <= need (gsz hgrain) sz * gsz hgrain.
Proof.
  pose proof (gsz_qq hgrain). pose proof (qq_pos hgrain). unfold need.
  pose proof (N.div_mod (sz + 4 + (gsz hgrain - 1)) (gsz hgrain) ltac:(lia)) as E. pose proof (N.mod_lt (sz + 4 + (gsz hgrain - 1)) (gsz hgrain) ltac:(lia)). lia.
Qed.
Section Reach.
Variables (fuel : nat) (size hgrain : N).
Hypothesis Hf : enough (S (N.to_nat (grains size hgrain))) fuel.

(** The heap is in order and has the allocations [A]. *)
Definition hl (base : N) (h : hp) (A : list (N * N)) : Prop := fits base size hgrain /\ exists C, hinv base size hgrain h C /\ live (qq hgrain) A C.
Lemma reach_inv base h A : reach fuel size hgrain base h A -> hl base h A.
Proof.
  induction 1 as [base h h' HG E|base h A sz r h' _ IH Hs E Hr|base h A1 d sz A2 h' _ IH E|base h A e f _ IH Hin|base h A base' o _ IH Hw].
  - split; [now apply good_fits in HG|]. destruct (heap_init_ok _ _ _ fuel _ HG Hf) as (h1 & E1 & HI). rewrite E in E1. injection E1 as <-. eexists. split; [exact HI|].
    unfold live. cbn. constructor.
  - destruct IH as (HF & C & HI & HL). split; [exact HF|]. destruct HF as (F1 & F2 & F3 & F4 & F5).
    destruct (alloc_live base (qq hgrain) (up512 size) (grains size hgrain) fuel (qq_pos _) (grains_fit _ _) F2 F3 Hf F5 (gb hgrain) (gsz_qq hgrain) h A C sz HI HL) as [(E1 & _)|(i & n & h1 & C' & E1 & _ & _ & _ & HI' & HL' & _)].
    + rewrite (in_grain _ _ _ _ _ _ _ HI), (in_bits _ _ _ _ _ _ _ HI), <- gsz_qq. now apply alloc_size_ok.
    + rewrite E in E1. injection E1 as -> ->. now elim Hr.
    + rewrite E in E1. injection E1 as -> ->. exists C'. split; [exact HI'|]. replace (base + (ao (qq hgrain) i + 4) - base) with (ao (qq hgrain) i + 4) by lia. exact HL'.
  - destruct IH as (HF & C & HI & HL). split; [exact HF|]. destruct HF as (F1 & F2 & F3 & F4 & F5).
    destruct (free_live base (qq hgrain) (up512 size) (grains size hgrain) fuel (qq_pos _) (grains_fit _ _) F2 F3 Hf F5 (gb hgrain) (gsz_qq hgrain) h A1 d sz A2 C HI HL) as (h1 & C' & E1 & HI' & HL' & _).
    rewrite E in E1. injection E1 as ->. now exists C'.
  - destruct IH as (HF & C & HI & HL). split; [exact HF|]. destruct HF as (F1 & F2 & F3 & F4 & F5). exists C. split; [|exact HL]. rewrite gsz_qq.
    apply (write_live base (qq hgrain) (up512 size) (grains size hgrain) (qq_pos _) (grains_fit _ _) F2 F3 F5 (gb hgrain) (gsz_qq hgrain) h A C e f HI HL Hin).
  - destruct IH as (HF & C & HI & HL). destruct HF as (F1 & F2 & F3 & F4 & F5). split; [now repeat split|]. exists C. split; [|exact HL].
    exact (move_ok base base' (qq hgrain) (up512 size) (grains size hgrain) (gb hgrain) h C o (qq_pos _) (grains_fit _ _) Hw F3 HI).
Qed.

Lemma alloc_top base h A sz : hl base h A -> sz + 4 + gsz hgrain <= W64 ->
  exists r h', heap_alloc base fuel sz h = Some (r, h') /\
    (r = 0 <-> forall i, ~ vacant (grains size hgrain) (gsz hgrain) A i (need (gsz hgrain) sz)) /\
    (r = 0 -> h' = h) /\
    (r <> 0 -> exists i n, r = base + (12 + i * gsz hgrain) /\ gap (grains size hgrain) (gsz hgrain) A i n /\ need (gsz hgrain) sz <= n /\
       (forall j m, gap (grains size hgrain) (gsz hgrain) A j m -> need (gsz hgrain) sz <= m -> n <= m) /\
       undisturbed base (gsz hgrain) A (mem h) (mem h') /\ hl base h' ((12 + i * gsz hgrain, sz) :: A)).
Proof.
  intros HR Hs. pose proof HR as ((F1 & F2 & F3 & F4 & F5) & C & HI & HL).
  destruct (alloc_live base (qq hgrain) (up512 size) (grains size hgrain) fuel (qq_pos _) (grains_fit _ _) F2 F3 Hf F5 (gb hgrain) (gsz_qq hgrain) h A C sz HI HL) as [(E1 & HN)|(i & n & h1 & C' & E1 & G1 & G2 & G3 & HI' & HL' & HU)].
  - rewrite (in_grain _ _ _ _ _ _ _ HI), (in_bits _ _ _ _ _ _ _ HI), <- gsz_qq. now apply alloc_size_ok.
  - rewrite <- gsz_qq in HN. exists 0, h. split; [exact E1|]. split; [split; auto|]. split; [reflexivity|]. intros H. now elim H.
  - rewrite <- !gsz_qq in *. exists (base + (ao (qq hgrain) i + 4)), h1. split; [exact E1|]. split; [|split].
    + split; [unfold ao; lia|]. intros HN. exfalso. apply (HN i). destruct G1 as (_ & (V1 & V2) & _). split; [lia|].
      intros d sz' Hin. destruct (V2 _ _ Hin) as [H|H]; [left|now right]. pose proof (N.mul_le_mono_r (i + need (gsz hgrain) sz) (i + n) (gsz hgrain) ltac:(lia)). lia.
    + intros H. unfold ao in H. lia.
    + intros _. exists i, n. split; [unfold ao; rewrite <- gsz_qq; lia|]. split; [exact G1|]. split; [exact G2|]. split; [exact G3|]. split; [exact HU|]. split; [now repeat split|]. exists C'. split; [exact HI'|]. replace (12 + i * gsz hgrain) with (ao (qq hgrain) i + 4) by (unfold ao; rewrite <- gsz_qq; lia). exact HL'.
Qed.
Lemma free_top base h A1 d sz A2 : hl base h (A1 ++ (d, sz) :: A2) ->
  exists h', heap_free base fuel (base + d) h = Some (tt, h') /\ undisturbed base (gsz hgrain) (A1 ++ A2) (mem h) (mem h') /\ hl base h' (A1 ++ A2).
Proof.
  intros HR. pose proof HR as ((F1 & F2 & F3 & F4 & F5) & C & HI & HL).
  destruct (free_live base (qq hgrain) (up512 size) (grains size hgrain) fuel (qq_pos _) (grains_fit _ _) F2 F3 Hf F5 (gb hgrain) (gsz_qq hgrain) h A1 d sz A2 C HI HL) as (h1 & C' & E1 & HI' & HL' & HU).
  exists h1. split; [exact E1|]. split; [now rewrite gsz_qq|]. split; [now repeat split|now exists C'].
Qed.
Lemma live_bounds base h A : hl base h A -> Forall (fun e => 12 <= fst e /\ (fst e - 12) mod gsz hgrain = 0 /\ fst e + snd e <= 8 + grains size hgrain * gsz hgrain /\ base + fst e + snd e <= W64) A.
Proof.
  intros HR. pose proof HR as ((F1 & F2 & F3 & F4 & F5) & C & HI & HL). apply Forall_forall. intros [d sz] Hin. cbn [fst snd].
  destruct (live_in _ _ _ _ _ HL Hin) as (i & HC & ->).
  destruct (tiles_in base (qq hgrain) (up512 size) (grains size hgrain) (qq_pos _) (grains_fit _ _) F2 F3 _ _ _ _ _ _ (in_tiles _ _ _ _ _ _ _ HI) HC) as (_ & Hn & Hb).
  pose proof (need_room hgrain sz) as Hfit. pose proof (grains_fit size hgrain) as Hg. rewrite <- !gsz_qq in *. pose proof (N.mul_le_mono_r _ _ (gsz hgrain) Hb) as Hb'.
  unfold ao. rewrite <- gsz_qq. split; [lia|]. split; [|split; lia]. replace (8 + i * gsz hgrain + 4 - 12) with (i * gsz hgrain) by lia. apply N.mod_mul. rewrite gsz_qq. pose proof (qq_pos hgrain). lia.
Qed.
Lemma live_apart base h A : hl base h A -> ForallOrdPairs apart A.
Proof.
  intros HR. pose proof HR as ((F1 & F2 & F3 & F4 & F5) & C & HI & HL).
  set (g := gsz hgrain) in *.
  set (far := fun a b : N * N => fst a + snd a * g <= fst b \/ fst b + snd b * g <= fst a).
  assert (HP : forall l l', Permutation l l' -> ForallOrdPairs far l -> ForallOrdPairs far l').
  { clear. induction 1 as [|x l l' HP IH|x y l|l l' l'' H1 IH1 H2 IH2]; intros H.
    - exact H.
    - inversion H as [|? ? G1 G2]; subst. constructor; [|auto]. eapply Permutation_Forall; eassumption.
    - inversion H as [|? ? G1 G2]; subst. inversion G2 as [|? ? G3 G4]; subst. apply (proj1 (Forall_cons_iff _ _ _)) in G1 as [G1 G5].
      constructor; [constructor; [unfold far in *; lia|exact G3]|]. constructor; assumption.
    - auto. }
  assert (HC : ForallOrdPairs far (map (fun e => (ao (qq hgrain) (fst e) + 4, snd e)) (uses C))).
  { pose proof (in_tiles _ _ _ _ _ _ _ HI) as HT. clear - HT F2 F3 g. generalize dependent 0. induction C as [|[[i n] u] C IH]; intros s HT; cbn [uses]; [constructor|].
    cbn [tiles] in HT. destruct HT as (-> & Hn & HT). destruct u; [|now apply IH in HT]. cbn [map fst snd]. constructor; [|now apply IH in HT].
    apply Forall_forall. intros x Hx. apply in_map_iff in Hx as ([j m] & <- & Hin). apply in_uses in Hin.
    destruct (tiles_in base (qq hgrain) (up512 size) (grains size hgrain) (qq_pos _) (grains_fit _ _) F2 F3 _ _ _ _ _ _ HT Hin) as (Hj & _ & _).
    left. cbn [fst snd]. unfold ao. rewrite <- gsz_qq. fold g. pose proof (N.mul_le_mono_r _ _ g Hj). lia. }
  apply Permutation_sym in HL. apply (HP _ _ HL) in HC. rewrite <- gsz_qq in HC. fold g in HC. clear HL HP HI. pose proof (live_bounds _ _ _ HR) as HB. clear HR.
  induction A as [|[d sz] A IH]; [constructor|]. cbn [map fst snd] in HC. inversion HC as [|? ? G1 G2]; subst. apply (proj1 (Forall_cons_iff _ _ _)) in HB as [HB1 HB2]. cbn [fst snd] in HB1.
  constructor; [|now apply IH]. rewrite Forall_forall in *. intros [d' sz'] Hin. specialize (G1 _ (in_map (fun e => (fst e, need g (snd e))) _ _ Hin)).
  specialize (HB2 _ Hin). cbn [fst snd] in *. unfold far in G1. cbn [fst snd] in G1.
  pose proof (need_room hgrain sz). pose proof (need_room hgrain sz'). unfold apart. cbn [fst snd]. unfold g in G1. lia.
Qed.
Lemma info_top base h A : hl base h A -> exists R, NoDup R /\ (forall i n, In (i, n) R <-> gap (grains size hgrain) (gsz hgrain) A i n) /\
  heap_get_info base fuel h = Some (mkInfo (N.of_nat (length R)) (fold_right N.add 0 (map snd R)) (fold_left N.min (map snd R) (up512 size + 1)) (fold_left N.max (map snd R) 0), h) /\
  fold_right N.add 0 (map snd R) + fold_right N.add 0 (map (fun e => need (gsz hgrain) (snd e)) A) = grains size hgrain.
Proof.
  intros HR. pose proof HR as ((F1 & F2 & F3 & F4 & F5) & C & HI & HL). exists (frees C).
  pose proof (in_tiles _ _ _ _ _ _ _ HI) as HT. split; [|split; [|split]].
  - clear - HT F2 F3. generalize dependent 0. induction C as [|[[i n] u] C IH]; intros s HT; cbn [frees]; [constructor|]. cbn [tiles] in HT. destruct HT as (-> & Hn & HT).
    destruct u; [now apply IH in HT|]. constructor; [|now apply IH in HT]. intros Hin. apply in_frees in Hin.
    destruct (tiles_in base (qq hgrain) (up512 size) (grains size hgrain) (qq_pos _) (grains_fit _ _) F2 F3 _ _ _ _ _ _ HT Hin) as (Hj & _ & _). lia.
  - intros i n. rewrite gsz_qq. eapply gap_free; try eassumption; try apply qq_pos; try apply grains_fit; try apply gsz_qq. exact (in_calm _ _ _ _ _ _ _ HI).
  - exact (info_ok base (qq hgrain) (up512 size) (grains size hgrain) fuel (qq_pos _) (grains_fit _ _) F2 F3 Hf F5 (gb hgrain) (gsz_qq hgrain) h C HI).
  - pose proof (live_total _ _ _ HL) as HLt. rewrite <- gsz_qq in HLt. unfold total in HLt. rewrite HLt.
    pose proof (tiles_total base (qq hgrain) (up512 size) (grains size hgrain) (qq_pos _) (grains_fit _ _) F2 F3 F5 (gb hgrain) (gsz_qq hgrain) C 0 _ HT) as Ht. unfold total in Ht. lia.
Qed.
Lemma write_top base h A e m' : hl base h A -> In e A ->
  (forall a, in_block base (gsz hgrain) e a = false -> m' a = mem h a) -> (forall a, mem h a <> None -> m' a <> None) ->
  (forall n, mem h (base + (fst e - 4)) = Some n -> exists n', m' (base + (fst e - 4)) = Some n' /\ word0 n' mod W32 = word0 n mod W32) ->
  hl base (set_mem h m') A.
Proof.
  intros ((F1 & F2 & F3 & F4 & F5) & C & HI & HL) Hin Hout Hsome Hw. split; [now repeat split|]. exists C. split; [|exact HL]. rewrite gsz_qq in Hout.
  destruct HI as [Hb Hg Hs HTl HC HTr Hcnt Hsol]. destruct e as [d sz]. destruct (live_in _ _ _ _ _ HL Hin) as (i & Hi & ->). cbn [fst] in Hw.
  replace (ao (qq hgrain) i + 4 - 4) with (ao (qq hgrain) i) in Hw by lia.
  constructor; try assumption.
  - eapply trees_frame; [exact HTr|reflexivity|reflexivity|]. intros a Ha. cbn [set_mem mem]. apply Hout.
    destruct (in_block base (64 * qq hgrain) (ao (qq hgrain) i + 4, sz) a) eqn:E; [|reflexivity]. exfalso.
    apply (block_iff base (qq hgrain) (up512 size) (grains size hgrain) (qq_pos _) (grains_fit _ _) F2 F3 F5 (gb hgrain) (gsz_qq hgrain) (ao (qq hgrain) i + 4, sz) i _ eq_refl) in E.
    exact (used_not_node base (qq hgrain) (up512 size) (grains size hgrain) (qq_pos _) (grains_fit _ _) F2 F3 F5 (gb hgrain) (gsz_qq hgrain) _ _ _ _ HTl Hi E Ha).
  - intros j m Hj. destruct (Hcnt _ _ Hj) as (nd & End & Knd). cbn [set_mem mem]. destruct (N.eq_dec j i) as [->|Hne].
    + destruct (Hw _ End) as (n' & E1 & E2). exists n'. split; [exact E1|]. congruence.
    + exists nd. split; [|exact Knd]. rewrite Hout; [exact End|].
      destruct (in_block base (64 * qq hgrain) (ao (qq hgrain) i + 4, sz) _) eqn:E; [|reflexivity]. exfalso.
      apply (block_iff base (qq hgrain) (up512 size) (grains size hgrain) (qq_pos _) (grains_fit _ _) F2 F3 F5 (gb hgrain) (gsz_qq hgrain) (ao (qq hgrain) i + 4, sz) i _ eq_refl) in E. cbn [snd] in E.
      destruct (tiles_in base (qq hgrain) (up512 size) (grains size hgrain) (qq_pos _) (grains_fit _ _) F2 F3 _ _ _ _ _ _ HTl Hj) as (_ & Hm & _).
      pose proof (N.mul_le_mono_r 1 m (64 * qq hgrain) Hm) as Hmm.
      destruct (tiles_two base (qq hgrain) (up512 size) (grains size hgrain) (qq_pos _) (grains_fit _ _) F2 F3 _ _ _ _ _ _ _ _ _ HTl Hi Hj) as [Ex|Ex]; [injection Ex as Ex1 Ex2; now elim Hne|].
      refine (blocks_apart base (qq hgrain) (up512 size) (grains size hgrain) (qq_pos _) (grains_fit _ _) F2 F3 F5 (gb hgrain) (gsz_qq hgrain) _ _ _ _ _ Ex E _). pose proof (qq_pos hgrain). lia.
  - intros k Hk. cbn [set_mem mem]. now apply Hsome, Hsol.
Qed.
Lemma move_top base h A base' o : hl base h A -> base' + up512 size + 8 <= W64 -> hl base' (moved base base' o h) A.
Proof.
  intros ((F1 & F2 & F3 & F4 & F5) & C & HI & HL) Hw. split; [now repeat split|]. exists C. split; [|exact HL].
  exact (move_ok base base' (qq hgrain) (up512 size) (grains size hgrain) (gb hgrain) h C o (qq_pos _) (grains_fit _ _) Hw F3 HI).
Qed.
Lemma perm_top base h A A' : Permutation A A' -> hl base h A -> hl base h A'.
Proof. intros HP (F & C & HI & HL). split; [exact F|]. exists C. split; [exact HI|]. unfold live in *. rewrite <- HL. symmetry. now apply Permutation_map. Qed.
Lemma mapped_top base h A k : hl base h A -> 32 * k < up512 size -> mem h (base + 8 + 32 * k) <> None.
Proof. intros (F & C & HI & HL) Hk. exact (in_solid _ _ _ _ _ _ _ HI k Hk). Qed.
Lemma size_top base h A : hl base h A -> hsize h = up512 size.
Proof. intros (F & C & HI & HL). exact (in_size _ _ _ _ _ _ _ HI). Qed.
Lemma count_top base h A : hl base h A -> N.of_nat (length A) <= grains size hgrain.
Proof.
  intros ((F1 & F2 & F3 & F4 & F5) & C & HI & HL). pose proof (in_tiles _ _ _ _ _ _ _ HI) as HT.
  pose proof (live_total _ _ _ HL) as HLt.
  pose proof (tiles_total base (qq hgrain) (up512 size) (grains size hgrain) (qq_pos _) (grains_fit _ _) F2 F3 F5 (gb hgrain) (gsz_qq hgrain) C 0 _ HT) as Ht. rewrite <- HLt in Ht.
  assert (forall A : list (N * N), N.of_nat (length A) <= total (map (fun e => need (64 * qq hgrain) (snd e)) A)); [|pose proof (H A); lia].
  clear - F2 F3 F5. induction A as [|e A IH]; [cbn; lia|]. cbn [length map]. unfold total in *. cbn [fold_right]. pose proof (need_pos base (qq hgrain) (up512 size) (grains size hgrain) (qq_pos _) (grains_fit _ _) F2 F3 F5 (gb hgrain) (gsz_qq hgrain) (snd e)). lia.
Qed.
End Reach.
