(** The allocator of pinned memory: arithmetic, initialisation, reachable states. *)
From Verif Require Import L_MM.
From Verif Require L_LHeapTop.
From Verif Require Export S_MM.
From Coq Require Import List Lia ZifyBool ZifyN ZifyNat Permutation.
Import ListNotations.
Local Open Scope N_scope.

Lemma roundup_ok x b : b <= 64 -> x + (2 ^ b - 1) < W64 -> roundup x (2 ^ b) = (x + (2 ^ b - 1)) / 2 ^ b * 2 ^ b.
Proof. exact (L_LHeapTop.roundup_ok x b). Qed.

Definition gb (hgrain : N) : N := N.log2_up hgrain.
Lemma gb_gsz hgrain : gsz hgrain = 2 ^ gb hgrain.
Proof. reflexivity. Qed.
Definition qq (hgrain : N) : N := 2 ^ (gb hgrain - 7).
Lemma gb_low hgrain : 64 < hgrain -> 7 <= gb hgrain.
Proof. intros H. unfold gb. change 7 with (N.log2_up 65). apply N.log2_up_le_mono. lia. Qed.
Lemma gsz_qq hgrain : 64 < hgrain -> gsz hgrain = 128 * qq hgrain.
Proof. intros H. rewrite gb_gsz. unfold qq. change 128 with (2 ^ 7). rewrite <- N.pow_add_r. f_equal. pose proof (gb_low hgrain H). lia. Qed.
Lemma qq_pos hgrain : 1 <= qq hgrain.
Proof. unfold qq. pose proof (N.pow_nonzero 2 (gb hgrain - 7) ltac:(lia)). lia. Qed.

Lemma pow2_loop_ok n : 1 < n -> gb n <= 63 -> forall f k, k <= gb n -> (N.to_nat (gb n - k) < f)%nat -> pow2_loop f n (2 ^ k) k = Some (gsz n, gb n).
Proof.
  intros Hn Hh. induction f as [|f IH]; intros k Hk Hf; [lia|]. cbn [pow2_loop].
  destruct (N.eq_dec k (gb n)) as [->|Hne].
  - destruct (N.ltb_spec (2 ^ gb n) n) as [Hc|_]; [exfalso|reflexivity].
    unfold gb in Hc. pose proof (N.log2_up_spec n ltac:(lia)). lia.
  - assert (Hlt : 2 ^ k < n) by (apply N.log2_up_lt_pow2; [lia|unfold gb in *; lia]).
    rewrite (proj2 (N.ltb_lt _ _) Hlt). rewrite (N.mod_small (2 * 2 ^ k)).
    + replace (2 * 2 ^ k) with (2 ^ (k + 1)) by (rewrite N.pow_add_r; lia). apply IH; lia.
    + replace (2 * 2 ^ k) with (2 ^ (k + 1)) by (rewrite N.pow_add_r; lia). change W64 with (2 ^ 64). apply N.pow_lt_mono_r; lia.
Qed.

Definition minv (at_ size hgrain : N) : mm -> list (N * N * bool) -> Prop := inv at_ (qq hgrain) (pages size) (grains size hgrain) (gb hgrain) false.
(** What a caller promised at the beginning *)
Definition fits (at_ size hgrain : N) : Prop :=
  0 < at_ /\ 64 < hgrain /\ at_ + pages size <= W64 /\ gsz hgrain <= pages size /\ 1 <= grains size hgrain /\ grains size hgrain < W31 /\ gb hgrain <= 63.
Lemma good_fits at_ size hgrain m : good_init at_ size hgrain m -> fits at_ size hgrain.
Proof.
  intros [H1 H2 H3 H4 H5 H6]. repeat (split; [assumption|]). split; [|split; [exact H5|]].
  - apply N.div_le_lower_bound; [rewrite gsz_qq by exact H2; pose proof (qq_pos hgrain); lia|lia].
  - destruct (N.le_gt_cases (gb hgrain) 63) as [E|E]; [exact E|exfalso]. rewrite gb_gsz in H4.
    assert (2 ^ 64 <= 2 ^ gb hgrain) by (apply N.pow_le_mono_r; lia). change (2 ^ 64) with W64 in *. lia.
Qed.
Lemma grains_fit size hgrain : 64 < hgrain -> grains size hgrain * (128 * qq hgrain) <= pages size.
Proof. intros H. unfold grains. rewrite <- gsz_qq by exact H. rewrite N.mul_comm. apply N.mul_div_le. rewrite gsz_qq by exact H. pose proof (qq_pos hgrain). lia. Qed.
Lemma pages_ok size : pages size < W64 -> size <= pages size /\ roundup size 4096 = pages size.
Proof.
  intros H. unfold pages in *. pose proof (N.div_mod (size + 4095) 4096 ltac:(lia)) as E. pose proof (N.mod_lt (size + 4095) 4096 ltac:(lia)) as L.
  assert (Hm : 4096 * ((size + 4095) / 4096) + 4096 <= W64).
  { assert (Hd : (size + 4095) / 4096 < 4503599627370496) by (unfold W64 in H; lia). unfold W64. lia. }
  split; [lia|]. change 4096 with (2 ^ 12) at 1. rewrite roundup_ok; [change (2 ^ 12) with 4096; change (4096 - 1) with 4095; lia|lia|]. change (2 ^ 12) with 4096. unfold W64 in *. lia.
Qed.
Lemma pages_lt at_ size hgrain : fits at_ size hgrain -> pages size + 1 < W64.
Proof.
  intros (F1 & F2 & F3 & _). assert (H : pages size < W64) by lia. unfold pages in *.
  assert (Hd : (size + 4095) / 4096 < 4503599627370496) by (unfold W64 in H; lia). unfold W64. lia.
Qed.
Lemma mm_init_ok at_ size hgrain fuel m : good_init at_ size hgrain m -> enough (S (N.to_nat (grains size hgrain))) fuel ->
  exists h, mm_init fuel at_ m size hgrain = Some h /\ minv at_ size hgrain h [((0, grains size hgrain), false)].
Proof.
  intros HG Hf. pose proof (good_fits _ _ _ _ HG) as HF. pose proof (pages_lt _ _ _ HF) as Hpl. destruct HF as (F1 & F2 & F3 & F4 & F5 & F6 & F7).
  unfold mm_init. rewrite (proj2 (pages_ok size ltac:(lia))). unfold get_pow2. change 1 with (2 ^ 0) at 1.
  rewrite pow2_loop_ok; [|lia|exact F7|lia|lia]. fold (grains size hgrain).
  destruct (init_chunk at_ (qq hgrain) (pages size) (grains size hgrain) fuel (qq_pos _) F1 (grains_fit _ _ F2) F3 F6 Hf (gb hgrain) (gsz_qq _ F2) m F5) as (h' & E & HI).
  - intros i Hi. pose proof (grains_fit size hgrain F2) as Hg. pose proof (qq_pos hgrain) as Hq.
    assert (Hi1 : i + 1 <= grains size hgrain) by lia.
    pose proof (N.mul_le_mono_r _ _ (128 * qq hgrain) Hi1) as Hm.
    split; apply (gi_mem _ _ _ _ HG); unfold ao, so; lia.
  - exists h'. split; [|exact HI]. rewrite <- gsz_qq in E by exact F2. unfold add_chunk in E. rewrite E. reflexivity.
Qed.
Lemma count_ok hgrain sz : 64 < hgrain -> gb hgrain <= 63 -> sz + 96 + gsz hgrain <= W64 ->
  N.shiftr (roundup (add64 sz PREFIX) (gsz hgrain)) (gb hgrain) = need (gsz hgrain) sz.
Proof.
  intros H Hb Hs. pose proof (qq_pos hgrain). pose proof (gsz_qq _ H). unfold add64, PREFIX. rewrite N.mod_small by lia.
  rewrite gb_gsz in *. rewrite roundup_ok by lia. rewrite N.shiftr_div_pow2, N.div_mul by lia. reflexivity.
Qed.
Lemma newcount_ok hgrain sz : 64 < hgrain -> gb hgrain <= 63 -> 1 <= sz -> sz + gsz hgrain <= W64 ->
  N.shiftr (roundup sz (gsz hgrain)) (gb hgrain) = whole (gsz hgrain) sz / gsz hgrain /\ 1 <= whole (gsz hgrain) sz / gsz hgrain /\
  whole (gsz hgrain) sz / gsz hgrain * gsz hgrain = whole (gsz hgrain) sz.
Proof.
  intros H Hb H1 Hs. pose proof (qq_pos hgrain). pose proof (gsz_qq _ H). unfold whole. rewrite !N.div_mul by lia.
  split; [|split; [|reflexivity]].
  - rewrite gb_gsz in *. rewrite roundup_ok by lia. rewrite N.shiftr_div_pow2, N.div_mul by lia. reflexivity.
  - apply N.div_le_lower_bound; lia.
Qed.
Lemma need_room hgrain sz : 64 < hgrain -> sz + 96 <= need (gsz hgrain) sz * gsz hgrain.
Proof.
  intros H. pose proof (gsz_qq _ H). pose proof (qq_pos hgrain). unfold need.
  pose proof (N.div_mod (sz + 96 + (gsz hgrain - 1)) (gsz hgrain) ltac:(lia)) as E. pose proof (N.mod_lt (sz + 96 + (gsz hgrain - 1)) (gsz hgrain) ltac:(lia)). lia.
Qed.

Section Reach.
Variables (fuel : nat) (at_ size hgrain : N).
Hypothesis Hf : enough (S (N.to_nat (grains size hgrain))) fuel.
Let T := grains size hgrain.
Let g := gsz hgrain.

(** the lemmas of L_MM for such a region *)
Lemma alloc_at h A C sz : fits at_ size hgrain -> minv at_ size hgrain h C -> live (qq hgrain) A C -> sz + 96 + g <= W64 -> need g sz < W31 ->
  (mm_alloc fuel sz h = Some (0, h) /\ forall i, ~ vacant T g A i (need g sz)) \/
  exists i n h' C', mm_alloc fuel sz h = Some (at_ + (i * g + 96), h') /\ gap T g A i n /\ need g sz <= n /\
    (forall j m, gap T g A j m -> need g sz <= m -> n <= m) /\
    minv at_ size hgrain h' C' /\ live (qq hgrain) ((i * g + 96, sz) :: A) C' /\ undisturbed at_ g A (mem h) (mem h').
Proof.
  intros (F1 & F2 & F3 & F4 & F5 & F6 & F7) HI HL Hs Hn. pose proof (gsz_qq _ F2) as Eg. unfold g in *.
  destruct (alloc_live at_ (qq hgrain) (pages size) T fuel (qq_pos _) F1 (grains_fit _ _ F2) F3 F6 Hf (gb hgrain) Eg h A C sz HI HL) as [H|(i & n & h' & C' & E & H)].
  - destruct (in_head _ _ _ _ _ _ _ _ HI) as (-> & -> & _). rewrite <- Eg. now apply count_ok.
  - now rewrite <- Eg.
  - rewrite <- Eg in H. now left.
  - right. rewrite <- Eg in H. unfold off in H. rewrite <- Eg in H. exists i, n, h', C'. split; [|exact H]. rewrite E. unfold ao. rewrite <- Eg. do 2 f_equal. lia.
Qed.
Lemma free_at h A1 d sz A2 C : fits at_ size hgrain -> minv at_ size hgrain h C -> live (qq hgrain) (A1 ++ (d, sz) :: A2) C ->
  exists h' C', mm_free fuel (at_ + d) h = Some (tt, h') /\ minv at_ size hgrain h' C' /\ live (qq hgrain) (A1 ++ A2) C' /\ undisturbed at_ g (A1 ++ A2) (mem h) (mem h').
Proof.
  intros (F1 & F2 & F3 & F4 & F5 & F6 & F7) HI HL. pose proof (gsz_qq _ F2) as Eg. unfold g in *. rewrite Eg.
  exact (free_live at_ (qq hgrain) (pages size) T fuel (qq_pos _) F1 (grains_fit _ _ F2) F3 F6 Hf (gb hgrain) Eg h A1 d sz A2 C HI HL).
Qed.
Lemma resize_at h A1 d sz A2 C newsize : fits at_ size hgrain -> minv at_ size hgrain h C -> live (qq hgrain) (A1 ++ (d, sz) :: A2) C ->
  1 <= newsize -> newsize + g <= W64 ->
  exists i, d = i * g + 96 /\
  ((mm_realloc fuel (at_ + d) newsize h = None /\
    forall m, gap T g (A1 ++ (d, sz) :: A2) (i + need g sz) m -> need g sz + m < whole g newsize / g) \/
   exists m h' C', mm_realloc fuel (at_ + d) newsize h = Some (at_ + d, h') /\
    gap T g (A1 ++ (d, sz) :: A2) (i + need g sz) m /\ whole g newsize / g <= need g sz + m /\
    minv at_ size hgrain h' C' /\ live (qq hgrain) (A1 ++ (d, whole g newsize - 96) :: A2) C' /\ undisturbed at_ g (A1 ++ A2) (mem h) (mem h') /\
    (forall a, in_block at_ g (d, sz) a = true -> in_block at_ g (d, whole g newsize - 96) a = true -> at_ + d <= a -> mem h' a = mem h a)).
Proof.
  intros (F1 & F2 & F3 & F4 & F5 & F6 & F7) HI HL Hn Hs. pose proof (gsz_qq _ F2) as Eg. unfold g in *.
  destruct (newcount_ok _ _ F2 F7 Hn Hs) as (Ec & Hc & Ew).
  assert (Ec' : N.shiftr (roundup newsize (grain h)) (gbits h) = whole (gsz hgrain) newsize / gsz hgrain).
  { destruct (in_head _ _ _ _ _ _ _ _ HI) as (-> & -> & _). rewrite <- Eg. exact Ec. }
  destruct (resize_live at_ (qq hgrain) (pages size) T fuel (qq_pos _) F1 (grains_fit _ _ F2) F3 F6 Hf (gb hgrain) Eg h A1 d sz A2 C _ newsize HI HL Ec' Hc) as (i & Ed & _ & H).
  exists i. rewrite <- Eg in H. unfold off in Ed. rewrite <- Eg in Ed. split; [exact Ed|]. rewrite Ew in H. exact H.
Qed.

Lemma reach_inv h A : reach fuel at_ size hgrain h A -> fits at_ size hgrain /\ exists C, minv at_ size hgrain h C /\ live (qq hgrain) A C.
Proof.
  induction 1 as [m h HG E|h A sz r h' _ IH Hs Hn E Hr|h A1 d sz A2 h' _ IH E|h A1 d sz A2 ns r h' _ IH Hn Hs E|h A e f _ IH Hin].
  - split; [now apply good_fits in HG|]. destruct (mm_init_ok _ _ _ fuel _ HG Hf) as (h1 & E1 & HI). rewrite E in E1. injection E1 as <-. eexists. split; [exact HI|].
    unfold live. cbn. constructor.
  - destruct IH as (HF & C & HI & HL). split; [exact HF|].
    destruct (alloc_at h A C sz HF HI HL Hs Hn) as [(E1 & _)|(i & n & h1 & C' & E1 & _ & _ & _ & HI' & HL' & _)].
    + rewrite E in E1. injection E1 as -> ->. now elim Hr.
    + rewrite E in E1. injection E1 as -> ->. exists C'. split; [exact HI'|]. replace (at_ + (i * g + 96) - at_) with (i * g + 96) by lia. exact HL'.
  - destruct IH as (HF & C & HI & HL). split; [exact HF|].
    destruct (free_at h A1 d sz A2 C HF HI HL) as (h1 & C' & E1 & HI' & HL' & _).
    rewrite E in E1. injection E1 as ->. now exists C'.
  - destruct IH as (HF & C & HI & HL). split; [exact HF|].
    destruct (resize_at h A1 d sz A2 C ns HF HI HL Hn Hs) as (i & Ed & [(E1 & _)|(m & h1 & C' & E1 & _ & _ & HI' & HL' & _)]).
    + congruence.
    + rewrite E in E1. injection E1 as -> ->. exists C'. split; [exact HI'|]. replace (at_ + d - at_) with d by lia. exact HL'.
  - destruct IH as (HF & C & HI & HL). split; [exact HF|]. destruct HF as (F1 & F2 & F3 & F4 & F5 & F6 & F7). exists C. split; [|exact HL]. rewrite (gsz_qq _ F2).
    exact (write_live at_ (qq hgrain) (pages size) (grains size hgrain) (qq_pos _) F1 (grains_fit _ _ F2) F3 F6 (gb hgrain) (gsz_qq _ F2) h A C e f HI HL Hin).
Qed.

Lemma alloc_top h A sz : reach fuel at_ size hgrain h A -> sz + 96 + g <= W64 -> need g sz < W31 ->
  exists r h', mm_alloc fuel sz h = Some (r, h') /\
    (r = 0 <-> forall i, ~ vacant T g A i (need g sz)) /\
    (r = 0 -> h' = h) /\
    (r <> 0 -> exists i n, r = at_ + (96 + i * g) /\ gap T g A i n /\ need g sz <= n /\
       (forall j m, gap T g A j m -> need g sz <= m -> n <= m) /\ undisturbed at_ g A (mem h) (mem h')).
Proof.
  intros HR Hs Hn. destruct (reach_inv _ _ HR) as (HF & C & HI & HL).
  destruct (alloc_at h A C sz HF HI HL Hs Hn) as [(E1 & HN)|(i & n & h1 & C' & E1 & G1 & G2 & G3 & _ & _ & HU)].
  - exists 0, h. split; [exact E1|]. split; [split; auto|]. split; [reflexivity|]. intros H. now elim H.
  - exists (at_ + (i * g + 96)), h1. split; [exact E1|]. split; [|split].
    + split; [lia|]. intros HN. exfalso. apply (HN i). destruct G1 as (_ & (V1 & V2) & _). split; [lia|].
      intros d sz' Hin. destruct (V2 _ _ Hin) as [H|H]; [left|now right]. pose proof (N.mul_le_mono_r (i + need g sz) (i + n) g ltac:(lia)). lia.
    + lia.
    + intros _. exists i, n. split; [lia|]. split; [exact G1|]. split; [exact G2|]. split; [exact G3|exact HU].
Qed.
Lemma free_top h A1 d sz A2 : reach fuel at_ size hgrain h (A1 ++ (d, sz) :: A2) ->
  exists h', mm_free fuel (at_ + d) h = Some (tt, h') /\ undisturbed at_ g (A1 ++ A2) (mem h) (mem h').
Proof.
  intros HR. destruct (reach_inv _ _ HR) as (HF & C & HI & HL). destruct (free_at h A1 d sz A2 C HF HI HL) as (h1 & C' & E1 & _ & _ & HU). now exists h1.
Qed.
Lemma resize_top h A1 d sz A2 newsize : reach fuel at_ size hgrain h (A1 ++ (d, sz) :: A2) -> 1 <= newsize -> newsize + g <= W64 ->
  exists i, d = 96 + i * g /\
  ((mm_realloc fuel (at_ + d) newsize h = None /\
    forall m, gap T g (A1 ++ (d, sz) :: A2) (i + need g sz) m -> need g sz + m < whole g newsize / g) \/
   exists m h', mm_realloc fuel (at_ + d) newsize h = Some (at_ + d, h') /\
    gap T g (A1 ++ (d, sz) :: A2) (i + need g sz) m /\ whole g newsize / g <= need g sz + m /\
    undisturbed at_ g (A1 ++ A2) (mem h) (mem h') /\
    (forall a, in_block at_ g (d, sz) a = true -> in_block at_ g (d, whole g newsize - 96) a = true -> at_ + d <= a -> mem h' a = mem h a)).
Proof.
  intros HR Hn Hs. destruct (reach_inv _ _ HR) as (HF & C & HI & HL). destruct (resize_at h A1 d sz A2 C newsize HF HI HL Hn Hs) as (i & Ed & H). exists i. split; [lia|].
  destruct H as [H|(m & h' & C' & E & H1 & H2 & _ & _ & H3 & H4)]; [now left|right]. exists m, h'. now repeat (split; [assumption|]).
Qed.
Lemma live_bounds h A : reach fuel at_ size hgrain h A ->
  Forall (fun e => 96 <= fst e /\ (fst e - 96) mod g = 0 /\ fst e + snd e <= T * g /\ T * g <= pages size /\ at_ + pages size <= W64) A.
Proof.
  intros HR. destruct (reach_inv _ _ HR) as ((F1 & F2 & F3 & F4 & F5 & F6 & F7) & C & HI & HL). apply Forall_forall. intros [d sz] Hin. cbn [fst snd].
  destruct (live_in _ _ _ _ _ HL Hin) as (i & HC & ->).
  destruct (tiles_in at_ (qq hgrain) (pages size) (grains size hgrain) (qq_pos _) F1 (grains_fit _ _ F2) F3 F6 _ _ _ _ _ _ (in_tiles _ _ _ _ _ _ _ _ HI) HC) as (_ & Hn & Hb).
  pose proof (need_room hgrain sz F2) as Hfit. pose proof (grains_fit size hgrain F2) as Hg. rewrite <- !gsz_qq in * by exact F2. pose proof (N.mul_le_mono_r _ _ (gsz hgrain) Hb) as Hb'.
  unfold off. rewrite <- gsz_qq by exact F2. unfold g, T. split; [lia|]. split; [|split; [lia|split; [exact Hg|exact F3]]].
  replace (i * gsz hgrain + 96 - 96) with (i * gsz hgrain) by lia. apply N.mod_mul. rewrite (gsz_qq _ F2). pose proof (qq_pos hgrain). lia.
Qed.
Lemma live_apart h A : reach fuel at_ size hgrain h A -> ForallOrdPairs apart A.
Proof.
  intros HR. destruct (reach_inv _ _ HR) as ((F1 & F2 & F3 & F4 & F5 & F6 & F7) & C & HI & HL).
  set (far := fun a b : N * N => fst a + snd a * g <= fst b \/ fst b + snd b * g <= fst a).
  assert (HP : forall l l', Permutation l l' -> ForallOrdPairs far l -> ForallOrdPairs far l').
  { clear. induction 1 as [|x l l' HP IH|x y l|l l' l'' H1 IH1 H2 IH2]; intros H.
    - exact H.
    - inversion H as [|? ? G1 G2]; subst. constructor; [|auto]. eapply Permutation_Forall; eassumption.
    - inversion H as [|? ? G1 G2]; subst. inversion G2 as [|? ? G3 G4]; subst. apply (proj1 (Forall_cons_iff _ _ _)) in G1 as [G1 G5].
      constructor; [constructor; [unfold far in *; lia|exact G3]|]. constructor; assumption.
    - auto. }
  assert (HC : ForallOrdPairs far (map (fun e => (off (qq hgrain) (fst e), snd e)) (uses C))).
  { pose proof (in_tiles _ _ _ _ _ _ _ _ HI) as HT. clear - HT F2. revert HT. generalize 0 at 1. induction C as [|[[i n] u] C IH]; intros s HT; cbn [uses]; [constructor|].
    cbn [tiles] in HT. destruct HT as (-> & Hn & HT). destruct u; [|now apply IH in HT]. cbn [map fst snd]. constructor; [|now apply IH in HT].
    apply Forall_forall. intros x Hx. apply in_map_iff in Hx as ([j m] & <- & Hin). apply in_uses in Hin.
    assert (Hj : s + n <= j).
    { clear - HT Hin. revert HT Hin. generalize (s + n). induction C as [|[[k l] v] C IH]; intros x HT Hin; [destruct Hin|]. cbn [tiles] in HT. destruct HT as (-> & Hl & HT).
      destruct Hin as [E|Hin]; [injection E; intros; subst; lia|]. specialize (IH _ HT Hin). lia. }
    left. cbn [fst snd]. unfold off. rewrite <- gsz_qq by exact F2. subst far. cbn beta. cbn [fst snd]. unfold g. pose proof (N.mul_le_mono_r _ _ (gsz hgrain) Hj). lia. }
  apply Permutation_sym in HL. apply (HP _ _ HL) in HC. rewrite <- gsz_qq in HC by exact F2. fold g in HC. clear HL HP HI. pose proof (live_bounds _ _ HR) as HB. clear HR.
  induction A as [|[d sz] A IH]; [constructor|]. cbn [map fst snd] in HC. inversion HC as [|? ? G1 G2]; subst. apply (proj1 (Forall_cons_iff _ _ _)) in HB as [HB1 HB2]. cbn [fst snd] in HB1.
  constructor; [|now apply IH]. rewrite Forall_forall in *. intros [d' sz'] Hin. specialize (G1 _ (in_map (fun e => (fst e, need g (snd e))) _ _ Hin)).
  specialize (HB2 _ Hin). cbn [fst snd] in *. unfold far in G1. cbn [fst snd] in G1.
  pose proof (need_room hgrain sz F2). pose proof (need_room hgrain sz' F2). unfold apart. cbn [fst snd]. unfold g in G1. lia.
Qed.
Lemma stats_top h A : reach fuel at_ size hgrain h A -> exists R, NoDup R /\ (forall i n, In (i, n) R <-> gap T g A i n) /\
  mm_stats fuel h = Some (mkStat (N.of_nat (length R)) (fold_right N.add 0 (map snd R)) (fold_left N.min (map snd R) (pages size + 1)) (fold_left N.max (map snd R) 0), h) /\
  fold_right N.add 0 (map snd R) + fold_right N.add 0 (map (fun e => need g (snd e)) A) = T.
Proof.
  intros HR. destruct (reach_inv _ _ HR) as (HF & C & HI & HL). pose proof (pages_lt _ _ _ HF) as Hpl. destruct HF as (F1 & F2 & F3 & F4 & F5 & F6 & F7). exists (frees C).
  pose proof (in_tiles _ _ _ _ _ _ _ _ HI) as HT. split; [|split; [|split]].
  - clear - HT. revert HT. generalize 0 at 1. induction C as [|[[i n] u] C IH]; intros s HT; cbn [frees]; [constructor|]. cbn [tiles] in HT. destruct HT as (-> & Hn & HT).
    destruct u; [now apply IH in HT|]. constructor; [|now apply IH in HT]. intros Hin. apply in_frees in Hin.
    assert (Hj : s + n <= s).
    { clear - HT Hin. revert HT Hin. generalize (s + n). induction C as [|[[k l] v] C IH]; intros x HT Hin; [destruct Hin|]. cbn [tiles] in HT. destruct HT as (-> & Hl & HT).
      destruct Hin as [E|Hin]; [injection E; intros; subst; lia|]. specialize (IH _ HT Hin). lia. }
    lia.
  - intros i n. unfold g. rewrite (gsz_qq _ F2).
    exact (gap_free at_ (qq hgrain) (pages size) (grains size hgrain) (qq_pos _) F1 (grains_fit _ _ F2) F3 F6 (gb hgrain) (gsz_qq _ F2) A C i n HT (in_calm _ _ _ _ _ _ _ _ HI) HL).
  - exact (stats_ok at_ (qq hgrain) (pages size) (grains size hgrain) fuel (qq_pos _) F1 (grains_fit _ _ F2) F3 F6 Hf (gb hgrain) (gsz_qq _ F2) h C HI Hpl).
  - pose proof (live_total _ _ _ HL) as HLt. rewrite <- gsz_qq in HLt by exact F2. unfold total in HLt. fold g in HLt. rewrite HLt.
    pose proof (tiles_total at_ (qq hgrain) (pages size) (grains size hgrain) (qq_pos _) F1 (grains_fit _ _ F2) F3 F6 (gb hgrain) (gsz_qq _ F2) C 0 _ HT) as Ht. unfold total in Ht. unfold T. lia.
Qed.
End Reach.
