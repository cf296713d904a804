(** Lemmas for C16 and C17. *)
From Verif Require Import Bytes M_Request M_Parse S_Request.
Ltac Zify.zify_post_hook ::= Z.div_mod_to_equations.

(** ** Header bytes *)

Lemma hdr_length ty fl no id len : length (hdr_bytes ty fl no id len) = 24%nat.
Proof. reflexivity. Qed.

Lemma hdr_len_word ty fl no id len d : (len < 4294967296)%N ->
  rec_len (hdr_bytes ty fl no id len ++ d) = len.
Proof.
  intros H. unfold rec_len, word32. rewrite slice_app_l by (rewrite hdr_length; lia).
  change (slice 20 4 (hdr_bytes ty fl no id len)) with (be32 len). now apply of_be32_be32.
Qed.

Lemma hdr_flags_word ty fl no id len d : (fl < 4294967296)%N ->
  rec_flags (hdr_bytes ty fl no id len ++ d) = fl.
Proof.
  intros H. unfold rec_flags, word32. rewrite slice_app_l by (rewrite hdr_length; lia).
  change (slice 8 4 (hdr_bytes ty fl no id len)) with (be32 fl). now apply of_be32_be32.
Qed.

Lemma hdr_split ty fl no id len :
  exists h20, length h20 = 20%nat /\ (forall l', hdr_bytes ty fl no id l' = h20 ++ be32 l') /\
    hdr_bytes ty fl no id len = h20 ++ be32 len.
Proof.
  exists (be32 MARKER ++ be32 ty ++ be32 fl ++ be32 no ++ be32 id).
  split; [reflexivity|]. split; [intros l'|]; unfold hdr_bytes; now rewrite !app_assoc.
Qed.

(** ** Abstract records *)

Notation arec := (N * list N)%type.
Definition enc (ty no id : N) (r : arec) : list byte :=
  hdr_bytes ty (fst r) no id (N.of_nat (24 + length (snd r))) ++ snd r.

(** Flags of a run of records that starts with start mark [s]: [mid] leaves the
    message open, [full] ends it. *)
Fixpoint mid (s : N) (fs : list N) (s' : N) : Prop :=
  match fs with
  | [] => s' = s
  | f :: fs' => f = s /\ mid 0 fs' s'
  end.
Fixpoint full (s : N) (fs : list N) : Prop :=
  match fs with
  | [] => False
  | [f] => f = (s + 2)%N
  | f :: fs' => f = s /\ full 0 fs'
  end.

Lemma full_cons s f fs : fs <> [] -> full s (f :: fs) <-> f = s /\ full 0 fs.
Proof. destruct fs; [congruence|reflexivity]. Qed.
Lemma full_nonnil s fs : full s fs -> fs <> [].
Proof. destruct fs; [intros []|congruence]. Qed.

Lemma mid_full s fs s' fs' : mid s fs s' -> full s' fs' -> full s (fs ++ fs').
Proof.
  revert s. induction fs as [|f fs IH]; intros s Hm Hf.
  - cbn in Hm. subst. exact Hf.
  - destruct Hm as [-> Hm]. simpl app. apply full_cons.
    + destruct fs; [|discriminate]. simpl. now apply full_nonnil in Hf.
    + split; [reflexivity|]. now apply IH.
Qed.

Lemma mid_mid s fs s' fs' s'' : mid s fs s' -> mid s' fs' s'' -> mid s (fs ++ fs') s''.
Proof.
  revert s. induction fs as [|f fs IH]; intros s Hm Hf.
  - cbn in Hm. subst. exact Hf.
  - destruct Hm as [-> Hm]. simpl. split; [reflexivity|]. now apply IH.
Qed.

Lemma mid_01 fs : forall s s', (s = 0 \/ s = 1)%N -> mid s fs s' -> (s' = 0 \/ s' = 1)%N.
Proof.
  induction fs as [|f fs IH]; intros s s' Hs Hm; cbn [mid] in Hm.
  - now rewrite Hm.
  - destruct Hm as (_ & Hm). apply (IH 0%N); [now left|exact Hm].
Qed.

(** ** The sending buffer *)

(** [pend b]: payload collected and not yet sent. *)
Definition pend (b : mbuf) : list byte := slice 24 (off b - 24) (mem b).
Definition buf_ok (L : nat) (b : mbuf) : Prop :=
  length (mem b) = L /\ (24 <= off b <= L)%nat.

Lemma splice_24_prefix (o : nat) (d m : list byte) :
  (24 <= o)%nat -> (o + length d <= length m)%nat ->
  slice 24 (o + length d - 24) (splice o d m) = slice 24 (o - 24) m ++ d.
Proof.
  intros Ho Hl. unfold slice.
  replace (skipn 24 (splice o d m)) with (splice (o - 24) d (skipn 24 m)).
  - replace (o + length d - 24)%nat with ((o - 24) + length d)%nat by lia.
    apply firstn_splice. rewrite skipn_length. lia.
  - unfold splice. rewrite !skipn_app.
    rewrite firstn_length, Nat.min_l by lia.
    replace (24 - o)%nat with 0%nat by lia. rewrite Nat.sub_0_l.
    rewrite !skipn_O, skipn_firstn_comm.
    do 2 f_equal. rewrite skipn_skipn. f_equal. lia.
Qed.

Lemma mod_flags_cases (f : N) : (f < 4)%N -> f = 0%N \/ f = 1%N \/ f = 2%N \/ f = 3%N.
Proof. lia. Qed.

Definition start_of (f : N) : N := if N.testbit f 0 then 1%N else 0%N.

Lemma send_loop_ok ty no id L : (24 < L)%nat ->
  forall fuel data b mf,
    buf_ok L b -> (mf < 4)%N -> (flags b < 4)%N ->
    (N.testbit (flags b) 1 = true -> N.testbit mf 1 = true) ->
    (2 * length data + 1 + (if Nat.eqb (off b) L then 1 else 0) <= fuel)%nat ->
    exists rs b',
      send_loop fuel b mf ty no id data = Some (map (enc ty no id) rs, b') /\
      buf_ok L b' /\
      concat (map snd rs) ++ pend b' = pend b ++ data /\
      Forall (fun r => (24 + length (snd r) <= L)%nat) rs /\
      (if N.testbit mf 1 then
         full (start_of (flags b)) (map fst rs) /\ pend b' = [] /\ flags b' = 0%N
       else mid (start_of (flags b)) (map fst rs) (flags b')).
Proof.
  intros HL. induction fuel as [|fuel IH]; intros data b mf Hb Hmf Hfl Himp Hfuel; [lia|].
  destruct Hb as (Hlen & Hoff).
  cbn [send_loop].
  replace (Nat.ltb (length (mem b)) (off b)) with false by (symmetry; apply Nat.ltb_ge; lia).
  set (r := Nat.min (length data) (length (mem b) - off b)).
  assert (Hr : (r <= length data /\ off b + r <= L)%nat) by (unfold r; lia).
  assert (Hfr : length (firstn r data) = r) by (rewrite firstn_length; lia).
  unfold store at 1. rewrite Hfr.
  replace (Nat.leb (off b + r) (length (mem b))) with true by (symmetry; apply Nat.leb_le; lia).
  set (m1 := splice (off b) (firstn r data) (mem b)).
  assert (Hm1 : length m1 = L) by (unfold m1; rewrite splice_length; lia).
  assert (Hp1 : slice 24 (off b + r - 24) m1 = pend b ++ firstn r data).
  { unfold m1, pend. rewrite <- Hfr at 1. apply splice_24_prefix; lia. }
  destruct (Nat.eqb r 0 || (Nat.eqb (length (skipn r data)) 0 && N.testbit mf 1))%bool eqn:Hc.
  - (* a record is sent *)
    set (fl := if negb (Nat.eqb (length (skipn r data)) 0) then N.ldiff (flags b) EOM
               else if N.testbit mf 1 then N.lor (flags b) EOM else flags b).
    unfold store. rewrite hdr_length.
    replace (Nat.leb (0 + 24) (length m1)) with true by (symmetry; apply Nat.leb_le; lia).
    set (m2 := splice 0 (hdr_bytes ty fl no id (N.of_nat (off b + r))) m1).
    assert (Hm2 : length m2 = L) by (unfold m2; rewrite splice_length; rewrite ?hdr_length; lia).
    assert (Hrec : firstn (off b + r) m2 = enc ty no id (fl, pend b ++ firstn r data)).
    { unfold enc. cbn [fst snd]. rewrite <- Hp1.
      rewrite slice_length by lia.
      replace (24 + (off b + r - 24))%nat with (off b + r)%nat by lia.
      unfold m2, splice. rewrite hdr_length. cbn [firstn app Nat.add].
      rewrite firstn_app, hdr_length.
      rewrite (firstn_all2 (hdr_bytes _ _ _ _ _)) by (rewrite hdr_length; lia).
      reflexivity. }
    assert (Hfits : (24 + length (pend b ++ firstn r data) <= L)%nat).
    { rewrite <- Hp1, slice_length by lia. lia. }
    rewrite Hrec.
    destruct (skipn r data) as [|c rest] eqn:Hrest.
    + (* nothing left *)
      assert (Hdata : firstn r data = data).
      { rewrite <- (firstn_skipn r data) at 2. now rewrite Hrest, app_nil_r. }
      exists [(fl, pend b ++ firstn r data)], (mkB HDR 0 m2). cbn [map].
      split; [reflexivity|]. split; [split; cbn [mem off]; unfold HDR; lia|].
      assert (Hpn : pend (mkB HDR 0 m2) = []) by reflexivity.
      rewrite Hpn. cbn [map concat snd fst flags]. rewrite !app_nil_r, Hdata.
      split; [reflexivity|]. split; [repeat constructor; cbn [snd]; now rewrite <- Hdata|].
      assert (Hfl' : fl = if N.testbit mf 1 then N.lor (flags b) EOM else flags b).
      { reflexivity. }
      destruct (N.testbit mf 1) eqn:Hmf1.
      * split; [|split; reflexivity]. cbn [full]. rewrite Hfl'.
        destruct (mod_flags_cases _ Hfl) as [E|[E|[E|E]]]; rewrite E; reflexivity.
      * cbn [mid]. split; [|reflexivity]. rewrite Hfl'.
        destruct (mod_flags_cases _ Hfl) as [E|[E|[E|E]]]; rewrite E in *; try reflexivity;
          exfalso; specialize (Himp eq_refl); congruence.
    + (* buffer was full *)
      assert (Hr0 : r = 0%nat).
      { destruct (Nat.eqb r 0) eqn:E; [now apply Nat.eqb_eq in E|].
        cbn [orb length Nat.eqb andb] in Hc. discriminate. }
      assert (Hld : (length data >= 1)%nat).
      { apply (f_equal (@length _)) in Hrest. rewrite skipn_length in Hrest. cbn in Hrest. lia. }
      assert (Hfull : off b = L) by (unfold r in Hr0; lia).
      assert (Hd : data = c :: rest) by (rewrite Hr0 in Hrest; exact Hrest).
      replace (Nat.eqb (off b) L) with true in Hfuel by (symmetry; now apply Nat.eqb_eq).
      assert (Hneq : Nat.eqb HDR L = false) by (apply Nat.eqb_neq; unfold HDR; lia).
      destruct (IH data (mkB HDR 0 m2) mf) as (rs & b' & Hs & Hb' & Hcat & Hall & Hmid).
      { split; cbn [mem off]; unfold HDR; lia. }
      { exact Hmf. } { cbn [flags]; lia. } { cbn [flags]. intros E; discriminate E. }
      { cbn [off]. rewrite Hneq. lia. }
      rewrite Hd in Hs. rewrite Hs.
      exists ((fl, pend b ++ firstn r data) :: rs), b'. cbn [map app].
      split; [reflexivity|]. split; [exact Hb'|].
      assert (Hpn : pend (mkB HDR 0 m2) = []) by reflexivity.
      rewrite Hpn in Hcat. cbn [app] in Hcat.
      split. { cbn [concat snd]. rewrite <- !app_assoc, Hcat. rewrite Hr0. cbn [firstn]. reflexivity. }
      split. { constructor; [exact Hfits|exact Hall]. }
      assert (Hfls : fl = start_of (flags b)).
      { unfold fl. cbn [length Nat.eqb negb].
        destruct (mod_flags_cases _ Hfl) as [E|[E|[E|E]]]; rewrite E; reflexivity. }
      cbn [flags fst] in *. change (start_of 0) with 0%N in Hmid.
      destruct (N.testbit mf 1).
      * destruct Hmid as (Hf & Hrest'). split; [|exact Hrest'].
        apply full_cons; [now apply full_nonnil in Hf|]. split; [exact Hfls|exact Hf].
      * split; [exact Hfls|exact Hmid].
  - (* no record is sent *)
    apply Bool.orb_false_elim in Hc. destruct Hc as (Hr0 & Hc).
    apply Nat.eqb_neq in Hr0.
    destruct (skipn r data) as [|c rest] eqn:Hrest.
    + cbn [length Nat.eqb andb] in Hc.
      assert (Hdata : firstn r data = data).
      { rewrite <- (firstn_skipn r data) at 2. now rewrite Hrest, app_nil_r. }
      exists [], (mkB (off b + r) (flags b) m1). cbn [map concat app].
      split; [reflexivity|]. split; [split; cbn [mem off]; lia|].
      split. { unfold pend at 1. cbn [off mem]. now rewrite Hp1, Hdata. }
      split; [constructor|]. rewrite Hc. cbn [mid flags].
      destruct (mod_flags_cases _ Hfl) as [E|[E|[E|E]]]; rewrite E in *; try reflexivity;
        exfalso; specialize (Himp eq_refl); congruence.
    + assert (Hsk : length (skipn r data) = (length data - r)%nat) by apply skipn_length.
      rewrite Hrest in Hsk.
      destruct (IH (c :: rest) (mkB (off b + r) (flags b) m1) mf)
        as (rs & b' & Hs & Hb' & Hcat & Hall & Hmid).
      { split; cbn [mem off]; lia. }
      { exact Hmf. } { exact Hfl. } { exact Himp. }
      { cbn [off]. rewrite Hsk. destruct (Nat.eqb (off b) L), (Nat.eqb (off b + r) L); lia. }
      exists rs, b'. rewrite Hs.
      split; [cbn [app]; reflexivity|]. split; [exact Hb'|].
      split. { rewrite Hcat. unfold pend at 1. cbn [off mem]. rewrite Hp1, <- app_assoc.
               f_equal. rewrite <- Hrest. apply firstn_skipn. }
      split; [exact Hall|]. exact Hmid.
Qed.

Lemma mark_from_flags first ps : Forall (fun p => (fst p < 4)%N) (mark_from first ps).
Proof.
  revert first. induction ps as [|d ps IH]; intros first; cbn [mark_from]; constructor.
  - destruct first, ps; cbn [fst]; lia.
  - apply IH.
Qed.

(** Sending the pieces after the first. *)
Lemma send_rest_ok ty no id L : (24 < L)%nat ->
  forall ps b, ps <> [] -> buf_ok L b -> (flags b = 0 \/ flags b = 1)%N ->
    exists rs b',
      send_all b ty no id (mark_from false ps) = Some (map (enc ty no id) rs, b') /\
      concat (map snd rs) = pend b ++ concat ps /\
      Forall (fun r => (24 + length (snd r) <= L)%nat) rs /\
      full (flags b) (map fst rs).
Proof.
  intros HL. induction ps as [|d ps IH]; intros b Hne Hb Hfl; [congruence|].
  cbn [mark_from send_all]. unfold msg_buf_send.
  destruct ps as [|d2 ps].
  - change (0 + 2)%N with 2%N. change (N.testbit 2 0) with false. cbv iota.
    assert (Hs0 : start_of (N.lor (flags b) 2) = flags b) by (destruct Hfl as [->| ->]; reflexivity).
    edestruct (send_loop_ok ty no id L HL (2 * length d + 2) d
                 (mkB (off b) (N.lor (flags b) 2) (mem b)) 2) as (rs & b' & Hs & Hb' & Hcat & Hall & Hm).
    { exact Hb. } { lia. } { cbn [flags]. destruct Hfl as [-> | ->]; reflexivity. }
    { reflexivity. } { destruct (Nat.eqb _ L); lia. }
    rewrite Hs. exists (rs ++ []), b'. cbn [send_all mark_from].
    split; [now rewrite map_app|].
    change (N.testbit 2 1) with true in Hm. cbv iota in Hm. cbn [flags] in Hm.
    rewrite Hs0 in Hm. destruct Hm as (Hf & Hp & _).
    rewrite Hp, app_nil_r in Hcat. rewrite app_nil_r. cbn [concat]. rewrite app_nil_r.
    split; [exact Hcat|]. split; [exact Hall|exact Hf].
  - change (0 + 0)%N with 0%N. change (N.testbit 0 0) with false. cbv iota.
    rewrite N.lor_0_r.
    edestruct (send_loop_ok ty no id L HL (2 * length d + 2) d
                 (mkB (off b) (flags b) (mem b)) 0) as (rs & b' & Hs & Hb' & Hcat & Hall & Hm).
    { exact Hb. } { lia. } { cbn [flags]. destruct Hfl as [-> | ->]; reflexivity. }
    { cbn [flags]. destruct Hfl as [-> | ->]; intros E; discriminate E. }
    { destruct (Nat.eqb _ L); lia. }
    rewrite Hs. change (N.testbit 0 1) with false in Hm. cbv iota in Hm. cbn [flags] in Hm.
    assert (Hs0 : start_of (flags b) = flags b) by (destruct Hfl as [->| ->]; reflexivity).
    rewrite Hs0 in Hm.
    assert (Hfl' : (flags b' = 0 \/ flags b' = 1)%N).
    { exact (mid_01 _ _ _ Hfl Hm). }
    destruct (IH b' ltac:(discriminate) Hb' Hfl') as (rs2 & b2 & Hs2 & Hcat2 & Hall2 & Hf2).
    rewrite Hs2. exists (rs ++ rs2), b2.
    split; [now rewrite map_app|]. split.
    { rewrite map_app, concat_app, Hcat2, app_assoc, Hcat. cbn [concat]. rewrite <- app_assoc.
      reflexivity. }
    split; [now apply Forall_app|]. rewrite map_app. eapply mid_full; eassumption.
Qed.

Lemma send_all_ok ty no id junk ps : (24 < length junk)%nat -> ps <> [] ->
  exists rs b',
    send_all (msg_buf_new junk) ty no id (mark ps) = Some (map (enc ty no id) rs, b') /\
    concat (map snd rs) = concat ps /\
    Forall (fun r => (24 + length (snd r) <= length junk)%nat) rs /\
    full 1 (map fst rs).
Proof.
  intros HL Hne. destruct ps as [|d ps]; [congruence|].
  unfold mark. cbn [mark_from send_all]. unfold msg_buf_send.
  set (mf := (1 + match ps with [] => 2 | _ => 0 end)%N).
  assert (Hmf : mf = 1%N \/ mf = 3%N) by (unfold mf; destruct ps; [right|left]; reflexivity).
  assert (Ht : N.testbit mf 0 = true) by (destruct Hmf as [-> | ->]; reflexivity).
  rewrite Ht. cbn [flags msg_buf_new mem].
  edestruct (send_loop_ok ty no id (length junk) HL (2 * length d + 2) d
               (mkB HDR (N.lor 0 mf) junk) mf) as (rs & b' & Hs & Hb' & Hcat & Hall & Hm).
  { split; cbn [mem off]; unfold HDR; lia. } { destruct Hmf as [-> | ->]; lia. }
  { cbn [flags]. destruct Hmf as [-> | ->]; reflexivity. }
  { cbn [flags]. rewrite N.lor_0_l. tauto. }
  { destruct (Nat.eqb _ _); lia. }
  rewrite Hs. cbn [flags] in Hm. rewrite N.lor_0_l in Hm.
  assert (Hs0 : start_of mf = 1%N) by (destruct Hmf as [->| ->]; reflexivity).
  rewrite Hs0 in Hm. change (pend {| off := HDR; flags := N.lor 0 mf; mem := junk |}) with (@nil byte) in Hcat.
  destruct ps as [|d2 ps].
  - subst mf. change (N.testbit (1 + 2) 1) with true in Hm. cbv iota in Hm.
    destruct Hm as (Hf & Hp & _). cbn [mark_from send_all]. exists (rs ++ []), b'.
    split; [now rewrite map_app|]. rewrite app_nil_r. rewrite Hp, app_nil_r in Hcat.
    cbn [concat]. rewrite app_nil_r. tauto.
  - subst mf. change (N.testbit (1 + 0) 1) with false in Hm. cbv iota in Hm.
    assert (Hfl' : (flags b' = 0 \/ flags b' = 1)%N).
    { exact (mid_01 _ _ _ (or_intror eq_refl) Hm). }
    destruct (send_rest_ok ty no id (length junk) HL (d2 :: ps) b' ltac:(discriminate) Hb' Hfl')
      as (rs2 & b2 & Hs2 & Hcat2 & Hall2 & Hf2).
    rewrite Hs2. exists (rs ++ rs2), b2.
    split; [now rewrite map_app|]. split.
    { rewrite map_app, concat_app, Hcat2, app_assoc, Hcat. cbn [concat app]. reflexivity. }
    split; [now apply Forall_app|]. rewrite map_app. eapply mid_full; eassumption.
Qed.

(** ** Gathering *)

Definition gst (h20 acc : list byte) (b : mbuf) : Prop :=
  length h20 = 20%nat /\ off b = (24 + length acc)%nat /\
  exists tail, mem b = h20 ++ be32 (N.of_nat (off b)) ++ acc ++ tail.

Lemma gst_message h20 acc b : gst h20 acc b ->
  message b = h20 ++ be32 (N.of_nat (24 + length acc)) ++ acc.
Proof.
  intros (H20 & Hoff & tail & Hm). unfold message. rewrite Hm, Hoff.
  rewrite firstn_app, H20. rewrite firstn_all2 by lia. f_equal.
  rewrite firstn_app. change (length (be32 _)) with 4%nat. rewrite firstn_all2 by (cbn [length be32]; lia).
  f_equal. replace (24 + length acc - 20 - 4)%nat with (length acc) by lia.
  rewrite firstn_app, firstn_all, Nat.sub_diag. cbn [firstn]. apply app_nil_r.
Qed.

Lemma splice_at {A} (a x c d : list A) n : length a = n -> length x = length d ->
  splice n d (a ++ x ++ c) = a ++ d ++ c.
Proof.
  intros <- Hx. unfold splice.
  rewrite firstn_app, Nat.sub_diag, firstn_all. cbn [firstn]. rewrite app_nil_r.
  f_equal. f_equal. rewrite skipn_app, (skipn_all2 a) by lia.
  replace (length a + length d - length a)%nat with (length d) by lia. cbn [app].
  rewrite skipn_app, <- Hx, Nat.sub_diag, skipn_all. reflexivity.
Qed.

Lemma gather_next ty no id h20 acc b r : gst h20 acc b ->
  (fst r = 0 \/ fst r = 2)%N ->
  (N.of_nat (24 + length (snd r)) < 4294967296)%N ->
  exists b', msg_gather b (enc ty no id r) = Some (if N.eqb (fst r) 2 then 0%Z else EBUSY, b') /\
    gst h20 (acc ++ snd r) b'.
Proof.
  intros (H20 & Hoff & tail & Hm) Hf Hlen. destruct r as [f p]. cbn [fst snd] in *.
  unfold msg_gather, enc. cbn [fst snd].
  rewrite app_length, hdr_length.
  replace (Nat.ltb (24 + length p) HDR) with false by (symmetry; apply Nat.ltb_ge; unfold HDR; lia).
  rewrite hdr_len_word by exact Hlen. rewrite hdr_flags_word by (destruct Hf as [-> | ->]; lia).
  rewrite Nnat.Nat2N.id.
  assert (Ht0 : N.testbit f 0 = false) by (destruct Hf as [-> | ->]; reflexivity).
  assert (Ht1 : N.testbit f 1 = N.eqb f 2) by (destruct Hf as [-> | ->]; reflexivity).
  rewrite Ht0, Ht1.
  replace (Nat.ltb (24 + length p) HDR) with false by (symmetry; apply Nat.ltb_ge; unfold HDR; lia).
  replace (Nat.ltb (24 + length p) (24 + length p)) with false by (symmetry; apply Nat.ltb_ge; lia).
  cbn [orb].
  assert (Hsl : slice HDR (24 + length p - HDR)
                  (hdr_bytes ty f no id (N.of_nat (24 + length p)) ++ p) = p).
  { rewrite slice_app_r by (rewrite hdr_length; unfold HDR; lia). rewrite hdr_length.
    unfold HDR. cbn [Nat.sub]. apply slice_all. lia. }
  rewrite Hsl.
  assert (Hml : (length (mem b) = 24 + length acc + length tail)%nat).
  { rewrite Hm, !app_length, H20. cbn [length be32]. lia. }
  replace (Nat.ltb (length (mem b)) (off b)) with false by (symmetry; apply Nat.ltb_ge; lia).
  set (m0 := if Nat.ltb (length (mem b) - off b) (length p)
             then mem b ++ repeat 0%N (length (mem b) + length p) else mem b).
  assert (Hm0 : exists tail', m0 = h20 ++ be32 (N.of_nat (off b)) ++ acc ++ tail' /\
                              (length p <= length tail')%nat).
  { unfold m0. destruct (Nat.ltb (length (mem b) - off b) (length p)) eqn:E.
    - exists (tail ++ repeat 0%N (length (mem b) + length p)).
      split; [rewrite Hm at 1; now rewrite <- !app_assoc|].
      rewrite app_length, repeat_length. lia.
    - apply Nat.ltb_ge in E. exists tail. split; [exact Hm|]. lia. }
  clearbody m0. destruct Hm0 as (tail' & Hm0 & Htl).
  assert (Hm0l : (length m0 = 24 + length acc + length tail')%nat).
  { rewrite Hm0, !app_length, H20. cbn [length be32]. lia. }
  unfold store.
  replace (Nat.leb (off b + length p) (length m0)) with true by (symmetry; apply Nat.leb_le; lia).
  assert (Hs1 : splice (off b) p m0 =
            h20 ++ be32 (N.of_nat (off b)) ++ (acc ++ p) ++ skipn (length p) tail').
  { rewrite Hm0. rewrite <- (firstn_skipn (length p) tail') at 1.
    rewrite !(app_assoc h20), !(app_assoc (h20 ++ _)).
    rewrite splice_at with (n := off b).
    - now rewrite <- !app_assoc.
    - rewrite !app_length, H20, Hoff. cbn [length be32]. lia.
    - rewrite firstn_length. lia. }
  rewrite Hs1, be32_length.
  match goal with |- context [Nat.leb (20 + 4) ?x] =>
    replace (Nat.leb (20 + 4) x) with true
      by (symmetry; apply Nat.leb_le; rewrite !app_length, H20; cbn [length be32]; lia) end.
  eexists. split; [reflexivity|].
  split; [exact H20|]. cbn [off mem]. split; [rewrite app_length; lia|].
  exists (skipn (length p) tail'). rewrite splice_at with (n := 20%nat); [reflexivity|exact H20|reflexivity].
Qed.

Definition rcs_of (n : nat) : list Z := repeat EBUSY (n - 1) ++ [0%Z].

Lemma gather_rest ty no id h20 rs : forall acc b,
  gst h20 acc b -> full 0 (map fst rs) ->
  Forall (fun r => (N.of_nat (24 + length (snd r)) < 4294967296)%N) rs ->
  exists b', gather_all b (map (enc ty no id) rs) = Some (rcs_of (length rs), b') /\
    gst h20 (acc ++ concat (map snd rs)) b'.
Proof.
  induction rs as [|r rs IH]; intros acc b Hg Hf Hall; [destruct Hf|].
  inversion Hall as [|? ? Hr Hrs]; subst.
  cbn [map gather_all]. destruct rs as [|r2 rs].
  - cbn [map full] in Hf. destruct (gather_next ty no id h20 acc b r Hg ltac:(now right) Hr) as (b' & Hgm & Hg').
    rewrite Hgm. exists b'. cbn [map concat gather_all length rcs_of Nat.sub repeat app]. rewrite app_nil_r, Hf.
    split; [reflexivity|exact Hg'].
  - cbn [map] in Hf. apply full_cons in Hf; [|discriminate]. destruct Hf as (Hf0 & Hf).
    destruct (gather_next ty no id h20 acc b r Hg ltac:(now left) Hr) as (b1 & Hgm & Hg1).
    rewrite Hgm. destruct (IH _ _ Hg1 Hf Hrs) as (b' & Hga & Hg').
    rewrite Hga. exists b'. rewrite Hf0. cbn [N.eqb]. split.
    + cbn [length]. unfold rcs_of. cbn [Nat.sub length repeat app]. rewrite Nat.sub_0_r. reflexivity.
    + cbn [map concat]. now rewrite app_assoc.
Qed.

Lemma gather_first ty no id junk r :
  (fst r = 1 \/ fst r = 3)%N ->
  (N.of_nat (24 + length (snd r)) < 4294967296)%N ->
  exists b h20,
    msg_gather (msg_buf_new junk) (enc ty no id r) = Some (if N.eqb (fst r) 3 then 0%Z else EBUSY, b) /\
    gst h20 (snd r) b /\ (forall l, hdr_bytes ty (fst r) no id l = h20 ++ be32 l).
Proof.
  intros Hf Hlen. destruct r as [f p]. cbn [fst snd] in *.
  unfold msg_gather, enc. cbn [fst snd].
  rewrite app_length, hdr_length.
  replace (Nat.ltb (24 + length p) HDR) with false by (symmetry; apply Nat.ltb_ge; unfold HDR; lia).
  rewrite hdr_len_word by exact Hlen. rewrite hdr_flags_word by (destruct Hf as [-> | ->]; lia).
  rewrite Nnat.Nat2N.id.
  assert (Ht0 : N.testbit f 0 = true) by (destruct Hf as [-> | ->]; reflexivity).
  assert (Ht1 : N.testbit f 1 = N.eqb f 3) by (destruct Hf as [-> | ->]; reflexivity).
  rewrite Ht0, Ht1.
  replace (Nat.ltb (24 + length p) 0) with false by (symmetry; apply Nat.ltb_ge; lia).
  replace (Nat.ltb (24 + length p) (24 + length p)) with false by (symmetry; apply Nat.ltb_ge; lia).
  cbn [orb].
  set (req := hdr_bytes ty f no id (N.of_nat (24 + length p)) ++ p).
  assert (Hreq : length req = (24 + length p)%nat) by (unfold req; rewrite app_length, hdr_length; lia).
  rewrite Nat.sub_0_r. rewrite slice_all by exact Hreq. rewrite Hreq.
  cbn [msg_buf_new mem off].
  replace (Nat.ltb (length junk) 0) with false by (symmetry; apply Nat.ltb_ge; lia).
  rewrite Nat.sub_0_r.
  set (m0 := if Nat.ltb (length junk) (24 + length p)
             then junk ++ repeat 0%N (length junk + (24 + length p)) else junk).
  assert (Hm0 : (24 + length p <= length m0)%nat).
  { unfold m0. destruct (Nat.ltb (length junk) (24 + length p)) eqn:E.
    - rewrite app_length, repeat_length. lia.
    - apply Nat.ltb_ge in E. lia. }
  clearbody m0. unfold store. rewrite Hreq.
  replace (Nat.leb (0 + (24 + length p)) (length m0)) with true by (symmetry; apply Nat.leb_le; lia).
  destruct (hdr_split ty f no id (N.of_nat (24 + length p))) as (h20 & H20 & Hh & Hh').
  assert (Hs1 : splice 0 req m0 = h20 ++ be32 (N.of_nat (24 + length p)) ++ p ++ skipn (24 + length p) m0).
  { unfold splice. cbn [firstn app]. rewrite Hreq. unfold req. rewrite Hh'. rewrite <- !app_assoc.
    reflexivity. }
  rewrite Hs1, be32_length.
  match goal with |- context [Nat.leb (20 + 4) ?x] =>
    replace (Nat.leb (20 + 4) x) with true
      by (symmetry; apply Nat.leb_le; rewrite !app_length, H20; cbn [length be32]; lia) end.
  eexists _, h20. split; [reflexivity|]. split; [|exact Hh].
  split; [exact H20|]. cbn [off mem]. split; [reflexivity|].
  exists (skipn (24 + length p) m0). rewrite splice_at with (n := 20%nat); [reflexivity|exact H20|reflexivity].
Qed.

Lemma gather_all_ok ty no id junk rs : full 1 (map fst rs) ->
  Forall (fun r => (N.of_nat (24 + length (snd r)) < 4294967296)%N) rs ->
  exists b fl,
    gather_all (msg_buf_new junk) (map (enc ty no id) rs) = Some (rcs_of (length rs), b) /\
    message b = hdr_bytes ty fl no id (N.of_nat (24 + length (concat (map snd rs))))
                ++ concat (map snd rs) /\
    fl = hd 0%N (map fst rs).
Proof.
  intros Hf Hall. destruct rs as [|r rs]; [destruct Hf|].
  inversion Hall as [|? ? Hr Hrs]; subst.
  destruct rs as [|r2 rs].
  - cbn [map full gather_all] in *. change (1 + 2)%N with 3%N in Hf.
    destruct (gather_first ty no id junk r ltac:(now right) Hr) as (b & h20 & Hgm & Hg & Hh).
    rewrite Hgm. exists b, (fst r). cbn [map gather_all concat hd]. rewrite app_nil_r.
    rewrite Hf at 1. split; [reflexivity|]. split; [|reflexivity].
    rewrite (gst_message _ _ _ Hg), Hh, <- app_assoc. reflexivity.
  - cbn [map] in Hf. apply full_cons in Hf; [|discriminate]. destruct Hf as (Hf0 & Hf).
    set (rs' := r2 :: rs) in *. cbn [map gather_all].
    destruct (gather_first ty no id junk r ltac:(now left) Hr) as (b & h20 & Hgm & Hg & Hh).
    rewrite Hgm.
    destruct (gather_rest ty no id h20 rs' _ _ Hg Hf Hrs) as (b' & Hga & Hg').
    rewrite Hga. exists b', (fst r). rewrite Hf0 at 1. cbn [N.eqb]. split.
    { unfold rs'. cbn [length]. unfold rcs_of. cbn [Nat.sub length repeat app]. now rewrite Nat.sub_0_r. }
    split; [|reflexivity].
    rewrite (gst_message _ _ _ Hg'), Hh. cbn [map concat]. rewrite <- !app_assoc. reflexivity.
Qed.

(** ** Marks *)

Lemma enc_starts ty no id r : (fst r < 4)%N -> starts (enc ty no id r) = N.odd (fst r).
Proof.
  intros H. unfold starts, enc. destruct r as [f p]. cbn [fst snd] in *.
  rewrite app_nth1 by (rewrite hdr_length; lia).
  destruct (mod_flags_cases _ H) as [->|[->|[->| ->]]]; reflexivity.
Qed.
Lemma enc_ends ty no id r : (fst r < 4)%N -> ends (enc ty no id r) = N.odd (fst r / 2).
Proof.
  intros H. unfold ends, enc. destruct r as [f p]. cbn [fst snd] in *.
  rewrite app_nth1 by (rewrite hdr_length; lia).
  destruct (mod_flags_cases _ H) as [->|[->|[->| ->]]]; reflexivity.
Qed.

Lemma full_nth s fs : (s = 0 \/ s = 1)%N -> full s fs -> forall i f, nth_error fs i = Some f ->
  (f < 4)%N /\ N.odd f = (N.eqb s 1 && Nat.eqb i 0)%bool /\
  N.odd (f / 2) = Nat.eqb (S i) (length fs).
Proof.
  revert s. induction fs as [|f fs IH]; intros s Hs Hf i g Hn; [destruct Hf|].
  destruct fs as [|f2 fs].
  - cbn [full] in Hf. destruct i as [|i]; cbn in Hn; [|destruct i; discriminate].
    injection Hn as <-. subst f. destruct Hs as [-> | ->]; cbn; repeat split; lia.
  - apply full_cons in Hf; [|discriminate]. destruct Hf as (Hf0 & Hf).
    destruct i as [|i].
    + cbn in Hn. injection Hn as <-. subst f. destruct Hs as [-> | ->]; cbn; repeat split; lia.
    + cbn [nth_error] in Hn. destruct (IH 0%N (or_introl eq_refl) Hf i g Hn) as (H1 & H2 & H3).
      split; [exact H1|]. split.
      * rewrite H2. cbn. now rewrite Bool.andb_false_r.
      * rewrite H3. reflexivity.
Qed.

Lemma full_well_marked ty no id rs : full 1 (map fst rs) -> well_marked (map (enc ty no id) rs).
Proof.
  intros Hf i r Hn. rewrite nth_error_map in Hn. destruct (nth_error rs i) as [a|] eqn:Ha; [|discriminate].
  injection Hn as <-.
  assert (Hn : nth_error (map fst rs) i = Some (fst a)) by (rewrite nth_error_map, Ha; reflexivity).
  destruct (full_nth 1 _ (or_intror eq_refl) Hf _ _ Hn) as (H1 & H2 & H3).
  rewrite enc_starts, enc_ends by exact H1. rewrite H2, H3, !map_length. split; reflexivity.
Qed.
