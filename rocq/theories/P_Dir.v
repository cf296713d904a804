(** Theorems on the answer to a directory request. *)
From Verif Require Import S_Dir L_Dir.
From Coq Require Import Lia String.
Local Open Scope Z_scope.

(** The message holds at least an empty listing with the bytes the code keeps free *)
Definition room (len hdr : Z) : Prop := 0 <= hdr /\ 21 <= len - hdr /\ len < W.
Lemma room_cap : forall len hdr, room len hdr -> (len - hdr) mod W = len - hdr /\ 21 <= len - hdr < W.
Proof. intros len hdr (H1 & H2 & H3); split; [apply Z.mod_small; lia|lia]. Qed.
Lemma fits_size : forall cap k s, fits cap k s <-> size_of [s] + k <= cap.
Proof.
  intros; unfold fits. change [s] with ([] ++ [s]). rewrite size_snoc. change (size_of []) with (zlen HDR). split; lia.
Qed.
Lemma visible_in : forall l s, In s (visible l) <-> In (Some s) l /\ readable s = true.
Proof.
  intros l s; unfold visible; rewrite in_flat_map. split.
  - intros (o & I & X). destruct o as [s1|]; [|destruct X]. destruct (readable s1) eqn:R; [|destruct X].
    destruct X as [<-|[]]. split; assumption.
  - intros (I & R). exists (Some s); split; [exact I|]. rewrite R; left; reflexivity.
Qed.
Lemma fits_all : forall cap l, 21 <= cap -> Forall (fits cap 4) (visible l) ->
  forall s, In (Some s) l -> size_of (vis s) < cap - 3.
Proof.
  intros cap l C F s I. unfold vis. destruct (readable s) eqn:R.
  - rewrite Forall_forall in F. specialize (F s (proj2 (visible_in l s) (conj I R))). apply fits_size in F. lia.
  - change (size_of []) with 17. lia.
Qed.
Lemma groups_ok : forall cap init groups, Forall2 (group cap) init groups ->
  Forall2 (fun r g => rc r = 0 /\ more r = true /\ g <> [] /\ lists (json r) g) init groups /\
  Forall (fun r => zlen (json r) < cap) init.
Proof.
  intros cap init groups F; induction F as [|r g init groups (H1 & H2 & H3 & H4 & H5) F (IH1 & IH2)].
  - split; constructor.
  - split; constructor; try assumption. repeat split; assumption.
Qed.

(** The listing of [g] leaves less than the bytes the code keeps free *)
Definition tight (cap : Z) (g : list dset) : Prop := cap - 5 <= zlen HDR + zlen (entries " "%char g).
(** All the visible sets, but an error in the place of the last reply *)
Definition truncated (cap : Z) (l : list (option dset)) (a : list reply) : Prop :=
  exists groups last init, a = init ++ [failed ENOMEM] /\ List.concat groups ++ last = visible l /\ tight cap last /\
  Forall2 (fun r g => rc r = 0 /\ more r = true /\ g <> [] /\ lists (json r) g) init groups.

(** ** If the last set of the list is still there when its turn comes and every visible
    set fits in a message, the replies fit in messages and list each visible set once,
    in order, and no other.  What is missing: the last reply is replaced by an error if
    its text leaves one or two bytes less than the code keeps free; see also below. *)
Theorem dir_complete_partial : forall fuel len hdr m l, room len hdr -> last_found l ->
  Forall (fits (len - hdr) 4) (visible l) ->
  exists a, dir_request (S (S fuel)) len hdr m l = Sent a /\ Forall (fun r => hdr + zlen (json r) < len) a /\
  (complete l a \/ truncated (len - hdr) l a).
Proof.
  intros fuel len hdr m l R LF F. destruct (room_cap _ _ R) as (E & C). destruct R as (R1 & R2 & R3).
  unfold dir_request. rewrite E. set (cap := len - hdr) in *.
  destruct (all_spec fuel cap l m 0 [] []) as (add & gs & g' & E1 & F1 & P1); try assumption.
  { left; split; reflexivity. } { lia. } { apply fits_all; [lia|exact F]. }
  destruct l as [|o l]; [destruct LF as (l' & s & X); destruct l'; discriminate|].
  destruct (groups_ok _ _ _ F1) as (G1 & G2). cbn [app] in E1, P1. unfold finish in P1. cbv iota in P1.
  destruct (Z.leb_spec (cap - 3) (size_of g' + 2)) as [Q|Q].
  - rewrite P1. eexists; split; [reflexivity|]. split.
    + apply Forall_app; split; [|constructor; [cbn; lia|constructor]].
      eapply Forall_impl; [|exact G2]. cbv beta; intros; lia.
    + right. exists gs, g', add. split; [reflexivity|]. split; [exact E1|]. split; [|exact G1].
      unfold tight. unfold size_of in Q. rewrite zlen_app in Q. lia.
  - destruct P1 as (m' & c' & j & E2 & J & Z). rewrite E2. eexists; split; [reflexivity|]. split.
    + apply Forall_app; split; [|constructor; [cbn; lia|constructor]].
      eapply Forall_impl; [|exact G2]. cbv beta; intros; lia.
    + left. exists gs, g', add, (mkR 0 false j). split; [reflexivity|]. split; [exact E1|]. split; [exact G1|].
      split; [reflexivity|]. split; [reflexivity|exact J].
Qed.
Print Assumptions dir_complete_partial.

(** A directory that fits in one message with the bytes the code keeps free is one reply *)
Theorem dir_single : forall fuel len hdr m l, room len hdr -> last_found l ->
  zlen HDR + zlen (entries " "%char (visible l)) + 6 <= len - hdr ->
  exists j, dir_request (S fuel) len hdr m l = Sent [mkR 0 false j] /\ lists j (visible l) /\ hdr + zlen j < len.
Proof.
  intros fuel len hdr m l R LF F. destruct (room_cap _ _ R) as (E & C). destruct R as (R1 & R2 & R3).
  unfold dir_request. rewrite E. set (cap := len - hdr) in *.
  assert (S1 : size_of (visible l) + 6 <= cap) by (unfold size_of; rewrite zlen_app; exact F).
  pose proof (all_fit fuel cap l m 0 [] [] C) as P1. cbn [app] in P1.
  specialize (P1 (or_introl (conj eq_refl eq_refl)) ltac:(lia) ltac:(lia) LF).
  destruct l as [|o l]; [destruct LF as (l' & s & X); destruct l'; discriminate|].
  unfold finish in P1. cbv iota in P1.
  destruct (Z.leb_spec (cap - 3) (size_of (visible (o :: l)) + 2)) as [Q|Q]; [lia|].
  destruct P1 as (m' & c' & j & E2 & J & Z). rewrite E2. exists j; split; [reflexivity|]. split; [exact J|lia].
Qed.
Print Assumptions dir_single.
Theorem dir_empty : forall fuel len hdr m, room len hdr ->
  exists a, dir_request fuel len hdr m [] = Sent a /\ complete [] a.
Proof.
  intros fuel len hdr m R. destruct (room_cap _ _ R) as (E & C). destruct R as (R1 & R2 & R3).
  unfold dir_request. rewrite E.
  assert (Z : zlen (str "{ ""directory"" : []}") = 19) by reflexivity.
  destruct (snprintf_fit (len - hdr) m [] (len - hdr) (str "{ ""directory"" : []}") (holds_nil m)) as (m' & E1 & H); rewrite ?Z, ?zlen_nil; try lia.
  rewrite zlen_nil, Z in E1. rewrite E1. replace (len <=? 19) with false by (symmetry; apply Z.leb_gt; lia).
  eexists; split; [reflexivity|]. apply holds_take in H. cbn [app] in H. rewrite Z in H. rewrite H.
  exists [], [], [], (mkR 0 false (str "{ ""directory"" : []}")).
  split; [reflexivity|]. split; [reflexivity|]. split; [constructor|]. split; [reflexivity|]. split; [reflexivity|].
  exists " "%char; split; [left; reflexivity|reflexivity].
Qed.
Print Assumptions dir_empty.

(** ** The last set of the list was deleted in between: the client gets replies that
    promise more, and never the last one *)
Theorem dir_vanished : forall fuel len hdr m l, room len hdr -> Forall (fits (len - hdr) 4) (visible l) ->
  exists a groups rest, dir_request (S (S fuel)) len hdr m (l ++ [None]) = Sent a /\ List.concat groups ++ rest = visible l /\
  Forall2 (fun r g => rc r = 0 /\ more r = true /\ g <> [] /\ lists (json r) g) a groups.
Proof.
  intros fuel len hdr m l R F. destruct (room_cap _ _ R) as (E & C). destruct R as (R1 & R2 & R3).
  unfold dir_request. rewrite E. set (cap := len - hdr) in *.
  destruct (all_gone fuel cap l m 0 [] []) as (add & gs & g' & m' & c' & E1 & F1 & P1); try assumption.
  { left; split; reflexivity. } { lia. } { apply fits_all; [lia|exact F]. }
  rewrite P1. destruct (groups_ok _ _ _ F1) as (G1 & _).
  exists add, gs, g'. split; [destruct l; reflexivity|]. split; [exact E1|exact G1].
Qed.
Print Assumptions dir_vanished.

(** ** A visible set that fits in no message: the function never returns and, having
    sent what comes before, sends the text ]} over and over *)
Theorem dir_too_big : forall fuel len hdr m l s l2, room len hdr -> Forall (fits (len - hdr) 4) (visible l) ->
  readable s = true -> ~ fits (len - hdr) 4 s ->
  exists pre, dir_request (S (S fuel)) len hdr m (l ++ Some s :: l2) = Stuck (pre ++ repeat (mkR 0 true (str "]}")) fuel).
Proof.
  intros fuel len hdr m l s l2 R FL V F. destruct (room_cap _ _ R) as (E & C). destruct R as (R1 & R2 & R3).
  unfold dir_request. rewrite E. rewrite fits_size in F.
  destruct (all_big fuel (len - hdr) l s l2 m 0 [] []) as (pre & P); try assumption.
  { left; split; reflexivity. } { lia. } { apply fits_all; [lia|exact FL]. } { lia. }
  rewrite P. exists pre. destruct l; reflexivity.
Qed.
Print Assumptions dir_too_big.

(** ** Cases *)
Definition m0 : mem := fun _ => zero.
Definition a : dset := mkS (str "{""name"":""a"",""info"":[") [(str "k", str "v"); (str "x", str "1")] [(str "k", str "w"); (str "y", str "2")] true.
Definition b : dset := mkS (str "{""name"":""b"",""info"":[") [] [] true.
Definition secret : dset := mkS (str "{""name"":""s"",""info"":[") [] [] false.
Definition shown_answer (r : answer) : list (Z * bool * string) :=
  match r with Sent l => map (fun r => (rc r, more r, string_of_list_ascii (json r))) l | _ => [] end.
(** In one message; the local value of k hides the remote one *)
Example dir_single_ex :
  shown_answer (dir_request 1 300 32 m0 [Some a; Some secret; None; Some b]) =
  [(0, false, "{ ""directory"" : [ {""name"":""a"",""info"":[{""key"":""k"",""value"":""v""},{""key"":""x"",""value"":""1""},{""key"":""y"",""value"":""2""}]},{""name"":""b"",""info"":[]}]}"%string)]
  /\ room 300 32 /\ last_found [Some a; Some secret; None; Some b]
  /\ zlen HDR + zlen (entries " "%char (visible [Some a; Some secret; None; Some b])) + 6 <= 300 - 32.
Proof.
  split; [vm_compute; reflexivity|]. split; [repeat split; reflexivity || (vm_compute; congruence)|].
  split; [exists [Some a; Some secret; None], b; reflexivity|vm_compute; congruence].
Qed.
(** In two; the first set of the list is secret, so that the listing begins with a comma *)
Example dir_two_ex :
  shown_answer (dir_request 2 100 32 m0 [Some secret; Some b; Some b; Some b]) =
  [(0, true, "{ ""directory"" : [,{""name"":""b"",""info"":[]},{""name"":""b"",""info"":[]}]}"%string);
   (0, false, "{ ""directory"" : [ {""name"":""b"",""info"":[]}]}"%string)]
  /\ room 100 32 /\ last_found [Some secret; Some b; Some b; Some b] /\ Forall (fits (100 - 32) 4) (visible [Some secret; Some b; Some b; Some b]).
Proof.
  split; [vm_compute; reflexivity|]. split; [repeat split; reflexivity || (vm_compute; congruence)|].
  split; [exists [Some secret; Some b; Some b], b; reflexivity|repeat constructor; vm_compute; congruence].
Qed.

(** ** The answer is not always complete *)
(** The last of the list is deleted before its turn: nothing is ever sent *)
Theorem dir_vanished_refuted : exists len hdr l, room len hdr /\ Forall (fits (len - hdr) 6) (visible l) /\
  visible l <> [] /\ forall fuel m, dir_request (S fuel) len hdr m l = Sent [].
Proof.
  exists 300, 32, [Some a; Some b; None]. split; [repeat split; reflexivity || (vm_compute; congruence)|].
  split; [repeat constructor; vm_compute; congruence|]. split; [vm_compute; congruence|].
  intros fuel m. unfold dir_request. change ((300 - 32) mod W) with 268.
  assert (C : 21 <= 268 < W) by (split; vm_compute; congruence). cbn [all_sets].
  destruct (place_fit fuel 268 a m 0 [] false [] C) as (m1 & c1 & E1 & P1 & L1); [left; split; reflexivity|vm_compute; congruence|vm_compute; congruence|].
  rewrite E1.
  destruct (place_fit fuel 268 b m1 c1 [a] false [] C) as (m2 & c2 & E2 & P2 & L2); [right; exact P1|exact L1|vm_compute; congruence|].
  rewrite E2. reflexivity.
Qed.
Print Assumptions dir_vanished_refuted.
(** Two sets each of which would fit alone, with bytes to spare: the client is told the
    server is out of memory *)
Theorem dir_window_refuted : exists len hdr l, room len hdr /\ last_found l /\ Forall (fits (len - hdr) 6) (visible l) /\
  forall fuel m, dir_request (S fuel) len hdr m l = Sent [failed ENOMEM].
Proof.
  exists 100, 32, [Some b; Some b]. split; [repeat split; reflexivity || (vm_compute; congruence)|].
  split; [exists [Some b], b; reflexivity|]. split; [repeat constructor; vm_compute; congruence|].
  intros fuel m. unfold dir_request. change ((100 - 32) mod W) with 68.
  assert (C : 21 <= 68 < W) by (split; vm_compute; congruence). cbn [all_sets].
  destruct (place_fit fuel 68 b m 0 [] false [] C) as (m1 & c1 & E1 & P1 & L1); [left; split; reflexivity|vm_compute; congruence|vm_compute; congruence|].
  rewrite E1.
  pose proof (place_fit fuel 68 b m1 c1 [b] true [] C (or_intror P1) L1) as P2. 
  specialize (P2 ltac:(vm_compute; congruence)). unfold finish in P2.
  replace (68 - 3 <=? size_of ([b] ++ vis b) + 2) with true in P2 by (vm_compute; reflexivity).
  rewrite P2. reflexivity.
Qed.
Print Assumptions dir_window_refuted.
(** A set with much information: the request is never answered *)
Theorem dir_too_big_refuted : exists len hdr l, room len hdr /\ last_found l /\
  forall fuel m, exists r, dir_request (S (S fuel)) len hdr m l = Stuck (r ++ repeat (mkR 0 true (str "]}")) fuel).
Proof.
  exists 100, 32, [Some b; Some a]. split; [repeat split; reflexivity || (vm_compute; congruence)|].
  split; [exists [Some b], a; reflexivity|].
  intros fuel m. apply (dir_too_big fuel 100 32 m [Some b] a []).
  - repeat split; reflexivity || (vm_compute; congruence).
  - repeat constructor; vm_compute; congruence.
  - reflexivity.
  - intros F; vm_compute in F; congruence.
Qed.
Print Assumptions dir_too_big_refuted.
