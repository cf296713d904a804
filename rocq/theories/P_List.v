(** Theorems about list metrics (C22; the generation number: C20). *)
From Verif Require Import L_List L_LHeapTop.
From Verif Require Import P_LHeap.
From Verif Require Export S_List.
From Coq Require Import Lia ZifyBool ZifyN ZifyNat.
Local Open Scope N_scope.

(** The loops over trees need fuel for their depth; removal and purge, which call each
    other for lists in lists, for the number of entries the heap can hold.  Offsets in
    lists have 32 bits: the heap may have 4 GB. *)
Definition roomy (fuel lf : nat) (size hgrain : N) : Prop :=
  fuel_for size hgrain fuel /\ (2 * N.to_nat (grains size hgrain) + 2 <= lf)%nat /\ up512 size <= W32.

(** ** C22 *)
(** Every call a user may make ends, touches no memory but the heap's, and does what
    it should: a new element is at the end of its list and zero, a removed one leaves
    the others as they were and takes with it exactly what is in it, a purged list is
    empty and what was in it is freed; NULL is returned only when the heap has no room;
    records are accepted once. *)
Theorem list_calls fuel lf size hgrain hoff s a o : roomy fuel lf size hgrain -> hist fuel lf size hgrain hoff s a -> legal size a o ->
  exists r s' a', call fuel lf hoff o s = Some (r, s') /\ does size hgrain hoff a o r s' a' /\ hist fuel lf size hgrain hoff s' a'.
Proof.
  intros (Hf & Hlf & H32) Hh HL. destruct (call_ok fuel size hgrain Hf H32 hoff lf s a o Hlf (hist_inv _ _ _ Hf H32 _ _ _ _ Hlf Hh) HL) as (r & s' & a' & E & D & _).
  exists r, s', a'. split; [exact E|]. split; [exact D|]. exact (hi_call _ _ _ _ _ _ _ _ _ _ _ Hh HL E D).
Qed.
Print Assumptions list_calls.

(** What readers see is the sequence: its length, its first and last element, after
    each element the next one, all of it by the loop over first and next, each element
    with its type and its number of values. *)
Theorem list_sequence fuel lf size hgrain hoff s a l : roomy fuel lf size hgrain -> hist fuel lf size hgrain hoff s a -> has a l ->
  let elem e := (value_ptr (lbase s) e, typ a e, cnt a e) in
  let lh := head_of (lbase s) l in
  list_len lh s = Some (N.of_nat (length (seq a l)), s) /\
  list_first lh s = Some (option_map elem (hd_error (seq a l)), s) /\
  list_last lh s = Some (option_map elem (hd_error (rev (seq a l))), s) /\
  (forall L1 e L2, seq a l = L1 ++ e :: L2 -> list_next (value_ptr (lbase s) e) s = Some (option_map elem (hd_error L2), s)) /\
  (forall f, (length (seq a l) < f)%nat -> list_walk f lh s = Some (map elem (seq a l), s)).
Proof.
  intros (Hf & Hlf & H32) Hh Hl elem lh. destruct (hist_inv _ _ _ Hf H32 _ _ _ _ Hlf Hh) as (rk & HR). split; [|split; [|split; [|split]]].
  - exact (len_ok _ _ H32 _ _ _ _ _ _ HR Hl).
  - unfold lh. rewrite (first_ok _ _ H32 _ _ _ _ _ _ _ _ HR Hl). now destruct (seq a l).
  - unfold lh. rewrite (last_ok _ _ H32 _ _ _ _ _ _ _ _ HR Hl). destruct (seq a l) as [|y L] eqn:E; [reflexivity|].
    destruct (exists_last (l := y :: L)) as (L' & z & E'); [discriminate|]. rewrite E'. rewrite rev_app_distr. cbn [app rev hd_error option_map]. rewrite last_last. reflexivity.
  - intros L1 e L2 EL. rewrite (next_ok _ _ H32 _ _ _ _ _ _ _ _ _ _ _ HR Hl EL). now destruct L2.
  - intros f Hfu. exact (list_walk_ok _ _ H32 _ _ _ _ _ _ _ _ _ HR Hl Hfu).
Qed.
Print Assumptions list_sequence.

(** So what was appended is the last element, with the type and the number of values
    it was appended with. *)
Theorem list_append_last fuel lf size hgrain hoff s a l t c p s' : roomy fuel lf size hgrain -> hist fuel lf size hgrain hoff s a ->
  has a l -> t < 256 -> M_Set.value_size t c <> None -> c < 16777216 ->
  append_item fuel (head_of (lbase s) l) t c s = Some (p, s') -> p <> 0 ->
  list_last (head_of (lbase s') l) s' = Some (Some (p, t, if M_Set.type_is_array t then c else 1), s') /\
  list_len (head_of (lbase s') l) s' = Some (N.of_nat (length (seq a l)) + 1, s').
Proof.
  intros HR Hh Hl Ht Hv Hc E Hp. assert (E32 : c mod W32 = c) by (apply N.mod_small; unfold W32; lia). assert (E24 : c mod 16777216 = c) by (apply N.mod_small; lia).
  assert (HL : legal size a (AppendItem l t c)) by (split; [exact Hl|]; split; [exact Ht|]; now rewrite E32).
  destruct (list_calls _ _ _ _ _ _ _ _ HR Hh HL) as (r & s2 & a' & Ec & D & H'). cbn [call] in Ec. rewrite (lbind_eq _ _ _ _ _ E) in Ec. unfold lret, ptr_res in Ec. rewrite (proj2 (N.eqb_neq p 0) Hp) in Ec. injection Ec as <- <-.
  destruct D as (z & _ & Hni & He0 & Ea). set (e := p - lbase s - 12) in *.
  assert (Hl' : has a' l). { destruct l as [i|q]; [exact I|]. destruct Hl as (Hq & Tq). rewrite Ea. split; [now right|]. cbn [typ]. rewrite set1_ne; [exact Tq|]. intros ->. contradiction. }
  assert (Hsl : seq a' l = seq a l ++ [e]) by (rewrite Ea; apply setl_eq).
  destruct (list_sequence _ _ _ _ _ _ _ _ HR H' Hl') as (Q1 & _ & Q2 & _). rewrite Q1, Q2, Hsl, rev_app_distr, app_length. cbn [app rev hd_error option_map length]. split; [|do 2 f_equal; lia].
  assert (typ a' e = t /\ cnt a' e = if M_Set.type_is_array t then c else 1) as (-> & ->) by (rewrite Ea; cbn [typ cnt]; rewrite !set1_eq, E24; auto).
  assert (Hb : lbase s' = lbase s). { destruct HR as (Hf & Hlf & H32). destruct (hist_inv _ _ _ Hf H32 _ _ _ _ Hlf Hh) as (rk & R1). destruct (M_Set.value_size t (c mod W32)) as [z'|] eqn:Hz; [|rewrite E32 in Hz; contradiction].
    destruct (item_rel fuel size hgrain Hf H32 hoff _ _ _ _ l t c z' R1 Hl Ht Hz) as (p2 & s3 & E3 & [(Q & _)|(e' & rk' & _ & _ & _ & R')]); rewrite E in E3; injection E3 as <- <-; [contradiction|]. exact (proj1 (r_hl _ _ _ _ _ _ _ _ _ R')). }
  assert (He : value_ptr (lbase s') e = p). { rewrite Hb. unfold value_ptr, e. assert (lbase s + 12 <= p); [|lia]. unfold e in He0. lia. }
  now rewrite He.
Qed.
Print Assumptions list_append_last.

(** The values are what was written to them last, whatever happened to other entries,
    to the lists and to the memory as a whole in the meantime. *)
Theorem list_values fuel lf size hgrain hoff s a e k : roomy fuel lf size hgrain -> hist fuel lf size hgrain hoff s a ->
  In e (ents a) -> typ a e <> LIST -> 8 * k + 8 <= siz a e ->
  ld32 (value_ptr (lbase s) e + 8 * k) s = Some (cont a e k mod W32, s) /\ ld32 (value_ptr (lbase s) e + 8 * k + 4) s = Some (cont a e k / W32, s).
Proof. intros (Hf & Hlf & H32) Hh. destruct (hist_inv _ _ _ Hf H32 _ _ _ _ Hlf Hh) as (rk & HR). exact (value_ok _ _ H32 _ _ _ _ _ _ _ _ _ HR). Qed.
Print Assumptions list_values.

(** Lists are lists: their elements exist and are different, no entry is in two lists,
    no list is in itself at any depth. *)
Theorem list_shape fuel lf size hgrain hoff s a : roomy fuel lf size hgrain -> hist fuel lf size hgrain hoff s a ->
  NoDup (ents a) /\ (forall l, has a l -> NoDup (seq a l) /\ forall e, In e (seq a l) -> In e (ents a)) /\
  (forall l l' e, has a l -> has a l' -> In e (seq a l) -> In e (seq a l') -> l = l') /\
  (forall e, has a (Sub e) -> ~ inside a (Sub e) e).
Proof.
  intros (Hf & Hlf & H32) Hh. destruct (hist_inv _ _ _ Hf H32 _ _ _ _ Hlf Hh) as (rk & HR). pose proof (r_sh _ _ _ _ _ _ _ _ _ HR) as HS.
  split; [apply HS|]. split; [intros l Hl; split; [now apply (sh_nd _ _ _ HS)|intros e; now apply (sh_in _ _ _ HS)]|]. split; [intros l l' e; apply (sh_one _ _ _ HS)|].
  intros e He Q. destruct (inside_rank _ H32 _ _ _ _ _ HS He Q) as (_ & R). lia.
Qed.
Print Assumptions list_shape.

(** No memory is lost: the grains not in a free chunk are those of the entries that
    exist, and these do not share a byte. *)
Theorem list_memory fuel lf size hgrain hoff s a : roomy fuel lf size hgrain -> hist fuel lf size hgrain hoff s a ->
  ForallOrdPairs apart (allocs a) /\ (forall e, In e (ents a) -> e + 12 + siz a e <= 8 + up512 size) /\
  exists i h, heap_get_info (lbase s) fuel (hst s) = Some (i, h) /\
    free_bytes i + fold_right N.add 0 (map (fun e => need (gsz hgrain) (siz a e + 12)) (ents a)) = grains size hgrain.
Proof.
  intros (Hf & Hlf & H32) Hh. destruct (hist_inv _ _ _ Hf H32 _ _ _ _ Hlf Hh) as (rk & HR). pose proof (r_hl _ _ _ _ _ _ _ _ _ HR) as (_ & H).
  split; [exact (live_apart _ _ _ _ _ H)|]. split.
  - intros e He. pose proof (live_bounds _ _ _ _ _ H) as B. rewrite Forall_forall in B. destruct (B _ (in_allocs _ _ He)) as (_ & _ & Q & _). cbn [fst snd] in Q.
    pose proof (grains_fit size hgrain). rewrite gsz_qq in *. lia.
  - destruct (info_top fuel size hgrain Hf _ _ _ H) as (R & _ & _ & E & Q). eexists _, _. split; [exact E|]. cbn [free_bytes]. rewrite <- Q. f_equal. unfold allocs. now rewrite map_map.
Qed.
Print Assumptions list_memory.

(** ** Cases that meet the hypotheses *)
Lemma hist_next fuel lf size hgrain hoff s a o r : roomy fuel lf size hgrain -> hist fuel lf size hgrain hoff s a -> legal size a o ->
  match call fuel lf hoff o s with Some (r', _) => r' = r | None => False end ->
  exists s' a', call fuel lf hoff o s = Some (r, s') /\ does size hgrain hoff a o r s' a' /\ hist fuel lf size hgrain hoff s' a'.
Proof. intros HR Hh HL E. destruct (list_calls _ _ _ _ _ _ _ _ HR Hh HL) as (r' & s' & a' & E' & D & H'). rewrite E' in E. subst r'. eauto. Qed.
Definition after (o : op) (s : lst) : lst := match call 40 40 24 o s with Some (_, s') => s' | None => s end.
(** A heap of 16 grains over memory that holds anything; s1 to s6 are the states after
    an unsigned 64 bit value is appended to the list of the set, a list after it, two
    values to that one, a record of 32 bytes is made and appended. *)
Definition ex0 : lst := match heap_init 4096 40 1000 64 (raw plenty) with Some (_, h) => mkL 4096 h (fun _ => (0, 0, 0)) 7 | None => mkL 0 (raw plenty) (fun _ => (0, 0, 0)) 0 end.
Definition ops : list op := [AppendItem (Top 0) 9 1; AppendItem (Top 0) 23 1; AppendItem (Sub 76) 20 3; AppendItem (Sub 76) 9 1; RecAlloc 32 5; AppendRec (Top 0) 268].
Definition ex_at (n : nat) : lst := fold_left (fun s o => after o s) (firstn n ops) ex0.
Definition results (os : list op) (s : lst) : list (option res) :=
  fst (fold_left (fun '(r, s) o => (r ++ [match call 40 40 24 o s with Some (x, _) => Some x | None => None end], after o s)) os ([], s)).
Example ex_results : results ops ex0 = [Some (RPtr 12); Some (RPtr 76); Some (RPtr 140); Some (RPtr 204); Some (RPtr 268); Some (RCode 0)].
Proof. vm_compute. reflexivity. Qed.
Example ex_walks : let s := ex_at 6 in
  (match list_walk 9 (HTop 0) s with Some (x, _) => Some x | None => None end, match list_walk 9 (HVal (4096 + 76 + 12)) s with Some (x, _) => Some x | None => None end) =
  (Some [(4120, 9, 1); (4184, 23, 1); (4376, 26, 1)], Some [(4248, 20, 3); (4312, 9, 1)]).
Proof. vm_compute. reflexivity. Qed.
Lemma ex_roomy : roomy 40 40 1000 64.
Proof. split; [exact ex_fuel|]. split; [|vm_compute; discriminate]. change (grains 1000 64) with 16. cbn. lia. Qed.
Lemma ex_step s a o r : hist 40 40 1000 64 24 s a -> legal 1000 a o -> match call 40 40 24 o s with Some (r', _) => r' = r | None => False end ->
  exists a', does 1000 64 24 a o r (after o s) a' /\ hist 40 40 1000 64 24 (after o s) a'.
Proof. intros Hh HL E. destruct (hist_next _ _ _ _ _ _ _ _ _ ex_roomy Hh HL E) as (s' & a' & E' & D & H'). unfold after. rewrite E'. eauto. Qed.
Lemma ex_start : hist 40 40 1000 64 24 ex0 (blank_abs 7).
Proof.
  unfold ex0. destruct (heap_init_defined _ _ _ 40%nat _ ex_good ex_fuel) as (h & E & _). rewrite E. exact (hi_new 40 40 1000 64 24 4096 (raw plenty) h 7 ex_good E).
Qed.
Example ex_hist : exists a, hist 40 40 1000 64 24 (ex_at 6) a /\ roomy 40 40 1000 64 /\ seq a (Top 0) = [12; 76; 268] /\ seq a (Sub 76) = [140; 204] /\
  typ a 76 = LIST /\ isrec a 268 = true /\ siz a 140 = 24.
Proof.
  pose proof ex_start as H0.
  destruct (ex_step _ _ (AppendItem (Top 0) 9 1) (RPtr 12) H0) as (a1 & (z1 & Z1 & _ & _ & E1) & H1); [repeat split; discriminate|vm_compute; reflexivity|].
  assert (S1 : seq a1 = setl (setl (fun _ => []) (Sub 12) []) (Top 0) [12]) by (rewrite E1; reflexivity). clear E1.
  destruct (ex_step _ _ (AppendItem (Top 0) 23 1) (RPtr 76) H1) as (a2 & (z2 & Z2 & _ & _ & E2) & H2); [repeat split; discriminate|vm_compute; reflexivity|].
  assert (S2 : seq a2 = setl (setl (seq a1) (Sub 76) []) (Top 0) (seq a1 (Top 0) ++ [76]) /\ typ a2 76 = LIST /\ In 76 (ents a2)) by (rewrite E2; repeat split; left; reflexivity). clear E2. destruct S2 as (S2 & T2 & I2).
  destruct (ex_step _ _ (AppendItem (Sub 76) 20 3) (RPtr 140) H2) as (a3 & (z3 & Z3 & _ & _ & E3) & H3); [repeat split; [exact I2|exact T2|discriminate]|vm_compute; reflexivity|].
  assert (S3 : seq a3 = setl (setl (seq a2) (Sub 140) []) (Sub 76) (seq a2 (Sub 76) ++ [140]) /\ typ a3 76 = typ a2 76 /\ In 76 (ents a3) /\ siz a3 140 = z3) by (rewrite E3; repeat split; right; exact I2). clear E3. destruct S3 as (S3 & T3 & I3 & V3). rewrite T2 in T3.
  destruct (ex_step _ _ (AppendItem (Sub 76) 9 1) (RPtr 204) H3) as (a4 & (z4 & Z4 & _ & _ & E4) & H4); [repeat split; [exact I3|exact T3|discriminate]|vm_compute; reflexivity|].
  assert (S4 : seq a4 = setl (setl (seq a3) (Sub 204) []) (Sub 76) (seq a3 (Sub 76) ++ [204]) /\ typ a4 76 = typ a3 76 /\ siz a4 140 = siz a3 140) by (rewrite E4; repeat split). clear E4. destruct S4 as (S4 & T4 & V4).
  destruct (ex_step _ _ (RecAlloc 32 5) (RPtr 268) H4) as (a5 & (w & _ & _ & _ & _ & _ & E5) & H5); [repeat split; discriminate|vm_compute; reflexivity|].
  assert (S5 : seq a5 = seq a4 /\ typ a5 76 = typ a4 76 /\ siz a5 140 = siz a4 140 /\ isrec a5 268 = true /\ In 268 (ents a5)) by (rewrite E5; repeat split; left; reflexivity). clear E5. destruct S5 as (S5 & T5 & V5 & R5 & I5).
  destruct (ex_step _ _ (AppendRec (Top 0) 268) (RCode 0) H5) as (a6 & D6 & H6).
  - split; [exact I|]. split; [exact I5|]. left. split; [exact R5|]. clear - S1 S2 S3 S4 S5. intros [i|p] _; rewrite S5, S4, S3, S2, S1; unfold setl; cbn [loc_eqb].
    + destruct (i =? 0); cbn; intuition discriminate.
    + destruct (p =? 76); cbn; repeat (match goal with |- context [if ?b then _ else _] => destruct b end; cbn); intuition discriminate.
  - vm_compute; reflexivity.
  - exists a6. split; [exact H6|]. split; [exact ex_roomy|]. destruct D6 as [(_ & _ & _ & E6)|[(Q & _)|(Q & _)]]; try discriminate Q.
    assert (S6 : seq a6 = setl (seq a5) (Top 0) (seq a5 (Top 0) ++ [268]) /\ typ a6 76 = typ a5 76 /\ siz a6 140 = siz a5 140 /\ isrec a6 268 = isrec a5 268) by (rewrite E6; repeat split). destruct S6 as (S6 & T6 & V6 & R6).
    rewrite R6, V6, T6, S6, S5, S4, S3, S2, S1. split; [reflexivity|]. split; [reflexivity|]. split; [congruence|]. split; [exact R5|]. rewrite V5, V4, V3. vm_compute in Z3. injection Z3 as <-. reflexivity.
Qed.

(** ** What is false *)
(** "A record is accepted by one list only": a record that is alone in its list looks
    like one that is in no list, and is accepted again.  The list then says it has two
    elements while there is one to be seen, and the program that purges it accesses
    memory it does not have. *)
Lemma ex_rec : exists a, hist 40 40 1000 64 24 (after (AppendRec (Top 0) 12) (after (RecAlloc 32 5) ex0)) a /\ isrec a 12 = true /\ seq a (Top 0) = [12].
Proof.
  destruct (ex_step _ _ (RecAlloc 32 5) (RPtr 12) ex_start) as (a1 & (w & _ & _ & _ & _ & _ & E1) & H1); [repeat split; discriminate|vm_compute; reflexivity|].
  destruct (ex_step _ _ (AppendRec (Top 0) 12) (RCode 0) H1) as (a2 & D2 & H2).
  - clear - E1. subst a1. split; [exact I|]. split; [left; reflexivity|]. left. split; [reflexivity|]. intros l _ Q. exact Q.
  - vm_compute; reflexivity.
  - exists a2. split; [exact H2|]. destruct D2 as [(_ & _ & _ & E2)|[(Q & _)|(Q & _)]]; try discriminate Q. clear - E1 E2. subst a2 a1. split; reflexivity.
Qed.
Theorem list_record_once_refuted : exists fuel lf size hgrain hoff s a l e,
  roomy fuel lf size hgrain /\ hist fuel lf size hgrain hoff s a /\ has a l /\ isrec a e = true /\ In e (seq a l) /\
  match call fuel lf hoff (AppendRec l e) s with
  | Some (r, s') => r = RCode 0 /\
      match list_len (head_of (lbase s') l) s', list_walk lf (head_of (lbase s') l) s' with
      | Some (n, _), Some (w, _) => n <> N.of_nat (length w)
      | _, _ => False
      end /\ call fuel lf hoff (Purge l) s' = None
  | None => False
  end.
Proof.
  destruct ex_rec as (a & H & Hr & Hs). exists 40%nat, 40%nat, 1000, 64, 24. eexists _, a, (Top 0), 12. split; [exact ex_roomy|]. split; [exact H|]. split; [exact I|]. split; [exact Hr|]. split; [rewrite Hs; left; reflexivity|].
  vm_compute. split; [reflexivity|]. split; [discriminate|reflexivity].
Qed.
(** Accepted by another list, it is in both.  The first is purged, its memory goes to
    the next element of that list, and the other list still has it: purging this one
    frees what belongs to the first. *)
Theorem list_record_shared_refuted : exists fuel lf size hgrain hoff s a e,
  roomy fuel lf size hgrain /\ hist fuel lf size hgrain hoff s a /\ isrec a e = true /\ seq a (Top 0) = [e] /\
  match call fuel lf hoff (AppendRec (Top 1) e) s with
  | Some (r, s1) => r = RCode 0 /\
    match call fuel lf hoff (Purge (Top 0)) s1 with
    | Some (_, s2) => call fuel lf hoff (Purge (Top 1)) s2 = None /\
      match call fuel lf hoff (AppendItem (Top 0) 9 1) s2 with
      | Some (r3, s3) => r3 = RPtr e /\ match list_walk lf (HTop 1) s3 with Some (w, _) => map (fun x => fst (fst x)) w = [value_ptr (lbase s3) e] | None => False end
      | None => False
      end
    | None => False
    end
  | None => False
  end.
Proof.
  destruct ex_rec as (a & H & Hr & Hs). exists 40%nat, 40%nat, 1000, 64, 24. eexists _, a, 12. split; [exact ex_roomy|]. split; [exact H|]. split; [exact Hr|]. split; [exact Hs|].
  vm_compute. repeat split; reflexivity.
Qed.

(** "An element has the number of values it was appended with": the count has 24 bits
    in the entry, 32 bits in the computation of the size. *)
Definition big0 : lst := match heap_init 4096 80 33554432 64 (raw plenty) with Some (_, h) => mkL 4096 h (fun _ => (0, 0, 0)) 7 | None => ex0 end.
Theorem list_count_refuted : exists fuel lf size hgrain hoff s a t c,
  hist fuel lf size hgrain hoff s a /\ legal size a (AppendItem (Top 0) t c) /\ up512 size <= W32 /\ M_Set.type_is_array t = true /\ seq a (Top 0) = [] /\
  match call fuel lf hoff (AppendItem (Top 0) t c) s with
  | Some (RPtr e, s') => match list_first (HTop 0) s' with Some (Some (v, t', c'), _) => v = value_ptr (lbase s') e /\ t' = t /\ c' <> c /\ c' = 5 | _ => False end
  | _ => False
  end.
Proof.
  exists 80%nat, 80%nat, 33554432, 64, 24, big0, (blank_abs 7), 12, 16777221. split; [|split; [repeat split; discriminate|split; [vm_compute; discriminate|split; [reflexivity|split; [reflexivity|vm_compute; repeat split; discriminate]]]]].
  assert (G : good_init 4096 33554432 64 (mem (raw plenty))) by (constructor; [vm_compute; reflexivity|vm_compute; discriminate|vm_compute; reflexivity|vm_compute; discriminate|vm_compute; discriminate|vm_compute; discriminate|vm_compute; reflexivity|intros k _; discriminate]).
  unfold big0. destruct (heap_init 4096 80 33554432 64 (raw plenty)) as [[[] h]|] eqn:E; [exact (hi_new 80 80 33554432 64 24 4096 (raw plenty) h 7 G E)|].
  exfalso. assert (Q : match heap_init 4096 80 33554432 64 (raw plenty) with Some _ => true | None => false end = true) by (vm_compute; reflexivity). rewrite E in Q. discriminate Q.
Qed.

(** C20, "a change of the data changes the data generation number": appending a record,
    removing an element and purging do not. *)
Theorem list_change_seen_refuted : exists fuel lf size hgrain hoff s a e,
  roomy fuel lf size hgrain /\ hist fuel lf size hgrain hoff s a /\ In e (seq a (Top 0)) /\ isrec a e = true /\
  match call fuel lf hoff (Remove (Top 0) e) s with
  | Some (_, s1) => dgn s1 = dgn s /\ match list_len (HTop 0) s, list_len (HTop 0) s1 with Some (n, _), Some (m, _) => m + 1 = n | _, _ => False end
  | None => False
  end /\
  match call fuel lf hoff (Purge (Top 0)) s with
  | Some (_, s1) => dgn s1 = dgn s /\ match list_len (HTop 0) s1 with Some (m, _) => m = 0 | _ => False end
  | None => False
  end.
Proof.
  destruct ex_rec as (a & H & Hr & Hs). exists 40%nat, 40%nat, 1000, 64, 24. eexists _, a, 12. split; [exact ex_roomy|]. split; [exact H|]. split; [rewrite Hs; left; reflexivity|]. split; [exact Hr|].
  split; vm_compute; split; reflexivity.
Qed.
(** It holds for what is appended with ldms_list_append_item, and no call decreases it
    but by overflow. *)
Theorem list_append_seen fuel lf size hgrain hoff s a o r s' : roomy fuel lf size hgrain -> hist fuel lf size hgrain hoff s a -> legal size a o ->
  call fuel lf hoff o s = Some (r, s') ->
  dgn s' = match o, r with AppendItem _ _ _, RPtr _ => (dgn s + 1) mod W64 | _, _ => dgn s end.
Proof.
  intros HR Hh HL E. destruct (list_calls _ _ _ _ _ _ _ _ HR Hh HL) as (r' & s2 & a' & E' & D & H'). rewrite E in E'. injection E' as <- <-. destruct HR as (Hf & Hlf & H32).
  destruct (hist_inv _ _ _ Hf H32 _ _ _ _ Hlf Hh) as (rk & R1). destruct (hist_inv _ _ _ Hf H32 _ _ _ _ Hlf H') as (rk' & R2).
  rewrite (r_gen _ _ _ _ _ _ _ _ _ R1), (r_gen _ _ _ _ _ _ _ _ _ R2). destruct o; destruct r; cbn [does] in D; try contradiction.
  - now destruct D as (z & _ & _ & ->).
  - now destruct D as (z & _ & _ & _ & ->).
  - now destruct D as (z & _ & _ & ->).
  - now destruct D as (z & _ & _ & ->).
  - now destruct D as (_ & ->).
  - now destruct D as (w & _ & _ & _ & _ & _ & ->).
  - now destruct D as [(_ & _ & _ & ->)|[(_ & _ & _ & ->)|(_ & _ & ->)]].
  - now subst a'.
  - now subst a'.
Qed.
Print Assumptions list_append_seen.
(** ldms_record_alloc does not zero the value, ldms_list_append_item does. *)
Theorem list_record_zeroed_refuted : exists fuel lf size hgrain hoff s a,
  roomy fuel lf size hgrain /\ hist fuel lf size hgrain hoff s a /\
  match call fuel lf hoff (RecAlloc 32 5) s with
  | Some (RPtr e, s') => match ld32 (value_ptr (lbase s') e + 16) s' with Some (x, _) => x <> 0 | None => False end
  | _ => False
  end.
Proof. exists 40%nat, 40%nat, 1000, 64, 24, ex0, (blank_abs 7). split; [exact ex_roomy|]. split; [exact ex_start|]. vm_compute. discriminate. Qed.
