(** Theorems about command substitution in configuration values (C43). *)
From Verif Require Import L_Cmd.
From Verif Require Export S_Cmd.
From Coq Require Import List Lia String Ascii.
Import ListNotations.
Local Open Scope N_scope.

(** Text without commands is returned as it is, whatever its length. *)
Theorem cmd_plain sh junk l : plain l -> ~ In 0 l -> l <> [] -> N.of_nat (List.length l) < 2 ^ 62 ->
  str_repl_cmd sh junk l = CRes (Some l).
Proof. exact (plain_ok sh junk l). Qed.
Print Assumptions cmd_plain.

(** Texts and commands alternate, the commands with balanced parentheses: each is
    replaced by what it prints, in one line.  What is missing: texts and outputs that
    are larger than the first buffer, texts that end with a space before a command, a
    command at the very beginning; see below. *)
Theorem cmd_subst_partial sh junk segs outs last :
  Forall (fun s => plain (fst s) /\ firm (fst s) /\ balanced (snd s) /\ ~ In 0 (fst s)) segs -> plain last -> ~ In 0 last ->
  map (fun s => sh (snd s)) segs = map Some outs -> Forall (fun o => ~ In 0 o) outs ->
  match segs with (lit, _) :: _ => lit <> [] | [] => last <> [] end ->
  (volume segs outs last <= 4095)%nat ->
  str_repl_cmd sh junk (render segs last) = CRes (Some (result segs outs last)).
Proof. exact (subst_ok sh junk segs outs last). Qed.
Print Assumptions cmd_subst_partial.

(** A command that is not closed is an error. *)
Theorem cmd_unmatched_partial sh junk lit cmd : plain lit -> (List.length lit <= 4095)%nat ->
  (forall a r, balanced a -> cmd <> a ++ 41 :: r) -> str_repl_cmd sh junk (lit ++ 36 :: 40 :: cmd) = CRes None.
Proof. intros H1 H2 H3. apply unmatched_ok; [exact H1|exact H2|]. now apply matching_none. Qed.
Print Assumptions cmd_unmatched_partial.

(** ** Cases meeting the hypotheses *)
Definition txt (s : string) : list byte := map N_of_ascii (list_ascii_of_string s).
Definition rep (n : nat) (c : byte) : list byte := repeat c n.
Definition nojunk : N -> byte := fun _ => 170.
(** a shell for the examples *)
Definition sh1 (cmd : list byte) : option (list byte) :=
  if list_eq_dec N.eq_dec cmd (txt "hostname") then Some (txt "orion-08" ++ [10])
  else if list_eq_dec N.eq_dec cmd (txt "(a) | sort \)") then Some (txt "x " ++ [10; 10] ++ txt " y  z " ++ [10; 32])
  else Some [].
Example ex_cmd : str_repl_cmd sh1 nojunk (txt "h=$(hostname)/p l=$((a) | sort \)) end ") = CRes (Some (txt "h=orion-08/p l=x  y  z end ")).
Proof. vm_compute. reflexivity. Qed.
Example ex_cmd_hyps : str_repl_cmd sh1 nojunk (render [(txt "h=", txt "hostname"); (txt "/p l=", txt "(a) | sort \)")] (txt " end ")) =
  CRes (Some (result [(txt "h=", txt "hostname"); (txt "/p l=", txt "(a) | sort \)")] [txt "orion-08" ++ [10]; txt "x " ++ [10; 10] ++ txt " y  z " ++ [10; 32]] (txt " end "))).
Proof.
  assert (NZ : forall l, existsb (N.eqb 0) l = false -> ~ In 0 l).
  { intros l H K. rewrite (proj2 (existsb_exists (N.eqb 0) l)) in H; [discriminate|]. now exists 0. }
  apply cmd_subst_partial; [..|vm_compute; lia].
  - constructor; [|constructor; [|constructor]]; cbn [fst snd]; (split; [apply plain_check; reflexivity|]); (split; [reflexivity|]); (split; [|apply NZ; reflexivity]).
    + repeat (apply ba_char; [discriminate|discriminate|discriminate|]). constructor.
    + apply (ba_paren [97] (txt " | sort \)")); repeat (apply ba_char; [discriminate|discriminate|discriminate|]); [constructor|]. apply ba_esc. constructor.
  - apply plain_check. reflexivity.
  - apply NZ. reflexivity.
  - reflexivity.
  - constructor; [|constructor; [|constructor]]; apply NZ; reflexivity.
  - discriminate.
Qed.
Example ex_unmatched : str_repl_cmd sh1 nojunk (txt "a $(b (c) \)") = CRes None.
Proof. vm_compute. reflexivity. Qed.

(** ** What is false *)
(** The empty string: the result is not terminated. *)
Theorem cmd_empty_refuted : exists junk, str_repl_cmd sh1 junk [] = CWild.
Proof. exists nojunk. vm_compute. reflexivity. Qed.
(** A command at the beginning that prints nothing: memory before the buffer is read. *)
Theorem cmd_first_refuted : exists junk, str_repl_cmd sh1 junk (txt "$(true)") = CWild.
Proof. exists nojunk. vm_compute. reflexivity. Qed.
(** Spaces of the text before a command are lost when the command prints nothing ... *)
Theorem cmd_spaces_refuted : exists junk, str_repl_cmd sh1 junk (txt "a $(true)b") = CRes (Some (txt "ab")).
Proof. exists nojunk. vm_compute. reflexivity. Qed.
(** ... which can join two attributes. *)
Theorem cmd_attributes_refuted : exists junk, str_repl_cmd sh1 junk (txt "A=1 $(true)B=2") = CRes (Some (txt "A=1B=2")).
Proof. exists nojunk. vm_compute. reflexivity. Qed.
(** After a text of 4096 bytes the output of a command is dropped without an error ... *)
Definition sh2 (_ : list byte) : option (list byte) := Some (txt "out").
Theorem cmd_long_dropped_refuted : exists junk l, str_repl_cmd sh2 junk (l ++ txt "$(x)") = CRes (Some l).
Proof. exists nojunk, (rep 4096 97). vm_compute. reflexivity. Qed.
(** ... and another text of that length is written beyond the buffer. *)
Theorem cmd_long_overflow_refuted : exists junk l, str_repl_cmd sh2 junk (l ++ txt "$(x)" ++ l) = CWild.
Proof. exists nojunk, (rep 4096 97). vm_compute. reflexivity. Qed.
(** A long output, and a short text behind it, suffice: the available length wraps
    around, and whatever comes after it is written beyond the buffer. *)
Definition sh3 (cmd : list byte) : option (list byte) :=
  if list_eq_dec N.eq_dec cmd (txt "long") then Some (rep 4090 98) else Some (txt "out").
Theorem cmd_output_dropped_refuted : exists junk,
  str_repl_cmd sh3 junk (txt "a=$(long) b=1 c=$(x)") = CRes (Some (txt "a=" ++ rep 4090 98 ++ txt " b=1 c=")).
Proof. exists nojunk. vm_compute. reflexivity. Qed.
Theorem cmd_output_overflow_refuted : exists junk l, str_repl_cmd sh3 junk (txt "a=$(long) b=1 c=$(x)" ++ l) = CWild.
Proof. exists nojunk, (rep 4200 97). vm_compute. reflexivity. Qed.
(** Spaces inside a line are lost when they are at the end of the buffer. *)
Definition sh4 (_ : list byte) : option (list byte) := Some (txt "bbb  c").
Theorem cmd_inner_spaces_refuted : exists junk l, str_repl_cmd sh4 junk (l ++ txt "$(x)") = CRes (Some (l ++ txt "bbb c")) /\ tidy (txt "bbb  c") = txt "bbb  c".
Proof. exists nojunk, (rep 4090 97). split; vm_compute; reflexivity. Qed.
