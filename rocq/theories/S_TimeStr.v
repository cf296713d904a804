(** What times in configuration texts should mean. *)
From Verif Require Export M_TimeStr.
From Coq Require Import QArith.
Local Open Scope N_scope.

(** The units of the comment above ovis_time_str2us and their names in full, with their
    microseconds. *)
Definition units_us : list (text * N) :=
  [([], 1); ([117; 115], 1); ([109; 115], 1000); ([115], 1000000); ([109], 60000000); ([104], 3600000000); ([100], 86400000000);
   ([109; 105; 99; 114; 111; 115; 101; 99; 111; 110; 100; 115], 1);            (* microseconds *)
   ([109; 105; 108; 108; 105; 115; 101; 99; 111; 110; 100; 115], 1000);        (* milliseconds *)
   ([115; 101; 99; 111; 110; 100; 115], 1000000);                              (* seconds *)
   ([109; 105; 110; 117; 116; 101; 115], 60000000);                            (* minutes *)
   ([104; 111; 117; 114; 115], 3600000000);                                    (* hours *)
   ([100; 97; 121; 115], 86400000000)].                                        (* days *)
(** The units of ldmsd_timespec_from_str in nanoseconds; case does not matter. *)
Definition units_ns : list (text * N) := [([], 1000); ([115], 1000000000); ([109; 115], 1000000); ([117; 115], 1000); ([110; 115], 1)].
Definition is_number (ds : text) : Prop := ds <> [] /\ Forall (fun c => isdigit c = true) ds.
(** A time: a number, perhaps with decimals, perhaps some spaces, a unit. *)
Definition time (ip fp : text) (spaces : nat) (u : text) : text :=
  ip ++ match fp with [] => [] | _ => 46 :: fp end ++ repeat 32 spaces ++ u.
(** It is [E] microseconds exactly. *)
Definition denotes (ip fp : text) (f E : N) : Prop := digits (ip ++ fp) * f = E * 10 ^ N.of_nat (length fp).
(** A normalised timespec and its nanoseconds *)
Definition normal (t : tspec) : Prop := (0 <= ts_nsec t < 1000000000)%Z.
Definition ns (t : tspec) : Z := (ts_sec t * 1000000000 + ts_nsec t)%Z.
