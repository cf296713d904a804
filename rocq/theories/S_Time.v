(** What arithmetic on times should do: a time is an instant. *)
From Verif Require Export M_Time.
Local Open Scope Z_scope.

(** Microsecond times with 32-bit seconds, nanosecond times with seconds of less
    than 2^62 (so that sums are defined) *)
Definition utime (t : time) : Prop := 0 <= sec t < 4294967296 /\ 0 <= frac t < 1000000.
Definition ntime (t : time) : Prop := -4611686018427387904 <= sec t < 4611686018427387904 /\ 0 <= frac t < 1000000000.
(** Times of day a clock can show until the year 2262 *)
Definition clock (t : time) : Prop := 0 <= sec t < 9223372036 /\ 0 <= frac t < 1000000000.
Definition us (t : time) : Z := sec t * 1000000 + frac t.
Definition ns (t : time) : Z := sec t * 1000000000 + frac t.
