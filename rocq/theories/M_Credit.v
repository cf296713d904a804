(** Model of the send credits and the rate limit of a rail endpoint:
    ldms/src/core/ldms_rail.c:905-1040 and their use in
    ldms/src/core/ldms_stream.c:205-293.

    Threads interleave at every atomic instruction (one transition per
    __atomic_* operation; the thread-local comparisons following a load or a
    failed compare-exchange are part of the same transition).  Memory order is
    SEQ_CST in the code, so interleaving semantics applies.  Credits are
    uint64_t: additions wrap at 2^64 explicitly. *)
From Verif Require Export Base.
From Coq Require Export NArith ZifyBool ZifyNat ZifyN.
Local Open Scope N_scope.

Definition two64 : N := 18446744073709551616.
Definition UNLIMITED : N := 18446744073709551615. (* ldms_rail.h __RAIL_UNLIMITED, (uint64_t)-1 *)

(** * Send credits *)

(** Which caller: __rail_send (ldms_rail.c:1012) gives the credit back when the
    transport refuses, __rep_publish (ldms_stream.c:205) does not. *)
Inductive caller := Sender | Publisher.

Inductive tstate :=
| Idle
| Cas (v0 n : N) (k : caller)   (* loaded v0 >= n, about to compare-exchange *)
| Hold (n : N) (k : caller)     (* credit taken, transport call in progress *)
| Rel (n : N).                  (* __credit_release: loaded, about to add *)

Record cstate := mkC {
  credit : N;          (* rep->send_credit *)
  threads : list tstate;
  flight : N           (* ghost: bytes handed to the transport, credit not yet returned *)
}.

Fixpoint upd (l : list tstate) (i : nat) (t : tstate) : list tstate :=
  match l, i with
  | [], _ => []
  | _ :: l', O => t :: l'
  | x :: l', S i' => x :: upd l' i' t
  end.

(** What an observer sees: a send refused with ENOBUFS, a message handed to the
    transport, credit returned by the peer, a publish whose transport call failed. *)
Inductive event := Tau | Refused (i : nat) (n : N) | Sent (i : nat) (n : N)
| Returned (i : nat) (n : N) | PublishFailed (i : nat) (n : N).

(** ldms_rail.c:910-925 __credit_acquire after having read [v]: refuse or try.
    (Line 915: UNLIMITED is only tested on the first load.) *)
Definition after_read (s : cstate) (i : nat) (v n : N) (k : caller) : cstate * event :=
  if N.ltb v n then (mkC (credit s) (upd (threads s) i Idle) (flight s), Refused i n)
  else (mkC (credit s) (upd (threads s) i (Cas v n k)) (flight s), Tau).

Inductive cstep : cstate -> event -> cstate -> Prop :=
(** __credit_acquire, first load (ldms_rail.c:914-916) *)
| cs_load s i n k : nth_error (threads s) i = Some Idle -> n < two64 ->
    credit s <> UNLIMITED ->
    cstep s (snd (after_read s i (credit s) n k)) (fst (after_read s i (credit s) n k))
| cs_load_unlimited s i n k : nth_error (threads s) i = Some Idle -> n < two64 ->
    credit s = UNLIMITED ->
    cstep s Tau (mkC (credit s) (upd (threads s) i (Hold n k)) (flight s))
(** compare-exchange succeeds (920-922) *)
| cs_cas s i v n k : nth_error (threads s) i = Some (Cas v n k) -> credit s = v ->
    cstep s Tau (mkC (v - n) (upd (threads s) i (Hold n k)) (flight s))
(** compare-exchange fails and reloads v0 (921-924) *)
| cs_cas_fail s i v n k : nth_error (threads s) i = Some (Cas v n k) -> credit s <> v ->
    cstep s (snd (after_read s i (credit s) n k)) (fst (after_read s i (credit s) n k))
(** ldms_xprt_send / __part_send succeeded *)
| cs_sent s i n k : nth_error (threads s) i = Some (Hold n k) ->
    cstep s (Sent i n) (mkC (credit s) (upd (threads s) i Idle) (flight s + n))
(** transport (or, for either caller, the rate limit) refused: the sender runs
    __credit_release (ldms_rail.c:1028-1036), whose load is line 934 *)
| cs_abort s i n : nth_error (threads s) i = Some (Hold n Sender) ->
    cstep s Tau (mkC (credit s)
      (upd (threads s) i (if N.eqb (credit s) UNLIMITED then Idle else Rel n)) (flight s))
(** rate limit refused a publisher: __credit_release (ldms_stream.c:219-223) *)
| cs_rate_abort s i n : nth_error (threads s) i = Some (Hold n Publisher) ->
    cstep s Tau (mkC (credit s)
      (upd (threads s) i (if N.eqb (credit s) UNLIMITED then Idle else Rel n)) (flight s))
(** transport refused a publisher: __rep_publish returns the error without
    releasing (ldms_stream.c:239-244) *)
| cs_publish_fail s i n : nth_error (threads s) i = Some (Hold n Publisher) ->
    cstep s (PublishFailed i n) (mkC (credit s) (upd (threads s) i Idle) (flight s))
(** the peer returns credit for bytes it received: __rail_process_send_credit
    (ldms_rail.c:1315-1324) calls __credit_release, whose load is line 934.
    Assumes an honest peer: it never returns more than it was sent *)
| cs_return s i n : nth_error (threads s) i = Some Idle -> n <= flight s ->
    cstep s (Returned i n) (mkC (credit s)
      (upd (threads s) i (if N.eqb (credit s) UNLIMITED then Idle else Rel n)) (flight s - n))
(** __atomic_add_fetch (ldms_rail.c:937) *)
| cs_add s i n : nth_error (threads s) i = Some (Rel n) ->
    cstep s Tau (mkC ((credit s + n) mod two64) (upd (threads s) i Idle) (flight s)).

(** ldms_rail.c:1301 / 700: the credit starts at the peer's receive limit. *)
Definition cinit (limit : N) (nthreads : nat) : cstate :=
  mkC limit (repeat Idle nthreads) 0.

(** * Rate limit: ldms_rail.c:940-995 *)

Inductive rtstate :=
| RIdle
| RLoadedSec (n sec : N)                     (* loaded ts.tv_sec (951) *)
| RLoadedBoth (n sec v0 : N)                 (* loaded credit (952) *)
| RReset (n sec v0 now : N)                  (* second changed; about to CAS credit (958) *)
| RStamp (n sec now : N)                     (* credit reset; about to CAS tv_sec (963) *)
| RTake (n v0 now : N).                      (* about to CAS credit v0 -> v0-n (974) *)

Record rstate := mkR {
  rcredit : N; rsec : N;       (* c->credit, c->ts.tv_sec *)
  rthreads : list rtstate;
  clock : N                    (* CLOCK_REALTIME seconds, does not go back *)
}.

Fixpoint rupd (l : list rtstate) (i : nat) (t : rtstate) : list rtstate :=
  match l, i with
  | [], _ => []
  | _ :: l', O => t :: l'
  | x :: l', S i' => x :: rupd l' i' t
  end.

Inductive revent := RTau | RRefused | Admitted (second n : N).

(** [R] is c->rate, not UNLIMITED. *)
Inductive rstep (R : N) : rstate -> revent -> rstate -> Prop :=
| rs_tick s t : clock s <= t -> rstep R s RTau (mkR (rcredit s) (rsec s) (rthreads s) t)
| rs_load_sec s i n : nth_error (rthreads s) i = Some RIdle ->
    rstep R s RTau (mkR (rcredit s) (rsec s) (rupd (rthreads s) i (RLoadedSec n (rsec s))) (clock s))
| rs_load_credit s i n sec : nth_error (rthreads s) i = Some (RLoadedSec n sec) ->
    rstep R s RTau (mkR (rcredit s) (rsec s) (rupd (rthreads s) i (RLoadedBoth n sec (rcredit s))) (clock s))
(** clock_gettime (953), then 956 or 971-973 *)
| rs_clock_new s i n sec v0 : nth_error (rthreads s) i = Some (RLoadedBoth n sec v0) -> sec < clock s ->
    rstep R s RTau (mkR (rcredit s) (rsec s) (rupd (rthreads s) i (RReset n sec v0 (clock s))) (clock s))
| rs_clock_same s i n sec v0 : nth_error (rthreads s) i = Some (RLoadedBoth n sec v0) -> clock s <= sec -> n <= v0 ->
    rstep R s RTau (mkR (rcredit s) (rsec s) (rupd (rthreads s) i (RTake n v0 (clock s))) (clock s))
| rs_clock_refuse s i n sec v0 : nth_error (rthreads s) i = Some (RLoadedBoth n sec v0) -> clock s <= sec -> v0 < n ->
    rstep R s RRefused (mkR (rcredit s) (rsec s) (rupd (rthreads s) i RIdle) (clock s))
(** CAS credit v0 -> rate (958-961) *)
| rs_reset s i n sec v0 now : nth_error (rthreads s) i = Some (RReset n sec v0 now) -> rcredit s = v0 ->
    rstep R s RTau (mkR R (rsec s) (rupd (rthreads s) i (RStamp n sec now)) (clock s))
| rs_reset_fail s i n sec v0 now : nth_error (rthreads s) i = Some (RReset n sec v0 now) -> rcredit s <> v0 ->
    rstep R s RTau (mkR (rcredit s) (rsec s) (rupd (rthreads s) i (RLoadedSec n (rsec s))) (clock s))
(** CAS tv_sec (963-966); on success v0 = rate (968) *)
| rs_stamp s i n sec now : nth_error (rthreads s) i = Some (RStamp n sec now) -> rsec s = sec -> n <= R ->
    rstep R s RTau (mkR (rcredit s) now (rupd (rthreads s) i (RTake n R now)) (clock s))
| rs_stamp_refuse s i n sec now : nth_error (rthreads s) i = Some (RStamp n sec now) -> rsec s = sec -> R < n ->
    rstep R s RRefused (mkR (rcredit s) now (rupd (rthreads s) i RIdle) (clock s))
| rs_stamp_fail s i n sec now : nth_error (rthreads s) i = Some (RStamp n sec now) -> rsec s <> sec ->
    rstep R s RTau (mkR (rcredit s) (rsec s) (rupd (rthreads s) i (RLoadedSec n (rsec s))) (clock s))
(** CAS credit v0 -> v0-n (974-979) *)
| rs_take s i n v0 now : nth_error (rthreads s) i = Some (RTake n v0 now) -> rcredit s = v0 ->
    rstep R s (Admitted now n) (mkR (v0 - n) (rsec s) (rupd (rthreads s) i RIdle) (clock s))
| rs_take_fail s i n v0 now : nth_error (rthreads s) i = Some (RTake n v0 now) -> rcredit s <> v0 ->
    rstep R s RTau (mkR (rcredit s) (rsec s) (rupd (rthreads s) i (RLoadedSec n (rsec s))) (clock s)).

(** ldms_rail.c:701-703: credit = rate, tv_sec = 0. *)
Definition rinit (R : N) (nthreads : nat) : rstate := mkR R 0 (repeat RIdle nthreads) 0.

(** ** Calls that do not overlap: one acquire or release at a time *)

Record qstate := mkQ { qcredit : N; qsec : N }.

(** __rate_credit_acquire run alone at second [now]: None = ENOBUFS *)
Definition q_acquire (R : N) (s : qstate) (now n : N) : option qstate * qstate :=
  let s1 := if N.ltb (qsec s) now then mkQ R now else s in
  if N.ltb (qcredit s1) n then (None, s1) else
  let s2 := mkQ (qcredit s1 - n) (qsec s1) in (Some s2, s2).

(** ldms_rail.c:982-995 __rate_credit_release run alone at second [now] *)
Definition q_release (s : qstate) (now n : N) : qstate :=
  if N.eqb (qsec s) now then mkQ ((qcredit s + n) mod two64) (qsec s) else s.
