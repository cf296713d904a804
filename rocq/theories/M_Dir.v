(** Model of the answer to a directory request,
    ldms/src/core/ldms_xprt.c:796-966 process_dir_request, with
    ldms/src/core/ldms.c:368-499 __ldms_format_set_meta_as_json.

    The text of a set before its "info" list is any text ([head]); the formatting of
    its numbers is not modelled.  The buffer is the part of the reply behind the
    headers; sizes are size_t.  What snprintf returns is an int; texts of 2 GB and more
    are not modelled.  Sending does not fail (the code goes on if it does). *)
From Verif Require Export Base.
From Coq Require Export List ZArith Ascii.
From Coq Require Import String.
Export ListNotations.
Local Open Scope Z_scope.

Notation text := (list ascii).
Definition str (s : string) : text := list_ascii_of_string s.
Definition zlen {A} (l : list A) : Z := Z.of_nat (List.length l).
Definition W := 2 ^ 64.

(** A set: the text from the opening brace to "info":[, the information of the set's
    own process and that of the process it came from, whether the asking process may
    read it (ldms_access_check returns 0) *)
Record dset := mkS { head : text; local_info : list (text * text); remote_info : list (text * text); readable : bool }.

(** The buffer: contents; [None] for a write beyond its end *)
Definition mem := Z -> ascii.
Definition write (m : mem) (off : Z) (t : text) : mem :=
  fun i => if (off <=? i) && (i <? off + zlen t) then nth (Z.to_nat (i - off)) t zero else m i.
(** snprintf at [off] with [size], in a buffer of [cap] bytes *)
Definition snprintf (cap : Z) (m : mem) (off size : Z) (t : text) : option (mem * Z) :=
  if size =? 0 then Some (m, zlen t)
  else let w := firstn (Z.to_nat (Z.min (size - 1) (zlen t))) t ++ [zero] in
    if off + zlen w <=? cap then Some (write m off w, zlen t) else None.

(** ldms.c:468-470, 485-487 *)
Definition pair_text (p : text * text) : text := str "{""key"":""" ++ fst p ++ str """,""value"":""" ++ snd p ++ str """}".
Definition teq (a b : text) : bool := if list_eq_dec ascii_dec a b then true else false.
(** ldms.c:477: the remote information that is not overridden *)
Definition shown (s : dset) : list (text * text) :=
  local_info s ++ filter (fun p => negb (existsb (fun q => teq (fst p) (fst q)) (local_info s))) (remote_info s).
Fixpoint info_pieces (comma : bool) (l : list (text * text)) : list text :=
  match l with [] => [] | p :: l => (if comma then [str ","] else []) ++ pair_text p :: info_pieces true l end.
(** ldms.c:421-498: what is printed one after another *)
Definition pieces (comma : bool) (s : dset) : list text :=
  ((if comma then ","%char else " "%char) :: head s) :: info_pieces false (shown s) ++ [str "]}"].
(** ... until the buffer is full; the result is the count *)
Fixpoint print (cap : Z) (m : mem) (off size cnt : Z) (l : list text) : option (mem * Z) :=
  match l with
  | [] => Some (m, cnt)
  | t :: l =>
      match snprintf cap m (off + cnt) (size - cnt) t with
      | None => None
      | Some (m, k) => if size <=? cnt + k then Some (m, cnt + k) else print cap m off size (cnt + k) l
      end
  end.

(** A reply: rc, more, the text *)
Record reply := mkR { rc : Z; more : bool; json : text }.
Definition take (m : mem) (n : Z) : text := map (fun i => m (Z.of_nat i)) (seq 0 (Z.to_nat n)).
(** The rest of the answer is replaced by an error reply (949-966) *)
Definition failed (rc : Z) : reply := mkR rc false [].
Inductive placed := Full (m : mem) (cnt : Z) (sent : list reply) | Out (rc : Z) (sent : list reply) | Overrun (sent : list reply) | Fuel (sent : list reply).
Definition HDR : text := str "{ ""directory"" : [".

(** 868-924: one set, with the label "restart" *)
Fixpoint place (fuel : nat) (cap : Z) (s : dset) (m : mem) (cnt : Z) (last : bool) (sent : list reply) : placed :=
  match fuel with
  | O => Fuel sent
  | S fuel =>
    let last_cnt := cnt in
    match (if cnt =? 0 then snprintf cap m 0 cap HDR else Some (m, cnt)) with
    | None => Overrun sent
    | Some (m, cnt) =>
      if (last_cnt =? 0) && (cap <=? cnt) then Out ENOMEM sent
      else match (if readable s then print cap m cnt ((cap - cnt - 3) mod W) 0 (pieces (negb (last_cnt =? 0)) s) else Some (m, 0)) with
      | None => Overrun sent
      | Some (m, k) =>
        let cnt := cnt + k in
        if (cap - 3) mod W <=? cnt then
          match snprintf cap m last_cnt ((cap - last_cnt) mod W) (str "]}") with
          | None => Overrun sent
          | Some (m, k) =>
            let last_cnt := last_cnt + k in
            if cap <=? last_cnt then Out 0 sent
            else place fuel cap s m 0 last (sent ++ [mkR 0 true (take m last_cnt)])
          end
        else if last then
          match snprintf cap m cnt ((cap - last_cnt - 3) mod W) (str "]}") with
          | None => Overrun sent
          | Some (m, k) =>
            let cnt := cnt + k in
            if (cap - 3) mod W <=? cnt then Out ENOMEM sent
            else Full m cnt (sent ++ [mkR 0 false (take m cnt)])
          end
        else Full m cnt sent
      end
    end
  end.
(** 859-926: the loop over the names; [None]: the set is gone (866) *)
Fixpoint all_sets (fuel : nat) (cap : Z) (l : list (option dset)) (m : mem) (cnt : Z) (sent : list reply) : placed :=
  match l with
  | [] => Full m cnt sent
  | None :: l => all_sets fuel cap l m cnt sent
  | Some s :: l =>
      match place fuel cap s m cnt (match l with [] => true | _ => false end) sent with
      | Full m cnt sent => all_sets fuel cap l m cnt sent
      | r => r
      end
  end.
(** What was sent when the function returns; [Stuck]: it has not after [fuel] restarts
    for one set, [Bad]: it has written beyond the buffer *)
Inductive answer := Sent (l : list reply) | Stuck (l : list reply) | Bad (l : list reply).
(** 796-966; [len]: ldms_xprt_msg_max, [hdr]: the two headers.  [m]: what malloc
    returned *)
Definition dir_request (fuel : nat) (len hdr : Z) (m : mem) (l : list (option dset)) : answer :=
  let cap := (len - hdr) mod W in
  match l with
  | [] =>
      match snprintf cap m 0 cap (str "{ ""directory"" : []}") with
      | None => Bad []
      | Some (m, cnt) => if len <=? cnt then Sent [failed ENOMEM] else Sent [mkR 0 false (take m cnt)]
      end
  | _ =>
      match all_sets fuel cap l m 0 [] with
      | Full _ _ sent => Sent sent
      | Out rc sent => Sent (sent ++ [failed rc])
      | Overrun sent => Bad sent
      | Fuel sent => Stuck sent
      end
  end.
