(** Model of the translation of configuration command lines into request
    records: ldms/src/ldmsd/ldmsd_request_util.c.

    Strings are lists of non-zero bytes (C strings without the terminator). *)
From Verif Require Export M_Request.
From Coq Require Import Ascii String.
Local Open Scope list_scope.

Fixpoint s2b (s : string) : list byte :=
  match s with
  | EmptyString => []
  | String a s' => N_of_ascii a :: s2b s'
  end.

(** ldmsd_request_util.c:64-161 req_str_id_table, ids from enum ldmsd_request (ldmsd_request.h:73-200) *)
Definition req_table : list (list byte * N) :=
  map (fun p => (s2b (fst p), snd p)) [
    ("auth_add"%string, 2560%N);
    ("auth_del"%string, 2561%N);
    ("banner"%string, 1566%N);
    ("bridge_add"%string, 268%N);
    ("bridge_del"%string, 257%N);
    ("bridge_start"%string, 258%N);
    ("bridge_stop"%string, 259%N);
    ("config"%string, 1287%N);
    ("daemon"%string, 1539%N);
    ("daemon_exit"%string, 1545%N);
    ("daemon_name"%string, 1562%N);
    ("daemon_status"%string, 1539%N);
    ("default_auth"%string, 1558%N);
    ("default_credits"%string, 1564%N);
    ("dump_cfg"%string, 4%N);
    ("env"%string, 1541%N);
    ("exit"%string, 1545%N);
    ("failover_config"%string, 1792%N);
    ("failover_peercfg_start"%string, 1793%N);
    ("failover_peercfg_stop"%string, 1794%N);
    ("failover_start"%string, 1904%N);
    ("failover_status"%string, 1796%N);
    ("failover_stop"%string, 1905%N);
    ("greeting"%string, 2%N);
    ("include"%string, 1542%N);
    ("listen"%string, 1552%N);
    ("load"%string, 1285%N);
    ("log_file"%string, 1560%N);
    ("log_level"%string, 1538%N);
    ("log_status"%string, 1556%N);
    ("loglevel"%string, 1538%N);
    ("logrotate"%string, 1544%N);
    ("memory"%string, 1559%N);
    ("metric_sets_default_authz"%string, 1553%N);
    ("oneshot"%string, 1543%N);
    ("option"%string, 1554%N);
    ("pid_file"%string, 1565%N);
    ("plugn_sets"%string, 1289%N);
    ("plugn_status"%string, 1284%N);
    ("prdcr_add"%string, 256%N);
    ("prdcr_del"%string, 257%N);
    ("prdcr_hint_tree"%string, 264%N);
    ("prdcr_set_status"%string, 263%N);
    ("prdcr_start"%string, 258%N);
    ("prdcr_start_regex"%string, 261%N);
    ("prdcr_stats"%string, 1550%N);
    ("prdcr_status"%string, 260%N);
    ("prdcr_stop"%string, 259%N);
    ("prdcr_stop_regex"%string, 262%N);
    ("prdcr_stream_status"%string, 267%N);
    ("prdcr_subscribe"%string, 265%N);
    ("prdcr_unsubscribe"%string, 266%N);
    ("publish_kernel"%string, 1561%N);
    ("set_memory"%string, 1559%N);
    ("set_route"%string, 1547%N);
    ("set_sec_mod"%string, 1555%N);
    ("set_stats"%string, 1551%N);
    ("setgroup_add"%string, 2048%N);
    ("setgroup_del"%string, 2050%N);
    ("setgroup_ins"%string, 2051%N);
    ("setgroup_rm"%string, 2052%N);
    ("start"%string, 1282%N);
    ("stop"%string, 1283%N);
    ("stream_client_dump"%string, 2307%N);
    ("stream_status"%string, 2309%N);
    ("strgp_add"%string, 512%N);
    ("strgp_del"%string, 513%N);
    ("strgp_metric_add"%string, 519%N);
    ("strgp_metric_del"%string, 520%N);
    ("strgp_prdcr_add"%string, 517%N);
    ("strgp_prdcr_del"%string, 518%N);
    ("strgp_start"%string, 514%N);
    ("strgp_status"%string, 516%N);
    ("strgp_stop"%string, 515%N);
    ("subscribe"%string, 2305%N);
    ("term"%string, 1286%N);
    ("thread_stats"%string, 1549%N);
    ("udata"%string, 1536%N);
    ("udata_regex"%string, 1537%N);
    ("update_time_stats"%string, 779%N);
    ("updtr_add"%string, 768%N);
    ("updtr_del"%string, 769%N);
    ("updtr_match_add"%string, 775%N);
    ("updtr_match_del"%string, 776%N);
    ("updtr_match_list"%string, 778%N);
    ("updtr_prdcr_add"%string, 773%N);
    ("updtr_prdcr_del"%string, 774%N);
    ("updtr_start"%string, 770%N);
    ("updtr_status"%string, 772%N);
    ("updtr_stop"%string, 771%N);
    ("updtr_task"%string, 777%N);
    ("usage"%string, 1288%N);
    ("version"%string, 1540%N);
    ("worker_threads"%string, 1563%N);
    ("xprt_stats"%string, 1548%N)
  ].

(** ldmsd_request_util.c:164-210 attr_str_id_table, ids from enum ldmsd_request_attr (ldmsd_request.h:202-248) *)
Definition attr_table : list (list byte * N) :=
  map (fun p => (s2b (fst p), snd p)) [
    ("auth"%string, 35%N);
    ("auto_interval"%string, 31%N);
    ("auto_switch"%string, 28%N);
    ("base"%string, 18%N);
    ("container"%string, 13%N);
    ("credits"%string, 39%N);
    ("decomposition"%string, 37%N);
    ("flush"%string, 2%N);
    ("gid"%string, 33%N);
    ("host"%string, 9%N);
    ("incr"%string, 19%N);
    ("instance"%string, 7%N);
    ("interval"%string, 2%N);
    ("interval_us"%string, 2%N);
    ("level"%string, 20%N);
    ("match"%string, 11%N);
    ("metric"%string, 15%N);
    ("mode"%string, 20%N);
    ("name"%string, 1%N);
    ("num"%string, 42%N);
    ("offset"%string, 3%N);
    ("path"%string, 21%N);
    ("peer_name"%string, 29%N);
    ("perm"%string, 27%N);
    ("plugin"%string, 12%N);
    ("port"%string, 10%N);
    ("producer"%string, 6%N);
    ("push"%string, 23%N);
    ("rail"%string, 38%N);
    ("reconnect"%string, 2%N);
    ("regex"%string, 4%N);
    ("reset"%string, 36%N);
    ("rx_rate"%string, 40%N);
    ("schema"%string, 14%N);
    ("size"%string, 42%N);
    ("stream"%string, 34%N);
    ("string"%string, 16%N);
    ("summary"%string, 41%N);
    ("test"%string, 24%N);
    ("time"%string, 22%N);
    ("timeout_factor"%string, 30%N);
    ("type"%string, 5%N);
    ("udata"%string, 17%N);
    ("uid"%string, 32%N);
    ("xprt"%string, 8%N)
  ].

(** strcmp on C strings (unsigned bytes; the terminator compares lowest). *)
Fixpoint strcmp (a b : list byte) : comparison :=
  match a, b with
  | [], [] => Eq
  | [], _ :: _ => Lt
  | _ :: _, [] => Gt
  | x :: a', y :: b' => match N.compare x y with Eq => strcmp a' b' | c => c end
  end.

(** bsearch(3) as in glibc: [lo, hi) halved until the key is met. *)
Fixpoint bsearch (fuel : nat) (t : list (list byte * N)) (key : list byte) (lo hi : nat)
  : option N :=
  match fuel with
  | O => None
  | S fuel' =>
    if Nat.ltb lo hi then
      let mid := ((lo + hi) / 2)%nat in
      match nth_error t mid with
      | None => None
      | Some (k, v) =>
        match strcmp key k with
        | Lt => bsearch fuel' t key lo mid
        | Gt => bsearch fuel' t key (S mid) hi
        | Eq => Some v
        end
      end
    else None
  end.

(** ldmsd_request_util.c:217-226 ldmsd_req_str2id; None is LDMSD_NOTSUPPORT_REQ *)
Definition req_str2id (verb : list byte) : option N :=
  bsearch (List.length req_table) req_table verb 0 (List.length req_table).
(** ldmsd_request_util.c:228-237 ldmsd_req_attr_str2id; None is -1 *)
Definition attr_str2id (name : list byte) : option N :=
  bsearch (List.length attr_table) attr_table name 0 (List.length attr_table).

(** An attribute: id and value; [None] is a keyword (no value bytes),
    [Some v] is stored with its terminating NUL. *)
Notation attr := (N * option (list N))%type.

(** struct ldmsd_req_attr_s (ldmsd_request.h:370-384, packed) as written by
    add_attr_from_attr_str, ldmsd_request_util.c:396-415: discrim 1, id, length. *)
Definition attr_bytes (a : attr) : list byte :=
  match snd a with
  | None => be32 1 ++ be32 (fst a) ++ be32 0
  | Some v => be32 1 ++ be32 (fst a) ++ be32 (N.of_nat (List.length v + 1)) ++ v ++ [0%N]
  end.
(** ldmsd_request_util.c:411-412: the terminating discriminator *)
Definition term_bytes : list byte := be32 0.

(** ldmsd_request_util.c:359-420 add_attr_from_attr_str for a named attribute:
    EINVAL for an unknown name.  The request buffer is modelled as the list of
    attributes appended so far; the doubling loop 389-398 always makes room. *)
Definition add_attr (name : list byte) (value : option (list byte)) (acc : list attr)
  : Z + list attr :=
  match attr_str2id name with
  | None => inl EINVAL
  | Some id => inr (acc ++ [(id, value)])
  end.
Definition ATTR_STRING : N := 16.

(** strchr(av, '=') split: ldmsd_request_util.c:422-443 __get_attr_name_value *)
Fixpoint name_value (w : list byte) : list byte * option (list byte) :=
  match w with
  | [] => ([], None)
  | c :: w' => if N.eqb c 61 then ([], Some w')
               else let '(n, v) := name_value w' in (c :: n, v)
  end.

(** strtok_r(av, " \t", &ptr) iterated: maximal runs without delimiters. *)
Definition is_delim (c : byte) : bool := (N.eqb c 32 || N.eqb c 9)%bool.
Fixpoint tokens_aux (cur l : list byte) : list (list byte) :=
  match l with
  | [] => match cur with [] => [] | _ => [cur] end
  | c :: l' =>
    if is_delim c then
      match cur with [] => tokens_aux [] l' | _ => cur :: tokens_aux [] l' end
    else tokens_aux (cur ++ [c]) l'
  end.
Definition tokens (l : list byte) : list (list byte) := tokens_aux [] l.

(** Outcome of a parse step: undefined behaviour, an errno, or attributes. *)
Inductive presult (A : Type) := PUndef | PErr (e : Z) | POk (a : A).
Arguments PUndef {A}. Arguments PErr {A} e. Arguments POk {A} a.

(** ldmsd_request_util.c:456-490 __ldmsd_parse_generic (also the word loop of
    751-807 __ldmsd_parse_bridge_add_req) *)
Fixpoint parse_generic (ws : list (list byte)) (acc : list attr) : presult (list attr) :=
  match ws with
  | [] => POk acc
  | w :: ws' =>
    let '(n, v) := name_value w in
    match add_attr n v acc with
    | inl e => PErr e
    | inr acc' => parse_generic ws' acc'
    end
  end.

(** snprintf(&tmp[cnt], len - cnt, "%s", s): writes at most len-cnt-1 bytes and
    a NUL; the difference wraps when cnt > len (undefined write). *)
Definition fmt_at (tmp : list byte) (cnt : nat) (s : list byte) : option (list byte * nat) :=
  let len := List.length tmp in
  if Nat.ltb len cnt then None
  else if Nat.eqb (len - cnt) 0 then Some (tmp, (cnt + List.length s)%nat)
  else match store cnt (firstn (len - cnt - 1) s ++ [0%N]) tmp with
       | None => None
       | Some t => Some (t, (cnt + List.length s)%nat)
       end.

(** C string held in a buffer: None when no NUL is found. *)
Fixpoint cstr (m : list byte) : option (list byte) :=
  match m with
  | [] => None
  | c :: m' => if N.eqb c 0 then Some []
               else match cstr m' with None => None | Some s => Some (c :: s) end
  end.

(** The word loop shared by __ldmsd_parse_plugin_config (492-551),
    __ldmsd_parse_env (553-603), __ldmsd_parse_listen_req (636-685),
    __ldmsd_parse_auth_add_req (687-742) and __ldmsd_parse_default_auth_req
    (809-868): words whose name satisfies [own] become attributes, the others
    are re-printed into [tmp].  [need_value]: the "%s=%s " with a NULL value in
    __ldmsd_parse_auth_add_req:725 is undefined. *)
Fixpoint mixed_loop (own : list byte -> bool) (need_value : bool) (ws : list (list byte))
    (tmp : list byte) (cnt : nat) (acc : list attr)
  : presult (list byte * nat * list attr) :=
  match ws with
  | [] => POk (tmp, cnt, acc)
  | w :: ws' =>
    let '(n, v) := name_value w in
    if own n then
      match add_attr n v acc with
      | inl e => PErr e
      | inr acc' => mixed_loop own need_value ws' tmp cnt acc'
      end
    else
      let text := match v with
                  | Some v => Some (n ++ [61%N] ++ v ++ [32%N])
                  | None => if need_value then None else Some (n ++ [32%N])
                  end in
      match text with
      | None => PUndef
      | Some s =>
        match fmt_at tmp cnt s with
        | None => PUndef
        | Some (tmp', cnt') => mixed_loop own need_value ws' tmp' cnt' acc
        end
      end
  end.

(** Tail: [tmp[cnt-1] = 0] and the STRING attribute.  [guarded] is the
    [if (cnt)] test that listen (672) and auth_add (729) have and
    plugin_config (541), env (593) and default_auth (858) do not. *)
Definition mixed_tail (guarded : bool) (tmp : list byte) (cnt : nat) (acc : list attr)
  : presult (list attr) :=
  if (guarded && Nat.eqb cnt 0)%bool then POk acc
  else if Nat.eqb cnt 0 then PUndef
  else match store (cnt - 1) [0%N] tmp with
       | None => PUndef
       | Some t => match cstr t with
                   | None => PUndef
                   | Some s => POk (acc ++ [(ATTR_STRING, Some s)])
                   end
       end.

(** malloc(len): the bytes start arbitrary; modelled as zeros, they are never
    read before being written when cnt > 0. *)
Definition parse_mixed (own : list byte -> bool) (need_value guarded : bool) (len : nat)
    (ws : list (list byte)) : presult (list attr) :=
  match mixed_loop own need_value ws (repeat 0%N len) 0 [] with
  | PUndef => PUndef
  | PErr e => PErr e
  | POk (tmp, cnt, acc) => mixed_tail guarded tmp cnt acc
  end.

(** strncmp(name, s, 4) == 0 for a four-byte prefix s *)
Definition prefix4 (s name : list byte) : bool :=
  match strcmp (firstn 4 name) (firstn 4 s) with Eq => true | _ => false end.
Definition streq (a b : list byte) : bool := match strcmp a b with Eq => true | _ => false end.

Definition PLUGN_CONFIG : N := 1287.
Definition ENV : N := 1541.
Definition LISTEN : N := 1552.
Definition AUTH_ADD : N := 2560.
Definition CMDLINE : N := 1554.
Definition BRIDGE_ADD : N := 268.
Definition DEFAULT_AUTH : N := 1558.

(** ldmsd_request_util.c:927-955: dispatch on the request id; [av] is the text
    after the first space. *)
Definition parse_attrs (id : N) (av : list byte) : presult (list attr) :=
  let ws := tokens av in
  let len := List.length av in
  if N.eqb id PLUGN_CONFIG then
    parse_mixed (prefix4 (s2b "name"%string)) false false len ws
  else if N.eqb id ENV then
    parse_mixed (fun _ => false) false false (len + 1) ws
  else if N.eqb id LISTEN then
    parse_mixed (fun n => (prefix4 (s2b "xprt"%string) n || prefix4 (s2b "port"%string) n
                           || prefix4 (s2b "host"%string) n || prefix4 (s2b "auth"%string) n)%bool)
                false true len ws
  else if N.eqb id AUTH_ADD then
    parse_mixed (fun n => (streq n (s2b "name"%string) || streq n (s2b "plugin"%string))%bool)
                true true len ws
  else if N.eqb id CMDLINE then POk [(ATTR_STRING, Some av)]
  else if N.eqb id BRIDGE_ADD then
    match parse_generic ws [] with
    | POk acc => match add_attr (s2b "type"%string) (Some (s2b "bridge"%string)) acc with
                 | inl e => PErr e
                 | inr acc' => POk acc'
                 end
    | r => r
    end
  else if N.eqb id DEFAULT_AUTH then
    parse_mixed (prefix4 (s2b "plugin"%string)) false false len ws
  else parse_generic ws [].

(** ldmsd_request_util.c:984-1018: cut the attribute list into records of at
    most [max] bytes.  calloc(max): the header copy needs max >= 24 (else
    undefined); max = 24 never terminates ([fuel] exhausted = None). *)
Fixpoint split_loop (fuel : nat) (first : bool) (max : nat) (msg_no id : N) (data : list byte)
  : option (list (list byte)) :=
  match fuel with
  | O => None
  | S fuel' =>
    if Nat.ltb max HDR then None else
    let n := Nat.min (max - HDR) (List.length data) in
    let rest := skipn n data in
    let fl := ((if first then SOM else 0) + match rest with [] => EOM | _ => 0 end)%N in
    let r := hdr_bytes 1 fl msg_no id (N.of_nat (HDR + n)) ++ firstn n data in
    match rest with
    | [] => Some [r]
    | _ => match split_loop fuel' false max msg_no id rest with
           | None => None
           | Some rs => Some (r :: rs)
           end
    end
  end.

(** strchr(dummy, ' '): verb and the rest after the first space, if any *)
Fixpoint cut_verb (l : list byte) : list byte * option (list byte) :=
  match l with
  | [] => ([], None)
  | c :: l' => if N.eqb c 32 then ([], Some l')
               else let '(v, r) := cut_verb l' in (c :: v, r)
  end.

(** ldmsd_request_util.c:871-1030 ldmsd_parse_config_str *)
Definition parse_config_str (cfg : list byte) (msg_no : N) (max : nat)
  : presult (list (list byte)) :=
  if Nat.ltb max HDR then PUndef else
  let '(verb, av) := cut_verb cfg in
  match req_str2id verb with
  | None => PErr ENOSYS
  | Some id =>
    match (match av with None => POk [] | Some av => parse_attrs id av end) with
    | PUndef => PUndef
    | PErr e => PErr e
    | POk attrs =>
      let data := flat_map attr_bytes attrs ++ term_bytes in
      match split_loop (S (List.length data)) true max msg_no id data with
      | None => PUndef
      | Some rs => POk rs
      end
    end
  end.
