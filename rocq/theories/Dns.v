(** * Model of name resolution and of the socket addresses of the Linux HAL:
    net/dns.c 36-249, platform/src/linux/aosl_hal_socket.c 58-120, 135-148,
    210-245, 281-320, 358-446, net/sk_utils.c 79-96.

    An aosl_sockaddr_t (aosl_hal_socket.h 43-52) is its 28 bytes: the family at
    0, the port at 2, sin_addr / sin6_flowinfo at 4, sin6_addr at 8, the scope id
    at 24.  The system's struct sockaddr_in (16 bytes) and struct sockaddr_in6 (28
    bytes) have their fields at the same places.  Little endian machine.

    Simplifications: logging is left out; pointers in argument vectors are opaque
    numbers; a queue or pool takes a request or refuses it, and runs every request
    it took exactly once, normally or, when it ends, with AOSL_FREE_ONLY_OBJ (that
    is what C01, C06, C34 are about). *)
From Verif Require Import Base Arith Ipv6.

(** ** Addresses *)
(** The constants of Linux: AF_UNSPEC 0, AF_INET 2, AF_INET6 10; AOSL_AF_*,
    aosl_hal_socket.h 23-27, are the same numbers. *)
Definition OS_INET : Z := 2.
Definition OS_INET6 : Z := 10.
Definition ZEROS : list Z := repeat 0 28.

(** conv_domain_to_os, aosl_hal_socket.c 18-30. *)
Definition conv_domain_to_os (d : Z) : Z := if d =? 0 then 0 else if d =? AF_INET then OS_INET else if d =? AF_INET6 then OS_INET6 else 0.
(** get_addrlen, 109-119. *)
Definition get_addrlen (af : Z) : Z := if af =? OS_INET then 16 else if af =? OS_INET6 then 28 else -1.
(** conv_addr_to_os, 58-80: the new bytes of *os_addr. *)
Definition conv_addr_to_os (a os : list Z) : list Z :=
  if family a =? AF_INET then
    let os := store os 0 [OS_INET; 0] in
    let os := store os 2 (slice a 2 2) in
    store os 4 (slice a 4 4)
  else if family a =? AF_INET6 then
    let os := store os 0 [OS_INET6; 0] in
    let os := store os 2 (slice a 2 2) in
    let os := store os 4 (slice a 4 4) in
    let os := store os 24 (slice a 24 4) in
    store os 8 (slice a 8 16)
  else os.
(** conv_addr_to_aosl, 82-107: the new bytes of *ah_addr. *)
Definition conv_addr_to_aosl (os a : list Z) : list Z :=
  if family os =? OS_INET then
    let a := store a 0 [AF_INET; 0] in
    let a := store a 2 (slice os 2 2) in
    store a 4 (slice os 4 4)
  else if family os =? OS_INET6 then
    let a := store a 0 [AF_INET6; 0] in
    let a := store a 2 (slice os 2 2) in
    let a := store a 4 (slice os 4 4) in
    let a := store a 24 (slice os 24 4) in
    store a 8 (slice os 8 16)
  else a.

(** What aosl_hal_sk_bind 135-141, connect 229-235 and sendto 281-288 hand to
    the system: the address and its socklen_t length. *)
Definition sys_addr (a : list Z) : list Z * Z :=
  let af := conv_domain_to_os (family a) in
  (conv_addr_to_os a ZEROS, u32 (get_addrlen af)).
(** What accept 210-226, recvfrom 301-318 and get_sockname 395-405 store when the
    system call succeeds and filled in [n] bytes [bs] of the zeroed local address. *)
Definition sys_filled (bs : list Z) : list Z := store ZEROS 0 bs.
Definition hal_peer (bs : list Z) (addr : list Z) : list Z := conv_addr_to_aosl (sys_filled bs) addr.

(** aosl_hal_sk_get_local_ip, 358-393.  [routes]: what aosl_get_default_rt
    returns; [rt4]: the name of the IPv4 route's interface if that route is valid;
    [ifas]: the list of getifaddrs (None: it failed and left the pointer
    uninitialised), entries (name, address bytes or NULL).  Names are at most 63
    bytes long, so that strncmp (.., 64) compares them. *)
Fixpoint find_if (l : list (list Z * option (list Z))) (name : list Z) : option (list Z) :=
  match l with
  | [] => None
  | (_, None) :: l => find_if l name
  | (n, Some os) :: l =>
      if negb (family os =? OS_INET) then find_if l name
      else if negb (if list_eq_dec Z.eq_dec n name then true else false) then find_if l name
      else Some os
  end.
Definition get_local_ip (routes : Z) (rt4 : option (list Z)) (ifas : option (list (list Z * option (list Z)))) (addr : list Z) : outcome (Z * list Z) :=
  if routes =? 0 then Ok (-1, addr) else
  match rt4 with
  | None => Ok (-1, addr)
  | Some name =>
      match ifas with
      | None => UB
      | Some l =>
          match find_if l name with
          | None => Ok (-1, addr)
          | Some os => Ok (0, store (store addr 0 [AF_INET; 0]) 4 (slice os 4 4))
          end
      end
  end.
(** aosl_get_sockaddr, sk_utils.c 79-96.  [sn]: what getsockname gives, None if it fails. *)
Definition get_sockaddr (sn : option (list Z)) (routes : Z) (rt4 : option (list Z)) (ifas : option (list (list Z * option (list Z)))) (addr : list Z) : outcome (Z * list Z) :=
  match sn with
  | None => Ok (-1, addr)
  | Some bs =>
      let sock := hal_peer bs ZEROS in
      let* r := get_local_ip routes rt4 ifas addr in
      let '(e, addr) := r in
      if negb (e =? 0) then Ok (-1, addr)
      else if negb (family addr =? family sock) then Ok (-1, addr)
      else Ok (0, store addr 2 (slice sock 2 2))
  end.

(** aosl_htons (port), sk_utils.c 41-44, as the two bytes in memory. *)
Definition port_bytes (port : Z) : list Z := let v := cpu_to_be16 port in [v mod 256; v / 256].
(** aosl_ip_sk_addr_init_with_port, sk_utils.c 809-829: the new bytes of *sk_addr, None: EINVAL. *)
Definition init_with_port (a : list Z) (af port : Z) : option (list Z) :=
  if af =? AF_INET then Some (store (store (store a 0 (repeat 0 16)) 2 (port_bytes port)) 0 [af mod 256; af / 256])
  else if af =? AF_INET6 then Some (store (store (store a 0 (repeat 0 28)) 2 (port_bytes port)) 0 [af mod 256; af / 256])
  else None.
(** aosl_bind_port_only, 831-857: what the system is given; [junk]: the uninitialised local address. *)
Definition bind_port_only (junk : list Z) (af port : Z) : option (list Z * Z) :=
  let a :=
    if af =? AF_INET then Some (store (store junk 4 [0; 0; 0; 0]) 2 (port_bytes port))
    else if af =? AF_INET6 then Some (store (store junk 0 (repeat 0 28)) 2 (port_bytes port))
    else None in
  match a with Some a => Some (sys_addr (store a 0 [af mod 256; af / 256])) | None => None end.
(** aosl_ip_sk_addr_port, 1198-1212. *)
Definition addr_port (a : list Z) : Z :=
  if family a =? AF_INET then cpu_to_be16 (le (slice a 2 2))
  else if family a =? AF_INET6 then cpu_to_be16 (le (slice a 2 2))
  else 0.

(** ** Resolution *)
(** One struct addrinfo: ai_family, ai_addr (NULL: None), ai_addrlen. *)
Record addrinfo := mkAi { ai_family : Z; ai_addr : option (list Z); ai_len : Z }.

(** &arr [i] = x; outside of the array: undefined. *)
Definition set_arr {A} (arr : list A) (i : nat) (x : A) : outcome (list A) :=
  if (i <? length arr)%nat then Ok (firstn i arr ++ x :: skipn (S i) arr) else UB.
Definition get_arr {A} (arr : list A) (i : nat) : outcome A :=
  match nth_error arr i with Some x => Ok x | None => UB end.

(** The loop of aosl_hal_gethostbyname, 428-439. *)
Fixpoint host_loop (l : list addrinfo) (addrs : list (list Z)) (addr_count count : Z) : outcome (Z * list (list Z)) :=
  match l with
  | [] => Ok (count, addrs)
  | ai :: l =>
      if negb (count <? addr_count) then Ok (count, addrs) else
      match ai_addr ai with
      | None => host_loop l addrs addr_count count
      | Some os =>
          if ai_len ai =? 0 then host_loop l addrs addr_count count
          else if ((ai_family ai =? OS_INET) || (ai_family ai =? OS_INET6))%bool then
            let* a := get_arr addrs (Z.to_nat count) in
            let* addrs := set_arr addrs (Z.to_nat count) (conv_addr_to_aosl os a) in
            host_loop l addrs addr_count (count + 1)
          else host_loop l addrs addr_count count
      end
  end.
(** aosl_hal_gethostbyname, 407-446; [gai]: what getaddrinfo answers, None: it fails. *)
Definition gethostbyname (gai : option (list addrinfo)) (addrs : list (list Z)) (addr_count : Z) : outcome (Z * list (list Z)) :=
  match gai with
  | None => Ok (0, addrs)
  | Some l => host_loop l addrs addr_count 0
  end.

(** aosl_sk_addrinfo_t, aosl_mpq_net.h 400-405. *)
Record skai := mkSk { sk_af : Z; sk_type : Z; sk_prot : Z; sk_addr : list Z }.
(** MAX_DNS_RES_CNT, dns.c 25. *)
Definition MAX_DNS_RES_CNT : nat := 8.
Definition AOSL_ENOBUFS : Z := AOSL_EBASE + 105.

(** __resolved_an_addr, dns.c 84-104: the return value, the array, errno. *)
Definition resolved_an_addr (af socktype prot : Z) (addr : list Z) (index : Z) (addrs : list skai) (addr_count errno : Z) : outcome (Z * list skai * Z) :=
  if index <? u32 addr_count then
    let* addrs := set_arr addrs (Z.to_nat index) (mkSk af socktype prot addr) in
    Ok (1, addrs, errno)
  else Ok (-1, addrs, AOSL_ENOBUFS).

(** The loop of vhostbyname_timed_do, 46-64, over the filled entries. *)
Fixpoint resolve_loop (l : list (list Z)) (port socktype prot count : Z) (addrs : list skai) (addr_count errno : Z) : outcome (Z * list skai * Z) :=
  match l with
  | [] => Ok (count, addrs, errno)
  | addr :: l =>
      let addr := store addr 2 (port_bytes port) in
      let* r := resolved_an_addr (family addr) socktype prot addr (u32 count) addrs addr_count errno in
      let '(err, addrs, errno) := r in
      if err <? 0 then Ok (count, addrs, errno)
      else if err =? 0 then Ok (count + 1, addrs, errno)
      else resolve_loop l port socktype prot (count + 1) addrs addr_count errno
  end.
(** vhostbyname_timed_do, 36-69. *)
Definition hostbyname_do (gai : option (list addrinfo)) (port socktype prot : Z) (addrs : list skai) (addr_count errno : Z) : outcome (Z * list skai * Z) :=
  let* r := gethostbyname gai (repeat ZEROS MAX_DNS_RES_CNT) (Z.of_nat MAX_DNS_RES_CNT) in
  let '(rescnt, res) := r in
  if rescnt >? 0 then resolve_loop (firstn (Nat.min (Z.to_nat rescnt) MAX_DNS_RES_CNT) res) port socktype prot 0 addrs addr_count errno
  else Ok (0, addrs, errno).

(** ** The asynchronous calls *)
(** AOSL_VAR_ARGS_MAX, aosl_defs.h 98; MPQ_ARGC_MAX, mp_queue.h 250. *)
Definition ARGC_MAX : Z := 64.
(** aosl_mpqp_queue_argv, mpqp.c 683-691, and aosl_mpq_queue_argv, mpq.c 1349-1355
    (reached with a queue that exists, 1363-1373): None if the request is refused
    whatever the queue does, with errno. *)
Definition argc_refused (argc : Z) : option Z := if argc >? ARGC_MAX then Some AOSL_E2BIG else None.

(** __prot_resolve_host_async_args, 185-203: the vector of the request. *)
Definition request_argv (host port sk_type sk_prot addrs addr_count q f argc : Z) (args : list Z) : list Z :=
  [host; port; sk_type; sk_prot; addrs; addr_count; q; f; argc] ++ firstn (Z.to_nat argc) args.
(** __queue_resolve_async_reply, 106-126: the vector of the reply. *)
Definition reply_argv (host count addrs argc : Z) (argv : list Z) : list Z :=
  [host; count; addrs] ++ firstn (Z.to_nat argc) argv.

(** One call of a resolve function.  [c_host] and [c_addrs] are the pointers. *)
Record call := mkCall { c_host : Z; c_port : Z; c_tcp : bool; c_addrs : Z; c_count : Z; c_q : Z; c_f : Z; c_argc : Z; c_args : list Z }.
(** AOSL_SOCK_STREAM / DGRAM and AOSL_IPPROTO_TCP / UDP, aosl_hal_socket.h 30-40;
    dns.c 220, 235, 245, 259. *)
Definition c_type (c : call) : Z := if c_tcp c then 1 else 2.
Definition c_prot (c : call) : Z := if c_tcp c then 1 else 2.

Inductive where_ := OnQ | OnPool.
Inductive event :=
| ERet (ret errno : Z)                          (* the call returns *)
| ELookup (name : list Z) (gai : option (list addrinfo))   (* getaddrinfo was asked *)
| EPrefix (q : Z) (a6 : list Z)                 (* aosl_mpq_set_ipv6_prefix_on_q *)
| EF (f : Z) (w : where_) (free_only : bool) (argv : list Z) (arr : list skai). (* f runs; the array at that moment *)

Inductive phase :=
| PStart
| PPool (argv : list Z)                         (* in the queue of the pool *)
| PReply (q f : Z) (argv : list Z) (addrs_count : Z)   (* resolved *)
| PQueued (f : Z) (argv : list Z)               (* in the queue of q *)
| PDone.
Record state := mkSt {
  s_ph : phase;
  s_name : list Z;              (* the text hostname points to *)
  s_arr : list skai;            (* the array addrs points to *)
  s_tr : list event }.          (* latest first *)
Definition emit e s := mkSt (s_ph s) (s_name s) (s_arr s) (e :: s_tr s).
Definition setPh p s := mkSt p (s_name s) (s_arr s) (s_tr s).
Definition setArr a s := mkSt (s_ph s) (s_name s) a (s_tr s).
Definition setName n s := mkSt (s_ph s) n (s_arr s) (s_tr s).

(** 128-137: with CONFIG_AOSL_IPV6 the address of every IPv6 entry is given to the queue. *)
Definition prefixes (q : Z) (n : Z) (arr : list skai) : list event :=
  map (fun e => EPrefix q (slice (sk_addr e) 8 16)) (filter (fun e => sk_af e =? AF_INET6) (firstn (Z.to_nat n) arr)).

(** [chg]: the caller may change or reuse the text of the name after the call returned. *)
Inductive step (chg : bool) (c : call) (s : state) : state -> Prop :=
(* aosl_*_resolve_host_async, 212-216 etc. *)
| S_eperm : s_ph s = PStart -> c_argc c > ARGC_MAX -> step chg c s (emit (ERet (-1) AOSL_EPERM) (setPh PDone s))
(* 203-205: aosl_mpqp_queue_argv *)
| S_refused e : s_ph s = PStart -> c_argc c <= ARGC_MAX ->
    argc_refused (9 + c_argc c) = Some e \/ argc_refused (9 + c_argc c) = None ->
    step chg c s (emit (ERet (-1) e) (setPh PDone s))
| S_accepted : s_ph s = PStart -> c_argc c <= ARGC_MAX -> argc_refused (9 + c_argc c) = None ->
    step chg c s (emit (ERet 0 0) (setPh (PPool (request_argv (c_host c) (c_port c) (c_type c) (c_prot c) (c_addrs c) (c_count c) (c_q c) (c_f c) (c_argc c) (c_args c))) s))
| S_overwrite n : chg = true -> s_ph s <> PStart -> step chg c s (setName n s)
(* ____dns_resolve_host, 150-171, run normally or with AOSL_FREE_ONLY_OBJ: it does not look at robj *)
| S_resolve argv gai n arr e e' :
    s_ph s = PPool argv ->
    hostbyname_do gai (u16 (nth 1 argv 0)) (s32 (nth 2 argv 0)) (s32 (nth 3 argv 0)) (s_arr s) (nth 5 argv 0) e = Ok (n, arr, e') ->
    let q := nth 6 argv 0 in
    let reply := reply_argv (nth 0 argv 0) n (nth 4 argv 0) (nth 8 argv 0) (skipn 9 argv) in
    step chg c s (mkSt (PReply q (nth 7 argv 0) reply n) (s_name s) arr (prefixes q n arr ++ ELookup (s_name s) gai :: s_tr s))
(* 146-149 *)
| S_reply_ok q f argv n : s_ph s = PReply q f argv n -> argc_refused (Z.of_nat (length argv)) = None ->
    step chg c s (setPh (PQueued f argv) s)
| S_reply_fail q f argv n : s_ph s = PReply q f argv n ->
    step chg c s (emit (EF f OnPool true argv (s_arr s)) (setPh PDone s))
| S_run fo f argv : s_ph s = PQueued f argv ->
    step chg c s (emit (EF f OnQ fo argv (s_arr s)) (setPh PDone s)).

Definition init_state (name : list Z) (arr : list skai) : state := mkSt PStart name arr [].
Inductive reachable (chg : bool) (c : call) (name : list Z) (arr : list skai) : state -> Prop :=
| R_init : reachable chg c name arr (init_state name arr)
| R_step s s' : reachable chg c name arr s -> step chg c s s' -> reachable chg c name arr s'.
