(** * Model of the IPv4 / IPv6 socket address translation: net/ipv6.c, include/kernel/ipv6.h 147-185, and of its users in net/sk_utils.c 928-1121.

    A socket address is its 28 bytes of memory (aosl_hal_socket.h 43-52, aosl_socket.h 39-52): the
    family at 0, the port at 2, sin_addr at 4, sin6_addr at 8, the scope id at 24.  Little endian
    machine.  The two arguments of a translation are different objects. *)
From Verif Require Import Base.

Definition AF_INET : Z := 2.
Definition AF_INET6 : Z := 10.
(** The bytes from [o] on, [n] of them. *)
Definition slice (m : list Z) (o n : nat) : list Z := firstn n (skipn o m).
(** memcpy / a store of [bs] at [o]. *)
Definition store (m : list Z) (o : nat) (bs : list Z) : list Z := firstn o m ++ bs ++ skipn (o + length bs) m.
(** A 32 bit load; the little endian value of the bytes. *)
Fixpoint le (bs : list Z) : Z := match bs with [] => 0 | b :: r => b + 256 * le r end.
(** s6_addr32_v [i] of the 16 bytes [a6]. *)
Definition w32 (a6 : list Z) (i : nat) : Z := le (slice a6 (4 * i) 4).
(** aosl_cpu_to_be32 on little endian: little_endian.h 32, aosl__swab32. *)
Definition be32 (x : Z) : Z :=
  Z.lor (Z.lor (Z.shiftl (Z.land x 255) 24) (Z.shiftl (Z.land x 65280) 8)) (Z.lor (Z.shiftr (Z.land x 16711680) 8) (Z.shiftr (Z.land x 4278190080) 24)).
(** sa_family *)
Definition family (sa : list Z) : Z := le (slice sa 0 2).

(** ipv6_addr_v4mapped: ipv6.h 177-180. *)
Definition v4mapped (a6 : list Z) : bool := Z.lor (Z.lor (w32 a6 0) (w32 a6 1)) (Z.lxor (w32 a6 2) (be32 65535)) =? 0.
(** ipv6_addr_nat64: ipv6.h 182-185. *)
Definition nat64 (a6 : list Z) : bool := Z.lor (Z.lor (Z.lxor (w32 a6 0) (be32 6619035)) (w32 a6 1)) (w32 a6 2) =? 0.
(** memcmp (a, b, n) == 0 *)
Definition mem_eq (a b : list Z) (n : nat) : bool := if list_eq_dec Z.eq_dec (firstn n a) (firstn n b) then true else false.
(** ipv6_prefix_equal with prefixlen 96: ipv6.h 147-164; pdw 3, pbi 0. *)
Definition prefix_equal96 (a b : list Z) : bool := mem_eq a b 12.

(** The prefix of the calling queue, 12 bytes, or NULL off any queue or when none is saved: aosl_mpq_get_ipv6_prefix, 216-225. *)
Definition prefix := option (list Z).

(** __set_nat64_prefix: 90-98, on the 16 bytes of sin6_addr. *)
Definition nat64_addr : list Z := upd (upd (upd (repeat 0 16) 1 100) 2 255) 3 155.
(** ipv6_sk_addr_from_ipv4: 100-117.  The new 28 bytes of the destination. *)
Definition from_ipv4 (p : prefix) (v6 v4 : list Z) : list Z :=
  let v6 := store v6 0 (repeat 0 28) in
  let v6 := store v6 0 [AF_INET6; 0] in
  let v6 := store v6 2 (slice v4 2 2) in
  let v6 := match p with Some b => store v6 8 (slice b 0 12) | None => store v6 8 nat64_addr end in
  store v6 20 (slice v4 4 4).

(** __ipv6_addr_v4_compatible: 119-126. *)
Definition v4_compatible (p : prefix) (a6 : list Z) : bool :=
  if match p with Some b => prefix_equal96 a6 b | None => false end then true else v4mapped a6 || nat64 a6.
(** __sk_addr_ipv4_compatible: 128-137. *)
Definition sk_compatible (p : prefix) (sa : list Z) : bool :=
  if family sa =? AF_INET then true else if family sa =? AF_INET6 then v4_compatible p (slice sa 8 16) else false.
(** ipv6_sk_addr_to_ipv4: 144-157.  The return value and the new bytes of the destination; memset clears sizeof (aosl_sockaddr_in_t) = 16 bytes. *)
Definition to_ipv4 (p : prefix) (v4 v6 : list Z) : Z * list Z :=
  if negb (sk_compatible p v6) then (-1, v4)
  else let v4 := store v4 0 (repeat 0 16) in
       let v4 := store v4 0 [AF_INET; 0] in
       let v4 := store v4 2 (slice v6 2 2) in
       (0, store v4 4 (slice v6 20 4)).

(** ____q_update_ipv6_prefix: 159-180.  [mem]: the allocation succeeds. *)
Definition set_prefix (p : prefix) (a6 : option (list Z)) (mem : bool) : prefix :=
  match a6 with
  | Some a => if negb (v4mapped a || nat64 a) then match p with Some _ => Some (slice a 0 12) | None => if mem then Some (slice a 0 12) else None end else p
  | None => None
  end.

(** aosl_fd_invalid: aosl_hal_types.h 37-40. *)
Definition bad (fd : Z) : bool := fd =? -1.
(** The choice of the socket and of the address in aosl_mpq_ip_sk_connect 939-976, aosl_mpq_ip_sk_connect_on_q 1001-1038 and aosl_ip_sk_sendto 1076-1113: (fd, address), None: EINVAL.  [junk]: the uninitialised local address. *)
Definition select (p : prefix) (v4 v6 : Z) (dest junk : list Z) : option (Z * list Z) :=
  if family dest =? AF_INET then
    if negb (bad v4) then Some (v4, dest)
    else if negb (bad v6) then Some (v6, from_ipv4 p junk dest) else None
  else if family dest =? AF_INET6 then
    if negb (bad v6) then Some (v6, dest)
    else if negb (bad v4) then let '(r, a) := to_ipv4 p junk dest in if r <? 0 then None else Some (v4, a)
    else None
  else None.

(** aosl_sk_addr_ip_equal: sk_utils.c 1214-1236. *)
Definition ip_equal (a b : list Z) : bool :=
  if negb (family a =? family b) then false
  else if family a =? 0 then true
  else if family a =? AF_INET then le (slice a 4 4) =? le (slice b 4 4)
  else if family a =? AF_INET6 then mem_eq (slice a 8 16) (slice b 8 16) 16 else false.
