(** * Model of aosl_bind_port_only, aosl_bind_device and aosl_set_socket_dscp (net/sk_utils.c 831-890), with platform/src/linux/aosl_hal_socket.c 58-80, 136-194 and aosl_hal_errno.c 4-18.

    What the library asks of the system is a list of calls, with the bytes it passes; the system answers each with 0 or an errno.
    Simplified: a little-endian machine, int of 4 bytes, struct ifreq of 40 bytes with a name of 16 (Linux); a name is the list of its bytes before the NUL; no log. *)
From Verif Require Import Base Arith.

Inductive call := Setsockopt (fd level opt : Z) (data : list Z) | Bind (fd : Z) (addr : list Z).
(** The constants of Linux: AF_INET, AF_INET6, IPPROTO_IP, IPPROTO_IPV6, IP_TOS, IPV6_TCLASS, SOL_SOCKET, SO_BINDTODEVICE. *)
Definition AF_INET := 2. Definition AF_INET6 := 10. Definition IPPROTO_IP := 0. Definition IPPROTO_IPV6 := 41.
Definition IP_TOS := 1. Definition IPV6_TCLASS := 67. Definition SOL_SOCKET := 1. Definition SO_BINDTODEVICE := 25.
(** platform/include/hal/aosl_hal_socket.h 23-27, aosl_errno.h 39. *)
Definition AOSL_AF_INET := 2. Definition AOSL_AF_INET6 := 10. Definition EINVAL := 1022.

(** aosl_hal_errno_convert: aosl_hal_errno.c 4-18. *)
Definition errno_convert (e : Z) : Z := if e =? 0 then 0 else if e =? 11 then -2001 else if e =? 4 then -2002 else if e =? 115 then -2003 else -2000.
(** What is returned, the errno set (if any), and the calls. *)
Definition outcome : Type := Z * option Z * list call.
(** aosl_errno = AOSL_EINVAL; return -1. *)
Definition einval : outcome := (-1, Some EINVAL, []).
(** The common ending (sk_utils.c 851-855, 865-869, 884-888) over one call that the system answers with [e]. *)
Definition finish (c : call) (e : Z) : outcome :=
  let err := if e =? 0 then 0 else errno_convert e in
  if err <? 0 then (snd (hal_set_error err), fst (hal_set_error err), [c]) else (0, None, [c]).
(** An int in memory. *)
Definition int_bytes (v : Z) : list Z := [v mod 256; v / 256 mod 256; v / 65536 mod 256; v / 16777216 mod 256].
(** aosl_htons, seen in memory: the high byte first. *)
Definition net_short (p : Z) : list Z := [p / 256 mod 256; p mod 256].

(** aosl_set_socket_dscp: 872-890, aosl_hal_sk_set_dscp: 167-194. *)
Definition set_socket_dscp (fd af dscp e : Z) : outcome :=
  if negb (af =? AOSL_AF_INET) && negb (af =? AOSL_AF_INET6) then einval else
  if (dscp <? 0) || (63 <? dscp) then einval else
  let traffic_class := Z.shiftl (dscp mod 256) 2 in
  if af =? AOSL_AF_INET then finish (Setsockopt fd IPPROTO_IP IP_TOS (int_bytes traffic_class)) e
  else finish (Setsockopt fd IPPROTO_IPV6 IPV6_TCLASS (int_bytes traffic_class)) e.
(** strncpy (ifr_name, if_name, 15) into a zeroed struct ifreq: 154-156. *)
Definition ifreq (name : list Z) : list Z := firstn 15 name ++ repeat 0 (40 - length (firstn 15 name)).
(** aosl_bind_device: 859-870, aosl_hal_sk_bind_device: 152-165; None: NULL. *)
Definition bind_device (fd : Z) (name : option (list Z)) (e : Z) : outcome :=
  match name with
  | None | Some [] => einval
  | Some n => finish (Setsockopt fd SOL_SOCKET SO_BINDTODEVICE (ifreq n)) e
  end.
(** aosl_bind_port_only: 831-857, aosl_hal_sk_bind: 136-150, conv_addr_to_os: 58-80; [v6]: built with CONFIG_AOSL_IPV6. *)
Definition bind_port_only (v6 : bool) (fd af port e : Z) : outcome :=
  if af =? AOSL_AF_INET then finish (Bind fd ([AF_INET; 0] ++ net_short port ++ repeat 0 4 ++ repeat 0 8)) e
  else if v6 && (af =? AOSL_AF_INET6) then finish (Bind fd ([AF_INET6; 0] ++ net_short port ++ repeat 0 4 ++ repeat 0 16 ++ repeat 0 4)) e
  else einval.
