(** * Model of the text form of routes: aosl_rt_str and aosl_def_rt_str (net/route.c 246-293), with aosl_ip_sk_addr_str
    (net/sk_utils.c 1178-1198) and the C library's snprintf, strlen and strcat.

    The memory from the start of the caller's buffer on is a list of bytes; it also holds what lies behind the buffer.  [far]
    is how many bytes from the start of the buffer the call has written up to.  snprintf is glibc's, which takes any size_t. *)
From Verif Require Import Base Inet Route.

(** aosl_rt_t with its interface name: include/api/aosl_route.h 32-44; [rt] is Route.v's. *)
Record nrt := N { nr : rt; nname : list Z }.
(** aosl_def_rt_t: aosl_route.h 46-49. *)
Record ndef := D { n4 : nrt; n6 : nrt }.

(** What %s prints, what strlen counts: up to the first NUL. *)
Fixpoint cstr (t : list Z) : list Z := match t with [] => [] | c :: r => if c =? 0 then [] else c :: cstr r end.
(** %d of an int. *)
Definition sdec (z : Z) : list Z := if z <? 0 then 45 :: dec (- z) else dec z.

Definition lit_v4 : list Z := [73; 80; 118; 52; 58; 32; 91; 40]. (* IPv4: [( *)
Definition lit_v6 : list Z := [73; 80; 118; 54; 58; 32; 91; 40]. (* IPv6: [( *)
Definition lit_cell : list Z := [44; 99; 101; 108; 108; 110; 101; 116; 58]. (* ,cellnet: *)
Definition lit_arrow : list Z := [41; 45; 62]. (* )-> *)

(** The memory and how far it has been written. *)
Record mem := M { bytes : list Z; far : Z }.
(** A store of [t] at [o]. *)
Definition put (m : mem) (o : Z) (t : list Z) : mem :=
  M (firstn (Z.to_nat o) (bytes m) ++ t ++ skipn (Z.to_nat o + length t) (bytes m)) (Z.max (far m) (o + Z.of_nat (length t))).
(** snprintf (&buf [o], size, ...) whose full text is [t]. *)
Definition snprintf (m : mem) (o size : Z) (t : list Z) : mem :=
  if size =? 0 then m else put m o (firstn (Z.to_nat (size - 1)) t ++ [0]).
(** strlen (buf), of any start within what was written. *)
Definition strlen (m : mem) : Z := Z.of_nat (length (cstr (bytes m))).
(** strcat (buf, t) *)
Definition strcat (m : mem) (t : list Z) : mem := put m (strlen m) (t ++ [0]).

Section Cfg.
(** CONFIG_AOSL_IPV6 *)
Variable v6 : bool.

(** The gateway's text: aosl_ip_sk_addr_str into gw_str [64], for the families of a valid route; the buffer is large enough (C35). *)
Definition gw_str (r : rt) : list Z := match addr_str (r_fam r) (r_addr r) 64 with Ok (Some t) => cstr t | _ => [] end.
(** The arguments after the name of the family: 253, 273, 287. *)
Definition rest_text (r : nrt) : list Z :=
  sdec (r_idx (nr r)) ++ [44] ++ cstr (nname r) ++ [44] ++ sdec (r_type (nr r)) ++ lit_cell ++ sdec (r_cell (nr r)) ++ lit_arrow ++ gw_str (nr r) ++ [93].

(** aosl_rt_str: 246-258.  The memory, and whether buf is returned rather than "<EMPTY RT>". *)
Definition rt_str (r : nrt) (m : mem) (size : Z) : mem * bool :=
  if rt_valid v6 (nr r) then
    let lit := if r_fam (nr r) =? AF_INET then lit_v4 else lit_v6 in
    (snprintf m 0 size (lit ++ rest_text r), true)
  else (m, false).
(** aosl_def_rt_str: 260-293.  [len] is an int, [size - len] a size_t. *)
Definition def_rt_str (d : ndef) (m : mem) (size : Z) : mem * bool :=
  let m := put m 0 [0] in
  let '(m, len) := if rt_valid v6 (nr (n4 d)) then let m := snprintf m 0 size (lit_v4 ++ rest_text (n4 d)) in (m, strlen m) else (m, 0) in
  let '(m, len) :=
    if rt_valid v6 (nr (n6 d)) then
      let '(m, len) := if len >? 0 then (strcat m [59; 32], len + 2) else (m, len) in
      let m := snprintf m len (u64 (size - len)) (lit_v6 ++ rest_text (n6 d)) in
      (m, len + strlen m)
    else (m, len) in
  (m, len >? 0).
End Cfg.
