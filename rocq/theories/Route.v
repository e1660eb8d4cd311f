(** * Model of the default route monitor: net/route.c 27-176, 224-235, 295-325, 373-378 and
    the use of the kernel's answer in kernel/rt_monitor.c 351-437.

    What the kernel answers for one address family is an argument, [obs1].  Left out: if_name
    and if_wireless (no decision uses them), the netlink parsing (rt_monitor.c 36-349), the lock
    netev_subscriber_lock (every function here runs under it), Android's if_cellnet.
    [v6] says whether CONFIG_AOSL_IPV6 is defined. *)
From Verif Require Import Base.

(** platform/include/hal/aosl_hal_socket.h 23-27: the families. *)
Definition AF_UNSPEC : Z := 0.
Definition AF_INET : Z := 2.
Definition AF_INET6 : Z := 10.

(** aosl_rt_t: aosl_route.h 38-44; [r_addr] is the address inside gw for the family [r_fam]. *)
Record rt := { r_idx : Z; r_type : Z; r_cell : Z; r_cnt : Z; r_fam : Z; r_addr : list Z }.
(** aosl_def_rt_t: aosl_route.h 46-49. *)
Record def_rt := { d4 : rt; d6 : rt }.
(** def_rts [2], last_valid_def_rt, __curr: route.c 27-30. *)
Record rst := { rts0 : def_rt; rts1 : def_rt; lastv : def_rt; curr : bool }.
Inductive net_ev := NET_DOWN | NET_UP | NET_UP_CHANGED | NET_SWITCH | RT_CNT_CHANGED.

(** get_curr_def_rt, get_new_def_rt: 32-40. *)
Definition get_curr (s : rst) : def_rt := if curr s then rts1 s else rts0 s.
Definition get_new (s : rst) : def_rt := if curr s then rts0 s else rts1 s.
Definition put_new (s : rst) (d : def_rt) : rst :=
  if curr s then {| rts0 := d; rts1 := rts1 s; lastv := lastv s; curr := curr s |}
  else {| rts0 := rts0 s; rts1 := d; lastv := lastv s; curr := curr s |}.
Definition put_last (s : rst) (d : def_rt) : rst := {| rts0 := rts0 s; rts1 := rts1 s; lastv := d; curr := curr s |}.
(** switch_new_to_curr: 42-45. *)
Definition switch (s : rst) : rst := {| rts0 := rts0 s; rts1 := rts1 s; lastv := lastv s; curr := negb (curr s) |}.

Fixpoint addr_eqb (a b : list Z) : bool :=
  match a, b with [], [] => true | x :: a, y :: b => (x =? y) && addr_eqb a b | _, _ => false end.

Section Cfg.
Variable v6 : bool.

(** __rt_valid: 47-64. *)
Definition rt_valid (r : rt) : bool := if r_idx r <? 0 then false else (r_fam r =? AF_INET) || (v6 && (r_fam r =? AF_INET6)).
(** __def_rt_valid: 66-69. *)
Definition def_rt_valid (d : def_rt) : bool := rt_valid (d4 d) || rt_valid (d6 d).
(** aosl_sk_addr_ip_equal: net/sk_utils.c 1214-1236. *)
Definition ip_equal (a b : rt) : bool :=
  if negb (r_fam a =? r_fam b) then false
  else if r_fam a =? AF_UNSPEC then true
  else if r_fam a =? AF_INET then addr_eqb (r_addr a) (r_addr b)
  else if v6 && (r_fam a =? AF_INET6) then addr_eqb (r_addr a) (r_addr b)
  else false.
(** __same_rt: 71-83. *)
Definition same_rt (a b : rt) : bool :=
  if (r_idx a <? 0) && (r_idx b <? 0) then true
  else if negb (r_idx a =? r_idx b) then false
  else if negb (r_type a =? r_type b) then false
  else ip_equal a b.
(** __same_def_rt: 85-97. *)
Definition same_def_rt (a b : def_rt) : bool :=
  if negb (same_rt (d4 a) (d4 b)) then false else if v6 && negb (same_rt (d6 a) (d6 b)) then false else true.
(** __same_def_rt_cnt: 99-103. *)
Definition same_cnt (a b : def_rt) : bool := (r_cnt (d4 a) =? r_cnt (d4 b)) && (r_cnt (d6 a) =? r_cnt (d6 b)).
(** __invalidate_rt: 105-109. *)
Definition invalidate_rt (r : rt) : rt := {| r_idx := -1; r_type := r_type r; r_cell := r_cell r; r_cnt := r_cnt r; r_fam := AF_UNSPEC; r_addr := r_addr r |}.
(** __invalidate_def_rt: 111-115. *)
Definition invalidate (d : def_rt) : def_rt := {| d4 := invalidate_rt (d4 d); d6 := invalidate_rt (d6 d) |}.

(** The default route of one family as the kernel reports it: interface index, its type if
    the interface is in the cache (C45), number of default routes, gateway if any. *)
Record obs1 := { o_oif : Z; o_type : option Z; o_cnt : Z; o_gw : option (list Z) }.
Record obs := { ob4 : option obs1; ob6 : option obs1 }.

(** __af_get_default_rt: rt_monitor.c 230 and 351-419, not Android.  The outer variable rtm (215)
    is the request, so its family is the one asked for. *)
Definition af_get (af : Z) (o : option obs1) (r : rt) : rt * Z :=
  let r := invalidate_rt r in
  match o with
  | None => (r, 0)
  | Some o => ({| r_idx := o_oif o; r_type := match o_type o with Some t => t | None => -1 end; r_cell := 0;
                  r_cnt := if o_cnt o >? 2 then 2 else o_cnt o; r_fam := af;
                  r_addr := match o_gw o with Some a => a | None => repeat 0 (if af =? AF_INET then 4%nat else 16%nat) end |}, 1)
  end.
(** os_get_def_rt: rt_monitor.c 428-438. *)
Definition os_get_def_rt (o : obs) (d : def_rt) : def_rt * Z :=
  let (r4, g4) := af_get AF_INET (ob4 o) (d4 d) in
  if v6 then let (r6, g6) := af_get AF_INET6 (ob6 o) (d6 d) in ({| d4 := r4; d6 := r6 |}, g4 + g6)
  else ({| d4 := r4; d6 := d6 d |}, g4 + 0).

(** check_report_def_rt_change_event: route.c 117-176.  [f]: the callback is not NULL; [g1], [g2]: the
    uninitialised locals def_rt1 and def_rt2.  The result is the callback's arguments, if it is called. *)
Definition check (f : bool) (g1 g2 : def_rt) (o : obs) (s : rst) : option (net_ev * def_rt * def_rt) * rst :=
  let e1 := invalidate g1 in
  let e2 := invalidate g2 in
  let cur := get_curr s in
  let valid := def_rt_valid cur in
  let (new, n) := os_get_def_rt o (get_new s) in
  let s := put_new s new in
  if n >? 0 then
    let call :=
      if f then
        if valid then
          if negb (same_def_rt new cur) then Some (NET_SWITCH, cur, new)
          else if negb (same_cnt new cur) then Some (RT_CNT_CHANGED, cur, new)
          else None
        else if def_rt_valid (lastv s) && negb (same_def_rt new (lastv s)) then Some (NET_UP_CHANGED, lastv s, new)
        else Some (NET_UP, new, e2)
      else None in
    (call, switch (put_last s new))
  else
    ((if f then if valid then Some (NET_DOWN, e1, e2) else None else None), switch s).

(** aosl_init_def_rt: 178-197. *)
Definition init_rt : rt := {| r_idx := -1; r_type := -1; r_cell := 0; r_cnt := 0; r_fam := AF_UNSPEC; r_addr := [] |}.
Definition init_def_rt : def_rt := {| d4 := init_rt; d6 := init_rt |}.
(** route_clear: 373-378; called by k_route_init (441) and at unsubscription (426). *)
Definition route_clear (s : rst) : rst := {| rts0 := init_def_rt; rts1 := init_def_rt; lastv := init_def_rt; curr := curr s |}.
(** aosl_network_is_down: 224-235. *)
Definition network_is_down (s : rst) : bool := negb (def_rt_valid (get_curr s)).
(** aosl_is_mobile_net: 295-325; None: -1 with errno EINVAL. *)
Definition is_mobile_net (af : Z) (s : rst) : option Z :=
  let d := get_curr s in
  if af =? AF_INET then (if negb (r_fam (d4 d) =? AF_UNSPEC) then Some (r_cell (d4 d)) else None)
  else if v6 && (af =? AF_INET6) then (if negb (r_fam (d6 d) =? AF_UNSPEC) then Some (r_cell (d6 d)) else None)
  else None.
End Cfg.
