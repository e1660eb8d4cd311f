(** * Model of the netlink parsing of the route monitor: kernel/rt_monitor.c 36-52, 75-102,
    131-165, 238-349, 351-395, 442-463, with the macros of <linux/netlink.h> and
    <linux/rtnetlink.h> it uses (NLMSG_OK, NLMSG_NEXT, RTA_OK, RTA_NEXT, ...).

    Everything is at the level of bytes of the receive buffer, on a little-endian
    machine.  An access outside the buffer is [UB].  Every loop has a [fuel]; None
    means that it is still running, and the theorems show that this does not
    happen.  Left out: the socket calls, the request, the netif cache
    (Netifs.v) and what is done with the answer afterwards (Route.v, whose [obs1]
    consists of [answer] below and the cached type of the interface). *)
From Verif Require Import Base.

Definition BUFSZ : nat := Z.to_nat 16384.        (* 132, 223, 487 *)
(** Numbers of <linux/netlink.h> and <linux/rtnetlink.h>. *)
Definition NLMSG_ERROR : Z := 2.
Definition NLMSG_DONE : Z := 3.
Definition RTM_NEWLINK : Z := 16.
Definition RTM_DELLINK : Z := 17.
Definition RTM_NEWROUTE : Z := 24.
Definition RTM_DELROUTE : Z := 25.
Definition RTN_UNICAST : Z := 1.
Definition AF_INET : Z := 2.
Definition AF_INET6 : Z := 10.
Definition RTA_OIF : Z := 4.
Definition RTA_GATEWAY : Z := 5.
Definition RTA_PRIORITY : Z := 6.
Definition IFLA_IFNAME : Z := 3.
Definition RTA_COUNT : Z := 31.                   (* __RTA_MAX; depends on the kernel headers *)
Definition IFLA_COUNT : Z := 60.                  (* __IFLA_MAX; the same *)
Definition HDR : Z := 16.                         (* sizeof (struct nlmsghdr) *)
Definition RTMSG : Z := 12.                       (* sizeof (struct rtmsg) *)
Definition IFINFO : Z := 16.                      (* sizeof (struct ifinfomsg) *)

(** Loads from the buffer. *)
Definition rd8 (b : list Z) (o : Z) : outcome Z :=
  if o <? 0 then UB else match nth_error b (Z.to_nat o) with Some x => Ok x | None => UB end.
Definition rd16 (b : list Z) (o : Z) : outcome Z := let* x := rd8 b o in let* y := rd8 b (o + 1) in Ok (x + 256 * y).
Definition rd32 (b : list Z) (o : Z) : outcome Z := let* x := rd16 b o in let* y := rd16 b (o + 2) in Ok (x + 65536 * y).
(** memcpy out of the buffer. *)
Fixpoint rdn (b : list Z) (o : Z) (n : nat) : outcome (list Z) :=
  match n with O => Ok [] | S n => let* x := rd8 b o in let* l := rdn b (o + 1) n in Ok (x :: l) end.
(** The characters of a C string in the buffer. *)
Fixpoint rdstr (fuel : nat) (b : list Z) (o : Z) : outcome (option (list Z)) :=
  match fuel with
  | O => Ok None
  | S k => let* x := rd8 b o in
           if x =? 0 then Ok (Some []) else let* r := rdstr k b (o + 1) in Ok (match r with Some l => Some (x :: l) | None => None end)
  end.
(** RTA_ALIGN, NLMSG_ALIGN: unsigned int arithmetic. *)
Definition align4 (n : Z) : Z := u32 (n + 3) / 4 * 4.

(** *** parse_rtattrs: 36-51.  The array rtas [] is a function from types to offsets. *)
Definition rtas := Z -> option Z.
Fixpoint parse_rtattrs (fuel : nat) (b : list Z) (o len count : Z) (a : rtas) : outcome (option rtas) :=
  if len <? 4 then Ok (Some a) else
  let* l := rd16 b o in
  if (l <? 4) || (len <? l) then Ok (Some a) else
  let* ty := rd16 b (o + 2) in
  let a := if ty <? count then match a ty with None => (fun x => if x =? ty then Some o else a x) | Some _ => a end else a in
  match fuel with
  | O => Ok None
  | S k => parse_rtattrs k b (o + align4 l) (len - align4 l) count a
  end.
Definition no_attrs : rtas := fun _ => None.

(** *** The default route of one family *)
(** The locals of __af_get_default_rt 213-226; pointers are offsets in buf. *)
Record acc := mkA { a_cnt : Z; a_min : Z; a_oif : option Z; a_gw : option Z }.
Definition acc0 : acc := mkA 0 4294967295 None None.

(** One RTM_NEWROUTE message at [h] with nlmsg_len = [l]: 275-346. *)
Definition route_msg (b : list Z) (h l : Z) (a : acc) : outcome (option acc) :=
  let* ty := rd8 b (h + HDR + 7) in
  if negb (ty =? RTN_UNICAST) then Ok (Some a) else
  let* fam := rd8 b (h + HDR) in
  if negb ((fam =? AF_INET) || (fam =? AF_INET6)) then Ok (Some a) else
  let* dl := rd8 b (h + HDR + 1) in
  if negb (dl =? 0) then Ok (Some a) else
  let* t := parse_rtattrs (Z.to_nat l) b (h + HDR + RTMSG) (s32 (u32 (l - (HDR + RTMSG)))) RTA_COUNT no_attrs in
  match t with
  | None => Ok None
  | Some t =>
      match t RTA_OIF with
      | None => Ok (Some a)
      | Some oif =>
          let a := mkA (a_cnt a + 1) (a_min a) (a_oif a) (a_gw a) in
          match t RTA_PRIORITY with
          | Some p =>
              let* pri := rd32 b (p + 4) in
              Ok (Some (if pri <? a_min a then mkA (a_cnt a) pri (Some oif) (t RTA_GATEWAY) else a))
          | None =>
              Ok (Some (match a_oif a, a_gw a with None, None => mkA (a_cnt a) (a_min a) (Some oif) (t RTA_GATEWAY) | _, _ => a end))
          end
      end
  end.

(** The loop over one datagram, 254-348; the flag says that the dump is over. *)
Fixpoint routes (fuel : nat) (b : list Z) (h err : Z) (a : acc) : outcome (option (bool * acc)) :=
  if err <? HDR then Ok (Some (false, a)) else
  let* l := rd32 b h in
  if (l <? HDR) || (err <? l) then Ok (Some (false, a)) else
  let* ty := rd16 b (h + 4) in
  if (ty =? NLMSG_DONE) || (ty =? NLMSG_ERROR) then Ok (Some (true, a)) else
  let* r := (if ty =? RTM_NEWROUTE then route_msg b h l a else Ok (Some a)) in
  match r, fuel with
  | None, _ | _, O => Ok None
  | Some a, S k => routes k b (h + align4 l) (err - align4 l) a
  end.

(** recv into buf: the rest of the buffer keeps what it had. *)
Definition fill (b d : list Z) : list Z := firstn BUFSZ d ++ skipn (length (firstn BUFSZ d)) b.
(** 248-349: the datagrams in the order recv gives them; the end of the list is
    recv's failure (250-252). *)
Fixpoint dump (b : list Z) (ds : list (list Z)) (a : acc) : outcome (option (list Z * acc)) :=
  match ds with
  | [] => Ok (Some (b, a))
  | d :: ds =>
      if (length d =? 0)%nat then Ok (Some (b, a)) else
      let b := fill b d in
      let* r := routes BUFSZ b 0 (Z.of_nat (length (firstn BUFSZ d))) a in
      match r with
      | None => Ok None
      | Some (true, a) => Ok (Some (b, a))
      | Some (false, a) => dump b ds a
      end
  end.

(** What is taken out of the buffer at the end, 351-417: interface index, number of
    default routes, gateway.  [af] is the family asked for (rtm here is the request,
    216, 243); a gateway that does not fit in rt->gw (a union of 28 bytes) overruns it. *)
Record answer := mkAns { an_oif : Z; an_cnt : Z; an_gw : option (list Z) }.
Definition room (af : Z) : Z := if af =? AF_INET then 24 else 20.
Definition finish (af : Z) (b : list Z) (a : acc) : outcome (option answer) :=
  match a_oif a with
  | None => Ok None
  | Some r =>
      let* i := rd32 b (r + 4) in
      let cnt := if a_cnt a >? 2 then 2 else a_cnt a in
      match a_gw a with
      | None => Ok (Some (mkAns (s32 i) cnt None))
      | Some g =>
          let* l := rd16 b g in
          let* gw := rdn b (g + 4) (Z.to_nat (l - 4)) in
          if room af <? l - 4 then UB else Ok (Some (mkAns (s32 i) cnt (Some gw)))
      end
  end.
(** __af_get_default_rt: 206-419; [b] is what the stack happens to hold. *)
Definition get_default_rt (af : Z) (b : list Z) (ds : list (list Z)) : outcome (option (option answer)) :=
  let* r := dump b ds acc0 in
  match r with None => Ok None | Some (b, a) => let* x := finish af b a in Ok (Some x) end.

(** *** Changes *)
(** What is done for a message: update_netifs (1, index), update_netifs (0, index, name, type),
    check_report_def_rt_change_event. *)
Inductive action := ALinkDel (idx : Z) | ALinkNew (idx : Z) (name : option (list Z)) (ty : Z) | ACheck.
(** update_ifinfos: 75-102. *)
Definition update_ifinfos (b : list Z) (h l ty : Z) : outcome (option (list action)) :=
  if negb ((ty =? RTM_NEWLINK) || (ty =? RTM_DELLINK)) then Ok (Some []) else
  if l <? HDR + IFINFO then Ok (Some []) else
  let* idx := rd32 b (h + HDR + 4) in
  if ty =? RTM_DELLINK then Ok (Some [ALinkDel (s32 idx)]) else
  let* t := parse_rtattrs (Z.to_nat l) b (h + HDR + IFINFO) (s32 (u32 (l - (HDR + IFINFO)))) IFLA_COUNT no_attrs in
  match t with
  | None => Ok None
  | Some t =>
      let* ift := rd16 b (h + HDR + 2) in
      match t IFLA_IFNAME with
      | None => Ok (Some [ALinkNew (s32 idx) None ift])
      | Some r =>
          let* n := rdstr (S BUFSZ) b (r + 4) in
          Ok (match n with Some n => Some [ALinkNew (s32 idx) (Some n) ift] | None => None end)
      end
  end.
(** __process_rtmsg: 442-463; len is a size_t, and the type is read before the length is
    checked. *)
Fixpoint process_rtmsg (fuel : nat) (b : list Z) (h len : Z) : outcome (option (list action)) :=
  let* ty := rd16 b (h + 4) in
  if ty =? NLMSG_DONE then Ok (Some []) else
  if len <? HDR then Ok (Some []) else
  let* l := rd32 b h in
  if (l <? HDR) || (len <? l) then Ok (Some []) else
  let* x := (if (ty =? RTM_NEWLINK) || (ty =? RTM_DELLINK) then update_ifinfos b h l ty
             else Ok (Some (if (ty =? RTM_NEWROUTE) || (ty =? RTM_DELROUTE) then [ACheck] else []))) in
  match x, fuel with
  | None, _ | _, O => Ok None
  | Some x, S k =>
      let* r := process_rtmsg k b (h + align4 l) (u64 (len - align4 l)) in
      Ok (match r with Some r => Some (x ++ r) | None => None end)
  end.
