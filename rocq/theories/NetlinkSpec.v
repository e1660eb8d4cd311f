(** * Specification: netlink messages as values, and how they look on the wire. *)
From Verif Require Import Base.

(** Little-endian numbers, and the padding to a multiple of four bytes. *)
Definition le16 (v : Z) : list Z := [v mod 256; v / 256].
Definition le32 (v : Z) : list Z := le16 (v mod 65536) ++ le16 (v / 65536).
Definition padded (l : list Z) : list Z := l ++ repeat 0 ((4 - length l mod 4) mod 4).
Definition byte (x : Z) : Prop := 0 <= x < 256.

(** An attribute; a route; a link; a message. *)
Record attr := mkAttr { at_type : Z; at_data : list Z }.
Record route := mkRoute { rt_family : Z; rt_dst_len : Z; rt_type : Z; rt_other : list Z (* src_len .. scope *); rt_flags : list Z; rt_attrs : list attr }.
Record link := mkLink { li_family : Z; li_type : Z; li_index : Z; li_flags : list Z; li_attrs : list attr }.
Inductive msg :=
| MNewRoute (r : route) | MDelRoute (r : route) | MNewLink (l : link) | MDelLink (l : link)
| MDone (err : list Z)                         (* end of a dump *)
| MError (code : list Z)
| MOther (ty : Z) (body : list Z).

Definition enc_attr (a : attr) : list Z := le16 (4 + Z.of_nat (length (at_data a))) ++ le16 (at_type a) ++ padded (at_data a).
Definition enc_attrs (l : list attr) : list Z := concat (map enc_attr l).
Definition enc_route (r : route) : list Z :=
  [rt_family r; rt_dst_len r] ++ rt_other r ++ [rt_type r] ++ rt_flags r ++ enc_attrs (rt_attrs r).
Definition enc_link (l : link) : list Z :=
  [li_family l; 0] ++ le16 (li_type l) ++ le32 (li_index l mod 4294967296) ++ li_flags l ++ enc_attrs (li_attrs l).
Definition type_of (m : msg) : Z :=
  match m with MNewRoute _ => 24 | MDelRoute _ => 25 | MNewLink _ => 16 | MDelLink _ => 17 | MDone _ => 3 | MError _ => 2 | MOther ty _ => ty end.
Definition body_of (m : msg) : list Z :=
  match m with
  | MNewRoute r | MDelRoute r => enc_route r
  | MNewLink l | MDelLink l => enc_link l
  | MDone b | MError b | MOther _ b => b
  end.
(** A message with its header (flags, sequence number and sender: [hd]). *)
Definition enc_msg (hd : list Z) (m : msg) : list Z := le32 (16 + Z.of_nat (length (body_of m))) ++ le16 (type_of m) ++ hd ++ body_of m.
Definition enc (l : list (list Z * msg)) : list Z := concat (map (fun x => enc_msg (fst x) (snd x)) l).

(** What the kernel sends is well formed. *)
Definition ok_attr (a : attr) : Prop :=
  Forall byte (at_data a) /\ Z.of_nat (length (at_data a)) < 65532 /\ 0 <= at_type a < 65536.
Definition ok_route (r : route) : Prop :=
  byte (rt_family r) /\ byte (rt_dst_len r) /\ byte (rt_type r) /\ Forall byte (rt_other r) /\ length (rt_other r) = 5%nat /\
  Forall byte (rt_flags r) /\ length (rt_flags r) = 4%nat /\ Forall ok_attr (rt_attrs r).
Definition ok_link (l : link) : Prop :=
  byte (li_family l) /\ 0 <= li_type l < 65536 /\ -2147483648 <= li_index l < 2147483648 /\
  Forall byte (li_flags l) /\ length (li_flags l) = 8%nat /\ Forall ok_attr (li_attrs l).
(** Other messages: not one of the types above; [4 | length]. *)
Definition ok_msg (x : list Z * msg) : Prop :=
  length (fst x) = 10%nat /\ Forall byte (fst x) /\ (length (body_of (snd x)) mod 4 = 0)%nat /\
  match snd x with
  | MNewRoute r | MDelRoute r => ok_route r
  | MNewLink l | MDelLink l => ok_link l
  | MDone b | MError b => Forall byte b
  | MOther ty b => Forall byte b /\ 0 <= ty < 65536 /\ ~ In ty [2; 3; 16; 17; 24; 25]
  end.

(** The first attribute of a type; a number in four bytes. *)
Definition attr_of (t : Z) (l : list attr) : option (list Z) := option_map at_data (find (fun a => at_type a =? t) l).
Definition num (d : list Z) : Z := nth 0 d 0 + 256 * nth 1 d 0 + 65536 * (nth 2 d 0 + 256 * nth 3 d 0).

(** The default routes with an output interface: unicast, destination of length 0. *)
Definition is_default (r : route) : bool :=
  (rt_type r =? 1) && ((rt_family r =? 2) || (rt_family r =? 10)) && (rt_dst_len r =? 0) &&
  match attr_of 4 (rt_attrs r) with Some _ => true | None => false end.
Definition oif (r : route) : Z := match attr_of 4 (rt_attrs r) with Some d => s32 (num d) | None => -1 end.
Definition gateway (r : route) : option (list Z) := attr_of 5 (rt_attrs r).
(** The metric; Linux leaves the attribute out of routes whose metric is 0. *)
Definition priority (r : route) : option Z := option_map num (attr_of 6 (rt_attrs r)).
Definition metric (r : route) : Z := match priority r with Some p => p | None => 0 end.
(** Numbers have four bytes, gateways those of an address. *)
Definition sized (r : route) : Prop :=
  (forall d, attr_of 4 (rt_attrs r) = Some d -> length d = 4%nat) /\
  (forall d, attr_of 6 (rt_attrs r) = Some d -> length d = 4%nat) /\
  (forall d, attr_of 5 (rt_attrs r) = Some d -> length d = 4%nat \/ length d = 16%nat).

(** The messages of a dump that count: those before its end. *)
Definition ends (m : msg) : bool := match m with MDone _ | MError _ => true | _ => false end.
Fixpoint before_end (l : list (list Z * msg)) : list msg :=
  match l with [] => [] | (_, m) :: l => if ends m then [] else m :: before_end l end.
Definition defaults (l : list msg) : list route :=
  filter is_default (concat (map (fun m => match m with MNewRoute r => [r] | _ => [] end) l)).
(** [r] is the one to use: smallest metric, the first of several. *)
Definition preferred (r : route) (l : list route) : Prop :=
  exists l1 l2, l = l1 ++ r :: l2 /\ (forall x, In x l1 -> metric r < metric x) /\ (forall x, In x l2 -> metric r <= metric x).

(** *** Changes *)
(** The characters before the first NUL. *)
Fixpoint cstr (l : list Z) : list Z := match l with [] => [] | x :: l => if x =? 0 then [] else x :: cstr l end.
Definition link_name (l : link) : option (list Z) := option_map cstr (attr_of 3 (li_attrs l)).
(** Interface names are NUL-terminated. *)
Definition named (m : msg) : Prop := match m with MNewLink l => forall d, attr_of 3 (li_attrs l) = Some d -> In 0 d | _ => True end.
Fixpoint before_done (l : list (list Z * msg)) : list msg :=
  match l with [] => [] | (_, m) :: l => match m with MDone _ => [] | _ => m :: before_done l end end.

(** The rule of the code: a route with a metric below the maximum beats those without
    the attribute, whatever its value; of those without, the first. *)
Definition valued (r : route) : bool := match priority r with Some p => p <? 4294967295 | None => false end.
Definition by_rule (r : route) (l : list route) : Prop :=
  exists l1 l2, l = l1 ++ r :: l2 /\
    if valued r then (forall x, In x l1 -> valued x = true -> metric r < metric x) /\ (forall x, In x l2 -> valued x = true -> metric r <= metric x)
    else priority r = None /\ (forall x, In x (l1 ++ l2) -> valued x = false) /\ (forall x, In x l1 -> priority x <> None).
