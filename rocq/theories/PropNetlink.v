(** * C55: Reading the kernel's routes and links *)
From Verif Require Import Base NetlinkSpec Netlink NetlinkProof NetlinkSafe.

(** What the answers of the kernel consist of: one datagram, at most with the end of the
    dump in a second one. *)
Definition ending (tl : list (list Z)) : Prop := tl = [] \/ exists hd e, tl = [enc [(hd, MDone e)]] /\ ok_msg (hd, MDone e) /\ (length e <= 12)%nat.

Lemma dump_read af b ms tl : length b = BUFSZ -> Forall ok_msg ms -> (length (enc ms) <= BUFSZ)%nat -> ending tl ->
  Forall sized (defaults (before_end ms)) ->
  let s := fold_left keep (defaults (before_end ms)) (0, None) in
  get_default_rt af b (enc ms :: tl) = Ok (Some (match snd s with Some r => Some (mkAns (oif r) (Z.min 2 (fst s)) (gateway r)) | None => None end)).
Proof.
  intros LB OK LE EN SZ s. pose proof BUFSZ_Z as BZ. unfold get_default_rt. cbn [dump].
  destruct (Nat.eqb_spec (length (enc ms)) 0) as [Z0|NZ].
  { pose proof (enc_count ms OK) as C. destruct ms as [|x ms]; [reflexivity|]. cbn [length] in C. lia. }
  assert (Forall (fun r => is_default r = true -> sized r) (new_routes (before_end ms))) as SZ2.
  { rewrite Forall_forall in SZ |- *. intros r I D. apply SZ. unfold defaults. apply filter_In. split; [exact I|exact D]. }
  destruct (routes_read ms OK SZ2 BUFSZ [] (skipn (length (enc ms)) b) acc0 (0, None)) as (a & RA & AG).
  { pose proof (enc_count ms OK). lia. } { lia. } { apply agree0. }
  cbn [app length] in RA, AG. change (Z.of_nat 0) with 0 in RA.
  assert (fold_left keep (new_routes (before_end ms)) (0, None) = s) as FS by (rewrite keep_filter; reflexivity). rewrite FS in AG.
  rewrite (firstn_all2 (enc ms)) by lia. rewrite (fill_eq b (enc ms)) by lia. rewrite RA. cbn [bind].
  set (b1 := enc ms ++ skipn (length (enc ms)) b) in *.
  destruct (existsb (fun x => ends (snd x)) ms); [cbn [bind]; rewrite (finish_read af b1 a s AG); reflexivity|].
  destruct EN as [-> | (hd & e & -> & OKe & Le)]; cbn [dump bind].
  - rewrite (finish_read af b1 a s AG). reflexivity.
  - assert (length (enc [(hd, MDone e)]) = 16 + length e)%nat as L2.
    { unfold enc. cbn [map concat fst snd]. rewrite app_nil_r. destruct OKe as (LH & _). rewrite enc_msg_len by exact LH. reflexivity. }
    destruct (Nat.eqb_spec (length (enc [(hd, MDone e)])) 0); [lia|].
    rewrite (firstn_all2 (enc [(hd, MDone e)])) by lia. rewrite (fill_eq b1) by lia.
    set (b2 := enc [(hd, MDone e)] ++ skipn (length (enc [(hd, MDone e)])) b1).
    assert (agree b2 a s) as AG2 by (apply agree_fill; [lia|exact AG]).
    destruct (routes_read [(hd, MDone e)] ltac:(constructor; [exact OKe|constructor]) ltac:(constructor) BUFSZ [] (skipn (length (enc [(hd, MDone e)])) b1) a s) as (a2 & R2 & AG3).
    { cbn [length]. lia. } { lia. } { exact AG2. }
    cbn [app length] in R2, AG3. change (Z.of_nat 0) with 0 in R2. fold b2 in R2, AG3. rewrite R2. cbn [existsb ends snd orb bind].
    rewrite (finish_read af b2 a2 s AG3). reflexivity.
Qed.

(** The route reported is the one the rule says, with its interface, its gateway, and
    the number of default routes (at most 2). *)
Theorem C55_rule : forall af b ms tl, length b = BUFSZ -> Forall ok_msg ms -> (length (enc ms) <= BUFSZ)%nat -> ending tl ->
  Forall sized (defaults (before_end ms)) ->
  exists res, get_default_rt af b (enc ms :: tl) = Ok (Some res) /\
    match res with
    | None => forall r, In r (defaults (before_end ms)) -> priority r <> None /\ valued r = false
    | Some an => exists r, by_rule r (defaults (before_end ms)) /\ an_oif an = oif r /\ an_gw an = gateway r /\
        an_cnt an = Z.min 2 (Z.of_nat (length (defaults (before_end ms))))
    end.
Proof.
  intros af b ms tl LB OK LE EN SZ. pose proof (dump_read af b ms tl LB OK LE EN SZ) as D. cbn zeta in D.
  assert (Forall (fun r => is_default r = true) (defaults (before_end ms))) as DF.
  { apply Forall_forall. intros r I. unfold defaults in I. apply filter_In in I. tauto. }
  destruct (rule _ DF) as [RC RB]. eexists. split; [exact D|]. destruct (snd (fold_left keep (defaults (before_end ms)) (0, None))) as [r|].
  - exists r. cbn [an_oif an_gw an_cnt]. split; [exact RB|]. split; [reflexivity|]. split; [reflexivity|]. rewrite RC. reflexivity.
  - exact RB.
Qed.

(** If every default route carries a metric (below the maximum), the one with the smallest is
    reported; no default route: none is.  Missing: routes whose metric is 0, see below. *)
Theorem C55_preferred_partial : forall af b ms tl, length b = BUFSZ -> Forall ok_msg ms -> (length (enc ms) <= BUFSZ)%nat -> ending tl ->
  Forall sized (defaults (before_end ms)) -> (forall r, In r (defaults (before_end ms)) -> exists p, priority r = Some p /\ p < 4294967295) ->
  exists res, get_default_rt af b (enc ms :: tl) = Ok (Some res) /\
    match res with
    | None => defaults (before_end ms) = []
    | Some an => exists r, preferred r (defaults (before_end ms)) /\ an_oif an = oif r /\ an_gw an = gateway r /\
        an_cnt an = Z.min 2 (Z.of_nat (length (defaults (before_end ms))))
    end.
Proof.
  intros af b ms tl LB OK LE EN SZ ALL. destruct (C55_rule af b ms tl LB OK LE EN SZ) as (res & E & R). exists res. split; [exact E|].
  assert (forall r, In r (defaults (before_end ms)) -> valued r = true) as V.
  { intros r I. destruct (ALL r I) as (p & P & L). unfold valued. rewrite P. lia. }
  destruct res as [an|].
  - destruct R as (r & (l1 & l2 & EQ & RU) & R2). exists r. split; [|exact R2]. exists l1, l2. split; [exact EQ|].
    rewrite V in RU by (rewrite EQ; apply in_elt). destruct RU as [U1 U2].
    split; intros x I; [apply U1|apply U2]; try exact I; apply V; rewrite EQ; apply in_or_app; [left; exact I|right; right; exact I].
  - destruct (defaults (before_end ms)) as [|r l]; [reflexivity|]. destruct (R r (or_introl eq_refl)) as [_ N]. rewrite V in N by (left; reflexivity). discriminate.
Qed.

(** A change notification does what its messages mean, up to the end marker and in order,
    whatever follows it in the buffer. *)
Theorem C55_changes : forall ms rest, Forall ok_msg ms -> Forall named (before_done ms) ->
  (length (enc ms ++ rest) = BUFSZ)%nat -> (6 <= length rest)%nat ->
  process_rtmsg BUFSZ (enc ms ++ rest) 0 (Z.of_nat (length (enc ms))) = Ok (Some (concat (map meant (before_done ms)))).
Proof.
  intros ms rest OK NM LB LR. apply (process_read ms OK NM BUFSZ [] rest).
  - pose proof (enc_count ms OK). pose proof BUFSZ_Z. rewrite app_length in LB. lia.
  - cbn [app]. lia.
  - exact LR.
Qed.

(** Whatever bytes arrive, the dump loop ends and reads only the buffer, provided each
    datagram leaves 12 bytes of it. *)
Theorem C55_dump_inside : forall b ds, Forall byte b -> length b = BUFSZ -> Forall (fun d => Forall byte d /\ (length d + 12 <= BUFSZ)%nat) ds ->
  exists b' a, dump b ds acc0 = Ok (Some (b', a)).
Proof. intros b ds B LB H. now apply dump_inside. Qed.
(** Attributes are only found inside their message. *)
Theorem C55_attrs_inside : forall b o len count, Forall byte b -> 0 <= o -> 0 <= len -> o + len <= Z.of_nat (length b) ->
  exists t, parse_rtattrs (Z.to_nat len) b o len count no_attrs = Ok (Some t) /\
    forall ty x, t ty = Some x -> o <= x /\ exists l, rd16 b x = Ok l /\ 4 <= l /\ x + l <= o + len.
Proof.
  intros b o len count B HO HL HB. destruct (attrs_inside b count o (o + len) B HB (Z.to_nat len) o len no_attrs) as (t & E & P); try lia; [discriminate|].
  exists t. split; [exact E|]. intros ty x T. destruct (P ty x T) as (P1 & _ & P3). split; [exact P1|exact P3].
Qed.

(** ** Concrete data *)
Definition HD : list Z := repeat 0 10.
Definition EMPTY : list Z := repeat 0 BUFSZ.
Definition four (n : Z) : list Z := le32 n.
Definition rt_ (i : Z) (pri : option Z) (gw : list Z) : route :=
  mkRoute 2 0 1 [0; 0; 254; 3; 0] [0; 0; 0; 0]
    ([mkAttr 15 (four 254)] ++ match pri with Some p => [mkAttr 6 (four p)] | None => [] end ++ [mkAttr 5 gw; mkAttr 4 (four i)]).
Definition subnet : route := mkRoute 2 24 1 [0; 0; 254; 3; 0] [0; 0; 0; 0] [mkAttr 1 [10; 0; 0; 0]; mkAttr 4 (four 9)].
Definition done_ : list Z * msg := (HD, MDone [0; 0; 0; 0]).
Definition dump1 : list (list Z * msg) := [(HD, MNewRoute (rt_ 7 (Some 600) [10; 0; 0; 1])); (HD, MNewRoute subnet); (HD, MNewRoute (rt_ 3 (Some 100) [10; 1; 0; 1]))].
Ltac okm := unfold ok_msg, ok_route, ok_link, ok_attr, byte; cbn; repeat (match goal with |- _ /\ _ => split | |- Forall _ _ => constructor end); try lia; try reflexivity.
Lemma dump1_ok : Forall ok_msg dump1. Proof. repeat constructor; okm. Qed.
Lemma done_ok : ok_msg done_. Proof. okm. Qed.
Example preferred_found : Forall ok_msg dump1 /\ ending [enc [done_]] /\ (length (enc dump1) <= BUFSZ)%nat /\ Forall sized (defaults (before_end dump1)) /\
  (forall r, In r (defaults (before_end dump1)) -> exists p, priority r = Some p /\ p < 4294967295) /\
  get_default_rt 2 EMPTY [enc dump1; enc [done_]] = Ok (Some (Some (mkAns 3 2 (Some [10; 1; 0; 1])))).
Proof.
  split; [exact dump1_ok|]. split; [right; exists HD, [0; 0; 0; 0]; split; [reflexivity|]; split; [exact done_ok|cbn; lia]|].
  split; [apply Nat.leb_le; vm_compute; reflexivity|].
  assert (defaults (before_end dump1) = [rt_ 7 (Some 600) [10; 0; 0; 1]; rt_ 3 (Some 100) [10; 1; 0; 1]]) as -> by reflexivity.
  split; [apply Forall_forall; intros r [<-|[<-|[]]]; (split; [|split]); intros d E; apply (f_equal (option_map (@length Z))) in E; cbn in E; injection E as <-; auto|].
  split; [intros r [<-|[<-|[]]]; [exists 600|exists 100]; (split; [reflexivity|lia])|]. vm_compute. reflexivity.
Qed.
Definition changes : list (list Z * msg) :=
  [(HD, MNewLink (mkLink 0 1 5 (repeat 0 8) [mkAttr 3 [119; 108; 97; 110; 48; 0]; mkAttr 4 (four 1500)])); (HD, MDelRoute subnet); (HD, MDelLink (mkLink 0 1 6 (repeat 0 8) []))].
Example changes_done : Forall ok_msg changes /\ Forall named (before_done changes) /\
  process_rtmsg BUFSZ (enc changes ++ repeat 0 (BUFSZ - length (enc changes))) 0 (Z.of_nat (length (enc changes))) = Ok (Some [ALinkNew 5 (Some [119; 108; 97; 110; 48]) 1; ACheck; ALinkDel 6]).
Proof.
  split; [repeat constructor; okm|]. split; [repeat constructor; intros d E; injection E as <-; cbn; tauto|]. vm_compute. reflexivity.
Qed.

(** ** What does not hold *)
(** A default route with metric 0 - the most preferred, sent without the attribute - loses to any other. *)
Definition dump0 : list (list Z * msg) := [(HD, MNewRoute (rt_ 7 None [10; 0; 0; 1])); (HD, MNewRoute (rt_ 3 (Some 100) [10; 1; 0; 1]))].
Theorem C55_metric_zero_refuted : Forall ok_msg dump0 /\ preferred (rt_ 7 None [10; 0; 0; 1]) (defaults (before_end dump0)) /\
  get_default_rt 2 EMPTY [enc dump0; enc [done_]] = Ok (Some (Some (mkAns 3 2 (Some [10; 1; 0; 1])))).
Proof.
  split; [repeat constructor; okm|]. split; [|vm_compute; reflexivity]. exists [], [rt_ 3 (Some 100) [10; 1; 0; 1]]. split; [reflexivity|]. split; [intros x []|].
  intros x [<-|[]]. vm_compute. discriminate.
Qed.
(** A dump in two datagrams: the preferred route is in the first, the answer comes from the second. *)
Definition part1 : list (list Z * msg) := [(HD, MNewRoute (rt_ 7 (Some 10) [10; 0; 0; 1]))].
Definition part2 : list (list Z * msg) := [(HD, MNewRoute (rt_ 3 (Some 20) [10; 1; 0; 1]))].
Theorem C55_second_datagram_refuted : Forall ok_msg (part1 ++ part2) /\
  preferred (rt_ 7 (Some 10) [10; 0; 0; 1]) (defaults (before_end (part1 ++ part2))) /\
  get_default_rt 2 EMPTY [enc part1; enc part2; enc [done_]] = Ok (Some (Some (mkAns 3 2 (Some [10; 1; 0; 1])))).
Proof.
  split; [repeat constructor; okm|]. split; [|vm_compute; reflexivity]. exists [], [rt_ 3 (Some 20) [10; 1; 0; 1]]. split; [reflexivity|]. split; [intros x []|].
  intros x [<-|[]]. vm_compute. discriminate.
Qed.
(** A datagram that fills the buffer and ends with a bare header: the rtmsg behind it is read
    outside.  The first message is skipped, its body is arbitrary. *)
Definition full : list Z := enc_msg HD (MOther 99 (repeat 0 (Z.to_nat 16352))) ++ enc_msg HD (MOther 24 []).
Theorem C55_full_datagram_refuted : length full = BUFSZ /\ Forall byte full /\ get_default_rt 2 EMPTY [full] = UB.
Proof.
  split; [apply Nat.eqb_eq; vm_compute; reflexivity|]. split; [|vm_compute; reflexivity].
  assert (forallb (fun x => (0 <=? x) && (x <? 256)) full = true) as H by (vm_compute; reflexivity).
  apply Forall_forall. intros x I. rewrite forallb_forall in H. specialize (H x I). unfold byte. lia.
Qed.
(** A change notification of 17 bytes: the remaining length wraps around, and the stale bytes
    behind it are taken for further messages. *)
Definition odd : list Z := enc_msg HD (MOther 99 [0]).
Definition stale : list Z := [0; 0; 0] ++ enc_msg HD (MNewRoute subnet) ++ enc [done_] ++ repeat 0 100.
Theorem C55_length_wraps_refuted : length odd = 17%nat /\ process_rtmsg BUFSZ (odd ++ stale) 0 17 = Ok (Some [ACheck]).
Proof. split; vm_compute; reflexivity. Qed.
(** A notification that fills the buffer: the type of the message behind it is read outside. *)
Definition full2 : list Z := enc_msg HD (MOther 99 (repeat 0 (Z.to_nat 16368))).
Theorem C55_full_notification_refuted : length full2 = BUFSZ /\ process_rtmsg BUFSZ full2 0 16384 = UB.
Proof. split; [apply Nat.eqb_eq|]; vm_compute; reflexivity. Qed.

Print Assumptions C55_rule.
Print Assumptions C55_preferred_partial.
Print Assumptions C55_changes.
Print Assumptions C55_dump_inside.
Print Assumptions C55_attrs_inside.
Print Assumptions C55_second_datagram_refuted.
Print Assumptions C55_length_wraps_refuted.
