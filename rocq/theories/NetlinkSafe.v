(** * Changes, and arbitrary bytes *)
From Verif Require Import Base NetlinkSpec Netlink NetlinkProof.
Opaque BUFSZ.
Lemma BUFSZ_Z : Z.of_nat BUFSZ = 16384. Proof. reflexivity. Qed.

Lemma fill_eq b d : (length d <= BUFSZ)%nat -> fill b d = d ++ skipn (length d) b.
Proof. intros L. unfold fill. rewrite firstn_all2 by exact L. reflexivity. Qed.
Lemma fill_length b d : length b = BUFSZ -> length (fill b d) = BUFSZ.
Proof. intros L. unfold fill. rewrite app_length, skipn_length, firstn_length, L. lia. Qed.

(** ** Changes *)
(** What a message means for the cache and the default route. *)
Definition meant (m : msg) : list action :=
  match m with
  | MNewRoute _ | MDelRoute _ => [ACheck]
  | MNewLink l => [ALinkNew (li_index l) (link_name l) (li_type l)]
  | MDelLink l => [ALinkDel (li_index l)]
  | _ => []
  end.
Lemma rdstr_at d : forall fuel p q o, In 0 d -> (length d < fuel)%nat -> o = Z.of_nat (length p) -> rdstr fuel (p ++ d ++ q) o = Ok (Some (cstr d)).
Proof.
  induction d as [|x d IH]; intros fuel p q o I F ->; [destruct I|]. destruct fuel as [|fuel]; [cbn [length] in F; lia|]. cbn [length] in F.
  cbn [rdstr app]. rewrite rd8_at by reflexivity. cbn [bind cstr]. destruct (Z.eqb_spec x 0) as [E|E]; [reflexivity|].
  destruct I as [I|I]; [congruence|]. replace (p ++ x :: d ++ q) with ((p ++ [x]) ++ d ++ q) by (rewrite <- app_assoc; reflexivity).
  rewrite IH by (try assumption; rewrite ?app_length; cbn [length]; lia). reflexivity.
Qed.
Lemma holds_str b o d fuel : holds b o d -> In 0 d -> (length d < fuel)%nat -> rdstr fuel b (o + 4) = Ok (Some (cstr d)).
Proof.
  intros (p & q & ty & -> & ->) I F. rewrite !app_assoc. rewrite <- app_assoc. apply rdstr_at; try assumption. rewrite !app_length, !le16_len. lia.
Qed.
Lemma s32_mod x : -2147483648 <= x < 2147483648 -> s32 (x mod 4294967296) = x.
Proof.
  intros H. unfold s32, wrap_signed. rewrite Z.mod_mod by lia. change (4294967296 / 2) with 2147483648.
  destruct (Z.ltb_spec x 0).
  - assert (x mod 4294967296 = x + 4294967296) as -> by (rewrite <- (Z.mod_add x 1) by lia; rewrite Z.mod_small; lia). destruct (Z.leb_spec 2147483648 (x + 4294967296)); lia.
  - rewrite Z.mod_small by lia. destruct (Z.leb_spec 2147483648 x); lia.
Qed.
Lemma link_read p hd (m : msg) lk q l : length hd = 10%nat -> ok_link lk -> m = MNewLink lk \/ m = MDelLink lk -> named m ->
  l = Z.of_nat (length (enc_msg hd m)) -> l <= 16384 ->
  let b := p ++ enc_msg hd m ++ q in (length b <= BUFSZ)%nat ->
  update_ifinfos b (Z.of_nat (length p)) l (type_of m) = Ok (Some (meant m)).
Proof.
  intros LH (B1 & B2 & B3 & B4 & L8 & OA) EM NM EL BL b LB.
  assert (body_of m = enc_link lk) as EBD by (destruct EM as [-> | ->]; reflexivity).
  assert (length (enc_link lk) = 16 + length (enc_attrs (li_attrs lk)))%nat as LL.
  { unfold enc_link. rewrite !app_length, le16_len, le32_len, L8. cbn [length]. lia. }
  pose proof (enc_msg_len hd m LH) as LM. rewrite EBD in LM.
  set (pre := p ++ le32 (16 + Z.of_nat (length (body_of m))) ++ le16 (type_of m) ++ hd).
  assert (Z.of_nat (length pre) = Z.of_nat (length p) + 16) as LP by (unfold pre; rewrite !app_length, le32_len, le16_len, LH; lia).
  assert (b = pre ++ [li_family lk; 0] ++ le16 (li_type lk) ++ le32 (li_index lk mod 4294967296) ++ li_flags lk ++ enc_attrs (li_attrs lk) ++ q) as EB.
  { unfold b, enc_msg, pre. rewrite EBD. unfold enc_link. rewrite <- !app_assoc. reflexivity. }
  unfold update_ifinfos. assert (((type_of m =? RTM_NEWLINK) || (type_of m =? RTM_DELLINK)) = true) as -> by (destruct EM as [-> | ->]; reflexivity). cbn [negb].
  unfold HDR, IFINFO. destruct (Z.ltb_spec l (16 + 16)); [lia|].
  assert (rd32 b (Z.of_nat (length p) + 16 + 4) = Ok (li_index lk mod 4294967296)) as RI.
  { rewrite EB. rewrite (app_assoc pre), (app_assoc (pre ++ _)). apply rd32_at. rewrite !app_length, le16_len. cbn [length]. lia. }
  rewrite RI. cbn [bind]. rewrite s32_mod by exact B3. destruct EM as [EM|EM]; subst m; cbn [type_of meant].
  2:{ change (17 =? RTM_DELLINK) with true. reflexivity. }
  change (16 =? RTM_DELLINK) with false. cbn iota.
  set (pre2 := pre ++ [li_family lk; 0] ++ le16 (li_type lk) ++ le32 (li_index lk mod 4294967296) ++ li_flags lk).
  assert (b = pre2 ++ enc_attrs (li_attrs lk) ++ q) as ED by (rewrite EB; unfold pre2; rewrite <- !app_assoc; reflexivity).
  assert (Z.of_nat (length pre2) = Z.of_nat (length p) + 32) as LP2 by (unfold pre2; rewrite !app_length, le16_len, le32_len, L8; cbn [length]; lia).
  pose proof (enc_attrs_count _ OA) as CNT.
  destruct (attrs_read IFLA_COUNT (li_attrs lk) OA (Z.to_nat l) pre2 q (Z.of_nat (length p) + 16 + 16) (s32 (u32 (l - (16 + 16)))) no_attrs) as (t & Ht & P).
  { lia. } { lia. } { rewrite s32_small by lia. lia. }
  rewrite <- ED in Ht, P. rewrite Ht. cbn [bind].
  assert (rd16 b (Z.of_nat (length p) + 16 + 2) = Ok (li_type lk)) as RT.
  { rewrite EB. rewrite (app_assoc pre). apply rd16_at. rewrite !app_length. cbn [length]. lia. }
  rewrite RT. cbn [bind]. specialize (P IFLA_IFNAME). cbn [no_attrs] in P. change (IFLA_IFNAME <? IFLA_COUNT) with true in P. cbn iota in P.
  change IFLA_IFNAME with 3 in *. unfold link_name, attr_of. cbn [named] in NM. unfold attr_of in NM.
  destruct (find (fun x => at_type x =? 3) (li_attrs lk)) as [x|]; cbn [option_map] in *.
  - destruct P as (o & T & G & H3). rewrite T. rewrite (holds_str _ _ _ _ H3); [reflexivity|apply NM; reflexivity|].
    pose proof (holds_end _ _ _ H3). lia.
  - rewrite P. reflexivity.
Qed.

Lemma process_read ms : Forall ok_msg ms -> Forall named (before_done ms) ->
  forall fuel p q, (length ms < fuel)%nat ->
  let b := p ++ enc ms ++ q in (length b <= BUFSZ)%nat -> (6 <= length q)%nat ->
  process_rtmsg fuel b (Z.of_nat (length p)) (Z.of_nat (length (enc ms))) = Ok (Some (concat (map meant (before_done ms)))).
Proof.
  induction 1 as [|[hd m] ms OKm OK IH]; intros NM fuel p q F b LB LQ.
  - destruct q as [|q0 [|q1 [|q2 [|q3 [|q4 [|q5 q]]]]]]; try (cbn [length] in LQ; lia).
    assert (exists v, rd16 b (Z.of_nat (length p) + 4) = Ok v) as [v E].
    { exists (q4 + 256 * q5). unfold b, rd16. cbn [enc map concat app].
      replace (p ++ q0 :: q1 :: q2 :: q3 :: q4 :: q5 :: q) with ((p ++ [q0; q1; q2; q3]) ++ q4 :: q5 :: q) by (rewrite <- app_assoc; reflexivity).
      rewrite rd8_at by (rewrite app_length; cbn [length]; lia). cbn [bind].
      replace ((p ++ [q0; q1; q2; q3]) ++ q4 :: q5 :: q) with ((p ++ [q0; q1; q2; q3; q4]) ++ q5 :: q) by (rewrite <- !app_assoc; reflexivity).
      rewrite rd8_at by (rewrite app_length; cbn [length]; lia). reflexivity. }
    destruct fuel; cbn [process_rtmsg]; rewrite E; cbn [bind]; destruct (v =? NLMSG_DONE); reflexivity.
  - destruct fuel as [|fuel]; [cbn [length] in F; lia|]. cbn [length] in F.
    pose proof OKm as (LH & BH & M4 & KIND). cbn [fst snd] in *.
    assert (enc ((hd, m) :: ms) = enc_msg hd m ++ enc ms) as E by reflexivity.
    pose proof (enc_msg_len hd m LH) as LM. pose proof BUFSZ_Z as BZ.
    assert (b = p ++ enc_msg hd m ++ enc ms ++ q) as EB by (unfold b; rewrite E, <- app_assoc; reflexivity).
    assert (Z.of_nat (length (enc_msg hd m)) + Z.of_nat (length (enc ms)) <= 16384) as BL by (rewrite EB, !app_length in LB; lia).
    destruct (head_read p hd m (enc ms ++ q) LH) as [R32 R16]. rewrite <- EB in R32, R16.
    cbn [process_rtmsg]. rewrite R16. cbn [bind]. cbn [before_done] in *.
    assert (type_of m =? NLMSG_DONE = match m with MDone _ => true | _ => false end) as TD.
    { destruct m; try reflexivity. cbn [type_of]. unfold NLMSG_DONE. destruct KIND as (_ & _ & N). destruct (Z.eqb_spec ty 3); [subst; destruct N; cbn; tauto|reflexivity]. }
    rewrite TD. destruct (match m with MDone _ => true | _ => false end) eqn:DN; [destruct m; try discriminate DN; reflexivity|].
    assert (match m with MDone _ => [] | _ => m :: before_done ms end = m :: before_done ms) as BD by (destruct m; try reflexivity; discriminate DN).
    rewrite BD in *. rewrite E, app_length, Nat2Z.inj_add. unfold HDR.
    destruct (Z.ltb_spec (Z.of_nat (length (enc_msg hd m)) + Z.of_nat (length (enc ms))) 16); [lia|].
    rewrite R32. cbn [bind]. destruct (Z.ltb_spec (Z.of_nat (length (enc_msg hd m))) 16); [lia|]. cbn [orb].
    destruct (Z.ltb_spec (Z.of_nat (length (enc_msg hd m)) + Z.of_nat (length (enc ms))) (Z.of_nat (length (enc_msg hd m)))); [lia|].
    assert (align4 (Z.of_nat (length (enc_msg hd m))) = Z.of_nat (length (enc_msg hd m))) as AL by (apply align4_id; [lia|rewrite LM; now apply mod4]).
    rewrite AL. replace (Z.of_nat (length (enc_msg hd m)) + Z.of_nat (length (enc ms)) - Z.of_nat (length (enc_msg hd m))) with (Z.of_nat (length (enc ms))) by lia.
    assert (u64 (Z.of_nat (length (enc ms))) = Z.of_nat (length (enc ms))) as -> by (unfold u64; apply Z.mod_small; lia).
    assert (Z.of_nat (length p) + Z.of_nat (length (enc_msg hd m)) = Z.of_nat (length (p ++ enc_msg hd m))) as -> by (rewrite app_length; lia).
    assert (b = (p ++ enc_msg hd m) ++ enc ms ++ q) as EB2 by (rewrite EB, <- app_assoc; reflexivity).
    assert ((if (type_of m =? RTM_NEWLINK) || (type_of m =? RTM_DELLINK) then update_ifinfos b (Z.of_nat (length p)) (Z.of_nat (length (enc_msg hd m))) (type_of m)
             else Ok (Some (if (type_of m =? RTM_NEWROUTE) || (type_of m =? RTM_DELROUTE) then [ACheck] else []))) = Ok (Some (meant m))) as STEP.
    { pose proof (Forall_inv NM) as N1. destruct m as [r|r|lk|lk|e|e|ty body]; try discriminate DN; try reflexivity.
      - change ((type_of (MNewLink lk) =? RTM_NEWLINK) || (type_of (MNewLink lk) =? RTM_DELLINK)) with true. cbn iota. rewrite EB. apply link_read with (lk := lk); auto; try lia. rewrite <- EB. exact LB.
      - change ((type_of (MDelLink lk) =? RTM_NEWLINK) || (type_of (MDelLink lk) =? RTM_DELLINK)) with true. cbn iota. rewrite EB. apply link_read with (lk := lk); auto; try lia. rewrite <- EB. exact LB.
      - destruct KIND as (_ & _ & N). cbn [type_of meant]. unfold RTM_NEWLINK, RTM_DELLINK, RTM_NEWROUTE, RTM_DELROUTE.
        destruct (Z.eqb_spec ty 16); [subst; destruct N; cbn; tauto|]. destruct (Z.eqb_spec ty 17); [subst; destruct N; cbn; tauto|].
        destruct (Z.eqb_spec ty 24); [subst; destruct N; cbn; tauto|]. destruct (Z.eqb_spec ty 25); [subst; destruct N; cbn; tauto|]. reflexivity. }
    rewrite STEP. cbn [bind]. rewrite EB2. rewrite IH; [reflexivity|exact (Forall_inv_tail NM)|lia|rewrite <- EB2; exact LB|exact LQ].
Qed.

(** ** Arbitrary bytes *)
Lemma rd8_in b o : 0 <= o < Z.of_nat (length b) -> exists v, rd8 b o = Ok v.
Proof.
  intros H. unfold rd8. destruct (Z.ltb_spec o 0); [lia|]. destruct (nth_error b (Z.to_nat o)) as [v|] eqn:E; [now exists v|]. apply nth_error_None in E. lia.
Qed.
Lemma rd16_in b o : 0 <= o -> o + 2 <= Z.of_nat (length b) -> exists v, rd16 b o = Ok v.
Proof. intros H L. unfold rd16. destruct (rd8_in b o ltac:(lia)) as [x ->]. cbn [bind]. destruct (rd8_in b (o + 1) ltac:(lia)) as [y ->]. cbn [bind]. eauto. Qed.
Lemma rd32_in b o : 0 <= o -> o + 4 <= Z.of_nat (length b) -> exists v, rd32 b o = Ok v.
Proof. intros H L. unfold rd32. destruct (rd16_in b o ltac:(lia) ltac:(lia)) as [x ->]. cbn [bind]. destruct (rd16_in b (o + 2) ltac:(lia) ltac:(lia)) as [y ->]. cbn [bind]. eauto. Qed.
Lemma align4_ge n : 4 <= n < 4294967200 -> n <= align4 n /\ 4 <= align4 n.
Proof.
  intros H. unfold align4, u32. rewrite Z.mod_small by lia. pose proof (Z.div_mod (n + 3) 4 ltac:(lia)). pose proof (Z.mod_pos_bound (n + 3) 4 ltac:(lia)). lia.
Qed.
Lemma rd8_byte b o v : Forall byte b -> rd8 b o = Ok v -> byte v.
Proof.
  intros B. unfold rd8. destruct (o <? 0); [discriminate|]. destruct (nth_error b (Z.to_nat o)) as [x|] eqn:E; [|discriminate]. intros H. apply ok_inj in H. subst.
  rewrite Forall_forall in B. apply B. now apply nth_error_In in E.
Qed.
Lemma rd16_range b o v : Forall byte b -> rd16 b o = Ok v -> 0 <= v < 65536.
Proof.
  intros B. unfold rd16. destruct (rd8 b o) as [x| |] eqn:E1; try discriminate. cbn [bind]. destruct (rd8 b (o + 1)) as [y| |] eqn:E2; try discriminate. cbn [bind].
  intros H. apply ok_inj in H. subst. apply rd8_byte in E1; [|exact B]. apply rd8_byte in E2; [|exact B]. unfold byte in *. lia.
Qed.

(** Attributes found in [o, o + len) lie inside. *)
Lemma attrs_inside b count lo hi : Forall byte b -> hi <= Z.of_nat (length b) -> forall fuel o len a, (Z.to_nat len <= 4 * fuel)%nat -> 0 <= lo -> lo <= o -> o + len <= hi ->
  (forall ty x, a ty = Some x -> lo <= x /\ x + 4 <= hi /\ exists l, rd16 b x = Ok l /\ 4 <= l /\ x + l <= hi) ->
  exists t, parse_rtattrs fuel b o len count a = Ok (Some t) /\
    forall ty x, t ty = Some x -> lo <= x /\ x + 4 <= hi /\ exists l, rd16 b x = Ok l /\ 4 <= l /\ x + l <= hi.
Proof.
  intros B HB. induction fuel as [|fuel IH]; intros o len a F L0 O H A; cbn [parse_rtattrs].
  - destruct (Z.ltb_spec len 4); [|lia]. exists a. auto.
  - destruct (Z.ltb_spec len 4); [exists a; auto|]. destruct (rd16_in b o ltac:(lia) ltac:(lia)) as [l El]. rewrite El. cbn [bind].
    pose proof (rd16_range b o l B El). destruct (Z.ltb_spec l 4); [exists a; auto|]. cbn [orb]. destruct (Z.ltb_spec len l); [exists a; auto|].
    destruct (rd16_in b (o + 2) ltac:(lia) ltac:(lia)) as [ty Ety]. rewrite Ety. cbn [bind]. pose proof (align4_ge l ltac:(lia)) as [AG AG4].
    apply IH; try lia. intros t0 x. destruct (ty <? count); [|apply A]. destruct (a ty); [apply A|]. destruct (t0 =? ty); [|apply A].
    intros Ex. assert (o = x) by congruence. subst x. split; [lia|]. split; [lia|]. exists l. split; [exact El|lia].
Qed.
Lemma route_inside b h l a : Forall byte b -> 0 <= h -> 16 <= l <= 16384 -> h + l + 12 <= Z.of_nat (length b) -> exists a', route_msg b h l a = Ok (Some a').
Proof.
  intros B H L HB. unfold route_msg, HDR, RTMSG. destruct (rd8_in b (h + 16 + 7) ltac:(lia)) as [ty ->]. cbn [bind]. destruct (ty =? RTN_UNICAST); cbn [negb]; [|eauto].
  destruct (rd8_in b (h + 16) ltac:(lia)) as [fam ->]. cbn [bind]. destruct ((fam =? AF_INET) || (fam =? AF_INET6)); cbn [negb]; [|eauto].
  destruct (rd8_in b (h + 16 + 1) ltac:(lia)) as [dl ->]. cbn [bind]. destruct (dl =? 0); cbn [negb]; [|eauto].
  assert (s32 (u32 (l - (16 + 12))) = l - 28) as SE.
  { unfold s32, u32, wrap_signed. rewrite Z.mod_mod by lia. change (4294967296 / 2) with 2147483648. destruct (Z.ltb_spec (l - 28) 0).
    - assert ((l - (16 + 12)) mod 4294967296 = l - 28 + 4294967296) as -> by (rewrite <- (Z.mod_add _ 1) by lia; rewrite Z.mod_small; lia). destruct (Z.leb_spec 2147483648 (l - 28 + 4294967296)); lia.
    - rewrite Z.mod_small by lia. destruct (Z.leb_spec 2147483648 (l - (16 + 12))); lia. }
  rewrite SE. destruct (attrs_inside b RTA_COUNT (h + 28) (Z.max (h + 28) (h + l)) B ltac:(lia) (Z.to_nat l) (h + 16 + 12) (l - 28) no_attrs) as (t & -> & P); try lia; [discriminate|].
  cbn [bind]. destruct (t RTA_OIF) as [oif|]; [|eauto]. destruct (t RTA_PRIORITY) as [pp|] eqn:EP; [|eauto].
  destruct (P _ _ EP) as (P1 & P2 & _). destruct (rd32_in b (pp + 4) ltac:(lia) ltac:(lia)) as [pri ->]. cbn [bind]. eauto.
Qed.
Lemma routes_inside b top : Forall byte b -> top + 12 <= Z.of_nat (length b) -> top <= 16384 -> forall fuel h err a, (Z.to_nat err <= 16 * fuel)%nat -> 0 <= h -> h + err <= top ->
  exists f a', routes fuel b h err a = Ok (Some (f, a')).
Proof.
  intros B HB TB. induction fuel as [|fuel IH]; intros h err a F H HE; cbn [routes]; unfold HDR.
  - destruct (Z.ltb_spec err 16); [eauto|lia].
  - destruct (Z.ltb_spec err 16); [eauto|]. destruct (rd32_in b h ltac:(lia) ltac:(lia)) as [l ->]. cbn [bind].
    destruct (Z.ltb_spec l 16); [cbn [orb]; eauto|]. cbn [orb]. destruct (Z.ltb_spec err l); [eauto|].
    destruct (rd16_in b (h + 4) ltac:(lia) ltac:(lia)) as [ty ->]. cbn [bind]. destruct ((ty =? NLMSG_DONE) || (ty =? NLMSG_ERROR)); [eauto|].
    assert (exists a', (if ty =? RTM_NEWROUTE then route_msg b h l a else Ok (Some a)) = Ok (Some a')) as [a' ->].
    { destruct (ty =? RTM_NEWROUTE); [apply route_inside; [exact B|lia|lia|lia]|eauto]. }
    cbn [bind]. pose proof (align4_ge l ltac:(lia)) as [AG _]. apply IH; lia.
Qed.
Lemma dump_inside ds : Forall (fun d => Forall byte d /\ (length d + 12 <= BUFSZ)%nat) ds -> forall b a, Forall byte b -> length b = BUFSZ ->
  exists b' a', dump b ds a = Ok (Some (b', a')).
Proof.
  pose proof BUFSZ_Z as BZ. induction 1 as [|d ds [Bd Ld] H IH]; intros b a B LB; cbn [dump]; [eauto|].
  destruct (length d =? 0)%nat; [eauto|].
  assert (Forall byte (fill b d)) as BF.
  { unfold fill. apply Forall_app. split; [rewrite firstn_all2 by lia; exact Bd|]. rewrite Forall_forall in *. intros x I. apply B. rewrite <- (firstn_skipn (length (firstn BUFSZ d)) b). apply in_or_app. now right. }
  rewrite (firstn_all2 d) by lia.
  destruct (routes_inside (fill b d) (Z.of_nat (length d)) BF) with (fuel := BUFSZ) (h := 0) (err := Z.of_nat (length d)) (a := a) as (f & a' & ->); try lia.
  { rewrite fill_length by exact LB. lia. }
  cbn [bind]. destruct f; [eauto|]. apply IH; [exact BF|now apply fill_length].
Qed.
