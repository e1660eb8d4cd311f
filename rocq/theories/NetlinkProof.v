(** * Reading encoded messages back *)
From Verif Require Import Base NetlinkSpec Netlink.

Lemma ok_inj {A} (x y : A) : Ok x = Ok y -> x = y. Proof. congruence. Qed.
Lemma rd8_at p x q o : o = Z.of_nat (length p) -> rd8 (p ++ x :: q) o = Ok x.
Proof.
  intros ->. unfold rd8. destruct (Z.ltb_spec (Z.of_nat (length p)) 0); [lia|].
  rewrite Nat2Z.id, nth_error_app2, Nat.sub_diag by lia. reflexivity.
Qed.
Lemma rd16_at p v q o : o = Z.of_nat (length p) -> rd16 (p ++ le16 v ++ q) o = Ok v.
Proof.
  intros ->. unfold rd16, le16. cbn [app]. rewrite (rd8_at p _ _ _ eq_refl). cbn [bind].
  replace (p ++ v mod 256 :: v / 256 :: q) with ((p ++ [v mod 256]) ++ v / 256 :: q) by (rewrite <- app_assoc; reflexivity).
  rewrite rd8_at by (rewrite app_length; cbn [length]; lia). cbn [bind]. f_equal. pose proof (Z.div_mod v 256 ltac:(lia)). lia.
Qed.
Lemma le16_len v : length (le16 v) = 2%nat. Proof. reflexivity. Qed.
Lemma le32_len v : length (le32 v) = 4%nat. Proof. reflexivity. Qed.
Lemma rd32_at p v q o : o = Z.of_nat (length p) -> rd32 (p ++ le32 v ++ q) o = Ok v.
Proof.
  intros ->. unfold rd32, le32. rewrite <- app_assoc. rewrite rd16_at by reflexivity. cbn [bind].
  rewrite app_assoc. rewrite rd16_at by (rewrite app_length, le16_len; lia). cbn [bind]. f_equal. pose proof (Z.div_mod v 65536 ltac:(lia)). lia.
Qed.
Lemma rdn_at d : forall p q o, o = Z.of_nat (length p) -> rdn (p ++ d ++ q) o (length d) = Ok d.
Proof.
  induction d as [|x d IH]; intros p q o ->; [reflexivity|]. cbn [rdn length app]. rewrite rd8_at by reflexivity. cbn [bind].
  replace (p ++ x :: d ++ q) with ((p ++ [x]) ++ d ++ q) by (rewrite <- app_assoc; reflexivity).
  rewrite IH by (rewrite app_length; cbn [length]; lia). reflexivity.
Qed.
(** Four bytes as a number. *)
Lemma rd32_num p d q o : length d = 4%nat -> o = Z.of_nat (length p) -> rd32 (p ++ d ++ q) o = Ok (num d).
Proof.
  intros L ->. destruct d as [|a [|b [|c [|e [|]]]]]; try discriminate. clear L. unfold rd32, rd16, num. cbn [app nth].
  rewrite rd8_at by reflexivity. cbn [bind].
  replace (p ++ a :: b :: c :: e :: q) with ((p ++ [a]) ++ b :: c :: e :: q) by (rewrite <- app_assoc; reflexivity).
  rewrite rd8_at by (rewrite app_length; cbn [length]; lia). cbn [bind].
  replace ((p ++ [a]) ++ b :: c :: e :: q) with ((p ++ [a; b]) ++ c :: e :: q) by (rewrite <- !app_assoc; reflexivity).
  rewrite rd8_at by (rewrite app_length; cbn [length]; lia). cbn [bind].
  replace ((p ++ [a; b]) ++ c :: e :: q) with ((p ++ [a; b; c]) ++ e :: q) by (rewrite <- !app_assoc; reflexivity).
  rewrite rd8_at by (rewrite app_length; cbn [length]; lia). cbn [bind]. reflexivity.
Qed.

(** ** Sizes *)
Lemma padded_len l : Z.of_nat (length (padded l)) = (Z.of_nat (length l) + 3) / 4 * 4.
Proof.
  unfold padded. rewrite app_length, repeat_length. pose proof (Nat.div_mod (length l) 4 ltac:(lia)) as D. pose proof (Nat.mod_upper_bound (length l) 4 ltac:(lia)) as M.
  remember (length l mod 4)%nat as m. remember (length l / 4)%nat as k. remember (length l) as n. clear Heqm Heqk Heqn.
  pose proof (Z.div_mod (Z.of_nat n + 3) 4 ltac:(lia)) as D2. pose proof (Z.mod_pos_bound (Z.of_nat n + 3) 4 ltac:(lia)) as M2.
  assert (m = 0 \/ m = 1 \/ m = 2 \/ m = 3)%nat as C by lia. destruct C as [E|[E|[E|E]]]; subst m.
  - change ((4 - 0) mod 4)%nat with 0%nat. lia.
  - change ((4 - 1) mod 4)%nat with 3%nat. lia.
  - change ((4 - 2) mod 4)%nat with 2%nat. lia.
  - change ((4 - 3) mod 4)%nat with 1%nat. lia.
Qed.
Lemma enc_attr_len a : ok_attr a -> Z.of_nat (length (enc_attr a)) = align4 (4 + Z.of_nat (length (at_data a))).
Proof.
  intros (_ & L & _). unfold enc_attr, align4, u32. rewrite !app_length, !le16_len, !Nat2Z.inj_add, padded_len, Z.mod_small by lia.
  pose proof (Z.div_mod (Z.of_nat (length (at_data a)) + 3) 4 ltac:(lia)). pose proof (Z.mod_pos_bound (Z.of_nat (length (at_data a)) + 3) 4 ltac:(lia)).
  pose proof (Z.div_mod (4 + Z.of_nat (length (at_data a)) + 3) 4 ltac:(lia)). pose proof (Z.mod_pos_bound (4 + Z.of_nat (length (at_data a)) + 3) 4 ltac:(lia)). lia.
Qed.
Lemma padded_app d : exists z, padded d = d ++ z. Proof. eexists. reflexivity. Qed.

(** ** Attributes *)
(** At [o] there is an attribute with the data [d]. *)
Definition holds (b : list Z) (o : Z) (d : list Z) : Prop :=
  exists p q ty, b = p ++ le16 (4 + Z.of_nat (length d)) ++ le16 ty ++ d ++ q /\ o = Z.of_nat (length p).
Lemma holds_len b o d : holds b o d -> rd16 b o = Ok (4 + Z.of_nat (length d)).
Proof. intros (p & q & ty & -> & ->). apply rd16_at. reflexivity. Qed.
Lemma holds_data b o d : holds b o d -> rdn b (o + 4) (length d) = Ok d.
Proof.
  intros (p & q & ty & -> & ->). rewrite !app_assoc. rewrite <- app_assoc. apply rdn_at. rewrite !app_length, !le16_len. lia.
Qed.
Lemma holds_num b o d : holds b o d -> length d = 4%nat -> rd32 b (o + 4) = Ok (num d).
Proof.
  intros (p & q & ty & -> & ->) L. rewrite !app_assoc. rewrite <- app_assoc. apply rd32_num; [exact L|]. rewrite !app_length, !le16_len. lia.
Qed.
Lemma holds_end b o d : holds b o d -> 0 <= o /\ o + 4 + Z.of_nat (length d) <= Z.of_nat (length b).
Proof. intros (p & q & ty & -> & ->). rewrite !app_length, !le16_len. lia. Qed.

Lemma attrs_read count l : Forall ok_attr l -> forall fuel p q o len a, (length l < fuel)%nat -> o = Z.of_nat (length p) -> len = Z.of_nat (length (enc_attrs l)) ->
  exists t, parse_rtattrs fuel (p ++ enc_attrs l ++ q) o len count a = Ok (Some t) /\
    forall ty, match a ty with
               | Some x => t ty = Some x
               | None => if ty <? count then match find (fun x => at_type x =? ty) l with
                           | None => t ty = None
                           | Some x => exists o', t ty = Some o' /\ o <= o' /\ holds (p ++ enc_attrs l ++ q) o' (at_data x)
                           end
                         else t ty = None
               end.
Proof.
  induction 1 as [|x l Hx Hl IH]; intros fuel p q o len a F -> ->.
  - exists a. split; [destruct fuel; reflexivity|]. intros ty. destruct (a ty); [reflexivity|]. cbn [find]. now destruct (ty <? count).
  - destruct fuel as [|fuel]; [cbn [length] in F; lia|].
    assert (enc_attrs (x :: l) = enc_attr x ++ enc_attrs l) as E by reflexivity.
    pose proof (enc_attr_len x Hx) as LX. pose proof Hx as (Bx & Sx & Tx).
    assert (4 <= 4 + Z.of_nat (length (at_data x)) <= Z.of_nat (length (enc_attr x))) as LX2.
    { unfold enc_attr. rewrite !app_length, !le16_len, !Nat2Z.inj_add, padded_len.
      pose proof (Z.div_mod (Z.of_nat (length (at_data x)) + 3) 4 ltac:(lia)). pose proof (Z.mod_pos_bound (Z.of_nat (length (at_data x)) + 3) 4 ltac:(lia)). lia. }
    cbn [parse_rtattrs]. destruct (Z.ltb_spec (Z.of_nat (length (enc_attrs (x :: l)))) 4) as [C|_]; [rewrite E, app_length in C; lia|].
    assert (p ++ enc_attrs (x :: l) ++ q = p ++ le16 (4 + Z.of_nat (length (at_data x))) ++ le16 (at_type x) ++ padded (at_data x) ++ enc_attrs l ++ q) as EB.
    { rewrite E. unfold enc_attr. rewrite <- !app_assoc. reflexivity. }
    assert (holds (p ++ enc_attrs (x :: l) ++ q) (Z.of_nat (length p)) (at_data x)) as HX.
    { destruct (padded_app (at_data x)) as [z Ez]. rewrite Ez in EB. exists p, (z ++ enc_attrs l ++ q), (at_type x). split; [|reflexivity]. rewrite EB. rewrite <- !app_assoc. reflexivity. }
    rewrite (holds_len _ _ _ HX). cbn [bind].
    destruct (Z.ltb_spec (4 + Z.of_nat (length (at_data x))) 4); [lia|]. cbn [orb].
    destruct (Z.ltb_spec (Z.of_nat (length (enc_attrs (x :: l)))) (4 + Z.of_nat (length (at_data x)))) as [C|_]; [rewrite E, app_length in C; lia|].
    assert (rd16 (p ++ enc_attrs (x :: l) ++ q) (Z.of_nat (length p) + 2) = Ok (at_type x)) as RT.
    { rewrite EB. rewrite (app_assoc p). apply rd16_at. rewrite app_length, le16_len. lia. }
    rewrite RT. cbn [bind].
    match goal with |- context [parse_rtattrs fuel _ _ _ _ ?f] => set (a1 := f) end.
    assert (p ++ enc_attrs (x :: l) ++ q = (p ++ enc_attr x) ++ enc_attrs l ++ q) as EB2 by (rewrite E, <- !app_assoc; reflexivity).
    destruct (IH fuel (p ++ enc_attr x) q (Z.of_nat (length p) + align4 (4 + Z.of_nat (length (at_data x)))) (Z.of_nat (length (enc_attrs (x :: l))) - align4 (4 + Z.of_nat (length (at_data x)))) a1)
      as (t & Ht & P); [cbn [length] in F; lia|rewrite app_length; lia|rewrite E, app_length; lia|].
    rewrite EB2 in *. exists t. split; [exact Ht|]. intros ty. specialize (P ty). cbn [find].
    unfold a1 in P. destruct (a ty) as [y|] eqn:A.
    + destruct (at_type x <? count); [|rewrite A in P; exact P]. destruct (a (at_type x)) as [z|] eqn:A2; [rewrite A in P; exact P|].
      destruct (Z.eqb_spec ty (at_type x)) as [C|C]; [subst ty; congruence|]. rewrite A in P. exact P.
    + destruct (Z.eqb_spec (at_type x) ty) as [C|C].
      * subst ty. rewrite A in P. destruct (at_type x <? count) eqn:CT.
        -- rewrite Z.eqb_refl in P. exists (Z.of_nat (length p)). split; [exact P|]. split; [lia|exact HX].
        -- rewrite A in P. exact P.
      * destruct (at_type x <? count) eqn:CT; [destruct (a (at_type x)) as [z|]|]; try (destruct (Z.eqb_spec ty (at_type x)) as [C2|C2]; [congruence|]);
          rewrite A in P; (destruct (ty <? count); [|exact P]); (destruct (find (fun z0 => at_type z0 =? ty) l) as [w|]; [|exact P]);
          destruct P as (o' & P1 & P2 & P3); exists o'; (split; [exact P1|]); (split; [|exact P3]); lia.
Qed.
Lemma enc_attrs_count l : Forall ok_attr l -> (4 * length l <= length (enc_attrs l))%nat.
Proof.
  induction 1 as [|x l H L IH]; [reflexivity|]. unfold enc_attrs in *. cbn [map concat length]. rewrite app_length. unfold enc_attr at 1. rewrite !app_length, !le16_len. lia.
Qed.

(** ** Routes *)
Definition MAXP : Z := 4294967295.
(** The rule of 330-345 on values: number of default routes, and the one kept. *)
Definition least (b : option route) : Z := match b with Some r => match priority r with Some p => p | None => MAXP end | None => MAXP end.
Definition keep (s : Z * option route) (r : route) : Z * option route :=
  if is_default r then
    (fst s + 1, match priority r with
                | Some p => if p <? least (snd s) then Some r else snd s
                | None => match snd s with None => Some r | x => x end
                end)
  else s.
(** The locals agree with it. *)
Record agree (b : list Z) (a : acc) (s : Z * option route) : Prop := {
  g_cnt : a_cnt a = fst s;
  g_min : a_min a = least (snd s);
  g_ptr : match snd s with
          | None => a_oif a = None /\ a_gw a = None
          | Some r => is_default r = true /\ sized r /\
              (exists o d, a_oif a = Some o /\ 28 <= o /\ holds b o d /\ attr_of 4 (rt_attrs r) = Some d) /\
              match gateway r with
              | None => a_gw a = None
              | Some d => exists g, a_gw a = Some g /\ 28 <= g /\ holds b g d
              end
          end }.
Lemma agree0 b : agree b acc0 (0, None).
Proof. constructor; try reflexivity. split; reflexivity. Qed.

Lemma enc_route_len r : ok_route r -> length (enc_route r) = (12 + length (enc_attrs (rt_attrs r)))%nat.
Proof. intros (_ & _ & _ & _ & L5 & _ & L4 & _). unfold enc_route. rewrite !app_length, L5, L4. cbn [length]. lia. Qed.
Lemma s32_small x : 0 <= x < 2147483648 -> s32 (u32 x) = x.
Proof. intros H. unfold u32. rewrite Z.mod_small by lia. unfold s32. apply wrap_signed_id; [lia|reflexivity|]. change (4294967296 / 2) with 2147483648. lia. Qed.

Lemma route_read p hd r q a s l : length hd = 10%nat -> ok_route r -> (is_default r = true -> sized r) ->
  l = Z.of_nat (length (enc_msg hd (MNewRoute r))) -> l < 2147483648 ->
  let b := p ++ enc_msg hd (MNewRoute r) ++ q in agree b a s ->
  exists a', route_msg b (Z.of_nat (length p)) l a = Ok (Some a') /\ agree b a' (keep s r).
Proof.
  intros LH OK SZ EL BL b AG. pose proof OK as (B1 & B2 & B3 & B4 & L5 & B5 & L4 & OA).
  assert (length (enc_msg hd (MNewRoute r)) = 28 + length (enc_attrs (rt_attrs r)))%nat as LEN.
  { unfold enc_msg. cbn [body_of]. rewrite !app_length, le32_len, le16_len, LH, enc_route_len by exact OK. lia. }
  assert (b = (p ++ le32 (16 + Z.of_nat (length (enc_route r))) ++ le16 24 ++ hd) ++ enc_route r ++ q) as EB.
  { unfold b, enc_msg. cbn [body_of type_of]. rewrite <- !app_assoc. reflexivity. }
  set (pre := p ++ le32 (16 + Z.of_nat (length (enc_route r))) ++ le16 24 ++ hd) in *.
  assert (Z.of_nat (length pre) = Z.of_nat (length p) + 16) as LP.
  { unfold pre. rewrite !app_length, le32_len, le16_len, LH. lia. }
  destruct r as [fam dl ty ot fl at_]. cbn [rt_family rt_dst_len rt_type rt_other rt_flags rt_attrs] in *.
  assert (b = pre ++ fam :: dl :: ot ++ ty :: fl ++ enc_attrs at_ ++ q) as EC.
  { rewrite EB. unfold enc_route. cbn [rt_family rt_dst_len rt_type rt_other rt_flags rt_attrs]. cbn [app]. rewrite <- !app_assoc. cbn [app]. rewrite <- !app_assoc. reflexivity. }
  assert (rd8 b (Z.of_nat (length p) + HDR + 7) = Ok ty) as R7.
  { rewrite EC. replace (pre ++ fam :: dl :: ot ++ ty :: fl ++ enc_attrs at_ ++ q) with ((pre ++ fam :: dl :: ot) ++ ty :: fl ++ enc_attrs at_ ++ q)
      by (rewrite <- app_assoc; reflexivity). apply rd8_at. rewrite app_length. cbn [length]. unfold HDR. lia. }
  assert (rd8 b (Z.of_nat (length p) + HDR) = Ok fam) as R0 by (rewrite EC; apply rd8_at; unfold HDR; lia).
  assert (rd8 b (Z.of_nat (length p) + HDR + 1) = Ok dl) as R1.
  { rewrite EC. replace (pre ++ fam :: dl :: ot ++ ty :: fl ++ enc_attrs at_ ++ q) with ((pre ++ [fam]) ++ dl :: ot ++ ty :: fl ++ enc_attrs at_ ++ q)
      by (rewrite <- app_assoc; reflexivity). apply rd8_at. rewrite app_length. cbn [length]. unfold HDR. lia. }
  unfold route_msg. rewrite R7. cbn [bind]. unfold keep, is_default. cbn [rt_family rt_dst_len rt_type rt_attrs].
  unfold RTN_UNICAST. destruct (ty =? 1) eqn:E1; cbn [negb andb]; [|exists a; split; [reflexivity|exact AG]].
  rewrite R0. cbn [bind]. unfold AF_INET, AF_INET6. destruct ((fam =? 2) || (fam =? 10)) eqn:E2; cbn [negb andb]; [|exists a; split; [reflexivity|exact AG]].
  rewrite R1. cbn [bind]. destruct (dl =? 0) eqn:E3; cbn [negb andb]; [|exists a; split; [reflexivity|exact AG]].
  set (pre2 := pre ++ fam :: dl :: ot ++ ty :: fl).
  assert (b = pre2 ++ enc_attrs at_ ++ q) as ED.
  { rewrite EC. unfold pre2. repeat (rewrite <- ?app_assoc; cbn [app]). reflexivity. }
  assert (Z.of_nat (length pre2) = Z.of_nat (length p) + 28) as LP2.
  { unfold pre2. rewrite !app_length. cbn [length]. rewrite app_length. cbn [length]. lia. }
  pose proof (enc_attrs_count _ OA) as CNT.
  destruct (attrs_read RTA_COUNT at_ OA (Z.to_nat l) pre2 q (Z.of_nat (length p) + HDR + RTMSG) (s32 (u32 (l - (HDR + RTMSG)))) no_attrs) as (t & Ht & P).
  { lia. } { unfold HDR, RTMSG. lia. } { unfold HDR, RTMSG. rewrite s32_small by lia. lia. }
  rewrite <- ED in Ht, P. rewrite Ht. cbn [bind].
  pose proof (P RTA_OIF) as P4. pose proof (P RTA_GATEWAY) as P5. pose proof (P RTA_PRIORITY) as P6. cbn [no_attrs] in P4, P5, P6.
  change (RTA_OIF <? RTA_COUNT) with true in P4. change (RTA_GATEWAY <? RTA_COUNT) with true in P5. change (RTA_PRIORITY <? RTA_COUNT) with true in P6. cbn iota in P4, P5, P6.
  unfold attr_of at 1. change RTA_OIF with 4 in P4. change RTA_GATEWAY with 5 in P5. change RTA_PRIORITY with 6 in P6.
  assert (is_default (mkRoute fam dl ty ot fl at_) = match attr_of 4 at_ with Some _ => true | None => false end) as DEF.
  { unfold is_default. cbn [rt_family rt_dst_len rt_type rt_attrs]. rewrite E1, E2, E3. reflexivity. }
  change RTA_OIF with 4. change RTA_PRIORITY with 6. change RTA_GATEWAY with 5.
  assert (attr_of 4 at_ = option_map at_data (find (fun x => at_type x =? 4) at_)) as A4 by reflexivity.
  destruct (find (fun x => at_type x =? 4) at_) as [x4|] eqn:F4.
  2:{ rewrite P4. cbn [option_map]. exists a. split; [reflexivity|exact AG]. }
  cbn [option_map] in A4 |- *. destruct P4 as (o4 & T4 & G4 & H4). rewrite T4. cbn [bind].
  rewrite A4 in DEF. specialize (SZ DEF). pose proof SZ as (S4 & S6 & S5). cbn [rt_attrs] in S4, S5, S6.
  destruct AG as [GC GM GP].
  assert (28 <= o4) as O28 by (unfold HDR, RTMSG in G4; lia).
  assert (match gateway (mkRoute fam dl ty ot fl at_) with None => t 5 = None | Some d => exists g, t 5 = Some g /\ 28 <= g /\ holds b g d end) as PG.
  { unfold gateway, attr_of. cbn [rt_attrs]. destruct (find (fun x => at_type x =? 5) at_) as [x5|]; cbn [option_map]; [|exact P5].
    destruct P5 as (g & T5 & G5 & H5). exists g. split; [exact T5|]. split; [unfold HDR, RTMSG in G5; lia|exact H5]. }
  assert (forall a', a_oif a' = Some o4 -> a_gw a' = t 5 -> a_cnt a' = fst s + 1 -> a_min a' = least (Some (mkRoute fam dl ty ot fl at_)) ->
     agree b a' (fst s + 1, Some (mkRoute fam dl ty ot fl at_))) as TAKE.
  { intros a' TO TG TC TM. constructor; [exact TC|exact TM|]. cbn [snd]. split; [exact DEF|]. split; [exact SZ|]. split.
    - exists o4, (at_data x4). split; [exact TO|]. split; [exact O28|]. split; [exact H4|exact A4].
    - rewrite TG. exact PG. }
  assert (forall a', a_oif a' = a_oif a -> a_gw a' = a_gw a -> a_min a' = a_min a -> a_cnt a' = fst s + 1 -> agree b a' (fst s + 1, snd s)) as LEAVE.
  { intros a' TO TG TM TC. constructor; [exact TC|rewrite TM; exact GM|]. cbn [snd]. rewrite TO, TG. exact GP. }
  assert (priority (mkRoute fam dl ty ot fl at_) = option_map num (option_map at_data (find (fun x => at_type x =? 6) at_))) as PR by reflexivity.
  rewrite PR in *. cbn [rt_attrs] in *.
  destruct (find (fun x => at_type x =? 6) at_) as [x6|] eqn:F6; cbn [option_map] in PR |- *.
  - destruct P6 as (o6 & T6 & G6 & H6). rewrite T6. cbn [bind].
    assert (length (at_data x6) = 4%nat) as L6 by (apply S6; unfold attr_of; rewrite F6; reflexivity).
    rewrite (holds_num _ _ _ H6 L6). cbn [bind a_min a_cnt]. rewrite GM.
    destruct (num (at_data x6) <? least (snd s)) eqn:LT; eexists; (split; [reflexivity|]).
    + apply TAKE; cbn [a_oif a_gw a_cnt a_min]; try reflexivity; [lia|]. unfold least. rewrite PR. reflexivity.
    + apply LEAVE; cbn [a_oif a_gw a_cnt a_min]; try reflexivity; try lia.
  - rewrite P6. cbn [bind a_oif a_gw a_cnt a_min]. destruct (snd s) as [r0|] eqn:ES.
    + destruct GP as (_ & _ & (o & d & GO & _) & _). rewrite GO. eexists. split; [reflexivity|]. apply LEAVE; cbn [a_oif a_gw a_cnt a_min]; try reflexivity; try lia; rewrite GO; reflexivity.
    + destruct GP as [GO GG]. rewrite GO, GG. eexists. split; [reflexivity|]. apply TAKE; cbn [a_oif a_gw a_cnt a_min]; try reflexivity; [lia|].
      unfold least. rewrite PR. exact GM.
Qed.

Lemma align4_id n : 0 <= n < 4294967200 -> n mod 4 = 0 -> align4 n = n.
Proof.
  intros H M. unfold align4, u32. rewrite Z.mod_small by lia. pose proof (Z.div_mod n 4 ltac:(lia)) as D.
  assert ((n + 3) / 4 = n / 4) as ->; [|lia]. symmetry. apply Z.div_unique with 3; lia.
Qed.
Lemma enc_msg_len hd m : length hd = 10%nat -> length (enc_msg hd m) = (16 + length (body_of m))%nat.
Proof. intros L. unfold enc_msg. rewrite !app_length, le32_len, le16_len, L. lia. Qed.
Lemma mod4 n : (n mod 4 = 0)%nat -> Z.of_nat (16 + n) mod 4 = 0.
Proof. intros H. change 4 with (Z.of_nat 4). rewrite <- Nat2Z.inj_mod. rewrite Nat.add_comm. rewrite <- Nat.add_mod_idemp_l, H by lia. reflexivity. Qed.
(** The header of the first message. *)
Lemma head_read p hd m q : length hd = 10%nat -> let b := p ++ enc_msg hd m ++ q in
  rd32 b (Z.of_nat (length p)) = Ok (Z.of_nat (length (enc_msg hd m))) /\ rd16 b (Z.of_nat (length p) + 4) = Ok (type_of m).
Proof.
  intros L b. split.
  - unfold b. rewrite enc_msg_len by exact L. unfold enc_msg. rewrite <- app_assoc.
    replace (Z.of_nat (16 + length (body_of m))) with (16 + Z.of_nat (length (body_of m))) by lia. apply rd32_at. reflexivity.
  - unfold b, enc_msg. rewrite <- !app_assoc. rewrite app_assoc. apply rd16_at. rewrite app_length, le32_len. lia.
Qed.
Definition new_routes (l : list msg) : list route := concat (map (fun m => match m with MNewRoute r => [r] | _ => [] end) l).
Lemma type_not m ty : ok_msg m -> type_of (snd m) = ty -> In ty [2; 3; 16; 17; 24; 25] ->
  match snd m with MOther _ _ => False | _ => True end.
Proof. intros (_ & _ & _ & H) E I. destruct (snd m); auto. cbn in E. subst. destruct H as (_ & _ & N). now apply N. Qed.

Lemma routes_read ms : Forall ok_msg ms -> Forall (fun r => is_default r = true -> sized r) (new_routes (before_end ms)) ->
  forall fuel p q a s, (length ms < fuel)%nat -> Z.of_nat (length (enc ms)) < 2147483648 ->
  let b := p ++ enc ms ++ q in agree b a s ->
  exists a', routes fuel b (Z.of_nat (length p)) (Z.of_nat (length (enc ms))) a = Ok (Some (existsb (fun x => ends (snd x)) ms, a')) /\
    agree b a' (fold_left keep (new_routes (before_end ms)) s).
Proof.
  induction 1 as [|[hd m] ms OKm OK IH]; intros SZ fuel p q a s F BL b AG.
  - exists a. split; [destruct fuel; reflexivity|exact AG].
  - destruct fuel as [|fuel]; [cbn [length] in F; lia|]. cbn [length] in F.
    pose proof OKm as (LH & BH & M4 & KIND). cbn [fst snd] in *.
    assert (enc ((hd, m) :: ms) = enc_msg hd m ++ enc ms) as E by reflexivity.
    pose proof (enc_msg_len hd m LH) as LM. rewrite E, app_length in BL.
    assert (b = p ++ enc_msg hd m ++ enc ms ++ q) as EB by (unfold b; rewrite E, <- app_assoc; reflexivity).
    destruct (head_read p hd m (enc ms ++ q) LH) as [R32 R16]. rewrite <- EB in R32, R16.
    cbn [routes]. rewrite E, app_length, Nat2Z.inj_add. unfold HDR.
    destruct (Z.ltb_spec (Z.of_nat (length (enc_msg hd m)) + Z.of_nat (length (enc ms))) 16); [lia|].
    rewrite R32. cbn [bind]. destruct (Z.ltb_spec (Z.of_nat (length (enc_msg hd m))) 16); [lia|]. cbn [orb].
    destruct (Z.ltb_spec (Z.of_nat (length (enc_msg hd m)) + Z.of_nat (length (enc ms))) (Z.of_nat (length (enc_msg hd m)))); [lia|].
    rewrite R16. cbn [bind].
    assert (align4 (Z.of_nat (length (enc_msg hd m))) = Z.of_nat (length (enc_msg hd m))) as AL by (apply align4_id; [lia|rewrite LM; now apply mod4]).
    rewrite AL. replace (Z.of_nat (length (enc_msg hd m)) + Z.of_nat (length (enc ms)) - Z.of_nat (length (enc_msg hd m))) with (Z.of_nat (length (enc ms))) by lia.
    assert (Z.of_nat (length p) + Z.of_nat (length (enc_msg hd m)) = Z.of_nat (length (p ++ enc_msg hd m))) as -> by (rewrite app_length; lia).
    assert (b = (p ++ enc_msg hd m) ++ enc ms ++ q) as EB2 by (rewrite EB, <- app_assoc; reflexivity).
    cbn [existsb before_end snd] in *. destruct (ends m) eqn:EN.
    + exists a. split; [|exact AG]. destruct m; try discriminate EN; reflexivity.
    + assert ((type_of m =? NLMSG_DONE) || (type_of m =? NLMSG_ERROR) = false) as ->.
      { destruct m; try discriminate EN; try reflexivity. cbn [type_of]. destruct KIND as (_ & _ & N). unfold NLMSG_DONE, NLMSG_ERROR.
        destruct (Z.eqb_spec ty 3); [subst; destruct N; cbn; tauto|]. destruct (Z.eqb_spec ty 2); [subst; destruct N; cbn; tauto|]. reflexivity. }
      cbn [orb]. assert (forall m', match m' with MNewRoute _ => False | _ => True end -> new_routes (m' :: before_end ms) = new_routes (before_end ms)) as NR
        by (intros [] Hm; try reflexivity; destruct Hm).
      assert (exists a', (if type_of m =? RTM_NEWROUTE then route_msg b (Z.of_nat (length p)) (Z.of_nat (length (enc_msg hd m))) a else Ok (Some a)) = Ok (Some a') /\
         agree b a' (match m with MNewRoute r => keep s r | _ => s end)) as (a1 & R1 & AG1).
      { destruct m; try discriminate EN; cbn [type_of]; try (exists a; split; [reflexivity|exact AG]).
        - change (24 =? RTM_NEWROUTE) with true. cbn iota. rewrite EB in AG |- *. apply route_read; try assumption; [|reflexivity|lia].
          apply Forall_inv in SZ. exact SZ.
        - destruct KIND as (_ & _ & N). unfold RTM_NEWROUTE. destruct (Z.eqb_spec ty 24); [subst; destruct N; cbn; tauto|]. exists a; split; [reflexivity|exact AG]. }
      rewrite R1. cbn [bind]. rewrite EB2 in AG1 |- *. destruct (IH) with (fuel := fuel) (p := p ++ enc_msg hd m) (q := q) (a := a1) (s := match m with MNewRoute r => keep s r | _ => s end) as (a2 & R2 & AG2); try assumption; try lia.
      { destruct m; try exact SZ. cbn [map concat] in SZ. unfold new_routes in SZ. cbn [map concat app] in SZ. apply Forall_inv_tail in SZ. exact SZ. }
      exists a2. split; [exact R2|]. destruct m; try exact AG2. 
Qed.

(** ** The rule *)
Lemma keep_filter l : forall s, fold_left keep l s = fold_left keep (filter is_default l) s.
Proof.
  induction l as [|r l IH]; intros s; [reflexivity|]. cbn [fold_left filter]. destruct (is_default r) eqn:E; cbn [fold_left]; [apply IH|].
  rewrite IH. unfold keep at 2. rewrite E. reflexivity.
Qed.
Lemma valued_metric x : valued x = true -> priority x = Some (metric x) /\ metric x < MAXP.
Proof. unfold valued, metric, MAXP. destruct (priority x); [|discriminate]. intros H. split; [reflexivity|lia]. Qed.
Lemma rule l : Forall (fun r => is_default r = true) l ->
  fst (fold_left keep l (0, None)) = Z.of_nat (length l) /\
  match snd (fold_left keep l (0, None)) with
  | None => forall x, In x l -> priority x <> None /\ valued x = false
  | Some r => by_rule r l
  end.
Proof.
  induction l as [|x l IH] using rev_ind; intros D; [split; [reflexivity|intros x []]|].
  apply Forall_app in D. destruct D as [D Dx]. apply Forall_inv in Dx. specialize (IH D). destruct IH as [IC IB].
  rewrite fold_left_app. cbn [fold_left]. set (s := fold_left keep l (0, None)) in *. unfold keep. rewrite Dx. cbn [fst snd].
  split; [rewrite app_length; cbn [length]; lia|].
  destruct (snd s) as [r|] eqn:ES.
  - destruct IB as (l1 & l2 & -> & RU).
    assert (forall y, In y l2 -> In y (l2 ++ [x])) as IN2 by (intros; apply in_or_app; auto).
    destruct (priority x) as [p|] eqn:PX.
    + destruct (p <? least (Some r)) eqn:LT.
      * exists (l1 ++ r :: l2), []. split; [reflexivity|]. unfold least in LT. fold MAXP in *.
        assert (valued x = true) as VX by (unfold valued; rewrite PX; fold MAXP; destruct (priority r) as [pr|] eqn:PR; [|exact LT];
          destruct (valued r) eqn:VR; [destruct (valued_metric _ VR); unfold MAXP in *; unfold metric in *; rewrite PR in *; lia|destruct RU as (N & _); congruence]).
        rewrite VX. split; [|intros y []]. intros y IY VY. unfold metric at 1. rewrite PX.
        destruct (valued r) eqn:VR.
        -- destruct (valued_metric _ VR) as [PR _]. rewrite PR in LT. apply Z.ltb_lt in LT. destruct RU as [RU1 RU2].
           apply in_app_or in IY. destruct IY as [IY|[IY|IY]]; [pose proof (RU1 y IY VY); lia|subst y; lia|pose proof (RU2 y IY VY); lia].
        -- destruct RU as (N & NV & _). apply in_app_or in IY. destruct IY as [IY|[IY|IY]]; [|subst y; congruence|]; rewrite NV in VY by (apply in_or_app; auto); discriminate.
      * exists l1, (l2 ++ [x]). split; [rewrite <- app_assoc; reflexivity|]. unfold least in LT. destruct (valued r) eqn:VR.
        -- destruct (valued_metric _ VR) as [PR _]. rewrite PR in LT. apply Z.ltb_ge in LT. destruct RU as [RU1 RU2]. split; [exact RU1|].
           intros y IY VY. apply in_app_or in IY. destruct IY as [IY|[IY|[]]]; [exact (RU2 y IY VY)|]. subst y. unfold metric at 2. rewrite PX. lia.
        -- destruct RU as (N & NV & NF). rewrite N in LT. split; [exact N|]. split; [|exact NF]. intros y IY. rewrite app_assoc in IY. apply in_app_or in IY.
           destruct IY as [IY|[IY|[]]]; [now apply NV|]. subst y. unfold valued. rewrite PX. exact LT.
    + exists l1, (l2 ++ [x]). split; [rewrite <- app_assoc; reflexivity|]. assert (valued x = false) as VX by (unfold valued; rewrite PX; reflexivity).
      destruct (valued r) eqn:VR.
      * destruct RU as [RU1 RU2]. split; [exact RU1|]. intros y IY VY. apply in_app_or in IY. destruct IY as [IY|[IY|[]]]; [exact (RU2 y IY VY)|]. subst y. congruence.
      * destruct RU as (N & NV & NF). split; [exact N|]. split; [|exact NF]. intros y IY. rewrite app_assoc in IY. apply in_app_or in IY.
        destruct IY as [IY|[IY|[]]]; [now apply NV|subst y; exact VX].
  - destruct (priority x) as [p|] eqn:PX.
    + cbn [least]. destruct (p <? MAXP) eqn:LT.
      * exists l, []. split; [reflexivity|]. assert (valued x = true) as VX by (unfold valued; rewrite PX; exact LT). rewrite VX.
        split; [|intros y []]. intros y IY VY. destruct (IB y IY) as [_ V]. congruence.
      * intros y IY. apply in_app_or in IY. destruct IY as [IY|[IY|[]]]; [now apply IB|]. subst y. split; [congruence|]. unfold valued. rewrite PX. exact LT.
    + exists l, []. split; [reflexivity|]. assert (valued x = false) as VX by (unfold valued; rewrite PX; reflexivity). rewrite VX. split; [exact PX|]. rewrite app_nil_r.
      split; intros y IY; now apply IB.
Qed.

(** ** The answer *)
Lemma finish_read af b a s : agree b a s ->
  finish af b a = Ok (match snd s with Some r => Some (mkAns (oif r) (Z.min 2 (fst s)) (gateway r)) | None => None end).
Proof.
  intros [GC GM GP]. unfold finish. destruct (snd s) as [r|].
  - destruct GP as (DR & (S4 & S6 & S5) & (o & d & -> & O28 & HO & A4) & PG). rewrite (holds_num _ _ _ HO (S4 _ A4)). cbn [bind].
    assert (s32 (num d) = oif r) as -> by (unfold oif; rewrite A4; reflexivity).
    assert ((if a_cnt a >? 2 then 2 else a_cnt a) = Z.min 2 (fst s)) as -> by (rewrite GC; destruct (Z.gtb_spec (fst s) 2); lia).
    destruct (gateway r) as [g|] eqn:G.
    + destruct PG as (g0 & -> & G28 & HG). rewrite (holds_len _ _ _ HG). cbn [bind]. replace (4 + Z.of_nat (length g) - 4) with (Z.of_nat (length g)) by lia. rewrite Nat2Z.id.
      rewrite (holds_data _ _ _ HG). cbn [bind]. destruct (Z.ltb_spec (room af) (Z.of_nat (length g))) as [C|_]; [|reflexivity].
      unfold gateway in G. destruct (S5 _ G) as [L|L]; rewrite L in C; unfold room in C; destruct (af =? AF_INET); lia.
    + rewrite PG. reflexivity.
  - destruct GP as [-> _]. reflexivity.
Qed.
Lemma holds_fill b d2 o d : (length d2 <= 28)%nat -> 28 <= o -> holds b o d -> holds (d2 ++ skipn (length d2) b) o d.
Proof.
  intros L O (p & q & ty & -> & ->). exists (d2 ++ skipn (length d2) p), q, ty. split; [|rewrite app_length, skipn_length; lia].
  rewrite skipn_app. replace (length d2 - length p)%nat with 0%nat by lia. cbn [skipn]. rewrite <- app_assoc. reflexivity.
Qed.
Lemma agree_fill b d2 a s : (length d2 <= 28)%nat -> agree b a s -> agree (d2 ++ skipn (length d2) b) a s.
Proof.
  intros L [GC GM GP]. constructor; [exact GC|exact GM|]. destruct (snd s) as [r|]; [|exact GP]. destruct GP as (D & SZ & (o & d & A & O28 & HO & A4) & PG).
  split; [exact D|]. split; [exact SZ|]. split; [exists o, d; split; [exact A|]; split; [exact O28|]; split; [now apply holds_fill|exact A4]|].
  destruct (gateway r); [|exact PG]. destruct PG as (g & G1 & G2 & G3). exists g. split; [exact G1|]. split; [exact G2|now apply holds_fill].
Qed.
Lemma enc_count ms : Forall ok_msg ms -> (16 * length ms <= length (enc ms))%nat.
Proof.
  induction 1 as [|[hd m] l (LH & _) L IH]; [reflexivity|]. unfold enc in *. cbn [map concat length fst snd] in *. rewrite app_length, enc_msg_len by exact LH. lia.
Qed.
