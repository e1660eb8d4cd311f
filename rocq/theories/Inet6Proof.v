(** * Proofs about inet_pton6 and inet_ntop6 *)
From Verif Require Import Base Inet InetSpec InetProof.
Ltac Zify.zify_post_hook ::= Z.div_mod_to_equations.

(** ** The parser *)
Definition arr (out : list Z) : list Z := out ++ repeat 0 (16 - length out).
Lemma arr_nth out n : (length out <= n < 16)%nat -> nth_error (arr out) n = Some 0.
Proof. intros H. unfold arr. rewrite nth_error_app2 by lia. apply nth_error_repeat. lia. Qed.
Lemma arr_upd out x : (length out < 16)%nat -> upd (arr out) (length out) x = arr (out ++ [x]).
Proof.
  intros H. unfold arr. rewrite app_length. cbn [length]. replace (16 - length out)%nat with (S (16 - (length out + 1))) by lia. cbn [repeat]. set (z := repeat 0 (16 - (length out + 1))). clearbody z. clear H.
  induction out as [|a out IH]; cbn [app length upd]; [reflexivity|]. f_equal. exact IH.
Qed.
Lemma arr_length out : (length out <= 16)%nat -> length (arr out) = 16%nat.
Proof. intros H. unfold arr. rewrite app_length, repeat_length. lia. Qed.
Lemma put16_ok out val : (length out <= 14)%nat -> 0 <= val < 65536 -> put16 (arr out) (length out) val = Ok (arr (out ++ [val / 256; val mod 256]), S (S (length out))).
Proof.
  intros H V. unfold put16. rewrite (byte_ok _ _ 0) by (apply arr_nth; lia). cbn [bind]. rewrite arr_upd by lia.
  assert (L1 : S (length out) = length (out ++ [Z.land (u8 (Z.shiftr val 8)) 255])) by (rewrite app_length; cbn; lia). rewrite L1, (byte_ok _ _ 0) by (apply arr_nth; rewrite app_length; cbn [length]; lia). cbn [bind].
  rewrite arr_upd by (rewrite app_length; cbn [length]; lia). rewrite <- app_assoc. cbn [app].
  assert (A : Z.land (u8 (Z.shiftr val 8)) 255 = val / 256) by (rewrite Z.shiftr_div_pow2 by lia; change 255 with (Z.ones 8); rewrite Z.land_ones by lia; unfold u8; change (2 ^ 8) with 256; lia).
  assert (B : Z.land (u8 val) 255 = val mod 256) by (change 255 with (Z.ones 8); rewrite Z.land_ones by lia; unfold u8; change (2 ^ 8) with 256; lia).
  rewrite A, B. reflexivity.
Qed.
Lemma put_bytes_ok bs : forall out, (length out + length bs <= 16)%nat -> put_bytes (arr out) (length out) bs = Ok (arr (out ++ bs)).
Proof.
  induction bs as [|b bs IH]; intros out H; cbn [put_bytes length] in *; [rewrite app_nil_r; reflexivity|]. rewrite (byte_ok _ _ 0) by (apply arr_nth; lia). cbn [bind]. rewrite arr_upd by lia.
  replace (S (length out)) with (length (out ++ [b])) by (rewrite app_length; cbn; lia). rewrite IH by (rewrite app_length; cbn [length]; lia). rewrite <- app_assoc. reflexivity.
Qed.
(** The outcome once the bytes [out] have been collected. *)
Definition fin (out : list Z) (cp : option nat) : option (list Z) :=
  match cp with
  | Some c => if (length out =? 16)%nat then None else Some (firstn c out ++ repeat 0 (16 - length out) ++ skipn c out)
  | None => if (length out =? 16)%nat then Some out else None
  end.
Definition cp_ok (out : list Z) (cp : option nat) : Prop := match cp with Some c => (c <= length out)%nat | None => True end.
Lemma end_ok out cp val : (length out <= 16)%nat -> cp_ok out cp -> pton6_end (arr out) (length out) cp 0 val = Ok (fin out cp).
Proof.
  intros H C. unfold pton6_end, fin. change (0 <? 0) with false. cbn iota. destruct cp as [c|].
  - cbn in C. destruct (Nat.eqb_spec (length out) 16); [reflexivity|]. destruct (Nat.ltb_spec 16 (length out)); [lia|]. destruct (Nat.ltb_spec (length out) c); [lia|]. cbn [orb]. f_equal. f_equal. f_equal.
    + unfold arr. rewrite firstn_app. replace (c - length out)%nat with 0%nat by lia. cbn [firstn]. rewrite app_nil_r. reflexivity.
    + f_equal; [f_equal; lia|]. unfold arr. rewrite skipn_app, firstn_app, skipn_length. replace (length out - c - (length out - c))%nat with 0%nat by lia. cbn [firstn]. rewrite app_nil_r. apply firstn_all2. rewrite skipn_length. lia.
  - destruct (Nat.eqb_spec (length out) 16); cbn [negb]; [|reflexivity]. unfold arr. rewrite e. cbn [Nat.sub repeat]. rewrite app_nil_r. reflexivity.
Qed.
Lemma end_val out cp xd val : (length out <= 16)%nat -> cp_ok out cp -> 0 < xd -> 0 <= val < 65536 ->
  pton6_end (arr out) (length out) cp xd val = Ok (if (14 <? length out)%nat then None else fin (out ++ [val / 256; val mod 256]) cp).
Proof.
  intros H C X V. unfold pton6_end at 1. destruct (Z.ltb_spec 0 xd); [|lia]. destruct (Z.ltb_spec 16 (Z.of_nat (length out) + 2)), (Nat.ltb_spec 14 (length out)); try lia; [reflexivity|].
  rewrite put16_ok by lia. cbn [bind]. assert (E : S (S (length out)) = length (out ++ [val / 256; val mod 256])) by (rewrite app_length; cbn; lia). rewrite E.
  refine (eq_trans _ (end_ok (out ++ [val / 256; val mod 256]) cp 0 _ _)); [reflexivity|rewrite app_length; cbn [length]; lia|]. destruct cp; [cbn in *; rewrite app_length; lia|exact Logic.I].
Qed.
Lemma hexval_xdig c d : xdig c d -> hexval c = d.
Proof.
  intros [[H ->]|[H [-> | ->]]]; unfold hexval.
  - destruct (Z.leb_spec 48 (48 + d)), (Z.leb_spec (48 + d) 57); try lia. cbn [andb]. lia.
  - destruct (Z.leb_spec 48 (97 + (d - 10))), (Z.leb_spec (97 + (d - 10)) 57); try lia. cbn [andb]. destruct (Z.leb_spec 97 (97 + (d - 10))), (Z.leb_spec (97 + (d - 10)) 102); try lia. cbn [andb]. lia.
  - destruct (Z.leb_spec 48 (65 + (d - 10))), (Z.leb_spec (65 + (d - 10)) 57); try lia. cbn [andb]. destruct (Z.leb_spec 97 (65 + (d - 10))), (Z.leb_spec (65 + (d - 10)) 102); try lia; cbn [andb]; destruct (Z.leb_spec 65 (65 + (d - 10))), (Z.leb_spec (65 + (d - 10)) 70); try lia; cbn [andb]; lia.
Qed.
Lemma xdig_hexval c : 0 <= hexval c -> xdig c (hexval c).
Proof.
  unfold hexval, xdig. destruct (Z.leb_spec 48 c), (Z.leb_spec c 57); cbn [andb]; try lia;
  destruct (Z.leb_spec 97 c), (Z.leb_spec c 102); cbn [andb]; try lia; destruct (Z.leb_spec 65 c), (Z.leb_spec c 70); cbn [andb]; try lia.
Qed.
Lemma xdig_range c d : xdig c d -> 0 <= d <= 15. Proof. intros [[H _]|[H _]]; lia. Qed.
Lemma step_val v d : 0 <= v < 4096 -> 0 <= d <= 15 -> Z.lor (u32 (Z.shiftl v 4)) d = v * 16 + d.
Proof. intros V D. rewrite Z.shiftl_mul_pow2 by lia. unfold u32. rewrite Z.mod_small by (change (2 ^ 4) with 16; lia). apply lor_add; [lia|]. change (2 ^ 4) with 16. lia. Qed.
Lemma pow_step v d k : 0 <= k -> 0 <= v < 16 ^ k -> 0 <= d <= 15 -> 0 <= v * 16 + d < 16 ^ (k + 1).
Proof. intros K V D. rewrite Z.pow_add_r by lia. change (16 ^ 1) with 16. lia. Qed.
Lemma pow_le k : 0 <= k <= 3 -> 16 ^ k <= 4096.
Proof. intros H. change 4096 with (16 ^ 3). apply Z.pow_le_mono_r; lia. Qed.
(** Reading digits. *)
Lemma hex_run garb ds : forall t r cur tmp tp cp xd val, Forall2 xdig t ds -> 0 <= xd -> xd + Z.of_nat (length ds) <= 4 -> 0 <= val < 16 ^ xd ->
  pton6_loop garb (t ++ r) cur tmp tp cp xd val = pton6_loop garb r cur tmp tp cp (xd + Z.of_nat (length ds)) (num 16 val ds).
Proof.
  induction ds as [|d ds IH]; intros t r cur tmp tp cp xd val F X L V; inversion F as [|c d' t' ds' D F']; subst; cbn [app length num fold_left] in *; [rewrite Z.add_0_r; reflexivity|].
  cbn [pton6_loop]. rewrite (hexval_xdig c d D). pose proof (xdig_range c d D) as R. destruct (Z.leb_spec 0 d); [|lia]. destruct (Z.eqb_spec xd 4); [lia|].
  pose proof (pow_le xd ltac:(lia)) as PL. rewrite step_val by lia. destruct (Z.ltb_spec 65535 (val * 16 + d)); [lia|].
  rewrite (IH t' r cur tmp tp cp (xd + 1) (val * 16 + d) F'); [|lia|lia|apply pow_step; lia]. f_equal. lia.
Qed.
Lemma num_bound ds : forall t v k, Forall2 xdig t ds -> 0 <= k -> 0 <= v < 16 ^ k -> 0 <= num 16 v ds < 16 ^ (k + Z.of_nat (length ds)).
Proof.
  induction ds as [|d ds IH]; intros t v k F K V; inversion F as [|c d' t' ds' D F']; subst; cbn [num fold_left length]; [rewrite Z.add_0_r; exact V|]. pose proof (xdig_range c d D).
  replace (k + Z.of_nat (S (length ds))) with (k + 1 + Z.of_nat (length ds)) by lia. apply (IH t' (v * 16 + d) (k + 1) F'); [lia|]. apply pow_step; lia.
Qed.
Lemma num_bound4 ds t : Forall2 xdig t ds -> (length ds <= 4)%nat -> 0 <= num 16 0 ds < 65536.
Proof. intros F L. pose proof (num_bound ds t 0 0 F ltac:(lia) ltac:(cbn; lia)) as B. change 65536 with (16 ^ 4). assert (16 ^ (0 + Z.of_nat (length ds)) <= 16 ^ 4) by (apply Z.pow_le_mono_r; lia). lia. Qed.
Lemma group_ne t w : group t w -> t <> [].
Proof. intros (ds & F & L & _) ->. inversion F; subst. cbn in L. lia. Qed.
Lemma octet_len t n : octet t n -> exists ds, Forall2 xdig t ds /\ (1 <= length ds <= 3)%nat.
Proof.
  intros (ds & F & NE & LZ & N & B). exists ds. split.
  - clear - F. induction F as [|c d t ds [H ->] F IH]; constructor; [left; auto|exact IH].
  - destruct ds as [|a [|b [|c [|d ds]]]]; cbn [length]; try lia; [congruence|]. exfalso. inversion F as [|? ? ? ? D1 F1]; subst. inversion F1 as [|? ? ? ? D2 F2]; subst. inversion F2 as [|? ? ? ? D3 F3]; subst. inversion F3 as [|? ? ? ? D4 F4]; subst.
    cbn [hd length] in LZ. unfold ddig in *. destruct (Z.eq_dec a 0) as [Ea|]; [specialize (LZ Ea); lia|].
    cbn [num fold_left] in B. fold (num 10 ((((0 * 10 + a) * 10 + b) * 10 + c) * 10 + d) ds) in B. pose proof (num_ge 10 ((((0 * 10 + a) * 10 + b) * 10 + c) * 10 + d) ds ltac:(lia) ltac:(lia) (ddig_pos _ _ F4)). lia.
Qed.
(** A dotted quad starts with digits and a dot. *)
Lemma quad_run garb t a tmp tp cp : text4 t a -> (3 <= length garb)%nat -> exists val,
  pton6_loop garb t t tmp tp cp 0 0 = if Z.of_nat tp + 4 <=? 16 then (let* tmp := put_bytes tmp tp a in pton6_end tmp (tp + 4) cp 0 val) else Ok None.
Proof.
  intros T G. pose proof (proj2 (pton4_iff garb t a G) T) as P. destruct T as [O L]. inversion O as [t' n OC E1 E2|t' n s l OC Os E1 E2]; subst; [discriminate|]. destruct (octet_len t' n OC) as (ds & F & Ld). exists (num 16 0 ds).
  rewrite (hex_run garb ds t' (46 :: s) _ tmp tp cp 0 0 F) by (cbn; lia). cbn [pton6_loop]. change (hexval 46) with (-1). change (0 <=? -1) with false. cbn iota. change (46 =? COLON) with false. change (46 =? DOT) with true. cbn iota. cbn [andb].
  destruct (Z.of_nat tp + 4 <=? 16); [|reflexivity]. rewrite P. reflexivity.
Qed.
Lemma colon_run garb r cur out cp xd val : (length out <= 14)%nat -> 0 < xd -> 0 <= val < 65536 -> r <> [] ->
  pton6_loop garb (colon :: r) cur (arr out) (length out) cp xd val = pton6_loop garb r r (arr (out ++ [val / 256; val mod 256])) (length (out ++ [val / 256; val mod 256])) cp 0 0.
Proof.
  intros L X V R. cbn [pton6_loop]. change (hexval 58) with (-1). change (0 <=? -1) with false. cbn iota. change (58 =? COLON) with true. cbn iota. destruct (Z.eqb_spec xd 0); [lia|]. destruct r as [|c r]; [congruence|]. destruct (Z.ltb_spec 16 (Z.of_nat (length out) + 2)); [lia|].
  rewrite put16_ok by assumption. cbn [bind]. assert (E : S (S (length out)) = length (out ++ [val / 256; val mod 256])) by (rewrite app_length; cbn; lia). rewrite E. reflexivity.
Qed.
Lemma groups_ne s l : groups s l -> s <> [].
Proof.
  intros H. destruct H as [t w G|t a [O _]|t w s l G H].
  - apply (group_ne t w G).
  - destruct O as [t n (ds & F & NE & _)|t n s l (ds & F & NE & _)]; [|destruct t; discriminate]. intros ->. inversion F; congruence.
  - destruct t; discriminate.
Qed.
Lemma groups_run garb s l : (3 <= length garb)%nat -> groups s l -> forall out cp, (length out + length l <= 16)%nat -> cp_ok out cp ->
  pton6_loop garb s s (arr out) (length out) cp 0 0 = Ok (fin (out ++ l) cp).
Proof.
  intros G. induction 1 as [t w (ds & F & L & ->)|t a T|t w s l (ds & F & L & ->) H IH]; intros out cp B C; cbn [length] in B.
  - pose proof (num_bound4 ds t F ltac:(lia)) as NB. rewrite <- (app_nil_r t) at 1. rewrite (hex_run garb ds t [] _ _ _ cp 0 0 F) by (cbn; lia). cbn [pton6_loop]. rewrite end_val by (auto; lia). destruct (Nat.ltb_spec 14 (length out)); [lia|reflexivity].
  - destruct (quad_run garb t a (arr out) (length out) cp T G) as (val & ->). destruct T as [_ L]. destruct (Z.leb_spec (Z.of_nat (length out) + 4) 16); [|lia]. rewrite put_bytes_ok by lia. cbn [bind]. replace (length out + 4)%nat with (length (out ++ a)) by (rewrite app_length; lia). apply end_ok; [rewrite app_length; lia|]. destruct cp; [cbn in *; rewrite app_length; lia|exact Logic.I].
  - pose proof (num_bound4 ds t F ltac:(lia)) as NB. rewrite (hex_run garb ds t (58 :: s) _ _ _ cp 0 0 F) by (cbn; lia). rewrite colon_run; [|lia|lia|exact NB|apply (groups_ne s l H)]. rewrite IH; [rewrite <- app_assoc; reflexivity|rewrite app_length; cbn [length]; lia|]. destruct cp; [cbn in *; rewrite app_length; lia|exact Logic.I].
Qed.
Lemma fronts_run garb f l r : fronts f l -> r <> [] -> forall out cp, (length out + length l <= 16)%nat ->
  pton6_loop garb (f ++ r) (f ++ r) (arr out) (length out) cp 0 0 = pton6_loop garb r r (arr (out ++ l)) (length (out ++ l)) cp 0 0.
Proof.
  intros FR R. induction FR as [|t w s l (ds & F & L & ->) H IH]; intros out cp B; cbn [length] in B; [cbn [app]; rewrite app_nil_r; reflexivity|].
  pose proof (num_bound4 ds t F ltac:(lia)) as NB. rewrite <- app_assoc. cbn [app]. rewrite (hex_run garb ds t (58 :: s ++ r) _ _ _ cp 0 0 F) by (cbn; lia). rewrite colon_run; [|lia|lia|exact NB|destruct s; [exact R|discriminate]]. rewrite IH; [rewrite <- app_assoc; reflexivity|rewrite app_length; cbn [length]; lia].
Qed.
Lemma first_not_colon t w : group t w -> exists c t', t = c :: t' /\ (c =? COLON) = false.
Proof.
  intros (ds & F & L & _). destruct F as [|c d t ds D F]; [cbn in L; lia|]. exists c, t. split; [reflexivity|]. apply Z.eqb_neq. unfold COLON. intros ->. pose proof (hexval_xdig 58 d D) as E. change (hexval 58) with (-1) in E. pose proof (xdig_range _ _ D). lia.
Qed.
Lemma groups_first s l : groups s l -> exists c t', s = c :: t' /\ (c =? COLON) = false.
Proof.
  intros [t w G|t a [O L]|t w s' l' G H].
  - apply (first_not_colon t w G).
  - assert (Q : forall t n, octet t n -> exists c t', t = c :: t' /\ (c =? COLON) = false).
    { intros u n (ds & F & NE & _). destruct F as [|c d u ds [D ->] F]; [congruence|]. eexists _, _. split; [reflexivity|]. apply Z.eqb_neq. unfold COLON. lia. }
    destruct O as [t n OC|t n s' l' OC]; destruct (Q _ _ OC) as (c & t' & -> & E); cbn [app]; eauto.
  - destruct (first_not_colon t w G) as (c & t' & -> & E). cbn [app]. eauto.
Qed.
Lemma pton6_complete garb s a : (3 <= length garb)%nat -> text6 s a -> pton6 garb s = Ok (Some a).
Proof.
  intros G [s' a' H L|f l r m FR RM LL]; unfold pton6.
  - destruct (groups_first s' a' H) as (c & t & -> & E). rewrite E. change (repeat 0 16) with (arr []). pose proof (groups_run garb _ a' G H [] None) as Q. cbn [app length fin] in Q. rewrite Q; [rewrite L; reflexivity|lia|exact Logic.I].
  - assert (RUN : forall p, pton6_loop garb (f ++ colon :: r) (f ++ colon :: r) (arr []) 0 None 0 0 = p -> p = Ok (Some (l ++ repeat 0 (16 - length l - length m) ++ m))).
    { intros p <-. pose proof (fronts_run garb f l (58 :: r) FR ltac:(discriminate) [] None) as Q. cbn [app length] in Q. rewrite Q by lia. clear Q. cbn [app]. cbn [pton6_loop]. change (hexval 58) with (-1). change (0 <=? -1) with false. cbn iota. change (58 =? COLON) with true. cbn iota. change (0 =? 0) with true. cbn iota.
      assert (FIN : Ok (fin (l ++ m) (Some (length l))) = Ok (Some (l ++ repeat 0 (16 - length l - length m) ++ m))).
      { unfold fin. rewrite app_length. destruct (Nat.eqb_spec (length l + length m) 16); [lia|]. rewrite firstn_app, Nat.sub_diag, firstn_all. cbn [firstn]. rewrite app_nil_r, skipn_app, skipn_all, Nat.sub_diag. cbn [skipn app]. do 4 f_equal. f_equal. lia. }
      destruct RM as [[-> ->]|RM]; [|rewrite (groups_run garb r m G RM l (Some (length l))); [exact FIN|lia|cbn; lia]].
      cbn [pton6_loop]. rewrite end_ok; [rewrite app_nil_r in FIN; exact FIN|lia|cbn; lia]. }
    destruct FR as [|t w s2 l0 Gt FR].
    + cbn [app] in *. change (58 =? COLON) with true. cbn iota. change (negb true) with false. cbn iota. apply RUN. reflexivity.
    + destruct (first_not_colon t w Gt) as (c & t' & -> & E). cbn [app] in *. rewrite E. apply RUN. assert (Q : ((t' ++ 58 :: s2) ++ [58]) ++ r = (t' ++ 58 :: s2) ++ 58 :: r) by (rewrite <- app_assoc; reflexivity). rewrite Q. reflexivity.
Qed.

(** Soundness: what the loop has accepted. *)
Definition seq0 (s l : list Z) : Prop := s = [] /\ l = [] \/ groups s l.
(** The rest [cur] of the text when bytes [out] have been collected. *)
Definition rest_ok (cur out : list Z) (cp : option nat) (a : list Z) : Prop :=
  match cp with
  | Some c => exists m, seq0 cur m /\ (length (out ++ m) <= 16)%nat /\ fin (out ++ m) (Some c) = Some a
  | None => (exists m, seq0 cur m /\ (length (out ++ m) <= 16)%nat /\ fin (out ++ m) None = Some a)
            \/ exists f l r m, cur = f ++ colon :: r /\ fronts f l /\ seq0 r m /\ (length (out ++ l ++ m) <= 16)%nat /\ fin (out ++ l ++ m) (Some (length (out ++ l))) = Some a
  end.
Lemma rest_group cur out cp a tok ds r : Forall2 xdig tok ds -> (1 <= length ds <= 4)%nat -> r <> [] -> rest_ok r (out ++ [num 16 0 ds / 256; num 16 0 ds mod 256]) cp a -> cur = tok ++ colon :: r -> rest_ok cur out cp a.
Proof.
  intros F L R H ->. assert (GR : group tok (num 16 0 ds)) by (exists ds; auto). set (w := num 16 0 ds) in *.
  assert (SQ : forall m, seq0 r m -> groups (tok ++ 58 :: r) (w / 256 :: w mod 256 :: m)) by (intros m [[E _]|Gm]; [congruence|apply G_cons; assumption]).
  destruct cp as [c|].
  - destruct H as (m & S & Q & E). rewrite <- app_assoc in Q, E. cbn [app] in Q, E. exists (w / 256 :: w mod 256 :: m). split; [right; apply SQ, S|]. split; [exact Q|exact E].
  - destruct H as [(m & S & Q & E)|(f & l & r' & m & -> & FR & S & Q & E)].
    + left. rewrite <- app_assoc in Q, E. cbn [app] in Q, E. exists (w / 256 :: w mod 256 :: m). split; [right; apply SQ, S|]. split; [exact Q|exact E].
    + right. rewrite <- !app_assoc in Q, E. cbn [app] in Q, E. rewrite <- (app_assoc out _ l) in E. cbn [app] in E. exists (tok ++ 58 :: f), (w / 256 :: w mod 256 :: l), r', m. split; [rewrite <- app_assoc; reflexivity|]. split; [apply F_cons; assumption|]. split; [exact S|]. split; [exact Q|exact E].
Qed.
Lemma fin_end out cp a : (length out <= 16)%nat -> fin out cp = Some a -> rest_ok [] out cp a.
Proof. intros L E. destruct cp; cbn; [|left]; exists []; rewrite app_nil_r; (split; [left; auto|auto]). Qed.
Lemma pton6_loop_sound garb : (3 <= length garb)%nat -> forall s cur out cp tok ds, (length out <= 16)%nat -> cp_ok out cp -> cur = tok ++ s -> Forall2 xdig tok ds -> (length ds <= 4)%nat ->
  exists o, pton6_loop garb s cur (arr out) (length out) cp (Z.of_nat (length ds)) (num 16 0 ds) = Ok o /\ forall a, o = Some a -> rest_ok cur out cp a.
Proof.
  intros G. induction s as [|ch r IH]; intros cur out cp tok ds LO CP CU F LD; cbn [pton6_loop].
  - rewrite app_nil_r in CU. subst cur. pose proof (num_bound4 ds tok F LD) as NB. destruct ds as [|d ds].
    + inversion F; subst. rewrite end_ok by assumption. eexists. split; [reflexivity|]. intros a. apply fin_end, LO.
    + rewrite end_val; [|exact LO|exact CP|cbn [length]; lia|exact NB]. eexists. split; [reflexivity|]. intros a. destruct (Nat.ltb_spec 14 (length out)); [discriminate|]. intros E. set (w := num 16 0 (d :: ds)) in *.
      assert (GR : groups tok [w / 256; w mod 256]) by (apply G_last; exists (d :: ds); cbn [length] in *; repeat split; auto; lia).
      destruct cp; cbn [rest_ok]; [|left]; exists [w / 256; w mod 256]; (split; [right; exact GR|split; [rewrite app_length; cbn [length]; lia|exact E]]).
  - destruct (Z.leb_spec 0 (hexval ch)) as [HX|HX].
    + destruct (Z.eqb_spec (Z.of_nat (length ds)) 4); [eexists; split; [reflexivity|discriminate]|]. pose proof (xdig_hexval ch HX) as XD. pose proof (xdig_range _ _ XD) as XR.
      pose proof (num_bound ds tok 0 0 F ltac:(lia) ltac:(cbn; lia)) as NB. pose proof (pow_le (Z.of_nat (length ds)) ltac:(lia)) as PL. rewrite Z.add_0_l in NB. rewrite step_val by lia. destruct (Z.ltb_spec 65535 (num 16 0 ds * 16 + hexval ch)); [lia|].
      specialize (IH cur out cp (tok ++ [ch]) (ds ++ [hexval ch]) LO CP). destruct IH as (o & E & S); [rewrite <- app_assoc; exact CU|apply Forall2_app; [exact F|constructor; [exact XD|constructor]]|rewrite app_length; cbn [length]; lia|].
      exists o. split; [|exact S]. rewrite <- E, app_length. unfold num. rewrite fold_left_app. cbn [fold_left length]. f_equal; lia.
    + destruct (Z.eqb_spec ch COLON) as [->|NC].
      * destruct ds as [|d ds].
        -- inversion F; subst. cbn [length Z.of_nat app]. change (0 =? 0) with true. cbn iota. destruct cp as [c|]; [eexists; split; [reflexivity|discriminate]|].
           destruct (IH r out (Some (length out)) [] []) as (o & E & S); [exact LO|cbn; lia|reflexivity|constructor|cbn; lia|]. exists o. split; [exact E|]. intros a Ha. destruct (S a Ha) as (m & Sq & Q & FE). right. exists [], [], r, m. cbn [app]. split; [reflexivity|]. split; [constructor|]. split; [exact Sq|]. rewrite app_nil_r. auto.
        -- destruct (Z.eqb_spec (Z.of_nat (length (d :: ds))) 0); [cbn [length] in *; lia|]. destruct r as [|c r]; [eexists; split; [reflexivity|discriminate]|]. destruct (Z.ltb_spec 16 (Z.of_nat (length out) + 2)); [eexists; split; [reflexivity|discriminate]|].
           pose proof (num_bound4 (d :: ds) tok F LD) as NB. rewrite put16_ok by lia. cbn [bind]. set (w := num 16 0 (d :: ds)) in *. assert (EL : S (S (length out)) = length (out ++ [w / 256; w mod 256])) by (rewrite app_length; cbn; lia). rewrite EL.
           destruct (IH (c :: r) (out ++ [w / 256; w mod 256]) cp [] []) as (o & E & S); [rewrite app_length; cbn [length]; lia|destruct cp; [cbn in *; rewrite app_length; lia|exact Logic.I]|reflexivity|constructor|cbn; lia|]. exists o. split; [exact E|]. intros a Ha.
           apply (rest_group cur out cp a tok (d :: ds) (c :: r) F); [cbn [length] in *; lia|discriminate|exact (S a Ha)|exact CU].
      * destruct ((ch =? DOT) && (Z.of_nat (length out) + 4 <=? 16)) eqn:D; [|eexists; split; [reflexivity|discriminate]]. apply andb_prop in D as [_ D]. apply Z.leb_le in D.
        destruct (pton4_total garb cur G) as [o4 E4]. rewrite E4. cbn [bind]. destruct o4 as [bs|]; [|eexists; split; [reflexivity|discriminate]]. apply pton4_iff in E4; [|exact G]. pose proof (proj2 E4) as L4. rewrite put_bytes_ok by lia. cbn [bind]. replace (length out + 4)%nat with (length (out ++ bs)) by (rewrite app_length; lia).
        rewrite end_ok; [|rewrite app_length; lia|destruct cp; [cbn in *; rewrite app_length; lia|exact Logic.I]]. eexists. split; [reflexivity|]. intros a E. destruct cp; cbn [rest_ok]; [|left]; exists bs; (split; [right; apply G_quad, E4|split; [rewrite app_length; lia|exact E]]).
Qed.
Lemma fronts_even f l : fronts f l -> Nat.even (length l) = true.
Proof. induction 1 as [|t w s l G H IH]; [reflexivity|exact IH]. Qed.
Lemma groups_even f l : groups f l -> Nat.even (length l) = true.
Proof. induction 1 as [t w G|t a [_ L]|t w s l G H IH]; [reflexivity|rewrite L; reflexivity|exact IH]. Qed.
Lemma seq0_even s l : seq0 s l -> Nat.even (length l) = true.
Proof. intros [[_ ->]|H]; [reflexivity|apply (groups_even s l H)]. Qed.
Lemma pton6_sound garb s a : (3 <= length garb)%nat -> pton6 garb s = Ok (Some a) -> text6 s a.
Proof.
  intros G. unfold pton6. destruct s as [|c r]; [discriminate|].
  assert (M : forall s, rest_ok s [] None a -> s <> [] -> (groups s a /\ length a = 16%nat) \/ exists f l r m, s = f ++ colon :: r /\ fronts f l /\ seq0 r m /\ (length l + length m <= 14)%nat /\ a = l ++ repeat 0 (16 - length l - length m) ++ m).
  { intros s [(m & S & Q & E)|(f & l & r' & m & -> & FR & S & Q & E)] NE.
    - cbn [app fin] in E. destruct (Nat.eqb_spec (length m) 16); [|discriminate]. injection E as <-. left. destruct S as [[-> _]|S]; [congruence|auto].
    - right. exists f, l, r', m. cbn [app] in *. unfold fin in E. rewrite app_length in *. destruct (Nat.eqb_spec (length l + length m) 16); [discriminate|]. apply (f_equal (fun o => match o with Some x => x | None => [] end)) in E; cbn beta iota in E; subst a. split; [reflexivity|]. split; [exact FR|]. split; [exact S|].
      pose proof (fronts_even f l FR) as E1. pose proof (seq0_even r' m S) as E2. apply Nat.even_spec in E1 as [x E1]. apply Nat.even_spec in E2 as [y E2]. split; [lia|]. rewrite firstn_app, Nat.sub_diag, firstn_all. cbn [firstn]. rewrite app_nil_r, skipn_app, skipn_all, Nat.sub_diag. cbn [skipn app]. do 3 f_equal. lia. }
  assert (RUN : forall s, s <> [] -> pton6_loop garb s s (repeat 0 16) 0 None 0 0 = Ok (Some a) -> rest_ok s [] None a).
  { intros s _ E. destruct (pton6_loop_sound garb G s s [] None [] []) as (o & E' & S); [cbn; lia|exact Logic.I|reflexivity|constructor|cbn; lia|]. apply S. cbn [length Z.of_nat num fold_left] in E'. change (arr []) with (repeat 0 16) in E'. congruence. }
  destruct (Z.eqb_spec c COLON) as [->|NC].
  - destruct r as [|c' r]; [discriminate|]. destruct (Z.eqb_spec c' COLON) as [->|]; cbn [negb]; [|discriminate]. intros E. apply RUN in E; [|discriminate]. destruct (M _ E ltac:(discriminate)) as [[Gs _]|(f & l & r' & m & EQ & FR & S & LL & ->)].
    + destruct (groups_first _ _ Gs) as (x & y & [= <- _] & NE). discriminate.
    + destruct FR as [|t w s2 l0 Gt FR].
      * cbn [app] in EQ. injection EQ as <-. apply (T_gap [] [] r m); [constructor|exact S|exact LL].
      * destruct (first_not_colon t w Gt) as (x & y & -> & NE). cbn [app] in EQ. injection EQ as <- _. discriminate.
  - intros E. apply RUN in E; [|discriminate]. destruct (M _ E ltac:(discriminate)) as [[Gs L]|(f & l & r' & m & EQ & FR & S & LL & ->)]; [apply T_full; assumption|].
    rewrite EQ. destruct FR as [|t w s2 l0 Gt FR]; [cbn [app] in EQ; injection EQ as EQ _; exfalso; exact (NC EQ)|].
    pose proof (T_gap (t ++ 58 :: s2) (w / 256 :: w mod 256 :: l0) r' m (F_cons _ _ _ _ Gt FR) S LL) as T. destruct (t ++ 58 :: s2) as [|x y] eqn:TT; [destruct t; discriminate|]. rewrite <- app_assoc in T. exact T.
Qed.
Lemma pton6_total garb s : (3 <= length garb)%nat -> exists o, pton6 garb s = Ok o.
Proof.
  intros G. unfold pton6. destruct s as [|c r]; [eauto|].
  assert (RUN : forall s, exists o, pton6_loop garb s s (repeat 0 16) 0 None 0 0 = Ok o) by (intros s; destruct (pton6_loop_sound garb G s s [] None [] []) as (o & E' & S); [cbn; lia|exact Logic.I|reflexivity|constructor|cbn; lia|]; exists o; exact E').
  destruct (c =? COLON); [|apply RUN]. destruct r as [|c' r]; [eauto|]. destruct (negb (c' =? COLON)); [eauto|apply RUN].
Qed.
