(** * Proofs about Inet.v *)
From Verif Require Import Base Inet InetSpec.
Ltac Zify.zify_post_hook ::= Z.div_mod_to_equations.

Lemma lor_add a b k : 0 <= k -> 0 <= b < 2 ^ k -> Z.lor (a * 2 ^ k) b = a * 2 ^ k + b.
Proof.
  intros Hk Hb. assert (L : Z.land (a * 2 ^ k) b = 0).
  { apply Z.bits_inj'. intros i Hi. rewrite Z.land_spec, Z.bits_0. destruct (Z.lt_ge_cases i k).
    - rewrite Z.mul_pow2_bits_low by lia. reflexivity.
    - destruct (Z.eq_dec b 0) as [->|]; [rewrite Z.bits_0; apply andb_false_r|]. rewrite (Z.bits_above_log2 b i); [apply andb_false_r|lia|]. apply Z.log2_lt_pow2; [lia|]. apply Z.lt_le_trans with (2 ^ k); [lia|]. apply Z.pow_le_mono_r; lia. }
  rewrite <- Z.lxor_lor by exact L. symmetry. apply Z.add_nocarry_lxor, L.
Qed.
Lemma nth_upd_same (l : list Z) n x : (n < length l)%nat -> nth_error (upd l n x) n = Some x.
Proof. apply nth_error_upd_eq. Qed.

(** ** IPv4 *)
Lemma num_ge base v ds : 1 <= base -> 0 <= v -> Forall (fun d => 0 <= d) ds -> v <= num base v ds.
Proof. intros Hb. revert v. induction ds as [|d ds IH]; intros v Hv F; [cbn; lia|]. inversion F; subst. cbn [num fold_left]. fold (num base (v * base + d) ds). specialize (IH (v * base + d) ltac:(nia) H2). nia. Qed.
Lemma ddig_pos t ds : Forall2 ddig t ds -> Forall (fun d => 0 <= d) ds.
Proof. induction 1 as [|c d t ds [H _] F IH]; constructor; [lia|exact IH]. Qed.
Lemma byte_ok l n (x : Z) : nth_error l n = Some x -> byte l n = Ok x. Proof. unfold byte. intros ->. reflexivity. Qed.
Lemma upd_upd (l : list Z) n x y : upd (upd l n x) n y = upd l n y.
Proof. revert n. induction l as [|a l IH]; intros [|n]; cbn; auto. f_equal. apply IH. Qed.
Lemma upd_id (l : list Z) n x : nth_error l n = Some x -> upd l n x = l.
Proof. revert n. induction l as [|a l IH]; intros [|n]; cbn; try discriminate; [congruence|]. intros H. f_equal. apply IH, H. Qed.
Lemma digits_run ds : forall t r o tmp tp cur, Forall2 ddig t ds -> nth_error tmp tp = Some cur -> (0 < cur \/ ds = [] /\ 0 <= cur) -> num 10 cur ds <= 255 ->
  pton4_loop (t ++ r) true o tmp tp = pton4_loop r true o (upd tmp tp (num 10 cur ds)) tp.
Proof.
  induction ds as [|d ds IH]; intros t r o tmp tp cur F E P B; inversion F as [|c d' t' ds' D F']; subst.
  - cbn [app num fold_left]. rewrite upd_id by exact E. reflexivity.
  - destruct P as [P|[P _]]; [|discriminate]. destruct D as [Dr ->]. cbn [app pton4_loop]. destruct (Z.leb_spec 48 (48 + d)), (Z.leb_spec (48 + d) 57); try lia. cbn [andb]. rewrite (byte_ok _ _ _ E). cbn [bind].
    destruct (Z.eqb_spec cur 0); [lia|]. cbn [negb]. replace (cur * 10 + (48 + d - 48)) with (cur * 10 + d) by lia.
    pose proof (num_ge 10 (cur * 10 + d) ds ltac:(lia) ltac:(lia) (ddig_pos _ _ F')) as G. change (num 10 cur (d :: ds)) with (num 10 (cur * 10 + d) ds) in *. destruct (Z.ltb_spec 255 (cur * 10 + d)); [lia|].
    rewrite (IH t' r o (upd tmp tp (cur * 10 + d)) tp (cur * 10 + d) F'); [rewrite upd_upd; reflexivity|apply nth_upd_same; apply nth_error_Some; congruence|left; lia|exact B].
Qed.
Lemma octet_run t n r o tmp tp : octet t n -> nth_error tmp tp = Some 0 -> o < 4 -> pton4_loop (t ++ r) false o tmp tp = pton4_loop r true (o + 1) (upd tmp tp n) tp.
Proof.
  intros (ds & F & NE & LZ & N & B) E Ho. destruct ds as [|d ds]; [congruence|]. inversion F as [|c d' t' ds' D F']; subst. destruct D as [Dr ->]. cbn [app pton4_loop].
  destruct (Z.leb_spec 48 (48 + d)), (Z.leb_spec (48 + d) 57); try lia. cbn [andb]. rewrite (byte_ok _ _ _ E). cbn [bind]. replace (0 * 10 + (48 + d - 48)) with d by lia.
  destruct (Z.ltb_spec 255 d); [lia|]. cbn [negb]. destruct (Z.ltb_spec 4 (o + 1)); [lia|]. change (num 10 0 (d :: ds)) with (num 10 d ds) in *.
  assert (LT : (tp < length tmp)%nat) by (apply nth_error_Some; congruence).
  rewrite (digits_run ds t' r (o + 1) (upd tmp tp d) tp d F'); [rewrite upd_upd; reflexivity|apply nth_upd_same, LT| |exact B].
  destruct (Z.eq_dec d 0) as [->|]; [right|left; lia]. split; [|lia]. specialize (LZ eq_refl). cbn in LZ. destruct ds; [reflexivity|cbn in LZ; lia].
Qed.
Lemma firstn_upd (l : list Z) n x : (n < length l)%nat -> firstn (S n) (upd l n x) = firstn n l ++ [x].
Proof. revert n. induction l as [|a l IH]; intros [|n] H; cbn in *; try lia; [reflexivity|]. f_equal. apply IH. lia. Qed.
Lemma firstn_upd_S (l : list Z) n x : firstn n (upd l n x) = firstn n l.
Proof. revert n. induction l as [|a l IH]; intros [|n]; cbn; auto. f_equal. apply IH. Qed.
Lemma nth_error_byte (l : list Z) n : (n < length l)%nat -> exists x, byte l n = Ok x.
Proof. intros H. unfold byte. destruct (nth_error l n) eqn:E; [eauto|]. apply nth_error_None in E. lia. Qed.

Lemma octets_run s l : octets s l -> forall tmp tp o, length tmp = 4%nat -> nth_error tmp tp = Some 0 -> o = Z.of_nat tp -> (tp + length l = 4)%nat ->
  pton4_loop s false o tmp tp = Ok (Some (firstn tp tmp ++ l)).
Proof.
  induction 1 as [t n OC|t n s l OC H IH]; intros tmp tp o LT E -> LL; cbn [length] in LL.
  - rewrite <- (app_nil_r t), (octet_run t n [] _ tmp tp OC E) by lia. cbn [pton4_loop]. destruct (Z.ltb_spec (Z.of_nat tp + 1) 4); [lia|]. f_equal. f_equal. rewrite <- firstn_upd by lia. rewrite firstn_all2; [reflexivity|rewrite upd_length; lia].
  - assert (length l <> 0)%nat by (destruct H; discriminate). rewrite (octet_run t n _ _ tmp tp OC E) by lia. cbn [pton4_loop]. change ((48 <=? 46) && (46 <=? 57)) with false. cbn iota. change (46 =? DOT) with true. cbn [andb].
    destruct (Z.eqb_spec (Z.of_nat tp + 1) 4); [lia|]. destruct (nth_error_byte (upd tmp tp n) (S tp)) as [x ->]; [rewrite upd_length; lia|]. cbn [bind].
    rewrite (IH (upd (upd tmp tp n) (S tp) 0) (S tp) (Z.of_nat tp + 1)); [|rewrite !upd_length; exact LT|apply nth_upd_same; rewrite upd_length; lia|lia|lia].
    rewrite firstn_upd_S, firstn_upd by lia. rewrite <- app_assoc. reflexivity.
Qed.
(** Soundness. *)
Lemma pton4_sound s : forall (saw : bool) (o : Z) tmp tp res cur, length tmp = 4%nat -> (tp < 4)%nat -> o = (if saw then Z.of_nat tp + 1 else Z.of_nat tp) -> nth_error tmp tp = Some cur -> (if saw then 0 <= cur <= 255 else cur = 0) ->
  pton4_loop s saw o tmp tp = res ->
  exists oa, res = Ok oa /\ forall a, oa = Some a -> length a = 4%nat /\
   if saw then exists t ds l, (s = t /\ l = [] \/ exists s', s = t ++ dot :: s' /\ octets s' l) /\ Forall2 ddig t ds /\ (cur = 0 -> ds = []) /\ num 10 cur ds <= 255 /\ a = firstn tp tmp ++ num 10 cur ds :: l
   else octets s (skipn tp a) /\ firstn tp a = firstn tp tmp.
Proof.
  induction s as [|ch r IH]; intros saw o tmp tp res cur LT TP HO E HC HR; cbn [pton4_loop] in HR.
  - destruct (Z.ltb_spec o 4).
    + subst res. eexists. split; [reflexivity|]. discriminate.
    + subst res. eexists. split; [reflexivity|]. intros a [= <-]. split; [exact LT|]. destruct saw; [|lia]. exists [], [], []. split; [left; auto|]. split; [constructor|]. split; [auto|]. cbn [num fold_left]. split; [lia|]. assert (tp = 3)%nat by lia. subst tp. destruct tmp as [|a0 [|a1 [|a2 [|a3 [|]]]]]; try discriminate. cbn in E. injection E as ->. reflexivity.
  - destruct (Z.leb_spec 48 ch); [destruct (Z.leb_spec ch 57)|]; cbn [andb] in HR.
    + rewrite (byte_ok _ _ _ E) in HR. cbn [bind] in HR. set (d := ch - 48) in *. assert (DD : ddig ch d) by (unfold ddig, d; lia).
      destruct (saw && (cur =? 0)) eqn:SC; [subst res; eexists; split; [reflexivity|discriminate]|]. destruct (Z.ltb_spec 255 (cur * 10 + d)); [subst res; eexists; split; [reflexivity|discriminate]|].
      assert (E' : nth_error (upd tmp tp (cur * 10 + d)) tp = Some (cur * 10 + d)) by (apply nth_upd_same; lia).
      destruct saw; cbn [negb] in HR.
      * destruct (Z.eqb_spec cur 0); [discriminate|]. destruct (IH true o (upd tmp tp (cur * 10 + d)) tp res (cur * 10 + d)) as (oa & -> & S); auto; [rewrite upd_length; exact LT|unfold d; lia|]. exists oa. split; [reflexivity|]. intros a Ha. destruct (S a Ha) as (L & t & ds & l & Q & F & Z0 & B & A). split; [exact L|]. rewrite firstn_upd_S in A.
        exists (ch :: t), (d :: ds), l. split; [|split; [constructor; assumption|split; [lia|split; [exact B|exact A]]]]. destruct Q as [[-> ->]|(s' & -> & O)]; [left; auto|right; exists s'; auto].
      * destruct (Z.ltb_spec 4 (o + 1)); [lia|]. subst cur. destruct (IH true (o + 1) (upd tmp tp (0 * 10 + d)) tp res (0 * 10 + d)) as (oa & -> & S); auto; [rewrite upd_length; exact LT|lia|unfold d; lia|]. exists oa. split; [reflexivity|]. intros a Ha. destruct (S a Ha) as (L & t & ds & l & Q & F & Z0 & B & A). split; [exact L|]. rewrite firstn_upd_S in A.
        assert (LF : length (firstn tp tmp) = tp) by (rewrite firstn_length; lia). assert (OC : octet (ch :: t) (num 10 (0 * 10 + d) ds)).
        { exists (d :: ds). split; [constructor; assumption|]. split; [discriminate|]. split; [cbn [hd]; intros ->; rewrite (Z0 eq_refl); reflexivity|]. split; [reflexivity|exact B]. }
        rewrite A. split.
        -- rewrite skipn_app, LF, Nat.sub_diag, skipn_all2 by lia. cbn [app skipn]. destruct Q as [[-> ->]|(s' & -> & O)]; [apply O_last, OC|]. apply (O_cons (ch :: t)); assumption.
        -- rewrite firstn_app, LF, Nat.sub_diag, firstn_all2 by lia. cbn [firstn]. apply app_nil_r.
    + destruct ((ch =? DOT) && saw) eqn:C.
      * apply andb_prop in C as [C ->]. apply Z.eqb_eq in C. unfold DOT in C. lia.
      * subst res. eexists. split; [reflexivity|discriminate].
    + destruct ((ch =? DOT) && saw) eqn:C; [|subst res; eexists; split; [reflexivity|discriminate]]. apply andb_prop in C as [C ->]. apply Z.eqb_eq in C. unfold DOT in C. subst ch.
      destruct (Z.eqb_spec o 4); [subst res; eexists; split; [reflexivity|discriminate]|]. destruct (nth_error_byte tmp (S tp)) as [x Hx]; [lia|]. rewrite Hx in HR. cbn [bind] in HR.
      destruct (IH false o (upd tmp (S tp) 0) (S tp) res 0) as (oa & -> & S); auto; [rewrite upd_length; exact LT|lia|lia|apply nth_upd_same; lia|]. exists oa. split; [reflexivity|]. intros a Ha. destruct (S a Ha) as (L & O & FI). split; [exact L|]. rewrite firstn_upd_S in FI.
      exists [], [], (skipn (Datatypes.S tp) a). split; [right; exists r; split; [reflexivity|exact O]|]. split; [constructor|]. split; [auto|]. cbn [num fold_left]. split; [lia|].
      rewrite <- (firstn_skipn (Datatypes.S tp) a) at 1. rewrite FI. assert (FS : firstn (Datatypes.S tp) tmp = firstn tp tmp ++ [cur]).
      { clear - E. revert tp E. induction tmp as [|b tmp IHt]; intros [|tp] E; cbn in *; try discriminate; [congruence|]. f_equal. apply IHt, E. }
      rewrite FS, <- app_assoc. reflexivity.
Qed.
(** The parser accepts exactly the canonical texts. *)
Lemma pton4_total garb s : (3 <= length garb)%nat -> exists o, pton4 garb s = Ok o.
Proof.
  intros G. unfold pton4. destruct (pton4_sound s false 0 (0 :: firstn 3 garb) 0 _ 0 ltac:(cbn [length]; rewrite firstn_length; lia) ltac:(lia) eq_refl eq_refl eq_refl eq_refl) as (oa & E & _). eauto.
Qed.
Lemma pton4_iff garb s a : (3 <= length garb)%nat -> pton4 garb s = Ok (Some a) <-> text4 s a.
Proof.
  intros G. unfold pton4. assert (LT : length (0 :: firstn 3 garb) = 4%nat) by (cbn [length]; rewrite firstn_length; lia). split.
  - intros H. destruct (pton4_sound s false 0 (0 :: firstn 3 garb) 0 _ 0 LT ltac:(lia) eq_refl eq_refl eq_refl H) as (oa & E & S). destruct (S a ltac:(congruence)) as (L & O & _). split; assumption.
  - intros [O L]. rewrite (octets_run s a O (0 :: firstn 3 garb) 0 0 LT eq_refl eq_refl ltac:(lia)). reflexivity.
Qed.
