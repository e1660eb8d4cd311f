(** * Invariant of the handle pools *)
From Verif Require Import Base Bitmap BitmapSpec BitmapProof Idpool.

Ltac Zify.zify_post_hook ::= Z.div_mod_to_equations.

Definition live (o : pobj) : Prop := o_phase o <> Released.

Definition rank (p : phase) : nat :=
  match p with Reserved => 0 | Installed => 1 | Uninstalled => 2 | Released => 3 end%nat.

Record pinv (s : pool) : Prop := {
  pi_bits : binv (p_bits s);
  pi_cnt : bit_cnt (p_bits s) = p_size s;
  pi_size : exists k, p_size s = 8 * k /\ 1 <= k <= 31;
  pi_slot : forall p o, nth_error (p_objs s) p = Some o -> live o -> 0 <= o_slot o < p_size s;
  pi_bit : forall i, 0 <= i < p_size s ->
     (bitval (p_bits s) i = true <->
      exists p o, nth_error (p_objs s) p = Some o /\ live o /\ o_slot o = i);
  pi_uniq : forall p q op oq, nth_error (p_objs s) p = Some op -> nth_error (p_objs s) q = Some oq ->
     live op -> live oq -> o_slot op = o_slot oq -> p = q;
  pi_tbl : forall i p, 0 <= i -> (nth_error (p_tbl s) (Z.to_nat i) = Some (Some p) <->
     exists o, nth_error (p_objs s) p = Some o /\ o_phase o = Installed /\ o_slot o = i);
  pi_life : p_life s = p_ninst s mod 65535 + 1 /\ 0 <= p_ninst s;
  pi_handle : forall p o, nth_error (p_objs s) p = Some o ->
     (o_phase o = Reserved -> o_handle o = -1) /\
     (o_phase o = Installed \/ o_phase o = Uninstalled -> o_handle o <> -1) /\
     (o_handle o <> -1 -> 0 <= o_slot o < 248 /\
        o_handle o = make_obj_id (o_slot o) (o_nth o mod 65535 + 1) /\ 0 <= o_nth o < p_ninst s);
  pi_order : forall p q op oq, nth_error (p_objs s) p = Some op -> nth_error (p_objs s) q = Some oq ->
     p <> q -> o_handle op <> -1 -> o_handle oq <> -1 -> live oq ->
     o_slot op = o_slot oq -> o_nth op < o_nth oq
}.

(** ** Handle arithmetic *)

Lemma lor_shift_add life id :
  0 <= life < 65536 -> 0 <= id < 65536 -> Z.lor (Z.shiftl life 16) id = life * 65536 + id.
Proof.
  intros Hl Hi. rewrite Z.shiftl_mul_pow2 by lia. change (2 ^ 16) with 65536.
  assert (H : Z.land (life * 65536) id = 0).
  { apply Z.bits_inj'. intros n Hn. rewrite Z.land_spec, Z.bits_0.
    change 65536 with (2 ^ 16). rewrite <- Z.shiftl_mul_pow2 by lia.
    destruct (Z.ltb_spec n 16).
    - rewrite Z.shiftl_spec_low by lia. reflexivity.
    - replace (Z.testbit id n) with false; [apply andb_false_r|].
      symmetry. destruct (Z.eq_dec id 0) as [->|]; [apply Z.bits_0|].
      apply Z.bits_above_log2; [lia|]. apply Z.log2_lt_pow2; [lia|].
      apply Z.lt_le_trans with (2 ^ 16); [lia|]. apply Z.pow_le_mono_r; lia. }
  rewrite <- Z.lxor_lor by assumption. symmetry. apply Z.add_nocarry_lxor. assumption.
Qed.

Lemma make_obj_id_eq id life :
  0 <= id < 248 -> 1 <= life <= 65535 ->
  make_obj_id id life = s32 (life * 65536 + id).
Proof.
  intros. unfold make_obj_id. f_equal.
  replace (u16 life) with life by (unfold u16; lia).
  apply lor_shift_add; lia.
Qed.

Lemma get_id_make id life : 0 <= id < 248 -> 1 <= life <= 65535 -> get_id (make_obj_id id life) = id.
Proof.
  intros. rewrite make_obj_id_eq by assumption.
  unfold get_id, s16, s32, wrap_signed. cbn zeta.
  change (4294967296 / 2) with 2147483648. change (65536 / 2) with 32768.
  rewrite (Z.mod_small (life * 65536 + id)) by lia.
  destruct (Z.leb_spec 2147483648 (life * 65536 + id)).
  - replace ((life * 65536 + id - 4294967296) mod 65536) with id by lia.
    destruct (Z.leb_spec 32768 id); lia.
  - replace ((life * 65536 + id) mod 65536) with id by lia.
    destruct (Z.leb_spec 32768 id); lia.
Qed.

Lemma make_obj_id_inj id life id' life' :
  0 <= id < 248 -> 0 <= id' < 248 -> 1 <= life <= 65535 -> 1 <= life' <= 65535 ->
  make_obj_id id life = make_obj_id id' life' -> id = id' /\ life = life'.
Proof.
  intros H1 H2 H3 H4. rewrite !make_obj_id_eq by assumption.
  unfold s32, wrap_signed. cbn zeta.
  change (4294967296 / 2) with 2147483648.
  rewrite !Z.mod_small by lia.
  destruct (Z.leb_spec 2147483648 (life * 65536 + id)),
           (Z.leb_spec 2147483648 (life' * 65536 + id')); lia.
Qed.

Lemma make_obj_id_neq_m1 id life : 0 <= id < 248 -> 1 <= life <= 65535 -> make_obj_id id life <> -1.
Proof.
  intros H1 H2 E. pose proof (get_id_make id life H1 H2) as G. rewrite E in G.
  change (get_id (-1)) with (-1) in G. lia.
Qed.

(** ** Initial state *)
Lemma pinv_init max : pinv (pool_init max).
Proof.
  assert (Hb0 : forall j, bitval (mkBitmap [0] 8) j = false).
  { intros j. unfold bitval. cbn [bits].
    destruct (Z.to_nat (j / 8)) as [|[|n]]; simpl nth; apply Z.bits_0. }
  constructor; cbn [pool_init p_bits p_tbl p_objs p_life p_ninst p_size].
  - constructor; cbn [bits bit_cnt]; auto; try lia.
    repeat constructor; lia.
  - reflexivity.
  - exists 1. split; [reflexivity|lia].
  - intros p o H. destruct p; discriminate.
  - intros i Hi. rewrite Hb0. split; [discriminate|].
    intros (p & o & H & _). destruct p; discriminate.
  - intros p q op oq H. destruct p; discriminate.
  - intros i p Hi. split.
    + intros H. apply nth_error_In in H. apply (repeat_spec 8 None) in H. discriminate.
    + intros (o & H & _). destruct p; discriminate.
  - split; [reflexivity|lia].
  - intros p o H. destruct p; discriminate.
  - intros p q op oq H. destruct p; discriminate.
Qed.

(** ** Steps *)

(** How one object may evolve. *)
Definition oext (o o' : pobj) : Prop :=
  o_slot o' = o_slot o /\
  (o_handle o <> -1 -> o_handle o' = o_handle o /\ o_nth o' = o_nth o) /\
  (rank (o_phase o) <= rank (o_phase o'))%nat.

Definition sext (s s' : pool) : Prop :=
  p_max s' = p_max s /\
  forall p o, nth_error (p_objs s) p = Some o ->
    exists o', nth_error (p_objs s') p = Some o' /\ oext o o'.

Lemma oext_refl o : oext o o.
Proof. unfold oext; intuition. Qed.

Lemma oext_trans a b c : oext a b -> oext b c -> oext a c.
Proof.
  unfold oext. intros (H1 & H2 & H3) (H4 & H5 & H6). split; [congruence|]. split; [|lia].
  intros H. destruct (H2 H) as [E1 E2]. rewrite <- E1 in H. destruct (H5 H) as [E3 E4].
  split; congruence.
Qed.

Lemma sext_refl s : sext s s.
Proof. split; [reflexivity|]. intros p o H. exists o. split; [assumption|apply oext_refl]. Qed.

Lemma sext_trans a b c : sext a b -> sext b c -> sext a c.
Proof.
  intros [M1 H1] [M2 H2]. split; [congruence|]. intros p o H.
  destruct (H1 p o H) as (o1 & E1 & X1). destruct (H2 p o1 E1) as (o2 & E2 & X2).
  exists o2. split; [assumption|]. eapply oext_trans; eassumption.
Qed.

Lemma nth_error_snoc {A} (l : list A) x p o :
  nth_error (l ++ [x]) p = Some o ->
  nth_error l p = Some o \/ (p = length l /\ o = x).
Proof.
  intros H. destruct (Nat.ltb_spec p (length l)).
  - left. rewrite nth_error_app1 in H by assumption. assumption.
  - right. rewrite nth_error_app2 in H by assumption.
    destruct (p - length l)%nat as [|n] eqn:E; simpl in H.
    + injection H as <-. split; [lia|reflexivity].
    + destruct n; discriminate.
Qed.

(** Reserving slot [r] (clear before, set after) keeps the invariant. *)
Lemma pinv_reserve s tbl nb r :
  pinv s ->
  (exists ext, tbl = p_tbl s ++ repeat None ext) ->
  (exists k, Z.of_nat (length tbl) = 8 * k /\ 1 <= k <= 31) ->
  binv nb -> bit_cnt nb = Z.of_nat (length tbl) ->
  0 <= r < Z.of_nat (length tbl) ->
  (forall j, 0 <= j < Z.of_nat (length tbl) ->
     bitval nb j = if r =? j then true else if j <? p_size s then bitval (p_bits s) j else false) ->
  (r < p_size s -> bitval (p_bits s) r = false) ->
  pinv (mkPool (p_max s) tbl nb (p_life s) (p_objs s ++ [mkObj r (-1) Reserved 0]) (p_ninst s)).
Proof.
  intros Hs (ext & Htbl) Hk Hb Hc Hr Hv Hrz.
  assert (Hsz : p_size s <= Z.of_nat (length tbl)).
  { subst tbl. rewrite app_length. unfold p_size. lia. }
  assert (Hfree : forall p o, nth_error (p_objs s) p = Some o -> live o -> o_slot o <> r).
  { intros p o H Hl E. pose proof (pi_slot s Hs p o H Hl) as Hin.
    assert (bitval (p_bits s) r = true).
    { apply (pi_bit s Hs); [lia|]. exists p, o. auto. }
    rewrite Hrz in H0 by lia. discriminate. }
  constructor; cbn [p_bits p_tbl p_objs p_life p_ninst]; auto.
  - intros p o H Hl. unfold p_size at 1. cbn [p_tbl].
    apply nth_error_snoc in H. destruct H as [H|[-> ->]].
    + pose proof (pi_slot s Hs p o H Hl). lia.
    + cbn [o_slot]. assumption.
  - intros i Hi. unfold p_size in Hi. cbn [p_tbl] in Hi. rewrite Hv by assumption.
    destruct (Z.eqb_spec r i) as [->|Hne].
    + split; [|reflexivity]. intros _. exists (length (p_objs s)), (mkObj i (-1) Reserved 0).
      split; [rewrite nth_error_app2, Nat.sub_diag by lia; reflexivity|].
      split; [discriminate|reflexivity].
    + split.
      * intros H. destruct (Z.ltb_spec i (p_size s)); [|discriminate].
        apply (pi_bit s Hs) in H; [|lia]. destruct H as (p & o & H1 & H2 & H3).
        exists p, o. split; [|auto]. rewrite nth_error_app1; [assumption|].
        apply nth_error_Some. congruence.
      * intros (p & o & H1 & H2 & H3). apply nth_error_snoc in H1. destruct H1 as [H1|[-> ->]].
        -- pose proof (pi_slot s Hs p o H1 H2).
           destruct (Z.ltb_spec i (p_size s)); [|lia].
           apply (pi_bit s Hs); [lia|]. exists p, o. auto.
        -- cbn [o_slot] in H3. congruence.
  - intros p q op oq Hp Hq Lp Lq E.
    apply nth_error_snoc in Hp. apply nth_error_snoc in Hq.
    destruct Hp as [Hp|[-> ->]], Hq as [Hq|[-> ->]].
    + eapply (pi_uniq s Hs); eauto.
    + exfalso. cbn [o_slot] in E. eapply Hfree; eauto.
    + exfalso. cbn [o_slot] in E. eapply Hfree; eauto.
    + reflexivity.
  - intros i p Hi. subst tbl. split.
    + intros H. destruct (Nat.ltb_spec (Z.to_nat i) (length (p_tbl s))).
      * rewrite nth_error_app1 in H by assumption. apply (pi_tbl s Hs) in H; [|assumption].
        destruct H as (o & H1 & H2 & H3). exists o. split; [|auto].
        rewrite nth_error_app1; [assumption|]. apply nth_error_Some. congruence.
      * rewrite nth_error_app2 in H by assumption. apply nth_error_In in H.
        apply repeat_spec in H. discriminate.
    + intros (o & H1 & H2 & H3). apply nth_error_snoc in H1. destruct H1 as [H1|[-> ->]].
      * assert (Hin : nth_error (p_tbl s) (Z.to_nat i) = Some (Some p)).
        { apply (pi_tbl s Hs); [assumption|]. exists o. auto. }
        rewrite nth_error_app1; [assumption|]. apply nth_error_Some. congruence.
      * discriminate.
  - apply (pi_life s Hs).
  - intros p o H. apply nth_error_snoc in H. destruct H as [H|[-> ->]].
    + apply (pi_handle s Hs p o H).
    + cbn [o_phase o_handle]. split; [reflexivity|]. split; [intros [?|?]; discriminate|congruence].
  - intros p q op oq Hp Hq Hne Ho Hoq Hl E.
    apply nth_error_snoc in Hp. apply nth_error_snoc in Hq.
    destruct Hp as [Hp|[-> ->]], Hq as [Hq|[-> ->]];
      try (cbn [o_handle] in *; congruence).
    eapply (pi_order s Hs); eauto.
Qed.

Lemma sext_reserve s tbl nb r :
  sext s (mkPool (p_max s) tbl nb (p_life s) (p_objs s ++ [mkObj r (-1) Reserved 0]) (p_ninst s)).
Proof.
  split; [reflexivity|]. intros p o H. exists o. split; [|apply oext_refl].
  cbn [p_objs]. rewrite nth_error_app1; [assumption|]. apply nth_error_Some. congruence.
Qed.

Lemma step_get s a1 a2 :
  pinv s ->
  exists s' e, pstep s (PGet a1 a2) = Ok (s', e) /\ pinv s' /\ sext s s' /\
    p_ninst s' = p_ninst s + Z.of_nat (issued [e]).
Proof.
  intros Hs. cbn [pstep]. unfold get_unused.
  pose proof (pi_bits s Hs) as Hb. pose proof (pi_cnt s Hs) as Hcnt.
  destruct (pi_size s Hs) as (k & Hk & Hkr).
  destruct (find_first_zero_spec _ Hb) as [(E & Hall)|(Hr & Hz & Hall)].
  - rewrite E. change (-1 <? 0) with true. cbv iota.
    destruct (Z.leb_spec (p_max s) (p_size s)) as [Hm|Hm].
    { cbn [bind]. change (- AOSL_EOVERFLOW <? 0) with true. cbv iota.
      exists s. eexists. split; [reflexivity|]. split; [assumption|]. split; [apply sext_refl|].
      cbn [issued]. lia. }
    destruct (bitmap_create a1 (p_size s + 8)) as [nb0|] eqn:Ec.
    2:{ cbn [bind]. change (- AOSL_ENOMEM <? 0) with true. cbv iota.
        exists s. eexists. split; [reflexivity|]. split; [assumption|]. split; [apply sext_refl|].
        cbn [issued]. lia. }
    destruct a2; cbn [negb].
    2:{ cbn [bind]. change (- AOSL_ENOMEM <? 0) with true. cbv iota.
        exists s. eexists. split; [reflexivity|]. split; [assumption|]. split; [apply sext_refl|].
        cbn [issued]. lia. }
    destruct (bitmap_create_spec _ _ _ Ec) as (Hb0 & Hc0 & Hz0).
    pose proof (bi_cnt _ Hb0) as Hcr.
    assert (Hu : u8 (p_size s + 8) = p_size s + 8 /\ k <= 30).
    { rewrite Hc0 in Hcr. unfold u8 in *. lia. }
    destruct Hu as [Hu Hk30]. rewrite Hu in Hc0.
    destruct (bitmap_copy_spec nb0 (p_bits s) Hb0 Hb ltac:(lia)) as (nb & En & Hbn & Hcn & Hvn).
    rewrite En. cbn [bind].
    assert (Hvn' : forall j, 0 <= j < p_size s + 8 ->
       bitval nb j = if j <? p_size s then true else false).
    { intros j Hj. rewrite Hvn by lia. destruct (Z.ltb_spec j (p_size s)).
      - apply Hall. lia.
      - apply (bi_tail _ Hb). lia. }
    destruct (find_first_zero_spec _ Hbn) as [(E2 & Hall2)|(Hr2 & Hz2 & Hall2)].
    { exfalso. assert (bitval nb (p_size s) = true) by (apply Hall2; lia).
      rewrite Hvn' in H by lia. rewrite Z.ltb_irrefl in H. discriminate. }
    set (r := bitmap_find_first_zero_bit nb) in *.
    destruct (Z.ltb_spec r 0); [lia|].
    destruct (bitmap_set_spec nb r Hbn ltac:(lia)) as (nb' & Es & Hbn' & Hcn' & Hvs).
    rewrite Es. cbn [bind p_max p_tbl p_bits p_life p_objs p_ninst].
    destruct (Z.ltb_spec r 0); [lia|].
    assert (Hlen : Z.of_nat (length (p_tbl s ++ repeat None 8)) = p_size s + 8).
    { rewrite app_length, repeat_length. unfold p_size. lia. }
    eexists. eexists. split; [reflexivity|]. split.
    + apply pinv_reserve; auto.
      * exists 8%nat. reflexivity.
      * exists (k + 1). rewrite Hlen. lia.
      * lia.
      * lia.
      * intros j Hj. rewrite Hvs by lia. destruct (Z.eqb_spec r j); [reflexivity|].
        rewrite Hvn' by lia. destruct (Z.ltb_spec j (p_size s)); [|reflexivity].
        symmetry. apply Hall. lia.
      * intros Hlt. exfalso. rewrite Hvn' in Hz2 by lia.
        destruct (Z.ltb_spec r (p_size s)); [discriminate|lia].
    + split; [apply sext_reserve|]. cbn [issued p_ninst]. lia.
  - set (r := bitmap_find_first_zero_bit (p_bits s)) in *.
    pose proof (bi_cnt _ Hb).
    destruct (Z.ltb_spec r 0); [lia|].
    destruct (bitmap_set_spec (p_bits s) r Hb ltac:(lia)) as (nb' & Es & Hbn' & Hcn' & Hvs).
    rewrite Es. cbn [bind p_max p_tbl p_bits p_life p_objs p_ninst].
    destruct (Z.ltb_spec r 0); [lia|].
    eexists. eexists. split; [reflexivity|]. split.
    + apply pinv_reserve; auto.
      * exists 0%nat. rewrite app_nil_r. reflexivity.
      * exists k. unfold p_size in Hk. lia.
      * unfold p_size in *. lia.
      * unfold p_size in *. lia.
      * intros j Hj. fold (p_size s) in Hj. rewrite Hvs by lia.
        destruct (Z.eqb_spec r j); [reflexivity|].
        destruct (Z.ltb_spec j (p_size s)); [reflexivity|lia].
    + split; [apply sext_reserve|]. cbn [issued p_ninst]. lia.
Qed.

Lemma nth_error_upd_inv {A} (l : list A) n x m y :
  nth_error (upd l n x) m = Some y ->
  (m = n /\ y = x /\ (n < length l)%nat) \/ (m <> n /\ nth_error l m = Some y).
Proof.
  rewrite nth_error_upd.
  destruct (Nat.eqb_spec n m) as [->|Hne]; simpl.
  - destruct (Nat.ltb_spec m (length l)).
    + intros H1. injection H1 as <-. left; auto.
    + intros H1. assert (m < length l)%nat by (apply nth_error_Some; congruence). lia.
  - intros H. right. auto.
Qed.

Lemma cell_ok s i : pinv s -> 0 <= i < p_size s ->
  exists c, cell s i = Some c /\ nth_error (p_tbl s) (Z.to_nat i) = Some c.
Proof.
  intros Hs Hi. unfold cell. destruct (Z.ltb_spec i 0); [lia|].
  destruct (nth_error (p_tbl s) (Z.to_nat i)) as [c|] eqn:E; [eauto|].
  apply nth_error_None in E. unfold p_size in Hi. lia.
Qed.

Lemma range_guard a n : 0 <= a < n -> (a <? 0) || (n <=? a) = false.
Proof. intros. destruct (Z.ltb_spec a 0), (Z.leb_spec n a); simpl; try reflexivity; lia. Qed.

Lemma sext_upd s p o o' s' :
  nth_error (p_objs s) p = Some o -> oext o o' ->
  p_max s' = p_max s -> p_objs s' = upd (p_objs s) p o' -> sext s s'.
Proof.
  intros Hp Hx Hm Ho. split; [assumption|]. intros q oq Hq. rewrite Ho.
  destruct (Nat.eq_dec q p) as [->|Hne].
  - rewrite Hp in Hq. injection Hq as <-. exists o'. split; [|assumption].
    apply nth_error_upd_eq. apply nth_error_Some. congruence.
  - exists oq. split; [|apply oext_refl]. rewrite nth_error_upd_neq by congruence. assumption.
Qed.

Lemma step_install s p :
  pinv s ->
  exists s' e, pstep s (PInstall p) = Ok (s', e) /\ pinv s' /\ sext s s' /\
    p_ninst s' = p_ninst s + Z.of_nat (issued [e]) /\
    (forall h, e = EvHandle h -> exists o, nth_error (p_objs s') p = Some o /\
        o_handle o = h /\ o_phase o = Installed /\ o_nth o = p_ninst s).
Proof.
  intros Hs. cbn [pstep].
  destruct (nth_error (p_objs s) p) as [o|] eqn:Ep.
  2:{ exists s, EvSkip. split; [reflexivity|]. split; [assumption|]. split; [apply sext_refl|].
      cbn [issued]. split; [lia|]. discriminate. }
  destruct (o_phase o) eqn:Eph;
    try (exists s, EvSkip; split; [reflexivity|]; split; [assumption|]; split; [apply sext_refl|];
         cbn [issued]; split; [lia|discriminate]).
  assert (Hl : live o) by (unfold live; congruence).
  pose proof (pi_slot s Hs p o Ep Hl) as Hslot.
  destruct (pi_size s Hs) as (k & Hk & Hkr).
  destruct (pi_handle s Hs p o Ep) as (Hres & _ & _). specialize (Hres Eph).
  unfold install. rewrite range_guard by assumption.
  destruct (cell_ok s (o_slot o) Hs Hslot) as (c & Ec & Enth). rewrite Ec.
  destruct c as [q|].
  { exfalso. apply (pi_tbl s Hs) in Enth; [|lia]. destruct Enth as (oq & Hq & Hph & Hsl).
    assert (p = q). { eapply (pi_uniq s Hs); eauto. unfold live. congruence. }
    subst q. congruence. }
  cbn [bind]. set (h := make_obj_id (o_slot o) (p_life s)).
  set (life := if u16 (p_life s + 1) =? 0 then 1 else u16 (p_life s + 1)).
  set (o' := mkObj (o_slot o) h Installed (p_ninst s)).
  eexists. eexists. split; [reflexivity|].
  destruct (pi_life s Hs) as [Hlife Hn0].
  assert (Hlr : 1 <= p_life s <= 65535) by lia.
  assert (Hh : h <> -1) by (apply make_obj_id_neq_m1; lia).
  assert (Hlen : (p < length (p_objs s))%nat) by (apply nth_error_Some; congruence).
  assert (Htl : (Z.to_nat (o_slot o) < length (p_tbl s))%nat) by (unfold p_size in Hslot; lia).
  split; [|split; [|split]].
  - constructor; cbn [p_bits p_tbl p_objs p_life p_ninst]; unfold set_cell, set_obj; fold o'.
    + apply Hs.
    + unfold p_size; cbn [p_tbl]. rewrite upd_length. apply Hs.
    + unfold p_size; cbn [p_tbl]. rewrite upd_length. apply Hs.
    + intros q oq Hq Lq. unfold p_size; cbn [p_tbl]. rewrite upd_length. fold (p_size s).
      apply nth_error_upd_inv in Hq. destruct Hq as [(-> & -> & _)|(Hne & Hq)].
      * cbn [o' o_slot]. assumption.
      * eapply (pi_slot s Hs); eauto.
    + intros i Hi. unfold p_size in Hi; cbn [p_tbl] in Hi. rewrite upd_length in Hi. fold (p_size s) in Hi.
      rewrite (pi_bit s Hs i Hi). split.
      * intros (q & oq & Hq & Lq & Es). destruct (Nat.eq_dec q p) as [->|Hne].
        -- exists p, o'. split; [now apply nth_error_upd_eq|]. split; [discriminate|].
           cbn [o' o_slot]. congruence.
        -- exists q, oq. split; [rewrite nth_error_upd_neq by congruence; assumption|auto].
      * intros (q & oq & Hq & Lq & Es). apply nth_error_upd_inv in Hq.
        destruct Hq as [(-> & -> & _)|(Hne & Hq)].
        -- exists p, o. auto.
        -- exists q, oq. auto.
    + intros a b oa ob Ha Hb La Lb E.
      apply nth_error_upd_inv in Ha. apply nth_error_upd_inv in Hb.
      destruct Ha as [(-> & -> & _)|(Hna & Ha)], Hb as [(-> & -> & _)|(Hnb & Hb)]; try reflexivity.
      * cbn [o' o_slot] in E. eapply (pi_uniq s Hs); eauto.
      * cbn [o' o_slot] in E. eapply (pi_uniq s Hs); eauto.
      * eapply (pi_uniq s Hs); eauto.
    + intros i q Hi. split.
      * intros H. apply nth_error_upd_inv in H. destruct H as [(Ei & Eq & _)|(Hne & H)].
        -- injection Eq as ->. exists o'. split; [now apply nth_error_upd_eq|].
           split; [reflexivity|]. cbn [o' o_slot]. lia.
        -- apply (pi_tbl s Hs) in H; [|assumption]. destruct H as (oq & Hq & Hph & Hsl).
           exists oq. split; [|auto]. rewrite nth_error_upd_neq; [assumption|].
           intros ->. congruence.
      * intros (oq & Hq & Hph & Hsl). apply nth_error_upd_inv in Hq.
        destruct Hq as [(-> & -> & _)|(Hne & Hq)].
        -- cbn [o' o_slot] in Hsl. subst i. now apply nth_error_upd_eq.
        -- rewrite nth_error_upd_neq.
           ++ apply (pi_tbl s Hs); [assumption|]. exists oq. auto.
           ++ intros Ei. apply Hne. eapply (pi_uniq s Hs); eauto.
              ** unfold live. congruence.
              ** lia.
    + split; [|lia]. unfold life, u16. rewrite Hlife.
      destruct (Z.eqb_spec ((p_ninst s mod 65535 + 1 + 1) mod 65536) 0); lia.
    + intros q oq Hq. apply nth_error_upd_inv in Hq. destruct Hq as [(-> & -> & _)|(Hne & Hq)].
      * cbn [o' o_phase o_handle o_slot o_nth]. split; [discriminate|]. split; [auto|].
        intros _. split; [lia|]. split; [|lia]. unfold h. rewrite Hlife. reflexivity.
      * destruct (pi_handle s Hs q oq Hq) as (H1 & H2 & H3). split; [assumption|]. split; [assumption|].
        intros H. destruct (H3 H) as (H4 & H5 & H6). split; [assumption|]. split; [assumption|lia].
    + intros a b oa ob Ha Hb Hne Hha Hhb Lb E.
      apply nth_error_upd_inv in Ha. apply nth_error_upd_inv in Hb.
      destruct Ha as [(-> & -> & _)|(Hna & Ha)], Hb as [(-> & -> & _)|(Hnb & Hb)].
      * congruence.
      * exfalso. cbn [o' o_slot] in E. apply Hnb. eapply (pi_uniq s Hs); eauto.
      * cbn [o' o_nth]. destruct (pi_handle s Hs a oa Ha) as (_ & _ & H3).
        destruct (H3 Hha) as (_ & _ & H6). lia.
      * eapply (pi_order s Hs a b); eauto.
  - eapply sext_upd; [exact Ep| |reflexivity|reflexivity].
    unfold oext. cbn [o_slot o_handle o_nth o_phase]. split; [reflexivity|].
    split; [intros; congruence|]. rewrite Eph. simpl. lia.
  - cbn [p_ninst issued]. lia.
  - intros h' E. injection E as <-. exists o'. cbn [p_objs].
    split; [now apply nth_error_upd_eq|]. cbn [o' o_handle o_phase o_nth]. auto.
Qed.

Lemma installed_slot s p o :
  pinv s -> nth_error (p_objs s) p = Some o -> o_phase o = Installed \/ o_phase o = Uninstalled ->
  get_id (o_handle o) = o_slot o.
Proof.
  intros Hs Hp Hph. destruct (pi_handle s Hs p o Hp) as (_ & H2 & H3).
  destruct (H3 (H2 Hph)) as (H4 & H5 & H6). rewrite H5. apply get_id_make; lia.
Qed.

Lemma step_uninstall s p :
  pinv s ->
  exists s' e, pstep s (PUninstall p) = Ok (s', e) /\ pinv s' /\ sext s s' /\
    p_ninst s' = p_ninst s + Z.of_nat (issued [e]) /\
    (e = EvUninst 0 -> exists o, nth_error (p_objs s') p = Some o /\ o_phase o = Uninstalled).
Proof.
  intros Hs. cbn [pstep].
  destruct (nth_error (p_objs s) p) as [o|] eqn:Ep.
  2:{ exists s, EvSkip. split; [reflexivity|]. split; [assumption|]. split; [apply sext_refl|].
      cbn [issued]. split; [lia|]. discriminate. }
  assert (Hskip : o_phase o = Reserved \/ o_phase o = Released \/
                  (o_phase o = Installed \/ o_phase o = Uninstalled)) by (destruct (o_phase o); auto).
  destruct Hskip as [Eph|[Eph|Eph]];
    [rewrite Eph; exists s, EvSkip; split; [reflexivity|]; split; [assumption|]; split; [apply sext_refl|];
         cbn [issued]; split; [lia|discriminate] ..|].
  assert (Hl : live o) by (unfold live; destruct Eph; congruence).
  pose proof (pi_slot s Hs p o Ep Hl) as Hslot.
  assert (Hun : exists s' e, uninstall s p o = Ok (s', e) /\ pinv s' /\ sext s s' /\
      p_ninst s' = p_ninst s /\
      (e = 0 -> exists o, nth_error (p_objs s') p = Some o /\ o_phase o = Uninstalled)).
  { unfold uninstall. rewrite (installed_slot s p o Hs Ep Eph).
    rewrite range_guard by assumption.
    destruct (cell_ok s (o_slot o) Hs Hslot) as (c & Ec & Enth). rewrite Ec.
    destruct c as [q|].
    2:{ exists s, (- AOSL_EINVAL). split; [reflexivity|]. split; [assumption|].
        split; [apply sext_refl|]. split; [reflexivity|]. discriminate. }
    destruct (Nat.eqb_spec q p) as [->|Hne].
    2:{ exists s, (- AOSL_EINVAL). split; [reflexivity|]. split; [assumption|].
        split; [apply sext_refl|]. split; [reflexivity|]. discriminate. }
    apply (pi_tbl s Hs) in Enth; [|lia]. destruct Enth as (o1 & Ho1 & Hph & _).
    rewrite Ep in Ho1. injection Ho1 as <-.
    set (o' := mkObj (o_slot o) (o_handle o) Uninstalled (o_nth o)).
    assert (Hlen : (p < length (p_objs s))%nat) by (apply nth_error_Some; congruence).
    assert (Htl : (Z.to_nat (o_slot o) < length (p_tbl s))%nat) by (unfold p_size in Hslot; lia).
    eexists. exists 0. split; [reflexivity|]. split; [|split; [|split]].
    - constructor; cbn [p_bits p_tbl p_objs p_life p_ninst]; unfold set_cell, set_obj; fold o'.
      + apply Hs.
      + unfold p_size; cbn [p_tbl]. rewrite upd_length. apply Hs.
      + unfold p_size; cbn [p_tbl]. rewrite upd_length. apply Hs.
      + intros q oq Hq Lq. unfold p_size; cbn [p_tbl]. rewrite upd_length. fold (p_size s).
        apply nth_error_upd_inv in Hq. destruct Hq as [(-> & -> & _)|(Hne & Hq)].
        * cbn [o' o_slot]. assumption.
        * eapply (pi_slot s Hs); eauto.
      + intros i Hi. unfold p_size in Hi; cbn [p_tbl] in Hi. rewrite upd_length in Hi. fold (p_size s) in Hi.
        rewrite (pi_bit s Hs i Hi). split.
        * intros (q & oq & Hq & Lq & Es). destruct (Nat.eq_dec q p) as [->|Hne].
          -- exists p, o'. split; [now apply nth_error_upd_eq|]. split; [discriminate|].
             cbn [o' o_slot]. congruence.
          -- exists q, oq. split; [rewrite nth_error_upd_neq by congruence; assumption|auto].
        * intros (q & oq & Hq & Lq & Es). apply nth_error_upd_inv in Hq.
          destruct Hq as [(-> & -> & _)|(Hne & Hq)].
          -- exists p, o. auto.
          -- exists q, oq. auto.
      + intros a b oa ob Ha Hb La Lb E.
        apply nth_error_upd_inv in Ha. apply nth_error_upd_inv in Hb.
        destruct Ha as [(-> & -> & _)|(Hna & Ha)], Hb as [(-> & -> & _)|(Hnb & Hb)]; try reflexivity.
        * cbn [o' o_slot] in E. eapply (pi_uniq s Hs); eauto.
        * cbn [o' o_slot] in E. eapply (pi_uniq s Hs); eauto.
        * eapply (pi_uniq s Hs); eauto.
      + intros i q Hi. split.
        * intros H. apply nth_error_upd_inv in H. destruct H as [(Ei & Eq & _)|(Hne & H)]; [discriminate|].
          apply (pi_tbl s Hs) in H; [|assumption]. destruct H as (oq & Hq & Hpq & Hsl).
          exists oq. split; [|auto]. rewrite nth_error_upd_neq; [assumption|].
          intros <-. apply Hne. rewrite Ep in Hq. injection Hq as <-. lia.
        * intros (oq & Hq & Hpq & Hsl). apply nth_error_upd_inv in Hq.
          destruct Hq as [(-> & -> & _)|(Hne & Hq)]; [discriminate|].
          rewrite nth_error_upd_neq.
          -- apply (pi_tbl s Hs); [assumption|]. exists oq. auto.
          -- intros Ei. apply Hne. eapply (pi_uniq s Hs); eauto.
             ++ unfold live. congruence.
             ++ lia.
      + apply Hs.
      + intros q oq Hq. apply nth_error_upd_inv in Hq. destruct Hq as [(-> & -> & _)|(Hne & Hq)].
        * destruct (pi_handle s Hs p o Ep) as (H1 & H2 & H3).
          cbn [o' o_phase o_handle o_slot o_nth]. split; [discriminate|]. split; [auto|assumption].
        * apply (pi_handle s Hs q oq Hq).
      + intros a b oa ob Ha Hb Hne Hha Hhb Lb E.
        apply nth_error_upd_inv in Ha. apply nth_error_upd_inv in Hb.
        destruct Ha as [(-> & -> & _)|(Hna & Ha)], Hb as [(-> & -> & _)|(Hnb & Hb)].
        * congruence.
        * cbn [o' o_slot o_nth o_handle] in *. eapply (pi_order s Hs p b); eauto.
        * cbn [o' o_slot o_nth o_handle] in *. eapply (pi_order s Hs a p); eauto.
        * eapply (pi_order s Hs a b); eauto.
    - eapply sext_upd; [exact Ep| |reflexivity|reflexivity].
      unfold oext. cbn [o_slot o_handle o_nth o_phase]. split; [reflexivity|].
      split; [auto|]. rewrite Hph. simpl. lia.
    - reflexivity.
    - intros _. exists o'. cbn [p_objs]. split; [now apply nth_error_upd_eq|reflexivity]. }
  destruct Hun as (s' & e & Eu & Hs' & Hx & Hn & He).
  exists s', (EvUninst e). split.
  { destruct Eph as [Eph|Eph]; rewrite Eph, Eu; reflexivity. }
  split; [assumption|]. split; [assumption|]. split; [cbn [issued]; lia|].
  intros E. injection E as E. auto.
Qed.

Lemma step_release s p :
  pinv s ->
  exists s' e, pstep s (PRelease p) = Ok (s', e) /\ pinv s' /\ sext s s' /\
    p_ninst s' = p_ninst s + Z.of_nat (issued [e]).
Proof.
  intros Hs. cbn [pstep].
  destruct (nth_error (p_objs s) p) as [o|] eqn:Ep.
  2:{ exists s, EvSkip. split; [reflexivity|]. split; [assumption|]. split; [apply sext_refl|].
      cbn [issued]. lia. }
  assert (Hskip : (o_phase o = Installed \/ o_phase o = Released) \/
                  (o_phase o = Reserved \/ o_phase o = Uninstalled)) by (destruct (o_phase o); auto).
  destruct Hskip as [Eph|Eph].
  { exists s, EvSkip. split; [destruct Eph as [E|E]; rewrite E; reflexivity|].
    split; [assumption|]. split; [apply sext_refl|]. cbn [issued]. lia. }
  assert (Hl : live o) by (unfold live; destruct Eph; congruence).
  pose proof (pi_slot s Hs p o Ep Hl) as Hslot.
  assert (Hrel : exists s', release s p o = Ok s' /\ pinv s' /\ sext s s' /\ p_ninst s' = p_ninst s).
  { unfold release.
    assert (Eid : match o_phase o with Reserved => o_slot o | _ => get_id (o_handle o) end = o_slot o).
    { destruct Eph as [E|E]; rewrite E; [reflexivity|]. eapply installed_slot; eauto. }
    rewrite Eid. unfold put_unused. rewrite range_guard by assumption.
    pose proof (pi_bits s Hs) as Hb. pose proof (pi_cnt s Hs) as Hcnt. pose proof (bi_cnt _ Hb).
    destruct (bitmap_clear_spec (p_bits s) (o_slot o) Hb ltac:(lia)) as (nb & Ec & Hbn & Hcn & Hv).
    rewrite Ec. cbn [bind p_max p_tbl p_bits p_life p_objs p_ninst].
    set (o' := mkObj (o_slot o) (o_handle o) Released (o_nth o)).
    assert (Hlen : (p < length (p_objs s))%nat) by (apply nth_error_Some; congruence).
    eexists. split; [reflexivity|]. split; [|split; [|reflexivity]].
    - constructor; cbn [p_bits p_tbl p_objs p_life p_ninst]; unfold set_obj; cbn [p_objs]; fold o'.
      + assumption.
      + unfold p_size in *; cbn [p_tbl]. congruence.
      + apply Hs.
      + intros q oq Hq Lq. unfold p_size; cbn [p_tbl]. fold (p_size s).
        apply nth_error_upd_inv in Hq. destruct Hq as [(-> & -> & _)|(Hne & Hq)].
        * cbn [o' o_slot]. assumption.
        * eapply (pi_slot s Hs); eauto.
      + intros i Hi. unfold p_size in Hi; cbn [p_tbl] in Hi. fold (p_size s) in Hi.
        rewrite Hv by lia. destruct (Z.eqb_spec (o_slot o) i) as [<-|Hne].
        * split; [discriminate|]. intros (q & oq & Hq & Lq & Es). exfalso.
          apply nth_error_upd_inv in Hq. destruct Hq as [(-> & -> & _)|(Hne & Hq)].
          -- apply Lq. reflexivity.
          -- apply Hne. eapply (pi_uniq s Hs); eauto.
        * rewrite (pi_bit s Hs i Hi). split.
          -- intros (q & oq & Hq & Lq & Es). exists q, oq. split; [|auto].
             rewrite nth_error_upd_neq; [assumption|]. intros <-. congruence.
          -- intros (q & oq & Hq & Lq & Es). apply nth_error_upd_inv in Hq.
             destruct Hq as [(-> & -> & _)|(Hnq & Hq)]; [exfalso; apply Lq; reflexivity|].
             exists q, oq. auto.
      + intros a b oa ob Ha Hb' La Lb E.
        apply nth_error_upd_inv in Ha. apply nth_error_upd_inv in Hb'.
        destruct Ha as [(-> & -> & _)|(Hna & Ha)]; [exfalso; apply La; reflexivity|].
        destruct Hb' as [(-> & -> & _)|(Hnb & Hb')]; [exfalso; apply Lb; reflexivity|].
        eapply (pi_uniq s Hs); eauto.
      + intros i q Hi. rewrite (pi_tbl s Hs i q Hi). split.
        * intros (oq & Hq & Hpq & Hsl). exists oq. split; [|auto].
          rewrite nth_error_upd_neq; [assumption|]. intros <-. rewrite Ep in Hq. injection Hq as <-.
          destruct Eph; congruence.
        * intros (oq & Hq & Hpq & Hsl). apply nth_error_upd_inv in Hq.
          destruct Hq as [(-> & -> & _)|(Hne & Hq)]; [discriminate|]. exists oq. auto.
      + apply Hs.
      + intros q oq Hq. apply nth_error_upd_inv in Hq. destruct Hq as [(-> & -> & _)|(Hne & Hq)].
        * destruct (pi_handle s Hs p o Ep) as (H1 & H2 & H3).
          cbn [o' o_phase o_handle o_slot o_nth]. split; [discriminate|].
          split; [intros [?|?]; discriminate|assumption].
        * apply (pi_handle s Hs q oq Hq).
      + intros a b oa ob Ha Hb' Hne Hha Hhb Lb E.
        apply nth_error_upd_inv in Ha. apply nth_error_upd_inv in Hb'.
        destruct Hb' as [(-> & -> & _)|(Hnb & Hb')]; [exfalso; apply Lb; reflexivity|].
        destruct Ha as [(-> & -> & _)|(Hna & Ha)].
        * cbn [o' o_slot o_nth o_handle] in *. eapply (pi_order s Hs p b); eauto.
        * eapply (pi_order s Hs a b); eauto.
    - eapply sext_upd; [exact Ep| |reflexivity|reflexivity].
      unfold oext. cbn [o_slot o_handle o_nth o_phase]. split; [reflexivity|].
      split; [auto|]. destruct (o_phase o); simpl; lia. }
  destruct Hrel as (s' & Er & Hs' & Hx & Hn).
  exists s', EvReleased. split; [destruct Eph as [E|E]; rewrite E, Er; reflexivity|].
  split; [assumption|]. split; [assumption|]. cbn [issued]. lia.
Qed.

Lemma lookup_spec s h :
  pinv s ->
  exists r, lookup s h = Ok r /\
    forall p, r = Some p <-> installed_as s p h.
Proof.
  intros Hs. unfold lookup.
  assert (Hinst : forall p, installed_as s p h ->
     0 <= get_id h < p_size s /\ nth_error (p_tbl s) (Z.to_nat (get_id h)) = Some (Some p)).
  { intros p (o & Hp & Hph & Hh).
    assert (Hl : live o) by (unfold live; congruence).
    pose proof (pi_slot s Hs p o Hp Hl).
    assert (get_id h = o_slot o). { rewrite <- Hh. eapply installed_slot; eauto. }
    rewrite H0. split; [assumption|]. apply (pi_tbl s Hs); [lia|]. exists o. auto. }
  destruct (Z.ltb_spec (get_id h) 0).
  { exists None. split; [reflexivity|]. intros p. split; [discriminate|].
    intros Hi. apply Hinst in Hi. lia. }
  destruct (Z.leb_spec (p_size s) (get_id h)).
  { exists None. split; [reflexivity|]. intros p. split; [discriminate|].
    intros Hi. apply Hinst in Hi. lia. }
  destruct (cell_ok s (get_id h) Hs ltac:(lia)) as (c & Ec & Enth). rewrite Ec.
  destruct c as [p|].
  2:{ exists None. split; [reflexivity|]. intros p. split; [discriminate|].
      intros Hi. apply Hinst in Hi. destruct Hi as [_ Hi]. rewrite Hi in Enth. discriminate. }
  pose proof Enth as Ht. apply (pi_tbl s Hs) in Ht; [|lia]. destruct Ht as (o & Hp & Hph & Hsl).
  rewrite Hp, Hph.
  destruct (Z.eqb_spec (o_handle o) h) as [E|E].
  - exists (Some p). split; [reflexivity|]. intros q. split.
    + intros Eq. injection Eq as <-. exists o. auto.
    + intros Hi. apply Hinst in Hi. destruct Hi as [_ Hi]. rewrite Hi in Enth. congruence.
  - exists None. split; [reflexivity|]. intros q. split; [discriminate|].
    intros Hi. pose proof Hi as Hi2. apply Hinst in Hi. destruct Hi as [_ Hi].
    rewrite Hi in Enth. injection Enth as ->. destruct Hi2 as (o2 & Ho2 & _ & Hh2). congruence.
Qed.

Lemma step_any s op :
  pinv s ->
  exists s' e, pstep s op = Ok (s', e) /\ pinv s' /\ sext s s' /\
    p_ninst s' = p_ninst s + Z.of_nat (issued [e]).
Proof.
  intros Hs. destruct op as [a1 a2|p|p|p|h].
  - apply step_get; assumption.
  - destruct (step_install s p Hs) as (s' & e & H1 & H2 & H3 & H4 & _). eauto 6.
  - destruct (step_uninstall s p Hs) as (s' & e & H1 & H2 & H3 & H4 & _). eauto 6.
  - apply step_release; assumption.
  - destruct (lookup_spec s h Hs) as (r & E & _). cbn [pstep]. rewrite E.
    exists s, (EvFound r). split; [reflexivity|]. split; [assumption|]. split; [apply sext_refl|].
    cbn [issued]. lia.
Qed.

Lemma issued_cons e es : issued (e :: es) = (issued [e] + issued es)%nat.
Proof. destruct e; reflexivity. Qed.

Lemma issued_app a b : issued (a ++ b) = (issued a + issued b)%nat.
Proof.
  induction a as [|e a IH]; [reflexivity|]. cbn [app].
  rewrite (issued_cons e (a ++ b)), (issued_cons e a), IH. lia.
Qed.

Lemma run_any ops : forall s,
  pinv s ->
  exists s' es, prun s ops = Ok (s', es) /\ pinv s' /\ sext s s' /\
    length es = length ops /\
    p_ninst s' = p_ninst s + Z.of_nat (issued es).
Proof.
  induction ops as [|o ops IH]; intros s Hs.
  - exists s, []. split; [reflexivity|]. split; [assumption|]. split; [apply sext_refl|].
    split; [reflexivity|]. cbn [issued]. lia.
  - destruct (step_any s o Hs) as (s1 & e & E1 & Hs1 & Hx1 & Hn1).
    destruct (IH s1 Hs1) as (s2 & es & E2 & Hs2 & Hx2 & Hl2 & Hn2).
    exists s2, (e :: es). cbn [prun]. rewrite E1. cbn [bind]. rewrite E2. cbn [bind].
    split; [reflexivity|]. split; [assumption|]. split; [eapply sext_trans; eassumption|].
    split; [cbn [length]; lia|]. rewrite issued_cons. lia.
Qed.

Lemma prun_app s a b s' es :
  prun s (a ++ b) = Ok (s', es) ->
  exists s1 e1 e2, prun s a = Ok (s1, e1) /\ prun s1 b = Ok (s', e2) /\ es = e1 ++ e2.
Proof.
  revert s es. induction a as [|o a IH]; intros s es H.
  - exists s, [], es. auto.
  - cbn [app prun] in H. destruct (pstep s o) as [[s1 e]| |] eqn:E1; try discriminate.
    cbn [bind] in H. destruct (prun s1 (a ++ b)) as [[s2 es2]| |] eqn:E2; try discriminate.
    cbn [bind] in H. injection H as <- <-.
    destruct (IH s1 es2 E2) as (sm & e1 & e2 & H1 & H2 & H3).
    exists sm, (e :: e1), e2. cbn [prun]. rewrite E1. cbn [bind]. rewrite H1. cbn [bind].
    subst. auto.
Qed.
