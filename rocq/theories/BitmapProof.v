(** * Lemmas about the bitmap model *)
From Verif Require Import Base Bitmap BitmapSpec.

Ltac Zify.zify_post_hook ::= Z.div_mod_to_equations.

(** Abstraction: bit [i] of the block. *)
Definition bitval (bm : bitmap) (i : Z) : bool :=
  Z.testbit (nth (Z.to_nat (i / 8)) (bits bm) 0) (i mod 8).

Record binv (bm : bitmap) : Prop := {
  bi_cnt : 0 < bit_cnt bm < 256;
  bi_len : Z.of_nat (length (bits bm)) = (bit_cnt bm + 7) / 8;
  bi_bytes : Forall (fun b => 0 <= b < 256) (bits bm);
  bi_tail : forall i, bit_cnt bm <= i -> bitval bm i = false
}.

Lemma shiftl1_pow k : 0 <= k -> Z.shiftl 1 k = 2 ^ k.
Proof. intros. rewrite Z.shiftl_mul_pow2 by lia. lia. Qed.

Lemma land_bit b k : 0 <= k -> (Z.land b (Z.shiftl 1 k) =? 0) = negb (Z.testbit b k).
Proof.
  intros Hk. rewrite shiftl1_pow by lia.
  destruct (Z.testbit b k) eqn:E; simpl.
  - apply Z.eqb_neq. intros H0.
    assert (Z.testbit (Z.land b (2 ^ k)) k = true).
    { rewrite Z.land_spec, E, Z.pow2_bits_true; auto. }
    rewrite H0, Z.bits_0 in H. discriminate.
  - apply Z.eqb_eq. apply Z.bits_inj'. intros n Hn.
    rewrite Z.land_spec, Z.bits_0, Z.pow2_bits_eqb by lia.
    destruct (Z.eqb_spec k n); subst; rewrite ?E; auto using andb_false_r.
Qed.

Lemma mod256_testbit x k : 0 <= k < 8 -> Z.testbit (x mod 256) k = Z.testbit x k.
Proof. intros. change 256 with (2 ^ 8). apply Z.mod_pow2_bits_low. lia. Qed.

Lemma testbit_set b k j :
  0 <= k < 8 -> 0 <= j < 8 ->
  Z.testbit (u8 (Z.lor b (Z.shiftl 1 k))) j = (j =? k) || Z.testbit b j.
Proof.
  intros. unfold u8. rewrite mod256_testbit, shiftl1_pow by lia.
  rewrite Z.lor_spec, Z.pow2_bits_eqb by lia.
  rewrite (Z.eqb_sym k j). apply orb_comm.
Qed.

Lemma testbit_clr b k j :
  0 <= k < 8 -> 0 <= j < 8 ->
  Z.testbit (u8 (Z.land b (Z.lnot (Z.shiftl 1 k)))) j = negb (j =? k) && Z.testbit b j.
Proof.
  intros. unfold u8. rewrite mod256_testbit, shiftl1_pow by lia.
  rewrite Z.land_spec, Z.lnot_spec, Z.pow2_bits_eqb by lia.
  rewrite (Z.eqb_sym k j). apply andb_comm.
Qed.

Lemma byte_at_ok bm i :
  binv bm -> 0 <= i < bit_cnt bm ->
  byte_at bm (i / 8) = Ok (nth (Z.to_nat (i / 8)) (bits bm) 0).
Proof.
  intros Hb Hi. unfold byte_at.
  destruct (Z.ltb_spec (i / 8) 0); [lia|].
  destruct (nth_error (bits bm) (Z.to_nat (i / 8))) eqn:E.
  - erewrite nth_error_nth by eassumption. reflexivity.
  - apply nth_error_None in E. pose proof (bi_len _ Hb). lia.
Qed.

Lemma nth_upd l n m (x : Z) :
  (n < length l)%nat ->
  nth m (upd l n x) 0 = if (n =? m)%nat then x else nth m l 0.
Proof.
  intros H. destruct (Nat.eqb_spec n m) as [->|E].
  - apply nth_error_nth. now apply nth_error_upd_eq.
  - rewrite <- !nth_default_eq. unfold nth_default.
    now rewrite nth_error_upd_neq.
Qed.

Lemma Forall_upd (P : Z -> Prop) l n x : Forall P l -> P x -> Forall P (upd l n x).
Proof.
  intros H Hx. revert n; induction H as [|h t Hh Ht IH]; intros [|n]; simpl; constructor; auto.
Qed.

Lemma bitval_store bm i b j :
  binv bm -> 0 <= i < bit_cnt bm -> 0 <= j ->
  bitval (store_byte bm (i / 8) b) j =
  if i / 8 =? j / 8 then Z.testbit b (j mod 8) else bitval bm j.
Proof.
  intros Hb Hi Hj. unfold bitval, store_byte; cbn [bits].
  pose proof (bi_len _ Hb).
  rewrite nth_upd by lia.
  destruct (Z.eqb_spec (i / 8) (j / 8)) as [E|E];
    destruct (Nat.eqb_spec (Z.to_nat (i / 8)) (Z.to_nat (j / 8))) as [F|F];
    auto; lia.
Qed.

Lemma bitmap_set_spec bm i :
  binv bm -> 0 <= i < 256 ->
  exists bm', bitmap_set bm i = Ok bm' /\ binv bm' /\ bit_cnt bm' = bit_cnt bm /\
    forall j, 0 <= j < bit_cnt bm -> bitval bm' j = if i =? j then true else bitval bm j.
Proof.
  intros Hb Hi. unfold bitmap_set.
  assert (Hu : u8 i = i) by (unfold u8; lia). rewrite Hu.
  destruct (Z.leb_spec (bit_cnt bm) i) as [Hle|Hlt].
  - exists bm. split; [reflexivity|]. split; [assumption|]. split; [reflexivity|].
    intros j Hj. destruct (Z.eqb_spec i j); [lia|reflexivity].
  - rewrite byte_at_ok by (auto; lia). cbn [bind].
    set (b := u8 _). exists (store_byte bm (i / 8) b).
    assert (Hall : forall j, 0 <= j ->
      bitval (store_byte bm (i / 8) b) j = if i =? j then true else bitval bm j).
    { intros j Hj. rewrite bitval_store by (auto; lia).
      destruct (Z.eqb_spec (i / 8) (j / 8)) as [E|E].
      - unfold b. rewrite testbit_set by lia.
        destruct (Z.eqb_spec i j) as [->|Hne].
        + rewrite Z.eqb_refl. reflexivity.
        + destruct (Z.eqb_spec (j mod 8) (i mod 8)); [lia|].
          unfold bitval. rewrite <- E. reflexivity.
      - destruct (Z.eqb_spec i j); [lia|reflexivity]. }
    split; [reflexivity|]. split; [|split; [reflexivity|auto]].
    + destruct Hb as [H1 H2 H3 H4]. constructor; cbn [bit_cnt store_byte bits]; auto.
      * rewrite upd_length; auto.
      * apply Forall_upd; auto. apply u8_range.
      * intros j Hj. rewrite Hall by lia.
        destruct (Z.eqb_spec i j); [lia|]. apply H4; auto.
    + intros j Hj. apply Hall. lia.
Qed.

Lemma bitmap_clear_spec bm i :
  binv bm -> 0 <= i < 256 ->
  exists bm', bitmap_clear bm i = Ok bm' /\ binv bm' /\ bit_cnt bm' = bit_cnt bm /\
    forall j, 0 <= j < bit_cnt bm -> bitval bm' j = if i =? j then false else bitval bm j.
Proof.
  intros Hb Hi. unfold bitmap_clear.
  assert (Hu : u8 i = i) by (unfold u8; lia). rewrite Hu.
  destruct (Z.leb_spec (bit_cnt bm) i) as [Hle|Hlt].
  - exists bm. split; [reflexivity|]. split; [assumption|]. split; [reflexivity|].
    intros j Hj. destruct (Z.eqb_spec i j); [lia|reflexivity].
  - rewrite byte_at_ok by (auto; lia). cbn [bind].
    set (b := u8 _). exists (store_byte bm (i / 8) b).
    assert (Hall : forall j, 0 <= j ->
      bitval (store_byte bm (i / 8) b) j = if i =? j then false else bitval bm j).
    { intros j Hj. rewrite bitval_store by (auto; lia).
      destruct (Z.eqb_spec (i / 8) (j / 8)) as [E|E].
      - unfold b. rewrite testbit_clr by lia.
        destruct (Z.eqb_spec i j) as [->|Hne].
        + rewrite Z.eqb_refl. reflexivity.
        + destruct (Z.eqb_spec (j mod 8) (i mod 8)); [lia|].
          unfold bitval. rewrite <- E. reflexivity.
      - destruct (Z.eqb_spec i j); [lia|reflexivity]. }
    split; [reflexivity|]. split; [|split; [reflexivity|auto]].
    + destruct Hb as [H1 H2 H3 H4]. constructor; cbn [bit_cnt store_byte bits]; auto.
      * rewrite upd_length; auto.
      * apply Forall_upd; auto. apply u8_range.
      * intros j Hj. rewrite Hall by lia.
        destruct (Z.eqb_spec i j); [lia|]. apply H4; auto.
    + intros j Hj. apply Hall. lia.
Qed.

Lemma nth_repeat0 n m : nth m (repeat 0 n) 0 = 0.
Proof. revert m; induction n; intros [|m]; simpl; auto. Qed.

Lemma bitmap_reset_spec bm :
  binv bm -> binv (bitmap_reset bm) /\ bit_cnt (bitmap_reset bm) = bit_cnt bm /\
    forall j, bitval (bitmap_reset bm) j = false.
Proof.
  intros Hb.
  assert (H : forall j, bitval (bitmap_reset bm) j = false).
  { intros j. unfold bitval, bitmap_reset; cbn [bits]. rewrite nth_repeat0. apply Z.bits_0. }
  split; [|split; auto]. destruct Hb. constructor; cbn [bitmap_reset bits bit_cnt]; auto.
  - rewrite repeat_length; auto.
  - apply Forall_forall. intros x Hx. apply repeat_spec in Hx. lia.
Qed.

Lemma bitmap_create_spec ok n bm :
  bitmap_create ok n = Some bm ->
  binv bm /\ bit_cnt bm = u8 n /\ forall j, bitval bm j = false.
Proof.
  unfold bitmap_create. intros H.
  destruct (Z.eqb_spec (u8 n) 0); [discriminate|].
  destruct ok; [|discriminate]. injection H as <-.
  pose proof (u8_range n).
  assert (H0 : forall j, bitval (mkBitmap (repeat 0 (Z.to_nat ((u8 n + 8 - 1) / 8))) (u8 n)) j = false).
  { intros j. unfold bitval; cbn [bits]. rewrite nth_repeat0. apply Z.bits_0. }
  split; [|split; auto]. constructor; cbn [bits bit_cnt]; auto; try lia.
  - rewrite repeat_length. lia.
  - apply Forall_forall. intros x Hx. apply repeat_spec in Hx. lia.
Qed.

Lemma bitmap_get_spec bm i :
  binv bm -> 0 <= i < bit_cnt bm -> bitmap_get bm i = Ok (bitval bm i).
Proof.
  intros Hb Hi. unfold bitmap_get. pose proof (bi_cnt _ Hb).
  assert (Hu : u8 i = i) by (unfold u8; lia). rewrite Hu.
  destruct (Z.ltb_spec (bit_cnt bm) i); [lia|].
  rewrite byte_at_ok by (auto; lia). cbn [bind].
  rewrite land_bit by lia. rewrite negb_involutive. reflexivity.
Qed.

Lemma brun_spec ops : forall bm,
  binv bm -> Forall bop_wf ops ->
  exists bm', brun bm ops = Ok bm' /\ binv bm' /\ bit_cnt bm' = bit_cnt bm /\
    forall j, 0 <= j < bit_cnt bm -> bitval bm' j = last_decision ops j (bitval bm j).
Proof.
  induction ops as [|o ops IH]; intros bm Hb Hw.
  - exists bm. repeat split; auto; apply Hb.
  - inversion Hw as [|? ? Ho Hops]; subst.
    assert (Hstep : exists bm1, bstep bm o = Ok bm1 /\ binv bm1 /\ bit_cnt bm1 = bit_cnt bm /\
       forall j, 0 <= j < bit_cnt bm ->
         bitval bm1 j = match decides o j with Some v => v | None => bitval bm j end).
    { destruct o as [i|i|]; cbn [bstep decides].
      - destruct (bitmap_set_spec bm i Hb Ho) as (bm1 & E & Hb1 & Hc & Hv).
        exists bm1. repeat (split; auto). intros j Hj. rewrite Hv by auto.
        destruct (i =? j); reflexivity.
      - destruct (bitmap_clear_spec bm i Hb Ho) as (bm1 & E & Hb1 & Hc & Hv).
        exists bm1. repeat (split; auto). intros j Hj. rewrite Hv by auto.
        destruct (i =? j); reflexivity.
      - destruct (bitmap_reset_spec bm Hb) as (H1 & H2 & H3).
        exists (bitmap_reset bm). repeat (split; auto). }
    destruct Hstep as (bm1 & E & Hb1 & Hc & Hv).
    destruct (IH bm1 Hb1 Hops) as (bm' & E' & Hb' & Hc' & Hv').
    exists bm'. cbn [brun last_decision]. rewrite E. cbn [bind].
    split; [assumption|]. split; [assumption|]. split; [congruence|].
    intros j Hj. rewrite Hv' by lia. rewrite Hv by lia. reflexivity.
Qed.

(** ** First zero bit *)

Lemma scan_bits_spec k : forall b i p cnt,
  0 <= i -> (exists j, i <= j < i + Z.of_nat k /\ Z.testbit b j = false) ->
  exists r, scan_bits k b i p cnt = inl r /\
   ((r = -1 /\ exists d, 0 <= d < Z.of_nat k /\ cnt <= p + d /\
                 forall e, 0 <= e < d -> Z.testbit b (i + e) = true)
    \/ (exists d, 0 <= d < Z.of_nat k /\ r = p + d /\ p + d < cnt /\ Z.testbit b (i + d) = false /\
        forall e, 0 <= e < d -> Z.testbit b (i + e) = true)).
Proof.
  induction k as [|k IH]; intros b i p cnt Hi (j & Hj & Hz); [lia|].
  cbn [scan_bits].
  destruct (Z.leb_spec cnt p) as [Hle|Hlt].
  - exists (-1). split; [reflexivity|]. left. split; [reflexivity|]. exists 0.
    repeat split; try lia.
  - rewrite land_bit by lia. destruct (Z.testbit b i) eqn:E; cbn [negb].
    + destruct (IH b (i + 1) (p + 1) cnt) as (r & Hr & Hcase).
      * lia.
      * exists j. split; [|assumption]. assert (j <> i) by (intro; subst; congruence). lia.
      * exists r. split; [assumption|].
        assert (Hext : forall d, (forall e, 0 <= e < d -> Z.testbit b (i + 1 + e) = true) ->
                  forall e, 0 <= e < d + 1 -> Z.testbit b (i + e) = true).
        { intros d Hd e He. destruct (Z.eq_dec e 0) as [->|].
          - rewrite Z.add_0_r. assumption.
          - replace (i + e) with (i + 1 + (e - 1)) by lia. apply Hd. lia. }
        destruct Hcase as [(-> & d & Hd & Hc & Hb)|(d & Hd & -> & Hc & Hzd & Hb)].
        -- left. split; [reflexivity|]. exists (d + 1). repeat split; try lia. exact (Hext d Hb).
        -- right. exists (d + 1). repeat split; try lia.
           ++ replace (i + (d + 1)) with (i + 1 + d) by lia. assumption.
           ++ exact (Hext d Hb).
    + exists p. split; [reflexivity|]. right. exists 0. repeat split; try lia.
      rewrite Z.add_0_r. assumption.
Qed.

Lemma byte_not_ff b : 0 <= b < 256 -> b <> 255 -> exists j, 0 <= j < 8 /\ Z.testbit b j = false.
Proof.
  intros Hb Hne.
  destruct (Bool.bool_dec (forallb (fun j => Z.testbit b j) [0;1;2;3;4;5;6;7]) true) as [E|E].
  - exfalso. apply Hne. rewrite forallb_forall in E.
    apply Z.bits_inj'. intros n Hn. change 255 with (Z.ones 8).
    destruct (Z.ltb_spec n 8).
    + rewrite Z.ones_spec_low by lia. apply E.
      assert (n = 0 \/ n = 1 \/ n = 2 \/ n = 3 \/ n = 4 \/ n = 5 \/ n = 6 \/ n = 7) by lia.
      simpl. intuition.
    + rewrite Z.ones_spec_high by lia.
      apply (Z.bits_above_log2 b n); [lia|].
      destruct (Z.eq_dec b 0) as [->|]; [simpl; lia|].
      apply Z.log2_lt_pow2; [lia|]. apply Z.lt_le_trans with (2 ^ 8); [lia|].
      apply Z.pow_le_mono_r; lia.
  - apply not_true_is_false in E.
    assert (H : exists j, In j [0;1;2;3;4;5;6;7] /\ Z.testbit b j = false).
    { clear -E. induction [0;1;2;3;4;5;6;7] as [|x l IH]; simpl in E; [discriminate|].
      destruct (Z.testbit b x) eqn:F.
      - destruct (IH E) as (j & Hj & Hz). exists j. simpl. auto.
      - exists x. simpl. auto. }
    destruct H as (j & Hj & Hz). exists j. split; [|assumption]. simpl in Hj. lia.
Qed.

Lemma ff_bits j : 0 <= j < 8 -> Z.testbit 255 j = true.
Proof. intros. change 255 with (Z.ones 8). apply Z.ones_spec_low. lia. Qed.

(** [g i] is bit [i] of the byte list [bs], [base] the absolute index of its first bit. *)
Lemma scan_bytes_spec bs : forall base cnt,
  Forall (fun b => 0 <= b < 256) bs -> 0 <= base ->
  cnt <= base + 8 * Z.of_nat (length bs) ->
  let g i := Z.testbit (nth (Z.to_nat (i / 8)) bs 0) (i mod 8) in
  (scan_bytes bs base cnt = -1 /\ forall i, 0 <= i -> base + i < cnt -> g i = true)
  \/ (exists i, 0 <= i /\ base + i < cnt /\ scan_bytes bs base cnt = base + i /\ g i = false /\
       forall e, 0 <= e < i -> g e = true).
Proof.
  induction bs as [|b bs IH]; intros base cnt Hf Hbase Hc; cbn zeta.
  - left. split; [reflexivity|]. intros i Hi. simpl in Hc. lia.
  - inversion Hf as [|? ? Hb Hbs]; subst.
    assert (Hnth0 : forall i, 0 <= i < 8 -> nth (Z.to_nat (i / 8)) (b :: bs) 0 = b /\ i mod 8 = i).
    { intros i Hi. replace (i / 8) with 0 by lia. simpl. lia. }
    assert (HnthS : forall i, 8 <= i ->
        nth (Z.to_nat (i / 8)) (b :: bs) 0 = nth (Z.to_nat ((i - 8) / 8)) bs 0 /\ i mod 8 = (i - 8) mod 8).
    { intros i Hi. replace (Z.to_nat (i / 8)) with (S (Z.to_nat ((i - 8) / 8))) by lia.
      simpl nth. lia. }
    cbn [scan_bytes].
    destruct (Z.eqb_spec b 255) as [->|Hne].
    + simpl length in Hc.
      destruct (IH (base + 8) cnt Hbs ltac:(lia) ltac:(lia)) as [(E & Hall)|(i & Hi & Hlt & E & Hz & Hall)].
      * left. split; [assumption|]. intros i Hi Hlt.
        destruct (Z.ltb_spec i 8) as [H8|H8].
        -- destruct (Hnth0 i ltac:(lia)) as [-> ->]. apply ff_bits. lia.
        -- destruct (HnthS i H8) as [-> ->]. apply Hall; lia.
      * right. exists (i + 8). split; [lia|]. split; [lia|]. split; [lia|].
        destruct (HnthS (i + 8) ltac:(lia)) as [-> ->].
        replace (i + 8 - 8) with i by lia. split; [assumption|].
        intros e He. destruct (Z.ltb_spec e 8) as [H8|H8].
        -- destruct (Hnth0 e ltac:(lia)) as [-> ->]. apply ff_bits. lia.
        -- destruct (HnthS e H8) as [-> ->]. apply Hall; lia.
    + destruct (byte_not_ff b Hb Hne) as (j & Hj & Hz).
      destruct (scan_bits_spec 8 b 0 base cnt) as (r & -> & Hcase); [lia|exists j; split; [lia|assumption]|].
      destruct Hcase as [(-> & d & Hd & Hcd & Hall)|(d & Hd & -> & Hlt & Hzd & Hall)].
      * left. split; [reflexivity|]. intros i Hi Hlt.
        destruct (Hnth0 i ltac:(lia)) as [-> ->]. apply (Hall i). lia.
      * right. exists d. split; [lia|]. split; [lia|]. split; [reflexivity|].
        destruct (Hnth0 d ltac:(lia)) as [-> ->]. split; [assumption|].
        intros e He. destruct (Hnth0 e ltac:(lia)) as [-> ->]. apply (Hall e). lia.
Qed.

Lemma find_first_zero_spec bm :
  binv bm ->
  (bitmap_find_first_zero_bit bm = -1 /\ forall i, 0 <= i < bit_cnt bm -> bitval bm i = true)
  \/ (0 <= bitmap_find_first_zero_bit bm < bit_cnt bm /\
      bitval bm (bitmap_find_first_zero_bit bm) = false /\
      forall i, 0 <= i < bitmap_find_first_zero_bit bm -> bitval bm i = true).
Proof.
  intros Hb. unfold bitmap_find_first_zero_bit. pose proof (bi_len _ Hb) as Hlen.
  destruct (scan_bytes_spec (bits bm) 0 (bit_cnt bm) (bi_bytes _ Hb) ltac:(lia) ltac:(lia))
    as [(E & Hall)|(i & Hi & Hlt & E & Hz & Hall)].
  - left. split; [assumption|]. intros i Hi. apply Hall; lia.
  - right. rewrite E. rewrite Z.add_0_l in *. split; [lia|]. split; [exact Hz|exact Hall].
Qed.

(** ** Copy *)
Lemma bitmap_copy_spec dst src :
  binv dst -> binv src -> bit_cnt src <= bit_cnt dst ->
  exists bm, bitmap_copy dst src = Ok bm /\ binv bm /\ bit_cnt bm = bit_cnt dst /\
    forall j, 0 <= j -> bitval bm j = bitval src j.
Proof.
  intros Hd Hs Hle. unfold bitmap_copy.
  destruct (Z.ltb_spec (bit_cnt dst) (bit_cnt src)); [lia|].
  unfold bitmap_reset; cbn [bits bit_cnt]. rewrite repeat_length.
  pose proof (bi_len _ Hd) as Ld. pose proof (bi_len _ Hs) as Ls.
  destruct (Nat.ltb_spec (length (bits dst)) (length (bits src))); [lia|].
  eexists. split; [reflexivity|].
  set (bm := mkBitmap _ _).
  assert (Hv : forall j, 0 <= j -> bitval bm j = bitval src j).
  { intros j Hj. unfold bitval, bm; cbn [bits].
    destruct (Nat.ltb_spec (Z.to_nat (j / 8)) (length (bits src))) as [L|L].
    - rewrite app_nth1 by assumption. reflexivity.
    - rewrite app_nth2 by lia.
      rewrite (nth_overflow (bits src)) by lia.
      assert (Hz : forall m k n, nth m (skipn k (repeat 0 n)) 0 = 0).
      { clear. intros m k n. destruct (Nat.ltb_spec m (length (skipn k (repeat 0 n)))).
        - assert (In (nth m (skipn k (repeat 0 n)) 0) (repeat 0 n)).
          { rewrite <- (firstn_skipn k (repeat 0 n)) at 2. apply in_or_app. right.
            apply nth_In. assumption. }
          eapply repeat_spec; eassumption.
        - apply nth_overflow. lia. }
      rewrite Hz. reflexivity. }
  split; [|split; [reflexivity|assumption]].
  constructor; unfold bm; cbn [bits bit_cnt].
  - apply Hd.
  - rewrite app_length, skipn_length, repeat_length. lia.
  - apply Forall_app. split; [apply Hs|].
    apply Forall_forall. intros x Hx.
    assert (In x (repeat 0 (length (bits dst)))).
    { rewrite <- (firstn_skipn (length (bits src)) (repeat 0 _)). apply in_or_app. auto. }
    apply repeat_spec in H1. lia.
  - intros i Hi. fold bm. rewrite Hv by (pose proof (bi_cnt _ Hd); lia).
    apply (bi_tail _ Hs). lia.
Qed.
