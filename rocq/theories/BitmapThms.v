(** * User-level statements about the bitmap *)
From Verif Require Import Base Bitmap BitmapSpec BitmapProof.

Ltac Zify.zify_post_hook ::= Z.div_mod_to_equations.

Lemma create_cnt n bm0 : 1 <= n <= 255 -> bitmap_create true n = Some bm0 ->
  binv bm0 /\ bit_cnt bm0 = n /\ forall j, bitval bm0 j = false.
Proof.
  intros Hn Hc. destruct (bitmap_create_spec _ _ _ Hc) as (H1 & H2 & H3).
  repeat split; auto; try apply H1. rewrite H2. unfold u8. lia.
Qed.

Lemma bitmap_reads_last_write :
  forall n ops i bm0,
    1 <= n <= 255 ->
    bitmap_create true n = Some bm0 ->
    Forall bop_wf ops ->
    0 <= i < n ->
    exists bm, brun bm0 ops = Ok bm /\ bitmap_get bm i = Ok (bit_after ops i).
Proof.
  intros n ops i bm0 Hn Hc Hw Hi.
  destruct (create_cnt _ _ Hn Hc) as (Hb & Hcnt & Hz).
  destruct (brun_spec ops bm0 Hb Hw) as (bm & E & Hb' & Hc' & Hv).
  exists bm. split; [assumption|].
  rewrite bitmap_get_spec by (auto; lia). f_equal. rewrite Hv by lia. rewrite Hz. reflexivity.
Qed.

Lemma bitmap_out_of_range_ignored :
  forall bm i, bit_cnt bm <= i < 256 -> 0 <= i ->
    bitmap_set bm i = Ok bm /\ bitmap_clear bm i = Ok bm.
Proof.
  intros bm i Hi H0. unfold bitmap_set, bitmap_clear.
  assert (Hu : u8 i = i) by (unfold u8; lia). rewrite Hu.
  destruct (Z.leb_spec (bit_cnt bm) i); [auto|lia].
Qed.

Lemma bitmap_copy_preserves :
  forall n m ops src0 dst0,
    1 <= n <= m -> m <= 255 ->
    bitmap_create true n = Some src0 -> bitmap_create true m = Some dst0 ->
    Forall bop_wf ops ->
    exists src dst, brun src0 ops = Ok src /\ bitmap_copy dst0 src = Ok dst /\
      forall i, 0 <= i < m ->
        bitmap_get dst i = Ok (if i <? n then bit_after ops i else false).
Proof.
  intros n m ops src0 dst0 Hn Hm Hcs Hcd Hw.
  destruct (create_cnt n _ ltac:(lia) Hcs) as (Hbs & Hns & Hzs).
  destruct (create_cnt m _ ltac:(lia) Hcd) as (Hbd & Hnd & Hzd).
  destruct (brun_spec ops src0 Hbs Hw) as (src & E & Hb' & Hc' & Hv).
  destruct (bitmap_copy_spec dst0 src Hbd Hb' ltac:(lia)) as (dst & Ed & Hbdst & Hcdst & Hvd).
  exists src, dst. split; [assumption|]. split; [assumption|].
  intros i Hi. rewrite bitmap_get_spec by (auto; lia). f_equal. rewrite Hvd by lia.
  destruct (Z.ltb_spec i n).
  - rewrite Hv by lia. rewrite Hzs. reflexivity.
  - apply (bi_tail _ Hb'). lia.
Qed.

Lemma bitmap_get_at_size_refuted :
  exists n bm0, bitmap_create true n = Some bm0 /\ bitmap_get bm0 n = UB.
Proof. exists 8. eexists. split; [vm_compute; reflexivity|vm_compute; reflexivity]. Qed.

Lemma first_zero_is_smallest :
  forall n ops bm0 bm,
    1 <= n <= 255 -> bitmap_create true n = Some bm0 ->
    Forall bop_wf ops -> brun bm0 ops = Ok bm ->
    (bitmap_find_first_zero_bit bm = -1 /\ forall i, 0 <= i < n -> bit_after ops i = true)
    \/ (0 <= bitmap_find_first_zero_bit bm < n /\
        bit_after ops (bitmap_find_first_zero_bit bm) = false /\
        forall i, 0 <= i < bitmap_find_first_zero_bit bm -> bit_after ops i = true).
Proof.
  intros n ops bm0 bm Hn Hc Hw Hr.
  destruct (create_cnt _ _ Hn Hc) as (Hb & Hcnt & Hz).
  destruct (brun_spec ops bm0 Hb Hw) as (bm' & E & Hb' & Hc' & Hv).
  rewrite Hr in E. injection E as <-.
  assert (Hbit : forall i, 0 <= i < n -> bitval bm i = bit_after ops i).
  { intros i Hi. rewrite Hv by lia. rewrite Hz. reflexivity. }
  destruct (find_first_zero_spec bm Hb') as [(E & Ha)|(Hr1 & Hz1 & Ha)].
  - left. split; [assumption|]. intros i Hi. rewrite <- Hbit by lia. apply Ha. lia.
  - right. rewrite Hc', Hcnt in *. split; [assumption|]. split.
    + rewrite <- Hbit by lia. assumption.
    + intros i Hi. rewrite <- Hbit by lia. apply Ha. lia.
Qed.
