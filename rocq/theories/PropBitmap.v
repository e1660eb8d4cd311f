(** * Property theorems C01, C02: bitmaps *)
From Verif Require Import Base Bitmap BitmapSpec BitmapProof BitmapThms.

(** C01. After any history, bit [i] reads as decided by the last call that
    affected it; no call in the history aborts or touches memory outside the
    block. *)
Theorem C01_bitmap_reads_last_write :
  forall n ops i bm0,
    1 <= n <= 255 ->
    bitmap_create true n = Some bm0 ->
    Forall bop_wf ops ->
    0 <= i < n ->
    exists bm, brun bm0 ops = Ok bm /\ bitmap_get bm i = Ok (bit_after ops i).
Proof. exact bitmap_reads_last_write. Qed.
Print Assumptions C01_bitmap_reads_last_write.

(** Calls with an index at or above the size change nothing at all. *)
Theorem C01_bitmap_out_of_range_ignored :
  forall bm i, bit_cnt bm <= i < 256 -> 0 <= i ->
    bitmap_set bm i = Ok bm /\ bitmap_clear bm i = Ok bm.
Proof. exact bitmap_out_of_range_ignored. Qed.
Print Assumptions C01_bitmap_out_of_range_ignored.

(** Growing a bitmap by copy keeps every bit and leaves the new ones clear. *)
Theorem C01_bitmap_copy_preserves :
  forall n m ops src0 dst0,
    1 <= n <= m -> m <= 255 ->
    bitmap_create true n = Some src0 -> bitmap_create true m = Some dst0 ->
    Forall bop_wf ops ->
    exists src dst, brun src0 ops = Ok src /\ bitmap_copy dst0 src = Ok dst /\
      forall i, 0 <= i < m ->
        bitmap_get dst i = Ok (if i <? n then bit_after ops i else false).
Proof. exact bitmap_copy_preserves. Qed.
Print Assumptions C01_bitmap_copy_preserves.

(** The bounds check of bitmap_get is off by one: with size 8 the index 8
    passes the check and reads behind the block (lib/bitmap.c 92). *)
Theorem C01_bitmap_get_at_size_refuted :
  exists n bm0, bitmap_create true n = Some bm0 /\ bitmap_get bm0 n = UB.
Proof. exact bitmap_get_at_size_refuted. Qed.
Print Assumptions C01_bitmap_get_at_size_refuted.

Example C01_example :
  exists bm0 bm, bitmap_create true 19 = Some bm0 /\
    brun bm0 [BSet 3; BSet 17; BClear 3; BSet 200; BSet 4] = Ok bm /\
    map (bitmap_get bm) [3; 4; 17; 18] = [Ok false; Ok true; Ok true; Ok false].
Proof. eexists; eexists; split; [vm_compute; reflexivity|split; [vm_compute; reflexivity|reflexivity]]. Qed.

(** C02. The search returns the smallest clear index, and -1 exactly when all
    bits below the size are set. *)
Theorem C02_first_zero_is_smallest :
  forall n ops bm0 bm,
    1 <= n <= 255 -> bitmap_create true n = Some bm0 ->
    Forall bop_wf ops -> brun bm0 ops = Ok bm ->
    (bitmap_find_first_zero_bit bm = -1 /\ forall i, 0 <= i < n -> bit_after ops i = true)
    \/ (0 <= bitmap_find_first_zero_bit bm < n /\
        bit_after ops (bitmap_find_first_zero_bit bm) = false /\
        forall i, 0 <= i < bitmap_find_first_zero_bit bm -> bit_after ops i = true).
Proof. exact first_zero_is_smallest. Qed.
Print Assumptions C02_first_zero_is_smallest.

Example C02_example :
  exists bm0 bm, bitmap_create true 12 = Some bm0 /\
    brun bm0 (map BSet [0;1;2;3;4;5;6;7;8;10]) = Ok bm /\ bitmap_find_first_zero_bit bm = 9.
Proof. eexists; eexists; split; [vm_compute; reflexivity|split; [vm_compute; reflexivity|reflexivity]]. Qed.

Example C02_example_full :
  exists bm0 bm, bitmap_create true 9 = Some bm0 /\
    brun bm0 (map BSet [0;1;2;3;4;5;6;7;8]) = Ok bm /\ bitmap_find_first_zero_bit bm = -1.
Proof. eexists; eexists; split; [vm_compute; reflexivity|split; [vm_compute; reflexivity|reflexivity]]. Qed.
