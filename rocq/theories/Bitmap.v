(** * Model of lib/bitmap.c *)
From Verif Require Import Base.

(** include/kernel/bitmap.h 14-18. [bits] is the allocated block [bit_arr];
    the field [bit_arr_cnt] always equals its length (both are set together in
    bitmap_create and never change), so it is not duplicated. *)
Record bitmap := mkBitmap { bits : list Z; bit_cnt : Z }.

(** lib/bitmap.c 14-41 [bitmap_create]; the parameter has type uint8_t, so the
    caller's value is truncated. [alloc_ok] is the outcome of the two mallocs
    (lines 23, 29): failure of either yields NULL. *)
Definition bitmap_create (alloc_ok : bool) (n : Z) : option bitmap :=
  let n8 := u8 n in
  if n8 =? 0 then None
  else if negb alloc_ok then None
  else Some (mkBitmap (repeat 0 (Z.to_nat ((n8 + 8 - 1) / 8))) n8).

(** Access to one byte of [bit_arr]; outside the block it is [UB]. *)
Definition byte_at (bm : bitmap) (idx : Z) : outcome Z :=
  if (idx <? 0) then UB
  else match nth_error (bits bm) (Z.to_nat idx) with
       | Some b => Ok b
       | None => UB
       end.

Definition store_byte (bm : bitmap) (idx : Z) (b : Z) : bitmap :=
  mkBitmap (upd (bits bm) (Z.to_nat idx) b) (bit_cnt bm).

(** lib/bitmap.c 56-66 [bitmap_set] (non-NULL self). *)
Definition bitmap_set (bm : bitmap) (i : Z) : outcome bitmap :=
  let i := u8 i in
  if bit_cnt bm <=? i then Ok bm
  else
    let index := i / 8 in
    let offset := i mod 8 in
    let* b := byte_at bm index in
    Ok (store_byte bm index (u8 (Z.lor b (Z.shiftl 1 offset)))).

(** lib/bitmap.c 68-78 [bitmap_clear]. *)
Definition bitmap_clear (bm : bitmap) (i : Z) : outcome bitmap :=
  let i := u8 i in
  if bit_cnt bm <=? i then Ok bm
  else
    let index := i / 8 in
    let offset := i mod 8 in
    let* b := byte_at bm index in
    Ok (store_byte bm index (u8 (Z.land b (Z.lnot (Z.shiftl 1 offset))))).

(** lib/bitmap.c 80-87 [bitmap_reset]. *)
Definition bitmap_reset (bm : bitmap) : bitmap :=
  mkBitmap (repeat 0 (length (bits bm))) (bit_cnt bm).

(** lib/bitmap.c 89-98 [bitmap_get]; line 92 checks [i > bit_cnt], not
    [i >= bit_cnt]. *)
Definition bitmap_get (bm : bitmap) (i : Z) : outcome bool :=
  let i := u8 i in
  if bit_cnt bm <? i then Aborted
  else
    let index := i / 8 in
    let offset := i mod 8 in
    let* b := byte_at bm index in
    Ok (negb (Z.land b (Z.shiftl 1 offset) =? 0)).

(** lib/bitmap.c 100-108 [bitmap_copy]; memcpy of src's block into dst's. *)
Definition bitmap_copy (dst src : bitmap) : outcome bitmap :=
  if bit_cnt dst <? bit_cnt src then Aborted
  else
    let d := bitmap_reset dst in
    if (length (bits d) <? length (bits src))%nat then UB
    else Ok (mkBitmap (bits src ++ skipn (length (bits src)) (bits d)) (bit_cnt d)).

(** lib/bitmap.c 128-137: the inner loop over the bits of one byte, [k]
    iterations left. [inl r] = return r, [inr p] = loop ended with bitpos p. *)
Fixpoint scan_bits (k : nat) (byte_val bit_idx bitpos cnt : Z) : Z + Z :=
  match k with
  | O => inr bitpos
  | S k' =>
      if cnt <=? bitpos then inl (-1)
      else if Z.land byte_val (Z.shiftl 1 bit_idx) =? 0 then inl bitpos
      else scan_bits k' byte_val (bit_idx + 1) (bitpos + 1) cnt
  end.

(** lib/bitmap.c 117-140: the outer loop over the bytes. *)
Fixpoint scan_bytes (bs : list Z) (bitpos cnt : Z) : Z :=
  match bs with
  | [] => -1
  | b :: bs' =>
      if b =? 255 then scan_bytes bs' (bitpos + 8) cnt
      else match scan_bits 8 b 0 bitpos cnt with
           | inl r => r
           | inr p => scan_bytes bs' p cnt
           end
  end.

(** lib/bitmap.c 110-141 [bitmap_find_first_zero_bit]. *)
Definition bitmap_find_first_zero_bit (bm : bitmap) : Z :=
  scan_bytes (bits bm) 0 (bit_cnt bm).

(** Histories of the mutating calls. *)
Inductive bop := BSet (i : Z) | BClear (i : Z) | BReset.

Definition bstep (bm : bitmap) (o : bop) : outcome bitmap :=
  match o with
  | BSet i => bitmap_set bm i
  | BClear i => bitmap_clear bm i
  | BReset => Ok (bitmap_reset bm)
  end.

Fixpoint brun (bm : bitmap) (ops : list bop) : outcome bitmap :=
  match ops with
  | [] => Ok bm
  | o :: ops' => let* bm' := bstep bm o in brun bm' ops'
  end.
