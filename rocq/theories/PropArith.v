(** * Property theorems C36, C39, C40 *)
From Verif Require Import Base Arith ArithSpec ArithProof.

(** C36. Error numbers survive the trip through a pointer; addresses below the
    last 4095 bytes are never taken for errors. *)
Theorem C36_err_ptr_roundtrip :
  forall e, -4095 <= e <= -1 -> IS_ERR (ERR_PTR e) = true /\ PTR_ERR (ERR_PTR e) = e.
Proof. exact err_ptr_roundtrip. Qed.
Print Assumptions C36_err_ptr_roundtrip.

Theorem C36_valid_pointer_not_err :
  forall p, 0 <= p < 2 ^ 64 - 4095 -> IS_ERR p = false.
Proof. exact valid_pointer_not_err. Qed.
Print Assumptions C36_valid_pointer_not_err.

(** [return_err]: errors set errno to the positive code and return -1, every
    other int is returned unchanged and leaves errno alone. *)
Theorem C36_return_err :
  forall e,
    (-4095 <= e <= -1 -> return_err e = (Some (- e), -1) /\ return_errno e = - e) /\
    (- 2 ^ 31 <= e < 2 ^ 31 -> ~ (-4095 <= e <= -1) ->
       return_err e = (None, e) /\ return_errno e = e).
Proof. exact return_err_spec. Qed.
Print Assumptions C36_return_err.

Theorem C36_return_ptr_err :
  forall p, 0 <= p < 2 ^ 64 ->
    (forall e, -4095 <= e <= -1 -> return_ptr_err (ERR_PTR e) = (Some (- e), 0)) /\
    (p = 0 -> return_ptr_err p = (Some 0, 0)) /\
    (0 < p < 2 ^ 64 - 4095 -> return_ptr_err p = (None, p)).
Proof. exact return_ptr_err_spec. Qed.
Print Assumptions C36_return_ptr_err.

(** Platform errors become AOSL errors; would-block and interrupted keep their meaning. *)
Theorem C36_hal_errors :
  forall r,
    (0 <= r -> hal_set_error r = (None, 0)) /\
    (r < 0 -> exists code, hal_set_error r = (Some code, - code) /\ 1 <= code <= 4095 /\
              (code = AOSL_EAGAIN <-> r = -2001) /\ (code = AOSL_EINTR <-> r = -2002)).
Proof. exact hal_set_error_spec. Qed.
Print Assumptions C36_hal_errors.

Example C36_example :
  return_err (- AOSL_EINVAL) = (Some 1022, -1) /\ return_err (-5000) = (None, -5000) /\
  IS_ERR 0x7fff00001000 = false /\ PTR_ERR 0xfffffffffffffc02 = -1022.
Proof. vm_compute. auto. Qed.

(** C39. For counters [x], [y] whose true values are less than half the range
    apart, comparing the wrapped counters gives the true order and distance. *)
Theorem C39_wrapping_comparison :
  forall m x y, wmod m -> Z.abs (x - y) < m / 2 ->
    wafter m (x mod m) (y mod m) = (y <? x) /\
    wbefore m (x mod m) (y mod m) = (x <? y) /\
    wafter_eq m (x mod m) (y mod m) = (y <=? x) /\
    wbefore_eq m (x mod m) (y mod m) = (x <=? y) /\
    (x mod m = y mod m <-> x = y) /\
    wdist m (x mod m) (y mod m) = Z.abs (x - y).
Proof. intros m x y Hm H. exact (wcmp m Hm x y H). Qed.
Print Assumptions C39_wrapping_comparison.

Theorem C39_wrapping_distance_symmetric :
  forall m a b, wmod m -> wdist m a b = wdist m b a.
Proof. intros m a b Hm. exact (wsym m Hm a b). Qed.
Print Assumptions C39_wrapping_distance_symmetric.

Theorem C39_wrapping_range :
  forall m x a b, wmod m ->
    0 <= b - a < m / 2 -> Z.abs (x - a) < m / 2 -> Z.abs (x - b) < m / 2 ->
    win_range m (x mod m) (a mod m) (b mod m) = (a <=? x) && (x <=? b).
Proof. intros m x a b Hm. exact (wrange m Hm x a b). Qed.
Print Assumptions C39_wrapping_range.

(** At exactly half the range two different values are neither before nor after
    each other: the bound above cannot be weakened. *)
Theorem C39_half_range_incomparable :
  forall m a, wmod m -> 0 <= a < m ->
    let b := wadd m a (m / 2) in
    wafter m a b = false /\ wbefore m a b = false /\ a <> b.
Proof. intros m a Hm. exact (whalf m Hm a). Qed.
Print Assumptions C39_half_range_incomparable.

Example C39_example :
  wafter 65536 (70000 mod 65536) (60000 mod 65536) = true /\
  wdist 65536 (70000 mod 65536) (60000 mod 65536) = 10000 /\
  70000 mod 65536 < 60000 mod 65536.
Proof. vm_compute. auto. Qed.

(** C40. Swapping twice is the identity, and the memory image of a converted
    value is the big-endian (network order) image of the original. *)
Theorem C40_swab16 : forall x, 0 <= x < 2 ^ 16 ->
  0 <= swab16 x < 2 ^ 16 /\ swab16 (swab16 x) = x /\ le_bytes 2 (cpu_to_be16 x) = be_bytes 2 x.
Proof. exact swab16_facts. Qed.
Print Assumptions C40_swab16.
Theorem C40_swab32 : forall x, 0 <= x < 2 ^ 32 ->
  0 <= aosl_bswap_32 x < 2 ^ 32 /\ aosl_bswap_32 (aosl_bswap_32 x) = x /\
  le_bytes 4 (cpu_to_be32 x) = be_bytes 4 x.
Proof. exact swab32_facts. Qed.
Print Assumptions C40_swab32.
Theorem C40_swab64 : forall x, 0 <= x < 2 ^ 64 ->
  0 <= aosl_bswap_64 x < 2 ^ 64 /\ aosl_bswap_64 (aosl_bswap_64 x) = x /\
  le_bytes 8 (cpu_to_be64 x) = be_bytes 8 x.
Proof. exact swab64_facts. Qed.
Print Assumptions C40_swab64.

(** Swapping memory between disjoint blocks reverses the bytes and changes
    nothing else. *)
Theorem C40_bswap_mem :
  forall mem dst src len,
    (dst + len <= length mem)%nat -> (src + len <= length mem)%nat ->
    (dst + len <= src \/ src + len <= dst)%nat ->
    exists mem', bswap_mem mem dst src len = Ok mem' /\ length mem' = length mem /\
      (forall j, (j < len)%nat -> nth_error mem' (dst + j) = nth_error mem (src + (len - j - 1))) /\
      (forall a, (a < dst \/ dst + len <= a)%nat -> nth_error mem' a = nth_error mem a).
Proof.
  intros mem dst src len H1 H2 H3.
  destruct (bswap_loop_spec len mem dst src len 0 eq_refl H1 H2 H3) as (m' & E & L & A & B).
  exists m'. split; [exact E|]. split; [exact L|]. split; intros; [apply A|apply B]; lia.
Qed.
Print Assumptions C40_bswap_mem.

(** In place it does not work: the first half is overwritten before it is read. *)
Theorem C40_bswap_mem_in_place_refuted :
  exists mem mem', bswap_mem mem 0 0 (length mem) = Ok mem' /\ mem' <> rev mem.
Proof. exists [1; 2; 3; 4], [4; 3; 3; 4]. split; [reflexivity|discriminate]. Qed.
Print Assumptions C40_bswap_mem_in_place_refuted.

Example C40_example :
  aosl_bswap_32 0x12345678 = 0x78563412 /\ aosl_bswap_64 0x0102030405060708 = 0x0807060504030201 /\
  swab16 0xabcd = 0xcdab /\ bswap_mem [1; 2; 3; 0; 0; 0] 3 0 3 = Ok [1; 2; 3; 3; 2; 1].
Proof. vm_compute. auto. Qed.
