From Verif Require Import Base Arith ArithSpec.
Ltac Zify.zify_post_hook ::= Z.div_mod_to_equations.

(** ** bytes *)
Lemma le_bytes_len n x : length (le_bytes n x) = n.
Proof. revert x; induction n; intros; cbn; auto. Qed.

Lemma le_bytes_byte n : forall x, Forall is_byte (le_bytes n x).
Proof. induction n; intros; cbn; constructor; auto. unfold is_byte. lia. Qed.

Lemma le_val_bytes n : forall x, 0 <= x < 256 ^ Z.of_nat n -> le_val (le_bytes n x) = x.
Proof.
  induction n; intros x Hx.
  - cbn in *. lia.
  - cbn [le_bytes le_val]. rewrite IHn.
    + lia.
    + rewrite Nat2Z.inj_succ, Z.pow_succ_r in Hx by lia. lia.
Qed.

Lemma le_bytes_val l : Forall is_byte l -> le_bytes (length l) (le_val l) = l.
Proof.
  induction 1 as [|b l Hb Hl IH]; [reflexivity|]. cbn [length le_bytes le_val]. unfold is_byte in Hb.
  f_equal; [lia|]. replace ((b + 256 * le_val l) / 256) with (le_val l) by lia. assumption.
Qed.

Lemma le_val_bound l : Forall is_byte l -> 0 <= le_val l < 256 ^ Z.of_nat (length l).
Proof.
  induction 1 as [|b l Hb Hl IH]; [cbn; lia|]. cbn [length le_val].
  rewrite Nat2Z.inj_succ, Z.pow_succ_r by lia. unfold is_byte in Hb. lia.
Qed.

(** ** masks and shifts *)
Lemma land_mask_shl x k : 0 <= k -> Z.land x (Z.shiftl 255 k) = Z.shiftl (x / 2 ^ k mod 256) k.
Proof.
  intros Hk. rewrite <- Z.shiftr_div_pow2 by lia. change 256 with (2 ^ 8).
  rewrite <- Z.land_ones by lia. change (Z.ones 8) with 255.
  apply Z.bits_inj'. intros n Hn. rewrite Z.land_spec, !Z.shiftl_spec by lia.
  rewrite Z.land_spec.
  destruct (Z.ltb_spec n k).
  - rewrite (Z.testbit_neg_r 255) by lia. rewrite !andb_false_r. reflexivity.
  - rewrite Z.shiftr_spec by lia. replace (n - k + k) with n by lia. reflexivity.
Qed.

Lemma up_term x i d m : 0 <= i -> 0 <= d -> 2 ^ (i + d + 8) <= m ->
  (Z.shiftl (Z.land x (Z.shiftl 255 i)) d) mod m = x / 2 ^ i mod 256 * 2 ^ (i + d).
Proof.
  intros Hi Hd Hm. rewrite land_mask_shl by lia. rewrite Z.shiftl_shiftl by lia.
  rewrite Z.shiftl_mul_pow2 by lia. apply Z.mod_small.
  rewrite (Z.pow_add_r 2 (i + d) 8) in Hm by lia. change (2 ^ 8) with 256 in Hm.
  pose proof (Z.mod_pos_bound (x / 2 ^ i) 256). assert (0 < 2 ^ (i + d)) by (apply Z.pow_pos_nonneg; lia). nia.
Qed.

Lemma down_term x i d : 0 <= d <= i ->
  Z.shiftr (Z.land x (Z.shiftl 255 i)) d = x / 2 ^ i mod 256 * 2 ^ (i - d).
Proof.
  intros Hd. rewrite land_mask_shl by lia. rewrite Z.shiftr_shiftl_l by lia.
  rewrite Z.shiftl_mul_pow2 by lia. reflexivity.
Qed.

Lemma lor_low a b n : 0 <= n -> 0 <= b < 2 ^ n -> Z.lor (a * 2 ^ n) b = a * 2 ^ n + b.
Proof.
  intros Hn Hb. symmetry. apply Z.add_nocarry_lxor || idtac.
  rewrite <- Z.lxor_lor.
  - apply Z.add_nocarry_lxor.
    apply Z.bits_inj'. intros k Hk. rewrite Z.land_spec, Z.bits_0, <- Z.shiftl_mul_pow2 by lia.
    destruct (Z.ltb_spec k n).
    + rewrite Z.shiftl_spec_low by lia. reflexivity.
    + replace (Z.testbit b k) with false; [apply andb_false_r|]. symmetry.
      destruct (Z.eq_dec b 0) as [->|]; [apply Z.bits_0|].
      apply Z.bits_above_log2; [lia|]. apply Z.log2_lt_pow2; [lia|].
      apply Z.lt_le_trans with (2 ^ n); [lia|]. apply Z.pow_le_mono_r; lia.
  - apply Z.bits_inj'. intros k Hk. rewrite Z.land_spec, Z.bits_0, <- Z.shiftl_mul_pow2 by lia.
    destruct (Z.ltb_spec k n).
    + rewrite Z.shiftl_spec_low by lia. reflexivity.
    + replace (Z.testbit b k) with false; [apply andb_false_r|]. symmetry.
      destruct (Z.eq_dec b 0) as [->|]; [apply Z.bits_0|].
      apply Z.bits_above_log2; [lia|]. apply Z.log2_lt_pow2; [lia|].
      apply Z.lt_le_trans with (2 ^ n); [lia|]. apply Z.pow_le_mono_r; lia.
Qed.

Lemma lor_low' c b n : 0 <= n -> c mod 2 ^ n = 0 -> 0 <= b < 2 ^ n -> Z.lor c b = c + b.
Proof.
  intros Hn Hc Hb. assert (0 < 2 ^ n) by lia.
  rewrite (Z.div_mod c (2 ^ n)) by lia. rewrite Hc, Z.add_0_r, (Z.mul_comm (2 ^ n)).
  apply lor_low; assumption.
Qed.

Lemma swab16_val x : 0 <= x < 2 ^ 16 -> swab16 x = le_val (rev (le_bytes 2 x)).
Proof.
  intros Hx. unfold swab16. replace (u16 x) with x by (unfold u16; lia).
  change 0xff00 with (Z.shiftl 255 8). rewrite down_term by lia.
  change 0x00ff with (Z.ones 8). rewrite Z.land_ones by lia. rewrite Z.shiftl_mul_pow2 by lia.
  change (2 ^ 8) with 256 in *. change (2 ^ (8 - 8)) with 1. rewrite Z.mul_1_r.
  change 256 with (2 ^ 8) at 2. rewrite lor_low by lia. cbn [le_bytes rev app le_val]. unfold u16. lia.
Qed.

Lemma swab32_val x : 0 <= x < 2 ^ 32 -> swab32 x = le_val (rev (le_bytes 4 x)).
Proof.
  intros Hx. unfold swab32. cbv zeta. replace (u32 x) with x by (unfold u32; lia).
  unfold u32 at 2 3.
  change 0x0000ff00 with (Z.shiftl 255 8). change 0x00ff0000 with (Z.shiftl 255 16).
  change 0xff000000 with (Z.shiftl 255 24). change 0x000000ff with (Z.shiftl 255 0).
  rewrite !up_term, !down_term by lia.
  change (0 + 24) with 24. change (8 + 8) with 16. change (16 - 8) with 8. change (24 - 24) with 0.
  change (2 ^ 0) with 1. rewrite Z.div_1_r, Z.mul_1_r.
  rewrite (lor_low' (x mod 256 * 2 ^ 24) _ 24) by lia.
  rewrite (lor_low' (x mod 256 * 2 ^ 24 + _) _ 16) by lia.
  rewrite (lor_low' (x mod 256 * 2 ^ 24 + _ + _) _ 8) by lia.
  cbn [le_bytes rev app le_val]. unfold u32.
  rewrite !Z.div_div by lia. change (256 * 256 * 256) with (2 ^ 24). change (256 * 256) with (2 ^ 16).
  change (2 ^ 8) with 256. lia.
Qed.

Lemma le_bytes_8 x : le_bytes 8 x =
  [x / 2 ^ 0 mod 256; x / 2 ^ 8 mod 256; x / 2 ^ 16 mod 256; x / 2 ^ 24 mod 256;
   x / 2 ^ 32 mod 256; x / 2 ^ 40 mod 256; x / 2 ^ 48 mod 256; x / 2 ^ 56 mod 256].
Proof.
  cbn [le_bytes]. rewrite !Z.div_div by lia.
  change (2 ^ 0) with 1. rewrite Z.div_1_r. reflexivity.
Qed.

Lemma swab64_val x : 0 <= x < 2 ^ 64 -> swab64 x = le_val (rev (le_bytes 8 x)).
Proof.
  intros Hx. unfold swab64. cbv zeta. replace (u64 x) with x by (unfold u64; lia).
  unfold u64 at 2 3 4 5.
  change 0x00000000000000ff with (Z.shiftl 255 0).
  change 0x000000000000ff00 with (Z.shiftl 255 8).
  change 0x0000000000ff0000 with (Z.shiftl 255 16).
  change 0x00000000ff000000 with (Z.shiftl 255 24).
  change 0x000000ff00000000 with (Z.shiftl 255 32).
  change 0x0000ff0000000000 with (Z.shiftl 255 40).
  change 0x00ff000000000000 with (Z.shiftl 255 48).
  change 0xff00000000000000 with (Z.shiftl 255 56).
  rewrite !up_term, !down_term by lia.
  rewrite le_bytes_8. cbn [rev app le_val].
  assert (B : forall k, 0 <= x / 2 ^ k mod 256 < 256) by (intros; apply Z.mod_pos_bound; lia).
  pose proof (B 0) as B0. pose proof (B 8) as B1. pose proof (B 16) as B2. pose proof (B 24) as B3.
  pose proof (B 32) as B4. pose proof (B 40) as B5. pose proof (B 48) as B6. pose proof (B 56) as B7.
  clear B.
  set (b0 := x / 2 ^ 0 mod 256) in *. set (b1 := x / 2 ^ 8 mod 256) in *.
  set (b2 := x / 2 ^ 16 mod 256) in *. set (b3 := x / 2 ^ 24 mod 256) in *.
  set (b4 := x / 2 ^ 32 mod 256) in *. set (b5 := x / 2 ^ 40 mod 256) in *.
  set (b6 := x / 2 ^ 48 mod 256) in *. set (b7 := x / 2 ^ 56 mod 256) in *.
  clearbody b0 b1 b2 b3 b4 b5 b6 b7. clear Hx x.
  change (0 + 56) with 56. change (8 + 40) with 48. change (16 + 24) with 40. change (24 + 8) with 32.
  change (32 - 8) with 24. change (40 - 24) with 16. change (48 - 40) with 8. change (56 - 56) with 0.
  rewrite (lor_low' (b0 * 2 ^ 56) _ 56) by lia.
  rewrite (lor_low' (b0 * 2 ^ 56 + b1 * 2 ^ 48) _ 48) by lia.
  rewrite (lor_low' (b0 * 2 ^ 56 + b1 * 2 ^ 48 + b2 * 2 ^ 40) _ 40) by lia.
  rewrite (lor_low' (b0 * 2 ^ 56 + b1 * 2 ^ 48 + b2 * 2 ^ 40 + b3 * 2 ^ 32) _ 32) by lia.
  rewrite (lor_low' (b0 * 2 ^ 56 + b1 * 2 ^ 48 + b2 * 2 ^ 40 + b3 * 2 ^ 32 + b4 * 2 ^ 24) _ 24) by lia.
  rewrite (lor_low' (b0 * 2 ^ 56 + b1 * 2 ^ 48 + b2 * 2 ^ 40 + b3 * 2 ^ 32 + b4 * 2 ^ 24 + b5 * 2 ^ 16) _ 16) by lia.
  rewrite (lor_low' (b0 * 2 ^ 56 + b1 * 2 ^ 48 + b2 * 2 ^ 40 + b3 * 2 ^ 32 + b4 * 2 ^ 24 + b5 * 2 ^ 16 + b6 * 2 ^ 8) _ 8) by lia.
  unfold u64. rewrite Z.mod_small by lia. lia.
Qed.

Lemma swap_facts n (f : Z -> Z) :
  (forall x, 0 <= x < 256 ^ Z.of_nat n -> f x = le_val (rev (le_bytes n x))) ->
  forall x, 0 <= x < 256 ^ Z.of_nat n ->
    0 <= f x < 256 ^ Z.of_nat n /\ f (f x) = x /\ le_bytes n (f x) = be_bytes n x.
Proof.
  intros Hf x Hx. rewrite (Hf x Hx).
  assert (HF : Forall is_byte (rev (le_bytes n x))) by (apply Forall_rev, le_bytes_byte).
  assert (HL : length (rev (le_bytes n x)) = n) by (rewrite rev_length; apply le_bytes_len).
  pose proof (le_val_bound _ HF) as HB. rewrite HL in HB.
  pose proof (le_bytes_val _ HF) as HV. rewrite HL in HV.
  split; [assumption|]. split; [|exact HV].
  rewrite Hf by assumption. rewrite HV, rev_involutive. apply le_val_bytes. assumption.
Qed.

Lemma swab16_facts x : 0 <= x < 2 ^ 16 ->
  0 <= swab16 x < 2 ^ 16 /\ swab16 (swab16 x) = x /\ le_bytes 2 (swab16 x) = be_bytes 2 x.
Proof. apply (swap_facts 2 swab16). apply swab16_val. Qed.
Lemma swab32_facts x : 0 <= x < 2 ^ 32 ->
  0 <= swab32 x < 2 ^ 32 /\ swab32 (swab32 x) = x /\ le_bytes 4 (swab32 x) = be_bytes 4 x.
Proof. apply (swap_facts 4 swab32). apply swab32_val. Qed.
Lemma swab64_facts x : 0 <= x < 2 ^ 64 ->
  0 <= swab64 x < 2 ^ 64 /\ swab64 (swab64 x) = x /\ le_bytes 8 (swab64 x) = be_bytes 8 x.
Proof. apply (swap_facts 8 swab64). apply swab64_val. Qed.

(** ** bswap_mem *)
Lemma bswap_loop_spec k : forall mem dst src len i,
  (i + k = len)%nat -> (dst + len <= length mem)%nat -> (src + len <= length mem)%nat ->
  (dst + len <= src \/ src + len <= dst)%nat ->
  exists mem', bswap_mem_loop mem dst src len i k = Ok mem' /\ length mem' = length mem /\
    (forall j, (i <= j < len)%nat -> nth_error mem' (dst + j) = nth_error mem (src + (len - j - 1))) /\
    (forall a, (a < dst + i \/ dst + len <= a)%nat -> nth_error mem' a = nth_error mem a).
Proof.
  induction k as [|k IH]; intros mem dst src len i Hi Hd Hs Hov.
  - exists mem. split; [reflexivity|]. split; [reflexivity|]. split; [intros; lia|auto].
  - cbn [bswap_mem_loop].
    destruct (nth_error mem (src + (len - i - 1))) as [b|] eqn:E.
    2:{ apply nth_error_None in E. lia. }
    destruct (Nat.leb_spec (length mem) (dst + i)); [lia|].
    destruct (IH (upd mem (dst + i) b) dst src len (S i)) as (mem' & E' & L' & H1 & H2);
      rewrite ?upd_length; try lia.
    exists mem'. split; [assumption|]. rewrite upd_length in L'. split; [assumption|]. split.
    + intros j Hj. destruct (Nat.eq_dec j i) as [->|].
      * rewrite H2 by lia. rewrite nth_error_upd_eq by lia. congruence.
      * rewrite H1 by lia. apply nth_error_upd_neq. lia.
    + intros a Ha. rewrite H2 by lia. apply nth_error_upd_neq. lia.
Qed.

(** ** errors *)
Lemma is_err_value_iff x : IS_ERR_VALUE x = true <-> u64 (-4095) <= u64 x.
Proof.
  unfold IS_ERR_VALUE, MAX_ERRNO. 
  assert (E : u64 (s64 x) = u64 x).
  { unfold u64, s64, wrap_signed. cbv zeta.
    destruct (18446744073709551616 / 2 <=? x mod 18446744073709551616); lia. }
  rewrite E. apply Z.leb_le.
Qed.

Lemma err_ptr_roundtrip e : -4095 <= e <= -1 ->
  IS_ERR (ERR_PTR e) = true /\ PTR_ERR (ERR_PTR e) = e.
Proof.
  intros He. split.
  - apply is_err_value_iff. unfold ERR_PTR, u64. lia.
  - unfold PTR_ERR, ERR_PTR, s64, u64, wrap_signed. cbv zeta.
    change (18446744073709551616 / 2) with 9223372036854775808.
    rewrite Z.mod_mod by lia.
    destruct (Z.leb_spec 9223372036854775808 (e mod 18446744073709551616)); lia.
Qed.

Lemma valid_pointer_not_err p : 0 <= p < 2 ^ 64 - 4095 -> IS_ERR p = false.
Proof.
  intros Hp. unfold IS_ERR. destruct (IS_ERR_VALUE p) eqn:E; [|reflexivity].
  apply is_err_value_iff in E. unfold u64 in E. lia.
Qed.

Lemma s64_id x : - 2 ^ 63 <= x < 2 ^ 63 -> s64 x = x.
Proof. intros. unfold s64. apply wrap_signed_id; lia. Qed.
Lemma s32_id x : - 2 ^ 31 <= x < 2 ^ 31 -> s32 x = x.
Proof. intros. unfold s32. apply wrap_signed_id; lia. Qed.

Lemma return_err_spec e :
  (-4095 <= e <= -1 -> return_err e = (Some (- e), -1) /\ return_errno e = - e) /\
  (- 2 ^ 31 <= e < 2 ^ 31 -> ~ (-4095 <= e <= -1) -> return_err e = (None, e) /\ return_errno e = e).
Proof.
  split.
  - intros He. unfold return_err, return_errno. rewrite s64_id by lia.
    assert (E : IS_ERR_VALUE e = true) by (apply is_err_value_iff; unfold u64; lia).
    rewrite E. unfold set_error. rewrite s32_id by lia. auto.
  - intros He Hn. unfold return_err, return_errno. rewrite s64_id by lia.
    destruct (IS_ERR_VALUE e) eqn:E.
    { apply is_err_value_iff in E. unfold u64 in E. lia. }
    rewrite s32_id by lia. auto.
Qed.

Lemma return_ptr_err_spec p : 0 <= p < 2 ^ 64 ->
  (forall e, -4095 <= e <= -1 -> return_ptr_err (ERR_PTR e) = (Some (- e), 0)) /\
  (p = 0 -> return_ptr_err p = (Some 0, 0)) /\
  (0 < p < 2 ^ 64 - 4095 -> return_ptr_err p = (None, p)).
Proof.
  intros Hp. unfold return_ptr_err. split; [|split].
  - intros e He. destruct (err_ptr_roundtrip e He) as [H1 H2]. unfold IS_ERR, PTR_ERR in *.
    rewrite H1, H2. unfold set_error. rewrite s32_id by lia. reflexivity.
  - intros ->. reflexivity.
  - intros H. pose proof (valid_pointer_not_err p ltac:(lia)) as E. unfold IS_ERR in E. rewrite E.
    destruct (Z.eqb_spec p 0); [lia|reflexivity].
Qed.

Lemma hal_set_error_spec r :
  (0 <= r -> hal_set_error r = (None, 0)) /\
  (r < 0 -> exists code, hal_set_error r = (Some code, - code) /\ 1 <= code <= 4095 /\
            (code = AOSL_EAGAIN <-> r = -2001) /\ (code = AOSL_EINTR <-> r = -2002)).
Proof.
  unfold hal_set_error. split; intros H.
  - destruct (Z.ltb_spec r 0); [lia|reflexivity].
  - destruct (Z.ltb_spec r 0); [|lia].
    destruct (Z.eqb_spec r (-2002)). { exists AOSL_EINTR. subst. split; [reflexivity|]. cbv; intuition congruence. }
    destruct (Z.eqb_spec r (-2001)). { exists AOSL_EAGAIN. subst. split; [reflexivity|]. cbv; intuition congruence. }
    destruct (Z.eqb_spec r (-2003)). { exists AOSL_EINPROGRESS. subst. split; [reflexivity|]. cbv; intuition congruence. }
    exists AOSL_EHAL. split; [reflexivity|]. split; [cbv; split; discriminate|].
    unfold AOSL_EHAL, AOSL_EAGAIN, AOSL_EINTR, AOSL_EBASE. split; split; intros; lia.
Qed.

(** ** wrapping comparisons *)
Lemma wrap_signed_mod m x y : 0 < m -> wrap_signed m (x mod m - y mod m) = wrap_signed m (x - y).
Proof. intros. unfold wrap_signed. rewrite <- Zminus_mod. reflexivity. Qed.

Section W.
Context (m : Z) (Hm : wmod m).
Let Hpos : 0 < m. Proof. destruct Hm as [->|[->| ->]]; lia. Qed.
Let Heven : m mod 2 = 0. Proof. destruct Hm as [->|[->| ->]]; reflexivity. Qed.

Lemma wrapped_diff x y : - (m / 2) <= x - y < m / 2 -> wrap_signed m (x mod m - y mod m) = x - y.
Proof. intros. rewrite wrap_signed_mod by assumption. apply wrap_signed_id; assumption. Qed.

Lemma wcmp x y : Z.abs (x - y) < m / 2 ->
  wafter m (x mod m) (y mod m) = (y <? x) /\
  wbefore m (x mod m) (y mod m) = (x <? y) /\
  wafter_eq m (x mod m) (y mod m) = (y <=? x) /\
  wbefore_eq m (x mod m) (y mod m) = (x <=? y) /\
  (x mod m = y mod m <-> x = y) /\
  wdist m (x mod m) (y mod m) = Z.abs (x - y).
Proof.
  intros H. assert (M2 : m = 2 * (m / 2)) by (pose proof (Z.div_mod m 2 ltac:(lia)); lia).
  unfold wbefore, wbefore_eq, wafter, wafter_eq, wdist, wafter.
  rewrite !wrapped_diff by lia.
  split; [lia|]. split; [lia|]. split; [lia|]. split; [lia|]. split.
  - split; [|congruence]. intros E.
    assert (Hx : (x - y) mod m = 0) by (rewrite Zminus_mod, E, Z.sub_diag; reflexivity).
    apply Z.mod_divide in Hx; [|lia]. destruct Hx as [k Hk].
    set (h := m / 2) in *. clearbody h. clear E Hm Heven. 
    assert (k <= -1 \/ k = 0 \/ 1 <= k) as [?|[?|?]] by lia; nia.
  - rewrite <- !Zminus_mod. destruct (Z.ltb_spec 0 (x - y)).
    + rewrite Z.mod_small; lia.
    + rewrite Z.mod_small; lia.
Qed.

Lemma wsym a b : wdist m a b = wdist m b a.
Proof.
  unfold wdist, wafter, wrap_signed. cbv zeta.
  assert (M2 : m = 2 * (m / 2)) by (pose proof (Z.div_mod m 2 ltac:(lia)); lia).
  assert (E : (b - a) mod m = if (a - b) mod m =? 0 then 0 else m - (a - b) mod m).
  { destruct (Z.eqb_spec ((a - b) mod m) 0).
    - replace (b - a) with (- (a - b)) by lia. apply Z.mod_opp_l_z; lia.
    - replace (b - a) with (- (a - b)) by lia. apply Z.mod_opp_l_nz; lia. }
  pose proof (Z.mod_pos_bound (a - b) m Hpos). rewrite E.
  set (d := (a - b) mod m) in *. clearbody d. clear E.
  destruct (Z.eqb_spec d 0); destruct (Z.leb_spec (m / 2) d); cbn [Z.leb];
    try destruct (Z.leb_spec (m / 2) 0); try destruct (Z.leb_spec (m / 2) (m - d));
    repeat match goal with |- context [?a <? ?b] => destruct (Z.ltb_spec a b) end; lia.
Qed.

Lemma whalf a : 0 <= a < m ->
  let b := wadd m a (m / 2) in
  wafter m a b = false /\ wbefore m a b = false /\ a <> b.
Proof.
  intros Ha. cbv zeta. unfold wadd, wbefore, wafter, wrap_signed. cbv zeta.
  assert (M2 : m = 2 * (m / 2)) by (pose proof (Z.div_mod m 2 ltac:(lia)); lia).
  set (h := m / 2) in *. clearbody h.
  assert (E1 : (a - (a + h) mod m) mod m = h).
  { rewrite Zminus_mod_idemp_r. replace (a - (a + h)) with (h + (-1) * m) by lia.
    rewrite Z.mod_add by lia. apply Z.mod_small. lia. }
  assert (E2 : ((a + h) mod m - a) mod m = h).
  { rewrite Zminus_mod_idemp_l. replace (a + h - a) with h by lia. apply Z.mod_small. lia. }
  rewrite E1, E2. destruct (Z.leb_spec h h); [|lia].
  destruct (Z.ltb_spec 0 (h - m)); [lia|]. repeat split.
  intros E. assert (D : (a - (a + h) mod m) mod m = 0) by (rewrite <- E, Z.sub_diag; apply Z.mod_0_l; lia).
  lia.
Qed.

Lemma wrange x a b : 0 <= b - a < m / 2 -> Z.abs (x - a) < m / 2 -> Z.abs (x - b) < m / 2 ->
  win_range m (x mod m) (a mod m) (b mod m) = (a <=? x) && (x <=? b).
Proof.
  intros H1 H2 H3. unfold win_range.
  destruct (wcmp x a H2) as (_ & _ & E1 & _). destruct (wcmp x b H3) as (_ & _ & _ & E2 & _).
  rewrite E1, E2. reflexivity.
Qed.

Lemma wstep x : wnext m (x mod m) = (x + 1) mod m /\ wprev m (x mod m) = (x - 1) mod m /\
  wadd m (wsub m (x mod m) 5) 5 = x mod m.
Proof.
  unfold wnext, wprev, wadd, wsub. split; [apply Zplus_mod_idemp_l|]. split; [apply Zminus_mod_idemp_l|].
  rewrite Zplus_mod_idemp_l. replace (x mod m - 5 + 5) with (x mod m) by lia. apply Z.mod_mod. lia.
Qed.
End W.
