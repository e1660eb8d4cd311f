(** * C56: timed waits and sleeps last as long as asked *)
From Verif Require Import Base Timer TimerSpec TimerHist PropTimer Wait.

(** A time at which a clock may be read: less than 146 years after its start. *)
Definition sane (t : Z) : Prop := 0 <= t < 4611686018427387904.
(** A timespec as a time in nanoseconds, and a proper one. *)
Definition ns_of (d : timespec) : Z := sec d * NS + nsec d.
Definition proper (d : timespec) : Prop := 0 <= nsec d < NS.

Lemma u64_id x : 0 <= x < 18446744073709551616 -> u64 x = x.
Proof. unfold u64. apply Z.mod_small. Qed.
Lemma s64_id x : -9223372036854775808 <= x < 9223372036854775808 -> s64 x = x.
Proof.
  intros H. unfold s64, wrap_signed. cbv zeta. change (18446744073709551616 / 2) with 9223372036854775808.
  destruct (Z.leb_spec 0 x).
  - rewrite Z.mod_small by lia. destruct (Z.leb_spec 9223372036854775808 x); lia.
  - replace (x mod 18446744073709551616) with (x + 18446744073709551616)
      by (symmetry; rewrite <- (Z_mod_plus_full _ 1); rewrite Z.mod_small; lia).
    destruct (Z.leb_spec 9223372036854775808 (x + 18446744073709551616)); lia.
Qed.
Lemma s32_id x : -2147483648 <= x < 2147483648 -> s32 x = x.
Proof.
  intros H. unfold s32, wrap_signed. cbv zeta. change (4294967296 / 2) with 2147483648.
  destruct (Z.leb_spec 0 x).
  - rewrite Z.mod_small by lia. destruct (Z.leb_spec 2147483648 x); lia.
  - replace (x mod 4294967296) with (x + 4294967296)
      by (symmetry; rewrite <- (Z_mod_plus_full _ 1); rewrite Z.mod_small; lia).
    destruct (Z.leb_spec 2147483648 (x + 4294967296)); lia.
Qed.

(** The millisecond tick is the time since the start of the clock in whole
    milliseconds; it never goes backwards. *)
Theorem C56_tick t : sane t -> tick_ms t = t / 1000000.
Proof.
  unfold sane, tick_ms, clock, NS. cbn [sec nsec]. intros H.
  pose proof (Z_div_mod_eq_full t 1000000000). pose proof (Z.mod_pos_bound t 1000000000 eq_refl).
  rewrite Z.quot_div_nonneg by lia.
  assert (E : t / 1000000 = t / 1000000000 * 1000 + t mod 1000000000 / 1000000).
  { rewrite H0 at 1. replace (1000000000 * (t / 1000000000) + t mod 1000000000) with (t mod 1000000000 + (t / 1000000000 * 1000) * 1000000) by lia.
    rewrite Z.div_add by lia. lia. }
  assert (0 <= t / 1000000000 <= 4611686018427387904 / 1000000000) by (split; [apply Z.div_pos; lia|apply Z.div_le_mono; lia]).
  assert (0 <= t mod 1000000000 / 1000000 <= 1000000000 / 1000000) by (split; [apply Z.div_pos; lia|apply Z.div_le_mono; lia]).
  change (4611686018427387904 / 1000000000) with 4611686018 in *. change (1000000000 / 1000000) with 1000 in *.
  rewrite (u64_id (t / 1000000000)), (u64_id (t mod 1000000000 / 1000000)) by lia.
  rewrite (u64_id (t / 1000000000 * 1000)) by lia. rewrite u64_id by lia. lia.
Qed.
Theorem C56_tick_monotone t1 t2 : sane t1 -> sane t2 -> t1 <= t2 -> tick_ms t1 <= tick_ms t2.
Proof. intros H1 H2 H. rewrite !C56_tick by auto. apply Z.div_le_mono; lia. Qed.

Lemma add64_ok a b : -9223372036854775808 <= a + b < 9223372036854775808 -> add64 a b = Ok (a + b).
Proof. intros H. unfold add64. destruct (Z.leb_spec (-9223372036854775808) (a + b)), (Z.ltb_spec (a + b) 9223372036854775808); auto; lia. Qed.

(** The deadline of a wait of [ms] >= 0 milliseconds is exactly [ms] milliseconds
    after its start, and a proper one; the normalising loop runs at most once. *)
Theorem C56_deadline t ms n :
  sane t -> 0 <= ms < 9223372036854775808 -> (1 <= n)%nat ->
  exists d, deadline n (clock t) ms = Ok (Some d) /\ proper d /\ ns_of d = t + ms * 1000000.
Proof.
  unfold sane, deadline, clock, proper, ns_of, NS. cbn [sec nsec]. intros H Hm Hn. destruct n as [|n]; [lia|]. clear Hn.
  pose proof (Z_div_mod_eq_full t 1000000000). pose proof (Z.mod_pos_bound t 1000000000 eq_refl).
  assert (0 <= t / 1000000000 <= 4611686018) by (split; [apply Z.div_pos; lia|change 4611686018 with (4611686018427387904 / 1000000000); apply Z.div_le_mono; lia]).
  rewrite Z.quot_div_nonneg, Z.rem_mod_nonneg by lia.
  pose proof (Z_div_mod_eq_full ms 1000). pose proof (Z.mod_pos_bound ms 1000 eq_refl).
  assert (0 <= ms / 1000 <= 9223372036854775) by (split; [apply Z.div_pos; lia|change 9223372036854775 with (9223372036854775808 / 1000); apply Z.div_le_mono; lia]).
  rewrite add64_ok by lia. cbn [bind]. rewrite add64_ok by lia. cbn [bind norm nsec sec].
  destruct (Z.leb_spec 1000000000 (t mod 1000000000 + ms mod 1000 * 1000000)).
  - rewrite add64_ok by lia. cbn [bind]. destruct n; cbn [norm nsec sec];
      (destruct (Z.leb_spec 1000000000 (t mod 1000000000 + ms mod 1000 * 1000000 - 1000000000)); [lia|]; eexists; split; [reflexivity|cbn [sec nsec]; lia]).
  - eexists. split; [reflexivity|]. cbn [sec nsec]. lia.
Qed.

(** A wait on a condition variable (or on an event) that nobody wakes ends with
    the timeout code, not before the time has passed, and the system is free to
    end it at exactly that moment. *)
Theorem C56_timedwait t ms n d :
  sane t -> 0 <= ms < 9223372036854775808 -> (1 <= n)%nat -> deadline n (clock t) ms = Ok (Some d) ->
  (forall from b e, timed_out (fun x => x) d from b e -> e = 110 /\ t + ms * 1000000 <= b) /\
  timed_out (fun x => x) d t (t + ms * 1000000) 110.
Proof.
  intros H Hm Hn E. destruct (C56_deadline t ms n H Hm Hn) as (d' & E' & P & V). rewrite E in E'. assert (d = d') by congruence. subst d'.
  unfold proper, ns_of in *. split.
  - intros from b e T. destruct T as [b F _|b _ _ L]; [lia|]. split; auto. lia.
  - apply to_late; lia.
Qed.

(** The semaphore waits watch the wall clock [w]: the same holds if nobody sets
    that clock during the wait. *)
Theorem C56_sem_timedwait_partial w t ms n d :
  sane (w t) -> 0 <= ms < 9223372036854775808 -> (1 <= n)%nat -> deadline n (clock (w t)) ms = Ok (Some d) ->
  (forall b, t <= b -> w b - w t = b - t) ->
  (forall b e, timed_out w d t b e -> e = 110 /\ t + ms * 1000000 <= b) /\
  timed_out w d t (t + ms * 1000000) 110.
Proof.
  intros H Hm Hn E St. destruct (C56_deadline (w t) ms n H Hm Hn) as (d' & E' & P & V). rewrite E in E'. assert (d = d') by congruence. subst d'.
  unfold proper, ns_of in *. split.
  - intros b e T. destruct T as [b F L|b _ F L]; [lia|]. split; auto. pose proof (St b F). lia.
  - apply to_late; try lia. specialize (St (t + ms * 1000000)). lia.
Qed.
(** Not in general: if the clock is set back by [back] during the wait, no
    timeout is reported before [back] more nanoseconds have passed; if it is set
    forward far enough, the wait of any length may time out the moment after. *)
Theorem C56_sem_timedwait_clock_set_refuted t ms n back d :
  sane t -> 0 <= ms < 9223372036854775808 -> (1 <= n)%nat -> 0 < back ->
  deadline n (clock t) ms = Ok (Some d) ->
  (forall b e, timed_out (fun x => if x <=? t then x else x - back) d (t + 1) b e -> t + ms * 1000000 + back <= b) /\
  timed_out (fun x => if x <=? t then x else x + ms * 1000000) d (t + 1) (t + 1) 110.
Proof.
  intros H Hm Hn Hb E. destruct (C56_deadline t ms n H Hm Hn) as (d' & E' & P & V). rewrite E in E'. assert (d = d') by congruence. subst d'.
  unfold proper, ns_of in *. split.
  - intros b e T. destruct T as [b F _|b _ F L]; [lia|]. destruct (Z.leb_spec b t); lia.
  - apply to_late; try lia. destruct (Z.leb_spec (t + 1) t); lia.
Qed.

(** A negative time does not mean "for ever" to these calls: whatever the
    negative time, the wait is over the moment it starts.  lib/cond.c 68-71, 87
    passes -1 for a wait without a limit. *)
Theorem C56_forever_refuted t ms n :
  sane t -> -4611686018427387904 <= ms < 0 ->
  exists d, deadline n (clock t) ms = Ok (Some d) /\ exists e, timed_out (fun x => x) d t t e.
Proof.
  unfold sane, deadline, clock. cbn [sec nsec]. unfold NS. intros H Hm.
  pose proof (Z_div_mod_eq_full t 1000000000). pose proof (Z.mod_pos_bound t 1000000000 eq_refl).
  assert (0 <= t / 1000000000 <= 4611686018) by (split; [apply Z.div_pos; lia|change 4611686018 with (4611686018427387904 / 1000000000); apply Z.div_le_mono; lia]).
  replace ms with (- (- ms)) by lia. rewrite Z.quot_opp_l, Z.rem_opp_l by lia.
  rewrite Z.quot_div_nonneg, Z.rem_mod_nonneg by lia.
  pose proof (Z_div_mod_eq_full (- ms) 1000). pose proof (Z.mod_pos_bound (- ms) 1000 eq_refl).
  assert (0 <= (- ms) / 1000 <= 4611686018427387) by (split; [apply Z.div_pos; lia|change 4611686018427387 with (4611686018427387904 / 1000); apply Z.div_le_mono; lia]).
  rewrite add64_ok by lia. cbn [bind]. rewrite add64_ok by lia. cbn [bind].
  exists (mkTs (t / 1000000000 + - (- ms / 1000)) (t mod 1000000000 + - (- ms mod 1000) * 1000000)). split.
  - destruct n; cbn [norm nsec]; destruct (Z.leb_spec 1000000000 (t mod 1000000000 + - (- ms mod 1000) * 1000000)); auto; lia.
  - destruct (Z.ltb_spec (t mod 1000000000 + - (- ms mod 1000) * 1000000) 0).
    + exists 22. apply to_invalid; cbn [nsec]; lia.
    + exists 110. apply to_late; cbn [nsec sec]; unfold NS; lia.
Qed.
(** aosl_cond_timedwait and aosl_event_timedwait promise a negative number on a
    timeout (include/api/aosl_thread.h 240, 281) and return the positive code of
    the system. *)
Theorem C56_timeout_code_refuted w d from b e : timed_out w d from b e -> 0 < e.
Proof. destruct 1; lia. Qed.

(** ** The wait of a queue for its descriptors *)

Lemma quot_rem_us ms : 0 <= ms -> select_us ms = ms * 1000.
Proof. intros H. unfold select_us. pose proof (Z.quot_rem' ms 1000). lia. Qed.
Lemma os_wait_small k ms : 0 <= ms < 2147483648 -> os_wait k ms = Some (ms * 1000).
Proof.
  intros H. unfold os_wait. rewrite s32_id by lia. destruct (Z.ltb_spec ms 0); [lia|].
  destruct k; auto. rewrite quot_rem_us; auto; lia.
Qed.
Lemma os_wait_neg k ms : -2147483648 <= ms < 0 -> os_wait k ms = None.
Proof. intros H. unfold os_wait. rewrite s32_id by lia. destruct (Z.ltb_spec ms 0); [|lia]. destruct k; auto. Qed.

(** One attempt: what is left of a wait that is to end at tick [e]. *)
Lemma left_ok timeo stamp s e t :
  sane s -> sane t -> s <= t -> 0 <= timeo < 2147483648 ->
  (0 < timeo -> stamp = tick_ms s /\ stamp + timeo = e) -> (timeo = 0 -> e <= tick_ms s) ->
  let '(timeo', stamp') := left timeo stamp t in
  timeo' = Z.max 0 (e - tick_ms t) /\ timeo' <= timeo /\
  (0 < timeo' -> stamp' = tick_ms t /\ stamp' + timeo' = e) /\ (timeo' = 0 -> e <= tick_ms t).
Proof.
  intros Hs Ht Hst Hr H1 H2. unfold left. pose proof (C56_tick_monotone s t Hs Ht Hst) as M.
  assert (R : forall x, sane x -> 0 <= tick_ms x <= 4611686018427).
  { intros x Hx. rewrite C56_tick by auto. destruct Hx. split; [apply Z.div_pos; lia|]. change 4611686018427 with (4611686018427387904 / 1000000). apply Z.div_le_mono; lia. }
  pose proof (R s Hs). pose proof (R t Ht).
  destruct (Z.ltb_spec 0 timeo).
  - destruct (H1 ltac:(lia)) as (-> & <-). rewrite u64_id by lia. rewrite (s64_id (tick_ms t - tick_ms s)) by lia. rewrite s64_id by lia.
    destruct (Z.ltb_spec (timeo - (tick_ms t - tick_ms s)) 0); lia.
  - assert (timeo = 0) by lia. subst. specialize (H2 eq_refl). lia.
Qed.

(** The attempts ask for the time left, whatever interrupts them. *)
Lemma attempts_ok k lat : forall ys timeo stamp s e l r,
  attempts k timeo stamp ys = Some (l, r) ->
  sane s -> (forall y, In y ys -> sane (y_now y) /\ sane (y_back y)) -> ordered s ys ->
  0 <= timeo < 2147483648 -> (0 < timeo -> stamp = tick_ms s /\ stamp + timeo = e) -> (timeo = 0 -> e <= tick_ms s) ->
  Forall2 (sleeps lat) l ys ->
  exists ys' y, ys = ys' ++ [y] /\ y_ans y = r /\
    Forall2 (fun a z => a = Some (Z.max 0 (e - tick_ms (y_now z)) * 1000)) l ys.
Proof.
  induction ys as [|y ys IH]; intros timeo stamp s e l r E Hs Hy Ho Hr H1 H2 HF; [discriminate|].
  cbn [attempts] in E. cbn [ordered] in Ho. destruct Ho as (Ho1 & Ho2).
  destruct (Hy y (or_introl eq_refl)) as (Hn & Hb).
  pose proof (left_ok timeo stamp s e (y_now y) Hs Hn Ho1 Hr H1 H2) as G.
  destruct (left timeo stamp (y_now y)) as [timeo' stamp']. destruct G as (G1 & G2 & G3 & G4).
  assert (A : os_wait k timeo' = Some (Z.max 0 (e - tick_ms (y_now y)) * 1000)) by (rewrite os_wait_small by lia; congruence).
  destruct (y_ans y) eqn:Ea.
  2: { destruct ys; [|discriminate]. assert (l = [os_wait k timeo'] /\ r = ATimeout) as (-> & ->) by (split; congruence). exists [], y. repeat split; auto. }
  2: { destruct ys; [|discriminate]. assert (l = [os_wait k timeo'] /\ r = AEvents) as (-> & ->) by (split; congruence). exists [], y. repeat split; auto. }
  2: { destruct ys; [|discriminate]. assert (l = [os_wait k timeo'] /\ r = AError) as (-> & ->) by (split; congruence). exists [], y. repeat split; auto. }
  destruct (attempts k timeo' stamp' ys) as [[l' r']|] eqn:E'; [|discriminate].
  assert (l = os_wait k timeo' :: l' /\ r = r') as (-> & ->) by (split; congruence).
  inversion HF as [|? ? ? ? S1 S2]. destruct S1 as (S1a & S1b & _).
  assert (Hnow : forall z, In z ys -> sane (y_now z) /\ sane (y_back z)) by (intros; apply Hy; right; auto).
  assert (Ho2' : ordered (y_now y) ys) by (destruct ys as [|z ys]; [exact I|destruct Ho2 as (O1 & O2); split; auto; lia]).
  destruct (IH timeo' stamp' (y_now y) e l' r' E' Hn Hnow Ho2' ltac:(lia) G3 G4 S2) as (ys' & z & -> & Ez & F).
  exists (y :: ys'), z. split; [auto|split; [auto|constructor; auto]].
Qed.

(** A queue that is to wait [timeo] milliseconds (0 < timeo < 2^31) for its
    descriptors, whatever signals interrupt the wait:
    - the system is never asked to wait for ever;
    - if the wait ends because the time is over, the tick shows that [timeo]
      milliseconds have passed;
    - it ends at most a millisecond and the system's own delays late. *)
Theorem C56_queue_wait_partial k timeo t0 ys lat l r :
  0 < timeo < 2147483648 -> sane t0 -> (forall y, In y ys -> sane (y_now y) /\ sane (y_back y)) -> ordered t0 ys ->
  mp_wait k timeo t0 ys = Some (l, r) -> Forall2 (sleeps lat) l ys ->
  (forall a, In a l -> exists us, a = Some us /\ 0 <= us <= timeo * 1000) /\
  exists ys' y, ys = ys' ++ [y] /\ y_ans y = r /\
    (r = ATimeout -> tick_ms t0 + timeo <= tick_ms (y_back y)) /\
    y_back y <= Z.max (t0 + timeo * 1000000 + 1000000) (y_now y) + (y_call y - y_now y) + lat.
Proof.
  intros Hr H0 Hy Ho E HF. unfold mp_wait in E. destruct (Z.ltb_spec 0 timeo); [|lia].
  destruct (attempts_ok k lat ys timeo (tick_ms t0) t0 (tick_ms t0 + timeo) l r E H0 Hy Ho ltac:(lia) ltac:(auto) ltac:(lia) HF) as (ys' & y & -> & Er & F).
  assert (Mono : forall z, In z (ys' ++ [y]) -> t0 <= y_now z).
  { clear E Er H0 Hy F. revert t0 l HF Ho. generalize (ys' ++ [y]). induction l as [|z l0 IH]; intros t0 l1 HF Ho x Hx; [destruct Hx|].
    cbn [ordered] in Ho. destruct Ho as (O1 & O2). inversion HF as [|? ? ? ? S1 S2]; subst. destruct S1 as (? & ? & _).
    destruct Hx as [<-|Hx]; auto. specialize (IH (y_back z) _ S2 O2 x Hx). lia. }
  split.
  - intros a Ha. assert (exists z, In z (ys' ++ [y]) /\ a = Some (Z.max 0 (tick_ms t0 + timeo - tick_ms (y_now z)) * 1000)) as (z & Hz & ->).
    { clear - F Ha. induction F as [|a0 z0 l0 ys0 E0 F IH]; [destruct Ha|]. destruct Ha as [<-|Ha]; [exists z0; split; [left|]; auto|].
      destruct (IH Ha) as (z & ? & ?). exists z. split; [right|]; auto. }
    eexists. split; [reflexivity|]. pose proof (C56_tick_monotone t0 (y_now z) H0 (proj1 (Hy z Hz)) (Mono z Hz)). lia.
  - exists ys', y. split; auto. split; auto.
    assert (In y (ys' ++ [y])) as Iy by (apply in_or_app; right; left; auto).
    destruct (Hy y Iy) as (Sn & Sb). specialize (Mono y Iy).
    assert (exists a, sleeps lat a y /\ a = Some (Z.max 0 (tick_ms t0 + timeo - tick_ms (y_now y)) * 1000)) as (a & Sl & Ea).
    { apply Forall2_app_inv_r in HF as (l1 & l2 & _ & B & ->). apply Forall2_app_inv_r in F as (m1 & m2 & _ & B' & Em).
      inversion B as [|a ? ? ? Sl B2]; subst. inversion B2; subst. inversion B' as [|a' ? ? ? Sl' B2']; subst. inversion B2'; subst.
      apply app_inj_tail in Em as (_ & ->). eauto. }
    subst a. destruct Sl as (S1 & S2 & S3 & S4).
    pose proof (C56_tick t0 H0) as T0. pose proof (C56_tick (y_now y) Sn) as T1. pose proof (C56_tick (y_back y) Sb) as T2.
    pose proof (Z_div_mod_eq_full t0 1000000). pose proof (Z.mod_pos_bound t0 1000000 eq_refl).
    pose proof (Z_div_mod_eq_full (y_now y) 1000000). pose proof (Z.mod_pos_bound (y_now y) 1000000 eq_refl).
    pose proof (Z_div_mod_eq_full (y_back y) 1000000). pose proof (Z.mod_pos_bound (y_back y) 1000000 eq_refl).
    split; [intros Rt; rewrite Rt in Er; specialize (S3 Er); lia|lia].
Qed.

(** A time of zero never blocks, a negative one waits until something happens. *)
Theorem C56_queue_wait_limits k timeo t0 ys l r :
  -2147483648 <= timeo <= 0 -> mp_wait k timeo t0 ys = Some (l, r) ->
  forall a, In a l -> a = if timeo <? 0 then None else Some 0.
Proof.
  intros Hr. unfold mp_wait. generalize (if 0 <? timeo then tick_ms t0 else 0). revert l r.
  induction ys as [|y ys IH]; intros l r st E a Ha; [discriminate|]. cbn [attempts] in E. unfold left in E.
  destruct (Z.ltb_spec 0 timeo); [lia|].
  assert (A : os_wait k timeo = if timeo <? 0 then None else Some 0).
  { destruct (Z.ltb_spec timeo 0); [apply os_wait_neg; lia|]. rewrite os_wait_small by lia. f_equal. lia. }
  destruct (y_ans y).
  2,3,4: destruct ys; [assert (l = [os_wait k timeo]) by congruence; subst l; destruct Ha as [<-|[]]; exact A|discriminate].
  destruct (attempts k timeo st ys) as [[l' r']|] eqn:E'; [|discriminate].
  assert (l = os_wait k timeo :: l') by congruence. subst l. destruct Ha as [<-|Ha]; [exact A|]. eapply IH; eauto.
Qed.

(** Not for longer waits: the time is cut to an int, so a wait of 2^31 ms or more
    (up to 2^63) never asks the system for the time wanted. *)
Lemma s32_mod x : exists q, s32 x = x - 4294967296 * q /\ -2147483648 <= s32 x < 2147483648.
Proof.
  unfold s32, wrap_signed. cbv zeta. change (4294967296 / 2) with 2147483648.
  pose proof (Z_div_mod_eq_full x 4294967296). pose proof (Z.mod_pos_bound x 4294967296 eq_refl).
  destruct (Z.leb_spec 2147483648 (x mod 4294967296)); [exists (x / 4294967296 + 1)|exists (x / 4294967296)]; lia.
Qed.
Theorem C56_long_wait_refuted k timeo :
  2147483648 <= timeo -> os_wait k timeo <> Some (timeo * 1000).
Proof.
  intros H. unfold os_wait. destruct (s32_mod timeo) as (q & _ & R). destruct (Z.ltb_spec (s32 timeo) 0); [destruct k; discriminate|].
  destruct k; [| |rewrite quot_rem_us by lia]; intros E; assert (s32 timeo * 1000 = timeo * 1000) by congruence; lia.
Qed.
(** So a queue whose only timer is due in 2^31 ms (25 days) sleeps for ever, and
    one whose only timer is due in 2^32 ms does not sleep at all. *)
Theorem C56_far_timer_refuted :
  exists s1 s2, reachable s1 /\ reachable s2 /\ timer_active s1 1 = true /\ timer_active s2 1 = true /\
    (exists s', max_wait_time s1 = Ok (2147483648, s')) /\ (exists s', max_wait_time s2 = Ok (4294967296, s')) /\
    forall k, os_wait k 2147483648 = None /\ os_wait k 4294967296 = Some 0.
Proof.
  exists (run_evs [EOp (CSetOneshot 1 (1000 + 2147483648))] (timers_init (fun _ => 1000))),
         (run_evs [EOp (CSetOneshot 1 (1000 + 4294967296))] (timers_init (fun _ => 1000))).
  assert (R : forall es, ops_only es = true -> reachable (run_evs es (timers_init (fun _ => 1000)))).
  { intros es H. apply run_evs_reach; [apply init_reachable|]. intros. eapply ops_only_pre; [|eassumption]. exact H. }
  split; [apply R; reflexivity|split; [apply R; reflexivity|]].
  split; [vm_compute; reflexivity|split; [vm_compute; reflexivity|]].
  split; [eexists; vm_compute; reflexivity|split; [eexists; vm_compute; reflexivity|]].
  intros k. destruct k; vm_compute; auto.
Qed.

(** ** Sleeping *)

(** aosl_msleep asks for [ms] milliseconds, at least one, up to 71 minutes... *)
Theorem C56_msleep_partial ms : 0 <= ms < 4294968 -> msleep_us ms = Z.max 1 ms * 1000.
Proof.
  intros H. unfold msleep_us. cbv zeta. destruct (Z.eqb_spec ms 0); [subst; reflexivity|].
  rewrite u64_id by lia. unfold u32. rewrite Z.mod_small by lia. lia.
Qed.
(** ... and for less than wanted beyond. *)
Theorem C56_msleep_refuted ms : 4294968 <= ms -> msleep_us ms < ms * 1000.
Proof.
  intros H. unfold msleep_us, u32. cbv zeta. destruct (Z.eqb_spec ms 0); [lia|]. pose proof (Z.mod_pos_bound (u64 (ms * 1000)) 4294967296 eq_refl). lia.
Qed.
(** aosl_tick_us does not measure time. *)
Theorem C56_tick_us_refuted t1 t2 : tick_us t2 - tick_us t1 = 0.
Proof. reflexivity. Qed.

(** ** Concrete cases *)
Example ex_deadline : deadline 5 (clock 7999999999) 2001 = Ok (Some (mkTs 10 999999)).
Proof. vm_compute. reflexivity. Qed.
(** A wait of 10 ms that starts at 1.5 ms and is interrupted twice. *)
Definition ex_tries : list try :=
  [mkTry 1600000 1700000 4000000 AInt; mkTry 4100000 4100000 9000000 AInt; mkTry 9000000 9100000 11200000 ATimeout].
Example ex_wait k : mp_wait k 10 1500000 ex_tries = Some ([Some 10000; Some 7000; Some 2000], ATimeout).
Proof. destruct k; vm_compute; reflexivity. Qed.
Example ex_wait_ok : ordered 1500000 ex_tries /\ Forall2 (sleeps 200000) [Some 10000; Some 7000; Some 2000] ex_tries.
Proof.
  split; [cbn [ordered ex_tries y_now y_back]; lia|].
  repeat (constructor; [unfold sleeps; cbn [y_now y_call y_back y_ans]; split; [lia|split; [lia|split; [first [discriminate|intros _; lia]|lia]]]|]). constructor.
Qed.
Example ex_sleep : msleep_us 4294968 = 704 /\ msleep_us 0 = 1000.
Proof. split; reflexivity. Qed.

Print Assumptions C56_tick.
Print Assumptions C56_tick_monotone.
Print Assumptions C56_deadline.
Print Assumptions C56_timedwait.
Print Assumptions C56_sem_timedwait_partial.
Print Assumptions C56_sem_timedwait_clock_set_refuted.
Print Assumptions C56_forever_refuted.
Print Assumptions C56_timeout_code_refuted.
Print Assumptions C56_queue_wait_partial.
Print Assumptions C56_queue_wait_limits.
Print Assumptions C56_long_wait_refuted.
Print Assumptions C56_far_timer_refuted.
Print Assumptions C56_msleep_partial.
Print Assumptions C56_msleep_refuted.
Print Assumptions C56_tick_us_refuted.
