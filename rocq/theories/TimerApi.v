(** * Timer queue: the public functions. *)
From Coq Require Import Sorting.Sorted Permutation.
From Verif Require Import Base Rbtree RbtreeProof RbtreeErase RbtreeSpec RbtreeThms Timer TimerSpec TimerProof TimerThms TimerOps.

Lemma usable_in s l rf a : TI s l rf -> (usable s a <-> In a (t_all s)).
Proof.
  intros (HC & HB & Hs). split.
  - intros (n & Hn & Hi). destruct (in_dec Nat.eq_dec a (t_all s)); auto.
    destruct (tb_out _ _ HB a n Hn n0) as (X & _). congruence.
  - intros H. destruct (tb_in _ _ HB a H) as (n & Hn & Hi & _). exists n. auto.
Qed.
Lemma TI_ext s s' l rf : TI s l rf -> t_rb s' = t_rb s -> t_cell s' = t_cell s -> t_first s' = t_first s ->
  t_serial s' = t_serial s -> t_all s' = t_all s -> t_dtors s' = t_dtors s -> t_uid s' = t_uid s -> TI s' l rf.
Proof.
  intros (HC & HB & Hs) E1 E2 E3 E4 E5 E6 E7. split; [eapply TC_ext; eauto|]. split.
  - apply (TB_ext s); auto. intros x. now rewrite E2.
  - now rewrite E5.
Qed.
Lemma put_inc s l rf a : TI s l (inc rf a) ->
  tr (timer_put a) s (fun _ s' => TI s' l rf /\ eff a s s' /\ t_all s' = t_all s /\
    t_tick s' = t_tick s /\ t_serial s' = t_serial s /\
    (In a (t_all s) -> same_view s s' a /\ t_dtors s' = t_dtors s) /\
    (~ In a (t_all s) -> timer_active s' a = false)).
Proof.
  intros HI. eapply tr_conseq; [apply (timer_put_ok s l _ a HI); rewrite inc_eq; lia|].
  intros _ s' (X & Y). split; [|exact Y]. eapply TI_rf; [|exact X]. intros x. now rewrite dec_inc.
Qed.
Lemma s64_neg z : u64_ok z -> (s64 z <? 0) = negb (z <? 9223372036854775808).
Proof.
  unfold u64_ok, s64, wrap_signed. cbv zeta. intros H.
  rewrite (Z.mod_small z) by lia. change (18446744073709551616 / 2) with 9223372036854775808.
  destruct (Z.ltb_spec z 9223372036854775808), (Z.leb_spec 9223372036854775808 z); cbn [negb]; lia.
Qed.

(** aosl_mpq_cancel_timer *)
Lemma api_cancel_ok s l rf a : TI s l rf ->
  tr (api_cancel a) s (fun r s' =>
    (usable s a /\ r = Done /\ TI s' (without a l) rf /\ eff a s s' /\ usable s' a /\ t_tick s' = t_tick s /\
     t_dtors s' = t_dtors s /\
     (exists n n', t_cell s a = Some n /\ t_cell s' a = Some n' /\ tn_interval n' = tn_interval n /\
        tn_expire n' = tn_expire n /\ tn_uid n' = tn_uid n /\ tn_serial n' = tn_serial n)) \/
    (~ usable s a /\ r = Err AOSL_ENOENT /\ s' = s)).
Proof.
  intros HI. unfold api_cancel. apply tr_bind. eapply tr_conseq; [apply (timer_get_ok s l rf a HI)|].
  intros ok s1 [(-> & Hin & HI1 & Ef1 & Vw1 & Ea1 & Ed1 & Es1 & Et1)|(-> & -> & Hni)]; cbn [negb].
  2:{ apply tr_ret. right. rewrite (usable_in _ _ _ _ HI). auto. }
  assert (Hin1 : In a (t_all s1)) by now rewrite Ea1.
  destruct (tb_in _ _ (proj1 (proj2 HI1)) a Hin1) as (n1 & Hn1 & _).
  apply tr_bind. eapply tr_conseq; [eapply cancel_TI; eauto|].
  intros _ s2 (HI2 & Ef2 & Ea2 & Ed2 & Et2 & Es2 & Eu2 & n2 & Hn2 & Hst).
  assert (Hin2 : In a (t_all s2)) by now rewrite Ea2.
  apply tr_bind. eapply tr_conseq; [apply (put_inc _ _ _ _ HI2)|].
  intros _ s3 (HI3 & Ef3 & Ea3 & Et3 & Es3 & Vw & _). destruct (Vw Hin2) as (Vw3 & Ed3). apply tr_ret. left.
  split; [now rewrite (usable_in _ _ _ _ HI)|]. split; auto. split; auto.
  split; [eapply eff_trans; [eauto|eapply eff_trans; eauto]|].
  split; [rewrite (usable_in _ _ _ _ HI3), Ea3; auto|]. split; [congruence|]. split; [congruence|].
  apply strip_fields in Hst. destruct Vw1 as (_ & Vw1), Vw3 as (_ & Vw3). rewrite Hn1 in Vw1. rewrite Hn2 in Vw3.
  destruct (t_cell s a) as [n|]; [|tauto]. destruct (t_cell s3 a) as [n3|]; [|tauto].
  exists n, n3. intuition congruence.
Qed.

(** aosl_mpq_kill_timer *)
Lemma api_kill_ok s l rf a : TI s l rf ->
  tr (api_kill a) s (fun r s' =>
    (usable s a /\ r = Done /\ TI s' (without a l) rf /\ eff a s s' /\ ~ usable s' a /\ timer_active s' a = false /\
     t_tick s' = t_tick s) \/
    (~ usable s a /\ r = Err AOSL_ENOENT /\ s' = s)).
Proof.
  intros HI. unfold api_kill. apply tr_bind. eapply tr_conseq; [apply (timer_get_ok s l rf a HI)|].
  intros ok s1 [(-> & Hin & HI1 & Ef1 & Vw1 & Ea1 & Ed1 & Es1 & Et1)|(-> & -> & Hni)]; cbn [negb].
  2:{ apply tr_ret. right. rewrite (usable_in _ _ _ _ HI). auto. }
  assert (Hin1 : In a (t_all s1)) by now rewrite Ea1.
  destruct (tb_in _ _ (proj1 (proj2 HI1)) a Hin1) as (n1 & Hn1 & _).
  apply tr_bind. eapply tr_conseq; [eapply kill_ok; eauto|].
  intros e s2 (Ef2 & Et2 & [(_ & -> & HI2 & Ea2)|(G & _)]); [|tauto].
  apply tr_bind. eapply tr_conseq; [apply (put_inc _ _ _ _ HI2)|].
  intros _ s3 (HI3 & Ef3 & Ea3 & Et3 & Es3 & _ & Na). apply tr_ret. left.
  assert (Hn2 : ~ In a (t_all s2)) by (rewrite Ea2, without_in; tauto).
  split; [now rewrite (usable_in _ _ _ _ HI)|]. split; auto. split; auto.
  split; [eapply eff_trans; [eauto|eapply eff_trans; eauto]|].
  split; [rewrite (usable_in _ _ _ _ HI3), Ea3; auto|]. split; auto. congruence.
Qed.

(** aosl_mpq_resched_timer, aosl_mpq_resched_oneshot_timer *)
Lemma interval_ok_u64 i : interval_ok i -> u64_ok i.
Proof. unfold interval_ok, u64_ok, INVALID_INTERVAL. lia. Qed.
Lemma api_resched_ok s l rf a i : TI s l rf -> u64_ok i ->
  tr (api_resched a i) s (fun r s' => exists l', TI s' l' rf /\ eff a s s' /\
    ((exists n, usable s a /\ t_cell s a = Some n /\
      let i' := if s64 i <? 0 then tn_interval n else i in
      i' <> INVALID_INTERVAL /\
      r = Done /\ usable s' a /\ t_dtors s' = t_dtors s /\ armed_as s s' a i' (u64 (clock_at s (t_tick s) + i'))) \/
     (exists n, usable s a /\ t_cell s a = Some n /\ s64 i < 0 /\ tn_interval n = INVALID_INTERVAL /\
      r = Err AOSL_EINVAL /\ same_view s s' a /\ t_dtors s' = t_dtors s) \/
     (~ usable s a /\ r = Err AOSL_ENOENT /\ s' = s))).
Proof.
  intros HI Hi. unfold api_resched. apply tr_bind. eapply tr_conseq; [apply (timer_get_ok s l rf a HI)|].
  intros ok s1 [(-> & Hin & HI1 & Ef1 & Vw1 & Ea1 & Ed1 & Es1 & Et1)|(-> & -> & Hni)]; cbn [negb].
  2:{ apply tr_ret. exists l. split; auto. split; [apply eff_refl|]. right. right. rewrite (usable_in _ _ _ _ HI). auto. }
  assert (Hin1 : In a (t_all s1)) by now rewrite Ea1.
  destruct (tb_in _ _ (proj1 (proj2 HI1)) a Hin1) as (n1 & Hn1 & _).
  destruct (tb_in _ _ (proj1 (proj2 HI)) a Hin) as (n & Hn & _).
  assert (V1 := proj2 Vw1). rewrite Hn, Hn1 in V1. destruct V1 as (V11 & V12 & V13 & V14 & V15).
  apply tr_bind. eapply tr_tld; [exact Hn1|]. cbv zeta. rewrite V11.
  set (i' := if s64 i <? 0 then tn_interval n else i).
  assert (Hiv : interval_ok (tn_interval n)) by apply (tb_range _ _ (proj1 (proj2 HI)) a n Hn).
  assert (Hi' : u64_ok i') by (unfold i'; destruct (s64 i <? 0); auto using interval_ok_u64).
  apply tr_bind. destruct (s64 i' <? 0) eqn:E.
  - apply tr_ret. apply tr_bind. eapply tr_conseq; [apply (put_inc _ _ _ _ HI1)|].
    intros _ s3 (HI3 & Ef3 & Ea3 & Et3 & Es3 & Vw & _). destruct (Vw Hin1) as (Vw3 & Ed3). apply tr_ret.
    exists l. split; auto. split; [eapply eff_trans; eauto|]. right. left. exists n.
    split; [now rewrite (usable_in _ _ _ _ HI)|]. split; auto.
    unfold i' in E. destruct (Z.ltb_spec (s64 i) 0) as [G|G]; [|lia].
    split; auto. split.
    { rewrite s64_neg in E by (now apply interval_ok_u64). destruct Hiv as [Q|Q]; auto. lia. }
    split; auto. split; [eapply same_view_trans; eauto|congruence].
  - rewrite s64_neg in E by auto. assert (Hne : i' <> INVALID_INTERVAL) by (unfold INVALID_INTERVAL; lia).
    apply tr_bind. eapply tr_conseq; [apply (resched_ok s1 l (inc rf a) a n1 i' 0); auto; [left; unfold u64_ok in Hi'; lia|lia]|].
    intros _ s2 (l2 & HI2 & Hal & Ef2 & Ea2 & Ed2 & Eu2 & n2 & Hn2 & Y1 & Y2 & Y3 & Y4 & Y5). apply tr_ret.
    assert (Hin2 : In a (t_all s2)) by now rewrite Ea2.
    apply tr_bind. eapply tr_conseq; [apply (put_inc _ _ _ _ HI2)|].
    intros _ s3 (HI3 & Ef3 & Ea3 & Et3 & Es3 & Vw & _). destruct (Vw Hin2) as (Vw3 & Ed3). apply tr_ret.
    exists l2. split; auto. split; [eapply eff_trans; [eauto|eapply eff_trans; eauto]|]. left. exists n.
    split; [now rewrite (usable_in _ _ _ _ HI)|]. split; auto. split; auto. split; auto.
    split; [rewrite (usable_in _ _ _ _ HI3), Ea3; auto|]. split; [congruence|].
    rewrite Z.eqb_refl in Y1. rewrite (proj2 (Z.eqb_neq _ _) Hne) in Y1, Y2.
    unfold sched_expiry in Y2. rewrite Z.eqb_refl, (proj2 (Z.eqb_neq _ _) Hne) in Y2.
    assert (V3 := proj2 Vw3). rewrite Hn2 in V3. destruct (t_cell s3 a) as [n3|] eqn:Hn3; [|tauto].
    destruct V3 as (V31 & V32 & V33 & V34 & V35).
    split; [apply (TC_active _ _ _ (proj1 HI3)); auto|].
    split. { pose proof (tc_serial _ _ (proj1 HI2) a Hal) as Q. unfold serial_of in Q. rewrite Hn2 in Q. lia. }
    exists n3. split; [auto|]. fold i'. split; [congruence|]. split; [|congruence].
    rewrite V32, Y2. unfold clock_at. destruct Ef1 as (X & _). rewrite X, Et1. reflexivity.
Qed.

Lemma api_resched_oneshot_ok s l rf a e : TI s l rf -> u64_ok e ->
  tr (api_resched_oneshot a e) s (fun r s' => exists l', TI s' l' rf /\ eff a s s' /\
    ((e <> 0 /\ usable s a /\ r = Done /\ usable s' a /\ t_dtors s' = t_dtors s /\ armed_as s s' a INVALID_INTERVAL e) \/
     (e = 0 /\ r = Err AOSL_EINVAL /\ s' = s) \/
     (e <> 0 /\ ~ usable s a /\ r = Err AOSL_ENOENT /\ s' = s))).
Proof.
  intros HI He. unfold api_resched_oneshot. destruct (Z.eqb_spec e 0) as [E0|E0].
  { apply tr_ret. exists l. split; auto. split; [apply eff_refl|]. auto. }
  apply tr_bind. eapply tr_conseq; [apply (timer_get_ok s l rf a HI)|].
  intros ok s1 [(-> & Hin & HI1 & Ef1 & Vw1 & Ea1 & Ed1 & Es1 & Et1)|(-> & -> & Hni)]; cbn [negb].
  2:{ apply tr_ret. exists l. split; auto. split; [apply eff_refl|]. right. right. rewrite (usable_in _ _ _ _ HI). auto. }
  assert (Hin1 : In a (t_all s1)) by now rewrite Ea1.
  destruct (tb_in _ _ (proj1 (proj2 HI1)) a Hin1) as (n1 & Hn1 & _).
  apply tr_bind. eapply tr_conseq; [apply (resched_ok s1 l (inc rf a) a n1 INVALID_INTERVAL e); auto; right; auto|].
  intros _ s2 (l2 & HI2 & Hal & Ef2 & Ea2 & Ed2 & Eu2 & n2 & Hn2 & Y1 & Y2 & Y3 & Y4 & Y5).
  assert (Hin2 : In a (t_all s2)) by now rewrite Ea2.
  apply tr_bind. eapply tr_conseq; [apply (put_inc _ _ _ _ HI2)|].
  intros _ s3 (HI3 & Ef3 & Ea3 & Et3 & Es3 & Vw & _). destruct (Vw Hin2) as (Vw3 & Ed3). apply tr_ret.
  exists l2. split; auto. split; [eapply eff_trans; [eauto|eapply eff_trans; eauto]|]. left.
  split; auto. split; [now rewrite (usable_in _ _ _ _ HI)|]. split; auto.
  split; [rewrite (usable_in _ _ _ _ HI3), Ea3; auto|]. split; [congruence|].
  rewrite (proj2 (Z.eqb_neq _ _) E0) in Y1. unfold sched_expiry in Y2. rewrite (proj2 (Z.eqb_neq _ _) E0) in Y2.
  assert (V3 := proj2 Vw3). rewrite Hn2 in V3. destruct (t_cell s3 a) as [n3|] eqn:Hn3; [|tauto].
  destruct V3 as (V31 & V32 & V33 & V34 & V35).
  split; [apply (TC_active _ _ _ (proj1 HI3)); auto|].
  split. { pose proof (tc_serial _ _ (proj1 HI2) a Hal) as Q. unfold serial_of in Q. rewrite Hn2 in Q. lia. }
  exists n3. intuition congruence.
Qed.

(** create / set *)
Lemma set_on_q_ok s l rf a i e : TI s l rf -> t_cell s a = None -> interval_ok i -> u64_ok e ->
  tr (set_on_q a i e) s (fun _ s' => exists l', TI s' l' rf /\ eff a s s' /\ usable s' a /\ t_dtors s' = t_dtors s /\
    armed_as s s' a (if e =? 0 then i else INVALID_INTERVAL) (sched_expiry s i e)).
Proof.
  intros HI Hn Hi He. unfold set_on_q. apply tr_bind. eapply tr_conseq; [eapply create_ok; eauto|].
  intros _ s1 (HI1 & Ef1 & Ea1 & Hal & Na & Ed1 & Es1 & Et1 & Eu1 & n1 & Hn1 & X1 & X2).
  assert (Hin1 : In a (t_all s1)) by (rewrite Ea1; apply in_app_iff; right; left; auto).
  eapply tr_conseq; [apply (sched_ok s1 l rf a n1 e); auto|].
  intros _ s2 (L & R & -> & HI2 & Ef2 & Ea2 & Ed2 & Eu2 & Es2 & n2 & Hn2 & Y1 & Y2 & Y3 & Y4 & Y5 & Y6).
  exists (L ++ a :: R). split; auto. split; [eapply eff_trans; eauto|].
  split; [rewrite (usable_in _ _ _ _ HI2), Ea2; auto|]. split; [congruence|].
  split; [apply (TC_active _ _ _ (proj1 HI2)), in_app_iff; right; left; auto|]. split; [lia|].
  exists n2. split; auto. split; [rewrite Y1, X1; auto|]. split; [|congruence]. rewrite Y2, X1. unfold sched_expiry, clock_at.
  destruct Ef1 as (X & _). rewrite X, Et1. reflexivity.
Qed.

Lemma api_create_ok s l rf a i : TI s l rf -> t_cell s a = None -> u64_ok i ->
  tr (api_create a i) s (fun r s' => TI s' l rf /\ eff a s s' /\
    ((i < 9223372036854775808 /\ r = Done /\ usable s' a /\ timer_active s' a = false /\ t_dtors s' = t_dtors s) \/
     (9223372036854775808 <= i /\ r = Err AOSL_EINVAL /\ s' = s))).
Proof.
  intros HI Hn Hi. unfold api_create. rewrite s64_neg by auto. destruct (Z.ltb_spec i 9223372036854775808); cbn [negb].
  - apply tr_bind. eapply tr_conseq; [eapply create_ok; eauto; left; unfold u64_ok in *; lia|].
    intros _ s1 (HI1 & Ef1 & Ea1 & Hal & Na & Ed1 & Es1 & Et1 & Eu1 & _). apply tr_ret.
    split; auto. split; auto. left. split; auto. split; auto. split; auto.
    rewrite (usable_in _ _ _ _ HI1), Ea1. apply in_app_iff; right; left; auto.
  - apply tr_ret. split; auto. split; [apply eff_refl|]. right. auto.
Qed.
Lemma api_create_oneshot_ok s l rf a : TI s l rf -> t_cell s a = None ->
  tr (api_create_oneshot a) s (fun r s' => TI s' l rf /\ eff a s s' /\
    r = Done /\ usable s' a /\ timer_active s' a = false /\ t_dtors s' = t_dtors s).
Proof.
  intros HI Hn. unfold api_create_oneshot.
  apply tr_bind. eapply tr_conseq; [eapply create_ok; eauto; right; auto|].
  intros _ s1 (HI1 & Ef1 & Ea1 & Hal & Na & Ed1 & Es1 & Et1 & Eu1 & _). apply tr_ret.
  split; auto. split; auto. split; auto. split; auto.
  rewrite (usable_in _ _ _ _ HI1), Ea1. apply in_app_iff; right; left; auto.
Qed.
Lemma api_set_ok s l rf a i : TI s l rf -> t_cell s a = None -> u64_ok i ->
  tr (api_set a i) s (fun r s' => exists l', TI s' l' rf /\ eff a s s' /\
    ((i < 9223372036854775808 /\ r = Done /\ usable s' a /\ t_dtors s' = t_dtors s /\
      armed_as s s' a i (u64 (clock_at s (t_tick s) + i))) \/
     (9223372036854775808 <= i /\ r = Err AOSL_EINVAL /\ s' = s))).
Proof.
  intros HI Hn Hi. unfold api_set. rewrite s64_neg by auto. destruct (Z.ltb_spec i 9223372036854775808); cbn [negb].
  - apply tr_bind. eapply tr_conseq; [apply (set_on_q_ok s l rf a i 0); auto; [left; unfold u64_ok in *; lia|unfold u64_ok; lia]|].
    intros _ s1 (l1 & HI1 & Ef1 & Us & Ed & Ar). apply tr_ret. exists l1. split; auto. split; auto. left.
    split; auto. split; auto. split; auto. split; auto. rewrite Z.eqb_refl in Ar. unfold sched_expiry in Ar. rewrite Z.eqb_refl in Ar.
    rewrite (proj2 (Z.eqb_neq i INVALID_INTERVAL)) in Ar by (unfold INVALID_INTERVAL; lia). exact Ar.
  - apply tr_ret. exists l. split; auto. split; [apply eff_refl|]. right. auto.
Qed.
Lemma api_set_oneshot_ok s l rf a e : TI s l rf -> t_cell s a = None -> u64_ok e ->
  tr (api_set_oneshot a e) s (fun r s' => exists l', TI s' l' rf /\ eff a s s' /\
    ((e <> 0 /\ r = Done /\ usable s' a /\ t_dtors s' = t_dtors s /\ armed_as s s' a INVALID_INTERVAL e) \/
     (e = 0 /\ r = Err AOSL_EINVAL /\ s' = s))).
Proof.
  intros HI Hn He. unfold api_set_oneshot. destruct (Z.eqb_spec e 0) as [E0|E0].
  - apply tr_ret. exists l. split; auto. split; [apply eff_refl|]. right. auto.
  - apply tr_bind. eapply tr_conseq; [apply (set_on_q_ok s l rf a INVALID_INTERVAL e); auto; right; auto|].
    intros _ s1 (l1 & HI1 & Ef1 & Us & Ed & Ar). apply tr_ret. exists l1. split; auto. split; auto. left.
    unfold sched_expiry in Ar. rewrite (proj2 (Z.eqb_neq _ _) E0) in Ar. auto 6.
Qed.
Lemma api_set_oneshot_on_q_ok s l rf a e : TI s l rf -> t_cell s a = None -> u64_ok e ->
  tr (api_set_oneshot_on_q a e) s (fun r s' => exists l', TI s' l' rf /\ eff a s s' /\
    r = Done /\ usable s' a /\ t_dtors s' = t_dtors s /\
    armed_as s s' a INVALID_INTERVAL (if e =? 0 then 18446744073709551615 else e)).
Proof.
  intros HI Hn He. unfold api_set_oneshot_on_q.
  apply tr_bind. eapply tr_conseq; [apply (set_on_q_ok s l rf a INVALID_INTERVAL e); auto; right; auto|].
  intros _ s1 (l1 & HI1 & Ef1 & Us & Ed & Ar). apply tr_ret. exists l1. split; auto. split; auto. split; auto. split; auto. split; auto.
  unfold sched_expiry in Ar. rewrite Z.eqb_refl in Ar. destruct (e =? 0); auto.
Qed.

(** ** Any operation *)
(** If the timer is active afterwards, it was before, and unchanged. *)
Definition kept (s s' : tst) (x : nat) : Prop := timer_active s' x = true -> same_view s s' x.
Definition cle (s s' : tst) : Prop :=
  t_clk s' = t_clk s /\ (t_tick s <= t_tick s')%nat /\ (t_serial s <= t_serial s')%nat.
Definition TIh (s : tst) : Prop := exists l, TI s l (t_held s).
Definition opost (c : cop) (s s' : tst) : Prop :=
  TIh s' /\ cle s s' /\ (forall x, x <> target c -> same_view s s' x) /\
  (arms c = false -> kept s s' (target c)).

Lemma cle_refl s : cle s s.
Proof. repeat split; auto. Qed.
Lemma cle_trans s s' s'' : cle s s' -> cle s' s'' -> cle s s''.
Proof. intros (A & B & C) (D & E & F). split; [congruence|]. split; lia. Qed.
Lemma eff_cle a s s' : eff a s s' -> cle s s'.
Proof. intros (A & B & _ & C & _). repeat split; auto. Qed.

Lemma same_view_cell s s' x : t_cell s' = t_cell s -> same_view s s' x.
Proof. intros E. unfold same_view, timer_active. rewrite E. split; auto. destruct (t_cell s x); auto 6. Qed.
Lemma guard_ok b m s (Q : unit -> tst -> Prop) :
  (b s = true -> tr m s (fun _ s' => Q tt s')) -> (b s = false -> Q tt s) -> tr (guard b m) s Q.
Proof.
  intros H1 H2. unfold tr, guard. destruct (b s) eqn:E; auto. specialize (H1 eq_refl).
  unfold tr, tbind, tret in *. destruct (m s) as [[r s']| | ]; auto.
Qed.
Lemma opost_refl c s l : TI s l (t_held s) -> opost c s s.
Proof.
  intros H. split; [exists l; auto|]. split; [apply cle_refl|]. split; intros; [apply same_view_refl|].
  intros _. apply same_view_refl.
Qed.
Lemma eff_opost c s s' l' : TI s' l' (t_held s) -> eff (target c) s s' ->
  (arms c = false -> kept s s' (target c)) -> opost c s s'.
Proof.
  intros HI He Hk. split; [exists l'; destruct He as (_ & _ & -> & _); auto|]. split; [eapply eff_cle; eauto|].
  split; auto. apply He.
Qed.
Lemma kept_inactive s s' x : timer_active s' x = false -> kept s s' x.
Proof. unfold kept. congruence. Qed.
Lemma fresh_none a s : fresh a s = true -> t_cell s a = None.
Proof. unfold fresh. destruct (t_cell s a); congruence. Qed.

Lemma exec_cop_ok s l c : TI s l (t_held s) -> cop_ok c -> tr (exec_cop c) s (fun _ s' => opost c s s').
Proof.
  intros HI Hc. destruct c as [a i|a|a i|a e|a e|a i|a e|a|a|a|a]; cbn [exec_cop]; simpl in Hc;
    (apply guard_ok; [intros Hg; try apply fresh_none in Hg|intros _; eapply opost_refl; eauto]).
  - eapply tr_conseq; [eapply api_create_ok; eauto|]. intros r s' (H1 & H2 & [(_ & _ & _ & H3 & _)|(_ & _ & ->)]).
    + eapply eff_opost; eauto. intros _. now apply kept_inactive.
    + eapply opost_refl; eauto.
  - eapply tr_conseq; [eapply api_create_oneshot_ok; eauto|]. intros r s' (H1 & H2 & _ & _ & H3 & _).
    eapply eff_opost; eauto. intros _. now apply kept_inactive.
  - eapply tr_conseq; [eapply api_set_ok; eauto|]. intros r s' (l' & H1 & H2 & _). eapply eff_opost; eauto. discriminate.
  - eapply tr_conseq; [eapply api_set_oneshot_ok; eauto|]. intros r s' (l' & H1 & H2 & _). eapply eff_opost; eauto. discriminate.
  - eapply tr_conseq; [eapply api_set_oneshot_on_q_ok; eauto|]. intros r s' (l' & H1 & H2 & _). eapply eff_opost; eauto. discriminate.
  - eapply tr_conseq; [eapply api_resched_ok; eauto|]. intros r s' (l' & H1 & H2 & _). eapply eff_opost; eauto. discriminate.
  - eapply tr_conseq; [eapply api_resched_oneshot_ok; eauto|]. intros r s' (l' & H1 & H2 & _). eapply eff_opost; eauto. discriminate.
  - eapply tr_conseq; [eapply api_cancel_ok; eauto|]. intros r s' [(_ & _ & H1 & H2 & _)|(_ & _ & ->)]; [|eapply opost_refl; eauto].
    eapply eff_opost; eauto. intros _. apply kept_inactive. simpl. rewrite (active_in _ _ (proj1 H1)).
    destruct (in_dec Nat.eq_dec a (without a l)) as [G|]; auto. apply without_in in G. tauto.
  - eapply tr_conseq; [eapply api_kill_ok; eauto|]. intros r s' [(_ & _ & H1 & H2 & _ & H3 & _)|(_ & _ & ->)]; [|eapply opost_refl; eauto].
    eapply eff_opost; eauto. intros _. now apply kept_inactive.
  - unfold remote_get. apply tr_bind. eapply tr_conseq; [apply (timer_get_ok s l _ a HI)|].
    intros ok s1 [(-> & Hin & HI1 & Ef1 & Vw1 & _)|(-> & -> & Hni)].
    + unfold tr. set (s2 := put_held _ _). assert (Hv : forall x, same_view s1 s2 x) by (intros; now apply same_view_cell).
      destruct Ef1 as (E1 & E2 & E3 & E4 & E5).
      split; [|split; [|split]].
      * exists l. eapply TI_rf; [|eapply (TI_ext s1); eauto]. intros x. cbn [t_held s2 put_held]. rewrite E3. reflexivity.
      * repeat split; auto.
      * intros x Hx. eapply same_view_trans; [apply E5; exact Hx|]. apply Hv.
      * intros _ _. eapply same_view_trans; [exact Vw1|apply Hv].
    + apply tr_ret. eapply opost_refl; eauto.
  - unfold remote_put. apply tr_bind. unfold holds in Hg. apply Nat.ltb_lt in Hg.
    eapply tr_conseq; [apply (timer_put_ok s l _ a HI Hg)|].
    intros _ s1 (HI1 & Ef1 & Ea1 & Et1 & Es1 & Hin & Hout).
    unfold tr. set (s2 := put_held _ _). assert (Hv : forall x, same_view s1 s2 x) by (intros; now apply same_view_cell).
    destruct Ef1 as (E1 & E2 & E3 & E4 & E5).
    split; [|split; [|split]].
    + exists l. eapply TI_rf; [|eapply (TI_ext s1); eauto]. intros x. cbn [t_held s2 put_held]. rewrite E3. reflexivity.
    + repeat split; auto.
    + intros x Hx. eapply same_view_trans; [apply E5; exact Hx|]. apply Hv.
    + intros _ Ha. destruct (in_dec Nat.eq_dec a (t_all s)) as [Hi|Hi].
      * eapply same_view_trans; [apply Hin; auto|apply Hv].
      * assert (Ha' : timer_active s1 a = true) by exact Ha. rewrite (Hout Hi) in Ha'. discriminate.
Qed.

(** Several operations. *)
Definition cops_post (cs : list cop) (s s' : tst) : Prop :=
  TIh s' /\ cle s s' /\ (forall x, touches x cs = false -> same_view s s' x) /\
  (forall x, arms_on x cs = false -> kept s s' x).
Lemma kept_trans s s' s'' x : kept s s' x -> kept s' s'' x -> kept s s'' x.
Proof.
  intros H1 H2 Ha. assert (V := H2 Ha). eapply same_view_trans; [|exact V]. apply H1. destruct V as (V & _). congruence.
Qed.
Lemma opost_kept c s s' x : opost c s s' -> arms c && Nat.eqb (target c) x = false -> kept s s' x.
Proof.
  intros (H1 & H2 & H3 & H4) E. destruct (Nat.eq_dec (target c) x) as [<-|Hne].
  - rewrite Nat.eqb_refl, andb_true_r in E. auto.
  - intros _. apply H3. auto.
Qed.
Lemma exec_cops_ok cs : forall s, TIh s -> Forall cop_ok cs -> tr (exec_cops cs) s (fun _ s' => cops_post cs s s').
Proof.
  induction cs as [|c cs IH]; intros s (l & HI) HF; cbn [exec_cops].
  - apply tr_ret. split; [exists l; auto|]. split; [apply cle_refl|].
    split; intros; [apply same_view_refl|intros _; apply same_view_refl].
  - inversion HF as [|? ? Hc HF']; subst. apply tr_bind. eapply tr_conseq; [eapply exec_cop_ok; eauto|].
    intros u s1 Ho. cbv beta in Ho. clear u. eapply tr_conseq; [apply IH; auto; apply Ho|]. intros _ s2 (P1 & P2 & P3 & P4).
    split; [auto|]. split; [eapply cle_trans; [apply Ho|auto]|]. split.
    + intros x E. cbn in E. apply orb_false_iff in E as (E1 & E2). eapply same_view_trans; [apply Ho|auto].
      apply Nat.eqb_neq in E1. auto.
    + intros x E. cbn in E. apply orb_false_iff in E as (E1 & E2). eapply kept_trans; [eapply opost_kept; eauto|auto].
Qed.
