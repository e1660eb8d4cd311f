(** * Properties C14-C18, C47: timers of a multiplex queue. *)
From Coq Require Import Sorting.Sorted Permutation.
From Verif Require Import Base Rbtree RbtreeSpec Timer TimerSpec TimerProof TimerThms TimerOps TimerApi TimerRun TimerHist.

(** Clock readings stay below 2^62 and never go back; [now] is the reading the
    run starts with. *)
Definition steady_clock (s : tst) : Prop :=
  (forall i, 0 <= t_clk s i < B62) /\ (forall i j, (i <= j)%nat -> t_clk s i <= t_clk s j).
(** Periods of active timers are below 2^62 and expiries below 2^63. *)
Definition sane_timers (lo : Z) (s : tst) : Prop :=
  forall a n, timer_active s a = true -> t_cell s a = Some n ->
    tn_expire n < 9223372036854775808 /\ (tn_interval n = INVALID_INTERVAL \/ lo <= tn_interval n < B62).

Lemma steady_at s i : steady_clock s -> clock_at s i = t_clk s i.
Proof. intros (H & _). unfold clock_at, u64. apply Z.mod_small. specialize (H i). unfold B62 in H. lia. Qed.

(** ** No history crashes: each step of a legal history has a defined result. *)
Theorem C14_no_undefined_behaviour s e : reachable s -> ev_pre s e -> exists fs s', exec_tev e s = Ok (fs, s') /\ reachable s'.
Proof.
  intros Hr Hp. destruct (tr_ok _ _ _ (exec_tev_ok s e (reachable_TIh s Hr) Hp)) as (fs & s' & He & _).
  exists fs, s'. split; auto. apply (reachable_step s [e] (fs ++ []) s' Hr). econstructor; [exact Hp|exact He|constructor].
Qed.

Lemma run_facts s cb loops fin fs s' : reachable s -> (forall i a, Forall cop_ok (cb i a)) ->
  run_timers cb loops s = Ok ((fin, fs), s') ->
  TIh s' /\ fires cb (clock_at s (t_tick s)) 0 (with_tick (S (t_tick s)) s) fs s' /\
  (fin = true -> nothing_due (clock_at s (t_tick s)) s') /\ (fin = false -> length fs = loops).
Proof.
  intros Hr Hcb H. pose proof (run_timers_ok cb loops s Hcb (reachable_TIh s Hr)) as G. unfold tr in G. rewrite H in G. exact G.
Qed.

(** ** C14: firing order *)
(** Whatever the callbacks do, each firing is for the timer which, among all
    timers active at that moment, has the smallest expiry and, among those,
    was armed first. *)
Theorem C14_each_firing_is_the_earliest s cb loops fin fs s' :
  reachable s -> (forall i a, Forall cop_ok (cb i a)) ->
  run_timers cb loops s = Ok ((fin, fs), s') ->
  forall f, In f fs ->
    timer_active (f_picked f) (f_timer f) = true /\
    forall b, timer_active (f_picked f) b = true -> b <> f_timer f ->
      expire_of (f_picked f) (f_timer f) < expire_of (f_picked f) b \/
      (expire_of (f_picked f) (f_timer f) = expire_of (f_picked f) b /\
       (serial_of (f_picked f) (f_timer f) < serial_of (f_picked f) b)%nat).
Proof.
  intros Hr Hcb H f Hf. destruct (run_facts _ _ _ _ _ _ Hr Hcb H) as (_ & HF & _).
  apply fires_forall in HF. rewrite Forall_forall in HF. apply (HF f Hf).
Qed.

(** If callbacks do not arm timers, the whole run is in order of expiry,
    equal expiries in order of arming. *)
Theorem C14_run_is_in_order_of_expiry s cb loops fin fs s' :
  reachable s -> (forall i a, Forall cop_ok (cb i a)) -> (forall b i a, arms_on b (cb i a) = false) ->
  steady_clock s -> sane_timers 0 s ->
  run_timers cb loops s = Ok ((fin, fs), s') ->
  StronglySorted (fun f g =>
    expire_of (f_picked f) (f_timer f) < expire_of (f_picked g) (f_timer g) \/
    (expire_of (f_picked f) (f_timer f) = expire_of (f_picked g) (f_timer g) /\
     (serial_of (f_picked f) (f_timer f) < serial_of (f_picked g) (f_timer g))%nat)) fs.
Proof.
  intros Hr Hcb Hb Hck Hsn H. destruct (run_facts _ _ _ _ _ _ Hr Hcb H) as (_ & HF & _).
  assert (HT := with_tick_TIh (S (t_tick s)) s (reachable_TIh s Hr)).
  refine (proj1 (fires_sorted cb _ Hcb Hb _ _ _ _ HF HT _ _ _ _)).
  - intros j Hj. change (clock_at (with_tick (S (t_tick s)) s) j) with (clock_at s j). rewrite !steady_at by auto.
    destruct Hck as (C1 & C2). split; [apply C2; simpl in Hj; lia|apply C1].
  - rewrite steady_at by auto. apply Hck.
  - intros b n Ha Hn. exact (proj2 (Hsn b n Ha Hn)).
  - intros b Ha. destruct (TIh_expire_range (with_tick (S (t_tick s)) s) b HT).
    change (timer_active s b = true) in Ha. unfold expire_of, timer_active in *. cbn [t_cell with_tick].
    destruct (t_cell s b) as [n|] eqn:E; [|lia]. apply (Hsn b n); auto. unfold timer_active. rewrite E. auto.
Qed.

(** ** C15: not early, not lost, once *)
(** The clock is below 2^63 (in milliseconds since some epoch). *)
Theorem C15_never_early s cb loops fin fs s' :
  reachable s -> (forall i a, Forall cop_ok (cb i a)) ->
  clock_at s (t_tick s) < 9223372036854775808 ->
  run_timers cb loops s = Ok ((fin, fs), s') ->
  forall f, In f fs -> expire_of (f_picked f) (f_timer f) <= clock_at s (t_tick s) + 9223372036854775808 ->
    expire_of (f_picked f) (f_timer f) <= clock_at s (t_tick s).
Proof.
  intros Hr Hcb Hw H f Hf Hex. destruct (run_facts _ _ _ _ _ _ Hr Hcb H) as (_ & HF & _).
  assert (HP := fires_picked _ _ Hcb _ _ _ _ HF (with_tick_TIh (S (t_tick s)) s (reachable_TIh s Hr))).
  apply fires_forall in HF. rewrite Forall_forall in HF, HP. destruct (HF f Hf) as (_ & E).
  assert (0 <= clock_at s (t_tick s)) by apply u64_range.
  rewrite time_after_eq_spec in E by (try lia; apply TIh_expire_range; apply HP; auto).
  apply orb_true_iff in E as [E|E]; lia.
Qed.

(** When the run ends, no timer due at the start of the run is left. *)
Theorem C15_no_due_timer_left s cb loops fs s' :
  reachable s -> (forall i a, Forall cop_ok (cb i a)) ->
  clock_at s (t_tick s) < 9223372036854775808 ->
  run_timers cb loops s = Ok ((true, fs), s') ->
  forall b, timer_active s' b = true -> clock_at s (t_tick s) < expire_of s' b.
Proof.
  intros Hr Hcb Hw H b Hb. destruct (run_facts _ _ _ _ _ _ Hr Hcb H) as (HT & HF & Hnd & _).
  assert (0 <= clock_at s (t_tick s)) by apply u64_range. apply nothing_due_all; auto.
Qed.

(** A due one-shot timer that no callback touches fires exactly once and is
    inactive afterwards; one that is not due does not fire and is unchanged. *)
Theorem C15_oneshot_fires_exactly_once s cb loops fs s' b n :
  reachable s -> (forall i a, Forall cop_ok (cb i a)) -> (forall i a, touches b (cb i a) = false) ->
  clock_at s (t_tick s) < 9223372036854775808 ->
  run_timers cb loops s = Ok ((true, fs), s') ->
  timer_active s b = true -> t_cell s b = Some n -> tn_interval n = INVALID_INTERVAL ->
  (tn_expire n <= clock_at s (t_tick s) ->
     count_occ Nat.eq_dec (map f_timer fs) b = 1%nat /\ timer_active s' b = false) /\
  (clock_at s (t_tick s) < tn_expire n < clock_at s (t_tick s) + 9223372036854775808 ->
     ~ In b (map f_timer fs) /\ same_view s s' b).
Proof.
  intros Hr Hcb Ht Hw H Ha Hn Hi. destruct (run_facts _ _ _ _ _ _ Hr Hcb H) as (HT' & HF & Hnd & _).
  assert (HT := with_tick_TIh (S (t_tick s)) s (reachable_TIh s Hr)).
  assert (Hw0 : 0 <= clock_at s (t_tick s)) by apply u64_range.
  destruct (fires_oneshot cb _ b Hcb Ht _ _ _ _ HF HT Ha (ex_intro _ n (conj Hn Hi))) as [(C1 & C2)|(C1 & C2)].
  - split; auto. intros (D1 & D2). exfalso. 
    assert (Hin : In b (map f_timer fs)) by (apply (count_occ_In Nat.eq_dec); lia).
    (* the firing of b happened with its original expiry *)
    assert (G : forall i s0 fs0 s1, fires cb (clock_at s (t_tick s)) i s0 fs0 s1 -> TIh s0 -> same_view s s0 b ->
              ~ In b (map f_timer fs0)).
    { clear - Hcb Ht Ha Hn Hw Hw0 D1 D2. intros i s0 fs0 s1 HF. induction HF as [|i s0 a s2 s3 fs0 s1 He Hd H1 H2 HF IH]; intros HT V; [auto|].
      destruct (fires_step _ _ _ _ _ _ _ Hcb HT He H1 H2) as (HT1 & HT2 & Ef & Hc & _).
      assert (Hab : b <> a).
      { intros ->. assert (Ex : expire_of s0 a = tn_expire n).
        { destruct V as (_ & V). rewrite Hn in V. unfold expire_of. destruct (t_cell s0 a); [|tauto]. tauto. }
        rewrite Ex in Hd. rewrite time_after_eq_spec in Hd by (pose proof (TIh_expire_range s0 a HT); lia).
        apply orb_true_iff in Hd as [Hd|Hd]; lia. }
      simpl. intros [G|G]; [congruence|]. revert G. apply IH; auto.
      eapply same_view_trans; [exact V|]. eapply same_view_trans; [apply (proj2 (proj2 (proj2 (proj2 Ef)))); auto|].
      apply (proj1 (proj2 (proj2 Hc))). auto. }
    eapply G; eauto. now apply same_view_cell.
  - split; [|auto]. intros Hdue. exfalso.
    assert (Ha' : timer_active s' b = true) by (destruct C2 as (V & _); rewrite V; auto).
    assert (L := nothing_due_all s' _ HT' (conj Hw0 Hw) (Hnd eq_refl) b Ha').
    destruct C2 as (_ & C2). cbn [t_cell with_tick] in C2. rewrite Hn in C2. unfold expire_of in L. destruct (t_cell s' b); [|tauto]. lia.
Qed.

(** The run ends: if callbacks do not arm timers and periods are at least 1,
    there is a number of iterations after which the loop has stopped. *)
Theorem C15_run_terminates s cb :
  reachable s -> (forall i a, Forall cop_ok (cb i a)) -> (forall b i a, arms_on b (cb i a) = false) ->
  steady_clock s -> sane_timers 1 s ->
  exists bound, forall loops, (bound < loops)%nat -> exists fs s', run_timers cb loops s = Ok ((true, fs), s').
Proof.
  intros Hr Hcb Hb Hck Hsn. destruct (reachable_TIh s Hr) as (l & HI).
  assert (HT := with_tick_TIh (S (t_tick s)) s (reachable_TIh s Hr)).
  exists (nsum (late (clock_at s (t_tick s)) (with_tick (S (t_tick s)) s)) l). intros loops Hl.
  destruct (tr_ok _ _ _ (run_timers_ok cb loops s Hcb (reachable_TIh s Hr))) as ([fin fs] & s' & He & HT' & HF & _ & Hlen).
  exists fs, s'. rewrite He. destruct fin; auto. exfalso. simpl in *.
  assert ((length fs <= nsum (late (clock_at s (t_tick s)) (with_tick (S (t_tick s)) s)) l)%nat).
  { eapply (fires_bounded cb _ Hcb Hb); [exact HF|exact HT| | | | |].
    - intros j Hj. change (clock_at (with_tick (S (t_tick s)) s) j) with (clock_at s j). rewrite !steady_at by auto.
      destruct Hck as (C1 & C2). split; [apply C2; simpl in Hj; lia|apply C1].
    - rewrite steady_at by auto. apply Hck.
    - intros b n Ha Hn. exact (proj2 (Hsn b n Ha Hn)).
    - intros b Ha. destruct (TIh_expire_range (with_tick (S (t_tick s)) s) b HT).
      change (timer_active s b = true) in Ha. unfold expire_of, timer_active in *. cbn [t_cell with_tick].
      destruct (t_cell s b) as [n|] eqn:E; [|lia]. apply (Hsn b n); auto. unfold timer_active. rewrite E. auto.
    - intros b Ha. apply (TC_active _ _ _ (proj1 HI)). exact Ha. }
  rewrite Hlen in H by auto. lia.
Qed.

(** The time the queue may sleep: -1 (no limit) exactly when no timer is
    active, otherwise it never sleeps past the earliest expiry, and does not
    wake up before it. *)
Theorem C15_sleep_time_is_exact s r s' :
  reachable s -> clock_at s (t_tick s) < 9223372036854775808 ->
  (forall a, timer_active s a = true -> expire_of s a < 9223372036854775808) ->
  max_wait_time s = Ok (r, s') ->
  (r = -1 <-> forall a, timer_active s a = false) /\
  (r <> -1 -> 0 <= r /\
     (forall a, timer_active s a = true -> clock_at s (t_tick s) + r <= Z.max (expire_of s a) (clock_at s (t_tick s))) /\
     (exists a, timer_active s a = true /\ expire_of s a <= clock_at s (t_tick s) + r)).
Proof.
  intros Hr Hw Hex H. assert (HT := reachable_TIh s Hr). pose proof (max_wait_ok s HT) as G. unfold tr in G. rewrite H in G.
  assert (Hw0 : 0 <= clock_at s (t_tick s)) by apply u64_range.
  destruct G as (_ & [(-> & Hn)|(a & He & _ & Er)]).
  - split; [split; auto|]. congruence.
  - set (e := expire_of s a) in *. set (now := clock_at s (t_tick s)) in *.
    assert (Hea := Hex a (proj1 He)). fold e in Hea. assert (He0 := TIh_expire_range s a HT). fold e in He0.
    assert (Es : s64 (e - now) = e - now).
    { unfold s64, wrap_signed. cbv zeta. change (18446744073709551616 / 2) with 9223372036854775808.
      destruct (Z.leb_spec now e).
      - rewrite Z.mod_small by lia. destruct (Z.leb_spec 9223372036854775808 (e - now)); lia.
      - replace ((e - now) mod 18446744073709551616) with (e - now + 18446744073709551616)
          by (symmetry; rewrite <- (Z_mod_plus_full _ 1); rewrite Z.mod_small; lia).
        destruct (Z.leb_spec 9223372036854775808 (e - now + 18446744073709551616)); lia. }
    cbv zeta in Er. rewrite Es in Er.
    assert (Hr0 : r = Z.max 0 (e - now)) by (destruct (Z.ltb_spec (e - now) 0); lia).
    assert (Hmin : forall b, timer_active s b = true -> e <= expire_of s b).
    { intros b Hb. destruct (Nat.eq_dec b a) as [->|Hne]; [unfold e; lia|]. destruct (proj2 He b Hb Hne); unfold e; lia. }
    split.
    + split; [lia|]. intros Hn. destruct He as (He & _). rewrite (Hn a) in He. discriminate.
    + intros _. split; [lia|]. split.
      * intros b Hb. specialize (Hmin b Hb). lia.
      * exists a. split; [apply He|]. fold e. lia.
Qed.

(** ** C16: cancelled and killed timers *)
(** After cancel succeeds the timer is inactive, other timers are unchanged,
    and in every later history that does not arm it again it is not fired. *)
Theorem C16_cancelled_timer_does_not_fire s a s1 es fs s2 :
  reachable s -> api_cancel a s = Ok (Done, s1) ->
  timer_active s1 a = false /\ usable s1 a /\ (forall b, b <> a -> same_view s s1 b) /\
  (tsteps s1 es fs s2 -> Forall (fun e => ~ ev_arms a e) es ->
     timer_active s2 a = false /\ ~ In a (map f_timer fs)).
Proof.
  intros Hr H. destruct (reachable_TIh s Hr) as (l & HI). pose proof (api_cancel_ok s l _ a HI) as G. unfold tr in G. rewrite H in G.
  destruct G as [(_ & _ & HI1 & Ef & Hu & _)|(_ & E & _)]; [|discriminate].
  assert (Hna : timer_active s1 a = false).
  { rewrite (active_in _ _ (proj1 HI1)). destruct (in_dec Nat.eq_dec a (without a l)) as [G|]; auto. apply without_in in G. tauto. }
  split; auto. split; auto. split; [apply Ef|]. intros HS HF. eapply tsteps_inactive; eauto.
  exists (without a l). destruct Ef as (_ & _ & -> & _). auto.
Qed.

(** After kill succeeds the handle no longer resolves, other timers are
    unchanged, and that timer (its creation number) is never fired in any
    later history, whatever the operations. *)
Theorem C16_killed_timer_never_fires s a n s1 es fs s2 :
  reachable s -> t_cell s a = Some n -> api_kill a s = Ok (Done, s1) ->
  timer_active s1 a = false /\ ~ usable s1 a /\ (forall b, b <> a -> same_view s s1 b) /\
  (tsteps s1 es fs s2 -> forall f m, In f fs -> t_cell (f_picked f) (f_timer f) = Some m -> tn_uid m <> tn_uid n).
Proof.
  intros Hr Hn H. destruct (reachable_TIh s Hr) as (l & HI). pose proof (api_kill_ok s l _ a HI) as G. unfold tr in G. rewrite H in G.
  destruct G as [(Hus & _ & HI1 & Ef & Hu & Hna & _)|(_ & E & _)]; [|discriminate].
  split; auto. split; auto. split; [apply Ef|]. intros HS f m Hf Hm Hid.
  assert (HT1 : TIh s1) by (exists (without a l); destruct Ef as (_ & _ & -> & _); auto).
  assert (HS' := HS). destruct (tsteps_ok _ _ _ _ HS HT1) as (_ & _ & _ & HF).
  rewrite Forall_forall in HF. destruct (HF f Hf) as (HTf & (L1 & L2 & _)).
  assert (He : timer_active (f_picked f) (f_timer f) = true).
  { clear - HS' Hf HT1. revert f Hf. induction HS' as [s|s e es g s1 fs s' Hp He HS IH]; intros f Hf; [destruct Hf|].
    pose proof (exec_tev_ok s e HT1 Hp) as Q. unfold tr in Q. rewrite He in Q. destruct Q as (HT2 & _).
    apply in_app_iff in Hf as [Hf|Hf]; [|auto].
    destruct e; cbn [exec_tev] in He; unfold tbind, bind, tret in He;
      try (match type of He with context [match ?x with _ => _ end] => destruct x as [[u w]| | ]; try discriminate end;
           injection He as <- <-; destruct Hf).
    destruct (run_timers cb loops s) as [[[fin fs'] s3]| | ] eqn:Er; try discriminate. injection He as <- <-. simpl in Hf.
    pose proof (run_timers_ok cb loops s Hp HT1) as G. unfold tr in G. rewrite Er in G. destruct G as (_ & HF & _).
    apply fires_forall in HF. rewrite Forall_forall in HF. apply (HF f Hf). }
  destruct (active_usable _ _ HTf He) as (m' & Hm' & Hi). assert (m' = m) by congruence. subst m'.
  (* uid of the killed timer is old, so it must come from s1, at the same address *)
  assert (Huid : (tn_uid n < t_uid s1)%nat).
  { assert (Hlin : lineage s s1).
    { clear - H. revert H. unfold api_kill. generalize (lin_exec_cop (CKill a)). intros L H.
      apply (L s tt s1). cbn. unfold guard, tbind at 1, bind. unfold api_kill. rewrite H. reflexivity. }
    pose proof (tb_uid _ _ (proj1 (proj2 HI)) a n Hn). destruct Hlin. lia. }
  destruct (L2 _ _ Hm Hi) as [(k & Hk & Hki & Ek)|G]; [|lia].
  destruct (Nat.eq_dec (f_timer f) a) as [E|Hne].
  - apply Hu. rewrite <- E. exists k. auto.
  - destruct (proj2 (proj2 (proj2 (proj2 Ef))) _ Hne) as (_ & V). rewrite Hk in V. destruct (t_cell s (f_timer f)) as [k0|] eqn:Hk0; [|tauto].
    apply Hne. eapply (tb_inj _ _ (proj1 (proj2 HI))); eauto. intuition congruence.
Qed.

(** No operation on one timer changes another. *)
Theorem C16_other_timers_are_unaffected s c s1 b :
  reachable s -> cop_ok c -> exec_cop c s = Ok (tt, s1) -> b <> target c -> same_view s s1 b.
Proof.
  intros Hr Hc H Hb. destruct (reachable_TIh s Hr) as (l & HI). pose proof (exec_cop_ok s l c HI Hc) as G. unfold tr in G. rewrite H in G.
  apply (proj1 (proj2 (proj2 G))). auto.
Qed.

(** ** C17: period *)
(** What a firing does to a periodic timer before its function is called. *)
Theorem C17_periodic_rearm s cb loops fin fs s' :
  reachable s -> (forall i a, Forall cop_ok (cb i a)) ->
  run_timers cb loops s = Ok ((fin, fs), s') ->
  forall f n, In f fs -> t_cell (f_picked f) (f_timer f) = Some n -> tn_interval n <> INVALID_INTERVAL ->
    timer_active (f_started f) (f_timer f) = true /\
    expire_of (f_started f) (f_timer f) =
      u64 (clock_at (f_picked f) (t_tick (f_picked f)) + tn_interval n - (clock_at s (t_tick s) - tn_expire n)) /\
    t_clk (f_picked f) = t_clk s /\ (t_tick s < t_tick (f_picked f))%nat.
Proof.
  intros Hr Hcb H f n Hf Hn Hi. destruct (run_facts _ _ _ _ _ _ Hr Hcb H) as (_ & HF & _).
  assert (HT := with_tick_TIh (S (t_tick s)) s (reachable_TIh s Hr)).
  assert (G : forall i s0 fs0 s1, fires cb (clock_at s (t_tick s)) i s0 fs0 s1 -> TIh s0 ->
     t_clk s0 = t_clk s -> (t_tick s < t_tick s0)%nat -> In f fs0 ->
    timer_active (f_started f) (f_timer f) = true /\
    expire_of (f_started f) (f_timer f) =
      u64 (clock_at (f_picked f) (t_tick (f_picked f)) + tn_interval n - (clock_at s (t_tick s) - tn_expire n)) /\
    t_clk (f_picked f) = t_clk s /\ (t_tick s < t_tick (f_picked f))%nat).
  { clear - Hcb Hn Hi. intros i s0 fs0 s1 HF. induction HF as [|i s0 a s2 s3 fs0 s1 He Hd H1 H2 HF IH]; intros HT Ec Et Hf; [destruct Hf|].
    destruct (fires_step _ _ _ _ _ _ _ Hcb HT He H1 H2) as (HT1 & HT2 & Ef & Hc & m & m' & Hm & Hm' & X1 & X2 & X3 & X4).
    destruct Hf as [<-|Hf].
    - simpl in *. assert (m = n) by congruence. subst m. destruct X4 as [(G & _)|(_ & G1 & G2 & G3 & G4 & G5)]; [congruence|].
      split; auto. split; [|auto]. rewrite (expire_of_cell _ _ _ Hm'). exact G5.
    - apply IH; auto.
      + destruct Hc as (_ & (C1 & _) & _). destruct Ef as (C2 & _). congruence.
      + destruct Hc as (_ & (_ & C1 & _) & _). destruct Ef as (_ & C2 & _). lia. }
  eapply G; eauto.
Qed.

(** In true numbers (no wrapping): the next expiry is one interval after the
    previous one plus the time spent in the run so far; in particular never
    earlier than one interval after, and exactly one interval after when the
    clock has not moved during the run. *)
Theorem C17_next_expiry_keeps_the_period s cb loops fin fs s' :
  reachable s -> (forall i a, Forall cop_ok (cb i a)) -> steady_clock s ->
  run_timers cb loops s = Ok ((fin, fs), s') ->
  forall f n, In f fs -> t_cell (f_picked f) (f_timer f) = Some n ->
    0 <= tn_interval n < B62 -> tn_expire n < 9223372036854775808 ->
    expire_of (f_started f) (f_timer f) =
      tn_expire n + tn_interval n + (t_clk s (t_tick (f_picked f)) - t_clk s (t_tick s)) /\
    tn_expire n + tn_interval n <= expire_of (f_started f) (f_timer f).
Proof.
  intros Hr Hcb Hck H f n Hf Hn Hi He.
  destruct (C17_periodic_rearm _ _ _ _ _ _ Hr Hcb H f n Hf Hn) as (_ & E & Ec & Et); [unfold INVALID_INTERVAL, B62 in *; lia|].
  assert (E0 : 0 <= tn_expire n).
  { destruct (run_facts _ _ _ _ _ _ Hr Hcb H) as (_ & HF & _).
    assert (HP := fires_picked _ _ Hcb _ _ _ _ HF (with_tick_TIh (S (t_tick s)) s (reachable_TIh s Hr))).
    rewrite Forall_forall in HP. pose proof (TIh_expire_range _ (f_timer f) (HP f Hf)) as Q. rewrite (expire_of_cell _ _ _ Hn) in Q. lia. }
  assert (Es := steady_at s (t_tick s) Hck). assert (Es' := steady_at s (t_tick (f_picked f)) Hck).
  unfold clock_at at 1 in E. rewrite Ec in E. fold (clock_at s (t_tick (f_picked f))) in E. rewrite Es, Es' in E.
  destruct Hck as (C1 & C2). assert (Cm := C2 (t_tick s) (t_tick (f_picked f)) ltac:(lia)).
  assert (D1 := C1 (t_tick s)). assert (D2 := C1 (t_tick (f_picked f))).
  unfold u64 in E. rewrite Z.mod_small in E by (unfold B62 in *; lia). lia.
Qed.

(** ** C18: expiry 0 *)
Theorem C18_zero_expiry_is_refused s a :
  api_set_oneshot a 0 s = Ok (Err AOSL_EINVAL, s) /\ api_resched_oneshot a 0 s = Ok (Err AOSL_EINVAL, s).
Proof. split; reflexivity. Qed.

(** and every other expiry is stored as given. *)
Theorem C18_other_expiries_are_kept s a e s1 r :
  reachable s -> t_cell s a = None -> 0 < e < 18446744073709551616 -> api_set_oneshot a e s = Ok (r, s1) ->
  r = Done /\ timer_active s1 a = true /\ expire_of s1 a = e.
Proof.
  intros Hr Hn He H. destruct (reachable_TIh s Hr) as (l & HI).
  pose proof (api_set_oneshot_ok s l _ a e HI Hn ltac:(unfold u64_ok; lia)) as G. unfold tr in G. rewrite H in G.
  destruct G as (l' & _ & _ & [(_ & -> & _ & _ & A1 & _ & n & Hn1 & _ & A2 & _)|(G & _)]); [|lia].
  split; auto. split; auto. rewrite (expire_of_cell _ _ _ Hn1). auto.
Qed.

(** The entry point that arms a one-shot timer from another queue does not
    check: expiry 0 gives an active timer that every later run treats as due
    at once (whatever the clock reads below 2^63 - 1). *)
Theorem C18_on_q_accepts_zero_refuted s a s1 r :
  reachable s -> t_cell s a = None -> api_set_oneshot_on_q a 0 s = Ok (r, s1) ->
  r = Done /\ timer_active s1 a = true /\ expire_of s1 a = 18446744073709551615 /\
  forall now, 0 <= now < 9223372036854775807 -> time_after_eq now (expire_of s1 a) = true.
Proof.
  intros Hr Hn H. destruct (reachable_TIh s Hr) as (l & HI).
  pose proof (api_set_oneshot_on_q_ok s l _ a 0 HI Hn ltac:(unfold u64_ok; lia)) as G. unfold tr in G. rewrite H in G.
  destruct G as (l' & _ & _ & -> & _ & _ & (A1 & _ & n & Hn1 & _ & A2 & _)).
  split; auto. split; auto. rewrite (expire_of_cell _ _ _ Hn1), A2. split; auto.
  intros now Hw. simpl. rewrite time_after_eq_spec by lia. apply orb_true_iff. right. lia.
Qed.

(** ** C47: argument destructors *)
(** In every reachable state no timer's destructor has run twice, it has not
    run for a timer that still exists, and it has run for every other. *)
Theorem C47_destructor_runs_exactly_once s :
  reachable s ->
  NoDup (t_dtors s) /\
  (forall u, In u (t_dtors s) <-> (u < t_uid s)%nat /\ forall a n, t_cell s a = Some n -> tn_uid n <> u).
Proof.
  intros Hr. destruct (reachable_TIh s Hr) as (l & HI). assert (HB := proj1 (proj2 HI)). split; [apply HB|]. intros u. split.
  - apply HB.
  - intros (Hu & Hn). destruct (tb_cover _ _ HB u Hu) as [|(a & n & Hc & E)]; auto. exfalso. eapply Hn; eauto.
Qed.
(** A killed timer to which nobody holds a reference is gone, its destructor
    has run. *)
Theorem C47_kill_destroys s a n s1 :
  reachable s -> t_cell s a = Some n -> t_held s a = 0%nat -> api_kill a s = Ok (Done, s1) ->
  t_cell s1 a = None /\ In (tn_uid n) (t_dtors s1).
Proof.
  intros Hr Hn Hh H. destruct (reachable_TIh s Hr) as (l & HI). pose proof (api_kill_ok s l _ a HI) as G. unfold tr in G. rewrite H in G.
  destruct G as [(Hus & _ & HI1 & Ef & Hu & Hna & _)|(_ & E & _)]; [|discriminate].
  assert (HB1 := proj1 (proj2 HI1)).
  assert (Hc : t_cell s1 a = None).
  { destruct (t_cell s1 a) as [m|] eqn:E; auto. destruct (tb_out _ _ HB1 a m E) as (_ & _ & G); [|lia].
    intros G. apply Hu. apply (usable_in _ _ _ _ HI1). auto. }
  split; auto.
  assert (Hlin : lineage s s1).
  { apply (lin_exec_cop (CKill a) s tt s1). cbn. unfold guard, tbind at 1, bind. rewrite H. reflexivity. }
  pose proof (tb_uid _ _ (proj1 (proj2 HI)) a n Hn) as Hlt. destruct Hlin as (Hle & _).
  destruct (tb_cover _ _ HB1 (tn_uid n) ltac:(lia)) as [|(b & m & Hb & E)]; auto. exfalso.
  assert (Hba : b <> a) by congruence.
  destruct (proj2 (proj2 (proj2 (proj2 Ef))) b Hba) as (_ & V). rewrite Hb in V. destruct (t_cell s b) as [k|] eqn:Hk; [|tauto].
  apply Hba. eapply (tb_inj _ _ (proj1 (proj2 HI))); eauto. intuition congruence.
Qed.
(** Destroying the queue kills every timer; once nobody holds a reference,
    the destructor of every timer ever created has run, once. *)
Theorem C47_teardown s :
  reachable s -> exists s1, fini_timers (length (t_all s)) s = Ok (true, s1) /\
    (forall a, timer_active s1 a = false /\ ~ usable s1 a) /\
    ((forall a, t_held s a = 0%nat) ->
       (forall a, t_cell s1 a = None) /\ NoDup (t_dtors s1) /\ forall u, In u (t_dtors s1) <-> (u < t_uid s1)%nat).
Proof.
  intros Hr. destruct (reachable_TIh s Hr) as (l & HI).
  destruct (tr_ok _ _ _ (fini_ok (length (t_all s)) s l _ HI (le_n _))) as (r & s1 & E & -> & HI1 & Ea & Hn & Eh).
  exists s1. split; auto. split.
  - intros a. split; auto. rewrite (usable_in _ _ _ _ HI1), Ea. simpl. tauto.
  - intros Hh. assert (HB1 := proj1 (proj2 HI1)).
    assert (Hc : forall a, t_cell s1 a = None).
    { intros a. destruct (t_cell s1 a) as [m|] eqn:E1; auto. destruct (tb_out _ _ HB1 a m E1) as (_ & _ & G); [rewrite Ea; auto|].
      rewrite Hh in G. lia. }
    split; auto. split; [apply HB1|]. intros u. split; [apply HB1|]. intros Hu.
    destruct (tb_cover _ _ HB1 u Hu) as [|(a & n & Hx & _)]; auto. rewrite Hc in Hx. discriminate.
Qed.

(** ** Concrete histories *)
Definition ticks (i : nat) : Z := 1000 + Z.min (Z.of_nat i) 1000000.
Definition quiet_cb : nat -> nat -> list cop := fun _ _ => [].
Definition after {A} (m : TM A) (s : tst) : tst := match m s with Ok (_, s') => s' | _ => s end.
Definition ex_ops : list tev :=
  [EOp (CSet 1 5); EOp (CSetOneshot 2 1003); EOp (CSetOneshot 3 1001); EOp (CSetOneshot 4 1001); EOp (CSet 5 2);
   EOp (CCreate 6 7); EOp (CGet 1); EOp (CCancel 5); EWait; EWait].
Fixpoint run_evs (es : list tev) (s : tst) : tst := match es with [] => s | e :: es => run_evs es (after (exec_tev e) s) end.
Definition ex_s : tst := run_evs ex_ops (timers_init ticks).
Lemma run_evs_clk es : forall s, reachable s ->
  (forall es1 e es2, es = es1 ++ e :: es2 -> ev_pre (run_evs es1 s) e) -> reachable (run_evs es s) /\ t_clk (run_evs es s) = t_clk s.
Proof.
  induction es as [|e es IH]; intros s Hr Hp; auto. simpl.
  destruct (C14_no_undefined_behaviour s e Hr (Hp [] e es eq_refl)) as (fs & s' & He & Hr').
  assert (after (exec_tev e) s = s') as -> by (unfold after; rewrite He; auto).
  pose proof (exec_tev_ok s e (reachable_TIh s Hr) (Hp [] e es eq_refl)) as Q. unfold tr in Q. rewrite He in Q.
  destruct Q as (_ & (Q & _) & _). rewrite <- Q.
  apply IH; auto. intros es1 e' es2 ->. specialize (Hp (e :: es1) e' es2 eq_refl). simpl in Hp. unfold after in Hp. rewrite He in Hp. exact Hp.
Qed.
Lemma run_evs_reach es s : reachable s ->
  (forall es1 e es2, es = es1 ++ e :: es2 -> ev_pre (run_evs es1 s) e) -> reachable (run_evs es s).
Proof. intros H1 H2. now apply run_evs_clk. Qed.
Fixpoint ops_only (es : list tev) : bool :=
  match es with [] => true | EOp c :: es => (match c with
    | CCreate _ z | CSet _ z | CSetOneshot _ z | CSetOneshotOnQ _ z | CResched _ z | CReschedOneshot _ z =>
       (0 <=? z) && (z <? 18446744073709551616) | _ => true end) && ops_only es | EWait :: es => ops_only es | _ :: _ => false end.
Lemma ops_only_pre es : ops_only es = true -> forall es1 e es2 s, es = es1 ++ e :: es2 -> ev_pre (run_evs es1 s) e.
Proof.
  induction es as [|x es IH]; intros H es1 e es2 s E; [destruct es1; discriminate|].
  destruct x as [c| | | | |]; try discriminate;
    [|destruct es1 as [|y es1]; [injection E as <- <-; exact I|injection E as <- E; simpl; eapply IH; eauto]]. simpl in H. apply andb_true_iff in H as (H1 & H2).
  destruct es1 as [|y es1].
  - injection E as <- <-. simpl. destruct c; simpl; auto; unfold u64_ok; apply andb_true_iff in H1 as (A & B); lia.
  - injection E as <- E. simpl. eapply IH; eauto.
Qed.
Lemma init_reachable clk : reachable (timers_init clk).
Proof. exists clk, [], []. constructor. Qed.
Example ex_reachable : reachable ex_s.
Proof.
  apply run_evs_reach; [apply init_reachable|]. intros. eapply ops_only_pre; [|eassumption]. reflexivity.
Qed.
(** Timers 3 and 4 share an expiry and fire in arming order, the periodic
    timer 1 is not due yet, the cancelled timer 5 does not fire. *)
Example ex_order :
  match run_timers quiet_cb 10 ex_s with
  | Ok ((fin, fs), s') => fin = true /\ map f_timer fs = [3; 4; 2]%nat /\ timer_active s' 1 = true /\ timer_active s' 2 = false
  | _ => False
  end.
Proof. vm_compute. auto. Qed.
(** The hypotheses of the theorems above hold in this state. *)
Example ex_steady : steady_clock ex_s.
Proof.
  assert (E : t_clk ex_s = ticks).
  { apply (run_evs_clk ex_ops (timers_init ticks)); [apply init_reachable|]. intros. eapply ops_only_pre; [|eassumption]. reflexivity. }
  unfold steady_clock. rewrite E. unfold ticks, B62. split; intros; lia.
Qed.
Example ex_sane : sane_timers 1 ex_s.
Proof.
  intros a n Ha Hn.
  do 7 (destruct a as [|a]; [vm_compute in Ha; vm_compute in Hn; first [discriminate Ha|discriminate|injection Hn as <-]; cbn [tn_expire tn_interval]; unfold INVALID_INTERVAL, B62; split; lia|]).
  vm_compute in Hn. discriminate.
Qed.

(** A reschedule requested by another thread and executed after the timer was
    killed re-arms the killed timer: it fires although it was killed; and once
    the requester drops its reference the freed timer is still linked, so the
    next run reads freed memory. *)
Definition race_s : tst := run_evs [EOp (CSet 1 5); EOp (CGet 1); EOp (CKill 1)] (timers_init ticks).
Theorem C16_remote_resched_revives_killed_timer_refuted :
  exists s1 s2 s3 fin fs s4,
    reachable s1 /\ ~ usable s1 1 /\ (0 < t_held s1 1)%nat /\
    remote_resched 1 0 0 s1 = Ok (tt, s2) /\ timer_active s2 1 = true /\
    run_timers quiet_cb 1 s2 = Ok ((fin, fs), s3) /\ map f_timer fs = [1%nat] /\
    remote_put 1 s2 = Ok (Done, s4) /\ run_timers quiet_cb 1 s4 = UB.
Proof.
  assert (F : match remote_resched 1 0 0 race_s with
    | Ok (tt, s2) => timer_active s2 1 = true /\
        match run_timers quiet_cb 1 s2 with Ok ((fin, fs), s3) => map f_timer fs = [1%nat] | _ => False end /\
        match remote_put 1 s2 with Ok (Done, s4) => match run_timers quiet_cb 1 s4 with UB => True | _ => False end | _ => False end
    | _ => False end) by (vm_compute; auto).
  assert (H1 : match t_cell race_s 1 with Some n => tn_installed n = false | None => True end) by (vm_compute; reflexivity).
  assert (H2 : (0 < t_held race_s 1)%nat) by (vm_compute; apply le_n).
  assert (H3 : reachable race_s).
  { apply run_evs_reach; [apply init_reachable|]. intros. eapply ops_only_pre; [|eassumption]. reflexivity. }
  revert F H1 H2 H3. generalize race_s. intros s1 F H1 H2 H3.
  destruct (remote_resched 1 0 0 s1) as [[[] s2]| | ] eqn:E1; try tauto. destruct F as (F1 & F2 & F3).
  destruct (run_timers quiet_cb 1 s2) as [[[fin fs] s3]| | ] eqn:E2; try tauto.
  destruct (remote_put 1 s2) as [[[|e] s4]| | ] eqn:E3; try tauto.
  destruct (run_timers quiet_cb 1 s4) as [r| | ] eqn:E4; try tauto.
  exists s1, s2, s3, fin, fs, s4. split; auto. split.
  { intros (n & Hn & Hi). rewrite Hn in H1. congruence. }
  auto 10.
Qed.

Print Assumptions C14_no_undefined_behaviour.
Print Assumptions C14_each_firing_is_the_earliest.
Print Assumptions C14_run_is_in_order_of_expiry.
Print Assumptions C15_never_early.
Print Assumptions C15_no_due_timer_left.
Print Assumptions C15_oneshot_fires_exactly_once.
Print Assumptions C15_run_terminates.
Print Assumptions C15_sleep_time_is_exact.
Print Assumptions C16_cancelled_timer_does_not_fire.
Print Assumptions C16_killed_timer_never_fires.
Print Assumptions C16_other_timers_are_unaffected.
Print Assumptions C16_remote_resched_revives_killed_timer_refuted.
Print Assumptions C17_periodic_rearm.
Print Assumptions C17_next_expiry_keeps_the_period.
Print Assumptions C18_zero_expiry_is_refused.
Print Assumptions C18_other_expiries_are_kept.
Print Assumptions C18_on_q_accepts_zero_refuted.
Print Assumptions C47_destructor_runs_exactly_once.
Print Assumptions C47_kill_destroys.
Print Assumptions C47_teardown.
