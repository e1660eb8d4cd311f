(** * C19-C25, C48: multiplex queues.  The statements are about histories
    (MpqSpec.v) of executions of the transition system of Mpq.v. *)
From Verif Require Import Base Mpq MpqInv MpqLife MpqSpec MpqTrace MpqMore MpqComp MpqThms MpqTerm MpqEx.

(** ** C19: in order, exactly once, by the thread of the queue *)

(** The functions called are, in order, the requests accepted first. *)
Theorem C19_in_order s q : reachable s -> exists waiting, accepts q (hist s) = starts q (hist s) ++ waiting.
Proof. intros R. destruct (iv_content _ (inv_reachable _ R) q) as [A _ _]. eauto. Qed.
(** No function is called more than once, in whatever way and on whatever queue;
    none is called that was not accepted (or run in place for the caller); no
    request is accepted twice. *)
Theorem C19_once s : reachable s ->
  (forall i, (runs i (hist s) <= 1)%nat) /\
  (forall t q r k, In (EStart t q r k) (hist s) -> exists t', In (EAccept t' q r) (hist s) /\ In (ECall t' q r) (hist s)) /\
  (forall q, NoDup (map r_id (accepts q (hist s)))) /\
  (forall q1 q2 r1 r2, In r1 (accepts q1 (hist s)) -> In r2 (accepts q2 (hist s)) -> r_id r1 = r_id r2 -> q1 = q2 /\ r1 = r2).
Proof.
  intros R. pose proof (inv2_reachable _ R) as I2. pose proof (i2_inv _ I2) as I. repeat split.
  - intros i. apply runs_le, R.
  - intros t q r k H. assert (X : In r (starts q (hist s))) by (apply in_starts; eauto).
    apply starts_sub, in_accepts in X; [|exact R]. destruct X as [t' X]. exists t'. split; [exact X|exact (i2_evs _ I2 _ X)].
  - intros q. apply accepts_nodup, I.
  - eapply accept_unique; eassumption.
  - eapply (accept_unique s q1 q2); eassumption.
Qed.
(** They are called by the thread of the queue, one at a time: a function is
    called only when all those called before have returned. *)
Theorem C19_one_thread s : reachable s ->
  (forall t q r k, In (EStart t q r k) (hist s) -> exists max, runs_queue t q max (hist s)) /\
  (forall t q max t' max', runs_queue t q max (hist s) -> runs_queue t' q max' (hist s) -> t = t' /\ max = max') /\
  (forall h1 t q r k h2, hist s = h1 ++ EStart t q r k :: h2 -> starts q h1 = ends q h1 /\ ends q h1 = dones q h1).
Proof.
  intros R. pose proof (inv2_reachable _ R) as I2. repeat split.
  - intros t q r k H. destruct (mk_start _ _ _ (i2_marks _ I2 q) _ _ _ H) as [Hm ->].
    exists (q_max (s_q s q)). apply created; auto.
  - apply (created s) in H, H0; auto. destruct H as (_ & <- & _), H0 as (_ & <- & _). reflexivity.
  - apply (created s) in H, H0; auto. destruct H as (_ & _ & <-), H0 as (_ & _ & <-). reflexivity.
  - destruct (hist_split _ _ _ _ R H) as (s1 & s2 & R1 & H1 & E1 & E2). rewrite <- E1 in E2 |- *.
    destruct (iv_content _ (inv_reachable _ R1) q) as [A B C]. on_event H1 E2. rewrite HP in B. cbn in B. rewrite app_nil_r in B. exact B.
  - destruct (hist_split _ _ _ _ R H) as (s1 & s2 & R1 & H1 & E1 & E2). rewrite <- E1 in E2 |- *.
    destruct (iv_content _ (inv_reachable _ R1) q) as [A B C]. on_event H1 E2. rewrite HP in C. cbn in C. rewrite app_nil_r in C. exact C.
Qed.
(** None is lost: what was accepted and not called yet is in the queue. *)
Theorem C19_none_lost s q : reachable s ->
  accepts q (hist s) = starts q (hist s) ++ q_batch (s_q s q) ++ q_pend (s_q s q).
Proof. intros R. apply (iv_content _ (inv_reachable _ R) q). Qed.
(** The order is the order of the calls: a request whose call has returned goes
    before every request made later, by whatever thread. *)
Theorem C19_call_order s h1 t q r h2 t' r' : reachable s ->
  hist s = h1 ++ EReturn t q r 0 :: h2 -> In (EAccept t q r) (hist s) ->
  In (ECall t' q r') h2 -> In (EAccept t' q r') (hist s) ->
  exists a b c, accepts q (hist s) = a ++ r :: b ++ r' :: c.
Proof.
  intros R E Ha Hc Ha'. destruct (hist_split _ _ _ _ R E) as (s1 & s2 & R1 & H1 & E1 & E2).
  pose proof (inv2_reachable _ R) as I2.
  (* r was accepted in h1 *)
  assert (A1 : In r (accepts q h1)).
  { rewrite <- E1 in E2 |- *. pose proof (inv_reachable _ R1) as I1.
    assert (HF : exists held treat rest, s_stack s1 t = FQueue q r treat held 0 APut :: rest).
    { on_event H1 E2; repeat eexists; eassumption. }
    destruct HF as (held & treat & rest & HF).
    pose proof (dc_frame _ (iv_decided _ I1) t _ ltac:(rewrite HF; left; reflexivity)) as [_ [(_ & HA & _)|[(_ & _ & (k & HI) & _)|[X _]]]]; [| |congruence].
    - apply in_accepts. eauto.
    - exfalso. assert (Y : EInline t q r k = EAccept t q r); [|discriminate].
      eapply (fate s); [exact R| |exact Ha|left; reflexivity|left; reflexivity]. rewrite E, <- E1. apply in_or_app. auto. }
  (* and r' was not *)
  assert (A2 : In r' (accepts q (EReturn t q r 0 :: h2))).
  { assert (X : In r' (accepts q (hist s))) by (apply in_accepts; eauto). rewrite E, accepts_app in X. apply in_app_or in X.
    destruct X as [X|X]; [exfalso|exact X]. apply in_accepts in X. destruct X as [t9 X]. rewrite <- E1 in X.
    pose proof (i2_evs _ (inv2_reachable _ R1) _ X) as Y. cbn in Y. rewrite E1 in Y.
    pose proof (ca_nodup _ (i2_calls _ I2)) as ND. rewrite E, callids_app in ND. change (callids (EReturn t q r 0 :: h2)) with (callids h2) in ND.
    assert (P1 : In (r_id r') (callids h1)) by (apply in_flat_map; eexists; split; [exact Y|left; reflexivity]).
    assert (P2 : In (r_id r') (callids h2)) by (apply in_flat_map; eexists; split; [exact Hc|left; reflexivity]).
    clear - ND P1 P2. induction (callids h1) as [|a l IH]; [destruct P1|]. cbn in ND. inversion_clear ND as [|? ? X Y].
    destruct P1 as [->|P1]; [apply X, in_or_app; auto|auto]. }
  apply in_split in A1, A2. destruct A1 as (a & b & A1), A2 as (a' & b' & A2).
  exists a, (b ++ a'), b'. rewrite E, accepts_app, A1, A2, <- !app_assoc. cbn. reflexivity.
Qed.

(** ** C20: the limit *)
Theorem C20_limit s q t max : reachable s -> runs_queue t q max (hist s) -> outstanding_ordinary q (hist s) <= max.
Proof.
  intros R H. apply (created s) in H; [|exact R]. destruct H as (Hm & _ & <-).
  rewrite outstanding_ord by exact R. apply (i2_bound _ (inv2_reachable _ R) q Hm).
Qed.
(** An ordinary request is accepted only below the limit; it is refused with
    EAGAIN only on a non-blocking queue that is full. *)
Theorem C20_accept_refuse s h1 e h2 t q r max t0 : reachable s -> hist s = h1 ++ e :: h2 -> runs_queue t0 q max h1 ->
  (e = EAccept t q r -> ordinary r = true -> outstanding q h1 < max) /\
  (e = ERefuse t q r (- AOSL_EAGAIN) -> ordinary r = true /\ max <= outstanding q h1 /\ nonblocking q h1 = true).
Proof.
  intros R E Hq. destruct (hist_split _ _ _ _ R E) as (s1 & s2 & R1 & H1 & E1 & E2). rewrite <- E1 in *.
  apply (created s1) in Hq; [|exact R1]. destruct Hq as (Hm & _ & <-). rewrite outstanding_cnt by exact R1.
  rewrite <- (i2_flag _ (inv2_reachable _ R1) q : q_nonblock _ = _).
  split; intros ->.
  - unfold ordinary. on_event H1 E2; destruct (r_nofail r); cbn in *; try discriminate; apply Z.ltb_lt in HNF; lia.
  - on_event H1 E2; unfold ordinary; apply Bool.orb_false_iff in HNF; destruct HNF as [-> HNF]; apply Z.ltb_ge in HNF; repeat split; auto; lia.
Qed.
(** ... and then it always is: once an ordinary request gets to a full
    non-blocking queue, the only thing its thread can do is refuse it. *)
Theorem C20_full_refuses s t q r treat held rest pc max t0 s' : reachable s ->
  s_stack s t = FQueue q r treat held 0 pc :: rest -> pc = AAdd \/ pc = AWait ->
  runs_queue t0 q max (hist s) -> ordinary r = true -> max <= outstanding q (hist s) -> nonblocking q (hist s) = true ->
  step s s' -> s_stack s' t = s_stack s t \/ hist s' = hist s ++ [ERefuse t q r (- AOSL_EAGAIN)].
Proof.
  intros R Hs Hp Hq Ho Hf Hn H. pose proof (inv2_reachable _ R) as I2. pose proof (i2_inv _ I2) as I.
  apply (created s) in Hq; [|exact R]. destruct Hq as (Hm & _ & <-). rewrite outstanding_cnt in Hf by exact R.
  rewrite <- (i2_flag _ I2 q : q_nonblock _ = _) in Hn. unfold ordinary in Ho.
  assert (Hd : r_nofail r || (q_cnt (s_q s q) <? q_max (s_q s q)) = false).
  { destruct (r_nofail r); [discriminate|]. apply Z.ltb_ge. exact Hf. }
  destruct H; at_pcs;
   try (match goal with Hx : s_stack ?s0 ?u = _ |- _ => destruct (Nat.eq_dec t u) as [->|]; [rewrite Hs in Hx; try discriminate Hx; try (injection Hx; clear Hx; intros; subst; destruct Hp; discriminate)|]; left; addsec; proj; apply upd_other; assumption end).
  all: try (match goal with U : user ?s0 ?u |- _ => destruct (Nat.eq_dec t u) as [->|]; [exfalso; destruct U as [[_ U]|[rr U]]; rewrite Hs in U; try discriminate U; injection U; intros; subst; destruct Hp; discriminate|left; proj; apply upd_other; assumption] end).
  all: try (match goal with Hx : s_stack ?s0 ?u = _ |- _ => destruct (Nat.eq_dec t u) as [->|]; [|left; addsec; proj; apply upd_other; assumption];
     rewrite Hs in Hx; injection Hx; clear Hx; intros; subst end).
  - right. unfold add_section. rewrite Hd, Hn. rewrite hist_act. reflexivity.
  - right. unfold add_section. proj. rewrite Hd, Hn. rewrite hist_act. reflexivity.
  - left. proj. unfold upd. destruct (Nat.eqb_spec t t1) as [->|]; reflexivity.
Qed.
(** Why a request may be refused at all. *)
Theorem C20_refusals s h1 t q r code h2 : reachable s -> hist s = h1 ++ ERefuse t q r code :: h2 ->
  (code = - AOSL_EINVAL /\ ~ valid q h1) \/
  (code = - AOSL_EAGAIN /\ ordinary r = true /\ nonblocking q h1 = true) \/
  (code = - AOSL_EINTR /\ ordinary r = true) \/
  (code = - AOSL_EPERM /\ exists own max, runs_queue t own max h1 /\ r_done r = Some own).
Proof.
  intros R E. destruct (hist_split _ _ _ _ R E) as (s1 & s2 & R1 & H1 & E1 & E2). rewrite <- E1 in *. clear E.
  pose proof (inv2_reachable _ R1) as I2. pose proof (i2_inv _ I2) as I.
  rewrite (valid_inst s1) by exact R1. on_event H1 E2.
  - left. split; [reflexivity|congruence].
  - right. right. right. split; [reflexivity|].
    unfold own_exit in *. destruct (this s1 t) as [own|] eqn:ET; [|discriminate]. destruct (r_done r) as [d|]; [|discriminate].
    match goal with Hx : _ && _ = true |- _ => apply Bool.andb_true_iff in Hx; destruct Hx as [_ Hx]; apply Nat.eqb_eq in Hx; subst d end.
    exists own, (q_max (s_q s1 own)). split; [|reflexivity]. apply this_drv in ET. destruct (bs_drv _ (iv_base _ I) _ _ ET) as (X & Y & _).
    apply created; auto.
  - right. left. rewrite <- (i2_flag _ I2 q : q_nonblock _ = _). apply Bool.orb_false_iff in HNF. unfold ordinary. destruct HNF as [-> _]. repeat split; assumption.
  - right. right. left. apply Bool.orb_false_iff in HNF. unfold ordinary. destruct HNF as [-> _]. repeat split; assumption.
  - right. left. rewrite <- (i2_flag _ I2 q : q_nonblock _ = _). apply Bool.orb_false_iff in HNF. unfold ordinary. destruct HNF as [-> _]. repeat split; assumption.
  - right. right. left. apply Bool.orb_false_iff in HNF. unfold ordinary. destruct HNF as [-> _]. repeat split; assumption.
Qed.
(** A refused request is never executed, before or after; its caller is told so. *)
Theorem C20_refused_never_runs s t q r code : reachable s -> In (ERefuse t q r code) (hist s) ->
  runs (r_id r) (hist s) = 0%nat /\ (forall c, In (EReturn t q r c) (hist s) -> c = code).
Proof.
  intros R H. split.
  - destruct (runs (r_id r) (hist s)) eqn:E; [reflexivity|exfalso].
    destruct (run_fate s (r_id r) R ltac:(lia)) as (_ & e & He & Hm).
    assert (X : e = ERefuse t q r code); [|subst e; exact Hm].
    eapply (fate s); [exact R|exact He|exact H| |left; reflexivity]. destruct e; try contradiction; left; exact Hm.
  - intros c Hc. apply in_split in Hc. destruct Hc as (h1 & h2 & E).
    destruct (hist_split _ _ _ _ R E) as (s1 & s2 & R1 & H1 & E1 & E2). rewrite <- E1 in E2. pose proof (inv_reachable _ R1) as I1.
    assert (HF : exists held treat rest, s_stack s1 t = FQueue q r treat held c APut :: rest) by (on_event H1 E2; repeat eexists; eassumption).
    destruct HF as (held & treat & rest & HF).
    assert (Hin : forall e, In e (hist s1) -> In e (hist s)) by (intros e He; rewrite E, <- E1; apply in_or_app; auto).
    pose proof (dc_frame _ (iv_decided _ I1) t _ ltac:(rewrite HF; left; reflexivity)) as [_ [(_ & HA & _)|[(_ & _ & (k & HI) & _)|[_ X]]]].
    + assert (X : EAccept t q r = ERefuse t q r code); [|discriminate]. eapply (fate s); eauto; left; reflexivity.
    + assert (X : EInline t q r k = ERefuse t q r code); [|discriminate]. eapply (fate s); eauto; left; reflexivity.
    + assert (Y : ERefuse t q r c = ERefuse t q r code); [|congruence]. eapply (fate s); eauto; left; reflexivity.
Qed.

(** ** C21: synchronous calls *)

(** Success is reported only when the function has run, once, to its end. *)
Theorem C21_returns_after_run s h1 t q r h2 : reachable s -> hist s = h1 ++ EReturn t q r 0 :: h2 -> r_sync r = true ->
  runs (r_id r) h1 = 1%nat /\ runs (r_id r) (hist s) = 1%nat /\
  ((exists t', In (EEnd t' q r) h1 /\ exists max, runs_queue t' q max h1) \/ In (EInlineEnd t q r) h1).
Proof.
  intros R E Hs. destruct (hist_split _ _ _ _ R E) as (s1 & s2 & R1 & H1 & E1 & E2). rewrite <- E1 in *.
  pose proof (inv2_reachable _ R1) as I2. pose proof (i2_inv _ I2) as I.
  assert (HF : exists held treat rest, s_stack s1 t = FQueue q r treat held 0 APut :: rest) by (on_event H1 E2; repeat eexists; eassumption).
  destruct HF as (held & treat & rest & HF).
  assert (HR : (0 < runs (r_id r) (hist s1))%nat /\ ((exists t', In (EEnd t' q r) (hist s1) /\ exists max, runs_queue t' q max (hist s1)) \/ In (EInlineEnd t q r) (hist s1))).
  { pose proof (dc_frame _ (iv_decided _ I) t _ ltac:(rewrite HF; left; reflexivity)) as [_ [(_ & HA & HS)|[(_ & _ & (k & HI) & HE)|[X _]]]]; [| |congruence].
    - specialize (HS Hs). destruct (sy_flag _ (i2_sync _ I2) _ HS) as (q' & r' & Hd & Hi).
      assert (Ha : In r' (accepts q' (hist s1))) by (apply starts_sub, ends_sub, dones_sub; assumption).
      destruct (accept_unique s1 q' q r' r I Ha ltac:(apply in_accepts; eauto) Hi) as [-> ->].
      apply dones_sub in Hd; [|exact R1]. pose proof (ends_sub _ _ _ R1 Hd) as Hst. apply in_starts in Hst. destruct Hst as (t' & k & Hst).
      apply in_ends in Hd. destruct Hd as (t'' & Hd). split.
      + apply runs_pos. eexists. split; [exact Hst|]. cbn. apply Nat.eqb_refl.
      + left. exists t''. split; [exact Hd|]. apply in_split in Hd. destruct Hd as (a & b & Hd).
        destruct (hist_split _ _ _ _ R1 Hd) as (s3 & s4 & R3 & H3 & E3 & E4).
        assert (X : s_drv s3 t'' = Some q). { rewrite <- E3 in E4. on_event H3 E4. assumption. }
        destruct (bs_drv _ (iv_base _ (inv_reachable _ R3)) _ _ X) as (Y1 & Y2 & _).
        exists (q_max (s_q s3 q)). pose proof (proj2 (created s3 q t'' (q_max (s_q s3 q)) R3) ltac:(auto)) as [nb Z].
        exists nb. rewrite Hd, <- E3. apply in_or_app. auto.
    - split; [|right; exact HE]. apply runs_pos. eexists. split; [exact HI|]. cbn. apply Nat.eqb_refl. }
  destruct HR as [HR HR']. pose proof (runs_le s1 (r_id r) R1) as L1. pose proof (runs_le s (r_id r) R) as L.
  rewrite E, runs_app in L |- *. split; [lia|]. split; [lia|exact HR'].
Qed.
(** On the own queue's thread the function is run inline; it never gets into
    the queue, where the thread would wait for itself.  Only there is it run
    inline. *)
Theorem C21_own_queue_inline s t q r : reachable s -> r_sync r = true ->
  (In (EAccept t q r) (hist s) -> forall max, ~ runs_queue t q max (hist s)) /\
  (forall k, In (EInline t q r k) (hist s) -> exists max, runs_queue t q max (hist s)).
Proof.
  intros R Hs. split.
  - intros Ha max Hq. apply in_split in Ha. destruct Ha as (h1 & h2 & E).
    destruct (hist_split _ _ _ _ R E) as (s1 & s2 & R1 & H1 & E1 & E2). rewrite <- E1 in E2.
    pose proof (inv2_reachable _ R1) as I2. pose proof (i2_inv _ I2) as I.
    assert (HF : exists held treat rest pc, s_stack s1 t = FQueue q r treat held 0 pc :: rest /\ (pc = AAdd \/ pc = AWait)).
    { on_event H1 E2; do 4 eexists; (split; [eassumption|auto]). }
    destruct HF as (held & treat & rest & pc & HF & Hpc).
    assert (Hn : s_drv s1 t <> Some q).
    { pose proof (i2_own _ I2 t q _ _ _ _ _ ltac:(rewrite HF; left; reflexivity) Hs) as X. destruct Hpc; subst pc; exact X. }
    destruct (adder _ _ _ _ _ _ _ _ _ I HF Hpc) as [X|[X _]]; [|congruence].
    assert (Hm : q_made (s_q s1 q) = true).
    { eapply (bs_made _ (iv_base _ I)); [rewrite HF; left; reflexivity|]. destruct Hpc; subst pc; reflexivity. }
    assert (Hdead : q_pc (s_q s1 q) <> XDead).
    { intros Hd. rewrite (lf_final _ _ (iv_life _ I q)) in X by (rewrite Hd; reflexivity). destruct X. }
    apply Hn. assert (Ht : q_thread (s_q s1 q) = t).
    { pose proof (proj2 (created s1 q _ _ R1) (conj Hm (conj eq_refl eq_refl))) as [nb Z].
      assert (Z' : runs_queue (q_thread (s_q s1 q)) q (q_max (s_q s1 q)) (hist s)) by (exists nb; rewrite E, <- E1; apply in_or_app; auto).
      apply (created s) in Z', Hq; auto. destruct Z' as (_ & Z' & _), Hq as (_ & Hq & _). congruence. }
    rewrite <- Ht. apply (bs_own _ (iv_base _ I)); assumption.
  - intros k Hi. apply in_split in Hi. destruct Hi as (h1 & h2 & E).
    destruct (hist_split _ _ _ _ R E) as (s1 & s2 & R1 & H1 & E1 & E2). rewrite <- E1 in E2.
    assert (X : s_drv s1 t = Some q) by (on_event H1 E2; apply this_drv; assumption).
    destruct (bs_drv _ (iv_base _ (inv_reachable _ R1)) _ _ X) as (Y1 & Y2 & _).
    pose proof (proj2 (created s1 q t (q_max (s_q s1 q)) R1) ltac:(auto)) as [nb Z].
    exists (q_max (s_q s1 q)), nb. rewrite E, <- E1. apply in_or_app. auto.
Qed.

(** ** C22: destruction *)

(** When the fini callback is called, every request ever accepted has been run
    to its end. *)
Theorem C22_all_run_before_fini s h1 q h2 : reachable s -> hist s = h1 ++ EFini q :: h2 ->
  starts q h1 = accepts q h1 /\ ends q h1 = accepts q h1 /\ dones q h1 = accepts q h1.
Proof.
  intros R E. destruct (hist_split _ _ _ _ R E) as (s1 & s2 & R1 & H1 & E1 & E2). rewrite <- E1 in *. clear E.
  pose proof (inv2_reachable _ R1) as I2. pose proof (i2_inv _ I2) as I. destruct (iv_content _ I q) as [A B C].
  assert (Hx : q_pc (s_q s1 q) = XFini) by (on_event H1 E2; assumption).
  rewrite Hx in B, C. cbn in B, C. rewrite app_nil_r in B, C.
  rewrite (i2_quiet _ I2 q Hx), (ct_batch _ _ (iv_cnt _ I q)) in A by (rewrite Hx; reflexivity). cbn in A. rewrite app_nil_r in A.
  repeat split; congruence.
Qed.
(** Waiting for the destruction ends only after it: fini was called and the
    memory was released. *)
Theorem C22_wait_ends_after s h1 t q w h2 : reachable s -> hist s = h1 ++ EWaitReturn t q w 0 :: h2 -> In (EAddWait t q w) h1 ->
  In (EDestroyed q) h1 /\ In (EFini q) h1 /\ In (EGone q) h1.
Proof.
  intros R E Hw. destruct (hist_split _ _ _ _ R E) as (s1 & s2 & R1 & H1 & E1 & E2). rewrite <- E1 in *. clear E.
  pose proof (inv2_reachable _ R1) as I2. pose proof (i2_inv _ I2) as I.
  assert (Hd : In w (decided (hist s1))) by (apply in_flat_map; eexists; split; [exact Hw|left; reflexivity]).
  assert (Hr : In w (s_rel s1)).
  { on_event H1 E2; [|assumption].
    pose proof (dc_frame _ (iv_decided _ I) t _ ltac:(match goal with H : s_stack _ _ = _ |- _ => rewrite H; left; reflexivity end)) as X. cbn in X.
    destruct w0; cbn in X; [exfalso; exact (H0 eq_refl eq_refl)|contradiction]. }
  destruct (rl_rel _ (i2_rel _ I2) _ Hr) as (q' & X & Y).
  rewrite (i2_waiters _ I2 q' : q_waiters _ = _) in X. apply in_flat_map in X. destruct X as (e & He & Hx).
  destruct e; try (destruct Hx; fail). destruct (Nat.eqb_spec q0 q') as [->|]; [|destruct Hx]. destruct Hx as [->|[]].
  assert (U : EAddWait t0 q' w = EAddWait t q w) by (eapply (fate s1); [exact R1|exact He|exact Hw|left; reflexivity|left; reflexivity]).
  injection U as -> ->. pose proof (i2_marks _ I2 q) as M.
  destruct (q_pc (s_q s1 q)) eqn:EP; try discriminate Y; repeat split;
   [apply (mk_dest _ _ _ M)|apply (mk_fini _ _ _ M)|apply (mk_gone _ _ _ M)|apply (mk_dest _ _ _ M)|apply (mk_fini _ _ _ M)|apply (mk_gone _ _ _ M)]; rewrite EP; reflexivity.
Qed.
(** Every waiter is released by the end. *)
Theorem C22_waiters_released s t q w : reachable s -> In (EAddWait t q w) (hist s) -> q_pc (s_q s q) = XDead -> In w (s_rel s).
Proof.
  intros R H Hp. pose proof (inv2_reachable _ R) as I2.
  apply (rl_dead _ _ (rl_q _ (i2_rel _ I2) q) Hp). rewrite (i2_waiters _ I2 q : q_waiters _ = _).
  apply in_flat_map. eexists. split; [exact H|]. cbn. rewrite Nat.eqb_refl. left. reflexivity.
Qed.
(** After the memory is released, nothing of that queue happens any more. *)
Theorem C22_nothing_after s h1 q h2 : reachable s -> hist s = h1 ++ EDestroyed q :: h2 ->
  forall e, In e h2 -> match e with
    | EStart _ q' _ _ | EEnd _ q' _ | EInline _ q' _ _ | EAccept _ q' _ | EDone q' _ | EFini q' | EFreeRun _ q' _
    | EDestroyed q' | EGone q' | EAddWait _ q' _ | EFlag q' _ | ECreate q' _ _ _ => q' <> q
    | _ => True
    end.
Proof.
  intros R E e He. apply in_split in He. destruct He as (a & b & He).
  assert (E' : hist s = (h1 ++ EDestroyed q :: a) ++ e :: b) by (rewrite E, He, <- app_assoc; reflexivity).
  destruct (hist_split _ _ _ _ R E') as (s1 & s2 & R1 & H1 & E1 & E2). rewrite <- E1 in E2.
  pose proof (inv2_reachable _ R1) as I2. pose proof (i2_inv _ I2) as I.
  assert (Hd : In (EDestroyed q) (hist s1)) by (rewrite E1; apply in_or_app; right; left; reflexivity).
  apply (mk_dest _ _ _ (i2_marks _ I2 q)) in Hd. clear E E' E1 He.
  assert (Hf : final (q_pc (s_q s1 q)) = true) by (destruct (q_pc (s_q s1 q)); try discriminate; reflexivity).
  assert (Hmade : q_made (s_q s1 q) = true).
  { destruct (q_made (s_q s1 q)) eqn:Hm; [reflexivity|]. rewrite (bs_new _ (iv_base _ I) q Hm) in Hd. discriminate. }
  assert (Hlive : forall t, this s1 t <> Some q).
  { intros t Ht. unfold this in Ht. destruct (s_drv s1 t) as [d|]; [|discriminate]. destruct (q_pc (s_q s1 d)) eqn:EP; try discriminate Ht;
     injection Ht as ->; rewrite EP in Hd; discriminate. }
  destruct e; try exact Logic.I; intros ->; on_event H1 E2; try (rewrite HP in Hd; discriminate); try congruence;
   try (match goal with H : this _ ?t = Some q |- _ => exact (Hlive t H) end).
  - assert (Hu : q_freed (s_q s1 q) = true) by (rewrite (lf_freed _ _ (iv_life _ I q)); exact Hd). congruence.
  - eapply adder_final in I; [|eassumption|auto|exact Hf]. destruct I as [_ [(? & ? & ? & X)|[(? & ? & X)|X]]]; rewrite X in Hd; discriminate.
  - eapply adder_final in I; [|eassumption|auto|exact Hf]. destruct I as [_ [(? & ? & ? & X)|[(? & ? & X)|X]]]; rewrite X in Hd; discriminate.
  - pose proof (put_in _ _ q _ _ (iv_refs _ I) ltac:(eassumption) eq_refl) as X. rewrite (lf_final _ _ (iv_life _ I q) Hf) in X. destruct X.
Qed.
(** Requests accepted after fini was called come from the queue's own thread,
    that is, from inside the fini callback. *)
Theorem C22_late_requests s h1 q h2 t r : reachable s -> hist s = h1 ++ EFini q :: h2 -> In (EAccept t q r) h2 ->
  exists max, runs_queue t q max h1.
Proof.
  intros R E He. apply in_split in He. destruct He as (a & b & He).
  assert (E' : hist s = (h1 ++ EFini q :: a) ++ EAccept t q r :: b) by (rewrite E, He, <- app_assoc; reflexivity).
  destruct (hist_split _ _ _ _ R E') as (s1 & s2 & R1 & H1 & E1 & E2). rewrite <- E1 in E2.
  pose proof (inv2_reachable _ R1) as I2. pose proof (i2_inv _ I2) as I.
  assert (Hd : In (EFini q) (hist s1)) by (rewrite E1; apply in_or_app; right; left; reflexivity).
  apply (mk_fini _ _ _ (i2_marks _ I2 q)) in Hd.
  assert (Hf : final (q_pc (s_q s1 q)) = true) by (destruct (q_pc (s_q s1 q)); try discriminate; reflexivity).
  assert (X : s_drv s1 t = Some q) by (on_event H1 E2; (eapply adder_final in I; [|eassumption|auto|exact Hf]); apply I).
  destruct (bs_drv _ (iv_base _ I) _ _ X) as (Y1 & Y2 & _).
  (* the queue was created before fini *)
  destruct (hist_split _ _ _ _ R E) as (s3 & s4 & R3 & H3 & E3 & E4). rewrite <- E3 in *.
  assert (Hm : exists t9, s_drv s3 t9 = Some q) by (on_event H3 E4; eauto). destruct Hm as [t9 Hm].
  destruct (bs_drv _ (iv_base _ (inv_reachable _ R3)) _ _ Hm) as (Z1 & Z2 & _).
  pose proof (proj2 (created s3 q _ _ R3) (conj Z1 (conj Z2 eq_refl))) as [nb Z].
  exists (q_max (s_q s3 q)), nb. assert (W : runs_queue t9 q (q_max (s_q s3 q)) (hist s1)) by (exists nb; rewrite E1; apply in_or_app; auto).
  apply (created s1) in W; [|exact R1]. destruct W as (_ & W & _). congruence.
Qed.
(** Together: a request accepted by a queue has run, exactly once and to its
    end, when a wait for the destruction of the queue returns; it must not
    have been made from inside the fini callback (see C22_refuted). *)
Theorem C22_executed_before_waiter_partial s h1 t q w h2 t' r : reachable s ->
  hist s = h1 ++ EWaitReturn t q w 0 :: h2 -> In (EAddWait t q w) h1 ->
  In (EAccept t' q r) h1 ->
  (forall max, ~ runs_queue t' q max h1) \/ (exists a b, h1 = a ++ EFini q :: b /\ In (EAccept t' q r) a) ->
  (exists t'', In (EEnd t'' q r) h1) /\ runs (r_id r) h1 = 1%nat.
Proof.
  intros R E Hw Ha Hc. destruct (C22_wait_ends_after _ _ _ _ _ _ R E Hw) as (_ & Hf & _).
  assert (Hac : exists a b, h1 = a ++ EFini q :: b /\ In (EAccept t' q r) a).
  { destruct Hc as [Hc|Hc]; [|exact Hc]. apply in_split in Hf. destruct Hf as (a & b & ->). exists a, b. split; [reflexivity|].
    apply in_app_or in Ha. destruct Ha as [Ha|[Ha|Ha]]; [exact Ha|discriminate|exfalso].
    rewrite <- app_assoc in E. cbn in E.
    destruct (C22_late_requests s a q (b ++ EWaitReturn t q w 0 :: h2) t' r R E ltac:(apply in_or_app; auto)) as (max & [nb X]).
    apply (Hc max). exists nb. apply in_or_app. auto. }
  clear Hc Hf Ha. destruct Hac as (a & b & -> & Ha). rewrite <- app_assoc in E. cbn in E.
  destruct (C22_all_run_before_fini _ _ _ _ R E) as (S1 & S2 & _).
  assert (X : In r (accepts q a)) by (apply in_accepts; eauto).
  assert (Y : In r (starts q a)) by (rewrite S1; exact X). rewrite <- S2 in X.
  apply in_ends in X. destruct X as [t'' X]. split; [exists t''; apply in_or_app; auto|].
  apply in_starts in Y. destruct Y as (t9 & k & Y).
  assert (0 < runs (r_id r) a)%nat by (apply runs_pos; eexists; split; [exact Y|]; cbn; apply Nat.eqb_refl).
  pose proof (runs_le s (r_id r) R) as L. rewrite E in L. rewrite runs_app in L |- *.
  change (EFini q :: b ++ EWaitReturn t q w 0 :: h2) with ((EFini q :: b) ++ EWaitReturn t q w 0 :: h2) in L.
  rewrite runs_app in L. lia.
Qed.

(** ** C23: completions *)

(** When a request is finished, exactly one completion was asked for (none if
    there is no completion queue or the function was called only to release),
    on the completion queue, and what became of it is settled: it was put into
    that queue, or released in place; never both. *)
Theorem C23_completion_once s h1 t q r k h2 : reachable s -> hist s = h1 ++ EDone q r :: h2 -> In (EStart t q r k) (hist s) ->
  match r_done r, k with
  | None, _ | _, KFree => completions (r_id r) (hist s) = []
  | Some d, _ => exists r', completions (r_id r) (hist s) = [(d, r')] /\ completions (r_id r) h1 = [(d, r')] /\
      ((In (EAccept t d r') h1 /\ free_runs (r_id r') (hist s) = 0%nat) \/
       ((exists q', In (EFreeRun t q' r') h1) /\ free_runs (r_id r') (hist s) = 1%nat /\ runs (r_id r') (hist s) = 0%nat /\
        forall t' d', ~ In (EAccept t' d' r') (hist s)))
  end.
Proof.
  intros R E Hst. destruct (hist_split _ _ _ _ R E) as (s1 & s2 & R1 & H1 & E1 & E2). rewrite <- E1 in E2.
  pose proof (inv2_reachable _ R) as I2. pose proof (inv2_reachable _ R1) as I21.
  (* the same now and then *)
  assert (Hp : In r (past s q)) by (apply in_or_app; left; apply in_dones; rewrite E; apply in_or_app; right; left; reflexivity).
  assert (HPC : exists u ph, at_pc s1 q u (PDec ph r)) by (on_event H1 E2; do 2 eexists; repeat split; eassumption).
  destruct HPC as (u & ph & HD & HS & HP).
  assert (Hp1 : In r (past s1 q)) by (apply in_or_app; right; rewrite HP; left; reflexivity).
  assert (Hin1 : forall e, In e (hist s1) -> In e (hist s)) by (intros e He; rewrite E, <- E1; apply in_or_app; auto).
  assert (Hk : forall t' k', In (EStart t' q r k') (hist s) -> t' = t /\ k' = k).
  { intros t' k' Hst'.
    assert (U : EStart t' q r k' = EStart t q r k); [|injection U; auto].
    pose proof (starts_nodup s q R) as ND.
    assert (ND' : NoDup (flat_map (fun e => map r_id (match e with EStart _ q' r _ => if (q' =? q)%nat then [r] else [] | _ => [] end)) (hist s))).
    { clear -ND. unfold starts in ND. induction (hist s) as [|e h IH]; [constructor|]. cbn [flat_map] in *. rewrite map_app in ND.
      replace (flat_map _ h) with (map r_id (flat_map (fun e => match e with EStart _ q' r _ => if (q' =? q)%nat then [r] else [] | _ => [] end) h)); [exact ND|].
      clear. induction h as [|e h IH]; [reflexivity|]. cbn [flat_map]. rewrite map_app, IH. reflexivity. }
    eapply (flat_map_unique _ (hist s) _ _ (r_id r) ND' Hst' Hst); cbn; rewrite Nat.eqb_refl; left; reflexivity. }
  destruct (co_to _ (i2_comp _ I2) _ _ Hp) as (t2 & k2 & Hst2 & C2). destruct (Hk _ _ Hst2) as [-> ->].
  destruct (co_to _ (i2_comp _ I21) _ _ Hp1) as (t3 & k3 & Hst3 & C3). destruct (Hk _ _ (Hin1 _ Hst3)) as [-> ->].
  destruct (r_done r) as [d|]; [|exact C2].
  assert (Main : k <> KFree -> exists r', completions (r_id r) (hist s) = [(d, r')] /\ completions (r_id r) h1 = [(d, r')] /\
      ((In (EAccept t d r') h1 /\ free_runs (r_id r') (hist s) = 0%nat) \/
       ((exists q', In (EFreeRun t q' r') h1) /\ free_runs (r_id r') (hist s) = 1%nat /\ runs (r_id r') (hist s) = 0%nat /\
        forall t' d', ~ In (EAccept t' d' r') (hist s)))).
  2:{ destruct k; try (apply Main; discriminate). exact C2. }
  intros Hkf. assert (C2' : exists r' : req, completions (r_id r) (hist s) = [(d, r')] /\ r_nofail r' = true /\ r_sync r' = false /\ In (ECall t d r') (hist s))
    by (destruct k; try congruence; exact C2).
  assert (C3' : exists r' : req, completions (r_id r) (hist s1) = [(d, r')] /\ r_nofail r' = true /\ r_sync r' = false /\ In (ECall t d r') (hist s1))
    by (destruct k; try congruence; exact C3).
  clear C2 C3. destruct C2' as (r' & C2 & _), C3' as (r3 & C3 & N3 & S3 & L3).
  assert (Er : completions (r_id r) (hist s) = completions (r_id r) h1 ++ completions (r_id r) (EDone q r :: h2)) by (rewrite E, completions_app; reflexivity).
  rewrite <- E1, C3, C2 in Er. injection Er as Er _. subst r3.
  exists r'. split; [exact C2|]. split; [rewrite <- E1; exact C3|]. rewrite <- E1.
  (* its fate *)
  assert (Hut : u = t).
  { destruct (mk_start _ _ _ (i2_marks _ I21 q) _ _ _ Hst3) as [_ ->]. destruct (bs_drv _ (iv_base _ (i2_inv _ I21)) _ _ HD) as (_ & X & _). auto. }
  subst u. destruct (ca_open _ (i2_calls _ I21) _ _ _ L3) as [X|(tr & he & co & pc & X & _)]; [|rewrite HS in X; destruct X].
  unfold decided in X. apply in_flat_map in X. destruct X as (e & He & Hi).
  assert (Horig : r_orig r' <> None).
  { assert (Hc : In (d, r') (completions (r_id r) (hist s1))) by (rewrite C3; left; reflexivity).
    apply in_completions in Hc. destruct Hc as (_ & _ & Hc). congruence. }
  assert (Hfr : forall e', In e' (hist s) -> In (r_id r') (decides e') -> e' = e) by (intros; eapply (fate s); eauto).
  assert (Hfree0 : (forall t0 q0 r0, r_id r0 = r_id r' -> ~ In (EFreeRun t0 q0 r0) (hist s)) -> free_runs (r_id r') (hist s) = 0%nat).
  { intros Hn. unfold free_runs. destruct (filter _ (hist s)) as [|e' l] eqn:El; [reflexivity|exfalso].
    assert (He' : In e' (e' :: l)) by (left; reflexivity). rewrite <- El in He'. apply filter_In in He'. destruct He' as [He' Hf'].
    destruct e'; try discriminate. apply Nat.eqb_eq in Hf'. exact (Hn _ _ _ Hf' He'). }
  destruct e; cbn in Hi; try (destruct Hi; fail); destruct Hi as [Hi|[]].
  - (* accepted *)
    pose proof (i2_evs _ I21 _ He) as Hc. cbn in Hc. destruct (call_unique s1 _ _ _ _ _ _ R1 Hc L3 Hi) as (-> & -> & ->).
    left. split; [exact He|]. apply Hfree0. intros t0 q0 r0 Hr0 Hb. specialize (Hfr _ Hb (or_introl Hr0)). discriminate.
  - pose proof (i2_evs _ I21 _ He) as [Hc Ho]. destruct (call_unique s1 _ _ _ _ _ _ R1 Hc L3 Hi) as (-> & -> & ->). contradiction.
  - (* released in place *)
    pose proof (i2_evs _ I21 _ He) as [[d' Hc] _]. destruct (call_unique s1 _ _ _ _ _ _ R1 Hc L3 Hi) as (-> & -> & ->).
    right. split; [eauto|]. split; [|split].
    + unfold free_runs. assert (Hh : forall h', NoDup (decided h') -> In (EFreeRun t q0 r') h' -> length (filter (fun e => match e with EFreeRun _ _ r => (r_id r =? r_id r')%nat | _ => false end) h') = 1%nat).
      { clear. induction h' as [|e h' IH]; [intros _ []|]. change (decided (e :: h')) with (decides e ++ decided h'). intros ND Hin.
        assert (ND' : NoDup (decided h')) by (clear -ND; induction (decides e); [exact ND|cbn in ND; inversion_clear ND; auto]).
        assert (H0 : forall h'', ~ In (r_id r') (decided h'') -> filter (fun e => match e with EFreeRun _ _ r => (r_id r =? r_id r')%nat | _ => false end) h'' = []).
        { clear. induction h'' as [|e h'' IH]; [reflexivity|]. change (decided (e :: h'')) with (decides e ++ decided h''). rewrite in_app_iff. intros Hn. cbn [filter].
          rewrite IH by tauto. destruct e; try reflexivity. cbn in Hn. destruct (Nat.eqb_spec (r_id r) (r_id r')); [tauto|reflexivity]. }
        destruct Hin as [->|Hin].
        - cbn [filter]. rewrite Nat.eqb_refl. cbn [length]. rewrite H0; [reflexivity|]. cbn in ND. inversion_clear ND; assumption.
        - cbn [filter]. assert (Hn : ~ In (r_id r') (decides e)).
          { intros Hx. assert (Hy : In (r_id r') (decided h')) by (apply in_flat_map; eexists; split; [exact Hin|left; reflexivity]).
            clear - ND Hx Hy. induction (decides e) as [|a l IH]; [destruct Hx|]. cbn in ND. inversion_clear ND as [|? ? X Y]. destruct Hx as [->|Hx]; [apply X, in_or_app; auto|auto]. }
          destruct e; try (apply IH; assumption). cbn in Hn. destruct (Nat.eqb_spec (r_id r) (r_id r')); [tauto|apply IH; assumption]. }
      apply Hh; [apply (dc_nodup _ (iv_decided _ (i2_inv _ I2)))|auto].
    + destruct (runs (r_id r') (hist s)) eqn:En; [reflexivity|exfalso]. destruct (run_fate s (r_id r') R ltac:(lia)) as (_ & e' & He' & Hm).
      assert (X : e' = EFreeRun t q0 r') by (apply Hfr; [exact He'|]; destruct e'; try contradiction; left; exact Hm). subst e'. exact Hm.
    + intros t' d'' Hx. specialize (Hfr _ Hx (or_introl eq_refl)). discriminate.
  - pose proof (i2_evs _ I21 _ He) as [Hc Ho]. destruct (call_unique s1 _ _ _ _ _ _ R1 Hc L3 Hi) as (-> & -> & ->). contradiction.
  - (* a wait entry has another name *)
    exfalso. apply (wn_hist _ (i2_wn _ I21) (r_id r')).
    + apply in_flat_map. eexists. split; [exact He|]. left. exact Hi.
    + apply in_flat_map. eexists. split; [exact L3|]. left. reflexivity.
Qed.
(** A completion is asked for only after the function of the request has
    returned, by the thread of its queue, and on the queue it named; it can
    always be put into that queue (no limit applies to it). *)
Theorem C23_completion_after_run s h1 t d r' i h2 : reachable s -> hist s = h1 ++ ECall t d r' :: h2 -> r_orig r' = Some i ->
  (exists q r, r_id r = i /\ In (EEnd t q r) h1 /\ r_done r = Some d) /\ ordinary r' = false /\
  (forall c, ~ In (ERefuse t d r' c) (hist s)).
Proof.
  intros R E Ho. destruct (hist_split _ _ _ _ R E) as (s1 & s2 & R1 & H1 & E1 & E2). rewrite <- E1 in *.
  pose proof (inv2_reachable _ R1) as I2. pose proof (i2_inv _ I2) as I. split; [|split].
  - on_event H1 E2; [congruence|]. cbn in Ho. injection Ho as <-. exists q, r. repeat split; [|assumption].
    destruct (iv_content _ I q) as [A B C].
    assert (Hr : In r (ends q (hist s1))) by (rewrite C, HP; apply in_or_app; right; left; reflexivity).
    apply in_ends in Hr. destruct Hr as [t' Hr]. pose proof Hr as Hr'. apply in_split in Hr. destruct Hr as (a & b & Hs).
    destruct (hist_split _ _ _ _ R1 Hs) as (s3 & s4 & R3 & H3 & E3 & E4).
    assert (X : s_drv s3 t' = Some q) by (rewrite <- E3 in E4; on_event H3 E4; assumption).
    destruct (bs_drv _ (iv_base _ (inv_reachable _ R3)) _ _ X) as (Y1 & Y2 & _).
    pose proof (proj2 (created s3 q t' (q_max (s_q s3 q)) R3) ltac:(auto)) as [nb Z].
    assert (W : runs_queue t' q (q_max (s_q s3 q)) (hist s1)) by (exists nb; rewrite Hs, <- E3; apply in_or_app; auto).
    apply (created s1) in W; [|exact R1]. destruct W as (_ & W & _).
    destruct (bs_drv _ (iv_base _ I) _ _ HD) as (_ & V & _). replace t with t' by congruence. exact Hr'.
  - on_event H1 E2; [congruence|]. reflexivity.
  - intros c Hc. pose proof (i2_evs _ (inv2_reachable _ R) _ Hc) as [_ X]. congruence.
Qed.
(** It is released in place only if the completion queue does not exist. *)
Theorem C23_free_only_if_gone s h1 t q r' h2 : reachable s -> hist s = h1 ++ EFreeRun t q r' :: h2 ->
  exists d, In (ECall t d r') h1 /\ ~ valid d h1 /\ exists max, runs_queue t q max h1.
Proof.
  intros R E. destruct (hist_split _ _ _ _ R E) as (s1 & s2 & R1 & H1 & E1 & E2). rewrite <- E1 in *.
  pose proof (inv2_reachable _ R1) as I2. pose proof (i2_inv _ I2) as I. clear E.
  on_event H1 E2. 
  match goal with H : s_stack _ _ = FQueue ?d _ _ _ _ _ :: _ |- _ => exists d; pose proof (dc_frame _ (iv_decided _ I) t _ ltac:(rewrite H; left; reflexivity)) as [X _] end.
  split; [exact X|]. rewrite valid_inst by exact R1. split; [congruence|].
  match goal with H : this _ _ = _ |- _ => apply this_drv in H; destruct (bs_drv _ (iv_base _ I) _ _ H) as (Y1 & Y2 & _) end.
  eexists. apply created; eauto.
Qed.

(** ** C24: sleeping producers *)

(** A producer asleep for space is in [q_blocked]; it got there only by
    finding the queue full, and while it is there the queue is full, counting
    the places that are already somebody's to take: a producer that was woken
    and has not run yet, or a signal the queue's thread is about to send. *)
Theorem C24_no_lost_wakeup s q t t0 max : reachable s -> runs_queue t0 q max (hist s) -> In t (q_blocked (s_q s q)) ->
  max <= outstanding q (hist s) \/ q_signalled (s_q s q) <> [] \/
  (exists ph r, q_pc (s_q s q) = PSync ph r) \/ (exists ph, q_pc (s_q s q) = PSignal ph).
Proof.
  intros R Hq Hb. pose proof (inv_reachable _ R) as I. apply (created s) in Hq; [|exact R]. destruct Hq as (_ & _ & <-).
  rewrite outstanding_cnt by exact R. pose proof (ct_wake _ _ (iv_cnt _ I q) (in_ne _ _ Hb)) as H.
  destruct (q_signalled (s_q s q)); [|right; left; discriminate]. cbn [length] in H.
  destruct (q_pc (s_q s q)); cbn [to_signal] in H; try (left; lia); right; right; eauto.
Qed.
(** There are never more free places than woken producers and the signal. *)
Theorem C24_places s q t t0 max : reachable s -> runs_queue t0 q max (hist s) -> In t (q_blocked (s_q s q)) ->
  max - outstanding q (hist s) <= Z.of_nat (length (q_signalled (s_q s q))) +
    match q_pc (s_q s q) with PSync _ _ | PSignal _ => 1 | _ => 0 end.
Proof.
  intros R Hq Hb. pose proof (inv_reachable _ R) as I. apply (created s) in Hq; [|exact R]. destruct Hq as (_ & _ & <-).
  rewrite outstanding_cnt by exact R. pose proof (ct_wake _ _ (iv_cnt _ I q) (in_ne _ _ Hb)) as H. unfold to_signal in H. lia.
Qed.
(** The signal is sent: at these places the queue's thread needs no more than
    two steps of its own, which nobody can prevent, and the last one wakes a
    sleeping producer. *)
Theorem C24_signal_sent s q t : reachable s -> In t (q_blocked (s_q s q)) ->
  (forall ph r, q_pc (s_q s q) = PSync ph r -> exists s', step s s' /\ q_pc (s_q s' q) = PSignal ph /\ q_blocked (s_q s' q) = q_blocked (s_q s q)) /\
  (forall ph, q_pc (s_q s q) = PSignal ph ->
     (exists s', step s s' /\ q_pc (s_q s' q) = PNext ph true) /\
     forall s', step s s' -> q_pc (s_q s' q) <> PSignal ph -> exists u, In u (q_blocked (s_q s q)) /\ In u (q_signalled (s_q s' q))).
Proof.
  intros R Hb. pose proof (inv_reachable _ R) as I.
  assert (Hm : q_made (s_q s q) = true) by (eapply blocked_made; [exact (iv_base _ I)|exact Hb]).
  assert (Hat : forall pc, q_pc (s_q s q) = pc -> pc <> XDead -> match pc with PInit | PRun _ _ _ | PDec _ _ | PTimers | PIofd | XClear => False | _ => True end ->
     at_pc s q (q_thread (s_q s q)) pc).
  { intros pc Hp Hd Hc. assert (HD : s_drv s (q_thread (s_q s q)) = Some q) by (apply (bs_own _ (iv_base _ I)); congruence).
    pose proof (iv_idle _ I _ _ HD) as Hi. rewrite Hp in Hi. repeat split; auto. destruct pc; try contradiction; exact Hi. }
  split.
  - intros ph r Hp. specialize (Hat _ Hp ltac:(discriminate) Logic.I). destruct (r_sync r) eqn:Es.
    + eexists. split; [eapply S_set_sync; eassumption|]. proj. rewrite upd_same. split; reflexivity.
    + eexists. split; [eapply S_not_sync; eassumption|]. proj. rewrite upd_same. split; reflexivity.
  - intros ph Hp. specialize (Hat _ Hp ltac:(discriminate) Logic.I).
    assert (Hw : 0 < q_waitc (s_q s q)).
    { rewrite (ct_waitc _ _ (iv_cnt _ I q)). destruct (q_blocked (s_q s q)); [destruct Hb|]. cbn [length]. lia. }
    split; [eexists; split; [eapply S_signal; eassumption|]; proj; rewrite upd_same; reflexivity|].
    intros s' H Hn.
    assert (HQ : s_q s' q = s_q s q \/ q_pc (s_q s' q) = q_pc (s_q s q) \/ exists u, In u (q_blocked (s_q s q)) /\ In u (q_signalled (s_q s' q))).
    { destruct Hat as (HDq & HSq & HPq).
      revert Hn. destruct H; at_pcs; addsec; proj; unfold upd;
       try match goal with |- context [(?x =? ?y)%nat] => destruct (Nat.eqb_spec x y) as [->|]; [|left; reflexivity] end;
       intros Hn; try (left; reflexivity); try (right; left; ifs; reflexivity); try congruence.
      - right. right. exists u. proj. split; [assumption|left; reflexivity].
      - exfalso. match goal with H : _ \/ _ |- _ => destruct H as [H|H]; [lia|rewrite H in Hb; exact Hb] end. }
    destruct HQ as [HQ|[HQ|HQ]]; [rewrite HQ in Hn; contradiction|congruence|exact HQ].
Qed.

(** ** C25: the thread of the queue *)

(** The thread of the queue is blocked without time limit ([PPoll true]) and
    no byte is in the wake-up pipe.  Then every accepted request that was not
    started comes from a producer that is still inside its own call, before
    the place where it writes the byte, and it will write it, because the flag
    it looks at is set. *)
Theorem C25_no_sleep_on_work s q t : reachable s -> at_pc s q t (PPoll true) -> q_pipe (s_q s q) = 0%nat ->
  forall r, In r (accepts q (hist s)) ->
  In r (starts q (hist s)) \/
  (q_need (s_q s q) = true /\ exists t' treat held code pc rest, s_stack s t' = FQueue q r treat held code pc :: rest /\ (pc = AKick \/ pc = AKickW)).
Proof.
  intros R (HD & HS & HP) Hz r Hin. pose proof (inv2_reachable _ R) as I2. pose proof (i2_inv _ I2) as I.
  destruct (iv_content _ I q) as [A _ _]. rewrite (ct_batch _ _ (iv_cnt _ I q)) in A by (rewrite HP; reflexivity). cbn in A.
  rewrite A in Hin. apply in_app_or in Hin. destruct Hin as [Hin|Hin]; [auto|right].
  split; [apply (wk_need _ _ (i2_wake _ I2 q)); rewrite HP; cbn; lia|].
  destruct (wk_pend _ _ (i2_wake _ I2 q) ltac:(rewrite HP; cbn; lia) r Hin) as [X|[t' X]]; [lia|].
  unfold kicker in X. destruct (s_stack s t') as [|[|q' r' treat held code pc|] rest] eqn:Est; try contradiction.
  destruct X as (-> & -> & X). exists t', treat, held, code, pc, rest. auto.
Qed.
(** Such a producer, scheduled, goes on to write the byte: its first step takes
    it to the write, its second leaves a byte in the pipe; and the queue's
    thread cannot go back to sleep before. *)
Theorem C25_kick_arrives s t q r treat held pc rest s' : reachable s ->
  s_stack s t = FQueue q r treat held 0 pc :: rest -> pc = AKick \/ pc = AKickW -> q_need (s_q s q) = true -> step s s' ->
  s_stack s' t = s_stack s t \/
  (pc = AKick /\ s_stack s' t = FQueue q r treat held 0 AKickW :: rest) \/
  (pc = AKickW /\ (0 < q_pipe (s_q s' q))%nat).
Proof.
  intros R Hs Hp Hn H.
  destruct H; at_pcs;
   try (match goal with Hx : s_stack ?s0 ?u = _ |- _ => destruct (Nat.eq_dec t u) as [->|]; [rewrite Hs in Hx; try discriminate Hx; try (injection Hx; clear Hx; intros; subst; destruct Hp; discriminate)|left; addsec; proj; apply upd_other; assumption] end).
  all: try (match goal with U : user ?s0 ?u |- _ => destruct (Nat.eq_dec t u) as [->|]; [exfalso; destruct U as [[_ U]|[rr U]]; rewrite Hs in U; try discriminate U; injection U; intros; subst; destruct Hp; discriminate|left; proj; apply upd_other; assumption] end).
  all: try (match goal with Hx : _ :: _ = _ |- _ => injection Hx; clear Hx; intros; subst end).
  - left. proj. unfold upd. destruct (Nat.eqb_spec t t0) as [->|]; reflexivity.
  - right. left. proj. rewrite upd_same. auto.
  - congruence.
  - right. right. proj. rewrite upd_same. proj. split; [reflexivity|lia].
  - right. right. proj. rewrite upd_same. proj. auto.
Qed.
(** The same for a request to terminate: a destroy call that is not refused
    was, at some time ([s]), past the place where it asks ([asked]: it waits,
    wakes, is about to return 0).  From then on the thread of the queue sleeps
    without time limit and without a byte in the pipe only as long as a destroy
    call is still before the place where it writes the byte, and it will. *)
Theorem C25_no_sleep_on_destroy s u q w c n pc rest s' t : reachable s -> s_stack s u = FDestroy q true w c 0 n pc :: rest -> asked pc -> steps s s' ->
  at_pc s' q t (PPoll true) -> q_pipe (s_q s' q) = 0%nat ->
  q_need (s_q s' q) = true /\ exists t' i w' c' code n' pc' rest', s_stack s' t' = FDestroy q i w' c' code n' pc' :: rest' /\ (pc' = DKick \/ pc' = DKickW).
Proof.
  intros R0 Hs0 A0 ST (HD & HS & HP) Hz. pose proof (steps_reachable _ _ R0 ST) as R. 
  assert (Ht : q_term (s_q s' q) = true).
  { eapply steps_term; [exact R0|exact ST|]. eapply (term_reachable s R0 u); [rewrite Hs0; left; reflexivity|exact A0]. }
  pose proof (inv2_reachable _ R) as I2.
  split; [apply (wk_need _ _ (i2_wake _ I2 q)); rewrite HP; cbn; lia|].
  destruct (wk_term _ _ (i2_wake _ I2 q) ltac:(rewrite HP; cbn; lia) Ht) as [X|[t' X]]; [lia|].
  unfold dkicker in X. destruct (s_stack s' t') as [|[|?|q' i w' c' code n' pc'] rest'] eqn:Est; try contradiction.
  destruct X as (-> & X). repeat eexists; eauto.
Qed.
(** And the thread of the queue, past that time, does not start a round of waiting again. *)
Theorem C25_destroy_ends_loop s u q w c n pc rest s' t s2 : reachable s -> s_stack s u = FDestroy q true w c 0 n pc :: rest -> asked pc -> steps s s' ->
  at_pc s' q t PTerm -> step s' s2 -> q_pc (s_q s2 q) = PTerm \/ q_pc (s_q s2 q) = XUninst.
Proof.
  intros R0 Hs0 A0 ST (HD & HS & HP) H.
  assert (Ht : q_term (s_q s' q) = true).
  { eapply steps_term; [exact R0|exact ST|]. eapply (term_reachable s R0 u); [rewrite Hs0; left; reflexivity|exact A0]. }
  assert (M : q_made (s_q s' q) = true) by (apply (bs_drv _ (base_reachable _ (steps_reachable _ _ R0 ST)) t q HD)).
  destruct H; at_pcs; addsec; proj; try (left; exact HP); apply (upd_cases _ _ _ _ (fun X => q_pc X = PTerm \/ q_pc X = XUninst)); try (intros; left; exact HP); let X := fresh in intros X; subst; proj; auto; try congruence; try (left; unfold get_ref, put_ref, wake, wake_all; ifs; exact HP).
Qed.

(** ** C48: no use after release *)

(** A call in progress that may touch the queue (it is past taking the
    reference and before giving it back) finds its memory in place; so does
    the queue's own thread; and a waiter's entry is gone from the queue's
    thread only when it was released. *)
Theorem C48_memory_in_place s : reachable s ->
  (forall t f q, In f (s_stack s t) -> frame_q f = Some q -> q_made (s_q s q) = true /\ q_freed (s_q s q) = false) /\
  (forall t q, this s t = Some q -> q_made (s_q s q) = true /\ q_freed (s_q s q) = false) /\
  (forall q, In (EDestroyed q) (hist s) -> q_refs (s_q s q) = []).
Proof.
  intros R. pose proof (inv2_reachable _ R) as I2. pose proof (i2_inv _ I2) as I. repeat split.
  - eapply (bs_made _ (iv_base _ I)); eassumption.
  - rewrite (lf_freed _ _ (iv_life _ I q)). destruct (released (q_pc (s_q s q))) eqn:Er; [exfalso|reflexivity].
    assert (Hf : final (q_pc (s_q s q)) = true) by (destruct (q_pc (s_q s q)); try discriminate; reflexivity).
    pose proof (iv_frames _ I t q) as [F _]. rewrite Forall_forall in F. specialize (F _ H).
    assert (Hm : ~ mine (s_drv s t) q (s_q s q)).
    { intros [_ X]. destruct (q_pc (s_q s q)); discriminate. }
    assert (Hr : frame_ref f <> Some q).
    { intros X. assert (Y : In t (q_refs (s_q s q))); [|rewrite (lf_final _ _ (iv_life _ I q) Hf) in Y; exact Y].
      eapply nrefs_in; [apply (iv_refs _ I t q)|]. clear - H X. induction (s_stack s t) as [|g l IH]; [destruct H|]. cbn.
      destruct H as [->|H]; [unfold ref_on; rewrite X, Nat.eqb_refl; lia|specialize (IH H); lia]. }
    destruct f as [|q' r treat held code pc|q' i w c code n pc]; [discriminate| |].
    + destruct held; [destruct pc; cbn in *; congruence|].
      destruct pc; cbn in H0; try discriminate; injection H0 as ->; cbn in F; intuition congruence.
    + destruct pc; cbn in *; congruence.
  - apply (this_made _ _ _ (iv_base _ I) H).
  - unfold this in H. destruct (s_drv s t) as [d|]; [|discriminate]. destruct (q_pc (s_q s d)) eqn:EP; try discriminate H;
     injection H as ->; rewrite (lf_freed _ _ (iv_life _ I q)), EP; reflexivity.
  - intros q H. apply (mk_dest _ _ _ (i2_marks _ I2 q)) in H. apply (lf_final _ _ (iv_life _ I q)).
    destruct (q_pc (s_q s q)); try discriminate; reflexivity.
Qed.

(** ** The full statement of C22 fails: a request made by the fini callback on
    its own queue (the id is not valid any more, but the queue treats its own
    thread specially, mpq.c 268-278) is accepted, reported as successful, and
    never run: fini is called (829) after the last look at the queue (823-827). *)
Theorem C22_refuted : exists s h1 t q w h2 t' r,
  reachable s /\ hist s = h1 ++ EWaitReturn t q w 0 :: h2 /\ In (EAddWait t q w) h1 /\
  In (EAccept t' q r) h1 /\ In (EReturn t' q r 0) h1 /\
  forall s' h', reachable s' -> hist s' = hist s ++ h' -> runs (r_id r) (hist s') = 0%nat.
Proof.
  destruct mpq_execution as (_ & s & R & E).
  exists s, (removelast story), 0%nat, 0%nat, 5%nat, [], 1%nat, R6.
  split; [exact R|]. split; [rewrite E; reflexivity|]. do 3 (split; [vm_compute; tauto|]).
  intros s' h' R' E'. destruct (runs (r_id R6) (hist s')) eqn:En; [reflexivity|exfalso].
  assert (Hp : (0 < runs (r_id R6) (hist s'))%nat) by lia. apply runs_pos in Hp. destruct Hp as (e & He & Hc).
  assert (Ha : In (EAccept 1%nat 0%nat R6) (hist s')) by (rewrite E', E; apply in_or_app; left; vm_compute; tauto).
  assert (Hd : exists a b, hist s' = a ++ EDestroyed 0%nat :: b /\ In e b).
  { assert (Hst : e = e /\ ~ In e story).
    { split; [reflexivity|]. intros Hs. destruct e; try discriminate Hc; vm_compute in Hs;
       repeat (destruct Hs as [Hs|Hs]; [try discriminate Hs; injection Hs; intros; subst; discriminate Hc|]); exact Hs. }
    rewrite E', E in He. apply in_app_or in He. destruct He as [He|He]; [destruct Hst; contradiction|].
    exists (removelast (removelast story)), (EWaitReturn 0%nat 0%nat 5%nat 0 :: h'). split; [rewrite E', E; reflexivity|right; exact He]. }
  destruct Hd as (a & b & Hd & Hb). pose proof (C22_nothing_after _ _ _ _ R' Hd e Hb) as X.
  destruct e; try discriminate Hc; cbn in Hc; apply Nat.eqb_eq in Hc.
  - assert (Y : In r (accepts q (hist s'))) by (apply starts_sub; [exact R'|]; apply in_starts; eauto).
    apply in_accepts in Y. destruct Y as [t9 Y].
    assert (Z : EAccept t9 q r = EAccept 1%nat 0%nat R6) by (eapply (fate s'); [exact R'|exact Y|exact Ha|left; exact Hc|left; reflexivity]).
    injection Z; intros; congruence.
  - assert (Z : EInline t q r k = EAccept 1%nat 0%nat R6) by (eapply (fate s'); [exact R'|exact He|exact Ha|left; exact Hc|left; reflexivity]).
    discriminate.
Qed.

(** ** The hypotheses are met *)

(* C19, C20, C21, C23: the execution of MpqEx.v *)
Example C19_witness : exists s, reachable s /\ starts 0%nat (hist s) = [R0; R1] /\ accepts 1%nat (hist s) = [C0; R3] /\
  (exists h1 h2, hist s = h1 ++ EReturn 0%nat 1%nat R3 0 :: h2) /\ (exists h1 h2, hist s = h1 ++ EStart 1%nat 0%nat R1 KNull :: h2).
Proof.
  destruct mpq_execution as (_ & s & R & E). exists s. rewrite E. split; [exact R|]. split; [reflexivity|]. split; [reflexivity|].
  split; [exists (firstn 19 story), (skipn 20 story)|exists (firstn 13 story), (skipn 14 story)]; reflexivity.
Qed.
Example C20_witness : exists s h1 h2 h1' h2', reachable s /\ hist s = h1 ++ ERefuse 0%nat 1%nat R4 (- AOSL_EAGAIN) :: h2 /\
  runs_queue 2%nat 1%nat 2 h1 /\ outstanding 1%nat h1 = 2 /\ outstanding_ordinary 1%nat h1 = 1 /\
  hist s = h1' ++ EAccept 3%nat 0%nat R1 :: h2' /\ runs_queue 1%nat 0%nat 1 h1' /\ outstanding 0%nat h1' = 0.
Proof.
  destruct mpq_execution as (_ & s & R & E). exists s, (firstn 21 story), (skipn 22 story), (firstn 12 story), (skipn 13 story).
  rewrite E. repeat split; auto; eexists; vm_compute; tauto.
Qed.
Example C21_witness : exists s h1 h2, reachable s /\ hist s = h1 ++ EReturn 3%nat 0%nat R1 0 :: h2 /\ r_sync R1 = true /\ In (EAccept 3%nat 0%nat R1) h1.
Proof.
  destruct mpq_execution as (_ & s & R & E). exists s, (firstn 16 story), (skipn 17 story). rewrite E. repeat split; auto. vm_compute. tauto.
Qed.
Example C21_inline_witness : exists s h1 h2, reachable s /\ hist s = h1 ++ EReturn 1%nat 0%nat (rq 0 None true) 0 :: h2 /\
  In (EInline 1%nat 0%nat (rq 0 None true) KNull) h1.
Proof. destruct mpq_inline as (s & R & E). exists s, (firstn 4 (hist s)), []. rewrite E. split; [exact R|]. split; [reflexivity|]. vm_compute. tauto. Qed.
Example C22_witness : exists s h1 h2 h3 h4, reachable s /\ hist s = h1 ++ EWaitReturn 0%nat 0%nat 5%nat 0 :: h2 /\ In (EAddWait 0%nat 0%nat 5%nat) h1 /\
  In (EAccept 3%nat 0%nat R1) h1 /\ (forall max, ~ runs_queue 3%nat 0%nat max h1) /\
  hist s = h3 ++ EFini 0%nat :: h4 /\ accepts 0%nat h3 = [R0; R1] /\ In (EDestroyed 0%nat) h4.
Proof.
  destruct mpq_execution as (_ & s & R & E). exists s, (removelast story), [], (firstn 25 story), (skipn 26 story).
  rewrite E. repeat split; auto; try (vm_compute; tauto).
  intros max [nb H]. vm_compute in H. repeat (destruct H as [H|H]; [discriminate H|]). exact H.
Qed.
Example C23_witness : exists s h1 h2, reachable s /\ hist s = h1 ++ EDone 0%nat R0 :: h2 /\ In (EStart 1%nat 0%nat R0 KLive) h1 /\ r_done R0 = Some 1%nat /\
  In (EAccept 1%nat 1%nat C0) h1.
Proof.
  destruct mpq_execution as (_ & s & R & E). exists s, (firstn 11 story), (skipn 12 story). rewrite E. repeat split; auto; vm_compute; tauto.
Qed.
Example C23_free_witness : exists s h1 r', reachable s /\ hist s = h1 ++ [EDone 0%nat R0] /\ In (EFreeRun 1%nat 0%nat r') h1.
Proof. destruct mpq_free_run as (s & R & E). exists s, (firstn 8 (hist s)), (mkReq 1 None false true (Some 0%nat)). rewrite E. split; [exact R|]. split; [reflexivity|]. vm_compute. tauto. Qed.
Example C24_witness : exists s, reachable s /\ runs_queue 1%nat 0%nat 1 (hist s) /\ In 3%nat (q_blocked (s_q s 0%nat)).
Proof. exact (proj1 mpq_execution). Qed.
Example C25_witness : exists s, reachable s /\ at_pc s 0%nat 1%nat (PPoll true) /\ q_pipe (s_q s 0%nat) = 0%nat /\
  In R0 (accepts 0%nat (hist s)) /\ ~ In R0 (starts 0%nat (hist s)).
Proof. exact mpq_blocked. Qed.

Example C25_destroy_witness : exists s, reachable s /\ s_stack s 0%nat = [FDestroy 0%nat true false false 0 0%nat DKick] /\ asked DKick /\ steps s s /\ at_pc s 0%nat 1%nat (PPoll true) /\ q_pipe (s_q s 0%nat) = 0%nat.
Proof. destruct mpq_blocked_destroy as (s & R & A & P & K). exists s. repeat split; auto; try apply A. constructor. Qed.

Print Assumptions C19_in_order. Print Assumptions C19_once. Print Assumptions C19_one_thread. Print Assumptions C19_none_lost.
Print Assumptions C19_call_order. Print Assumptions C20_limit. Print Assumptions C20_accept_refuse. Print Assumptions C20_full_refuses.
Print Assumptions C20_refusals. Print Assumptions C20_refused_never_runs. Print Assumptions C21_returns_after_run. Print Assumptions C21_own_queue_inline.
Print Assumptions C22_all_run_before_fini. Print Assumptions C22_wait_ends_after. Print Assumptions C22_waiters_released. Print Assumptions C22_nothing_after.
Print Assumptions C22_late_requests. Print Assumptions C22_executed_before_waiter_partial. Print Assumptions C22_refuted. Print Assumptions C23_completion_once.
Print Assumptions C23_completion_after_run. Print Assumptions C23_free_only_if_gone. Print Assumptions C24_no_lost_wakeup. Print Assumptions C24_places.
Print Assumptions C24_signal_sent. Print Assumptions C25_no_sleep_on_work. Print Assumptions C25_kick_arrives. Print Assumptions C25_no_sleep_on_destroy. Print Assumptions C25_destroy_ends_loop.
Print Assumptions C48_memory_in_place.
