(** * Timer queue: histories, identity of timers, termination, waiting, teardown. *)
From Coq Require Import Sorting.Sorted Permutation.
From Verif Require Import Base Rbtree RbtreeProof RbtreeErase RbtreeSpec RbtreeThms Timer TimerSpec TimerProof TimerThms TimerOps TimerApi TimerRun.

(** ** Timers are never resurrected *)
(** Every timer whose handle resolves in [s'] either had a resolving handle
    in [s] at the same address, or was created since. *)
Definition lineage (s s' : tst) : Prop :=
  (t_uid s <= t_uid s')%nat /\
  (forall x n', t_cell s' x = Some n' -> tn_installed n' = true ->
     (exists n, t_cell s x = Some n /\ tn_installed n = true /\ tn_uid n = tn_uid n') \/ (t_uid s <= tn_uid n')%nat) /\
  (exists d, t_dtors s' = d ++ t_dtors s).
Lemma lineage_refl s : lineage s s.
Proof. split; [lia|]. split; [eauto|exists []; auto]. Qed.
Lemma lineage_trans s s' s'' : lineage s s' -> lineage s' s'' -> lineage s s''.
Proof.
  intros (A1 & A2 & d & A3) (B1 & B2 & d' & B3). split; [lia|]. split.
  - intros x n Hn Hi. destruct (B2 x n Hn Hi) as [(m & Hm & Hmi & E)|G]; [|right; lia].
    destruct (A2 x m Hm Hmi) as [(k & Hk & Hki & E')|G]; [left; exists k; intuition congruence|right; lia].
  - exists (d' ++ d). rewrite B3, A3, app_assoc. auto.
Qed.
Lemma lineage_cell s s' : t_uid s' = t_uid s -> t_cell s' = t_cell s -> t_dtors s' = t_dtors s -> lineage s s'.
Proof. intros E1 E2 E3. split; [lia|]. split; [rewrite E2; eauto|exists []; auto]. Qed.

Definition lin {A} (m : TM A) : Prop := forall s v s', m s = Ok (v, s') -> lineage s s'.
Lemma lin_bind {A B} (m : TM A) (k : A -> TM B) : lin m -> (forall x, lin (k x)) -> lin (tbind m k).
Proof.
  intros H1 H2 s v s'. unfold tbind, bind. destruct (m s) as [[x s1]| | ] eqn:E; try discriminate.
  intros E'. eapply lineage_trans; [eapply H1; eauto|eapply H2; eauto].
Qed.
Lemma lin_ret {A} (x : A) : lin (tret x).
Proof. intros s v s' [= <- <-]. apply lineage_refl. Qed.
Lemma lin_tld a : lin (tld a).
Proof. intros s v s'. unfold tld. destruct (t_cell s a); [|discriminate]. intros [= <- <-]. apply lineage_refl. Qed.
Lemma lin_tmod a f : (forall n, tn_uid (f n) = tn_uid n) -> (forall n, tn_installed (f n) = true -> tn_installed n = true) -> lin (tmod a f).
Proof.
  intros H1 H2 s v s'. unfold tmod. destruct (t_cell s a) as [n|] eqn:E; [|discriminate]. intros [= <- <-].
  split; [simpl; lia|]. split; [|exists []; auto]. intros x n' Hn Hi. cbn in Hn. left. unfold cupd in Hn.
  destruct (Nat.eqb_spec x a) as [->|].
  - injection Hn as <-. exists n. auto.
  - exists n'. auto.
Qed.
Lemma lin_onrb {A} (m : M A) : lin (onrb m).
Proof.
  intros s v s'. unfold onrb, bind. destruct (m (t_rb s)) as [[x r]| | ]; try discriminate. intros [= <- <-]. now apply lineage_cell.
Qed.
Lemma lin_fun {A} (m : tst -> TM A) : (forall s, lin (m s)) -> lin (fun s => m s s).
Proof. intros H s v s' E. eapply H; eauto. Qed.
Lemma lin_first f : lin (fun s => Ok (tt, put_first (f s) s)).
Proof. intros s v s' [= <- <-]. now apply lineage_cell. Qed.
Lemma lin_first0 f : lin (fun s => Ok (tt, put_first f s)).
Proof. intros s v s' [= <- <-]. now apply lineage_cell. Qed.
Lemma lin_all f : lin (fun s => Ok (tt, put_all (f s) s)).
Proof. intros s v s' [= <- <-]. now apply lineage_cell. Qed.
Lemma lin_ub {A} : lin (fun _ => @UB (A * tst)).
Proof. intros s v s' [=]. Qed.
Lemma lin_tick : lin tick_now.
Proof. intros s v s' [= <- <-]. now apply lineage_cell. Qed.
Ltac lintac :=
  repeat first
    [ apply lin_ret | apply lin_tld | apply lin_tick | apply lin_onrb
    | apply lin_tmod; [reflexivity|cbn; intros; first [assumption|discriminate]]
    | apply lin_bind; [|intros] | apply lin_first0 | apply lin_first | apply lin_all | apply lin_ub
    | match goal with |- lin (if ?b then _ else _) => destruct b end
    | match goal with |- lin (match ?b with _ => _ end) => destruct b end ].
Lemma lin_stamp a : lin (stamp a).
Proof.
  intros s v s' H. unfold stamp in H. eapply lineage_trans; [|eapply (lin_tmod a (with_serial (t_serial s))); eauto]. now apply lineage_cell.
Qed.
Lemma lin_insert a : lin (insert_timer a).
Proof.
  unfold insert_timer. apply lin_bind; [apply lin_stamp|]. intros _. apply lin_bind.
  - apply (lin_fun (fun s => onrb _)). intros s. apply lin_onrb.
  - intros [[lk prev] par]. apply lin_bind.
    + unfold link_list. lintac.
    + intros _. apply (lin_fun (fun s => onrb _)). intros s. apply lin_onrb.
Qed.
Lemma lin_unlink a : lin (unlink_timer a).
Proof.
  unfold unlink_timer, unlink_list. apply lin_bind.
  - apply lin_bind; [apply lin_tld|]. intros n. apply lin_bind; [|intros; lintac].
    apply (lin_fun (fun s s0 => if ptr_eqb (t_first s) (Some a) then _ else _)).
    intros s. destruct (ptr_eqb (t_first s) (Some a)).
    + destruct (tn_next n) as [|x|].
      * intros s1 v s' [= <- <-]. now apply lineage_cell.
      * apply (lin_bind (tmod x (with_prev LNull)) (fun _ => _)); [lintac|intros _; lintac].
      * apply lin_ub.
    + destruct (tn_prev n) as [|p|]; [apply lin_ub| |apply lin_ub].
      apply (lin_bind (tmod p (with_next (tn_next n))) (fun _ => _)); [lintac|intros _; lintac].
  - intros _. apply (lin_fun (fun s => onrb _)). intros s. apply lin_onrb.
Qed.
Lemma lin_cancel a : lin (cancel_on_q a).
Proof. unfold cancel_on_q. apply lin_bind; [apply lin_tld|]. intros n. destruct (is_linked n); [apply lin_unlink|apply lin_ret]. Qed.
Lemma lin_sched a e : lin (sched_timer a e).
Proof. unfold sched_timer. apply lin_bind; [lintac|]. intros _. apply lin_insert. Qed.
Lemma lin_resched a i e : lin (resched_on_q a i e).
Proof. unfold resched_on_q. apply lin_bind; [apply lin_cancel|]. intros _. apply lin_bind; [lintac|]. intros _. apply lin_sched. Qed.
Lemma lin_create a i : lin (create_on_q a i).
Proof.
  intros s v s' [= <- <-]. split; [simpl; lia|]. split; [|exists []; auto]. intros x n' Hn Hi. cbn in Hn. unfold cupd in Hn.
  destruct (Nat.eqb_spec x a) as [->|].
  - injection Hn as <-. right. simpl. lia.
  - left. exists n'. auto.
Qed.
Lemma lin_put a : lin (timer_put a).
Proof.
  unfold timer_put. apply lin_bind; [apply lin_tld|]. intros n. apply lin_bind; [lintac|]. intros _.
  destruct (tn_usage n - 1 =? 0); [|apply lin_ret]. intros s v s'. unfold free_timer. destruct (t_cell s a) as [m|]; [|discriminate].
  intros [= <- <-]. split; [simpl; lia|]. split; [|exists [tn_uid m]; auto]. intros x n' Hn Hi. cbn in Hn. unfold cupd in Hn.
  destruct (Nat.eqb_spec x a); [discriminate|]. left. exists n'. auto.
Qed.
Lemma lin_get a : lin (timer_get a).
Proof.
  intros s v s'. unfold timer_get. destruct (t_cell s a) as [n|] eqn:E; [destruct (tn_installed n)|].
  - apply (lin_bind (tmod a (with_usage (tn_usage n + 1))) (fun _ => tret true)); [lintac|intros _; lintac].
  - intros [= <- <-]. apply lineage_refl.
  - intros [= <- <-]. apply lineage_refl.
Qed.
Lemma lin_kill a : lin (kill_on_q a).
Proof.
  unfold kill_on_q. apply lin_bind; [apply lin_tld|]. intros n. destruct (tn_installed n); [|apply lin_ret].
  apply lin_bind; [lintac|]. intros _. apply lin_bind; [apply lin_cancel|]. intros _. apply lin_bind; [apply lin_all|].
  intros _. apply lin_bind; [apply lin_put|]. intros _. apply lin_ret.
Qed.
Lemma lin_guard b m : lin m -> lin (guard b m).
Proof.
  intros H s v s'. unfold guard. destruct (b s); [|intros [= <- <-]; apply lineage_refl].
  apply (lin_bind m (fun _ => tret tt)); auto. intros; apply lin_ret.
Qed.
Lemma lin_exec_cop c : lin (exec_cop c).
Proof.
  destruct c; cbn [exec_cop]; apply lin_guard.
  - unfold api_create. destruct (s64 interval <? 0); [apply lin_ret|]. apply lin_bind; [apply lin_create|intros; apply lin_ret].
  - apply lin_bind; [apply lin_create|intros; apply lin_ret].
  - unfold api_set, set_on_q. destruct (s64 interval <? 0); [apply lin_ret|]. apply lin_bind; [|intros; apply lin_ret].
    apply lin_bind; [apply lin_create|intros; apply lin_sched].
  - unfold api_set_oneshot, set_on_q. destruct (expire =? 0); [apply lin_ret|]. apply lin_bind; [|intros; apply lin_ret].
    apply lin_bind; [apply lin_create|intros; apply lin_sched].
  - unfold api_set_oneshot_on_q, set_on_q. apply lin_bind; [|intros; apply lin_ret].
    apply lin_bind; [apply lin_create|intros; apply lin_sched].
  - unfold api_resched. apply lin_bind; [apply lin_get|]. intros ok. destruct (negb ok); [apply lin_ret|].
    apply lin_bind; [apply lin_tld|]. intros n. apply lin_bind.
    + match goal with |- lin (if ?b then _ else _) => destruct b end; [apply lin_ret|].
      apply lin_bind; [apply lin_resched|intros; apply lin_ret].
    + intros r. apply lin_bind; [apply lin_put|intros; apply lin_ret].
  - unfold api_resched_oneshot. destruct (expire =? 0); [apply lin_ret|]. apply lin_bind; [apply lin_get|]. intros ok. destruct (negb ok); [apply lin_ret|].
    apply lin_bind; [apply lin_resched|]. intros _. apply lin_bind; [apply lin_put|intros; apply lin_ret].
  - unfold api_cancel. apply lin_bind; [apply lin_get|]. intros ok. destruct (negb ok); [apply lin_ret|].
    apply lin_bind; [apply lin_cancel|]. intros _. apply lin_bind; [apply lin_put|intros; apply lin_ret].
  - unfold api_kill. apply lin_bind; [apply lin_get|]. intros ok. destruct (negb ok); [apply lin_ret|].
    apply lin_bind; [apply lin_kill|]. intros e. apply lin_bind; [apply lin_put|intros; apply lin_ret].
  - unfold remote_get. apply lin_bind; [apply lin_get|]. intros ok. destruct ok; [|apply lin_ret].
    intros s v s' [= <- <-]. now apply lineage_cell.
  - unfold remote_put. apply lin_bind; [apply lin_put|]. intros _ s v s' [= <- <-]. now apply lineage_cell.
Qed.
Lemma lin_exec_cops cs : lin (exec_cops cs).
Proof. induction cs; cbn [exec_cops]; [apply lin_ret|]. apply lin_bind; [apply lin_exec_cop|auto]. Qed.
Lemma lin_fire_head now a : lin (fire_head now a).
Proof.
  unfold fire_head. apply lin_bind; [apply lin_unlink|]. intros _. apply lin_bind; [apply lin_tld|]. intros n.
  destruct (negb (tn_interval n =? INVALID_INTERVAL)); [|apply lin_ret]. apply lin_bind; [apply lin_tick|]. intros t.
  apply lin_bind; [lintac|]. intros; apply lin_insert.
Qed.
Lemma fires_lineage cb now i s fs s' : fires cb now i s fs s' ->
  lineage s s' /\ Forall (fun f => lineage s (f_picked f)) fs.
Proof.
  induction 1 as [i s|i s a s1 s2 fs s' He Hd H1 H2 HF (IH1 & IH2)]; [split; [apply lineage_refl|constructor]|].
  assert (L2 : lineage s s2). { eapply lineage_trans; [eapply lin_fire_head; eauto|eapply lin_exec_cops; eauto]. }
  split; [eapply lineage_trans; eauto|]. constructor; [apply lineage_refl|].
  eapply Forall_impl; [|exact IH2]. intros f Hf. eapply lineage_trans; eauto.
Qed.

Lemma fires_picked (cb : nat -> nat -> list cop) now : (forall i a, Forall cop_ok (cb i a)) ->
  forall i s fs s', fires cb now i s fs s' -> TIh s -> Forall (fun f => TIh (f_picked f)) fs.
Proof.
  intros Hp i s fs s' HF. induction HF as [|i s0 a s2 s3 fs s' He Hd H1 H2 HF IH]; intros HT; constructor; auto. apply IH.
  destruct (fires_step _ _ _ _ _ _ _ Hp HT He H1 H2) as (_ & ? & _). auto.
Qed.

(** ** Histories of a queue *)
Lemma init_TIh clk : TIh (timers_init clk).
Proof.
  exists []. split; [|split; [|intros x []]].
  - constructor; simpl; try discriminate; auto.
    + exists E, 0%nat. split; [|split; [constructor|reflexivity]]. split; [reflexivity|]. split; [exact I|]. simpl; auto.
    + constructor.
    + tauto.
    + intros x [].
  - constructor; simpl; try discriminate; auto; try constructor; try tauto.
    all: intros; lia.
Qed.

Lemma max_wait_ok s : TIh s -> tr max_wait_time s (fun r s' =>
  (s' = s \/ s' = with_tick (S (t_tick s)) s) /\
  ((r = -1 /\ forall a, timer_active s a = false) \/
   exists a, earliest s a /\ s' = with_tick (S (t_tick s)) s /\
      let ms := s64 (expire_of s a - clock_at s (t_tick s)) in r = if ms <? 0 then 0 else ms)).
Proof.
  intros (l & HI). unfold max_wait_time, tr. rewrite (tc_first _ _ (proj1 HI)). destruct l as [|a l]; simpl hd_error; cbv iota.
  - split; auto. left. split; auto. intros a. rewrite (active_in _ _ (proj1 HI)). auto.
  - destruct (TC_cell _ _ a (proj1 HI) (or_introl eq_refl)) as (n & Hn & _).
    unfold tbind, bind, tld, tick_now, tret. rewrite Hn. cbv beta iota. split; [right; reflexivity|]. right. exists a.
    split; [apply (TC_earliest _ _ _ (proj1 HI)); eauto|]. split; [reflexivity|]. cbv zeta. rewrite (expire_of_cell _ _ _ Hn). reflexivity.
Qed.

Lemma exec_tev_ok s e : TIh s -> ev_pre s e -> tr (exec_tev e) s (fun fs s' => TIh s' /\ cle s s' /\
  (forall b, ~ ev_arms b e -> timer_active s b = false -> timer_active s' b = false /\ ~ In b (map f_timer fs)) /\
  lineage s s' /\ Forall (fun f => TIh (f_picked f) /\ lineage s (f_picked f)) fs).
Proof.
  intros HT Hp. destruct e as [c|a i x|a|a|cb loops|]; cbn [exec_tev]; cbn [ev_pre] in Hp.
  - destruct HT as (l & HI). apply tr_bind. pose proof (exec_cop_ok s l c HI Hp) as H. unfold tr in *.
    destruct (exec_cop c s) as [[u s1]| | ] eqn:E; auto. unfold tret.
    split; [apply H|]. split; [apply H|]. split; [|split; [eapply lin_exec_cop; eauto|constructor]].
    intros b Hb Hn. split; auto. eapply kept_inactive'; eauto. eapply opost_kept; eauto.
    destruct (arms c) eqn:Ea; auto. simpl. apply Nat.eqb_neq. intros Eb. apply Hb. simpl. auto.
  - destruct Hp as (Hh & Hu & Hi & Hx). destruct HT as (l & HI). assert (Hin := Hu). apply (usable_in _ _ _ _ HI) in Hin.
    destruct Hu as (n & Hn & _). apply tr_bind. pose proof (resched_ok s l _ a n i x HI Hin Hn Hi Hx) as H. unfold tr, remote_resched in *.
    destruct (resched_on_q a i x s) as [[u s1]| | ] eqn:E; auto. destruct H as (l' & HI' & _ & Ef & _). unfold tret.
    split; [exists l'; destruct Ef as (_ & _ & -> & _); auto|]. split; [eapply eff_cle; eauto|].
    split; [|split; [eapply lin_resched; eauto|constructor]]. intros b Hb Hn'. split; auto. cbn in Hb.
    destruct (proj2 (proj2 (proj2 (proj2 Ef))) b) as (V & _); auto. congruence.
  - destruct HT as (l & HI). destruct (t_cell s a) as [n|] eqn:Hn; [|rewrite (tb_none _ _ (proj1 (proj2 HI)) a Hn) in Hp; lia].
    apply tr_bind. pose proof (cancel_TI s l _ a n HI Hn) as H. unfold tr, remote_cancel in *.
    destruct (cancel_on_q a s) as [[u s1]| | ] eqn:E; auto. destruct H as (HI' & Ef & _). unfold tret.
    split; [eexists; destruct Ef as (_ & _ & -> & _); eauto|]. split; [eapply eff_cle; eauto|].
    split; [|split; [eapply lin_cancel; eauto|constructor]]. intros b _ Hb. split; auto.
    rewrite (active_in _ _ (proj1 HI')). rewrite (active_in _ _ (proj1 HI)) in Hb.
    destruct (in_dec Nat.eq_dec b l) as [|G]; [discriminate|]. destruct (in_dec Nat.eq_dec b (without a l)) as [G'|]; auto.
    apply without_in in G'. tauto.
  - destruct HT as (l & HI). destruct (t_cell s a) as [n|] eqn:Hn; [|rewrite (tb_none _ _ (proj1 (proj2 HI)) a Hn) in Hp; lia].
    apply tr_bind. unfold remote_kill. apply tr_bind. pose proof (kill_ok s l _ a n HI Hn) as H. unfold tr in *.
    destruct (kill_on_q a s) as [[r s1]| | ] eqn:E; auto. destruct H as (Ef & _ & Hc). unfold tret.
    assert (HT1 : TIh s1 /\ (forall b, timer_active s b = false -> timer_active s1 b = false)).
    { destruct Hc as [(_ & _ & HI' & _)|(_ & _ & ->)]; [|split; [exists l|]; auto].
      split; [eexists; destruct Ef as (_ & _ & -> & _); eauto|]. intros b Hb.
      rewrite (active_in _ _ (proj1 HI')). rewrite (active_in _ _ (proj1 HI)) in Hb.
      destruct (in_dec Nat.eq_dec b l) as [|G]; [discriminate|]. destruct (in_dec Nat.eq_dec b (without a l)) as [G'|]; auto.
      apply without_in in G'. tauto. }
    split; [apply HT1|]. split; [eapply eff_cle; eauto|]. split; [|split; [eapply lin_kill; eauto|constructor]].
    intros b _ Hb. split; auto. apply HT1. auto.
  - apply tr_bind. pose proof (run_timers_ok cb loops s Hp HT) as H. unfold tr in *.
    destruct (run_timers cb loops s) as [[r s1]| | ]; auto. destruct H as (HT1 & HF & _). unfold tret.
    assert (HTt := with_tick_TIh (S (t_tick s)) s HT). assert (Lt : lineage s (with_tick (S (t_tick s)) s)) by now apply lineage_cell.
    destruct (fires_TIh _ _ Hp _ _ _ _ HF HTt) as (_ & HC). destruct (fires_lineage _ _ _ _ _ _ HF) as (L1 & L2).
    split; auto. split; [eapply cle_trans; [|exact HC]; split; [auto|simpl; split; lia]|]. split; [|split; [apply (lineage_trans _ _ _ Lt L1)|]].
    + intros b Hb Hn. apply (fires_inactive cb (clock_at s (t_tick s)) b Hp) with (i := 0%nat) (s := with_tick (S (t_tick s)) s); auto.
      intros i a. destruct (arms_on b (cb i a)) eqn:E; auto. exfalso. apply Hb. simpl. eauto.
    + clear - HF Hp HTt Lt L2.
      assert (G : Forall (fun f => TIh (f_picked f)) (snd r)).
      { eapply fires_picked; eauto. }
      rewrite Forall_forall in G, L2. apply Forall_forall. intros f Hf. split; auto. eapply lineage_trans; eauto.
  - apply tr_bind. eapply tr_conseq; [apply max_wait_ok; auto|]. intros r s1 (Hs & _). apply tr_ret.
    assert (E : TIh s1 /\ cle s s1 /\ t_cell s1 = t_cell s /\ t_uid s1 = t_uid s /\ t_dtors s1 = t_dtors s).
    { destruct Hs as [->| ->]; [auto using cle_refl|]. split; [now apply with_tick_TIh|]. split; [|auto]. split; [auto|]. simpl. split; lia. }
    destruct E as (E1 & E2 & E3 & E4 & E5).
    split; auto. split; auto. split; [|split; [now apply lineage_cell|constructor]]. intros b _ Hb. split; auto.
    unfold timer_active in *. now rewrite E3.
Qed.

(** Every step of a history succeeds (no undefined behaviour), and the
    invariant holds throughout. *)
Lemma tsteps_ok s es fs s' : tsteps s es fs s' -> TIh s -> TIh s' /\ cle s s' /\ lineage s s' /\
  Forall (fun f => TIh (f_picked f) /\ lineage s (f_picked f)) fs.
Proof.
  induction 1 as [s|s e es f s1 fs s' Hp He HS IH]; intros HT; [split; [auto|split; [apply cle_refl|split; [apply lineage_refl|constructor]]]|].
  pose proof (exec_tev_ok s e HT Hp) as H. unfold tr in H. rewrite He in H. destruct H as (HT1 & C1 & _ & L1 & F1).
  destruct (IH HT1) as (HT2 & C2 & L2 & F2). split; auto. split; [eapply cle_trans; eauto|]. split; [eapply lineage_trans; eauto|].
  apply Forall_app. split; auto. eapply Forall_impl; [|exact F2]. intros g (G1 & G2). split; auto. eapply lineage_trans; eauto.
Qed.
Lemma reachable_TIh s : reachable s -> TIh s.
Proof. intros (clk & es & fs & H). eapply tsteps_ok; [exact H|]. apply init_TIh. Qed.
Lemma tsteps_app s es fs s' es2 fs2 s'' : tsteps s es fs s' -> tsteps s' es2 fs2 s'' -> tsteps s (es ++ es2) (fs ++ fs2) s''.
Proof.
  induction 1 as [s|s e es f s1 fs s' Hp He HS IH]; intros H2; auto. simpl. rewrite <- app_assoc. econstructor; eauto.
Qed.
Lemma reachable_step s es fs s' : reachable s -> tsteps s es fs s' -> reachable s'.
Proof. intros (clk & es0 & fs0 & H) H2. exists clk, (es0 ++ es), (fs0 ++ fs). eapply tsteps_app; eauto. Qed.

Lemma tsteps_inactive b s es fs s' : tsteps s es fs s' -> TIh s -> Forall (fun e => ~ ev_arms b e) es ->
  timer_active s b = false -> timer_active s' b = false /\ ~ In b (map f_timer fs).
Proof.
  induction 1 as [s|s e es f s1 fs s' Hp He HS IH]; intros HT HF Hn; [auto|]. inversion HF as [|? ? Hb HF']; subst.
  pose proof (exec_tev_ok s e HT Hp) as H. unfold tr in H. rewrite He in H. destruct H as (HT1 & _ & N1 & _).
  destruct (N1 b Hb Hn) as (A1 & A2). destruct (IH HT1 HF' A1) as (B1 & B2). split; auto.
  rewrite map_app, in_app_iff. tauto.
Qed.

Lemma active_usable s a : TIh s -> timer_active s a = true -> usable s a.
Proof.
  intros (l & HI) H. apply (TC_active _ _ _ (proj1 HI)) in H. apply (usable_in _ _ _ _ HI). apply (proj2 (proj2 HI)). auto.
Qed.

(** ** Termination of the run *)
Fixpoint nsum (w : nat -> nat) (l : list nat) : nat := match l with [] => 0 | x :: l => w x + nsum w l end.
Lemma nsum_app w l1 l2 : nsum w (l1 ++ l2) = (nsum w l1 + nsum w l2)%nat.
Proof. induction l1; simpl; lia. Qed.
Lemma nsum_le w w' l2 : forall l, NoDup l2 -> incl l2 l -> (forall x, In x l2 -> (w' x <= w x)%nat) -> (nsum w' l2 <= nsum w l)%nat.
Proof.
  induction l2 as [|a l2 IH]; intros l ND Hi Hw; simpl; [lia|]. inversion ND as [|? ? Ha ND']; subst.
  destruct (in_split a l) as (L & R & ->); [apply Hi; left; auto|].
  specialize (IH (L ++ R) ND'). rewrite nsum_app in *. simpl.
  assert (incl l2 (L ++ R)).
  { intros x Hx. specialize (Hi x (or_intror Hx)). rewrite in_app_iff in *. simpl in Hi. destruct Hi as [|[->|]]; tauto. }
  assert (w' a <= w a)%nat by (apply Hw; left; auto). assert (forall x, In x l2 -> (w' x <= w x)%nat) by (intros; apply Hw; right; auto).
  specialize (IH H H1). lia.
Qed.
Definition late (now : Z) (s : tst) (x : nat) : nat := Z.to_nat (now - expire_of s x + 1).

Lemma fires_bounded (cb : nat -> nat -> list cop) now : (forall i a, Forall cop_ok (cb i a)) -> (forall b i a, arms_on b (cb i a) = false) ->
  forall i s fs s', fires cb now i s fs s' -> TIh s ->
  (forall j, (t_tick s <= j)%nat -> now <= clock_at s j < B62) -> 0 <= now ->
  (forall b n, timer_active s b = true -> t_cell s b = Some n -> tn_interval n = INVALID_INTERVAL \/ 1 <= tn_interval n < B62) ->
  (forall b, timer_active s b = true -> expire_of s b < 9223372036854775808) ->
  forall l, (forall b, timer_active s b = true -> In b l) -> (length fs <= nsum (late now s) l)%nat.
Proof.
  intros Hcb Hb i s fs s' H.
  induction H as [|i s a s1 s2 fs s' He Hd H1 H2 HF IH]; intros HT Hck Hn0 Hiv Hex l Hl; [simpl; lia|].
  destruct (fires_step _ _ _ _ _ _ _ Hcb HT He H1 H2) as (HT1 & HT2 & Ef & Hc & n & n1 & Hn & Hn1 & X1 & X2 & X3 & X4).
  assert (Hrg := TIh_expire_range s a HT). rewrite (expire_of_cell _ _ _ Hn) in Hrg.
  assert (Hclk : t_clk s1 = t_clk s /\ (t_tick s <= t_tick s1)%nat) by (destruct Ef as (E1 & E2 & _); auto).
  assert (Hclk2 : t_clk s2 = t_clk s1 /\ (t_tick s1 <= t_tick s2)%nat) by (destruct Hc as (_ & (E1 & E2 & _) & _); auto).
  assert (Hae := Hex a (proj1 He)). rewrite (expire_of_cell _ _ _ Hn) in Hae.
  assert (Hwin : 0 <= now < B62) by (specialize (Hck (t_tick s) (le_n _)); lia).
  assert (Hle : tn_expire n <= now).
  { rewrite (expire_of_cell _ _ _ Hn) in Hd. rewrite time_after_eq_spec in Hd by (unfold B62 in *; lia).
    apply orb_true_iff in Hd as [Hd|Hd]; lia. }
  assert (Key : forall b, timer_active s2 b = true ->
     (timer_active s b = true /\ b <> a /\ expire_of s2 b = expire_of s b /\
        (forall m2, t_cell s2 b = Some m2 -> exists m, t_cell s b = Some m /\ tn_interval m2 = tn_interval m)) \/
     (b = a /\ tn_interval n <> INVALID_INTERVAL /\ 1 <= tn_interval n < B62 /\
       tn_expire n + tn_interval n <= expire_of s2 a < 9223372036854775808 /\
       (forall m2, t_cell s2 b = Some m2 -> tn_interval m2 = tn_interval n))).
  { intros b Hab2. destruct Hc as (_ & _ & _ & Hk). assert (V2 := Hk b (Hb b i a) Hab2).
    destruct (same_view_key _ _ _ Hab2 V2) as (A1 & E2 & S2).
    destruct (Nat.eq_dec b a) as [->|Hne].
    - right. destruct X4 as [(G1 & G2 & _)|(G1 & G2 & G3 & G4 & G5 & G6)]; [congruence|].
      destruct (Hiv a n (proj1 He) Hn) as [Q|Q]; [congruence|].
      split; auto. split; auto. split; auto. rewrite E2. rewrite (expire_of_cell _ _ _ Hn1).
      assert (Hck0 := Hck (t_tick s) (le_n _)).
      assert (Hx : tn_expire n1 = clock_at s (t_tick s) + tn_interval n - (now - tn_expire n)).
      { rewrite G6. unfold u64. apply Z.mod_small. unfold B62 in *. lia. }
      split; [unfold B62 in *; lia|].
      intros m2 Hm2. destruct V2 as (_ & V2). rewrite Hn1, Hm2 in V2. intuition congruence.
    - left. assert (V1 := proj2 (proj2 (proj2 (proj2 Ef))) b Hne). destruct (same_view_key _ _ _ A1 V1) as (A0 & E1 & S1).
      split; auto. split; auto. split; [congruence|]. intros m2 Hm2.
      destruct V1 as (_ & V1), V2 as (_ & V2). rewrite Hm2 in V2. destruct (t_cell s1 b) as [m1|]; [|tauto].
      destruct (t_cell s b) as [m|]; [|tauto]. exists m. split; auto. intuition congruence. }
  destruct HT2 as (l2 & HI2). assert (ND2 := TC_nodup _ _ (proj1 HI2)).
  assert (Pre : (length fs <= nsum (late now s2) l2)%nat).
  { apply IH; auto.
    - exists l2; auto.
    - intros j Hj. unfold clock_at. destruct Hclk as (C1 & C2), Hclk2 as (C3 & C4). rewrite C3, C1. apply Hck. lia.
    - intros b m2 Hb2 Hm2. destruct (Key b Hb2) as [(K1 & K2 & K3 & K4)|(-> & K2 & K3 & K4 & K6)].
      + destruct (K4 _ Hm2) as (m & Hm & ->). eauto.
      + rewrite (K6 _ Hm2). auto.
    - intros b Hb2. destruct (Key b Hb2) as [(K1 & K2 & K3 & K4)|(-> & K2 & K3 & K4 & K6)]; [rewrite K3; auto|lia].
    - intros b Hb2. apply (TC_active _ _ _ (proj1 HI2)). auto. }
  set (w := fun x => if Nat.eqb x a then Nat.pred (late now s x) else late now s x).
  assert (Hlt : (nsum w l < nsum (late now s) l)%nat).
  { assert (Hal : In a l) by (apply Hl; apply He). apply in_split in Hal as (L & R & ->). rewrite !nsum_app. simpl.
    assert (Hle' : forall L0, (nsum w L0 <= nsum (late now s) L0)%nat).
    { induction L0 as [|x L0 IHl]; simpl; [lia|]. assert (w x <= late now s x)%nat by (unfold w; destruct (Nat.eqb x a); lia). lia. }
    assert (w a < late now s a)%nat.
    { unfold w. rewrite Nat.eqb_refl. unfold late. rewrite (expire_of_cell _ _ _ Hn). lia. }
    pose proof (Hle' L). pose proof (Hle' R). lia. }
  assert (Hsum : (nsum (late now s2) l2 <= nsum w l)%nat).
  { apply nsum_le; auto.
    - intros b Hb2. apply (TC_active _ _ _ (proj1 HI2)) in Hb2.
      destruct (Key b Hb2) as [(K1 & K2 & K3 & K4)|(-> & K2 & K3 & K4 & K6)]; [auto|]. apply Hl. apply He.
    - intros b Hb2. apply (TC_active _ _ _ (proj1 HI2)) in Hb2. unfold w.
      destruct (Key b Hb2) as [(K1 & K2 & K3 & K4)|(-> & K2 & K3 & K4 & K6)].
      + rewrite (proj2 (Nat.eqb_neq _ _) K2). unfold late. rewrite K3. lia.
      + rewrite Nat.eqb_refl. unfold late. rewrite (expire_of_cell _ _ _ Hn). lia. }
  simpl. lia.
Qed.

(** ** Teardown *)
Lemma filter_le {A} (f : A -> bool) l : (length (filter f l) <= length l)%nat.
Proof. induction l as [|a l IH]; simpl; [lia|]. destruct (f a); simpl; lia. Qed.
Lemma fini_ok loops : forall s l rf, TI s l rf -> (length (t_all s) <= loops)%nat ->
  tr (fini_timers loops) s (fun r s' => r = true /\ TI s' [] rf /\ t_all s' = [] /\ (forall a, timer_active s' a = false) /\
    t_held s' = t_held s).
Proof.
  assert (Fin : forall s l rf, TI s l rf -> t_all s = [] -> true = true /\ TI s [] rf /\ t_all s = [] /\
    (forall a, timer_active s a = false) /\ t_held s = t_held s).
  { intros s l rf HI Ea. assert (l = []) as ->.
    { destruct l as [|x l]; auto. specialize (proj2 (proj2 HI) x (or_introl eq_refl)). rewrite Ea. simpl. tauto. }
    split; auto. split; auto. split; auto. split; [intros a; rewrite (active_in _ _ (proj1 HI)); auto|auto]. }
  induction loops as [|loops IH]; intros s l rf HI Hlen.
  - destruct (t_all s) as [|a r] eqn:Ea; [|simpl in Hlen; lia]. cbn [fini_timers]. unfold tr. rewrite Ea. eapply Fin; eauto.
  - destruct (t_all s) as [|a r] eqn:Ea.
    + cbn [fini_timers]. unfold tr. rewrite Ea. eapply Fin; eauto.
    + assert (Hin : In a (t_all s)) by (rewrite Ea; left; auto).
      destruct (tb_in _ _ (proj1 (proj2 HI)) a Hin) as (n & Hn & _).
      cbn [fini_timers]. unfold tr. rewrite Ea.
      change (tr (do r <- kill_on_q a; fini_timers loops) s (fun r s' => r = true /\ TI s' [] rf /\ t_all s' = [] /\ (forall a, timer_active s' a = false) /\
        t_held s' = t_held s)).
      apply tr_bind. eapply tr_conseq; [eapply kill_ok; eauto|].
      intros v s1 (Ef & _ & [(_ & _ & HI1 & Ea1)|(G & _)]); [|tauto].
      eapply tr_conseq; [apply (IH s1 _ rf HI1)|].
      * rewrite Ea1, Ea. simpl in Hlen. unfold without. simpl. rewrite Nat.eqb_refl. simpl.
        pose proof (filter_le (fun x => negb (Nat.eqb x a)) r). lia.
      * intros v' s2 (R1 & R2 & R3 & R4 & R5). split; auto. split; auto. split; auto. split; auto.
        destruct Ef as (_ & _ & Eh & _). congruence.
Qed.
