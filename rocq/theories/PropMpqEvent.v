(** * C25 for queues with the flag AOSL_MPQ_FLAG_SIGP_EVENT. *)
From Verif Require Import Base MpqEvent.

(** ** Specification, over histories (latest event first) *)
(** Functions put into the queue and not yet run. *)
Fixpoint pending (h : list event) : Z :=
  match h with
  | [] => 0
  | EAdd _ :: h' | EOwn :: h' => pending h' + 1
  | EExec :: h' => pending h' - 1
  | _ :: h' => pending h'
  end.
(** Has anybody destroyed the queue? *)
Fixpoint destroyed (h : list event) : bool :=
  match h with [] => false | EDestroy _ :: _ => true | _ :: h' => destroyed h' end.
(** Is r inside a call that has taken effect but has not done its kicking? *)
Fixpoint calling (r : nat) (h : list event) : bool :=
  match h with
  | [] => false
  | EAdd w :: h' | EDestroy w :: h' => if (w =? r)%nat then true else calling r h'
  | ERet w :: h' => if (w =? r)%nat then false else calling r h'
  | _ :: h' => calling r h'
  end.
(** The queue's thread sleeps, and not just for a moment. *)
Definition asleep (s : state) : Prop := s_q s = QBlk TInf \/ s_q s = QBlk TPos.
Inductive rsteps (r : nat) : state -> state -> Prop :=
| RS_refl s : rsteps r s s
| RS_step s s1 s' : rstep r s s1 -> rsteps r s1 s' -> rsteps r s s'.
Inductive qsteps : state -> state -> Prop :=
| QS_refl s : qsteps s s
| QS_step s s1 s' : qstep s s1 -> qsteps s1 s' -> qsteps s s'.

(** ** Invariant *)
Definition needs (p : qplace) : bool :=
  match p with QReT _ | QCount _ | QWait _ | QBlk _ | QWok | QEnd | QSet TInf | QSet TPos => true | _ => false end.
Definition long (w : tmo) : bool := match w with TZero => false | _ => true end.
(** Places past the test of [terminated], and past that of the count. *)
Definition after_t (p : qplace) : bool := match p with QCount w | QSet w | QWait w | QBlk w => long w | _ => false end.
Definition after_c (p : qplace) : bool := match p with QSet w | QWait w | QBlk w => long w | _ => false end.
Definition helper (s : state) : Prop := exists r, s_r s r <> ROut.
Record inv (s : state) : Prop := {
  i_need : needs (s_q s) = true -> s_need s = true;
  i_pend : pending (s_tr s) = Z.of_nat (s_count s);
  i_dest : destroyed (s_tr s) = s_term s;
  i_call : forall r, calling r (s_tr s) = true <-> s_r s r <> ROut;
  i_blk : forall w, s_q s = QBlk w -> s_res s = RNone;
  i_t : after_t (s_q s) = true -> s_term s = true -> s_res s = RPulse \/ helper s;
  i_c : after_c (s_q s) = true -> (0 < s_count s)%nat -> s_res s = RPulse \/ helper s }.

Lemma fupd_eq {A} (f : nat -> A) k v : fupd f k v k = v. Proof. unfold fupd. rewrite Nat.eqb_refl. reflexivity. Qed.
Lemma fupd_ne {A} (f : nat -> A) k v x : x <> k -> fupd f k v x = f x. Proof. unfold fupd. intros H. apply Nat.eqb_neq in H. rewrite H. reflexivity. Qed.
Lemma call_upd s r p (h : list event) (IC : forall r, calling r (s_tr s) = true <-> s_r s r <> ROut) :
  (forall v, v <> r -> calling v h = calling v (s_tr s)) -> (calling r h = true <-> p <> ROut) -> forall v, calling v h = true <-> fupd (s_r s) r p v <> ROut.
Proof. intros A B v. destruct (Nat.eq_dec v r) as [->|N]; [rewrite fupd_eq; exact B|rewrite fupd_ne, (A v N) by assumption; apply IC]. Qed.

Lemma inv_q s s' : inv s -> qstep s s' -> inv s'.
Proof.
  intros [I1 I2 I3 I4 I5 I6 I7] H. assert (NZ : forall n, (0 <? n)%nat = false -> n = 0%nat) by (intros n; rewrite Nat.ltb_ge; lia).
  destruct H as [n Q E|Q|Q|Q|w Q|w Q|w Q|w Q|w Q|Q|Q|w Q|w Q|w Q N|w Q|Q|Q]; unfold setq, setneed, setres; rewrite ?Q in *; cbn [needs after_t after_c] in *.
  14,15: split; cbn; auto; try discriminate.
  - split; cbn; auto; try discriminate. rewrite I2, E. lia.
  - split; cbn; auto; try discriminate. rewrite I2. lia.
  - split; cbn; auto; try discriminate.
  - split; cbn; auto; destruct (s_term s); auto; try discriminate.
  - split; cbn; auto; destruct (s_term s); auto; try discriminate.
  - destruct (0 <? s_kick s)%nat; destruct w; split; cbn; auto; discriminate.
  - split; cbn; auto; try discriminate.
  - split; cbn; auto; destruct (s_term s) eqn:T; cbn; auto; try discriminate.
  - destruct (0 <? s_count s)%nat eqn:T; split; cbn; auto; try discriminate. apply NZ in T. lia.
  - split; cbn; auto; try discriminate.
  - destruct (s_kick s =? 0)%nat; split; cbn; auto; discriminate.
  - split; cbn; auto; try discriminate.
  - destruct (s_res s) eqn:R; split; cbn; auto; try discriminate; try (intros; congruence).
  - split; cbn; auto; try discriminate.
  - split; cbn; auto; try discriminate.
Qed.
Lemma inv_r r s s' : inv s -> rstep r s s' -> inv s'.
Proof.
  intros [I1 I2 I3 I4 I5 I6 I7] H.
  assert (O : forall v, v <> r -> (r =? v)%nat = false) by (intros v N; apply Nat.eqb_neq; congruence).
  assert (Hp : forall p, p <> ROut -> exists v, fupd (s_r s) r p v <> ROut) by (intros p N; exists r; rewrite fupd_eq; exact N).
  destruct H as [P|P|P|P|P].
  - split; cbn; auto.
    + rewrite I2. lia.
    + apply (call_upd s r RTest (EAdd r :: s_tr s)); [exact I4|intros v N; cbn; rewrite (O v N); reflexivity|cbn; rewrite Nat.eqb_refl; split; [discriminate|reflexivity]].
    + intros; right; apply Hp; discriminate. + intros; right; apply Hp; discriminate.
  - split; cbn; auto.
    + apply (call_upd s r RTest (EDestroy r :: s_tr s)); [exact I4|intros v N; cbn; rewrite (O v N); reflexivity|cbn; rewrite Nat.eqb_refl; split; [discriminate|reflexivity]].
    + intros; right; apply Hp; discriminate. + intros; right; apply Hp; discriminate.
  - destruct (s_need s) eqn:Nd; unfold setr; split; cbn; auto.
    + apply (call_upd s r RInc (s_tr s)); [exact I4|reflexivity|]. rewrite I4, P. split; intros _; discriminate.
    + intros; right; apply Hp; discriminate. + intros; right; apply Hp; discriminate.
    + intros C. apply I1 in C. congruence.
    + apply (call_upd s r ROut (ERet r :: s_tr s)); [exact I4|intros v N; cbn; rewrite (O v N); reflexivity|cbn; rewrite Nat.eqb_refl; split; [discriminate|congruence]].
    + intros A T. exfalso. assert (C : needs (s_q s) = true) by (destruct (s_q s) as [| | | | | | w| | | w|w|w| | |]; try discriminate; try reflexivity; destruct w; try discriminate; reflexivity). apply I1 in C. discriminate.
    + intros A T. exfalso. assert (C : needs (s_q s) = true) by (destruct (s_q s) as [| | | | | | w| | | w|w|w| | |]; try discriminate; try reflexivity; destruct w; try discriminate; reflexivity). apply I1 in C. discriminate.
  - split; cbn; auto.
    + apply (call_upd s r RPul (s_tr s)); [exact I4|reflexivity|]. rewrite I4, P. split; intros _; discriminate.
    + intros; right; apply Hp; discriminate. + intros; right; apply Hp; discriminate.
  - split; cbn; auto.
    + intros C. apply I1. destruct (s_res s); [|exact C]. destruct (s_q s); exact C || reflexivity.
    + apply (call_upd s r ROut (ERet r :: EPulse r :: s_tr s)); [exact I4|intros v N; cbn; rewrite (O v N); reflexivity|cbn; rewrite Nat.eqb_refl; split; [discriminate|congruence]].
    + intros w E. exfalso. destruct (s_res s) eqn:R; [destruct (s_q s); discriminate|]. apply I5 in E. congruence.
Qed.
Lemma inv_reach s : reachable s -> inv s.
Proof.
  induction 1 as [|s s' _ IH [s1 St|r s1 St]]; [|exact (inv_q _ _ IH St)|exact (inv_r _ _ _ IH St)].
  split; cbn; auto; try discriminate. intros r. split; [discriminate|congruence].
Qed.

(** ** Theorems *)
(** If the thread of the queue sleeps although functions are pending or the queue
    has been destroyed, then some thread is still inside the call that did it;
    that thread, taking steps on its own, wakes the queue before it returns. *)
Theorem C25_event_no_lost_wakeup s : reachable s -> asleep s -> pending (s_tr s) > 0 \/ destroyed (s_tr s) = true ->
  exists r, calling r (s_tr s) = true /\ exists s', rsteps r s s' /\ s_q s' = QWok /\ calling r (s_tr s') = false.
Proof.
  intros H A W. apply inv_reach in H. destruct H as [I1 I2 I3 I4 I5 I6 I7].
  assert (Q : exists w, s_q s = QBlk w /\ long w = true) by (destruct A as [A|A]; eauto). destruct Q as (w & Q & L).
  assert (R : s_res s = RNone) by (exact (I5 w Q)). assert (Nd : s_need s = true) by (apply I1; rewrite Q; reflexivity).
  assert (Hp : helper s).
  { rewrite Q in *. cbn [after_t after_c] in *. destruct W as [W|W]; [destruct (I7 L ltac:(lia))|destruct (I6 L ltac:(congruence))]; congruence || assumption. }
  destruct Hp as (r & Pr). exists r. split; [apply I4, Pr|].
  assert (K3 : forall z, s_q z = QBlk w -> s_res z = RNone -> s_r z r = RPul -> exists s', rsteps r z s' /\ s_q s' = QWok /\ calling r (s_tr s') = false).
  { intros z Qz Rz Pz. eexists. split; [eapply RS_step; [exact (R_pul r z Pz)|apply RS_refl]|]. rewrite Qz, Rz. cbn. rewrite Nat.eqb_refl. auto. }
  assert (K2 : forall z, s_q z = QBlk w -> s_res z = RNone -> s_r z r = RInc -> exists s', rsteps r z s' /\ s_q s' = QWok /\ calling r (s_tr s') = false).
  { intros z Qz Rz Pz. pose proof (R_inc r z Pz) as St.
    destruct (K3 (mkSt (s_count z) (s_term z) (s_need z) (S (s_kick z)) (s_res z) (s_q z) (fupd (s_r z) r RPul) (s_tr z)) Qz Rz (fupd_eq _ _ _)) as (s' & X & Y).
    exists s'. split; [eapply RS_step; [exact St|exact X]|exact Y]. }
  destruct (s_r s r) eqn:P; [congruence| |exact (K2 s Q R P)|exact (K3 s Q R P)].
  pose proof (R_test r s P) as St. rewrite Nd in St. destruct (K2 (setr r RInc [] s) Q R (fupd_eq _ _ _)) as (s' & X & Y).
  exists s'. split; [eapply RS_step; [exact St|exact X]|exact Y].
Qed.
(** So once all calls have done their kicking, a sleeping queue has nothing to do. *)
Theorem C25_event_quiet s : reachable s -> asleep s -> (forall r, calling r (s_tr s) = false) -> pending (s_tr s) <= 0 /\ destroyed (s_tr s) = false.
Proof.
  intros H A N. split.
  - destruct (Z_gt_le_dec (pending (s_tr s)) 0) as [G|G]; [|exact G]. destruct (C25_event_no_lost_wakeup s H A (or_introl G)) as (r & C & _). rewrite N in C. discriminate.
  - destruct (destroyed (s_tr s)) eqn:D; [|reflexivity]. destruct (C25_event_no_lost_wakeup s H A (or_intror D)) as (r & C & _). rewrite N in C. discriminate.
Qed.
(** A woken queue gets back to its functions by itself, and a destroyed one
    leaves its loop from there. *)
Theorem C25_event_woken_runs s : reachable s -> s_q s = QWok -> exists s', qsteps s s' /\ s_q s' = QRun /\ s_tr s' = s_tr s.
Proof.
  intros _ Q. eexists. split; [eapply QS_step; [exact (Q_wok s Q)|eapply QS_step; [apply Q_end; reflexivity|apply QS_refl]]|]. split; reflexivity.
Qed.
Theorem C25_event_destroy_ends s s1 : reachable s -> destroyed (s_tr s) = true -> s_q s = QTerm -> qstep s s1 -> s_q s1 = QExit.
Proof.
  intros H D Q St. apply inv_reach in H. rewrite (i_dest _ H) in D. destruct St; try congruence. cbn. rewrite D. reflexivity.
Qed.

(** ** The hypotheses are met: the queue falls asleep, a thread adds a function *)
Definition sleeping : state := mkSt 0 false true 0 RNone (QBlk TInf) (fun _ => ROut) [].
Lemma sleeping_reach : reachable sleeping.
Proof.
  set (a := setq QTerm init_state). set (b := setq QP1 a). set (c := setq (QP2 TInf) b). set (d := setq (QNeed TInf) c).
  set (e := setneed true (QReT TInf) d). set (f := setq (QCount TInf) e). set (g := setq (QSet TInf) f). set (h := setneed true (QWait TInf) g).
  apply (R_step h); [|apply S_queue; exact (Q_wait h TInf eq_refl)]. apply (R_step g); [|apply S_queue; exact (Q_set g TInf eq_refl)].
  apply (R_step f); [|apply S_queue; exact (Q_count f TInf eq_refl)]. apply (R_step e); [|apply S_queue; exact (Q_ret e TInf eq_refl)].
  apply (R_step d); [|apply S_queue; exact (Q_need d TInf eq_refl)]. apply (R_step c); [|apply S_queue; exact (Q_p2 c TInf eq_refl)].
  apply (R_step b); [|apply S_queue; exact (Q_p1 b TInf eq_refl)]. apply (R_step a); [|apply S_queue; exact (Q_term a eq_refl)].
  apply (R_step init_state); [constructor|apply S_queue; exact (Q_run init_state eq_refl)].
Qed.
Definition adding : state := mkSt 1 false true 0 RNone (QBlk TInf) (fupd (fun _ => ROut) 7%nat RTest) [EAdd 7].
Example adding_case : reachable adding /\ asleep adding /\ pending (s_tr adding) > 0.
Proof. split; [apply (R_step sleeping); [exact sleeping_reach|apply (S_other _ 7%nat); exact (R_add 7%nat sleeping eq_refl)]|]. split; [left; reflexivity|reflexivity]. Qed.
Example quiet_case : reachable sleeping /\ asleep sleeping /\ (forall r, calling r (s_tr sleeping) = false).
Proof. split; [exact sleeping_reach|]. split; [left; reflexivity|reflexivity]. Qed.
Print Assumptions C25_event_no_lost_wakeup. Print Assumptions C25_event_quiet. Print Assumptions C25_event_woken_runs. Print Assumptions C25_event_destroy_ends.
