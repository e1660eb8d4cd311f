(** * C51: event objects. *)
From Verif Require Import Base Event.

(** ** Specification, over histories (latest event first) *)
Inductive level := Off | On | Once.
(** The state of the event as the calls define it: set until a reset or a pulse;
    pulsed until a reset, a set or the next return from a wait. *)
Fixpoint lev (h : list event) : level :=
  match h with
  | [] => Off
  | ESet _ :: _ => On
  | EPulse _ :: _ => Once
  | EReset _ :: _ => Off
  | ERet _ _ :: h' => match lev h' with Once => Off | l => l end
  | _ :: h' => lev h'
  end.
(** Is t inside a wait?  With which kind of call? *)
Fixpoint waiting (t : nat) (h : list event) : option bool :=
  match h with
  | [] => None
  | ECall w tm :: h' => if (w =? t)%nat then Some tm else waiting t h'
  | ERet w _ :: h' => if (w =? t)%nat then None else waiting t h'
  | _ :: h' => waiting t h'
  end.
(** Since t called wait: was the event set or pulsed at that time, or has it been
    set or pulsed since? *)
Fixpoint signalled (t : nat) (h : list event) : bool :=
  match h with
  | [] => false
  | ESet _ :: _ | EPulse _ :: _ => true
  | ECall w _ :: h' => if (w =? t)%nat then match lev h' with Off => false | _ => true end else signalled t h'
  | _ :: h' => signalled t h'
  end.
Fixpoint passed (t : nat) (h : list event) : bool :=      (* t's timeout passed during its latest wait *)
  match h with
  | [] => false
  | ETmo w :: h' => if (w =? t)%nat then true else passed t h'
  | ECall w _ :: h' => if (w =? t)%nat then false else passed t h'
  | _ :: h' => passed t h'
  end.
Definition regular (h : list event) : Prop := forall t, ~ In (ESpur t) h.
(** t can finish its wait all by itself, now. *)
Definition can_return (t : nat) (s : state) : Prop := exists late s', step t s s' /\ s_tr s' = ERet t late :: s_tr s.
(** t cannot do anything but let its timeout pass, or wake spuriously. *)
Definition stuck (t : nat) (s : state) : Prop := forall s', step t s s' -> s_tr s' = ETmo t :: s_tr s \/ s_tr s' = ESpur t :: s_tr s.

(** ** Invariant *)
Definition lev_of (r : result) : level := match r with RNone => Off | RSet => On | RPulse => Once end.
Definition loc (t : nat) (p : place) (h : list event) : Prop :=
  match p with
  | Out => waiting t h = None
  | Blk tm => waiting t h = Some tm
  | Wok false => (exists tm, waiting t h = Some tm) /\ (regular h -> signalled t h = true)
  | Wok true => waiting t h = Some true /\ passed t h = true
  end.
Record inv (s : state) : Prop := {
  i_lev : lev (s_tr s) = lev_of (s_res s);
  i_set : s_res s = RSet -> forall t tm, s_pc s t <> Blk tm;
  i_pulse : s_res s = RPulse -> (forall t tm, s_pc s t <> Blk tm) \/ exists t late, s_pc s t = Wok late;
  i_loc : forall t, loc t (s_pc s t) (s_tr s) }.

Lemma fupd_eq {A} (f : nat -> A) k v : fupd f k v k = v. Proof. unfold fupd. rewrite Nat.eqb_refl. reflexivity. Qed.
Lemma fupd_ne {A} (f : nat -> A) k v x : x <> k -> fupd f k v x = f x. Proof. unfold fupd. intros H. apply Nat.eqb_neq in H. rewrite H. reflexivity. Qed.
Lemma regular_tl e h : regular (e :: h) -> regular h. Proof. intros H t Hi. apply (H t). right. exact Hi. Qed.
(** Events of other threads change nothing for a thread that is asleep or woken. *)
Definition mine (t : nat) (e : event) : bool :=
  match e with ECall w _ | ETmo w | ERet w _ => (w =? t)%nat | _ => false end.
Lemma loc_other t p e h : mine t e = false -> loc t p h -> loc t p (e :: h).
Proof.
  destruct p as [|tm|[|]]; destruct e; cbn [mine loc waiting passed signalled]; intros M H; rewrite ?M; auto; destruct H as [H1 H2]; split; auto; intros R; apply regular_tl in R; auto.
Qed.

Lemma inv_step t s s' : inv s -> step t s s' -> inv s'.
Proof.
  intros [IL IS IP IC] H. destruct H as [P|o P C|P|tm P|P|tm P|late P].
  - unfold do_set. destruct (s_res s) eqn:R; cbn; [|split|]; cbn.
    2: reflexivity. 2: intros _; apply IS; reflexivity. 2: discriminate. 2: intros v; apply loc_other; [reflexivity|apply IC].
    all: split; cbn; [reflexivity| |discriminate|].
    1,3: intros _ v tm; unfold wake_all; destruct (s_pc s v); discriminate.
    all: intros v; pose proof (IC v) as L; unfold wake_all; destruct (s_pc s v) as [|b|b]; try (apply loc_other; [reflexivity|exact L]); cbn in *; split; [exists b; exact L|reflexivity].
  - unfold do_pulse. destruct (s_res s) eqn:R; split; cbn; try reflexivity; try discriminate.
    1,3: intros _; destruct o as [w|]; cbn in C; [right; exists w, false; apply fupd_eq|left; exact C].
    1,2: intros v; pose proof (IC v) as L; destruct o as [w|]; [destruct (Nat.eq_dec v w) as [->|N]; [rewrite fupd_eq; destruct C as [tm C]; rewrite C in L; cbn in *; split; [exists tm; exact L|reflexivity]|rewrite fupd_ne by assumption; apply loc_other; [reflexivity|exact L]]|apply loc_other; [reflexivity|exact L]].
    + intros _. apply IP. reflexivity.
    + intros v. apply loc_other; [reflexivity|apply IC].
  - unfold do_reset. split; cbn; [reflexivity|discriminate|discriminate|]. intros v. apply loc_other; [reflexivity|apply IC].
  - unfold do_call. destruct (s_res s) eqn:R; split; cbn; rewrite ?IL; try reflexivity; try discriminate.
    + intros v. pose proof (IC v) as L. destruct (Nat.eq_dec v t) as [->|N]; [rewrite fupd_eq; cbn; rewrite Nat.eqb_refl; reflexivity|].
      rewrite fupd_ne by assumption. apply loc_other; [apply Nat.eqb_neq; congruence|exact L].
    + intros _. apply IS. reflexivity.
    + intros v. pose proof (IC v) as L. destruct (Nat.eq_dec v t) as [->|N]; [rewrite P in *; cbn; rewrite Nat.eqb_refl; reflexivity|].
      apply loc_other; [|apply loc_other; [|exact L]]; apply Nat.eqb_neq; congruence.
    + intros v. pose proof (IC v) as L. destruct (Nat.eq_dec v t) as [->|N]; [rewrite P in *; cbn; rewrite Nat.eqb_refl; reflexivity|].
      apply loc_other; [|apply loc_other; [|exact L]]; apply Nat.eqb_neq; congruence.
  - split; cbn; [exact IL| | |].
    + intros R v tm. destruct (Nat.eq_dec v t) as [->|N]; [rewrite fupd_eq; discriminate|rewrite fupd_ne by assumption; apply IS, R].
    + intros R. right. exists t, true. apply fupd_eq.
    + intros v. pose proof (IC v) as L. destruct (Nat.eq_dec v t) as [->|N]; [rewrite fupd_eq; rewrite P in L; cbn in *; rewrite Nat.eqb_refl; auto|].
      rewrite fupd_ne by assumption. apply loc_other; [apply Nat.eqb_neq; congruence|exact L].
  - split; cbn; [exact IL| | |].
    + intros R v tm'. destruct (Nat.eq_dec v t) as [->|N]; [rewrite fupd_eq; discriminate|rewrite fupd_ne by assumption; apply IS, R].
    + intros R. right. exists t, false. apply fupd_eq.
    + intros v. pose proof (IC v) as L. destruct (Nat.eq_dec v t) as [->|N].
      * rewrite fupd_eq. rewrite P in L. cbn in *. split; [exists tm; exact L|]. intros Rg. exfalso. apply (Rg t). left. reflexivity.
      * rewrite fupd_ne by assumption. apply loc_other; [reflexivity|exact L].
  - unfold do_resume. split; cbn; rewrite ?IL.
    + destruct (s_res s); reflexivity.
    + intros R v tm. destruct (s_res s) eqn:Q; try discriminate. destruct (Nat.eq_dec v t) as [->|N]; [rewrite fupd_eq; discriminate|rewrite fupd_ne by assumption; apply IS; reflexivity].
    + destruct (s_res s); discriminate.
    + intros v. pose proof (IC v) as L. destruct (Nat.eq_dec v t) as [->|N]; [rewrite fupd_eq; cbn; rewrite Nat.eqb_refl; reflexivity|].
      rewrite fupd_ne by assumption. apply loc_other; [apply Nat.eqb_neq; congruence|exact L].
Qed.
Lemma inv_reach s : reachable s -> inv s.
Proof. induction 1 as [|t s s' _ IH St]; [split; cbn; try discriminate; auto|exact (inv_step _ _ _ IH St)]. Qed.

(** ** Theorems *)
(** While the event is set - from a set until a reset or a pulse - every thread
    inside a wait, whenever it called, can finish it all by itself, and a new
    wait returns 0 at once; nobody is left asleep. *)
Theorem C51_set_releases_all s : reachable s -> lev (s_tr s) = On ->
  (forall t tm, waiting t (s_tr s) = Some tm -> can_return t s) /\
  (forall t tm, waiting t (s_tr s) = None -> exists s', step t s s' /\ s_tr s' = ERet t false :: ECall t tm :: s_tr s /\ lev (s_tr s') = On).
Proof.
  intros H L. apply inv_reach in H. destruct H as [IL IS IP IC]. rewrite L in IL. destruct (s_res s) eqn:R; try discriminate. split.
  - intros t tm W. specialize (IS eq_refl t). pose proof (IC t) as Lt. destruct (s_pc s t) as [|b|late] eqn:P; [cbn in Lt; congruence|exfalso; exact (IS b eq_refl)|].
    exists late. eexists. split; [apply E_resume; exact P|reflexivity].
  - intros t tm W. pose proof (IC t) as Lt. assert (P : s_pc s t = Out).
    { destruct (s_pc s t) as [|b|[|]]; [reflexivity| | |]; cbn in Lt; [congruence|destruct Lt as [Lt _]; congruence|destruct Lt as [[? Lt] _]; congruence]. }
    exists (do_call t tm s). split; [constructor; exact P|]. unfold do_call. rewrite R. cbn. rewrite L. auto.
Qed.
(** A pulse is kept until it has released somebody: as long as no wait has
    returned since (and no set or reset has come), if any thread is inside a wait
    then some thread can return from its wait all by itself, and a new wait
    returns 0 at once. *)
Theorem C51_pulse_kept s : reachable s -> lev (s_tr s) = Once ->
  (forall t, waiting t (s_tr s) <> None -> exists w, waiting w (s_tr s) <> None /\ can_return w s) /\
  (forall t tm, waiting t (s_tr s) = None -> exists s', step t s s' /\ s_tr s' = ERet t false :: ECall t tm :: s_tr s).
Proof.
  intros H L. apply inv_reach in H. destruct H as [IL IS IP IC]. rewrite L in IL. destruct (s_res s) eqn:R; try discriminate. clear IS.
  assert (W : forall t late, s_pc s t = Wok late -> waiting t (s_tr s) <> None /\ can_return t s).
  { intros t late P. pose proof (IC t) as Lt. rewrite P in Lt. split.
    - destruct late; cbn in Lt; [destruct Lt as [Lt _]; congruence|destruct Lt as [[? Lt] _]; congruence].
    - exists late. eexists. split; [apply E_resume; exact P|reflexivity]. }
  split.
  - intros t N. destruct (IP eq_refl) as [NB|(w & late & Pw)]; [|exists w; exact (W _ _ Pw)].
    exists t. pose proof (IC t) as Lt. destruct (s_pc s t) as [|b|late] eqn:P; [cbn in Lt; congruence|exfalso; exact (NB t b P)|exact (W _ _ P)].
  - intros t tm N. pose proof (IC t) as Lt. assert (P : s_pc s t = Out).
    { destruct (s_pc s t) as [|b|[|]]; [reflexivity| | |]; cbn in Lt; [congruence|destruct Lt as [Lt _]; congruence|destruct Lt as [[? Lt] _]; congruence]. }
    exists (do_call t tm s). split; [constructor; exact P|]. unfold do_call. rewrite R. reflexivity.
Qed.

(** Every return in a history is explained. *)
Definition ret_ok (h : list event) : Prop := forall h1 t (late : bool) h2, h = h1 ++ ERet t late :: h2 ->
  if late then waiting t h2 = Some true /\ passed t h2 = true
  else (exists tm, waiting t h2 = Some tm) /\ (regular h2 -> signalled t h2 = true).
Lemma ret_ok_cons e h : ret_ok h -> (forall t late, e <> ERet t late) -> ret_ok (e :: h).
Proof. intros H N h1 t late h2 E. destruct h1 as [|e' h1]; cbn in E; [exfalso; apply (N t late); congruence|apply (H h1); congruence]. Qed.
Lemma ret_ok_ret t (late : bool) h : ret_ok h ->
  (if late then waiting t h = Some true /\ passed t h = true else (exists tm, waiting t h = Some tm) /\ (regular h -> signalled t h = true)) -> ret_ok (ERet t late :: h).
Proof.
  intros H G h1 t' late' h2 E. destruct h1 as [|e' h1]; cbn in E; [|apply (H h1); congruence].
  assert (t' = t /\ late' = late /\ h2 = h) as (-> & -> & ->) by (repeat split; congruence). exact G.
Qed.
Lemma reach_ret s : reachable s -> ret_ok (s_tr s).
Proof.
  induction 1 as [|t s s' H IH St]; [intros [|? ?] ? ? ? E; discriminate|]. apply inv_reach in H. destruct H as [IL IS IP IC].
  destruct St as [P|o P C|P|tm P|P|tm P|late P]; unfold do_set, do_pulse, do_reset, do_call, do_resume.
  - destruct (s_res s); cbn; apply ret_ok_cons; auto; discriminate.
  - destruct (s_res s); cbn; apply ret_ok_cons; auto; discriminate.
  - apply ret_ok_cons; auto; discriminate.
  - assert (Q : ret_ok (ECall t tm :: s_tr s)) by (apply ret_ok_cons; auto; discriminate).
    destruct (s_res s) eqn:R; cbn; [exact Q| |]; apply ret_ok_ret; auto; cbn; rewrite Nat.eqb_refl, IL; eauto.
  - apply ret_ok_cons; auto; discriminate.
  - apply ret_ok_cons; auto; discriminate.
  - apply ret_ok_ret; auto. pose proof (IC t) as L. rewrite P in L. destruct late; exact L.
Qed.

(** A wait returns 0 only if the event was set or pulsed when it was called or has
    been since - provided the condition variable never wakes a thread for no
    reason. *)
Theorem C51_return_signalled s h1 t h2 : reachable s -> s_tr s = h1 ++ ERet t false :: h2 -> regular h2 -> signalled t h2 = true.
Proof. intros H E R. apply reach_ret in H. specialize (H h1 t false h2 E). apply H. exact R. Qed.
(** A wait reports a timeout only if it was called with one and it has passed. *)
Theorem C51_timeout_reason s h1 t h2 : reachable s -> s_tr s = h1 ++ ERet t true :: h2 -> waiting t h2 = Some true /\ passed t h2 = true.
Proof. intros H E. apply reach_ret in H. exact (H h1 t true h2 E). Qed.
(** A thread that cannot go on by itself is waiting for an event that is not set. *)
Theorem C51_blocked_unset s t : reachable s -> waiting t (s_tr s) <> None -> stuck t s -> lev (s_tr s) <> On.
Proof.
  intros H W N L. destruct (waiting t (s_tr s)) as [tm|] eqn:E; [|congruence].
  destruct (proj1 (C51_set_releases_all s H L) t tm E) as (late & s' & St & Tr). destruct (N s' St) as [X|X]; rewrite Tr in X; discriminate.
Qed.

(** ** Where the code departs from its documentation (include/api/aosl_thread.h 258-283) *)
(** Two threads sleep; [two] is that state. *)
Definition two : state := mkSt RNone (fupd (fupd (fun _ => Out) 1%nat (Blk false)) 2%nat (Blk false)) [ECall 2 false; ECall 1 false].
Lemma two_reach : reachable two.
Proof.
  apply (R_step 2%nat (do_call 1 false init_state)); [apply (R_step 1%nat init_state); [apply R_init|]|]; [apply E_call; reflexivity|].
  exact (E_call 2%nat (do_call 1 false init_state) false eq_refl).
Qed.
Definition pulsed : state := do_pulse 0 (Some 1%nat) two.
Lemma pulsed_reach : reachable pulsed.
Proof. apply (R_step 0%nat two); [exact two_reach|]. apply E_pulse; [reflexivity|]. exists false. reflexivity. Qed.

(** "Pulse the event: wake all waiting threads, then immediately reset."  The
    pulse wakes one of the two waiting threads; the other one sleeps on, after
    the first one has returned as well. *)
Theorem C51_pulse_wakes_one_refuted : exists s, reachable s /\ s_tr s = [ERet 1 false; EPulse 0; ECall 2 false; ECall 1 false] /\ waiting 2 (s_tr s) = Some false /\ stuck 2 s.
Proof.
  exists (do_resume 1 false pulsed). split; [apply (R_step 1%nat pulsed); [exact pulsed_reach|apply E_resume; reflexivity]|].
  split; [reflexivity|]. split; [reflexivity|].
  intros s' H. inversion H as [P E|o P C E|P E|tm P E|P E|tm P E|late P E]; try discriminate P. right. reflexivity.
Qed.
(** Nor is the event reset at once: with nobody waiting a pulse stays, and a
    thread that comes later does not wait. *)
Theorem C51_pulse_stays_refuted : exists s, reachable s /\ s_tr s = [ERet 1 false; ECall 1 false; EPulse 0].
Proof.
  exists (do_call 1 false (do_pulse 0 None init_state)). split; [|reflexivity]. apply (R_step 1%nat (do_pulse 0 None init_state)); [|apply E_call; reflexivity].
  apply (R_step 0%nat init_state); [constructor|]. apply E_pulse; [reflexivity|]. intros w tm. discriminate.
Qed.
(** Two pulses may release one thread only: the second is swallowed while the
    first is pending. *)
Theorem C51_pulse_merged_refuted : exists s, reachable s /\ s_tr s = [ERet 1 false; EPulse 0; EPulse 0; ECall 2 false; ECall 1 false] /\ waiting 2 (s_tr s) = Some false /\ stuck 2 s.
Proof.
  exists (do_resume 1 false (do_pulse 0 (Some 2%nat) pulsed)). split.
  - apply (R_step 1%nat (do_pulse 0 (Some 2%nat) pulsed)); [|apply E_resume; reflexivity].
    apply (R_step 0%nat pulsed); [exact pulsed_reach|]. apply E_pulse; [reflexivity|]. exists false. reflexivity.
  - split; [reflexivity|]. split; [reflexivity|]. intros s' H. inversion H as [P E|o P C E|P E|tm P E|P E|tm P E|late P E]; try discriminate P. right. reflexivity.
Qed.
(** One pulse may release two threads: a thread that calls wait between the
    pulse and the return of the woken thread takes it too. *)
Theorem C51_pulse_two_refuted : exists s, reachable s /\ s_tr s = [ERet 1 false; ERet 3 false; ECall 3 false; EPulse 0; ECall 2 false; ECall 1 false].
Proof.
  exists (do_resume 1 false (do_call 3 false pulsed)). split; [|reflexivity].
  apply (R_step 1%nat (do_call 3 false pulsed)); [|apply E_resume; reflexivity]. apply (R_step 3%nat pulsed); [exact pulsed_reach|apply E_call; reflexivity].
Qed.
(** "The event remains signaled until explicitly reset."  A pulse ends it as
    well: after set, pulse and one wait, the next wait sleeps. *)
Theorem C51_set_stays_refuted : exists s, reachable s /\ s_tr s = [ECall 2 false; ERet 1 false; ECall 1 false; EPulse 0; ESet 0] /\ waiting 2 (s_tr s) = Some false /\ stuck 2 s.
Proof.
  set (a := do_set 0 init_state). set (b := do_pulse 0 None a). set (c := do_call 1 false b).
  exists (do_call 2 false c). split.
  - apply (R_step 2%nat c); [|apply E_call; reflexivity]. apply (R_step 1%nat b); [|apply E_call; reflexivity].
    apply (R_step 0%nat a); [|apply E_pulse; [reflexivity|intros w tm; discriminate]]. apply (R_step 0%nat init_state); [constructor|apply E_set; reflexivity].
  - split; [reflexivity|]. split; [reflexivity|]. intros s' H. inversion H as [P E|o P C E|P E|tm P E|P E|tm P E|late P E]; try discriminate P. right. reflexivity.
Qed.
(** "0 if signaled, <0 on timeout": a thread whose timeout passes just before the
    pulse returns the timeout and uses the pulse up; the thread the pulse woke
    can be later and returns too, but a thread that comes then sleeps - and if
    the timed out thread was the only one, the pulse has released nobody. *)
Theorem C51_timeout_eats_pulse_refuted : exists s, reachable s /\ s_tr s = [ECall 2 false; ERet 1 true; EPulse 0; ETmo 1; ECall 1 true] /\ waiting 2 (s_tr s) = Some false /\ stuck 2 s.
Proof.
  set (a := do_call 1 true init_state). set (b := mkSt (s_res a) (fupd (s_pc a) 1%nat (Wok true)) (ETmo 1 :: s_tr a)).
  set (c := do_pulse 0 None b). set (d := do_resume 1 true c). exists (do_call 2 false d). split.
  - apply (R_step 2%nat d); [|apply E_call; reflexivity]. apply (R_step 1%nat c); [|apply E_resume; reflexivity].
    apply (R_step 0%nat b); [|apply E_pulse; [reflexivity|intros [|[|w]] tm; discriminate]].
    apply (R_step 1%nat a); [|apply E_tmo; reflexivity]. apply (R_step 1%nat init_state); [constructor|apply E_call; reflexivity].
  - split; [reflexivity|]. split; [reflexivity|]. intros s' H. inversion H as [P E|o P C E|P E|tm P E|P E|tm P E|late P E]; try discriminate P. right. reflexivity.
Qed.
(** A spurious wake-up makes a wait return 0 although nothing was ever signalled:
    the wait does not test again (k_event_wait 348, an if). *)
Theorem C51_spurious_refuted : exists s, reachable s /\ s_tr s = [ERet 1 false; ESpur 1; ECall 1 false].
Proof.
  set (a := do_call 1 false init_state). set (b := mkSt (s_res a) (fupd (s_pc a) 1%nat (Wok false)) (ESpur 1 :: s_tr a)).
  exists (do_resume 1 false b). split; [|reflexivity]. apply (R_step 1%nat b); [|apply E_resume; reflexivity].
  apply (R_step 1%nat a); [|apply (E_spur 1%nat a false); reflexivity]. apply (R_step 1%nat init_state); [constructor|apply E_call; reflexivity].
Qed.

(** ** The hypotheses are met: two threads asleep, then a set; and the pulse above *)
Example set_case : reachable (do_set 0 two) /\ lev (s_tr (do_set 0 two)) = On /\ waiting 1 (s_tr (do_set 0 two)) = Some false /\ waiting 2 (s_tr (do_set 0 two)) = Some false.
Proof. split; [apply (R_step 0%nat two); [exact two_reach|apply E_set; reflexivity]|]. repeat split. Qed.
Example pulse_case : reachable pulsed /\ lev (s_tr pulsed) = Once /\ waiting 2 (s_tr pulsed) <> None.
Proof. split; [exact pulsed_reach|]. split; [reflexivity|discriminate]. Qed.
Example ret_case : exists s, reachable s /\ s_tr s = [] ++ ERet 1 false :: [EPulse 0; ECall 2 false; ECall 1 false] /\ regular [EPulse 0; ECall 2 false; ECall 1 false].
Proof.
  exists (do_resume 1 false pulsed). split; [apply (R_step 1%nat pulsed); [exact pulsed_reach|apply E_resume; reflexivity]|]. split; [reflexivity|].
  intros t H. repeat destruct H as [H|H]; try discriminate. exact H.
Qed.

Print Assumptions C51_set_releases_all. Print Assumptions C51_pulse_kept. Print Assumptions C51_return_signalled.
Print Assumptions C51_timeout_reason. Print Assumptions C51_blocked_unset.
Print Assumptions C51_pulse_wakes_one_refuted. Print Assumptions C51_pulse_stays_refuted. Print Assumptions C51_pulse_merged_refuted.
Print Assumptions C51_pulse_two_refuted. Print Assumptions C51_set_stays_refuted. Print Assumptions C51_timeout_eats_pulse_refuted. Print Assumptions C51_spurious_refuted.
