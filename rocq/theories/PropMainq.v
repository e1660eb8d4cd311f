(** * C58: the main queue. *)
From Verif Require Import Base Mainq MainqInv.

Inductive steps (chg : bool) (s : state) : state -> Prop :=
| St_refl : steps chg s s
| St_step s1 s2 : steps chg s s1 -> step chg s1 s2 -> steps chg s s2.
Lemma reach_steps chg s s' : reachable chg s -> steps chg s s' -> reachable chg s'.
Proof. intros R. induction 1; auto. eapply R_step; eauto. Qed.

(** ** There is at most one main queue *)

(** Whatever threads call aosl_main_start concurrently: when the init of a main
    queue is called, the fini of every earlier main queue has run. *)
Theorem C58_one_main_queue s : reachable false s ->
  forall later j earlier, s_tr s = later ++ EInit j :: earlier ->
  forall i, In (EInit i) earlier -> In (EFini i) earlier.
Proof.
  intros R later j earlier E. destruct (reach_OK s R) as [o V]. assert (Sr := v_serial _ _ V). rewrite E in Sr. clear E.
  induction later as [|e l IH]; cbn in Sr; [tauto|]. apply IH. destruct e; tauto.
Qed.

(** Some call of aosl_main_start is between its winning of the race and its end. *)
Definition start_in_progress (s : state) : Prop := exists t, ~ nstart (s_th s t).
(** A main queue exists. *)
Definition main_alive (s : state) : Prop := exists i q, nth_error (s_qs s) i = Some q /\ q_main q = true /\ q_ph q <> QFree.

Lemma main_zero s : reachable false s -> s_main s = 0 ->
  start_in_progress s \/ exists t e, In (EStart t (-1) e) (s_tr s).
Proof.
  induction 1 as [life L|s s' R IH St]; [discriminate|]. destruct (reach_OK s R) as [o V].
  assert (KEEP : s_main s = 0 -> forall t p, nstart (s_th s t) ->
    (forall x, x <> t -> s_th s' x = s_th s x) -> s_th s' t = p ->
    (forall e, In e (s_tr s) -> In e (s_tr s')) ->
    start_in_progress s' \/ exists t e, In (EStart t (-1) e) (s_tr s')).
  { intros M t p N T _ E. destruct (IH M) as [[x D]|(x & e & D)]; [left|right; eauto].
    exists x. rewrite T; auto. intros ->. auto. }
  assert (SAME : s_main s = 0 -> (forall x, s_th s' x = s_th s x) -> (forall e, In e (s_tr s) -> In e (s_tr s')) ->
    start_in_progress s' \/ exists t e, In (EStart t (-1) e) (s_tr s')).
  { intros M T E. destruct (IH M) as [[x D]|(x & e & D)]; [left|right; eauto]. exists x. rewrite T. auto. }
  destruct St; intros M; proj.
  - left. exists t. cbn. rewrite Nat.eqb_refl. auto.
  - apply SAME; auto. intros; cbn; auto.
  - right. exists t, e. cbn. auto.
  - left. exists t. cbn. rewrite Nat.eqb_refl. auto.
  - left. exists t. cbn. rewrite Nat.eqb_refl. auto.
  - left. exists t. cbn. rewrite H. auto.
  - right. exists t, e. cbn. auto.
  - exfalso. destruct (k_id _ _ _ _ (v_q _ _ V _ _ H0)). lia.
  - destruct (s_reg s); (eapply KEEP with (t := t); try (rewrite H; exact I); try neq; try reflexivity; cbn; auto; try (rewrite H; exact I)).
  - apply SAME; auto. intros; cbn; auto.
  - eapply KEEP with (t := t); try (rewrite H; exact I); try neq; try reflexivity; cbn; auto; try (rewrite H; exact I).
  - eapply KEEP with (t := t); try (rewrite H; exact I); try neq; try reflexivity; cbn; auto; try (rewrite H; exact I).
  - eapply KEEP with (t := t); try (rewrite H; exact I); try neq; try reflexivity; cbn; auto; try (rewrite H; exact I).
  - eapply KEEP with (t := t); try (rewrite H; exact I); try neq; try reflexivity; cbn; auto; try (rewrite H; exact I).
  - eapply KEEP with (t := t); try (rewrite H; exact I); try neq; try reflexivity; cbn; auto; try (rewrite H; exact I).
  - eapply KEEP with (t := t); try (rewrite H; exact I); try neq; try reflexivity; cbn; auto; try (rewrite H; exact I).
  - eapply KEEP with (t := t); try (rewrite H; exact I); try neq; try reflexivity; cbn; auto; try (rewrite H; exact I).
  - eapply KEEP with (t := t); try (rewrite H; exact I); try neq; try reflexivity; cbn; auto; try (rewrite H; exact I).
  - apply SAME; auto.
  - apply SAME; auto.
  - discriminate.
  - apply SAME; auto.
  - apply SAME; auto. cbn; auto.
  - apply SAME; auto.
  - apply SAME; auto. destruct (q_id q =? s_main s); [discriminate|auto].
Qed.

(** aosl_main_start answers EEXIST ([S_cas_lose]) or goes on ([S_cas_win])
    according to [s_main]: it goes on if there is no main queue, no start in
    progress, and no start has ever failed; it answers EEXIST if there is a main
    queue or a start in progress. *)
Theorem C58_start_allowed_partial s : reachable false s ->
  ~ start_in_progress s -> ~ main_alive s -> (forall t e, ~ In (EStart t (-1) e) (s_tr s)) -> s_main s = INVALID.
Proof.
  intros R N1 N2 N3. destruct (reach_OK s R) as [o V]. assert (O := v_o _ _ V).
  assert (Z0 : s_main s = 0 -> s_main s = INVALID).
  { intros M. exfalso. destruct (main_zero s R M) as [D|(t & e & D)]; [tauto|]. eapply N3; eauto. }
  destruct o; cbn in O; try tauto.
  destruct O as (q & O1 & O2 & _ & O4 & _). exfalso. apply N2. exists i, q. auto.
Qed.
Theorem C58_start_refused s : reachable false s ->
  start_in_progress s \/ main_alive s -> s_main s <> INVALID.
Proof.
  intros R D. destruct (reach_OK s R) as [o V]. assert (O := v_o _ _ V). unfold INVALID. destruct o; cbn in O; try (destruct O; lia); try lia.
  - exfalso. destruct D as [[t D]|(i & q & D1 & D2 & D3)].
    + assert (T := v_t _ _ V t). unfold tok in T. destruct (s_th s t); try discriminate; apply D; exact I.
    + destruct (k_own _ _ _ _ (v_q _ _ V i q D1) D2); [tauto|]. destruct H.
  - destruct O as (q & O1 & _ & _ & _ & ->). destruct (k_id _ _ _ _ (v_q _ _ V i q O1)). lia.
Qed.

Definition dead (s : state) : Prop := s_main s = 0 /\ forall t, nstart (s_th s t).
Lemma dead_step s s' : reachable false s -> dead s -> step false s s' -> dead s'.
Proof.
  intros R [D1 D2] St. destruct (reach_OK s R) as [o V].
  assert (TH : forall t p, nstart p -> forall x, nstart (if (x =? t)%nat then p else s_th s x)) by (intros t p Np x; destruct (x =? t)%nat; auto).
  destruct St; proj; try (split; proj; auto; fail); try (split; proj; auto; apply TH; exact I);
    try (exfalso; specialize (D2 t); rewrite H in D2; exact D2).
  - rewrite D1 in H0. discriminate.
  - destruct (s_reg s); (split; proj; auto; apply TH; exact I).
  - split; proj; auto. rewrite D1. destruct (k_id _ _ _ _ (v_q _ _ V i q H)).
    rewrite (proj2 (Z.eqb_neq _ _)) by lia. reflexivity.
Qed.
Lemma dead_steps s s' : reachable false s -> dead s -> steps false s s' -> dead s'.
Proof.
  intros R D St. induction St; auto. eapply dead_step; [|apply IHSt|eauto]; eauto using reach_steps.
Qed.
Lemma failed_dead s : reachable false s -> forall t e, In (EStart t (-1) e) (s_tr s) -> e <> AOSL_EEXIST -> dead s.
Proof.
  induction 1 as [life L|s s' R IH St]; intros t e I1 I2; [destruct I1|].
  assert (OLD : In (EStart t (-1) e) (s_tr s) -> dead s') by (intros; eapply dead_step; eauto).
  destruct (reach_OK s R) as [o V].
  destruct St; proj; auto; cbn in I1; try (destruct I1 as [E|I1]; [discriminate E|auto]).
  - destruct I1 as [E|I1]; auto. exfalso. apply I2. injection E as _ E. rewrite <- E. reflexivity.
  - destruct I1 as [E|I1]; auto. assert (T := v_t _ _ V t0). unfold tok in T. rewrite H in T. subst o.
    split; proj; [apply (v_o _ _ V)|]. intros x. destruct (Nat.eqb_spec x t0) as [->|n]; [exact I|].
    assert (T := v_t _ _ V x). unfold tok in T. destruct (s_th s x); try exact I; congruence.
  - destruct I1 as [E|I1]; auto. assert (T := v_t _ _ V t0). unfold tok in T. rewrite H in T. subst o.
    split; proj; [apply (v_o _ _ V)|]. intros x. destruct (Nat.eqb_spec x t0) as [->|n]; [exact I|].
    assert (T := v_t _ _ V x). unfold tok in T. destruct (s_th s x); try exact I; congruence.
  - destruct (s_reg s); auto.
  - destruct I1 as [E|I1]; [discriminate E|auto].
Qed.
(** Not so: after a start that failed for another reason (no thread, no
    memory, init refused) no start ever succeeds again: they all answer EEXIST,
    and aosl_main_started answers yes, though there is no main queue. *)
Theorem C58_failed_start_is_final_refuted s t e : reachable false s -> In (EStart t (-1) e) (s_tr s) -> e <> AOSL_EEXIST ->
  forall s', steps false s s' -> s_main s' <> INVALID /\ ~ start_in_progress s' /\ ~ main_alive s' /\ main_started (s_main s') = true.
Proof.
  intros R I1 I2 s' St. assert (D : dead s') by (eapply dead_steps; [eauto| |exact St]; eapply failed_dead; eauto).
  assert (R' := reach_steps _ _ _ R St). destruct (reach_OK s' R') as [o V]. destruct D as [D1 D2].
  assert (Eo : o = ODead).
  { assert (O := v_o _ _ V). destruct o; cbn in O; auto; exfalso.
    - rewrite D1 in O. discriminate.
    - destruct O as [_ O]. specialize (D2 t0). rewrite O in D2. exact D2.
    - destruct O as [_ [O _]]. specialize (D2 t0). rewrite O in D2. exact D2.
    - destruct O as [_ [O _]]. specialize (D2 t0). rewrite O in D2. exact D2.
    - destruct O as (q & O1 & _ & _ & _ & O5). destruct (k_id _ _ _ _ (v_q _ _ V i q O1)). lia. }
  subst o. repeat split.
  - rewrite D1. discriminate.
  - intros [x N]. apply N, D2.
  - intros (i & q & N1 & N2 & N3). destruct (k_own _ _ _ _ (v_q _ _ V i q N1) N2); auto.
  - rewrite D1. reflexivity.
Qed.

(** ** The id of the main queue *)

(** Once aosl_main_start has stored the id (so when it has returned, and until
    the queue has ended), aosl_mpq_main returns the id of the main queue,
    provided that fewer than 32768 queues had been created. *)
Theorem C58_main_id_partial s i q : reachable false s -> nth_error (s_qs s) i = Some q ->
  q_main q = true -> q_failed q = false -> q_ph q <> QInit -> q_ph q <> QFree -> (forall t, s_th s t <> Store i) ->
  s_main s = q_id q /\ (q_id q < 2147483648 -> mpq_main (s_main s) = q_id q).
Proof.
  intros R Hi M F P1 P2 N. destruct (reach_OK s R) as [o V]. assert (Q := v_q _ _ V i q Hi).
  assert (E : s_main s = q_id q).
  { destruct (k_own _ _ _ _ Q M) as [D|D]; [congruence|]. assert (O := v_o _ _ V). destruct o; cbn in D; try contradiction; subst; cbn in O.
    - destruct O as (_ & _ & r & O1 & _ & O3). assert (r = q) by congruence. subst. exfalso. auto.
    - destruct O as (_ & O & _). exfalso. eapply N; eauto.
    - destruct O as (r & O1 & _ & _ & _ & O5). congruence. }
  split; auto. intros L. rewrite E. destruct (k_id _ _ _ _ Q) as [D1 D2]. unfold mpq_main, s32, s16, wrap_signed.
  change (4294967296 / 2) with 2147483648. change (65536 / 2) with 32768.
  rewrite (Z.mod_small (q_id q) 4294967296) by lia. cbv zeta.
  rewrite (proj2 (Z.leb_gt 2147483648 (q_id q))) by lia.
  rewrite (proj2 (Z.leb_gt 32768 (q_id q mod 65536))) by lia. rewrite (proj2 (Z.ltb_ge (q_id q mod 65536) 0)) by lia. reflexivity.
Qed.
(** When there is none and none is being started, it returns -1. *)
Theorem C58_main_none s : s_main s = INVALID -> mpq_main (s_main s) = -1 /\ main_started (s_main s) = false.
Proof. intros ->. split; reflexivity. Qed.

(** ** Ending it *)

(** aosl_main_exit and aosl_main_exit_wait never end a queue that is not a main
    queue, nor one that is still being created. *)
Theorem C58_exit_ends_main_only s t i : reachable false s -> In (ETerm t i) (s_tr s) ->
  exists q, nth_error (s_qs s) i = Some q /\ q_main q = true /\ q_failed q = false /\ q_ph q <> QInit.
Proof.
  intros R E. destruct (reach_OK s R) as [o V]. destruct (v_eterm _ _ V t i E) as (q & H1 & H2 & H3 & H4).
  exists q. repeat split; auto. intros P. destruct (k_init _ _ _ _ (v_q _ _ V i q H1) P) as [x ->]. apply H4. reflexivity.
Qed.

(** Thread [t] is in a call of kind [k] that was made when [i] was the main queue. *)
Definition in_call (k : kind) (id : Z) (i : nat) (p : pc) : Prop := p = Lookup k id \/ p = Got k i \/ p = Waiting k i.
(** [t] does not return from [s] to [s']. *)
Inductive during (t : nat) (s : state) : state -> Prop :=
| D_refl : during t s s
| D_step s1 s2 : during t s s1 -> step false s1 s2 -> s_th s2 t <> Idle -> during t s s2.

Lemma id_step s s' i q : step false s s' -> nth_error (s_qs s) i = Some q -> exists q', nth_error (s_qs s') i = Some q' /\ q_id q' = q_id q.
Proof.
  intros St Hi.
  assert (U : forall j r r', nth_error (s_qs s) j = Some r -> q_id r' = q_id r -> exists q', nth_error (upd (s_qs s) j r') i = Some q' /\ q_id q' = q_id q).
  { intros j r r' Hj E. rewrite upd_nth. destruct (Nat.eqb_spec i j) as [->|n]; [|eauto]. rewrite Hj. exists r'. split; congruence. }
  assert (A : forall x, exists q', nth_error (s_qs s ++ [x]) i = Some q' /\ q_id q' = q_id q).
  { intros x. rewrite nth_app. destruct (Nat.eqb_spec i (length (s_qs s))); [|eauto]. apply nth_len in Hi. lia. }
  destruct St; proj; eauto; try (eapply U; eauto; reflexivity).
  destruct (s_reg s); proj; eauto.
Qed.

(** What aosl_main_exit_wait and aosl_main_wait promise: if the call was made
    while queue i was the main queue (t idle in s0), then when it returns 0 the
    fini of the queue has run; if it fails, the queue was already ending, or the
    caller is the queue's own thread. *)
Theorem C58_wait s0 s2 s3 t k i q0 : reachable false s0 -> s_th s0 t = Idle -> k <> KExit ->
  nth_error (s_qs s0) i = Some q0 -> s_main s0 = q_id q0 ->
  during t (setT t (Lookup k (s_main s0)) s0) s2 -> step false s2 s3 -> s_th s3 t = Idle ->
  exists ret errno tr, s_tr s3 = EExit t k ret errno :: tr /\
    ((ret = 0 /\ In (EFini i) tr) \/
     (ret = -1 /\ errno = AOSL_EINVAL /\ exists q, nth_error (s_qs s3) i = Some q /\ installed q = false) \/
     (ret = -1 /\ errno = AOSL_EBUSY)).
Proof.
  intros R T K Hi M D St T3. set (s1 := setT t (Lookup k (s_main s0)) s0) in *.
  assert (R1 : reachable false s1) by (eapply R_step; [exact R|apply S_read; auto]).
  assert (G : reachable false s2 /\ in_call k (q_id q0) i (s_th s2 t) /\ exists q, nth_error (s_qs s2) i = Some q /\ q_id q = q_id q0).
  { clear St T3. induction D as [|s2 s2' D IH St N].
    - split; auto. split; [left; cbn; rewrite Nat.eqb_refl; congruence|]. exists q0. auto.
    - destruct IH as (R2 & C & q & Hq & Eq). assert (R3 : reachable false s2') by (eapply R_step; eauto). split; auto.
      destruct (id_step _ _ _ _ St Hq) as (q' & Hq' & Eq'). split; [|exists q'; split; congruence].
      destruct (reach_OK s2 R2) as [o V].
      assert (X : forall x p, s_th s2 x = p -> ~ in_call k (q_id q0) i p -> x <> t) by (intros x p E1 E2 ->; apply E2; congruence).
      destruct St; proj; auto; try (rewrite (proj2 (Nat.eqb_neq t _)); [exact C|apply not_eq_sym; eapply X; [eauto|unfold in_call; intuition congruence]]).
      + destruct (s_reg s2); cbn; (rewrite (proj2 (Nat.eqb_neq t _)); [exact C|apply not_eq_sym; eapply X; [eauto|unfold in_call; intuition congruence]]).
      + destruct (Nat.eqb_spec t t0) as [<-|]; [|exact C]. exfalso; apply N; reflexivity.
      + destruct (Nat.eqb_spec t t0) as [<-|]; [|exact C]. right; left.
        apply lookup_some in H0 as (r & L1 & L2 & L3). assert (k0 = k /\ id = q_id q0) as [-> ->] by (destruct C as [C|[C|C]]; split; congruence).
        f_equal. apply (v_uniq _ _ V i0 i r q); congruence.
      + destruct (Nat.eqb_spec t t0) as [<-|]; [|exact C]. exfalso; apply N; reflexivity.
      + destruct (Nat.eqb_spec t t0) as [<-|]; [|exact C]. right; right. destruct C as [C|[C|C]]; congruence.
      + destruct (Nat.eqb_spec t t0) as [<-|]; [|exact C]. right; right. destruct C as [C|[C|C]]; congruence.
      + destruct (Nat.eqb_spec t t0) as [<-|]; [|exact C]. exfalso; apply N; reflexivity. }
  destruct G as (R2 & C & q & Hq & Eq). destruct (reach_OK s2 R2) as [o V].
  assert (NI : s_th s2 t <> Idle) by (destruct C as [C|[C|C]]; congruence).
  destruct St; proj; try congruence;
    try (exfalso; revert T3; destruct (Nat.eqb_spec t t0) as [<-|]; intros; congruence).
  - (* create_fail *) exfalso. revert T3. destruct (Nat.eqb_spec t t0) as [<-|]; intros; [|congruence]. destruct C as [C|[C|C]]; congruence.
  - exfalso. revert T3. destruct (Nat.eqb_spec t t0) as [<-|]; intros; [|congruence]. destruct C as [C|[C|C]]; congruence.
  - exfalso. destruct (s_reg s2); proj; revert T3; (destruct (Nat.eqb_spec t t0) as [<-|]; intros; [|congruence]); destruct C as [C|[C|C]]; congruence.
  - (* none *) revert T3. destruct (Nat.eqb_spec t t0) as [<-|]; intros; [|congruence].
    assert (k0 = k /\ id = q_id q0) as [-> ->] by (destruct C as [C|[C|C]]; split; congruence).
    eexists _, _, _. split; [reflexivity|]. right; left. repeat split; auto. exists q. split; auto.
    destruct (installed q) eqn:E; auto. exfalso. unfold lookup in H0.
    destruct (k_id _ _ _ _ (v_q _ _ V i q Hq)) as [_ B].
    assert (S0 : s16 (q_id q0) <? 0 = false).
    { rewrite <- Eq. unfold s16, wrap_signed. cbv zeta. change (65536 / 2) with 32768. rewrite (proj2 (Z.leb_gt 32768 (q_id q mod 65536))) by lia. lia. }
    rewrite S0 in H0. eapply find_none in H0; [|eapply nth_error_In; exact Hq|exact E]. congruence.
  - (* busy *) revert T3. destruct (Nat.eqb_spec t t0) as [<-|]; intros; [|congruence].
    assert (k0 = k) as -> by (destruct C as [C|[C|C]]; congruence).
    eexists _, _, _. split; [reflexivity|]. right; right. auto.
  - (* exit *) exfalso. revert T3. destruct (Nat.eqb_spec t t0) as [<-|]; intros; [|congruence]. destruct C as [C|[C|C]]; congruence.
  - (* waited *) revert T3. destruct (Nat.eqb_spec t t0) as [<-|]; intros; [|congruence].
    assert (k0 = k /\ i0 = i) as [-> ->] by (destruct C as [C|[C|C]]; split; congruence).
    eexists _, _, _. split; [reflexivity|]. left. split; auto. apply (k_efini _ _ _ _ (v_q _ _ V i q1 H0)). rewrite H1. exact I.
Qed.

(** atexit is told at most once to end the main queue, and the freed queue is
    not read (see below for a program that changes the flags). *)
Theorem C58_atexit_once s : reachable false s -> (s_atexit s <= 1)%nat /\ s_bad s = false.
Proof.
  intros R. destruct (reach_OK s R) as [o V]. split; [rewrite (v_reg _ _ V); destruct (s_reg s); lia|apply V].
Qed.

(** ** Concrete runs *)

(** One step, chosen by name. *)
Inductive act :=
| ACas (t : nat) | AFail (t : nat) (e : Z) | ACreate (t : nat) (slot : Z) | AInit (t : nat) (ok : bool) | AFailRet (t : nat) (e : Z)
| AStore (t : nat) | AReg (t : nat) | AMain (t : nat) | ARead (t : nat) (k : kind) | ALook (t : nat) | AGo (t : nat) | AWaited (t : nat)
| AAllow (i : nat) | ADestroy (i : nat) | AQ (i : nat).
Definition do_act (chg : bool) (a : act) (s : state) : option state :=
  match a with
  | ACas t => match s_th s t with Idle => if s_main s =? INVALID then Some (setT t Creating0 (setM 0 s)) else Some (emit (EStart t (-1) AOSL_EEXIST) s) | _ => None end
  | AFail t e => match s_th s t with Creating0 => Some (emit (EStart t (-1) e) (setT t Idle s)) | _ => None end
  | ACreate t slot =>
      match s_th s t with
      | Creating0 => if ((0 <=? slot) && (slot <? 2048) && forallb (fun q => negb (q_id q =? make_id slot (s_life s))) (s_qs s))%bool
          then Some (emit (EInit (length (s_qs s))) (setT t (Creating (length (s_qs s))) (add_queue s slot true QInit))) else None
      | _ => None end
  | AInit t ok =>
      match s_th s t with
      | Creating i => match nth_error (s_qs s) i with
          | Some q => match q_ph q with QInit => Some (if ok then setT t (Store i) (setQ i (ph q QRun) s) else setQ i (fail q) s) | _ => None end
          | None => None end
      | _ => None end
  | AFailRet t e =>
      match s_th s t with
      | Creating i => match nth_error (s_qs s) i with
          | Some q => match q_ph q with QFree => Some (emit (EStart t (-1) e) (setT t Idle s)) | _ => None end
          | None => None end
      | _ => None end
  | AStore t =>
      match s_th s t with
      | Store i => match nth_error (s_qs s) i with
          | Some q => Some (setT t Register (setM (q_id q) (setBad (match q_ph q with QFree => true | _ => false end) s)))
          | None => None end
      | _ => None end
  | AReg t => match s_th s t with Register => Some (emit (EStart t 0 0) (setT t Idle (if s_reg s then s else setReg (S (s_atexit s)) s))) | _ => None end
  | AMain t => match s_th s t with Idle => Some (emit (EMain t (mpq_main (s_main s))) s) | _ => None end
  | ARead t k => match s_th s t with Idle => Some (setT t (Lookup k (s_main s)) s) | _ => None end
  | ALook t =>
      match s_th s t with
      | Lookup k id => match lookup s id with
          | None => Some (emit (EExit t k (-1) AOSL_EINVAL) (setT t Idle s))
          | Some i => match nth_error (s_qs s) i with Some q => Some (setT t (Got k i) (setQ i (hold t q) s)) | None => None end
          end
      | _ => None end
  | AGo t =>
      match s_th s t with
      | Got k i => match nth_error (s_qs s) i with
          | Some q => match k with
              | KExit => Some (emit (EExit t KExit 0 0) (emit (ETerm t i) (setT t Idle (setQ i (unhold t (term q)) s))))
              | KExitWait => Some (emit (ETerm t i) (setT t (Waiting KExitWait i) (setQ i (unhold t (term q)) s)))
              | KWait => Some (setT t (Waiting KWait i) (setQ i (unhold t q) s))
              end
          | None => None end
      | _ => None end
  | AWaited t =>
      match s_th s t with
      | Waiting k i => match nth_error (s_qs s) i with
          | Some q => match q_ph q with QFree => Some (emit (EExit t k 0 0) (setT t Idle s)) | _ => None end
          | None => None end
      | _ => None end
  | AAllow i => match nth_error (s_qs s) i with Some q => if (chg && installed q)%bool then Some (setQ i (allow q) s) else None | None => None end
  | ADestroy i => match nth_error (s_qs s) i with Some q => if (installed q && q_allowed q)%bool then Some (setQ i (term q) s) else None | None => None end
  | AQ i =>
      match nth_error (s_qs s) i with
      | Some q =>
          match q_ph q with
          | QRun => if q_term q then Some (setQ i (ph q QDying) s) else None
          | QDying => match q_users q with [] => Some (emit (EFini i) (setQ i (ph q QFini) s)) | _ => None end
          | QFini => Some (setQ i (ph q QPut) s)
          | QPut => Some (setM (if q_id q =? s_main s then INVALID else s_main s) (setQ i (ph q QFree) s))
          | _ => None
          end
      | None => None
      end
  end.
Lemma do_act_step chg a s s' : do_act chg a s = Some s' -> step chg s s'.
Proof.
  destruct a; cbn [do_act]; intros E;
    repeat match goal with
    | E : match ?x with _ => _ end = Some _ |- _ => let F := fresh "F" in destruct x eqn:F; try discriminate E
    end; try (match goal with E : Some ?x = Some ?y |- _ => assert (x = y) by congruence; subst y; clear E end);
    repeat match goal with H : (_ && _)%bool = true |- _ => apply andb_true_iff in H as [? ?] end;
    repeat match goal with H : (?x =? ?y) = true |- _ => apply Z.eqb_eq in H | H : (?x =? ?y) = false |- _ => apply Z.eqb_neq in H end;
    try (econstructor; eauto; fail).
  - eapply S_create_q; eauto. split; [lia|]. intros q Hq. rewrite forallb_forall in H0. specialize (H0 q Hq). lia.
  - destruct ok; [eapply S_init_ok|eapply S_init_fail]; eauto.
Qed.
Fixpoint run (chg : bool) (l : list act) (s : state) : option state :=
  match l with [] => Some s | a :: l => match do_act chg a s with Some s' => run chg l s' | None => None end end.
Lemma run_reach chg l : forall s s', reachable chg s -> run chg l s = Some s' -> reachable chg s'.
Proof.
  induction l as [|a l IH]; intros s s' R E; cbn [run] in E; [congruence|].
  destruct (do_act chg a s) eqn:Ea; [|discriminate]. eapply IH; [|eauto]. eapply R_step; [eauto|]. eapply do_act_step; eauto.
Qed.
Lemma run_reach0 chg l life s' : 1 <= life <= 65535 -> run chg l (init_state life) = Some s' -> reachable chg s'.
Proof. intros L E. eapply run_reach; [apply R_init; exact L|exact E]. Qed.
Ltac by_run l life :=
  let s := fresh "s" in let E := fresh "E" in
  match goal with |- exists s0, reachable ?c s0 /\ _ =>
    destruct (run c l (init_state life)) as [s|] eqn:E; [|vm_compute in E; discriminate E];
    exists s; split; [eapply run_reach0; [|exact E]; lia|vm_compute in E; injection E as <-] end.

Definition started (t : nat) (slot : Z) : list act := [ACas t; ACreate t slot; AInit t true; AStore t; AReg t].

(** Two threads start at the same time; the second fails; a third ends the main
    queue and waits; a second main queue is started. *)
Example ex_twice : exists s, reachable false s /\
  s_tr s = [EStart 1 0 0; EInit 1; EExit 2 KExitWait 0 0; EFini 0; ETerm 2 0; EMain 1 65536; EStart 0 0 0; EInit 0; EStart 1 (-1) AOSL_EEXIST] /\
  main_alive s /\ s_atexit s = 1%nat.
Proof.
  by_run ([ACas 0; ACas 1; ACreate 0 0; AInit 0 true; AStore 0; AReg 0; AMain 1; ARead 2 KExitWait; ALook 2; AGo 2; AQ 0; AQ 0; AQ 0; AQ 0; AWaited 2]%nat
    ++ started 1 3) 1.
  split; [reflexivity|]. split; [|reflexivity]. exists 1%nat. eexists. split; [reflexivity|]. split; [reflexivity|discriminate].
Qed.
(** A case of C58_failed_start_is_final_refuted. *)
Example ex_failed : exists s, reachable false s /\ s_tr s = [EMain 1 0; EStart 1 (-1) AOSL_EEXIST; EStart 0 (-1) AOSL_ENOMEM; EFini 0; EInit 0].
Proof. by_run [ACas 0; ACreate 0 0; AInit 0 false; AQ 0; AQ 0; AQ 0; AFailRet 0 AOSL_ENOMEM; ACas 1; AMain 1]%nat 1. reflexivity. Qed.
Example ex_exit_early : exists s, reachable false s /\ s_tr s = [EExit 1 KExit (-1) AOSL_EINVAL; EInit 0].
Proof. by_run [ACas 0; ACreate 0 0; ARead 1 KExit; ALook 1]%nat 1. reflexivity. Qed.

(** aosl_mpq_main answers an id (and aosl_main_started yes) while the main queue
    is being created; no queue has that id. *)
Theorem C58_main_id_early_refuted : exists s, reachable false s /\ main_started (s_main s) = true /\ s_qs s = [] /\ s_tr s = [].
Proof. by_run [ACas 0]%nat 1. auto. Qed.

(** Once 32767 queues have been created, aosl_mpq_main returns a number that is
    not the id of the running main queue: calls with it fail. *)
Theorem C58_main_id_refuted : exists s, reachable false s /\ exists q, s_qs s = [q] /\ q_main q = true /\ q_ph q = QRun /\ s_tr s = [EStart 0 0 0; EInit 0] /\
  main_started (s_main s) = true /\ mpq_main (s_main s) <> q_id q /\ lookup s (mpq_main (s_main s)) = None /\ lookup s (q_id q) = Some 0%nat.
Proof. by_run (started 0 0) 32768. eexists. repeat split; try reflexivity. discriminate. Qed.

(** A program that allows the destruction of the main queue (aosl_mpq_change_flags,
    from init) and destroys it at once: aosl_main_start reads the freed queue,
    reports success, and all later starts fail. *)
Theorem C58_changed_flags_refuted : exists s, reachable true s /\ s_bad s = true /\ ~ main_alive s /\
  s_tr s = [EStart 1 (-1) AOSL_EEXIST; EStart 0 0 0; EFini 0; EInit 0] /\ s_main s <> INVALID.
Proof.
  by_run [ACas 0; ACreate 0 0; AAllow 0; ADestroy 0; AInit 0 true; AQ 0; AQ 0; AQ 0; AQ 0; AStore 0; AReg 0; ACas 1]%nat 1.
  repeat split; try reflexivity; try discriminate. intros (i & q & H1 & H2 & H3). destruct i as [|[|i]]; cbn in H1; try discriminate.
  apply H3. injection H1 as <-. reflexivity.
Qed.

Print Assumptions C58_one_main_queue.
Print Assumptions C58_start_allowed_partial.
Print Assumptions C58_start_refused.
Print Assumptions C58_failed_start_is_final_refuted.
Print Assumptions C58_main_id_partial.
Print Assumptions C58_main_none.
Print Assumptions C58_exit_ends_main_only.
Print Assumptions C58_wait.
Print Assumptions C58_atexit_once.
Print Assumptions C58_main_id_early_refuted.
Print Assumptions C58_main_id_refuted.
Print Assumptions C58_changed_flags_refuted.
