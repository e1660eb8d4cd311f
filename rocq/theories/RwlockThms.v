(** * Theorems about histories of the read-write lock. *)
From Verif Require Import Base Rwlock RwlockInv RwlockStep RwlockSpec.

Definition held (p : place) : option bool :=
  match p with RHold | DownPend | K _ CHold => Some false | WHold => Some true | _ => None end.
Definition wanted (p : place) : option bool :=
  match p with
  | RFail | RWait | RSleep | K _ CRead => Some false
  | WFail | WTry _ | WWait | WLock | K _ (CWrite _) => Some true
  | _ => None
  end.
Lemma about_refl t : (t =? t)%nat = true. Proof. apply Nat.eqb_refl. Qed.

Lemma holds_inv N s : reachable N s -> forall t, holds t (s_tr s) = held (s_pc s t) /\ waits t (s_tr s) = wanted (s_pc s t).
Proof.
  intros R. induction R as [|s s' R IH H]; [cbn; auto|]. intros u. specialize (IH u).
  assert (LV : forall t c s1, (exists k, s_pc s1 t = K k c) -> s_tr s1 = s_tr s ->
    holds u (s_tr s) = held (s_pc s1 u) /\ waits u (s_tr s) = wanted (s_pc s1 u) ->
    holds u (s_tr (leave t c s1)) = held (s_pc (leave t c s1) u) /\ waits u (s_tr (leave t c s1)) = wanted (s_pc (leave t c s1) u)).
  { intros t c s1 [k Hk] Et Hx. destruct c; proj; cbn [app]; rewrite Et; destruct (Nat.eq_dec u t) as [->|]; rewrite ?fupd_eq, ?fupd_ne by assumption; rewrite ?Hk in Hx; exact Hx. }
  destruct H; try (proj; cbn [app holds waits about]; destruct (Nat.eq_dec u t) as [->|Hn];
     [rewrite ?fupd_eq, ?about_refl; rewrite ?H0 in IH; brk; cbn [held wanted] in *; tauto|
      rewrite ?fupd_ne by exact Hn; apply Nat.eqb_neq in Hn; rewrite ?(Nat.eqb_sym t u), ?Hn; exact IH]).
  - destruct (s_list s); proj; cbn [app]; eqs; rewrite ?H0 in IH; exact IH.
  - destruct (s_list s); proj; cbn [app]; eqs; rewrite ?H0 in IH; exact IH.
  - apply LV; destruct wt; proj; eauto.
  - destruct (active v =? 0); [proj; cbn [app]; eqs; rewrite ?H0 in IH; exact IH|]. apply LV; proj; cbn [app]; eqs; eauto. rewrite H0 in IH. exact IH.
  - apply LV; eauto.
Qed.

(** A sleeping client: who will wake it. *)
Lemma mover N s t : inv N s -> small N -> (s_pc s t <> Idle /\ s_pc s t <> RHold /\ s_pc s t <> WHold) -> ~ asleep s t ->
  exists u, runs N s u.
Proof.
  intros I S (P1 & P2 & P3) NA.
  assert (Ht : (t < N)%nat). { destruct (Nat.lt_ge_cases t N) as [|G]; [assumption|]. rewrite (i_out _ _ I t G) in P1. congruence. }
  (* the owner of wait_lock can always move *)
  assert (CR : forall u, s_mx s = Some u -> runs N s u).
  { intros u Hm. assert (C : crit (s_pc s u) = true) by (apply (i_mx _ _ I); exact Hm).
    assert (Hu : (u < N)%nat). { destruct (Nat.lt_ge_cases u N) as [|G]; [assumption|]. rewrite (i_out _ _ I u G) in C. discriminate. }
    split; [destruct (s_pc s u); try discriminate C; repeat split; congruence|]. split; [intros [[X|X] _]; rewrite X in C; discriminate|].
    destruct (s_pc s u) as [| | | | | |c| | | | | |k c] eqn:E; try discriminate C.
    - destruct (Z.eq_dec (active c) 0) as [A|A]; [destruct (Z.eq_dec (s_cnt s) WAITING_BIAS) as [B|B]|].
      + eexists. split; [eapply S_wtry_ok; eassumption|]. proj. rewrite fupd_eq. congruence.
      + eexists. split; [eapply S_wtry_no; eassumption|]. proj. rewrite fupd_eq. congruence.
      + eexists. split; [eapply S_wtry_active; eassumption|]. proj. rewrite fupd_eq. congruence.
    - assert (LV : forall s1, s_pc (leave u c s1) u <> K k c) by (intros s1; destruct c; proj; rewrite fupd_eq; congruence).
      destruct k as [wt| | |adj|[|v l]|v g l].
      + destruct (s_list s) as [|[v [|]] l] eqn:EL; [exfalso; eapply (i_head _ _ I); eauto| |].
        * eexists. split; [eapply S_kreader; eassumption|]. proj. rewrite fupd_eq. destruct wt; congruence.
        * eexists. split; [eapply S_kwriter; eassumption|]. apply LV.
      + eexists. split; [eapply S_ktry; eassumption|]. proj. rewrite fupd_eq. destruct (_ <? _); congruence.
      + eexists. split; [eapply S_kundo; [eassumption..|reflexivity]|]. destruct (_ =? 0); [proj; rewrite fupd_eq; congruence|]. apply LV.
      + eexists. split; [eapply S_kgrant; [eassumption..|reflexivity]|]. proj. rewrite fupd_eq. congruence.
      + eexists. split; [eapply S_kdone; eassumption|]. apply LV.
      + eexists. split; [eapply S_kset; eassumption|]. proj. rewrite fupd_eq. congruence.
      + destruct (in_call (s_pc s v)) eqn:Ec; [destruct (Nat.eq_dec g (s_gen s v)) as [Eg|Eg]|].
        * eexists. split; [eapply S_kpul; eassumption|]. proj. rewrite fupd_eq. congruence.
        * eexists. split; [eapply S_kpul_stray; [eassumption..|left; exact Eg]|]. proj. rewrite fupd_eq. congruence.
        * eexists. split; [eapply S_kpul_stray; [eassumption..|right; exact Ec]|]. proj. rewrite fupd_eq. congruence. }
  destruct (s_mx s) as [u|] eqn:EM; [exists u; apply CR; reflexivity|]. exists t.
  split; [repeat split; assumption|]. split; [exact NA|].
  destruct (s_pc s t) as [| | | | | |c| | | | | |k c] eqn:E; try congruence.
  - eexists. split; [eapply S_read_failed; [eassumption..|reflexivity|reflexivity]|]. proj. rewrite fupd_eq. destruct (_ || _); congruence.
  - destruct (s_null s t) eqn:En; (eexists; split; [(eapply S_granted; eassumption) || (eapply S_not_granted; eassumption)|proj; rewrite fupd_eq; congruence]).
  - eexists. split; [eapply S_rwake; eassumption|]. proj. rewrite fupd_eq. congruence.
  - eexists. split; [eapply S_write_failed; [eassumption..|reflexivity|reflexivity]|]. proj. rewrite fupd_eq. destruct (_ && _); congruence.
  - exfalso. pose proof (crit_none N s t I EM) as X. rewrite E in X. discriminate.
  - eexists. split; [eapply S_wwake; eassumption|]. proj. rewrite fupd_eq. congruence.
  - eexists. split; [eapply S_wlock; eassumption|]. proj. rewrite fupd_eq. congruence.
  - eexists. split; [eapply S_wake; eassumption|]. destruct (s_list s); proj; rewrite fupd_eq; congruence.
  - eexists. split; [eapply S_downwake; eassumption|]. destruct (s_list s); proj; rewrite fupd_eq; congruence.
  - exfalso. pose proof (crit_none N s t I EM) as X. rewrite E in X. discriminate.
Qed.

Lemma busy_K N s t k c : inv N s -> small N -> s_pc s t = K k c -> exists u, runs N s u.
Proof.
  intros I S H. apply (mover N s t I S); [rewrite H; repeat split; congruence|]. intros [[X|X] _]; rewrite H in X; discriminate.
Qed.
(** A reader that has been given the lock and sleeps is being told. *)
Lemma owed_told N s t : inv N s -> small N -> rw_place (s_pc s t) = true -> s_owed s t = true -> exists u, runs N s u.
Proof.
  intros I S Hr Ho. destruct (s_null s t) eqn:En.
  - destruct (s_pc s t) as [| | | | | | | | | | | |k c] eqn:E; try discriminate Hr.
    + apply (mover N s t I S); [rewrite E; repeat split; congruence|]. intros [[X|X] _]; congruence.
    + destruct (i_sleep _ _ I t E En) as [P|(v & l & c & P)]; [|eapply busy_K; eassumption].
      apply (mover N s t I S); [rewrite E; repeat split; congruence|]. intros [_ X]; congruence.
    + eapply busy_K; eassumption.
  - destruct (i_owed _ _ I t Hr Ho En) as [v Hv]. destruct (s_pc s v) eqn:E; try destruct Hv. eapply busy_K; eassumption.
Qed.

Theorem no_forgotten N s t : small N -> reachable N s -> (forall u, holds u (s_tr s) = None) -> waits t (s_tr s) <> None -> exists u, runs N s u.
Proof.
  intros S R NH Hw. pose proof (inv_reachable N s S R) as I.
  assert (HP : forall u, held (s_pc s u) = None) by (intros u; rewrite <- (proj1 (holds_inv N s R u)); apply NH).
  assert (HT : wanted (s_pc s t) <> None) by (rewrite <- (proj2 (holds_inv N s R t)); exact Hw). clear NH Hw.
  assert (LI : s_list s <> [] -> exists u, runs N s u).
  { intros HL. destruct (Z.eq_dec (act N s) 0) as [A|A].
    - destruct (i_care _ _ I HL A) as [v Hv]. apply (mover N s v I S).
      + destruct (s_pc s v); try discriminate Hv; repeat split; congruence.
      + intros [[X|X] P]; rewrite X in Hv; try discriminate Hv. cbn in Hv. congruence.
    - pose proof (bounds _ _ I) as [B1 B2 B3 B4 B5 B6 _ _]. unfold act in A.
      assert (X : 0 < HR N s \/ 0 < TT N s \/ 0 < FR N s \/ 0 < FW N s \/ 0 < HW N s) by lia. destruct X as [X|[X|[X|[X|X]]]]; apply sum_pos in X.
      + destruct X as (u & _ & X). specialize (HP u).
        destruct (s_owed s u) eqn:Eo; [|exfalso; destruct (s_pc s u) as [| | | | | | | | | | | |k c]; try discriminate HP; cbn in X; try lia; destruct c; try discriminate HP; lia].
        apply (owed_told N s u I S); [|exact Eo]. destruct (s_pc s u) as [| | | | | | | | | | | |k c]; try discriminate HP; cbn in X; try lia; try reflexivity. destruct c; try discriminate HP; try lia; reflexivity.
      + intros; apply hr_b.
      + destruct X as (u & _ & X). destruct (s_pc s u) eqn:E; cbn in X; try lia. eapply busy_K; eassumption.
      + intros; apply (tt_b N), I.
      + destruct X as (u & _ & X). destruct (s_pc s u) eqn:E; cbn in X; try lia. apply (mover N s u I S); [rewrite E; repeat split; congruence|]. intros [[Y|Y] _]; congruence.
      + intros; apply fr_b.
      + destruct X as (u & _ & X). destruct (s_pc s u) eqn:E; cbn in X; try lia. apply (mover N s u I S); [rewrite E; repeat split; congruence|]. intros [[Y|Y] _]; congruence.
      + intros; apply fw_b.
      + destruct X as (u & _ & X). specialize (HP u). destruct (s_pc s u) eqn:E; cbn in X; try lia. discriminate HP.
      + intros; apply hw_b. }
  destruct (rw_place (s_pc s t)) eqn:Er.
  - destruct (s_owed s t) eqn:Eo; [apply (owed_told N s t); assumption|]. apply LI. intros X. assert (Y : In (t, true) (s_list s)) by (apply (i_rd _ _ I); auto). rewrite X in Y. destruct Y.
  - destruct (ww_place (s_pc s t)) eqn:Ew.
    + apply LI. intros X. assert (Y : In (t, false) (s_list s)) by (apply (i_wr _ _ I); auto). rewrite X in Y. destruct Y.
    + apply (mover N s t I S); [destruct (s_pc s t); try discriminate Er; try discriminate Ew; cbn in HT; repeat split; congruence|].
      intros [[X|X] _]; rewrite X in *; discriminate.
Qed.

Theorem exclusion N s t u : small N -> reachable N s -> holds t (s_tr s) = Some true -> holds u (s_tr s) <> None -> t = u.
Proof.
  intros S R Ht Hu. pose proof (inv_reachable N s S R) as I. rewrite (proj1 (holds_inv N s R t)) in Ht. rewrite (proj1 (holds_inv N s R u)) in Hu.
  assert (BT : forall v, held (s_pc s v) <> None -> (v < N)%nat).
  { intros v Hv. destruct (Nat.lt_ge_cases v N) as [|G]; [assumption|]. rewrite (i_out _ _ I v G) in Hv. cbn in Hv. congruence. }
  pose proof (BT t ltac:(congruence)) as Lt. pose proof (BT u Hu) as Lu. destruct (Nat.eq_dec t u) as [|Hn]; [assumption|exfalso].
  assert (W1 : hw (s_pc s t) = 1). { destruct (s_pc s t) as [| | | | | | | | | | | |k c]; try discriminate Ht; try reflexivity. destruct c; discriminate Ht. }
  pose proof (ges N s t I Lt) as G. pose proof (bounds _ _ I) as [B1 B2 B3 B4 B5 B6 _ _]. destruct (i_excl _ _ I) as [E1 E2].
  assert (HW1 : HW N s = 1) by lia. specialize (E2 HW1).
  pose proof (ges N s u I Lu) as G'.
  assert (X : hr (s_pc s u) (s_owed s u) = 1 \/ hw (s_pc s u) = 1).
  { destruct (s_pc s u) as [| | | | | | | | | | | |k c]; cbn in Hu; try congruence; cbn; auto. destruct c; try congruence; auto. }
  destruct X as [X|X]; [lia|]. pose proof (sum_ge2 N (fun v => hw (s_pc s v)) t u ltac:(intros; apply hw_b) Lt Lu Hn) as Y. cbn beta in Y. unfold HW in HW1. lia.
Qed.

(** Only readers, nobody waiting: the counter is the number of readers. *)
Lemma quiet_count N s : inv N s -> (forall u, s_pc s u = Idle \/ s_pc s u = RHold) -> 0 <= s_cnt s <= Z.of_nat N /\ ((forall u, s_pc s u = Idle) -> s_cnt s = 0).
Proof.
  intros I Q.
  assert (L : s_list s = []).
  { destruct (s_list s) as [|[v [|]] l] eqn:E; [reflexivity|exfalso..].
    - assert (X : In (v, true) (s_list s)) by (rewrite E; left; reflexivity). apply (i_rd _ _ I) in X. destruct (Q v) as [Y|Y]; rewrite Y in X; destruct X; discriminate.
    - assert (X : In (v, false) (s_list s)) by (rewrite E; left; reflexivity). apply (i_wr _ _ I) in X. destruct (Q v) as [Y|Y]; rewrite Y in X; discriminate. }
  assert (Z0 : forall f : place -> Z, f Idle = 0 -> f RHold = 0 -> sumN N (fun t => f (s_pc s t)) = 0).
  { intros f H1 H2. rewrite (sum_ext N _ (fun _ => 0)); [clear; induction N as [|n IHn]; cbn; [reflexivity|rewrite IHn; reflexivity]|].
    intros t _. destruct (Q t) as [->| ->]; assumption. }
  pose proof (i_cnt _ _ I) as C. unfold formula, act, wrs, LL in C. rewrite L in C.
  unfold TT, FR, FW, HW in C. rewrite !Z0 in C by reflexivity.
  assert (B : 0 <= HR N s <= Z.of_nat N).
  { split; [apply sum_nonneg; intros; apply hr_b|]. pose proof (sum_le N (fun t => hr (s_pc s t) (s_owed s t)) 1) as X. unfold HR.
    rewrite Z.mul_1_l in X. apply X. intros t. pose proof (hr_b (s_pc s t) (s_owed s t)). lia. }
  split; [lia|]. intros A. assert (E : HR N s = 0). { unfold HR. rewrite (sum_ext N _ (fun _ => 0)); [clear; induction N as [|n IHn]; cbn; [reflexivity|rewrite IHn; reflexivity]|].
    intros t _. rewrite A. reflexivity. } lia.
Qed.
