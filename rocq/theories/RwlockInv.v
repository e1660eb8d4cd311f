(** * Invariants of the read-write lock (Rwlock.v). *)
From Verif Require Import Base ArithProof Rwlock.
From Coq Require Import Wellfounded.

(** ** Sums over the clients *)
Fixpoint sumN (N : nat) (f : nat -> Z) : Z := match N with O => 0 | S n => sumN n f + f n end.
Lemma sum_ext N f g : (forall t, (t < N)%nat -> f t = g t) -> sumN N f = sumN N g.
Proof. induction N as [|n IH]; cbn; intros H; [reflexivity|]. rewrite IH, (H n); auto with arith. Qed.
Lemma sum_one N f g t : (t < N)%nat -> (forall u, u <> t -> g u = f u) -> sumN N g = sumN N f - f t + g t.
Proof.
  induction N as [|n IH]; intros Ht H; [lia|]. cbn. destruct (Nat.eq_dec t n) as [->|Hn].
  - rewrite (sum_ext n g f); [lia|]. intros u Hu. apply H. lia.
  - rewrite IH; [|lia|exact H]. rewrite (H n) by lia. lia.
Qed.
Lemma sum_none N f g t : (N <= t)%nat -> (forall u, u <> t -> g u = f u) -> sumN N g = sumN N f.
Proof. intros H1 H2. apply sum_ext. intros u Hu. apply H2. lia. Qed.
Lemma sum_nonneg N f : (forall t, 0 <= f t) -> 0 <= sumN N f.
Proof. intros H. induction N; cbn; [lia|]. specialize (H N). lia. Qed.
Lemma sum_le N f b : (forall t, f t <= b) -> sumN N f <= b * Z.of_nat N.
Proof. intros H. induction N as [|n IH]; cbn [sumN]; [lia|]. specialize (H n). lia. Qed.
Lemma sum_mono N f g : (forall t, f t <= g t) -> sumN N f <= sumN N g.
Proof. intros H. induction N as [|n IH]; cbn; [lia|]. specialize (H n). lia. Qed.
Lemma sum_ge N f t : (forall u, 0 <= f u) -> (t < N)%nat -> f t <= sumN N f.
Proof.
  intros H. induction N as [|n IH]; intros Ht; [lia|]. cbn. destruct (Nat.eq_dec t n) as [->|].
  - pose proof (sum_nonneg n f H). lia.
  - specialize (IH ltac:(lia)). specialize (H n). lia.
Qed.
Lemma sum_ge2 N f t u : (forall v, 0 <= f v) -> (t < N)%nat -> (u < N)%nat -> t <> u -> f t + f u <= sumN N f.
Proof.
  intros H. induction N as [|n IH]; intros Ht Hu Hn; [lia|]. cbn. destruct (Nat.eq_dec t n) as [->|]; [|destruct (Nat.eq_dec u n) as [->|]].
  - pose proof (sum_ge n f u H ltac:(lia)). lia.
  - pose proof (sum_ge n f t H ltac:(lia)). lia.
  - specialize (IH ltac:(lia) ltac:(lia) Hn). specialize (H n). lia.
Qed.
Lemma sum_pos N f : (forall t, 0 <= f t) -> 0 < sumN N f -> exists t, (t < N)%nat /\ 0 < f t.
Proof.
  intros H. induction N as [|n IH]; cbn; intros Hp; [lia|]. destruct (Z.eq_dec (f n) 0) as [E|].
  - destruct IH as (t & A & B); [lia|]. exists t. split; [lia|exact B].
  - exists n. specialize (H n). split; lia.
Qed.
(** Raising f by one on a duplicate-free list of clients. *)
Lemma sum_list N f g l : NoDup l -> (forall t, In t l -> (t < N)%nat /\ g t = f t + 1) -> (forall t, ~ In t l -> g t = f t) ->
  sumN N g = sumN N f + Z.of_nat (length l).
Proof.
  revert g. induction l as [|a l IH]; intros g ND Hi Ho.
  - cbn. rewrite (sum_ext N g f); [lia|]. intros; apply Ho; auto.
  - inversion_clear ND as [|? ? Hn ND']. specialize (IH (fun t => if (t =? a)%nat then f t else g t) ND').
    assert (X : sumN N (fun t => if (t =? a)%nat then f t else g t) = sumN N f + Z.of_nat (length l)).
    { apply IH.
      - intros t Ht. destruct (Hi t ltac:(right; exact Ht)). split; [assumption|]. destruct (Nat.eqb_spec t a); [subst; contradiction|assumption].
      - intros t Ht. destruct (Nat.eqb_spec t a); [reflexivity|]. apply Ho. intros [->|]; tauto. }
    destruct (Hi a ltac:(left; reflexivity)) as [Ha Ea].
    rewrite (sum_one N (fun t => if (t =? a)%nat then f t else g t) g a Ha).
    + cbn beta. rewrite Nat.eqb_refl, X, Ea. cbn [length]. lia.
    + intros u Hu. apply Nat.eqb_neq in Hu. rewrite Hu. reflexivity.
Qed.

Lemma fupd_eq {A} (f : nat -> A) k v : fupd f k v k = v.
Proof. unfold fupd. rewrite Nat.eqb_refl. reflexivity. Qed.
Lemma fupd_ne {A} (f : nat -> A) k v x : x <> k -> fupd f k v x = f x.
Proof. unfold fupd. intros H. apply Nat.eqb_neq in H. rewrite H. reflexivity. Qed.
Lemma fupds_in {A} (f : nat -> A) ks v x : In x ks -> fupds f ks v x = v.
Proof. induction ks as [|k l IH]; cbn; [tauto|]. unfold fupd. destruct (Nat.eqb_spec x k); [reflexivity|]. intros [->|]; [congruence|auto]. Qed.
Lemma fupds_out {A} (f : nat -> A) ks v x : ~ In x ks -> fupds f ks v x = f x.
Proof. induction ks as [|k l IH]; cbn; [reflexivity|]. unfold fupd. destruct (Nat.eqb_spec x k); [subst; tauto|]. intros H. apply IH. tauto. Qed.

(** ** The counter *)
Definition tk (k : kplace) : Z := match k with KUndo => 1 | KGrant a => a | _ => 0 end.
(** read biases of a client, besides the transient one of a waker *)
Definition hr (p : place) (o : bool) : Z :=
  match p with
  | RHold | DownPend => 1
  | RWait | RSleep => if o then 1 else 0
  | K k CHold => 1
  | K k CRead => if o then 1 else 0
  | _ => 0
  end.
Definition tt (p : place) : Z := match p with K k _ => tk k | _ => 0 end.
Definition tg (p : place) : Z := match p with K (KGrant a) _ => a | _ => 0 end.
Definition fr (p : place) : Z := match p with RFail => 1 | _ => 0 end.
Definition fw (p : place) : Z := match p with WFail => 1 | _ => 0 end.
Definition hw (p : place) : Z := match p with WHold => 1 | _ => 0 end.

Definition HR N s := sumN N (fun t => hr (s_pc s t) (s_owed s t)).
Definition TT N s := sumN N (fun t => tt (s_pc s t)).
Definition TG N s := sumN N (fun t => tg (s_pc s t)).
Definition FR N s := sumN N (fun t => fr (s_pc s t)).
Definition FW N s := sumN N (fun t => fw (s_pc s t)).
Definition HW N s := sumN N (fun t => hw (s_pc s t)).
Definition LL s : Z := match s_list s with [] => 0 | _ => 1 end.
Definition act N s : Z := HR N s + TT N s + FR N s + FW N s + HW N s.
Definition wrs N s : Z := FW N s + HW N s.
Definition M : Z := 4294967296.
Definition formula (a w l : Z) : Z := a - M * (w + l).

Definition crit (p : place) : bool := match p with WTry _ | K _ _ => true | _ => false end.
Definition wf_k (k : kplace) (c : cont) : Prop :=
  match k with
  | KStart WAKE_ANY => c = CIdle \/ c = CRead
  | KStart WAKE_READERS => exists v, c = CWrite v /\ active v <> 0
  | KStart WAKE_READ_OWNED => c = CHold
  | KTry | KUndo => c <> CHold
  | KGrant a => (a = 0 /\ c = CHold) \/ (a = 1 /\ c <> CHold)
  | _ => True
  end.
(** A place in which a client may be waiting in the list for reading / writing. *)
Definition rw_place (p : place) : bool := match p with RWait | RSleep | K _ CRead => true | _ => false end.
Definition ww_place (p : place) : bool := match p with WTry _ | WWait | WLock | K _ (CWrite _) => true | _ => false end.
Definition start_list (k : kplace) : bool := match k with KStart _ | KTry | KUndo | KGrant _ => true | _ => false end.
Definition need_reader (k : kplace) : bool := match k with KTry | KUndo | KGrant _ => true | _ => false end.
(** The readers a waker still has to notify. *)
Definition todo (p : place) : list nat := match p with K (KSet l) _ | K (KPul _ _ l) _ => l | _ => [] end.

(** Somebody who will look after the waiters when no one holds the lock. *)
Definition carer (p : place) (pulsed : bool) : bool :=
  match p with
  | WakePend | WLock | K (KStart WAKE_ANY) _ | K KTry _ => true
  | WTry v => active v =? 0
  | WWait => pulsed
  | _ => false
  end.

Record inv (N : nat) (s : state) : Prop := {
  i_cnt : s_cnt s = formula (act N s) (wrs N s) (LL s);
  i_out : forall t, (N <= t)%nat -> s_pc s t = Idle;
  i_mx : forall t, s_mx s = Some t <-> crit (s_pc s t) = true;
  i_wf : forall t k c, s_pc s t = K k c -> wf_k k c;
  i_head : forall t k c, s_pc s t = K k c -> start_list k = true -> s_list s <> [];
  i_read : forall t k c, s_pc s t = K k c -> need_reader k = true -> exists u l, s_list s = (u, true) :: l;
  i_nodup : NoDup (map fst (s_list s));
  i_rd : forall t, In (t, true) (s_list s) <-> rw_place (s_pc s t) = true /\ s_owed s t = false;
  i_wr : forall t, In (t, false) (s_list s) <-> ww_place (s_pc s t) = true;
  i_excl : HW N s <= 1 /\ (HW N s = 1 -> HR N s + TG N s = 0);
  i_todo : forall t, NoDup (todo (s_pc s t));
  i_todo_ok : forall t u, In u (todo (s_pc s t)) -> rw_place (s_pc s u) = true /\ s_owed s u = true /\ s_null s u = false;
  i_owed : forall u, rw_place (s_pc s u) = true -> s_owed s u = true -> s_null s u = false -> exists t, In u (todo (s_pc s t));
  i_null : forall u, rw_place (s_pc s u) = true -> s_null s u = true -> s_owed s u = true;
  i_sleep : forall u, s_pc s u = RSleep -> s_null s u = true -> s_pulse s u = true \/ exists t l c, s_pc s t = K (KPul u (s_gen s u) l) c;
  i_care : s_list s <> [] -> act N s = 0 -> exists t, carer (s_pc s t) (s_pulse s t) = true
}.

Lemma active_mod c : active c = c mod M.
Proof. unfold active, ACTIVE_MASK, M. change 4294967295 with (Z.ones 32). rewrite Z.land_ones by lia. reflexivity. Qed.
Lemma add_id c d : - 9223372036854775808 <= c + d < 9223372036854775808 -> add c d = c + d.
Proof.
  intros H. unfold add. apply s64_id. lia.
Qed.

(** All contributions are small. *)
Lemma hr_b p o : 0 <= hr p o <= 1.
Proof. destruct p as [| | | | | | | | | | | |k c]; cbn; try lia; try (destruct o; lia). destruct c; cbn; try lia; destruct o; lia. Qed.
Lemma fr_b p : 0 <= fr p <= 1. Proof. destruct p; cbn; lia. Qed.
Lemma fw_b p : 0 <= fw p <= 1. Proof. destruct p; cbn; lia. Qed.
Lemma hw_b p : 0 <= hw p <= 1. Proof. destruct p; cbn; lia. Qed.
Lemma tt_b N s t : inv N s -> 0 <= tt (s_pc s t) <= 1.
Proof.
  intros I. destruct (s_pc s t) as [| | | | | | | | | | | |k c] eqn:E; cbn; try lia. pose proof (i_wf _ _ I t k c E) as W.
  destruct k; cbn in *; try lia.
Qed.
Lemma tg_b N s t : inv N s -> 0 <= tg (s_pc s t) <= 1.
Proof.
  intros I. destruct (s_pc s t) as [| | | | | | | | | | | |k c] eqn:E; cbn; try lia. pose proof (i_wf _ _ I t k c E) as W.
  destruct k; cbn in *; try lia.
Qed.
Record bnd (N : nat) (s : state) : Prop := { b_hr : 0 <= HR N s; b_tt : 0 <= TT N s; b_tg : 0 <= TG N s <= TT N s; b_fr : 0 <= FR N s; b_fw : 0 <= FW N s; b_hw : 0 <= HW N s;
  b_sum : act N s <= 2 * Z.of_nat N; b_l : LL s = 0 /\ s_list s = [] \/ LL s = 1 /\ s_list s <> [] }.
Lemma bounds N s : inv N s -> bnd N s.
Proof.
  intros I. split.
  - apply sum_nonneg. intros; apply hr_b.
  - apply sum_nonneg. intros; apply (tt_b N); assumption.
  - split; [apply sum_nonneg; intros; apply (tg_b N); assumption|]. apply sum_mono. intros t. pose proof (tt_b N s t I).
    destruct (s_pc s t) as [| | | | | | | | | | | |[] c]; cbn in *; lia.
  - apply sum_nonneg. intros; apply fr_b.
  - apply sum_nonneg. intros; apply fw_b.
  - apply sum_nonneg. intros; apply hw_b.
  - unfold act, HR, TT, FR, FW, HW.
    assert (X : forall f g, sumN N f + sumN N g = sumN N (fun t => f t + g t)).
    { intros f g. clear I. induction N as [|n IH]; cbn; [reflexivity|]. rewrite <- IH. lia. }
    rewrite !X. apply sum_le. intros t. pose proof (tt_b N s t I) as T.
    pose proof (hr_b (s_pc s t) (s_owed s t)) as T2.
    destruct (s_pc s t) as [| | | | | | | | | | | |k c] eqn:E; cbn [hr tt fr fw hw] in *; lia.
  - unfold LL. destruct (s_list s); [left|right]; split; auto; discriminate.
Qed.

(** Owner of wait_lock is unique. *)
Lemma crit_one N s t u : inv N s -> crit (s_pc s t) = true -> crit (s_pc s u) = true -> t = u.
Proof. intros I A B. apply (i_mx _ _ I) in A, B. congruence. Qed.
Lemma crit_none N s t : inv N s -> s_mx s = None -> crit (s_pc s t) = false.
Proof. intros I H. destruct (crit (s_pc s t)) eqn:E; [|reflexivity]. apply (i_mx _ _ I) in E. congruence. Qed.
