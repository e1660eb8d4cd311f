(** * C26, C49: the read-write lock. *)
From Verif Require Import Base ArithProof Rwlock RwlockInv RwlockStep RwlockSpec RwlockThms.

(** N clients, any schedule; the hypothesis on N (fewer than 2^29 simultaneous
    acquisitions) is what the 32 active bits of the counter allow for. *)

(** C26: while one client holds the lock for writing, nobody else holds it in any way. *)
Theorem C26_exclusion : forall N s t u, Z.of_nat N < 536870912 -> reachable N s ->
  holds t (s_tr s) = Some true -> holds u (s_tr s) <> None -> t = u.
Proof. exact exclusion. Qed.
Print Assumptions C26_exclusion.

(** C26: if nobody holds the lock and some client is inside a blocking lock
    call, then some client is executing lock code and is not blocked: no
    state in which all waiters sleep for ever. *)
Theorem C26_no_forgotten_waiter : forall N s t, Z.of_nat N < 536870912 -> reachable N s ->
  (forall u, holds u (s_tr s) = None) -> waits t (s_tr s) <> None -> exists u, runs N s u.
Proof. exact no_forgotten. Qed.
Print Assumptions C26_no_forgotten_waiter.

(** C26: when nobody uses the lock, every operation of any client that starts
    takes the lock at once: blocking calls do not block, try calls do not fail. *)
Theorem C26_free_lock_is_taken : forall N s s', Z.of_nat N < 536870912 -> reachable N s ->
  (forall u, s_pc s u = Idle) -> step N s s' -> exists t w, holds t (s_tr s') = Some w.
Proof.
  intros N s s' S R Q H. pose proof (inv_reachable N s S R) as I.
  destruct (quiet_count N s I) as [B Z0]; [auto|]. specialize (Z0 Q).
  destruct H; try (rewrite (Q t) in H0; discriminate H0); proj; cbn [app];
    try (exists t; eexists; cbn [holds about]; rewrite Nat.eqb_refl; reflexivity); exfalso;
    rewrite Z0 in *; vm_compute in H1; congruence.
Qed.
Print Assumptions C26_free_lock_is_taken.

(** C26: readers do not exclude readers: while the lock is only held for
    reading and nobody waits, a reader that comes gets it at once. *)
Theorem C26_readers_share : forall N s s' t e, Z.of_nat N < 536870912 -> reachable N s ->
  (forall u, s_pc s u = Idle \/ s_pc s u = RHold) -> step N s s' ->
  In e [EWant t false; EBusy t false] -> hd_error (s_tr s') = Some e -> False.
Proof.
  intros N s s' t e S R Q H He Hd. pose proof (inv_reachable N s S R) as I.
  destruct (quiet_count N s I Q) as [B _].
  assert (A : add (s_cnt s) READ_BIAS = s_cnt s + 1) by (apply add_id; unfold READ_BIAS; lia).
  destruct H; try (destruct (Q t0) as [X|X]; rewrite X in H0; discriminate H0); proj; cbn [app hd_error] in Hd; inversion Hd; subst e;
    cbn [In] in He; decompose [or] He; try discriminate; try contradiction; lia.
Qed.
Print Assumptions C26_readers_share.

(** C26: a try call fails only when somebody else is inside. *)
Theorem C26_try_fails_only_if_used : forall N s s' t w, Z.of_nat N < 536870912 -> reachable N s -> step N s s' ->
  s_tr s' = EBusy t w :: s_tr s -> exists u, s_pc s u <> Idle.
Proof.
  intros N s s' t w S R H E. pose proof (inv_reachable N s S R) as I.
  destruct (Z.eq_dec (s_cnt s) 0) as [Z0|Z0].
  - exfalso. assert (L : forall A (x : A) l, l <> x :: l). { intros A x l. induction l; congruence. }
    assert (LT : forall k c s1, s_tr (leave k c s1) = s_tr s1) by (intros ? [] ?; reflexivity).
    assert (L2 : forall A (x y : A) l, y :: x :: l <> y :: l) by (intros A x y l X; injection X; intros X'; symmetry in X'; revert X'; apply L).
    destruct H; rewrite ?LT in E; proj; cbn [app] in E; try (injection E; intros; subst); try lia; try congruence; try (eapply L; eassumption); try (destruct (s_list s); proj; cbn [app] in E; eapply L; eassumption).
    + destruct wt; cbn in E; eapply L; eassumption.
    + destruct (active v =? 0); rewrite ?LT in E; cbn in E; eapply L; eassumption.
  - assert (D : forall n, (forall u, (u < n)%nat -> s_pc s u = Idle) \/ exists u, s_pc s u <> Idle).
    { induction n as [|n [IH|IH]]; [left; lia| |right; exact IH]. destruct (s_pc s n) eqn:X; try (right; exists n; congruence).
      left. intros u Hu. destruct (Nat.eq_dec u n) as [->|]; [assumption|apply IH; lia]. }
    destruct (D N) as [Q|Q]; [exfalso|exact Q].
    assert (Q' : forall u, s_pc s u = Idle). { intros u. destruct (Nat.lt_ge_cases u N); [auto|apply (i_out _ _ I); assumption]. }
    destruct (quiet_count N s I) as [_ C]; [auto|]. auto.
Qed.
Print Assumptions C26_try_fails_only_if_used.

(** ** Executions *)
Ltac st c t := match goal with R : reachable ?N ?s |- _ =>
  let R' := fresh in
  eassert (R' : reachable N _);
  [eapply (R_step N s _ R); eapply (c N s t); (match goal with |- s_pc _ _ = _ => vm_compute; reflexivity | |- s_list _ = _ => vm_compute; reflexivity | _ => idtac end); (match goal with |- ?x = _ => is_evar x; vm_compute; reflexivity | _ => idtac end);
   (match goal with |- (_ < _)%nat => lia | |- _ = _ => vm_compute; reflexivity | _ => vm_compute; solve [(intros X; discriminate X) | reflexivity | (left; intros X; discriminate X) | (right; reflexivity)] end) | ];
  clear R; rename R' into R; vm_compute in R end.

(** Two readers share the lock, a writer waits, gets it when both have left,
    turns it into a read lock; a reader that came meanwhile is let in. *)
Example rwlock_execution : exists s, reachable 4 s /\
  s_tr s = [EGot 3 false; EDown 2; EGot 2 true; ERel 1 false; ERel 0 false; EWant 3 false; EWant 2 true;
            EGot 1 false; EWant 1 false; EGot 0 false; EWant 0 false]%nat /\ holds 2 (s_tr s) = Some false /\ holds 3 (s_tr s) = Some false.
Proof.
  pose proof (R_init 4) as R.
  st S_rdlock 0%nat. st S_rdlock 1%nat. st S_wrlock_slow 2%nat.
  st S_write_failed 2%nat. st S_wtry_active 2%nat.
  st S_rdlock_slow 3%nat. st S_read_failed 3%nat. st S_not_granted 3%nat.
  st S_rdunlock 0%nat. st S_rdunlock 1%nat. st S_wake 1%nat.
  st S_kwriter 1%nat. st S_wwake 2%nat. st S_wlock 2%nat. st S_wtry_ok 2%nat.
  st S_wr2rd 2%nat. st S_downwake 2%nat. st S_kreader 2%nat. st S_kgrant 2%nat.
  st S_kset 2%nat. st S_kpul 2%nat. st S_rwake 3%nat. st S_granted 3%nat.
  st S_kdone 2%nat.
  eexists. split; [exact R|]. repeat split; reflexivity.
Qed.

(** C49 says that the lock never writes into the stack frame of a lock call
    that has returned.  It does: __rwlock_do_wake clears waiter->event, which
    lets the waiter return and destroy its event, and pulses that event afterwards. *)
Theorem C49_refuted : exists s, reachable 2 s /\ In (EStray 1) (s_tr s) /\ holds 1 (s_tr s) = Some false.
Proof.
  pose proof (R_init 2) as R.
  st S_wrlock 0%nat. st S_rdlock_slow 1%nat. st S_read_failed 1%nat.
  st S_wrunlock 0%nat. st S_wake 0%nat. st S_kreader 0%nat. st S_ktry 0%nat.
  st S_kgrant 0%nat. st S_kset 0%nat. st S_granted 1%nat. st S_kpul_stray 0%nat.
  eexists. split; [exact R|]. split; [left; reflexivity|reflexivity].
Qed.
Print Assumptions C49_refuted.

(** What does hold of C49: whenever the lock signals the event of a waiting
    client, that client is inside its blocking lock call at that moment ... *)
Theorem C49_signals_only_waiters_partial : forall N s s' u, Z.of_nat N < 536870912 -> reachable N s -> step N s s' ->
  s_pulse s u = false -> s_pulse s' u = true -> waits u (s_tr s) <> None.
Proof.
  intros N s s' u S R H P P'. pose proof (inv_reachable N s S R) as I. rewrite (proj2 (holds_inv N s R u)).
  assert (LP : forall k c s1, s_pulse (leave k c s1) = s_pulse s1) by (intros ? [] ?; reflexivity).
  destruct H; rewrite ?LP in P'; proj; try congruence;
    try (destruct (Nat.eq_dec u t) as [->|E]; [rewrite fupd_eq in P'; discriminate|rewrite fupd_ne in P' by exact E; congruence]).
  - destruct (s_list s); proj; congruence.
  - destruct (s_list s); proj; congruence.
  - destruct wt; proj; try congruence. destruct (Nat.eq_dec u u0) as [->|E]; [|rewrite fupd_ne in P' by exact E; congruence].
    assert (W : ww_place (s_pc s u0) = true) by (apply (i_wr _ _ I); rewrite H1; left; reflexivity).
    destruct (s_pc s u0) as [| | | | | | | | | | | |k c0]; try discriminate W; cbn; try congruence. destruct c0; try discriminate W; congruence.
  - destruct (active v =? 0); rewrite ?LP in P'; proj; congruence.
  - destruct (Nat.eq_dec u u0) as [->|E]; [|rewrite fupd_ne in P' by exact E; congruence].
    destruct (s_pc s u0) as [| | | | | | | | | | | |k c0]; try discriminate H2; cbn; try congruence. destruct c0; try discriminate H2; congruence.
Qed.
Print Assumptions C49_signals_only_waiters_partial.

(** ... and the write that comes too late can only be the one that follows a
    read lock granted to that client: no writer, and no client that has not
    been granted a read lock before, ever has its frame touched. *)
Theorem C49_stray_needs_read_grant_partial : forall N s a u b, Z.of_nat N < 536870912 -> reachable N s ->
  s_tr s = a ++ EStray u :: b -> In (EGot u false) b.
Proof.
  intros N s a u b S R.
  assert (K : forall s, reachable N s ->
    (forall t u g l c, s_pc s t = K (KPul u g l) c -> (rw_place (s_pc s u) = true /\ g = s_gen s u) \/ In (EGot u false) (s_tr s)) /\
    (forall a u b, s_tr s = a ++ EStray u :: b -> In (EGot u false) b)).
  { clear s a u b R. intros s R. induction R as [|s s' R [IH1 IH2] H]; [split; [intros ? ? ? ? ?; discriminate|intros [|] ? ?; discriminate]|].
    pose proof (inv_reachable N s S R) as I.
    assert (NS : forall es, (forall x, In x es -> forall v, x <> EStray v) -> forall a u b, es ++ s_tr s = a ++ EStray u :: b -> In (EGot u false) b).
    { induction es as [|e es IHe]; intros NE a u b E; [apply (IH2 a u b E)|]. destruct a as [|e' a]; [exfalso; apply (NE e ltac:(left; reflexivity) u); cbn in E; congruence|]. apply (IHe ltac:(intros; apply NE; right; assumption) a u b). cbn in E. congruence. }
    assert (P2 : forall a u b, s_tr s' = a ++ EStray u :: b -> In (EGot u false) b).
    { assert (LT : forall k c s1, s_tr (leave k c s1) = s_tr s1) by (intros ? [] ?; reflexivity).
      destruct H; rewrite ?LT; proj; try (match goal with |- forall a u b, ?es ++ _ = _ -> _ => apply (NS es); intros x Hx v0; cbn [In] in Hx; solve [destruct Hx as [<-|[<-|[]]]; discriminate | destruct Hx as [<-|[]]; discriminate | destruct Hx] end).
      - destruct (s_list s); apply IH2.
      - destruct (s_list s); apply IH2.
      - destruct wt; apply IH2.
      - destruct (active v =? 0); rewrite ?LT; apply IH2.
      - intros [|e0 a0] v b0 E0; cbn [app] in E0; [|apply (IH2 a0); congruence]. assert (b0 = s_tr s) by congruence. assert (v = u) by congruence. subst b0 v.
        destruct (IH1 _ _ _ _ _ H0) as [[W G]|X]; [exfalso|exact X]. destruct H1 as [H1|H1]; [congruence|].
        destruct (s_pc s u) as [| | | | | | | | | | | |k c0]; try discriminate W; try discriminate H1. destruct c0; try discriminate W; discriminate H1.
      - apply IH2. }
    split; [|exact P2]. clear P2 NS IH2.
    assert (G : forall t p tr' (gen' : nat -> nat), (forall x, In x (s_tr s) -> In x tr') -> (forall u, rw_place (s_pc s u) = true -> gen' u = s_gen s u) ->
      (forall u g l c, p = K (KPul u g l) c -> rw_place (fupd (s_pc s) t p u) = true /\ g = gen' u) ->
      (rw_place (s_pc s t) = true -> rw_place p = true \/ In (EGot t false) tr') ->
      forall t1 u g l c, fupd (s_pc s) t p t1 = K (KPul u g l) c -> (rw_place (fupd (s_pc s) t p u) = true /\ g = gen' u) \/ In (EGot u false) tr').
    { intros t p tr' gen' M1 M2 M3 M4 t1 u g l c E. destruct (Nat.eq_dec t1 t) as [->|N1]; [rewrite fupd_eq in E; left; eapply M3; eassumption|]. rewrite fupd_ne in E by exact N1.
      destruct (IH1 _ _ _ _ _ E) as [[W GG]|X]; [|right; auto]. destruct (Nat.eq_dec u t) as [->|N2]; [|left; rewrite fupd_ne by exact N2; rewrite M2 by exact W; auto].
      destruct (M4 W) as [Y|Y]; [left; rewrite fupd_eq, M2 by exact W; auto|right; exact Y]. }
    assert (LV : forall t k c s1, s_pc s t = K k c -> (forall x, x <> t -> s_pc s1 x = s_pc s x) -> s_gen s1 = s_gen s -> s_tr s1 = s_tr s -> forall t1 u g l c', s_pc (leave t c s1) t1 = K (KPul u g l) c' -> (rw_place (s_pc (leave t c s1) u) = true /\ g = s_gen (leave t c s1) u) \/ In (EGot u false) (s_tr (leave t c s1))).
    { intros t k c s1 E1 E2 E3 E4 t1 u g l c'.
      assert (EQ : exists p, (forall x, s_pc (leave t c s1) x = fupd (s_pc s) t p x) /\ (rw_place (K k c) = true -> rw_place p = true) /\ (forall u g l c, p <> K (KPul u g l) c)).
      { destruct c; (eexists; split; [|split]); [intros x; proj; unfold fupd; destruct (Nat.eqb_spec x t); [reflexivity|apply E2; assumption]|cbn; congruence|congruence| intros x; proj; unfold fupd; destruct (Nat.eqb_spec x t); [reflexivity|apply E2; assumption]|cbn; congruence|congruence| intros x; proj; unfold fupd; destruct (Nat.eqb_spec x t); [reflexivity|apply E2; assumption]|cbn; congruence|congruence| intros x; proj; unfold fupd; destruct (Nat.eqb_spec x t); [reflexivity|apply E2; assumption]|cbn; congruence|congruence]. }
      destruct EQ as (p & EQ & W & NP). rewrite !EQ. replace (s_gen (leave t c s1)) with (s_gen s) by (destruct c; cbn; congruence). replace (s_tr (leave t c s1)) with (s_tr s) by (destruct c; cbn; congruence).
      apply G; auto; [intros; exfalso; eapply NP; eassumption|rewrite E1; auto]. }
    destruct H; proj; try (apply G; [intros x Hx; cbn; auto|reflexivity|brk; intros; discriminate|intros W; rewrite H0 in W; solve [discriminate W|left; reflexivity|left; brk; reflexivity|right; left; reflexivity]]).
    all: try (apply G; [intros x Hx; cbn; auto|intros v Hv; destruct (Nat.eq_dec v t) as [->|NV]; [rewrite H0 in Hv; discriminate Hv|apply fupd_ne; exact NV]|brk; intros; discriminate|intros W; rewrite H0 in W; discriminate W]).
    all: try (destruct (s_list s); proj; (apply G; [intros x Hx; cbn; auto|reflexivity|intros; discriminate|intros W; rewrite H0 in W; discriminate W])).
    all: try (match goal with H0 : s_pc _ _ = K _ ?c |- _ => destruct c end; (apply G; [intros x Hx; cbn; auto|reflexivity|brk; intros; discriminate|intros W; rewrite H0 in W; solve [discriminate W|left; reflexivity|left; brk; reflexivity]])).
    all: try (eapply LV; [eassumption|reflexivity|reflexivity|reflexivity]).
    all: try (eapply LV; [eassumption|destruct wt; reflexivity|destruct wt; reflexivity|destruct wt; reflexivity]).
    - destruct c; destruct wt; (apply G; [intros x Hx; cbn; auto|reflexivity|intros; discriminate|intros W; rewrite H0 in W; solve [discriminate W|left; reflexivity]]).
    - destruct (active v =? 0); [proj; destruct c; (apply G; [intros x Hx; cbn; auto|reflexivity|intros; discriminate|intros W; rewrite H0 in W; solve [discriminate W|left; reflexivity]])|].
      eapply LV; [eassumption|intros x Hx; proj; apply fupd_ne; exact Hx|reflexivity|reflexivity].
    - assert (W : rw_place (s_pc s u) = true) by (apply (i_todo_ok _ _ I t); rewrite H0; left; reflexivity).
      apply G; [intros x Hx; cbn; auto|reflexivity| |intros W'; rewrite H0 in W'; left; destruct c; try discriminate W'; reflexivity].
      intros u0 g l0 c0 E. assert (u0 = u /\ g = s_gen s u) as [-> ->] by (split; congruence). split; [|reflexivity].
      destruct (Nat.eq_dec u t) as [->|NU]; [rewrite fupd_eq; rewrite H0 in W; destruct c; try discriminate W; reflexivity|rewrite fupd_ne by exact NU; exact W]. }
  exact (proj2 (K s R) a u b).
Qed.
Print Assumptions C49_stray_needs_read_grant_partial.
