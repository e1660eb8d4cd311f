(** * C70: the public read-write lock with upgrade and downgrade. *)
From Verif Require Import Base Rwapi RwapiSpec RwapiInv.
From Verif Require Rwlock RwlockInv RwlockStep RwlockSpec RwlockThms PropRwlock.

(** While one client holds the lock for writing, nobody else holds it in any way. *)
Theorem C70_exclusion : forall N s t u, Z.of_nat N < 536870912 -> reachable N s ->
  writes t (tr s) -> writes u (tr s) \/ reads u (tr s) -> t = u.
Proof.
  intros N s t u B R Wt Ru. pose proof (inv_reachable N s R) as I. apply (lat_writes N s t I) in Wt.
  apply (RwlockThms.exclusion N (raw s) t u B (v_raw _ _ I)).
  - rewrite (proj1 (v_h _ _ I t)), Wt. reflexivity.
  - rewrite (proj1 (v_h _ _ I u)). destruct Ru as [X|X]; [apply (lat_writes N s u I) in X|apply (lat_reads N s u I) in X]; rewrite X; discriminate.
Qed.
Print Assumptions C70_exclusion.

(** When a call gives a client the write lock, no other client holds the lock
    or is in the middle of an upgrade or a downgrade: what a client read
    before its upgrade is still so when the upgrade returns, and what it wrote
    before a downgrade when the downgrade returns. *)
Theorem C70_changes_are_atomic : forall N s a u o r b t, Z.of_nat N < 536870912 -> reachable N s ->
  tr s = a ++ ERet u o r :: b -> gives_write o r = true -> t <> u ->
  ~ reads t b /\ ~ writes t b /\ ~ inside t OUp b /\ ~ inside t ODown b.
Proof.
  intros N s a u o r b t B R. revert a u o r b t. induction R as [|s s' R IH D H]; intros a u o r b t E G NE; [destruct a; discriminate|].
  pose proof (inv_reachable N s R) as I. pose proof (inv_step N s s' I H) as I'.
  assert (OLD : forall es, tr s' = es ++ tr s -> (forall e, In e es -> forall u o r, e = ERet u o r -> gives_write o r = false) -> ~ reads t b /\ ~ writes t b /\ ~ inside t OUp b /\ ~ inside t ODown b).
  { intros es E1 NG. rewrite E1 in E. clear E1. revert a E. induction es as [|e es IHe]; intros a E; [exact (IH a u o r b t E G NE)|].
    destruct a as [|e' a]; cbn [app] in E; [exfalso; assert (e = ERet u o r) by congruence; specialize (NG e ltac:(left; reflexivity) u o r H0); congruence|].
    apply (IHe ltac:(intros; eapply NG; [right; eassumption|eassumption]) a). congruence. }
  assert (NEW : forall v p r' ov rv, (ov = OWr \/ ov = OTryWr \/ ov = OUp) -> s' = go v WHeld r' (lk s) (cnt s) [ERet v ov rv] s -> pc s v = p -> pl p = true -> ph p = None -> Rwlock.reachable N r' -> ~ reads t b /\ ~ writes t b /\ ~ inside t OUp b /\ ~ inside t ODown b).
  { intros v p r' ov rv OV Es P L PH RR. destruct a as [|e' a]; [|apply (IH a u o r b t); [|assumption..]; subst s'; cbn in E; congruence].
    assert (v = u /\ tr s = b) as [-> <-] by (subst s'; cbn in E; split; congruence).
    assert (LK : lk s = Some u) by (apply (v_l _ _ I); rewrite P; exact L).
    assert (NL : pl (pc s t) = false) by (destruct (pl (pc s t)) eqn:X; [apply (v_l _ _ I) in X; congruence|reflexivity]).
    assert (NH : ph (pc s t) = None).
    { pose proof (v_h _ _ I' t) as [X _]. pose proof (v_h _ _ I' u) as [Y _]. subst s'. proj. rewrite Nat.eqb_refl in Y. rewrite (proj2 (Nat.eqb_neq t u) NE) in X.
      destruct (ph (pc s t)) as [w|] eqn:Ph; [exfalso|reflexivity]. apply NE. symmetry. apply (RwlockThms.exclusion N r' u t B RR); [exact Y|rewrite X; discriminate]. }
    repeat split; intros X.
    - apply (lat_reads N s t I) in X. rewrite X in NH. discriminate.
    - apply (lat_writes N s t I) in X. rewrite X in NH. discriminate.
    - apply (lat_inside N s t OUp I) in X. destruct X as [X1 X2]. destruct (pc s t); cbn in *; congruence.
    - apply (lat_inside N s t ODown I) in X. destruct X as [X1 X2]. destruct (pc s t); cbn in *; congruence. }
  destruct H; try (eapply NEW; [|reflexivity|eassumption|reflexivity|reflexivity|eapply reach_raw; [apply (v_raw _ _ I)|eassumption]]; tauto);
   try (eapply (OLD []); [reflexivity|intros ? []]);
   try (eapply (OLD [_]); [reflexivity|]; intros e [<-|[]] u9 o9 r9 X; injection X as <- <- <-; reflexivity).
  all: eapply (OLD [_]); [reflexivity|]; intros e [<-|[]] u9 o9 r9 X; discriminate.
Qed.
Print Assumptions C70_changes_are_atomic.

(** A blocking wrlock goes round its loop again, and a trywrlock fails, only
    if another client holds the lock or is inside one of the functions. *)
Theorem C70_write_refused_only_if_used : forall N s s' t, Z.of_nat N < 536870912 -> reachable N s -> step N s s' ->
  (pc s t = WTry /\ pc s' t = WNo) \/ (pc s t = TTry /\ pc s' t = TNo) ->
  exists u, u <> t /\ (reads u (tr s) \/ writes u (tr s) \/ exists o, inside u o (tr s)).
Proof.
  intros N s s' t B R H P. pose proof (inv2_reachable N s R) as W. pose proof (w_inv _ _ W) as I.
  assert (U : exists r', rawstep N (raw s) [Rwlock.EBusy t true] r').
  { destruct H; proj; try (destruct P as [[P P']|[P P']]; congruence);
     (destruct (Nat.eqb_spec t t0) as [->|NE]; [|destruct P as [[P P']|[P P']]; congruence]); try (destruct P as [[P P']|[P P']]; congruence); eauto.
    all: exfalso; cbn [In] in H1; destruct P as [[P P']|[P P']]; congruence. }
  destruct U as [r' U]. destruct (rawstep_busy N (raw s) t true r' U) as (Lt & It & _).
  destruct (PropRwlock.C26_try_fails_only_if_used N (raw s) r' t true B (v_raw _ _ I) (proj1 U) (proj2 U)) as [u Hu].
  exists u. split; [intros ->; contradiction|].
  destruct (pc s u) eqn:E; try (right; right; eexists; apply (lat_inside N s u _ I); rewrite E; split; reflexivity).
  - exfalso. apply Hu. apply (w_free _ _ W). rewrite E. reflexivity.
  - left. apply (lat_reads N s u I). exact E.
  - right. left. apply (lat_writes N s u I). exact E.
Qed.
Print Assumptions C70_write_refused_only_if_used.

(** ** No client is forgotten *)
Lemma raw_runs N s u : inv2 N s -> (forall x, ~ reads x (tr s)) -> (forall x, ~ writes x (tr s)) -> RwlockSpec.runs N (raw s) u ->
  exists s', step N s s' /\ incall (pc s u) = true /\ (pc s' u <> pc s u \/ Rwlock.s_pc (raw s') u <> Rwlock.s_pc (raw s) u).
Proof.
  intros W NR NW ((P1 & P2 & P3) & _ & r' & H & C). pose proof (w_inv _ _ W) as I.
  assert (IC : incall (pc s u) = true).
  { destruct (pc s u) eqn:E; try reflexivity; exfalso; [apply P1, (w_free _ _ W); rewrite E; reflexivity|apply (NR u), (lat_reads N s u I); exact E|apply (NW u), (lat_writes N s u I); exact E]. }
  destruct (raw_mover N (raw s) r' H) as (t & es & Ht & E & O & M). assert (t = u) by (destruct (Nat.eq_dec t u) as [|X]; [assumption|exfalso; apply C, O; congruence]). subst t.
  assert (RS : rawstep N (raw s) es r') by (split; assumption).
  destruct M as [(-> & _)|[(v & -> & _)|[(w & -> & X & _)|[(w & -> & X)|[(w & -> & X)|[(w & -> & X)|[(w & -> & X)|(-> & X)]]]]]]]; try contradiction.
  - eexists. split; [eapply X_int; [exact RS|left; reflexivity]|]. split; [exact IC|right; exact C].
  - eexists. split; [eapply X_int; [exact RS|right; eexists; reflexivity]|]. split; [exact IC|right; exact C].
  - destruct X as [X|X]; [contradiction|]. rewrite <- (proj2 (RwlockThms.holds_inv N (raw s) (v_raw _ _ I) u)), (proj2 (v_h _ _ I u)) in X.
    destruct (pc s u) eqn:Ep; try discriminate X; injection X as <-;
      (eexists; split; [(eapply X_rd_got; eassumption) || (eapply X_ugot; eassumption) || (eapply X_dgot; eassumption)|split; [reflexivity|left; proj; rewrite Nat.eqb_refl; congruence]]).
  - destruct X; contradiction.
Qed.

Definition can_go_on (N : nat) (s : state) : Prop :=
  exists u s', step N s s' /\ incall (pc s u) = true /\ (pc s' u <> pc s u \/ Rwlock.s_pc (raw s') u <> Rwlock.s_pc (raw s) u \/ dead s' = true).
Lemma raw_rdlock N r t : (t < N)%nat -> rawidle r t -> exists r', rawstep N r [Rwlock.EGot t false; Rwlock.EWant t false] r' \/ rawstep N r [Rwlock.EWant t false] r'.
Proof.
  intros L Id. destruct (Z_lt_le_dec 0 (Rwlock.add (Rwlock.s_cnt r) Rwlock.READ_BIAS)) as [P|P]; eexists; [left; split; [eapply Rwlock.S_rdlock; eassumption|reflexivity]|right; split; [eapply Rwlock.S_rdlock_slow; eassumption|reflexivity]].
Qed.
Lemma raw_wrlock N r t : (t < N)%nat -> rawidle r t -> exists r', rawstep N r [Rwlock.EGot t true; Rwlock.EWant t true] r' \/ rawstep N r [Rwlock.EWant t true] r'.
Proof.
  intros L Id. destruct (Z.eq_dec (Rwlock.add (Rwlock.s_cnt r) Rwlock.WRITE_BIAS) Rwlock.WRITE_BIAS) as [P|P]; eexists; [left; split; [eapply Rwlock.S_wrlock; eassumption|reflexivity]|right; split; [eapply Rwlock.S_wrlock_slow; eassumption|reflexivity]].
Qed.
Lemma raw_tryrd N r t : (t < N)%nat -> rawidle r t -> exists r', rawstep N r [Rwlock.EGot t false] r' \/ rawstep N r [Rwlock.EBusy t false] r'.
Proof.
  intros L Id. destruct (Z_lt_le_dec (Rwlock.s_cnt r) 0) as [P|P]; eexists; [right; split; [eapply Rwlock.S_tryrd_no; eassumption|reflexivity]|left; split; [eapply Rwlock.S_tryrd; eassumption|reflexivity]].
Qed.
Lemma raw_trywr N r t : (t < N)%nat -> rawidle r t -> exists r', rawstep N r [Rwlock.EGot t true] r' \/ rawstep N r [Rwlock.EBusy t true] r'.
Proof.
  intros L Id. destruct (Z.eq_dec (Rwlock.s_cnt r) 0) as [P|P]; eexists; [left; split; [eapply Rwlock.S_trywr; eassumption|reflexivity]|right; split; [eapply Rwlock.S_trywr_no; eassumption|reflexivity]].
Qed.
Lemma raw_rel N s t w : inv2 N s -> (t < N)%nat -> ph (pc s t) = Some w -> exists r', rawstep N (raw s) [Rwlock.ERel t w] r'.
Proof.
  intros W L P. pose proof (w_inv _ _ W) as I. rewrite <- (proj1 (v_h _ _ I t)), (proj1 (RwlockThms.holds_inv N (raw s) (v_raw _ _ I) t)) in P.
  destruct (w_down _ _ W t) as [D1 D2]. destruct (Rwlock.s_pc (raw s) t) as [| | | | | | | | | | | |k c] eqn:E; try discriminate P; try congruence.
  - injection P as <-. eexists. split; [eapply Rwlock.S_rdunlock; [exact L|exact E|reflexivity]|reflexivity].
  - injection P as <-. eexists. split; [eapply Rwlock.S_wrunlock; [exact L|exact E|reflexivity]|reflexivity].
  - destruct c; try discriminate P. exfalso. exact (D2 k eq_refl).
Qed.

Ltac fin c := eexists; eexists; split; [eapply c; eassumption|split; [match goal with E : pc _ _ = _ |- _ => rewrite E end; reflexivity|left; proj; rewrite Nat.eqb_refl; match goal with E : pc _ _ = _ |- _ => rewrite E end; discriminate]].
(** Everybody but the clients that wait for the mutex can go on, or somebody else can. *)
Lemma go_on N s t : Z.of_nat N < 536870912 -> inv2 N s -> dead s = false -> (forall x, ~ reads x (tr s)) -> (forall x, ~ writes x (tr s)) ->
  incall (pc s t) = true -> pc s t <> WLk -> pc s t <> TLk -> can_go_on N s.
Proof.
  intros B W D NR NW IC N1 N2. pose proof (w_inv _ _ W) as I. pose proof (v_raw _ _ I) as R. pose proof (RwlockStep.inv_reachable N (raw s) B R) as RI.
  assert (LT : forall x, incall (pc s x) = true -> (x < N)%nat). { intros x X. destruct (Nat.lt_ge_cases x N) as [|G]; [assumption|]. rewrite (w_out _ _ W x G) in X. discriminate. }
  assert (RR : forall u, RwlockSpec.runs N (raw s) u -> can_go_on N s).
  { intros u X. destruct (raw_runs N s u W NR NW X) as (s' & Y1 & Y2 & Y3). exists u, s'. split; [exact Y1|]. split; [exact Y2|]. tauto. }
  (* somebody in the raw lock, not asleep and holding nothing *)
  assert (MV : forall x, ph (pc s x) = None -> pw (pc s x) = None -> ~ rawidle (raw s) x -> can_go_on N s).
  { intros x P1 P2 NI. pose proof (RwlockThms.holds_inv N (raw s) R x) as [E1 E2]. rewrite (proj1 (v_h _ _ I x)), P1 in E1. rewrite (proj2 (v_h _ _ I x)), P2 in E2.
    destruct (RwlockThms.mover N (raw s) x RI B) as [u X]; [|intros [[X|X] _]; rewrite X in E2; discriminate|eapply RR; exact X].
    repeat split; [exact NI|intros X; rewrite X in E1; discriminate|intros X; rewrite X in E1; discriminate]. }
  assert (HD : forall x, ph (pc s x) <> None -> can_go_on N s).
  { intros x P. assert (ICx : incall (pc s x) = true) by (destruct (pc s x) eqn:E; try reflexivity; exfalso; [apply P; reflexivity|apply (NR x), (lat_reads N s x I); exact E|apply (NW x), (lat_writes N s x I); exact E]).
    destruct (ph (pc s x)) as [w|] eqn:Ew; [clear P|congruence]. destruct (raw_rel N s x w W (LT x ICx) Ew) as [r' RS].
    destruct (pc s x) eqn:E; try discriminate Ew; try discriminate ICx; injection Ew as <-.
    - fin X_rdrel.
    - fin X_wrrel.
    - destruct (lk s) as [y|] eqn:L; [|fin X_utry]. assert (lk s <> None) by congruence. fin X_utry_no.
    - destruct (cnt s) eqn:C; [|fin X_uchk]. exists x. eexists. split; [eapply X_abort; eassumption|]. split; [rewrite E; reflexivity|right; right; reflexivity].
    - fin X_unap.
    - fin X_uset.
    - fin X_urel.
    - fin X_drel.
    - fin X_dclr.
    - fin X_dunl. }
  assert (WT : forall x, pw (pc s x) <> None -> can_go_on N s).
  { intros x P.
    assert (DEC : forall n, (forall y, (y < n)%nat -> ph (pc s y) = None) \/ exists y, ph (pc s y) <> None).
    { induction n as [|n [IH|IH]]; [left; lia| |right; exact IH]. destruct (ph (pc s n)) eqn:X; [right; exists n; congruence|]. left. intros y Hy. destruct (Nat.eq_dec y n) as [->|]; [assumption|apply IH; lia]. }
    destruct (DEC N) as [Q|[y Q]]; [|exact (HD y Q)].
    destruct (RwlockThms.no_forgotten N (raw s) x B R) as [u X]; [| |exact (RR u X)].
    - intros y. rewrite (proj1 (v_h _ _ I y)). destruct (Nat.lt_ge_cases y N) as [G|G]; [auto|rewrite (w_out _ _ W y G); reflexivity].
    - rewrite (proj2 (v_h _ _ I x)). exact P. }
  destruct (ph (pc s t)) eqn:Ph; [apply (HD t); congruence|]. destruct (pw (pc s t)) eqn:Pw; [apply (WT t); congruence|].
  assert (ID : rawidle (raw s) t \/ ~ rawidle (raw s) t) by (unfold rawidle; destruct (Rwlock.s_pc (raw s) t); (left; reflexivity) || (right; discriminate)).
  destruct ID as [ID|ID]; [|exact (MV t Ph Pw ID)]. pose proof (LT t IC) as L.
  destruct (pc s t) eqn:E; try discriminate IC; try discriminate Ph; try discriminate Pw; try congruence.
  - destruct (raw_rdlock N (raw s) t L ID) as [r' [X|X]]; [fin X_rd|fin X_rd_wait].
  - destruct (raw_tryrd N (raw s) t L ID) as [r' [X|X]]; [fin X_tryrd|fin X_tryrd_no].
  - destruct (raw_trywr N (raw s) t L ID) as [r' [X|X]]; [fin X_wtry|fin X_wtry_no].
  - fin X_wno.
  - fin X_wnap.
  - destruct (raw_trywr N (raw s) t L ID) as [r' [X|X]]; [fin X_ttry|fin X_ttry_no].
  - fin X_tno.
  - fin X_rdend.
  - fin X_wrend.
  - destruct (raw_wrlock N (raw s) t L ID) as [r' [X|X]]; [fin X_uwant|fin X_uwant_wait].
  - destruct (raw_rdlock N (raw s) t L ID) as [r' [X|X]]; [fin X_dwant|fin X_dwant_wait].
Qed.

(** If nobody holds the lock, and some client is inside one of the functions,
    then some client inside one of the functions can go on (or aborts the
    process, see below): there is no state in which all of them sleep for ever. *)
Theorem C70_no_forgotten_client : forall N s t o, Z.of_nat N < 536870912 -> reachable N s -> dead s = false ->
  (forall x, ~ reads x (tr s)) -> (forall x, ~ writes x (tr s)) -> inside t o (tr s) ->
  exists u o' s', inside u o' (tr s) /\ step N s s' /\ (pc s' u <> pc s u \/ Rwlock.s_pc (raw s') u <> Rwlock.s_pc (raw s) u \/ dead s' = true).
Proof.
  intros N s t o B R D NR NW Ins. pose proof (inv2_reachable N s R) as W. pose proof (w_inv _ _ W) as I.
  apply (lat_inside N s t o I) in Ins. destruct Ins as [IC _].
  assert (G : can_go_on N s).
  { assert (OWN : forall x, lk s = Some x -> can_go_on N s).
    { intros x L. apply (v_l _ _ I) in L. apply (go_on N s x B W D NR NW); try (intros X; rewrite X in L; discriminate).
      destruct (pc s x) eqn:E; try discriminate L; try reflexivity. exfalso. apply (NW x), (lat_writes N s x I). exact E. }
    destruct (pc s t) eqn:E; try (apply (go_on N s t B W D NR NW); rewrite E; discriminate || reflexivity); try discriminate IC.
    - destruct (lk s) as [x|] eqn:L; [exact (OWN x eq_refl)|]. fin X_wlk.
    - destruct (lk s) as [x|] eqn:L; [exact (OWN x eq_refl)|]. fin X_tlk. }
  destruct G as (u & s' & X1 & X2 & X3). exists u, (opof (pc s u)), s'. split; [apply (lat_inside N s u _ I); auto|auto].
Qed.
Print Assumptions C70_no_forgotten_client.

(** ** abort *)
Lemma latest_in t h e : latest t h = Some e -> In e h.
Proof. induction h as [|x h IH]; cbn; [discriminate|]. destruct (who x =? t)%nat; [intros E; left; congruence|right; auto]. Qed.
Definition upgraded (p : place) : bool := match p with URel | UWant | UWait | DRel | DWant | DWait | DClr => true | _ => false end.
(** The process is not aborted if only one client ever upgrades and it always
    ends an upgrade with a downgrade (aosl_rwlock_wr2rdlock), never with aosl_rwlock_wrunlock. *)
Theorem C70_no_abort_partial : forall N s v, reachable N s ->
  (forall u, In (ECall u OUp) (tr s) -> u = v) ->
  (forall a b, tr s = a ++ ECall v OWrUn :: b -> latest v b <> Some (ERet v OUp 0)) -> dead s = false.
Proof.
  intros N s v R H1 H2.
  assert (K : dead s = false /\ (cnt s = true -> upgraded (pc s v) = true \/ (pc s v = WHeld /\ latest v (tr s) = Some (ERet v OUp 0)))); [|apply K].
  induction R as [|s s' R IH D H]; [split; [reflexivity|discriminate]|].
  assert (EX : exists es, tr s' = es ++ tr s) by (destruct H; proj; first [exists []; reflexivity|eexists [_]; reflexivity]). destruct EX as [es EX].
  destruct IH as [_ IH]; [intros u X; apply H1; rewrite EX; apply in_or_app; right; exact X|intros a b X; apply (H2 (es ++ a)); rewrite EX, X; apply app_assoc|].
  assert (UP : forall u, incall (pc s u) = true -> opof (pc s u) = OUp -> u = v).
  { intros u X Y. apply H1. rewrite EX. apply in_or_app. right. apply (latest_in u). apply (lat_inside N s u OUp (inv_reachable N s R)). auto. }
  assert (FR : forall t p r' m c es, (t <> v -> c = true -> cnt s = true) -> (t = v -> c = true -> upgraded p = true \/ (p = WHeld /\ latest v (es ++ tr s) = Some (ERet v OUp 0))) -> (forall e, In e es -> who e = t) ->
     c = true -> upgraded (pc (go t p r' m c es s) v) = true \/ pc (go t p r' m c es s) v = WHeld /\ latest v (tr (go t p r' m c es s)) = Some (ERet v OUp 0)).
  { intros t p r' m c es0 A1 A2 A3 E. proj. destruct (Nat.eqb_spec v t) as [X|X]; [apply A2; auto|]. specialize (IH (A1 ltac:(congruence) E)).
    replace (latest v (es0 ++ tr s)) with (latest v (tr s)); [exact IH|]. clear - A3 X. induction es0 as [|e es0 IHe]; [reflexivity|]. cbn [app latest]. rewrite (A3 e ltac:(left; reflexivity)). rewrite (proj2 (Nat.eqb_neq t v)) by congruence. apply IHe. intros; apply A3; right; assumption. }
  destruct H.
  (* calls *)
  1-3: split; [exact D|]; apply FR; [tauto| |intros e [<-|[]]; reflexivity]; intros -> C; specialize (IH C); rewrite H0 in IH; cbn in IH; destruct IH as [IH|[IH IH']]; try discriminate.
  1: { cbn [In] in H3. destruct H3 as [X|[X|[]]]; injection X as <- <-; [|left; reflexivity]. exfalso. apply (H2 [] (tr s)); [reflexivity|exact IH']. }
  (* raw steps *)
  1: { split; [exact D|exact IH]. }
  (* abort *)
  all: try (exfalso; assert (t = v) by (apply UP; rewrite H; reflexivity); subst t; specialize (IH H0); rewrite H in IH; cbn in IH; destruct IH as [IH|[IH _]]; discriminate).
  all: split; [exact D|].
  all: try (intros X; discriminate X).
  all: apply FR; [intros ? ?; first [assumption|exfalso; match goal with X : _ <> _ |- _ => apply X, UP; rewrite H; reflexivity end]| |intros e He; cbn in He; try contradiction; destruct He as [<-|[]]; reflexivity].
  all: intros -> C; try (left; reflexivity); try (right; split; [reflexivity|cbn [app latest who]; rewrite Nat.eqb_refl; reflexivity]); exfalso; specialize (IH C); rewrite H in IH; cbn in IH; destruct IH as [IH|[IH _]]; discriminate.
Qed.
Print Assumptions C70_no_abort_partial.

(** ** Executions *)
Ltac nx tac := match goal with R : reachable ?N ?s |- _ =>
  let R' := fresh in eassert (R' : reachable N _); [eapply (R_step N s _ R); [reflexivity|tac N s]|]; clear R; rename R' into R; vm_compute in R end.
Ltac c0 t o := let f N s := (eapply (X_call0 N s t o); [lia|reflexivity|cbn [In]; tauto]) in nx f.
Ltac cr t o := let f N s := (eapply (X_callr N s t o); [lia|reflexivity|cbn [In]; tauto]) in nx f.
Ltac cw t o := let f N s := (eapply (X_callw N s t o); [lia|reflexivity|cbn [In]; tauto]) in nx f.
Ltac go1 c t := let f N s := (eapply (c N s t); first [reflexivity|discriminate]) in nx f.
Ltac rs rc t := split; [eapply (rc _ _ t); (match goal with |- Rwlock.s_pc _ _ = _ => vm_compute; reflexivity | |- Rwlock.s_list _ = _ => vm_compute; reflexivity | _ => idtac end);
  (match goal with |- ?x = _ => is_evar x; vm_compute; reflexivity | _ => idtac end);
  (match goal with |- (_ < _)%nat => lia | |- _ = _ => vm_compute; reflexivity | _ => vm_compute; solve [(intros X; discriminate X) | reflexivity | (left; intros X; discriminate X) | (right; reflexivity)] end) | vm_compute; reflexivity].
Ltac ra c rc t := let f N s := (eapply (c N s t); [reflexivity|rs rc t]) in nx f.
Ltac ri rc t := let f N s := (eapply (X_int N s _ []); [rs rc t|left; reflexivity]) in nx f.

(** Reads, an upgrade with another reader inside, a write lock tried in vain meanwhile, a downgrade. *)
Example rwapi_execution : exists s, reachable 3 s /\ dead s = false /\
  tr s = [ERet 0 ODown 0; ECall 0 ODown; ERet 0 OUp 0; ERet 1 ORdUn 0; ECall 1 ORdUn; ECall 2 OWr; ECall 0 OUp; ERet 1 OTryRd 1; ECall 1 OTryRd; ERet 0 ORd 0; ECall 0 ORd]%nat /\
  reads 0 (tr s) /\ inside 2 OWr (tr s).
Proof.
  pose proof (R_init 3) as R. c0 0%nat ORd. ra X_rd Rwlock.S_rdlock 0%nat. c0 1%nat OTryRd. ra X_tryrd Rwlock.S_tryrd 1%nat.
  cr 0%nat OUp. go1 X_utry 0%nat. go1 X_uset 0%nat. ra X_urel Rwlock.S_rdunlock 0%nat. ra X_uwant_wait Rwlock.S_wrlock_slow 0%nat.
  c0 2%nat OWr. ri Rwlock.S_write_failed 0%nat. ri Rwlock.S_wtry_active 0%nat. cr 1%nat ORdUn. ra X_rdrel Rwlock.S_rdunlock 1%nat. ri Rwlock.S_wake 1%nat. ri Rwlock.S_kwriter 1%nat. go1 X_rdend 1%nat.
  ri Rwlock.S_wwake 0%nat. ri Rwlock.S_wlock 0%nat. ra X_ugot Rwlock.S_wtry_ok 0%nat. cw 0%nat ODown. ra X_drel Rwlock.S_wrunlock 0%nat. ra X_dwant Rwlock.S_rdlock 0%nat. go1 X_dclr 0%nat. go1 X_dunl 0%nat.
  eexists. split; [exact R|]. split; [reflexivity|]. split; [reflexivity|]. split; [exists ODown, 0; split; reflexivity|reflexivity].
Qed.

(** C70 claims that the lock works for every use in which the calls match.  It does
    not: one client upgrades and then releases with aosl_rwlock_wrunlock; the mark
    of the upgrade stays (only the downgrade takes it away, kernel/thread.c 272-276, 307), and its next
    upgrade aborts the process because another client happens to try a write lock at
    the same time.  No two upgrades overlap. *)
Theorem C70_upgrade_then_unlock_refuted : exists s, reachable 2 s /\ dead s = true /\
  tr s = [ECall 0 OUp; ECall 1 OTryWr; ERet 0 ORd 0; ECall 0 ORd; ERet 0 OWrUn 0; ECall 0 OWrUn; ERet 0 OUp 0; ECall 0 OUp; ERet 0 ORd 0; ECall 0 ORd]%nat.
Proof.
  pose proof (R_init 2) as R. c0 0%nat ORd. ra X_rd Rwlock.S_rdlock 0%nat. cr 0%nat OUp. go1 X_utry 0%nat. go1 X_uset 0%nat. ra X_urel Rwlock.S_rdunlock 0%nat. ra X_uwant Rwlock.S_wrlock 0%nat.
  cw 0%nat OWrUn. ra X_wrrel Rwlock.S_wrunlock 0%nat. go1 X_wrend 0%nat. c0 0%nat ORd. ra X_rd Rwlock.S_rdlock 0%nat.
  c0 1%nat OTryWr. go1 X_tlk 1%nat. cr 0%nat OUp. go1 X_utry_no 0%nat. go1 X_abort 0%nat.
  eexists. split; [exact R|]. split; reflexivity.
Qed.
Print Assumptions C70_upgrade_then_unlock_refuted.

(** Nor if every upgrade ends with a downgrade: client 1 gets its read lock
    while client 0 is about to finish its downgrade, and its upgrade aborts the process. *)
Theorem C70_upgrade_during_downgrade_refuted : exists s, reachable 2 s /\ dead s = true /\
  tr s = [ECall 1 OUp; ERet 1 ORd 0; ECall 1 ORd; ECall 0 ODown; ERet 0 OUp 0; ECall 0 OUp; ERet 0 ORd 0; ECall 0 ORd]%nat.
Proof.
  pose proof (R_init 2) as R. c0 0%nat ORd. ra X_rd Rwlock.S_rdlock 0%nat. cr 0%nat OUp. go1 X_utry 0%nat. go1 X_uset 0%nat. ra X_urel Rwlock.S_rdunlock 0%nat. ra X_uwant Rwlock.S_wrlock 0%nat.
  cw 0%nat ODown. ra X_drel Rwlock.S_wrunlock 0%nat. c0 1%nat ORd. ra X_rd Rwlock.S_rdlock 1%nat. cr 1%nat OUp. go1 X_utry_no 1%nat. go1 X_abort 1%nat.
  eexists. split; [exact R|]. split; reflexivity.
Qed.
Print Assumptions C70_upgrade_during_downgrade_refuted.

(** Two readers that upgrade at the same time: the second aborts the process. *)
Theorem C70_two_upgrades_refuted : exists s, reachable 2 s /\ dead s = true /\
  tr s = [ECall 1 OUp; ECall 0 OUp; ERet 1 ORd 0; ECall 1 ORd; ERet 0 ORd 0; ECall 0 ORd]%nat.
Proof.
  pose proof (R_init 2) as R. c0 0%nat ORd. ra X_rd Rwlock.S_rdlock 0%nat. c0 1%nat ORd. ra X_rd Rwlock.S_rdlock 1%nat. cr 0%nat OUp. go1 X_utry 0%nat. go1 X_uset 0%nat.
  cr 1%nat OUp. go1 X_utry_no 1%nat. go1 X_abort 1%nat.
  eexists. split; [exact R|]. split; reflexivity.
Qed.
Print Assumptions C70_two_upgrades_refuted.

(** The documentation says that the try functions return 0 when they take the
    lock and a negative number when they do not; they return 1 and 0. *)
Theorem C70_try_results_refuted : exists s, reachable 2 s /\
  tr s = [ERet 1 OTryRd 0; ECall 1 OTryRd; ERet 0 OTryWr 1; ECall 0 OTryWr]%nat /\ RwlockSpec.holds 0 (Rwlock.s_tr (raw s)) = Some true /\ RwlockSpec.holds 1 (Rwlock.s_tr (raw s)) = None.
Proof.
  pose proof (R_init 2) as R. c0 0%nat OTryWr. go1 X_tlk 0%nat. ra X_ttry Rwlock.S_trywr 0%nat. c0 1%nat OTryRd. ra X_tryrd_no Rwlock.S_tryrd_no 1%nat.
  eexists. split; [exact R|]. repeat split; reflexivity.
Qed.
Print Assumptions C70_try_results_refuted.

(** A client that waits for the write lock can be overtaken by any number of
    readers that come after it: the lock never becomes free although every
    reader gives it back (the raw lock alone would queue them behind the writer). *)
Definition got_read (e : uevent) : bool := match e with ERet _ ORd _ => true | _ => false end.
Definition waiting2 (s : state) (a b : nat) : Prop :=
  pc s a = RHeld /\ pc s b = Idle /\ pc s 2%nat = WLk /\ lk s = None /\ dead s = false /\
  Rwlock.s_cnt (raw s) = 1 /\ Rwlock.s_pc (raw s) a = Rwlock.RHold /\ Rwlock.s_pc (raw s) b = Rwlock.Idle /\ Rwlock.s_pc (raw s) 2%nat = Rwlock.Idle.
Lemma overtake s a b : (a < 2)%nat -> (b < 2)%nat -> a <> b -> reachable 3 s -> waiting2 s a b ->
  exists s', reachable 3 s' /\ waiting2 s' b a /\ tr s' = [ERet a ORdUn 0; ECall a ORdUn; ERet b ORd 0; ECall b ORd] ++ tr s.
Proof.
  intros La Lb NE R (P1 & P2 & P3 & L & D & C & Q1 & Q2 & Q3).
  assert (A1 : (a =? b)%nat = false) by (apply Nat.eqb_neq; exact NE). assert (A2 : (b =? a)%nat = false) by (apply Nat.eqb_neq; congruence).
  assert (A3 : (a =? 2)%nat = false) by (apply Nat.eqb_neq; lia). assert (A4 : (b =? 2)%nat = false) by (apply Nat.eqb_neq; lia).
  assert (A5 : (2 =? a)%nat = false) by (apply Nat.eqb_neq; lia). assert (A6 : (2 =? b)%nat = false) by (apply Nat.eqb_neq; lia).
  Ltac ev := repeat match goal with v := _ |- _ => subst v end; cbn [pc raw lk cnt dead tr go Rwlock.s_pc Rwlock.s_cnt Rwlock.s_tr Rwlock.go]; unfold Rwlock.fupd; rewrite ?Nat.eqb_refl; repeat match goal with H : (_ =? _)%nat = false |- _ => rewrite H end; first [assumption|reflexivity].
  assert (R1 := R_step 3 s _ R D (X_call0 3 s b ORd RdCall ltac:(lia) P2 ltac:(cbn [In]; tauto))).
  set (s1 := go b RdCall (raw s) (lk s) (cnt s) [ECall b ORd] s) in *.
  pose (r2 := Rwlock.go b Rwlock.RHold (Rwlock.add (Rwlock.s_cnt (raw s)) Rwlock.READ_BIAS) (Rwlock.s_mx (raw s)) (Rwlock.s_list (raw s)) [Rwlock.EGot b false; Rwlock.EWant b false] (raw s)).
  assert (S2 : rawstep 3 (raw s1) [Rwlock.EGot b false; Rwlock.EWant b false] r2) by (split; [apply (Rwlock.S_rdlock 3 (raw s) b); [lia|exact Q2|rewrite C; vm_compute; reflexivity]|reflexivity]).
  assert (R2 := R_step 3 s1 _ R1 D (X_rd 3 s1 b r2 ltac:(ev) S2)). set (s2 := go b RHeld r2 (lk s1) (cnt s1) [ERet b ORd 0] s1) in *.
  assert (C2 : Rwlock.s_cnt r2 = 2) by (cbn; rewrite C; vm_compute; reflexivity).
  assert (R3 := R_step 3 s2 _ R2 D (X_wlk 3 s2 2 ltac:(ev) ltac:(ev))). set (s3 := go 2 WTry (raw s2) (Some 2%nat) (cnt s2) [] s2) in *.
  pose (r4 := Rwlock.go 2 Rwlock.Idle (Rwlock.s_cnt r2) (Rwlock.s_mx r2) (Rwlock.s_list r2) [Rwlock.EBusy 2 true] r2).
  assert (S4 : rawstep 3 (raw s3) [Rwlock.EBusy 2 true] r4) by (split; [apply (Rwlock.S_trywr_no 3 r2 2); [lia|ev|rewrite C2; discriminate]|reflexivity]).
  assert (R4 := R_step 3 s3 _ R3 D (X_wtry_no 3 s3 2 r4 ltac:(ev) S4)). set (s4 := go 2 WNo r4 (lk s3) (cnt s3) [] s3) in *.
  assert (R5 := R_step 3 s4 _ R4 D (X_wno 3 s4 2 ltac:(ev))). set (s5 := go 2 WNap (raw s4) None (cnt s4) [] s4) in *.
  assert (R6 := R_step 3 s5 _ R5 D (X_wnap 3 s5 2 ltac:(ev))). set (s6 := go 2 WLk (raw s5) (lk s5) (cnt s5) [] s5) in *.
  assert (R7 := R_step 3 s6 _ R6 D (X_callr 3 s6 a ORdUn RdRel ltac:(lia) ltac:(ev) ltac:(cbn [In]; tauto))). set (s7 := go a RdRel (raw s6) (lk s6) (cnt s6) [ECall a ORdUn] s6) in *.
  pose (r8 := Rwlock.go a Rwlock.Idle 1 (Rwlock.s_mx r4) (Rwlock.s_list r4) [Rwlock.ERel a false] r4).
  assert (S8 : rawstep 3 (raw s7) [Rwlock.ERel a false] r8).
  { split; [|reflexivity]. assert (X := Rwlock.S_rdunlock 3 r4 a 1 ltac:(lia) ltac:(ev) ltac:(cbn; rewrite C; vm_compute; reflexivity)). exact X. }
  assert (R8 := R_step 3 s7 _ R7 D (X_rdrel 3 s7 a r8 ltac:(ev) S8)). set (s8 := go a RdEnd r8 (lk s7) (cnt s7) [] s7) in *.
  assert (R9 := R_step 3 s8 _ R8 D (X_rdend 3 s8 a ltac:(ev) ltac:(unfold rawidle; ev))).
  eexists. split; [exact R9|]. split; [|reflexivity]. unfold waiting2. split; [ev|]. split; [ev|]. split; [ev|]. split; [ev|]. split; [ev|]. split; [ev|]. split; [ev|]. split; ev.
Qed.
Theorem C70_writer_overtaken_refuted : forall n, exists s l h, reachable 3 s /\ inside 2 OWr (tr s) /\ tr s = l ++ ECall 2 OWr :: h /\ length (filter got_read l) = n.
Proof.
  assert (BASE : exists s, reachable 3 s /\ waiting2 s 0 1 /\ tr s = [ECall 2 OWr; ERet 0 ORd 0; ECall 0 ORd]%nat).
  { pose proof (R_init 3) as R. c0 0%nat ORd. ra X_rd Rwlock.S_rdlock 0%nat. c0 2%nat OWr. eexists. split; [exact R|]. split; [unfold waiting2; repeat split; reflexivity|reflexivity]. }
  destruct BASE as (s0 & R0 & W0 & T0).
  assert (K : forall n, exists s a b l, ((a = 0 /\ b = 1) \/ (a = 1 /\ b = 0))%nat /\ reachable 3 s /\ waiting2 s a b /\ tr s = l ++ ECall 2 OWr :: [ERet 0 ORd 0; ECall 0 ORd]%nat /\ length (filter got_read l) = n).
  { induction n as [|n (s & a & b & l & AB & R & W & T & F)]; [exists s0, 0%nat, 1%nat, []; split; [left; split; reflexivity|]; split; [exact R0|]; split; [exact W0|]; split; [exact T0|reflexivity]|].
    destruct (overtake s a b ltac:(lia) ltac:(lia) ltac:(lia) R W) as (s' & R' & W' & T'). exists s', b, a, ([ERet a ORdUn 0; ECall a ORdUn; ERet b ORd 0; ECall b ORd] ++ l).
    split; [lia|]. split; [exact R'|]. split; [exact W'|]. split; [rewrite T', T, <- app_assoc; reflexivity|]. cbn [app filter got_read length]. rewrite F. reflexivity. }
  intros n. destruct (K n) as (s & a & b & l & AB & R & W & T & F). exists s, l, [ERet 0 ORd 0; ECall 0 ORd]%nat. split; [exact R|]. split; [|split; [exact T|exact F]].
  apply (lat_inside 3 s 2 OWr (inv_reachable 3 s R)). destruct W as (_ & _ & -> & _). split; reflexivity.
Qed.
Print Assumptions C70_writer_overtaken_refuted.
