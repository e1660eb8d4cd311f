(** * C52: static locks and trylock. *)
From Verif Require Import Base Slock.

(** ** Specification, over histories (latest event first) *)
(** t has acquired the lock and not given it back. *)
Fixpoint holds (t : nat) (h : list event) : bool :=
  match h with
  | [] => false
  | ERet w o r :: h' =>
      if (w =? t)%nat then match o with OLock | OTry => if (r =? 0)%Z then true else holds t h' | OUnlock => if (r =? 0)%Z then false else holds t h' | _ => holds t h' end
      else holds t h'
  | _ :: h' => holds t h'
  end.
(** Only who holds the lock unlocks it. *)
Fixpoint proper (h : list event) : Prop :=
  match h with
  | [] => True
  | ECall t OUnlock :: h' => holds t h' = true /\ proper h'
  | _ :: h' => proper h'
  end.
Definition nofini (h : list event) : Prop := forall t, ~ In (ECall t OFini) h.
Definition nofail (h : list event) : Prop := forall t, ~ In (EHalFail t) h.
(** How often the HAL mutex was initialised. *)
Fixpoint inits (h : list event) : nat := match h with [] => 0 | EHalInit _ :: h' => S (inits h') | _ :: h' => inits h' end.

(** ** Invariant *)
Definition busy (p : place) : bool := match p with PHal _ | PUndo _ | PDone _ => true | _ => false end.
Definition isdone (p : place) : bool := match p with PDone _ => true | _ => false end.
Definition isf (p : place) : bool := match p with FRead _ | FHal | FSet => true | _ => false end.
Definition inop (p : place) : option op :=
  match p with PRead o | PCas o | PHal o | PUndo o | PDone o | PSpin o _ | PMutex o => Some o | _ => None end.
Record core (s : state) : Prop := {
  c_f : forall t, isf (s_pc s t) = false;
  c_uniq : forall a b, busy (s_pc s a) = true -> busy (s_pc s b) = true -> a = b;
  c_st : forall t, busy (s_pc s t) = true -> s_st s = Initing;
  c_ini : s_st s = Inited -> s_mu s <> MNone;
  c_none : s_st s <> Inited -> s_mu s = MNone \/ exists t, isdone (s_pc s t) = true;
  c_done : forall t, isdone (s_pc s t) = true -> s_mu s <> MNone;
  c_once : inits (s_tr s) = match s_mu s with MNone => 0%nat | _ => 1%nat end;
  c_nof : nofail (s_tr s) -> forall t,
    match s_pc s t with PSpin _ _ => s_st s <> Uninit | PMutex _ => s_st s = Inited | PUndo _ => False | _ => True end;
  c_bad : nofail (s_tr s) -> forall t o, ~ In (EBad t o) (s_tr s);
  c_ret : nofail (s_tr s) -> (exists t, In (ERet t OInit 0) (s_tr s)) -> s_st s = Inited;
  c_hold : proper (s_tr s) -> forall t, holds t (s_tr s) = true <-> s_mu s = MHeld t;
  c_unl : proper (s_tr s) -> forall t, inop (s_pc s t) = Some OUnlock -> s_mu s = MHeld t;
  c_op : forall t, inop (s_pc s t) <> Some OFini /\ (match s_pc s t with PRead _ | PMutex _ => inop (s_pc s t) <> Some OInit | _ => True end) }.
Lemma fupd_eq {A} (f : nat -> A) k v : fupd f k v k = v. Proof. unfold fupd. rewrite Nat.eqb_refl. reflexivity. Qed.
Lemma fupd_ne {A} (f : nat -> A) k v x : x <> k -> fupd f k v x = f x. Proof. unfold fupd. intros H. apply Nat.eqb_neq in H. rewrite H. reflexivity. Qed.
Lemma nofail_app e h : nofail (e ++ h) -> nofail h. Proof. intros H t Hi. apply (H t), in_or_app. auto. Qed.
Lemma nofini_app e h : nofini (e ++ h) -> nofini h. Proof. intros H t Hi. apply (H t), in_or_app. auto. Qed.
Lemma proper_app e h : proper (e ++ h) -> proper h.
Proof. induction e as [|x e IH]; cbn; [auto|]. destruct x as [t o| | | |]; auto. destruct o; auto. intros [_ H]. auto. Qed.

(** What has to be shown when thread t moves to p. *)
Lemma core_go s t p st mu e : core s ->
  isf p = false ->
  (busy p = true -> st = Initing /\ forall v, v <> t -> busy (s_pc s v) = false) ->
  (st <> Initing -> forall v, v <> t -> busy (s_pc s v) = false) ->
  (st = Inited -> mu <> MNone) ->
  (st <> Inited -> mu = MNone \/ isdone p = true \/ exists v, v <> t /\ isdone (s_pc s v) = true) ->
  (isdone p = true -> mu <> MNone) -> (forall v, v <> t -> isdone (s_pc s v) = true -> mu <> MNone) ->
  inits (e ++ s_tr s) = match mu with MNone => 0%nat | _ => 1%nat end ->
  (nofail (e ++ s_tr s) -> match p with PSpin _ _ => st <> Uninit | PMutex _ => st = Inited | PUndo _ => False | _ => True end) ->
  (nofail (e ++ s_tr s) -> st <> s_st s -> s_st s <> Inited /\ (st = Uninit -> s_st s = Uninit)) ->
  (nofail (e ++ s_tr s) -> forall v o, ~ In (EBad v o) e) ->
  (nofail (e ++ s_tr s) -> forall v, In (ERet v OInit 0) e -> st = Inited) ->
  (proper (e ++ s_tr s) -> forall v, holds v (e ++ s_tr s) = true <-> mu = MHeld v) ->
  (proper (e ++ s_tr s) -> inop p = Some OUnlock -> mu = MHeld t) ->
  (proper (e ++ s_tr s) -> forall v, v <> t -> s_mu s = MHeld v -> mu = MHeld v) ->
  inop p <> Some OFini -> (match p with PRead _ | PMutex _ => inop p <> Some OInit | _ => True end) ->
  core (go t p st mu e s).
Proof.
  intros [F U St In No Do On Nf Bd Rt Ho Un Op] G1 G2 G3 G4 G5 G6 G7 G8 G9 G9' G10 G11 G12 G13 G14 G15 G16.
  split; cbn [go s_st s_mu s_pc s_tr].
  - intros v. destruct (Nat.eq_dec v t) as [->|N]; [rewrite fupd_eq; exact G1|rewrite fupd_ne by assumption; apply F].
  - intros a b. destruct (Nat.eq_dec a t) as [->|Na], (Nat.eq_dec b t) as [->|Nb]; rewrite ?fupd_eq, ?fupd_ne by assumption; auto.
    + intros A B. destruct (G2 A) as [_ X]. rewrite X in B by assumption. discriminate.
    + intros A B. destruct (G2 B) as [_ X]. rewrite X in A by assumption. discriminate.
  - intros v. destruct (Nat.eq_dec v t) as [->|N]; [rewrite fupd_eq; intros B; apply G2, B|rewrite fupd_ne by assumption]. intros B.
    destruct st; [|reflexivity|]; rewrite G3 in B by (assumption || discriminate); discriminate.
  - exact G4.
  - intros Ns. destruct (G5 Ns) as [X|[X|(v & N & X)]]; [left; exact X|right; exists t; rewrite fupd_eq; exact X|right; exists v; rewrite fupd_ne by assumption; exact X].
  - intros v. destruct (Nat.eq_dec v t) as [->|N]; [rewrite fupd_eq; exact G6|rewrite fupd_ne by assumption; apply G7, N].
  - exact G8.
  - intros Hf v. destruct (Nat.eq_dec v t) as [->|N]; [rewrite fupd_eq; exact (G9 Hf)|rewrite fupd_ne by assumption].
    pose proof (Nf (nofail_app _ _ Hf) v) as X. destruct (s_pc s v) eqn:P; auto.
    + assert (E : st = s_st s \/ st <> s_st s) by (destruct st, (s_st s); auto; right; discriminate). destruct E as [->|E]; [exact X|]. destruct (G9' Hf E) as [A B]. intros C. apply X, B, C.
    + assert (E : st = s_st s \/ st <> s_st s) by (destruct st, (s_st s); auto; right; discriminate). destruct E as [->|E]; [exact X|]. destruct (G9' Hf E) as [A B]. congruence.
  - intros Hf v o Hi. apply in_app_or in Hi. destruct Hi as [Hi|Hi]; [exact (G10 Hf v o Hi)|exact (Bd (nofail_app _ _ Hf) v o Hi)].
  - intros Hf (v & Hi). apply in_app_or in Hi. destruct Hi as [Hi|Hi]; [exact (G11 Hf v Hi)|].
    assert (E : st = s_st s \/ st <> s_st s) by (destruct st, (s_st s); auto; right; discriminate). destruct E as [->|E]; [apply (Rt (nofail_app _ _ Hf)); eauto|].
    destruct (G9' Hf E) as [A _]. exfalso. apply A, (Rt (nofail_app _ _ Hf)). eauto.
  - exact G12.
  - intros Hp v. destruct (Nat.eq_dec v t) as [->|N]; [rewrite fupd_eq; exact (G13 Hp)|rewrite fupd_ne by assumption]. intros X. apply (G14 Hp v N), (Un (proper_app _ _ Hp) v X).
  - intros v. destruct (Nat.eq_dec v t) as [->|N]; [rewrite fupd_eq; split; [exact G15|exact G16]|rewrite fupd_ne by assumption; apply Op].
Qed.

Lemma holds_skip (v t : nat) o r h : (match o with OLock | OTry | OUnlock => r <> 0 | _ => True end) -> holds v (ERet t o r :: h) = holds v h.
Proof. cbn. destruct (t =? v)%nat; [|reflexivity]. destruct o; auto; intros N; apply Z.eqb_neq in N; rewrite N; reflexivity. Qed.

Lemma core_step t s s' : core s -> step t s s' -> nofini (s_tr s') -> core s'.
Proof.
  intros C H Hn. pose proof C as [F U St Im No Do On Nf Bd Rt Ho Un Op].
  assert (Ob : busy (s_pc s t) = true -> forall v, v <> t -> busy (s_pc s v) = false).
  { intros B v N. destruct (busy (s_pc s v)) eqn:E; [|reflexivity]. exfalso. apply N, U; assumption. }
  assert (Di : forall v, isdone (s_pc s v) = true -> busy (s_pc s v) = true) by (intros v; destruct (s_pc s v); cbn; auto).
  assert (Nb : s_st s <> Initing -> forall v, busy (s_pc s v) = false).
  { intros Q v. destruct (busy (s_pc s v)) eqn:E; [|reflexivity]. exfalso. apply Q. eapply St, E. }
  assert (Nd : isdone (s_pc s t) = false -> s_st s <> Inited -> s_mu s = MNone \/ exists v, v <> t /\ isdone (s_pc s v) = true).
  { intros D Q. destruct (No Q) as [X|(v & X)]; [left; exact X|right; exists v; split; [|exact X]]. intros ->. congruence. }
  assert (Nd' : isdone (s_pc s t) = false -> busy (s_pc s t) = true -> s_mu s = MNone).
  { intros D B. destruct (Nd D) as [X|(v & N & X)]; [rewrite (St t B); discriminate|exact X|]. apply Di in X. rewrite (Ob B v N) in X. discriminate. }
  assert (Hh : forall e, (forall v, holds v (e ++ s_tr s) = holds v (s_tr s)) -> proper (e ++ s_tr s) -> forall v, holds v (e ++ s_tr s) = true <-> s_mu s = MHeld v).
  { intros e E P v. rewrite E. apply Ho, (proper_app e _ P). }
  assert (Oi : forall p (o : op), o <> OInit -> inop p = Some o -> inop p <> Some OInit) by (intros; congruence).
  pose proof (Op t) as Ot. pose proof (St t) as Stt. 
  destruct H as [o P|o P|o P|o P|o P|o P|o P|o n P|o P M|P M|P M|u P M|P M|n P|P|P];
   try (exfalso; specialize (F t); rewrite P in F; discriminate); rewrite P in Ot, Stt, Nd, Nd', Ob; cbn [inop busy isdone] in Ot, Stt, Nd, Nd', Ob; destruct Ot as [Ot1 Ot2].
  all: unfold inited, failed.
  all: try (assert (Et : s_st s = Initing) by (apply Stt; reflexivity)).
  all: try (assert (Mt : s_mu s = MNone) by (apply Nd'; reflexivity)).
  all: repeat match goal with |- context [match s_st ?z with _ => _ end] => destruct (s_st z) eqn:E end.
  all: repeat match goal with |- context [if ?b then _ else _] => destruct b end.
  all: try (destruct o; try congruence).
  all: try (exfalso; apply (Hn t); left; reflexivity).
  all: apply core_go; cbn [isf busy isdone inop]; auto.
  all: try discriminate; try congruence.
  all: try solve [intros Q; destruct (Nd eq_refl ltac:(congruence)); auto].
  all: try solve [intros; match goal with Hf : nofail (_ ++ _) |- _ => pose proof (Nf (nofail_app _ _ Hf) t) as X; rewrite P in X; cbn in X end; try contradiction; try congruence; auto].
  all: try solve [intros _ ? ?; cbn; intuition discriminate].
  all: try solve [intros _ ?; cbn; intuition discriminate].
  all: try solve [apply Hh; intros v; first [reflexivity|apply holds_skip; (exact I || discriminate)]].
  all: try solve [cbn; intros Pr X; apply (Un (proper_app _ _ Pr) t); rewrite P; exact X].
  all: try solve [cbn; intros [Pr Pr'] X; apply Ho; assumption].
  all: try solve [intros Hf; exfalso; apply (Hf t); left; reflexivity].
  all: try solve [intros v _ X; exact (Do v X)].
  all: try solve [intros Pr _; apply (Un (proper_app _ _ Pr) t); rewrite P; reflexivity].
  all: try solve [intros _; split; [reflexivity|intros; apply Nb; congruence]].
  all: try solve [intros _ _; rewrite ?E, ?Et; split; congruence].
  all: try solve [cbn; rewrite On, Mt; reflexivity].
  all: try solve [cbn; intros Pr v; rewrite (Ho Pr v), Mt; split; discriminate].
  all: try solve [intros Pr _; exfalso; assert (Y : s_mu s = MHeld t) by (apply (Un (proper_app _ _ Pr) t); rewrite P; reflexivity); congruence].
  all: try solve [intros _; apply (Do t); rewrite P; reflexivity].
  all: try solve [intros Hf; exfalso; apply nofail_app in Hf; pose proof (Nf Hf t) as X; rewrite P in X; apply Im in X; congruence].
  all: try solve [intros Q; destruct (Nd eq_refl Q) as [X|X]; [congruence|auto]].
  all: try solve [cbn; rewrite On; destruct (s_mu s); congruence].
  all: try solve [cbn; intros Pr v; destruct (Nat.eqb_spec t v) as [Ev|Nv]; [split; congruence|rewrite (Ho Pr v), M; split; congruence]].
  - cbn. intros Pr v. assert (Y : s_mu s = MHeld t) by (apply (Un Pr t); rewrite P; reflexivity). destruct (Nat.eqb_spec t v) as [Ev|Nv]; [split; discriminate|]. rewrite (Ho Pr v), Y. split; congruence.
  - intros Pr v N X. assert (Y : s_mu s = MHeld t) by (apply (Un (proper_app _ _ Pr) t); rewrite P; reflexivity). congruence.
Qed.
Lemma step_tr t s s' : step t s s' -> exists e, s_tr s' = e ++ s_tr s.
Proof.
  destruct 1; unfold inited, failed; repeat match goal with |- context [match s_st ?z with _ => _ end] => destruct (s_st z) end;
  repeat match goal with |- context [if ?b then _ else _] => destruct b end; try destruct o; eexists; reflexivity.
Qed.
Lemma core_reach s : reachable s -> nofini (s_tr s) -> core s.
Proof.
  induction 1 as [|t s s' R IH St]; intros Hn.
  - split; cbn; auto; try discriminate; try (intros; discriminate); try (intros _ [? []]).
    + intros _ t. split; discriminate.
    + split; [discriminate|exact I].
  - refine (core_step t s s' (IH _) St Hn). destruct (step_tr _ _ _ St) as [e E]. rewrite E in Hn. exact (nofini_app _ _ Hn).
Qed.

(** ** Theorems (as long as the lock is not finalized) *)
(** However many threads race on the first use, and even if the HAL's
    initialisation fails at times, it succeeds at most once. *)
Theorem C52_init_once s : reachable s -> nofini (s_tr s) -> (inits (s_tr s) <= 1)%nat.
Proof. intros R N. rewrite (c_once _ (core_reach s R N)). destruct (s_mu s); lia. Qed.
(** If the HAL's initialisation never fails, no thread ever uses a HAL mutex that
    is not initialised, and aosl_static_lock_init returns 0 only when it is. *)
Theorem C52_initialised_before_use s : reachable s -> nofini (s_tr s) -> nofail (s_tr s) -> forall t o, ~ In (EBad t o) (s_tr s).
Proof. intros R N F. exact (c_bad _ (core_reach s R N) F). Qed.
Theorem C52_init_returns_ready s h1 t h2 : reachable s -> nofini (s_tr s) -> nofail (s_tr s) -> s_tr s = h1 ++ ERet t OInit 0 :: h2 -> inits h2 = 1%nat.
Proof.
  intros R. revert h1. induction R as [|u s s' R IH St]; intros h1 N F E; [destruct h1; discriminate|].
  destruct (step_tr _ _ _ St) as [e Ee]. assert (N0 : nofini (s_tr s)) by (rewrite Ee in N; exact (nofini_app _ _ N)). assert (F0 : nofail (s_tr s)) by (rewrite Ee in F; exact (nofail_app _ _ F)).
  pose proof (core_reach _ (R_step _ _ _ R St) N) as C'. pose proof (core_reach _ R N0) as C.
  (* a step adds at most one event *)
  assert (L : e = [] \/ exists x, e = [x]).
  { clear - St Ee. assert (Q : forall l1 l2 : list event, l1 ++ s_tr s = l2 ++ s_tr s -> l1 = l2) by (intros; eapply app_inv_tail; eassumption).
    destruct St; unfold inited, failed in Ee; repeat match type of Ee with context [match s_st ?z with _ => _ end] => destruct (s_st z) end;
      repeat match type of Ee with context [if ?b then _ else _] => destruct b end; try destruct o; cbn [go s_tr] in Ee; apply Q in Ee; subst e; eauto. }
  destruct L as [->|[x ->]]; [apply (IH h1 N0 F0); cbn in Ee; congruence|]. rewrite Ee in E. destruct h1 as [|y h1]; cbn in E; [|apply (IH h1 N0 F0); congruence].
  assert (x = ERet t OInit 0 /\ h2 = s_tr s) as [-> ->] by (split; congruence).
  assert (S' : s_st s' = Inited) by (apply (c_ret _ C' F); exists t; rewrite Ee; left; reflexivity).
  pose proof (c_ini _ C' S') as M'. pose proof (c_once _ C') as O'. rewrite Ee in O'. cbn in O'. rewrite O'. revert M'. destruct (s_mu s'); congruence.
Qed.
(** Mutual exclusion, as long as only the holder unlocks: two threads never hold
    the lock at the same time. *)
Theorem C52_exclusion s a b : reachable s -> nofini (s_tr s) -> proper (s_tr s) -> holds a (s_tr s) = true -> holds b (s_tr s) = true -> a = b.
Proof. intros R N P A B. pose proof (c_hold _ (core_reach s R N) P) as H. apply H in A, B. congruence. Qed.
(** A blocked lock call has a holder to wait for: if nobody holds the lock and it
    is initialised, a thread about to take the HAL mutex gets it. *)
Theorem C52_lock_free s t : reachable s -> nofini (s_tr s) -> nofail (s_tr s) -> proper (s_tr s) -> s_pc s t = PMutex OLock -> (forall u, holds u (s_tr s) = false) ->
  exists s', step t s s' /\ s_tr s' = ERet t OLock 0 :: s_tr s.
Proof.
  intros R N F P Q H. pose proof (core_reach s R N) as C. pose proof (c_nof _ C F t) as X. rewrite Q in X. pose proof (c_ini _ C X) as M.
  destruct (s_mu s) eqn:E; [congruence| |].
  - eexists. split; [exact (L_lock t s Q E)|reflexivity].
  - assert (Y : holds t0 (s_tr s) = true) by (apply (c_hold _ C P); assumption). rewrite H in Y. discriminate.
Qed.

(** ** Departures from the documentation *)
(** If the HAL's initialisation fails in one thread, another one that found the
    initialisation in progress goes on as if it had succeeded: its
    aosl_static_lock_init returns 0 without any mutex ... *)
Definition a1 := go 1 (PCas OInit) Uninit MNone [ECall 1 OInit] init_state.
Definition a2 := go 1 (PHal OInit) Initing MNone [] a1.
Definition a3 := go 2 (PCas OInit) Initing MNone [ECall 2 OInit] a2.
Definition a4 := go 2 (PSpin OInit 0) Initing MNone [] a3.
Definition a5 := go 1 (PUndo OInit) Initing MNone [EHalFail 1] a4.
Definition a6 := go 1 Out Uninit MNone [ERet 1 OInit (-1)] a5.
Definition a7 := go 2 Out Uninit MNone [ERet 2 OInit 0] a6.
Theorem C52_init_false_success_refuted : exists s, reachable s /\ nofini (s_tr s) /\
  s_tr s = [ERet 2 OInit 0; ERet 1 OInit (-1); EHalFail 1; ECall 2 OInit; ECall 1 OInit] /\ inits (s_tr s) = 0%nat.
Proof.
  exists a7. split.
  - apply (R_step 2%nat a6); [|exact (L_spin 2%nat a6 OInit 0 eq_refl)]. apply (R_step 1%nat a5); [|exact (L_undo 1%nat a5 OInit eq_refl)].
    apply (R_step 1%nat a4); [|exact (L_hal_fail 1%nat a4 OInit eq_refl)]. apply (R_step 2%nat a3); [|exact (L_cas 2%nat a3 OInit eq_refl)].
    apply (R_step 2%nat a2); [|exact (L_call 2%nat a2 OInit eq_refl)]. apply (R_step 1%nat a1); [|exact (L_cas 1%nat a1 OInit eq_refl)].
    apply (R_step 1%nat init_state); [constructor|exact (L_call 1%nat init_state OInit eq_refl)].
  - split; [|split; reflexivity]. intros t H. cbn in H. intuition discriminate.
Qed.
(** ... and its aosl_static_lock_lock locks an uninitialised mutex. *)
Definition b1 := go 1 (PCas OInit) Uninit MNone [ECall 1 OInit] init_state.
Definition b2 := go 1 (PHal OInit) Initing MNone [] b1.
Definition b3 := go 2 (PRead OLock) Initing MNone [ECall 2 OLock] b2.
Definition b4 := go 2 (PCas OLock) Initing MNone [] b3.
Definition b5 := go 2 (PSpin OLock 0) Initing MNone [] b4.
Definition b6 := go 1 (PUndo OInit) Initing MNone [EHalFail 1] b5.
Definition b7 := go 1 Out Uninit MNone [ERet 1 OInit (-1)] b6.
Definition b8 := go 2 (PMutex OLock) Uninit MNone [] b7.
Definition b9 := go 2 Out Uninit MNone [EBad 2 OLock] b8.
Theorem C52_uninitialised_lock_refuted : exists s, reachable s /\ nofini (s_tr s) /\ In (EBad 2 OLock) (s_tr s).
Proof.
  exists b9. split.
  - apply (R_step 2%nat b8); [|exact (L_bad 2%nat b8 OLock eq_refl eq_refl)]. apply (R_step 2%nat b7); [|exact (L_spin 2%nat b7 OLock 0 eq_refl)].
    apply (R_step 1%nat b6); [|exact (L_undo 1%nat b6 OInit eq_refl)]. apply (R_step 1%nat b5); [|exact (L_hal_fail 1%nat b5 OInit eq_refl)].
    apply (R_step 2%nat b4); [|exact (L_cas 2%nat b4 OLock eq_refl)]. apply (R_step 2%nat b3); [|exact (L_read 2%nat b3 OLock eq_refl)].
    apply (R_step 2%nat b2); [|exact (L_call 2%nat b2 OLock eq_refl)]. apply (R_step 1%nat b1); [|exact (L_cas 1%nat b1 OInit eq_refl)].
    apply (R_step 1%nat init_state); [constructor|exact (L_call 1%nat init_state OInit eq_refl)].
  - split; [|left; reflexivity]. intros t H. cbn in H. intuition discriminate.
Qed.

(** A normal life: thread 1 locks (initialising on the way), thread 2 tries. *)
Definition c1 := go 1 (PRead OLock) Uninit MNone [ECall 1 OLock] init_state.
Definition c2 := go 1 (PCas OLock) Uninit MNone [] c1.
Definition c3 := go 1 (PHal OLock) Initing MNone [] c2.
Definition c4 := go 1 (PDone OLock) Initing MFree [EHalInit 1] c3.
Definition c5 := go 1 (PMutex OLock) Inited MFree [] c4.
Definition c6 := go 1 Out Inited (MHeld 1) [ERet 1 OLock 0] c5.
Definition c7 := go 2 (PRead OTry) Inited (MHeld 1) [ECall 2 OTry] c6.
Definition c8 := go 2 (PMutex OTry) Inited (MHeld 1) [] c7.
Definition c9 := go 2 Out Inited (MHeld 1) [ERet 2 OTry EBUSY] c8.
Lemma c5_reach : reachable c5.
Proof.
  apply (R_step 1%nat c4); [|exact (L_done 1%nat c4 OLock eq_refl)]. apply (R_step 1%nat c3); [|exact (L_hal_ok 1%nat c3 OLock eq_refl)].
  apply (R_step 1%nat c2); [|exact (L_cas 1%nat c2 OLock eq_refl)]. apply (R_step 1%nat c1); [|exact (L_read 1%nat c1 OLock eq_refl)].
  apply (R_step 1%nat init_state); [constructor|exact (L_call 1%nat init_state OLock eq_refl)].
Qed.
Lemma c9_reach : reachable c9.
Proof.
  apply (R_step 2%nat c8); [|exact (L_try_busy 2%nat c8 1%nat eq_refl eq_refl)]. apply (R_step 2%nat c7); [|exact (L_read 2%nat c7 OTry eq_refl)].
  apply (R_step 2%nat c6); [|exact (L_call 2%nat c6 OTry eq_refl)]. apply (R_step 1%nat c5); [exact c5_reach|exact (L_lock 1%nat c5 eq_refl eq_refl)].
Qed.
(** "0 if acquired, <0 if already held": the static trylock returns a positive
    number when the lock is held by another thread. *)
Theorem C52_static_trylock_refuted : exists s t u, reachable s /\ nofini (s_tr s) /\ nofail (s_tr s) /\ proper (s_tr s) /\
  holds u (s_tr s) = true /\ t <> u /\ exists h, s_tr s = ERet t OTry 16 :: h.
Proof.
  exists c9, 2%nat, 1%nat. split; [exact c9_reach|]. split; [intros t H; cbn in H; intuition discriminate|]. split; [intros t H; cbn in H; intuition discriminate|].
  split; [exact I|]. split; [reflexivity|]. split; [discriminate|]. eexists. reflexivity.
Qed.
(** What does hold: the static trylock returns 0 exactly when it takes the lock. *)
Theorem C52_static_trylock s t s' r h : reachable s -> nofini (s_tr s) -> proper (s_tr s) -> step t s s' -> s_tr s' = ERet t OTry r :: h -> h = s_tr s -> s_pc s t = PMutex OTry ->
  (r = 0 <-> forall u, holds u (s_tr s) = false) /\ (r = 0 -> holds t (s_tr s') = true).
Proof.
  intros R N P St E -> Q. pose proof (core_reach s R N) as C. pose proof (c_hold _ C P) as H.
  destruct St; cbn [go s_tr app] in *; try congruence; try (rewrite Q in *; congruence).
  - assert (r = 0) by congruence. subst r. split; [split; [intros _ u; destruct (holds u (s_tr s)) eqn:X; [apply H in X; congruence|reflexivity]|reflexivity]|]. intros _. cbn. rewrite Nat.eqb_refl. reflexivity.
  - assert (r = EBUSY) by congruence. subst r. split; [split; [discriminate|]|discriminate]. intros X. specialize (X u). assert (Y : holds u (s_tr s) = true) by (apply H; assumption). congruence.
Qed.

(** aosl_lock_trylock: "0 if the lock was acquired, <0 if it was already held".
    The code returns 1 when it takes the lock and 0 when somebody else has it, so
    a caller that follows the documentation goes on exactly when it must not. *)
Definition documented (r : Z) (got : bool) : Prop := if got then r = 0 else r < 0.
Theorem C52_trylock_inverted_refuted t m : let (r, m') := lock_trylock t m in
  (m = None -> m' = Some t /\ r = 1 /\ ~ documented r true) /\ (forall u, m = Some u -> m' = Some u /\ r = 0 /\ ~ documented r false /\ documented r true).
Proof. destruct m as [u|]; cbn; (split; [|intros w E]); try discriminate; intuition (congruence || discriminate || auto). Qed.

(** ** The hypotheses are met *)
Example hyps_case : nofini (s_tr c9) /\ nofail (s_tr c9) /\ proper (s_tr c9) /\ holds 1 (s_tr c9) = true.
Proof. split; [intros t H; cbn in H; intuition discriminate|]. split; [intros t H; cbn in H; intuition discriminate|]. split; [exact I|reflexivity]. Qed.
Example free_case : s_pc c5 1%nat = PMutex OLock /\ forall u, holds u (s_tr c5) = false. Proof. split; reflexivity. Qed.

Print Assumptions C52_init_once. Print Assumptions C52_initialised_before_use. Print Assumptions C52_init_returns_ready.
Print Assumptions C52_exclusion. Print Assumptions C52_lock_free. Print Assumptions C52_static_trylock.
Print Assumptions C52_init_false_success_refuted. Print Assumptions C52_uninitialised_lock_refuted. Print Assumptions C52_static_trylock_refuted. Print Assumptions C52_trylock_inverted_refuted.
