(** * C41: the semaphore based condition variable. *)
From Verif Require Import Base Cond.

(** ** Specification, over histories (latest event first) *)
(** The threads inside wait, in the order in which they released the mutex. *)
Fixpoint waiters (h : list event) : list nat :=
  match h with
  | [] => []
  | EWait t _ :: h' => waiters h' ++ [t]
  | ERet t :: h' => filter (fun x => negb (x =? t)%nat) (waiters h')
  | _ :: h' => waiters h'
  end.
(** Has t been posted since it began its latest wait? *)
Fixpoint posted (t : nat) (h : list event) : bool :=
  match h with
  | [] => false
  | EPost w :: h' => if (w =? t)%nat then true else posted t h'
  | EWait w _ :: h' => if (w =? t)%nat then false else posted t h'
  | _ :: h' => posted t h'
  end.
(** Has the latest wait of t timed out? *)
Fixpoint timedout (t : nat) (h : list event) : bool :=
  match h with
  | [] => false
  | ETmo w :: h' => if (w =? t)%nat then true else timedout t h'
  | EWait w _ :: h' => if (w =? t)%nat then false else timedout t h'
  | _ :: h' => timedout t h'
  end.
(** Was the latest wait of t one with a timeout? *)
Fixpoint timed (t : nat) (h : list event) : bool :=
  match h with
  | [] => false
  | EWait w tm :: h' => if (w =? t)%nat then tm else timed t h'
  | _ :: h' => timed t h'
  end.

(** ** Invariant *)
Definition crit (p : place) : bool := match p with WRel _ | WAdd _ | WUnl _ | WDel | WUnl2 | SPost | SUnl | BPost _ | BUnl => true | _ => false end.
Definition hasmu (p : place) : bool := match p with WLk _ | WRel _ | WLk2 | WDel | WUnl2 => true | _ => false end.
Definition inl (p : place) : bool := match p with WUnl _ | WSem _ | WMu | WLk2 | WDel => true | _ => false end.
Definition adding (p : place) : bool := match p with WAdd _ => true | _ => false end.
Definition extra (s : state) : list nat := match s_lk s with Some t => if adding (s_pc s t) then [t] else [] | None => [] end.
Definition local (t : nat) (p : place) (l : list nat) (n : nat) (h : list event) : Prop :=
  match p with
  | WAdd tm => posted t h = false /\ timed t h = tm
  | WUnl tm | WSem tm => ((0 < n)%nat <-> posted t h = true) /\ timed t h = tm
  | WMu | WLk2 | WDel => posted t h = true \/ timedout t h = true
  | BPost todo => (forall w, In w todo -> In w l) /\ (forall w, In w l -> In w todo \/ posted w h = true)
  | _ => True
  end.
Record inv (s : state) : Prop := {
  i_lk : forall t, s_lk s = Some t <-> crit (s_pc s t) = true;
  i_mu : forall t, hasmu (s_pc s t) = true -> s_mu s = Some t;
  i_list : waiters (s_tr s) = s_list s ++ extra s;
  i_nd : NoDup (s_list s);
  i_in : forall t, In t (s_list s) <-> inl (s_pc s t) = true;
  i_loc : forall t, local t (s_pc s t) (s_list s) (s_sem s t) (s_tr s) }.

Lemma fupd_eq {A} (f : nat -> A) k v : fupd f k v k = v. Proof. unfold fupd. rewrite Nat.eqb_refl. reflexivity. Qed.
Lemma fupd_ne {A} (f : nat -> A) k v x : x <> k -> fupd f k v x = f x. Proof. unfold fupd. intros H. apply Nat.eqb_neq in H. rewrite H. reflexivity. Qed.
Lemma in_del x t l : In x (del t l) <-> In x l /\ x <> t.
Proof. unfold del. rewrite filter_In. destruct (Nat.eqb_spec x t); cbn; intuition congruence. Qed.
Lemma nd_del t l : NoDup l -> NoDup (del t l). Proof. apply NoDup_filter. Qed.


Section Kinds.
  Variables (s : state) (t : nat).
  Hypothesis I : inv s.
  Lemma lk_other v lk' (p : place) : (lk' = s_lk s /\ crit p = crit (s_pc s t) \/ s_lk s = None /\ lk' = Some t /\ crit p = true \/ crit (s_pc s t) = true /\ lk' = None /\ crit p = false) ->
    (lk' = Some v <-> crit (fupd (s_pc s) t p v) = true).
  Proof.
    intros H. pose proof (i_lk s I) as L. destruct (Nat.eq_dec v t) as [->|N]; [rewrite fupd_eq|rewrite fupd_ne by assumption]; destruct H as [(-> & A)|[(A & -> & B)|(A & -> & B)]].
    - rewrite A. apply L. - rewrite B. tauto. - rewrite B. split; discriminate.
    - apply L. - rewrite <- L, A. split; congruence. - apply L in A. rewrite <- L, A. split; congruence.
  Qed.
  (** Steps that leave the list, and what others know, as it is. *)
  Lemma quiet p mu' lk' sem' e :
    (lk' = s_lk s /\ crit p = crit (s_pc s t) \/ s_lk s = None /\ lk' = Some t /\ crit p = true \/ crit (s_pc s t) = true /\ lk' = None /\ crit p = false) ->
    (forall v, v <> t -> hasmu (s_pc s v) = true -> mu' = Some v) -> (hasmu p = true -> mu' = Some t) ->
    inl p = inl (s_pc s t) -> adding p = false -> adding (s_pc s t) = false ->
    (forall v, v <> t -> sem' v = s_sem s v) -> (forall v, posted v (e ++ s_tr s) = posted v (s_tr s) /\ timed v (e ++ s_tr s) = timed v (s_tr s)) ->
    (forall v, v <> t -> timedout v (e ++ s_tr s) = timedout v (s_tr s)) -> waiters (e ++ s_tr s) = waiters (s_tr s) ->
    local t p (s_list s) (sem' t) (e ++ s_tr s) -> inv (go t p mu' lk' (s_list s) sem' e s).
  Proof.
    intros HL HM1 HM2 HI HA1 HA2 HS HP HT HW HLoc. destruct I as [IL IM IW IN II IC]. split; cbn [go s_mu s_lk s_list s_sem s_pc s_tr].
    - intros v. apply lk_other, HL.
    - intros v. destruct (Nat.eq_dec v t) as [->|N]; [rewrite fupd_eq; exact HM2|rewrite fupd_ne by assumption; apply HM1, N].
    - rewrite HW, IW. f_equal. unfold extra. cbn [go s_lk s_pc]. destruct HL as [(-> & C)|[(A & -> & C)|(A & -> & C)]].
      + destruct (s_lk s) as [v|]; [|reflexivity]. destruct (Nat.eq_dec v t) as [->|N]; [rewrite fupd_eq, HA1, HA2; reflexivity|rewrite fupd_ne by assumption; reflexivity].
      + rewrite A, fupd_eq, HA1. reflexivity.
      + apply IL in A. rewrite A, HA2. reflexivity.
    - exact IN.
    - intros v. rewrite II. destruct (Nat.eq_dec v t) as [->|N]; [rewrite fupd_eq, HI|rewrite fupd_ne by assumption]; tauto.
    - intros v. destruct (Nat.eq_dec v t) as [->|N]; [rewrite fupd_eq; exact HLoc|rewrite fupd_ne by assumption].
      pose proof (IC v) as L. destruct (HP v) as [P1 P2]. specialize (HT v N). rewrite (HS v N). destruct (s_pc s v); cbn [local] in *; rewrite ?P1, ?P2, ?HT; auto.
      destruct L as [L1 L2]. split; [exact L1|]. intros w Hw. destruct (HP w) as [-> _]. auto.
  Qed.
End Kinds.
Lemma extra_crit s t : inv s -> crit (s_pc s t) = true -> extra s = if adding (s_pc s t) then [t] else [].
Proof. intros I C. apply (i_lk s I) in C. unfold extra. rewrite C. reflexivity. Qed.
Lemma crit_unique s a b : inv s -> crit (s_pc s a) = true -> crit (s_pc s b) = true -> a = b.
Proof. intros I A B. apply (i_lk s I) in A, B. congruence. Qed.

Lemma inv_wrel s t tm : inv s -> s_pc s t = WRel tm -> inv (go t (WAdd tm) None (s_lk s) (s_list s) (s_sem s) [EWait t tm] s).
Proof.
  intros I H. pose proof I as [IL IM IW IN II IC]. pose proof (IM t) as Mt. rewrite H in Mt. specialize (Mt eq_refl).
  assert (Lt : s_lk s = Some t) by (apply IL; rewrite H; reflexivity).
  split; cbn [go s_mu s_lk s_list s_sem s_pc s_tr app waiters].
  - intros v. apply lk_other; [exact I|]. left. rewrite H. auto.
  - intros v. destruct (Nat.eq_dec v t) as [->|N]; [rewrite fupd_eq; discriminate|rewrite fupd_ne by assumption]. intros Q. apply IM in Q. congruence.
  - rewrite IW. rewrite (extra_crit s t I) by (rewrite H; reflexivity). rewrite H. cbn [adding]. rewrite app_nil_r. unfold extra. cbn [go s_lk s_pc]. rewrite Lt, fupd_eq. reflexivity.
  - exact IN.
  - intros v. rewrite II. destruct (Nat.eq_dec v t) as [->|N]; [rewrite fupd_eq, H|rewrite fupd_ne by assumption]; cbn; tauto.
  - intros v. destruct (Nat.eq_dec v t) as [->|N]; [rewrite fupd_eq; cbn; rewrite Nat.eqb_refl; auto|rewrite fupd_ne by assumption].
    pose proof (IC v) as L. assert (B : (t =? v)%nat = false) by (apply Nat.eqb_neq; congruence).
    destruct (s_pc s v) eqn:Pv; cbn [local posted timed timedout] in *; rewrite ?B; auto.
    exfalso. apply N. apply (crit_unique s); auto; rewrite ?Pv, ?H; reflexivity.
Qed.
Lemma inv_wadd s t tm : inv s -> s_pc s t = WAdd tm -> inv (go t (WUnl tm) (s_mu s) (s_lk s) (s_list s ++ [t]) (fupd (s_sem s) t 0%nat) [] s).
Proof.
  intros I H. pose proof I as [IL IM IW IN II IC]. assert (Lt : s_lk s = Some t) by (apply IL; rewrite H; reflexivity).
  assert (Nt : ~ In t (s_list s)) by (rewrite II, H; discriminate).
  split; cbn [go s_mu s_lk s_list s_sem s_pc s_tr app waiters].
  - intros v. apply lk_other; [exact I|]. left. rewrite H. auto.
  - intros v. destruct (Nat.eq_dec v t) as [->|N]; [rewrite fupd_eq; discriminate|rewrite fupd_ne by assumption; apply IM].
  - rewrite IW, (extra_crit s t I) by (rewrite H; reflexivity). rewrite H. cbn [adding]. unfold extra. cbn [go s_lk s_pc]. rewrite Lt, fupd_eq. cbn [adding]. rewrite app_nil_r. reflexivity.
  - rewrite <- (rev_involutive (s_list s ++ [t])). apply NoDup_rev. rewrite rev_app_distr. cbn. constructor; [rewrite <- in_rev; exact Nt|apply NoDup_rev, IN].
  - intros v. rewrite in_app_iff, II. cbn [In]. destruct (Nat.eq_dec v t) as [->|N]; [rewrite fupd_eq; cbn; tauto|rewrite fupd_ne by assumption]. intuition congruence.
  - intros v. pose proof (IC v) as L. destruct (Nat.eq_dec v t) as [->|N].
    + rewrite !fupd_eq. rewrite H in L. cbn [local] in *. destruct L as [L1 L2]. split; [|exact L2]. rewrite L1. split; [lia|discriminate].
    + rewrite !fupd_ne by assumption. destruct (s_pc s v) eqn:Pv; cbn [local] in *; auto. exfalso. apply N. apply (crit_unique s); auto; rewrite ?Pv, ?H; reflexivity.
Qed.
Lemma inv_wdel s t : inv s -> s_pc s t = WDel -> inv (go t WUnl2 (s_mu s) (s_lk s) (del t (s_list s)) (s_sem s) [ERet t] s).
Proof.
  intros I H. pose proof I as [IL IM IW IN II IC]. assert (Lt : s_lk s = Some t) by (apply IL; rewrite H; reflexivity).
  split; cbn [go s_mu s_lk s_list s_sem s_pc s_tr app waiters].
  - intros v. apply lk_other; [exact I|]. left. rewrite H. auto.
  - intros v. destruct (Nat.eq_dec v t) as [->|N]; [rewrite fupd_eq; intros _; apply IM; rewrite H; reflexivity|rewrite fupd_ne by assumption; apply IM].
  - rewrite IW, (extra_crit s t I) by (rewrite H; reflexivity). rewrite H. cbn [adding]. unfold extra. cbn [go s_lk s_pc]. rewrite Lt, fupd_eq. cbn [adding]. rewrite !app_nil_r. reflexivity.
  - apply nd_del, IN.
  - intros v. rewrite in_del, II. destruct (Nat.eq_dec v t) as [->|N]; [rewrite fupd_eq; cbn; intuition congruence|rewrite fupd_ne by assumption]. tauto.
  - intros v. pose proof (IC v) as L. destruct (Nat.eq_dec v t) as [->|N]; [rewrite fupd_eq; exact Logic.I|rewrite fupd_ne by assumption].
    destruct (s_pc s v) eqn:Pv; cbn [local posted timed timedout] in *; auto. exfalso. apply N. apply (crit_unique s); auto; rewrite ?Pv, ?H; reflexivity.
Qed.
(** A post by the owner of the lock to a listed waiter. *)
Lemma posted_mono w v h : posted v h = true -> posted v (EPost w :: h) = true.
Proof. cbn. destruct (w =? v)%nat; auto. Qed.
Lemma inv_post s t p w es : inv s -> crit (s_pc s t) = true -> crit p = true -> hasmu p = false -> inl p = false -> inl (s_pc s t) = false -> adding p = false -> adding (s_pc s t) = false ->
  In w (s_list s) -> (forall v, posted v (es ++ s_tr s) = posted v (s_tr s)) -> (forall v, timed v (es ++ s_tr s) = timed v (s_tr s)) -> (forall v, timedout v (es ++ s_tr s) = timedout v (s_tr s)) -> waiters (es ++ s_tr s) = waiters (s_tr s) ->
  local t p (s_list s) (s_sem s t) (EPost w :: es ++ s_tr s) -> inv (go t p (s_mu s) (s_lk s) (s_list s) (post w (s_sem s)) (EPost w :: es) s).
Proof.
  intros I H C Hm Hi Hj Ha Hb Hw E1 E2 E3 E4 HL. pose proof I as [IL IM IW IN II IC]. assert (Lt : s_lk s = Some t) by (apply IL, H).
  split; cbn [go s_mu s_lk s_list s_sem s_pc s_tr app waiters].
  - intros v. apply lk_other; [exact I|]. left. rewrite H, C. auto.
  - intros v. destruct (Nat.eq_dec v t) as [->|N]; [rewrite fupd_eq, Hm; discriminate|rewrite fupd_ne by assumption; apply IM].
  - rewrite E4, IW. f_equal. unfold extra. cbn [go s_lk s_pc]. rewrite Lt, fupd_eq, Ha, Hb. reflexivity.
  - exact IN.
  - intros v. rewrite II. destruct (Nat.eq_dec v t) as [->|N]; [rewrite fupd_eq, Hi, Hj|rewrite fupd_ne by assumption]; tauto.
  - assert (Nw : w <> t) by (intros ->; rewrite II, Hj in Hw; discriminate).
    intros v. pose proof (IC v) as L. destruct (Nat.eq_dec v t) as [->|N]; [rewrite fupd_eq; unfold post; rewrite (fupd_ne _ w) by congruence; exact HL|rewrite fupd_ne by assumption].
    unfold post. destruct (s_pc s v) eqn:Pv; cbn [local posted timed timedout] in *; rewrite ?E1, ?E2, ?E3; auto.
    all: try (exfalso; apply N; apply (crit_unique s); auto; rewrite ?Pv; reflexivity).
    all: try (destruct L as [L1 L2]; split; [|exact L2]; destruct (Nat.eqb_spec w v) as [->|Nv]; [rewrite fupd_eq; split; [reflexivity|lia]|rewrite fupd_ne by congruence; exact L1]; fail).
    all: destruct (w =? v)%nat; auto.
Qed.

Lemma inv_step s s' : inv s -> step s s' -> inv s'.
Proof.
  intros I H. pose proof I as [IL IM IW IN II IC].
  destruct H as [t H Hm|t H Hm|t tm H Hm|t tm H Hl|t tm H|t tm H|t tm H|t tm n H Hs|t H|t H Hm|t H Hl|t H|t H|t H|t H Hl|t H|t H|t H|t H Hl|t w l H|t H|t H]; pose proof (IC t) as L; rewrite H in L; cbn [local] in L.
  all: try (apply inv_wrel; assumption); try (apply inv_wadd; assumption); try (apply inv_wdel; assumption).
  all: pose proof (IM t) as Mt; rewrite H in Mt; cbn [hasmu] in Mt.
  - apply quiet; auto; rewrite ?H; cbn; auto. intros v _ Q. apply IM in Q. congruence.
  - apply quiet; auto; rewrite ?H; cbn; auto; try discriminate. intros v N Q. apply IM in Q. congruence.
  - apply quiet; auto; rewrite ?H; cbn; auto.
  - apply quiet; auto; rewrite ?H; cbn; auto.
  - apply quiet; auto; rewrite ?H; cbn; auto; try discriminate; try tauto.
  - apply quiet; auto; rewrite ?H; cbn; auto; try discriminate; try tauto. { intros v N. apply fupd_ne, N. } left. apply L. lia.
  - apply quiet; auto; rewrite ?H; cbn; auto; try discriminate; try tauto. { intros v N. replace (t =? v)%nat with false; [reflexivity|]. symmetry. apply Nat.eqb_neq. congruence. } right. rewrite Nat.eqb_refl. reflexivity.
  - apply quiet; auto; rewrite ?H; cbn; auto; try discriminate; try tauto. intros v _ Q. apply IM in Q. congruence.
  - apply quiet; auto; rewrite ?H; cbn; auto; try discriminate; try tauto.
  - apply quiet; auto; rewrite ?H; cbn; auto; try discriminate; try tauto.
  - apply quiet; auto; rewrite ?H; cbn; auto; try discriminate; try tauto.
  - apply quiet; auto; rewrite ?H; cbn; auto; try discriminate; try tauto.
  - destruct (s_list s) as [|w0 l0] eqn:SL.
    + rewrite <- SL. apply quiet; auto; rewrite ?H; cbn; auto; try discriminate; try tauto.
    + rewrite <- SL. apply (inv_post s t SUnl w0 [ESig t (Some w0)]); auto; rewrite ?H; cbn; auto. rewrite SL. left. reflexivity.
  - apply quiet; auto; rewrite ?H; cbn; auto; try discriminate; try tauto.
  - apply quiet; auto; rewrite ?H; cbn; auto; try discriminate; try tauto.
  - apply quiet; auto; rewrite ?H; cbn; auto; try discriminate; try tauto.
  - destruct L as [L1 L2]. apply (inv_post s t (BPost l) w []); auto; rewrite ?H; cbn [crit inl adding app posted local]; auto.
    + apply L1. left. reflexivity.
    + split; [intros x Hx; apply L1; right; exact Hx|]. intros x Hx. destruct (Nat.eqb_spec w x) as [->|Nx]; [right; reflexivity|]. destruct (L2 x Hx) as [[->|Y]|Y]; [contradiction|left; exact Y|right; exact Y].
  - apply quiet; auto; rewrite ?H; cbn; auto; try discriminate; try tauto.
  - apply quiet; auto; rewrite ?H; cbn; auto; try discriminate; try tauto.
Qed.
Lemma inv_reachable s : reachable s -> inv s.
Proof. induction 1 as [|s s' R IH H]; [|eapply inv_step; eassumption]. split; cbn; try (intros; split; intros; contradiction || discriminate); try discriminate; auto. constructor. Qed.

(** ** Theorems *)
(** Every event of a history satisfies P with the history before it. *)
Fixpoint each (P : event -> list event -> Prop) (h : list event) : Prop := match h with [] => True | e :: h' => P e h' /\ each P h' end.
Lemma each_at P h2 e h1 : each P (h2 ++ e :: h1) -> P e h1.
Proof. induction h2 as [|x h2 IH]; cbn; intros [A B]; auto. Qed.
Ltac steps H := destruct H as [a H Hm|a H Hm|a tm H Hm|a tm H Hl|a tm H|a tm H|a tm H|a tm n H Hs|a H|a H Hm|a H Hl|a H|a H|a H|a H Hl|a H|a H|a H|a H Hl|a w l H|a H|a H].
Definition facts (e : event) (h : list event) : Prop :=
  match e with
  | EWait t _ => ~ In t (waiters h)
  | EPost t => In t (waiters h)
  | ETmo t => timed t h = true /\ In t (waiters h)
  | ERet t => In t (waiters h) /\ (posted t h = true \/ timedout t h = true /\ timed t h = true)
  | ESig b o => o = hd_error (waiters h)
  | EBEnd b => forall t, In t (waiters h) -> posted t h = true
  end.
Lemma facts_reachable s : reachable s -> each facts (s_tr s).
Proof.
  intros R. induction R as [|s s' R IH H]; [exact Logic.I|].
  pose proof (inv_reachable s R) as I. pose proof I as [IL IM IW IN II IC].
  assert (Tm : forall h t, each facts h -> timedout t h = true -> timed t h = true).
  { clear. induction h as [|e h IHh]; intros t; cbn [each]; [discriminate|]. intros [F G]. destruct e; cbn [timedout timed facts] in *; auto.
    - destruct (t0 =? t)%nat; [discriminate|auto].
    - destruct (Nat.eqb_spec t0 t) as [->|N]; [intros _; apply F|auto]. }
  assert (W : forall a, crit (s_pc s a) = true -> adding (s_pc s a) = false -> waiters (s_tr s) = s_list s) by (intros a C A; rewrite IW, (extra_crit s a I C), A, app_nil_r; reflexivity).
  steps H; try (pose proof (IC a) as L; rewrite H in L; cbn [local] in L); cbn [go s_tr app each]; auto.
  - split; [|exact IH]. cbn [facts]. rewrite (W a) by (rewrite H; reflexivity). rewrite II, H. discriminate.
  - split; [|exact IH]. cbn [facts]. split; [apply L|]. rewrite IW. apply in_or_app. left. rewrite II, H. reflexivity.
  - split; [|exact IH]. cbn [facts]. rewrite (W a) by (rewrite H; reflexivity). rewrite II, H. split; [reflexivity|]. destruct L as [L|L]; [left; exact L|right; split; [exact L|apply (Tm _ _ IH L)]].
  - pose proof (W a ltac:(rewrite H; reflexivity) ltac:(rewrite H; reflexivity)) as Wa. destruct (s_list s) as [|w l] eqn:SL; cbn [go s_tr app each facts waiters]; rewrite Wa; auto. split; [left; reflexivity|]. auto.
  - split; [|exact IH]. cbn [facts]. rewrite (W a) by (rewrite H; reflexivity). apply L. left. reflexivity.
  - split; [|exact IH]. cbn [facts]. rewrite (W a) by (rewrite H; reflexivity). intros t Ht. destruct L as [_ L]. destruct (L t Ht) as [[]|Y]. exact Y.
Qed.

(** C41: a wait ends only because the waiter was woken since it released the
    mutex, or because its timeout, if it has one, expired. *)
Theorem C41_no_spurious_wakeup : forall s h1 h2 t, reachable s -> s_tr s = h2 ++ ERet t :: h1 ->
  In t (waiters h1) /\ (posted t h1 = true \/ timedout t h1 = true /\ timed t h1 = true).
Proof. intros s h1 h2 t R E. pose proof (facts_reachable s R) as F. rewrite E in F. exact (each_at _ _ _ _ F). Qed.
Print Assumptions C41_no_spurious_wakeup.

(** C41: a broadcast wakes every thread that had released the mutex in a wait
    when it got hold of the condition variable. *)
Theorem C41_broadcast_wakes_all : forall s h1 h2 b, reachable s -> s_tr s = h2 ++ EBEnd b :: h1 -> forall t, In t (waiters h1) -> posted t h1 = true.
Proof. intros s h1 h2 b R E. pose proof (facts_reachable s R) as F. rewrite E in F. exact (each_at _ _ _ _ F). Qed.
Print Assumptions C41_broadcast_wakes_all.

(** C41: a thread that has been woken does not block in its wait, and a thread
    that has not been woken does. *)
Theorem C41_woken_iff_not_blocked : forall s t, reachable s -> s_pc s t = WSem false ->
  ((exists s', step s s' /\ s_pc s' t <> s_pc s t) <-> posted t (s_tr s) = true).
Proof.
  intros s t R H. pose proof (i_loc s (inv_reachable s R) t) as L. rewrite H in L. cbn in L. destruct L as [L _]. rewrite <- L. split.
  - intros (s' & S & D). assert (G : forall u p mu lk l sm e, s_pc (go u p mu lk l sm e s) t <> s_pc s t -> u = t).
    { intros u p mu lk l sm e. cbn. destruct (Nat.eq_dec t u) as [->|N]; [auto|rewrite fupd_ne by assumption; congruence]. }
    steps S; try (destruct (s_list s)); try (apply G in D; subst a; rewrite S in H; try discriminate H; try (injection H as ->); try lia). 
  - intros P. destruct (s_sem s t) as [|n] eqn:E; [lia|]. exists (go t WMu (s_mu s) (s_lk s) (s_list s) (fupd (s_sem s) t n) [] s). split; [eapply T_wsem; eassumption|]. cbn. rewrite fupd_eq, H. discriminate.
Qed.
Print Assumptions C41_woken_iff_not_blocked.

(** C41: the mutex is held from the return of the wait on. *)
Theorem C41_returns_locked : forall s s' t, reachable s -> step s s' -> s_pc s t = WUnl2 -> s_pc s' t = Idle -> s_mu s' = Some t.
Proof.
  intros s s' t R S A B. pose proof (i_mu s (inv_reachable s R) t) as M. rewrite A in M. specialize (M eq_refl).
  steps S; try (destruct (s_list s)); cbn [go s_pc s_mu] in *; try (exact M); try congruence.
  all: destruct (Nat.eq_dec t a) as [->|N]; [congruence|rewrite fupd_ne in B by assumption; congruence].
Qed.
Print Assumptions C41_returns_locked.

(** C41, the true part for signal: it wakes the longest waiting thread, so if
    none of the waiting threads has been woken before, it wakes one more. *)
Theorem C41_signal_partial : forall s h1 h2 b o, reachable s -> s_tr s = h2 ++ ESig b o :: h1 ->
  o = hd_error (waiters h1) /\ (forall w, o = Some w -> exists h, h2 = h ++ [EPost w]) /\
  (waiters h1 <> [] -> (forall t, In t (waiters h1) -> posted t h1 = false) -> exists w, o = Some w /\ In w (waiters h1) /\ posted w h1 = false).
Proof.
  intros s h1 h2 b o R E. pose proof (facts_reachable s R) as F. rewrite E in F. apply each_at in F. cbn in F. split; [exact F|]. split.
  - clear F. revert h2 h1 b o E. induction R as [|s s' R IH H]; intros h2 h1 b o E w0 Ho; [destruct h2; discriminate|].
    assert (C : forall x, s_tr s' = x :: s_tr s -> (forall b o, x <> ESig b (Some o)) -> exists h, h2 = h ++ [EPost w0]).
    { intros x Ex N. rewrite Ex in E. destruct h2 as [|y h2]; cbn in E; injection E as E1 E2; [subst; exfalso; eapply N; reflexivity|]. destruct (IH _ _ _ _ E2 w0 Ho) as (h & ->). exists (y :: h). reflexivity. }
    assert (D : s_tr s' = s_tr s -> exists h, h2 = h ++ [EPost w0]) by (intros Ex; rewrite Ex in E; eapply IH; eauto).
    steps H; try (apply D; reflexivity); try (eapply C; [reflexivity|discriminate]).
    destruct (s_list s) as [|w l]; [eapply C; [reflexivity|discriminate]|]. cbn [go s_tr app] in E. destruct h2 as [|y h2]; cbn in E; injection E as E1 E2; [discriminate|]. subst y.
    destruct h2 as [|y h2]; cbn in E2; injection E2 as Q1 Q2; [exists []; cbn; congruence|]. destruct (IH _ _ _ _ Q2 w0 Ho) as (h & ->). exists (EPost w :: y :: h). reflexivity.
  - intros N A. destruct (waiters h1) as [|w l]; [contradiction|]. exists w. repeat split; auto; [|apply A]; left; reflexivity.
Qed.
Print Assumptions C41_signal_partial.

(** C41, refuted: two threads wait, two signals are sent, only one thread is
    woken; the other stays blocked although nobody else is doing anything. *)
Tactic Notation "st" uconstr(c) := match goal with R : reachable ?s |- _ =>
  let R' := fresh in eassert (R' : reachable _) by (eapply (R_step s _ R); eapply c; reflexivity); clear R; rename R' into R; cbn in R end.
Local Open Scope nat_scope.
Theorem C41_refuted : exists s h1 h2 h3, reachable s /\ s_tr s = h3 ++ ESig 3 (Some 1) :: h2 ++ ESig 3 (Some 1) :: h1 /\ waiters h1 = [1; 2] /\ posted 1 h1 = false /\ posted 2 h1 = false /\
  waiters (s_tr s) = [2] /\ s_pc s 2 = WSem false /\ (forall t, t <> 2 -> s_pc s t = Idle) /\
  ~ (exists s', step s s' /\ s_pc s' 2 <> s_pc s 2).
Proof.
  pose proof R_init as R.
  st (T_lock _ 1). st (T_wait _ 1 false). st (T_wlk _ 1). st (T_wrel _ 1). st (T_wadd _ 1). st (T_wunl _ 1).
  st (T_lock _ 2). st (T_wait _ 2 false). st (T_wlk _ 2). st (T_wrel _ 2). st (T_wadd _ 2). st (T_wunl _ 2).
  st (T_sig _ 3). st (T_slk _ 3). st (T_spost _ 3). st (T_sunl _ 3).
  st (T_sig _ 3). st (T_slk _ 3). st (T_spost _ 3). st (T_sunl _ 3).
  st (T_wsem _ 1). st (T_wmu _ 1). st (T_wlk2 _ 1). st (T_wdel _ 1). st (T_wunl2 _ 1). st (T_unlock _ 1).
  match type of R with reachable ?x => exists x end. exists [EWait 2 false; EWait 1 false], [EPost 1], [ERet 1; EPost 1].
  split; [exact R|]. split; [reflexivity|]. split; [reflexivity|]. split; [reflexivity|]. split; [reflexivity|]. split; [reflexivity|]. split; [reflexivity|]. split.
  - intros t N. cbn. unfold fupd. repeat (match goal with |- context [(t =? ?k)%nat] => destruct (Nat.eqb_spec t k); [subst; try reflexivity; contradiction|] end). reflexivity.
  - rewrite C41_woken_iff_not_blocked; [discriminate|exact R|reflexivity].
Qed.
Print Assumptions C41_refuted.

(** ** An execution: a broadcast wakes two waiters. *)
Example cond_broadcast : exists s, reachable s /\ waiters (s_tr s) = [] /\ s_mu s = Some 2 /\
  s_tr s = [ERet 2; ERet 1; EBEnd 3; EPost 2; EPost 1; EWait 2 true; EWait 1 false].
Proof.
  pose proof R_init as R.
  st (T_lock _ 1). st (T_wait _ 1 false). st (T_wlk _ 1). st (T_wrel _ 1). st (T_wadd _ 1). st (T_wunl _ 1).
  st (T_lock _ 2). st (T_wait _ 2 true). st (T_wlk _ 2). st (T_wrel _ 2). st (T_wadd _ 2). st (T_wunl _ 2).
  st (T_bc _ 3). st (T_blk _ 3). st (T_bpost _ 3). st (T_bpost _ 3). st (T_bend _ 3). st (T_bunl _ 3).
  st (T_wsem _ 1). st (T_wmu _ 1). st (T_wlk2 _ 1). st (T_wdel _ 1). st (T_wunl2 _ 1). st (T_unlock _ 1).
  st (T_wsem _ 2). st (T_wmu _ 2). st (T_wlk2 _ 2). st (T_wdel _ 2). st (T_wunl2 _ 2).
  eexists. split; [exact R|]. repeat split; reflexivity.
Qed.
