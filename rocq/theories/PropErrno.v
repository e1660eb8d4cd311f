(** * C62: the error number of a thread *)
From Verif Require Import Base Errno ErrnoInv.

(** [expected t history] (ErrnoInv.v) is the specification of a thread's error number: the
    value the thread assigned last since the last start of the library, and 0 before. *)

(** Executions given by a list of acts, for the examples. *)
Fixpoint run (l : list act) (s : state) : option state := match l with [] => Some s | a :: l => match do a s with Some s' => run l s' | None => None end end.

(** ** Privacy and memory safety, in every interleaving *)

(** Whatever the threads do at the same time, reading aosl_errno gives what the same thread assigned last. *)
Theorem C62_private s later t v earlier : reach s -> log s = later ++ EGet t v :: earlier -> v = Some (expected t earlier).
Proof. intros R E. apply (proj1 (proj2 (proj2 (INV_reach s R))) earlier later t v E). Qed.

(** No freed cell or list node is touched or freed again, although first uses
    change the list without a lock. *)
Theorem C62_no_use_after_free s : reach s -> bad s = false.
Proof. intros R. apply (INV_reach s R). Qed.

(** Uses before the start or after the end of the library abort the process. *)
Theorem C62_not_up_aborts s t u : reach s -> ab s = false -> ph s <> Up -> th s t = Idle /\ exists s', do (Begin t u) s = Some s' /\ ab s' = true.
Proof.
  intros R A P. destruct (INV_reach s R) as (B & _ & _ & V). assert (T : th s t = Idle) by (destruct (ph s); [congruence|apply V|apply V]).
  split; [exact T|]. unfold do. rewrite A, B, T. cbn [orb]. eexists. split; [reflexivity|]. unfold do_begin. destruct (ph s); [congruence|reflexivity|reflexivity].
Qed.

(** ** The end *)
Fixpoint rounds (k : nat) (s : state) : option state := match k with O => Some s | S k => match do Round s with Some s' => rounds k s' | None => None end end.

(** k_errno_fini always comes to its end. *)
Theorem C62_fini_returns s : reach s -> ph s = Closing -> ab s = false -> exists k s', rounds k s = Some s' /\ ph s' = Down /\ ab s' = false /\ reach s'.
Proof.
  intros R P A. destruct (INV_reach s R) as (_ & _ & _ & V). rewrite P in V. destruct V as (_ & _ & l & C). remember (length l) as n eqn:N. revert s l R P A C N.
  induction n as [n IH] using lt_wf_ind. intros s l R P A C N.
  assert (B := C62_no_use_after_free s R).
  destruct (nx s None) as [p|] eqn:H.
  - destruct (CI_round l s p C H) as (l1 & l2 & E & NL & CL & LN & PV & CC).
    cbn zeta in CC. match type of CC with CI _ ?x => set (s2 := x) in * end.
    assert (D : do Round s = Some s2). { unfold do. rewrite A, B. cbn [orb]. unfold do_round. rewrite P, H, NL, CL, LN, PV. cbn [live andb]. unfold s2. rewrite ?A, ?B. reflexivity. }
    assert (L2 : (length l2 < n)%nat) by (subst n l; rewrite app_length; cbn; lia).
    destruct (IH (length l2) L2 s2 l2) as (k & s' & K1 & K2 & K3 & K4); auto.
    { eapply R_do; [exact R| |exact D]. discriminate. }
    exists (S k), s'. cbn [rounds]. rewrite D. auto.
  - assert (D : do Round s = Some (mk Down (nx s) (pv s) (nlive s) (clive s) (val s) (fresh s) (tls s) (th s) (log s) (ab s) (bad s))).
    { unfold do. rewrite A, B. cbn [orb]. unfold do_round. rewrite P, H, A, B. reflexivity. }
    eexists 1%nat, _. cbn [rounds]. rewrite D. split; [reflexivity|]. split; [reflexivity|]. split; [exact A|]. eapply R_do; [exact R| |exact D]. discriminate.
Qed.

(** ** Everything is freed when first uses do not overlap *)
(** A thread is changing the list. *)
Definition adding (p : pc) : Prop := match p with A_prev _ _ _ | A_next _ _ _ | A_nprev _ _ _ | A_head _ _ _ => True | _ => False end.
Definition one_adder (s : state) : Prop := forall t u, adding (th s t) -> adding (th s u) -> t = u.
(** The executions in which at most one thread at a time is changing the list. *)
Inductive sreach : state -> Prop :=
| Q_start : sreach start
| Q_do s a s' : sreach s -> (a = Fini -> quiet s) -> do a s = Some s' -> one_adder s' -> sreach s'.
Lemma sreach_reach s : sreach s -> reach s. Proof. induction 1; [constructor|eapply R_do; eauto]. Qed.

Lemma adding_iff p : adding p <-> exists x, adds p = Some x.
Proof. destruct p; cbn; split; intros H; try destruct H; try discriminate; eauto. Qed.
Definition exact (l : list nat) (s : state) : Prop := forall l1 n l2, l = l1 ++ n :: l2 -> nx s (Some n) = hd_error l2.
Record SI (pub : list nat) (s : state) : Prop := {
  i_one : one_adder s;
  i_next : exact pub s;
  i_adds : forall t c n, adds (th s t) = Some (c, n) -> n = hd_error pub;
  i_all : forall n, nlive s n = true \/ clive s n = true -> In n pub \/ exists t, unpub (th s t) = Some n }.
Record SC (l : list nat) (s : state) : Prop := {
  z_head : nx s None = hd_error l; z_next : exact l s;
  z_all : forall n, nlive s n = true \/ clive s n = true -> In n l }.
Definition SINV (s : state) : Prop :=
  match ph s with
  | Up => exists pub, LI pub s /\ SI pub s
  | Closing => exists l, CI l s /\ SC l s
  | Down => forall n, nlive s n = false /\ clive s n = false
  end.

(** A step that changes only the thread's place. *)
Lemma SI_th pub s s' t p : SI pub s -> one_adder s' -> nx s' = nx s -> nlive s' = nlive s -> clive s' = clive s -> th s' = setn (th s) t p ->
  unpub p = unpub (th s t) -> (forall c n, adds p = Some (c, n) -> n = hd_error pub) -> SI pub s'.
Proof.
  intros I0 O E1 E2 E3 E4 U A. destruct I0. constructor; auto.
  - intros l1 n l2 E. rewrite E1. eapply i_next0; eauto.
  - intros a c n. rewrite E4, adds_set. destruct (Nat.eq_dec a t) as [->|N]; [apply A|apply i_adds0].
  - intros n. rewrite E2, E3. intros H. destruct (i_all0 n H) as [H1|[a H1]]; [auto|right]. exists a. rewrite E4. destruct (Nat.eq_dec a t) as [->|N]; [rewrite setn_eq; congruence|rewrite setn_ne by exact N; exact H1].
Qed.
Lemma SINV_do s a s' : INV s -> SINV s -> (a = Fini -> quiet s) -> do a s = Some s' -> one_adder s' -> SINV s'.
Proof.
  intros (B & _ & _ & V) W Q. unfold do. destruct (ab s || bad s) eqn:AB; [discriminate|]. unfold SINV in *.
  destruct a as [t u|t|t| | |].
  - destruct (th s t) eqn:H; try discriminate. intros [= <-] O. unfold do_begin in *. destruct (ph s) eqn:P.
    + destruct W as (pub & LV & SV). destruct (tls s t) as [c|] eqn:T.
      * prj. rewrite P. exists pub. split; [apply (LI_th pub s _ t (Use c u)); auto; rewrite H; reflexivity|]. apply (SI_th pub s _ t (Use c u)); auto; [rewrite H; reflexivity|discriminate].
      * exists pub. rewrite <- P in *. split; [apply LI_new; auto|]. destruct SV. constructor; auto; prj.
        -- intros a c n. rewrite adds_set. destruct (Nat.eq_dec a t) as [->|N]; [discriminate|apply i_adds0].
        -- intros n X. destruct (Nat.eq_dec n (fresh s)) as [->|N]; [right; exists t; rewrite setn_eq; reflexivity|]. rewrite !setn_ne in X by exact N.
           destruct (i_all0 n X) as [Y|[a Y]]; [auto|right]. exists a. rewrite setn_ne; [exact Y|]. intros ->. rewrite H in Y. discriminate.
    + prj. rewrite P. destruct W as (l & C & Z0). exists l. split; [destruct C; constructor; auto|destruct Z0; constructor; auto].
    + prj. rewrite P. exact W.
  - assert (UP : th s t <> Idle -> ph s = Up) by (intros N; destruct (ph s); [reflexivity| |]; exfalso; apply N; apply V).
    unfold do_step. destruct (th s t) as [|c u|c n u|c n u|c n u|c n u|c u|c u|c u] eqn:H; [discriminate| | | | | | | |].
    all: assert (PH : ph s = Up) by (apply UP; discriminate); rewrite PH in V, W; destruct V as (PV & _); destruct W as (pub & LV & SV).
    all: assert (OWN : owns s t c) by (right; rewrite H; reflexivity).
    all: assert (CL := p_live s PV t c OWN); assert (CF := p_old s PV t c OWN); assert (DI := PI_distinct s PV).
    all: try (assert (NL : nlive s c = true) by (apply (l_new pub s LV t c); rewrite H; reflexivity)).
    + intros [= <-] O. prj. rewrite PH. exists pub. split; [eapply LI_read; eauto|]. apply (SI_th pub s _ t (A_prev c (nx s None) u)); auto; [rewrite H; reflexivity|]. intros c' n E. cbn in E. rewrite <- (l_head pub s LV). congruence.
    + assert (LN : live s n = true). { assert (W := l_adds pub s LV t c n ltac:(rewrite H; reflexivity)). destruct n as [m|]; [|reflexivity]. apply (l_live pub s LV m W). }
      rewrite LN. intros [= <-] O. prj. rewrite PH. exists pub. split; [eapply LI_prev; eauto|]. apply (SI_th pub s _ t (A_next c n u)); auto; [rewrite H; reflexivity|]. intros c' m E. apply (i_adds pub s SV t c'). rewrite H. exact E.
    + rewrite NL. intros [= <-] O. prj. rewrite PH. exists pub. split; [eapply LI_next; eauto|]. assert (NP : ~ In c pub) by (apply (l_new pub s LV t c); rewrite H; reflexivity).
      destruct SV. constructor; auto; prj.
      * intros l1 m l2 E. prj. rewrite setp_ne; [eapply i_next0; eauto|]. intros X. assert (m = c) by congruence. subst. apply NP. apply in_or_app. right. left. reflexivity.
      * intros a x m. rewrite adds_set. destruct (Nat.eq_dec a t) as [->|N]; [|apply i_adds0]. intros E. apply (i_adds0 t x). rewrite H. exact E.
      * intros m X. destruct (i_all0 m X) as [Y|[a Y]]; [auto|right]. exists a. destruct (Nat.eq_dec a t) as [->|N]; [rewrite setn_eq; rewrite H in Y; exact Y|rewrite setn_ne by exact N; exact Y].
    + rewrite NL. intros [= <-] O. prj. rewrite PH. exists pub. split; [eapply LI_nprev; eauto|]. apply (SI_th pub s _ t (A_head c n u)); auto; [rewrite H; reflexivity|]. intros c' m E. apply (i_adds pub s SV t c'). rewrite H. exact E.
    + intros [= <-] O. prj. rewrite PH. exists (c :: pub). split; [eapply LI_head; eauto|]. assert (HN : n = hd_error pub) by (apply (i_adds pub s SV t c); rewrite H; reflexivity).
      assert (NX := l_nx pub s LV t c n u (or_intror H)). destruct SV. constructor; auto; prj.
      * intros l1 m l2 E. prj. rewrite setp_ne by discriminate. destruct l1 as [|y l1]; cbn in E; [assert (m = c /\ l2 = pub) as [-> ->] by (split; congruence); congruence|]. apply (i_next0 l1 m l2). congruence.
      * intros a x m. rewrite adds_set. destruct (Nat.eq_dec a t) as [->|N]; [discriminate|]. intros E. exfalso. apply N. apply i_one0; [apply adding_iff; eauto|rewrite H; exact I].
      * intros m X. destruct (i_all0 m X) as [Y|[a Y]]; [left; right; exact Y|]. destruct (Nat.eq_dec a t) as [->|N]; [left; left; rewrite H in Y; cbn in Y; congruence|right]. exists a. rewrite setn_ne by exact N. exact Y.
    + intros [= <-] O. prj. rewrite PH. exists pub. split; [apply (LI_th pub s _ t (A_zero c u)); auto; rewrite H; reflexivity|]. apply (SI_th pub s _ t (A_zero c u)); auto; [rewrite H; reflexivity|discriminate].
    + rewrite CL. intros [= <-] O. prj. rewrite PH. exists pub. split; [apply (LI_th pub s _ t (Use c u)); auto; rewrite H; reflexivity|]. apply (SI_th pub s _ t (Use c u)); auto; [rewrite H; reflexivity|discriminate].
    + rewrite CL. destruct u as [|v]; intros [= <-] O; prj; rewrite PH; exists pub; (split; [apply LI_log; apply (LI_th pub s _ t Idle); auto; rewrite H; reflexivity|]); apply (SI_th pub s _ t Idle); auto; solve [rewrite H; reflexivity|discriminate].
  - destruct (th s t) eqn:H; try discriminate. intros [= <-] O. prj. destruct (ph s).
    + destruct W as (pub & LV & SV). exists pub. split; [apply LI_log; exact LV|]. destruct SV. constructor; auto.
    + destruct W as (l & C & Z0). exists l. split; [destruct C; constructor; auto|destruct Z0; constructor; auto].
    + exact W.
  - unfold do_init. destruct (ph s); try discriminate. intros [= <-] O. prj. destruct V as (V1 & V2). exists []. split.
    + constructor; prj; try (intros; contradiction).
      * constructor.
      * apply setp_eq.
      * intros l1 n l2 E. destruct l1; discriminate.
      * intros l1 n l2 E. destruct l1; discriminate.
      * intros t c X. rewrite V1 in X. discriminate.
      * intros t c n X. rewrite V1 in X. discriminate.
      * intros t c n u [X|X]; rewrite V1 in X; discriminate.
      * intros t c n u X. rewrite V1 in X. discriminate.
    + constructor; auto; prj.
      * intros l1 n l2 E. destruct l1; discriminate.
      * intros t c n X. rewrite V1 in X. discriminate.
      * intros n X. destruct (W n). destruct X; congruence.
  - unfold do_fini. destruct (ph s); try discriminate. intros [= <-] O. prj. destruct W as (pub & LV & SV). exists pub. split.
    + destruct (LI_CI pub s LV (Q eq_refl)); constructor; prj; auto.
    + destruct SV. constructor; prj; auto; [apply LV|]. intros n X. destruct (i_all0 n X) as [Y|[a Y]]; [exact Y|]. rewrite (Q eq_refl) in Y. discriminate.
  - unfold do_round. destruct (ph s) eqn:P; try discriminate. destruct W as (l & C & Z0). destruct (nx s None) as [p|] eqn:N.
    + destruct (CI_round l s p C N) as (l1 & l2 & E & NL & CL & LN & PV & CC). rewrite NL, CL, LN, PV. cbn [live andb]. intros [= <-] O. prj. rewrite P. exists l2. rewrite <- P. split; [exact CC|].
      destruct Z0. assert (l1 = []). { rewrite z_head0 in N. destruct l1 as [|y l1]; [reflexivity|]. exfalso. rewrite E in N. cbn in N. assert (y = p) by congruence. subst y. assert (D := c_nd l s C). rewrite E in D. cbn in D. inversion D; subst. apply H1. apply in_or_app. right. left. reflexivity. }
      subst l1. cbn in E. constructor; prj.
      * rewrite setp_eq. apply (z_next0 [] p l2). exact E.
      * intros l3 n l4 E3. prj. rewrite setp_ne by discriminate. apply (z_next0 (p :: l3) n l4). cbn. congruence.
      * intros n X. destruct (Nat.eq_dec n p) as [->|M]; [rewrite !setn_eq in X; destruct X; discriminate|]. rewrite !setn_ne in X by exact M. assert (Y := z_all0 n X). rewrite E in Y. destruct Y; [congruence|assumption].
    + intros [= <-] O. prj. intros n. destruct Z0. destruct l as [|y l]; [|rewrite z_head0 in N; discriminate]. split; [destruct (nlive s n) eqn:X; [destruct (z_all0 n); auto|reflexivity]|destruct (clive s n) eqn:X; [destruct (z_all0 n); auto|reflexivity]].
Qed.
Lemma SINV_sreach s : sreach s -> SINV s.
Proof. induction 1 as [|s a s' R IH Q D O]; [intros n; split; reflexivity|]. eapply SINV_do; eauto. apply INV_reach. apply sreach_reach. exact R. Qed.

(** If no two threads use aosl_errno for the first time at the same time, k_errno_fini frees all cells and nodes ever allocated. *)
Theorem C62_all_freed_partial s : sreach s -> ph s = Down -> forall n, nlive s n = false /\ clive s n = false.
Proof. intros R P. assert (W := SINV_sreach s R). unfold SINV in W. rewrite P in W. exact W. Qed.

(** ** What the code does not provide *)
Local Open Scope nat_scope.
Lemma run_reach l : forall s s', reach s -> (forall a, In a l -> a <> Fini) -> run l s = Some s' -> reach s'.
Proof. induction l as [|a l IH]; intros s s' R N; cbn; [intros [= <-]; exact R|]. destruct (do a s) as [s1|] eqn:D; [|discriminate]. apply IH; [|intros; apply N; right; assumption]. eapply R_do; [exact R| |exact D]. intros ->. exfalso. eapply N; [left|]; reflexivity. Qed.
(** Two threads that fail for the first time at the same time: the cell and node of one are lost. *)
Definition race : list act := [Init; Begin 1 (Put 5); Begin 2 (Put 6); Step 1; Step 2] ++ repeat (Step 1) 7 ++ repeat (Step 2) 7.
Theorem C62_leak_refuted : exists s s' s'', reach s /\ quiet s /\ do Fini s = Some s' /\ rounds 2 s' = Some s'' /\ reach s'' /\ ph s'' = Down /\ nlive s'' 0 = true /\ clive s'' 0 = true.
Proof.
  destruct (run race start) as [s|] eqn:E; [|vm_compute in E; discriminate].
  assert (R : reach s) by (eapply run_reach; [constructor| |exact E]; intros a X ->; vm_compute in X; intuition discriminate).
  assert (Q : quiet s). { vm_compute in E. injection E as <-. intros t. cbn. repeat (destruct t as [|t]; [reflexivity|]). reflexivity. }
  destruct (do Fini s) as [s'|] eqn:E1; [|vm_compute in E; injection E as <-; vm_compute in E1; discriminate].
  assert (R1 : reach s') by (eapply R_do; eauto).
  destruct (rounds 2 s') as [s''|] eqn:E2; [|vm_compute in E; injection E as <-; vm_compute in E1; injection E1 as <-; vm_compute in E2; discriminate].
  exists s, s', s''. split; [exact R|]. split; [exact Q|]. split; [exact E1|]. split; [exact E2|]. split.
  { cbn [rounds] in E2. destruct (do Round s') as [x|] eqn:D1; [|discriminate]. destruct (do Round x) as [y|] eqn:D2; [|discriminate]. injection E2 as <-. eapply R_do; [eapply R_do; [exact R1| |exact D1]; discriminate| |exact D2]. discriminate. }
  vm_compute in E. injection E as <-. vm_compute in E1. injection E1 as <-. vm_compute in E2. injection E2 as <-. repeat split.
Qed.
(** A thread that gets the id of a thread that has ended starts with the error number of that thread. *)
Fixpoint expected_own (t : thread) (l : list ev) : Z :=
  match l with
  | [] => 0%Z
  | EPut u v :: l => if Nat.eqb u t then v else expected_own t l
  | EExit u :: l => if Nat.eqb u t then 0%Z else expected_own t l
  | EInit :: _ => 0%Z
  | EGet _ _ :: l => expected_own t l
  end.
Theorem C62_reused_id_refuted : exists s later t v earlier, reach s /\ log s = later ++ EGet t v :: earlier /\ v <> Some (expected_own t earlier).
Proof.
  set (l := [Init; Begin 1 (Put 5)] ++ repeat (Step 1) 8 ++ [Exit 1; Begin 1 Get; Step 1]).
  destruct (run l start) as [s|] eqn:E; [|vm_compute in E; discriminate].
  assert (R : reach s) by (eapply run_reach; [constructor| |exact E]; intros a X ->; vm_compute in X; intuition discriminate).
  exists s, [], 1, (Some 5%Z), [EExit 1; EPut 1 5; EInit]. split; [exact R|]. vm_compute in E. injection E as <-. split; [reflexivity|]. cbn. discriminate.
Qed.
(** If k_errno_fini is called while a thread is inside aosl_errno, freed memory may be used. *)
Theorem C62_fini_race_refuted : exists l s, run l start = Some s /\ bad s = true /\ (forall a, In a l -> a <> Exit 1).
Proof.
  set (l := [Init; Begin 1 (Put 5)] ++ repeat (Step 1) 8 ++ [Begin 1 Get; Fini; Round; Step 1]). exists l.
  destruct (run l start) as [s|] eqn:E; [|vm_compute in E; discriminate]. exists s. split; [reflexivity|]. vm_compute in E. injection E as <-. split; [reflexivity|]. intros a X ->. vm_compute in X. intuition discriminate.
Qed.

(** Two threads in turn, the end, a second start: both threads read back what they assigned, then 0; nothing is left. *)
Definition story : list act := [Init; Begin 1 (Put 5)] ++ repeat (Step 1) 8 ++ [Begin 2 Get] ++ repeat (Step 2) 8 ++ [Begin 1 Get; Step 1; Fini; Round; Round; Round; Init; Begin 1 Get] ++ repeat (Step 1) 8.
Lemma run_sreach l : forall s s', sreach s -> run l s = Some s' ->
  (forall l1 a l2 x y, l = l1 ++ a :: l2 -> run l1 s = Some x -> do a x = Some y -> (a = Fini -> quiet x) /\ one_adder y) -> sreach s'.
Proof.
  induction l as [|a l IH]; intros s s' R; cbn; [intros [= <-] _; exact R|]. destruct (do a s) as [s1|] eqn:D; [|discriminate]. intros E H.
  destruct (H [] a l s s1 eq_refl eq_refl D) as [H1 H2]. apply (IH s1); [eapply Q_do; eauto|exact E|]. intros l1 b l2 x y E1 E2 E3. apply (H (a :: l1) b l2); auto; [cbn; congruence|]. cbn. rewrite D. exact E2.
Qed.
Example C62_nonvacuous : exists s, sreach s /\ log s = [EGet 1 (Some 0%Z); EInit; EGet 1 (Some 5%Z); EGet 2 (Some 0%Z); EPut 1 5; EInit] /\ nlive s 0 = false /\ nlive s 1 = false /\ nlive s 2 = true.
Proof.
  destruct (run story start) as [s|] eqn:E; [|vm_compute in E; discriminate]. exists s. split.
  - apply (run_sreach story start s); [constructor|exact E|]. clear s E. intros l1 a l2 x y E X Y.
    assert (L : l1 = firstn (length l1) story) by (rewrite E, firstn_app, firstn_all, Nat.sub_diag, app_nil_r; reflexivity).
    assert (A : nth_error story (length l1) = Some a) by (rewrite E, nth_error_app2, Nat.sub_diag by lia; reflexivity).
    rewrite L in X. clear L E. revert X A. generalize (length l1) as k. intros k X A.
    do 60 (destruct k as [|k]; [vm_compute in X, A; injection X as <-; injection A as <-; vm_compute in Y; first [discriminate Y|injection Y as <-]; (split; [try discriminate; intros _ t; do 3 (destruct t as [|t]; [reflexivity|]); reflexivity|intros t u; do 3 (destruct t as [|t]; [do 3 (destruct u as [|u]; [cbn; tauto|]); cbn; tauto|]); cbn; tauto])|]; try (vm_compute in A; destruct k; discriminate A)).
  - vm_compute in E. injection E as <-. repeat split.
Qed.

Print Assumptions C62_private. Print Assumptions C62_no_use_after_free. Print Assumptions C62_not_up_aborts. Print Assumptions C62_fini_returns. Print Assumptions C62_all_freed_partial.
Print Assumptions C62_leak_refuted. Print Assumptions C62_reused_id_refuted. Print Assumptions C62_fini_race_refuted.
