(** * Timer queue: create, get, put, kill, reschedule. *)
From Coq Require Import Sorting.Sorted Permutation.
From Verif Require Import Base Rbtree RbtreeProof RbtreeErase RbtreeSpec RbtreeThms Timer TimerSpec TimerProof TimerThms.

Definition inc (rf : nat -> nat) (a : nat) : nat -> nat := fun x => if Nat.eqb x a then S (rf x) else rf x.
Definition dec (rf : nat -> nat) (a : nat) : nat -> nat := fun x => if Nat.eqb x a then Nat.pred (rf x) else rf x.
Lemma inc_eq rf a : inc rf a a = S (rf a).
Proof. unfold inc. now rewrite Nat.eqb_refl. Qed.
Lemma inc_neq rf a x : x <> a -> inc rf a x = rf x.
Proof. unfold inc. intros H. now rewrite (proj2 (Nat.eqb_neq _ _) H). Qed.
Lemma dec_eq rf a : dec rf a a = Nat.pred (rf a).
Proof. unfold dec. now rewrite Nat.eqb_refl. Qed.
Lemma dec_neq rf a x : x <> a -> dec rf a x = rf x.
Proof. unfold dec. intros H. now rewrite (proj2 (Nat.eqb_neq _ _) H). Qed.
Lemma dec_inc rf a x : dec (inc rf a) a x = rf x.
Proof. unfold dec, inc. destruct (Nat.eqb x a); auto. Qed.

Lemma TB_rf s rf rf' : (forall x, rf' x = rf x) -> TB s rf -> TB s rf'.
Proof.
  intros E HB. destruct HB. constructor; auto.
  - intros a Ha. rewrite E. auto.
  - intros a n. rewrite E. auto.
  - intros a. rewrite E. auto.
Qed.
Lemma TI_rf s l rf rf' : (forall x, rf' x = rf x) -> TI s l rf -> TI s l rf'.
Proof. intros E (H1 & H2 & H3). split; [auto|]. split; [eapply TB_rf; eauto|auto]. Qed.

(** Change only the usage count (and the reference assignment with it). *)
Lemma TB_usage s a n u rf rf' : TB s rf -> t_cell s a = Some n ->
  (forall x, x <> a -> rf' x = rf x) ->
  (In a (t_all s) -> u = 1 + Z.of_nat (rf' a)) -> (~ In a (t_all s) -> u = Z.of_nat (rf' a) /\ (0 < rf' a)%nat) ->
  TB (put_cell (cupd (t_cell s) a (Some (with_usage u n))) s) rf'.
Proof.
  intros HB Hn Er Ui Uo.
  constructor; cbn [t_all t_cell t_dtors t_uid put_cell].
  - apply HB.
  - intros x Hx. destruct (tb_in _ _ HB x Hx) as (m & Hm & X1 & X2). unfold cupd. destruct (Nat.eqb_spec x a) as [->|Hxa].
    + exists (with_usage u n). replace n with m in * by congruence. auto.
    + exists m. rewrite Er by auto. auto.
  - intros x m Hm Hx. unfold cupd in Hm. destruct (Nat.eqb_spec x a) as [->|Hxa].
    + injection Hm as <-. destruct (tb_out _ _ HB a n Hn Hx) as (X1 & X2 & X3). simpl. split; auto.
    + rewrite Er by auto. apply (tb_out _ _ HB x m); auto.
  - intros x Hx. destruct (Nat.eq_dec x a) as [E|Hxa]; [subst x; rewrite cupd_eq in Hx; discriminate|]. rewrite cupd_neq in Hx by auto. rewrite Er by auto. apply (tb_none _ _ HB); auto.
  - intros x m Hm. unfold cupd in Hm. destruct (Nat.eqb_spec x a) as [->|Hxa].
    + injection Hm as <-. apply (tb_range _ _ HB a n Hn). + apply (tb_range _ _ HB x m Hm).
  - intros x m Hm. unfold cupd in Hm. destruct (Nat.eqb_spec x a) as [->|Hxa].
    + injection Hm as <-. apply (tb_uid _ _ HB a n Hn). + apply (tb_uid _ _ HB x m Hm).
  - intros x y m1 m2 H1 H2 E. unfold cupd in *.
    destruct (Nat.eqb_spec x a) as [->|], (Nat.eqb_spec y a) as [->|]; auto.
    + injection H1 as <-. eapply (tb_inj _ _ HB); eauto.
    + injection H2 as <-. eapply (tb_inj _ _ HB); eauto.
    + eapply (tb_inj _ _ HB); eauto.
  - apply HB.
  - intros w Hi. destruct (tb_dead _ _ HB w Hi) as (X1 & X2). split; auto. intros x m Hm. unfold cupd in Hm.
    destruct (Nat.eqb_spec x a) as [->|Hxa]; eauto. injection Hm as <-. simpl. eauto.
  - intros w Hi. destruct (tb_cover _ _ HB w Hi) as [X|(x & m & Hm & X)]; auto. right.
    destruct (Nat.eq_dec x a) as [->|Hxa].
    + exists a, (with_usage u n). rewrite cupd_eq. split; auto. simpl. congruence.
    + exists x, m. rewrite cupd_neq; auto.
Qed.

Lemma view_put_cell s a n n' : t_cell s a = Some n -> tn_interval n' = tn_interval n -> tn_expire n' = tn_expire n ->
  tn_installed n' = tn_installed n -> tn_serial n' = tn_serial n -> tn_uid n' = tn_uid n -> tn_next n' = tn_next n ->
  same_view s (put_cell (cupd (t_cell s) a (Some n')) s) a.
Proof.
  intros Hn E1 E2 E3 E4 E5 E6. unfold same_view, timer_active. cbn [t_cell put_cell].
  rewrite cupd_eq, Hn. unfold is_linked. rewrite E6. auto 6.
Qed.

Lemma timer_get_ok s l rf a : TI s l rf ->
  tr (timer_get a) s (fun ok s' =>
    (ok = true /\ In a (t_all s) /\ TI s' l (inc rf a) /\ eff a s s' /\ same_view s s' a /\ t_all s' = t_all s /\
     t_dtors s' = t_dtors s /\ t_serial s' = t_serial s /\ t_tick s' = t_tick s) \/
    (ok = false /\ s' = s /\ ~ In a (t_all s))).
Proof.
  intros HI. unfold timer_get. destruct (t_cell s a) as [n|] eqn:Hn.
  - destruct (in_dec Nat.eq_dec a (t_all s)) as [Hi|Hi].
    + destruct (tb_in _ _ (proj1 (proj2 HI)) a Hi) as (m & Hm & X1 & X2). assert (m = n) by congruence. subst m.
      unfold tr. rewrite Hn, X1.
      change (tr (run tmod a (with_usage (tn_usage n + 1)); tret true) s (fun ok s' =>
        (ok = true /\ In a (t_all s) /\ TI s' l (inc rf a) /\ eff a s s' /\ same_view s s' a /\ t_all s' = t_all s /\
     t_dtors s' = t_dtors s /\ t_serial s' = t_serial s /\ t_tick s' = t_tick s) \/
        (ok = false /\ s' = s /\ ~ In a (t_all s)))).
      apply tr_bind. eapply tr_tmod; [exact Hn|]. apply tr_ret. left.
      destruct HI as (HC & HB & Hs). split; auto. split; auto. split; [|split; [|split; [|repeat split; reflexivity]]].
      * split; [eapply TC_mod; eauto|]. split; [|exact Hs].
        eapply TB_usage; eauto. -- intros x Hx. now apply inc_neq. -- intros _. rewrite inc_eq, X2. lia. -- tauto.
      * eapply eff_mod; eauto.
      * eapply view_put_cell; eauto.
    + unfold tr. rewrite Hn. destruct (tb_out _ _ (proj1 (proj2 HI)) a n Hn Hi) as (X1 & _). rewrite X1. right. auto.
  - unfold tr. rewrite Hn. right. split; auto. split; auto. intros Hi.
    destruct (tb_in _ _ (proj1 (proj2 HI)) a Hi) as (m & Hm & _). congruence.
Qed.

Lemma TC_free s l a : TC s l -> ~ In a l ->
  TC (put_cell (cupd (t_cell s) a None) (put_rb (with_cell (t_rb s) a None) s)) l.
Proof.
  intros H Ha. destruct H. set (s' := put_cell _ _).
  assert (X : forall x, In x l -> expire_of s' x = expire_of s x /\ serial_of s' x = serial_of s x).
  { intros x Hx. unfold expire_of, serial_of. cbn [t_cell put_cell s']. rewrite cupd_neq; auto. intros ->. auto. }
  constructor; cbn [t_cell t_rb t_first t_serial put_cell put_rb s']; auto.
  - destruct tc_tree as (t & m & F & R & I). exists t, m. split; auto. apply focus_with_cell; auto. simpl.
    rewrite occ_count, (proj1 (count_occ_not_In _ _ _)); auto. rewrite I. auto.
  - apply seg_other; auto.
  - eapply before_ext; eauto.
  - intros x m Hm Hx. unfold cupd in Hm. destruct (Nat.eqb_spec x a); [discriminate|eauto].
  - intros x. cbn [s_heap with_cell]. unfold hupd, cupd. destruct (Nat.eqb_spec x a); [tauto|apply tc_dom].
  - intros x Hx. rewrite (proj2 (X x Hx)). auto.
Qed.

Lemma timer_put_ok s l rf a : TI s l rf -> (0 < rf a)%nat ->
  tr (timer_put a) s (fun _ s' => TI s' l (dec rf a) /\ eff a s s' /\ t_all s' = t_all s /\
    t_tick s' = t_tick s /\ t_serial s' = t_serial s /\
    (In a (t_all s) -> same_view s s' a /\ t_dtors s' = t_dtors s) /\
    (~ In a (t_all s) -> timer_active s' a = false)).
Proof.
  intros HI Hr. assert (HB := proj1 (proj2 HI)).
  destruct (t_cell s a) as [n|] eqn:Hn; [|rewrite (tb_none _ _ HB a Hn) in Hr; lia].
  unfold timer_put. apply tr_bind. eapply tr_tld; [exact Hn|]. apply tr_bind. eapply tr_tmod; [exact Hn|].
  set (s1 := put_cell _ s).
  assert (Ef : eff a s s1) by (eapply eff_mod; [apply HI|eauto]).
  assert (TC1 : TC s1 l) by (eapply TC_mod; [apply HI|eauto|auto|auto|auto]).
  assert (Vw : same_view s s1 a) by (eapply view_put_cell; eauto).
  destruct (in_dec Nat.eq_dec a (t_all s)) as [Hi|Hi].
  - destruct (tb_in _ _ HB a Hi) as (m & Hm & X1 & X2). assert (m = n) by congruence. subst m.
    replace (tn_usage n - 1 =? 0) with false by lia. apply tr_ret.
    split; [|split; [auto|split; [auto|split; [auto|split; [auto|split; [intros _; split; [exact Vw|reflexivity]|tauto]]]]]].
    split; [auto|]. split; [|apply HI]. eapply TB_usage; eauto.
    + intros x Hx. now apply dec_neq. + intros _. rewrite dec_eq. lia. + tauto.
  - destruct (tb_out _ _ HB a n Hn Hi) as (X1 & X2 & X3).
    assert (Hal : ~ In a l) by (intros G; apply Hi; apply (proj2 (proj2 HI)); auto).
    destruct (Z.eqb_spec (tn_usage n - 1) 0) as [Hz|Hz].
    + unfold free_timer, tr. replace (t_cell s1 a) with (Some (with_usage (tn_usage n - 1) n)) by (symmetry; apply cupd_eq).
      assert (Hr1 : rf a = 1%nat) by lia.
      set (s2 := put_dtors _ _).
      assert (Hc2 : forall x, t_cell s2 x = if Nat.eqb x a then None else t_cell s x).
      { intros x. cbn [t_cell s2 put_dtors put_cell s1]. unfold cupd. destruct (Nat.eqb x a); auto. }
      assert (TC2 : TC s2 l).
      { apply (TC_ext (put_cell (cupd (t_cell s1) a None) (put_rb (with_cell (t_rb s1) a None) s1))); auto.
        apply TC_free; auto. }
      split; [|split; [|split; [auto|split; [auto|split; [auto|split; [tauto|]]]]]].
      * split; [auto|]. split; [|apply HI].
        constructor; cbn [t_all t_uid t_dtors s2 put_dtors put_cell put_rb s1].
        -- apply HB.
        -- intros x Hx. rewrite Hc2. destruct (Nat.eqb_spec x a) as [->|]; [tauto|]. rewrite dec_neq by auto. apply (tb_in _ _ HB); auto.
        -- intros x m Hm Hx. rewrite Hc2 in Hm. destruct (Nat.eqb_spec x a) as [->|]; [discriminate|].
           rewrite dec_neq by auto. apply (tb_out _ _ HB); auto.
        -- intros x Hx. rewrite Hc2 in Hx. destruct (Nat.eq_dec x a) as [E|].
           ++ subst x. rewrite dec_eq. lia. ++ rewrite (proj2 (Nat.eqb_neq _ _) n0) in Hx. rewrite dec_neq by auto. apply (tb_none _ _ HB); auto.
        -- intros x m Hm. rewrite Hc2 in Hm. destruct (Nat.eqb_spec x a); [discriminate|]. apply (tb_range _ _ HB x m Hm).
        -- intros x m Hm. rewrite Hc2 in Hm. destruct (Nat.eqb_spec x a); [discriminate|]. apply (tb_uid _ _ HB x m Hm).
        -- intros x y m1 m2 H1 H2. rewrite Hc2 in H1, H2. destruct (Nat.eqb_spec x a), (Nat.eqb_spec y a); try discriminate.
           eapply (tb_inj _ _ HB); eauto.
        -- constructor; [|apply HB]. intros G. apply (tb_dead _ _ HB) in G as (_ & G). eapply G; eauto.
        -- intros u [<-|Hu].
           ++ split; [apply (tb_uid _ _ HB a n Hn)|]. intros x m Hm E. rewrite Hc2 in Hm.
              destruct (Nat.eqb_spec x a); [discriminate|]. cbn in E. apply n0. eapply (tb_inj _ _ HB); eauto.
           ++ destruct (tb_dead _ _ HB u Hu) as (Y1 & Y2). split; auto. intros x m Hm. rewrite Hc2 in Hm.
              destruct (Nat.eqb_spec x a); [discriminate|eauto].
        -- intros u Hu. destruct (tb_cover _ _ HB u Hu) as [Y|(x & m & Hm & E)]; [left; right; auto|].
           destruct (Nat.eq_dec x a) as [->|Hxa].
           ++ left. left. cbn. congruence.
           ++ right. exists x, m. rewrite Hc2. rewrite (proj2 (Nat.eqb_neq _ _) Hxa). auto.
      * split; [auto|]. split; [simpl; lia|]. split; [auto|]. split; [simpl; lia|].
        intros x Hx. unfold same_view, timer_active. rewrite Hc2, (proj2 (Nat.eqb_neq _ _) Hx).
        split; auto. destruct (t_cell s x); auto 6.
      * intros _. unfold timer_active. rewrite Hc2, Nat.eqb_refl. reflexivity.
    + apply tr_ret. split; [|split; [auto|split; [auto|split; [auto|split; [auto|split; [tauto|]]]]]].
      * split; [auto|]. split; [|apply HI]. eapply TB_usage; eauto.
        -- intros x Hx. now apply dec_neq. -- tauto. -- intros _. rewrite dec_eq. lia.
      * intros _. rewrite (active_in _ _ TC1). destruct (in_dec Nat.eq_dec a l); tauto.
Qed.

(** ** create *)
Lemma create_ok s l rf a i : TI s l rf -> t_cell s a = None -> interval_ok i ->
  tr (create_on_q a i) s (fun _ s' => TI s' l rf /\ eff a s s' /\ t_all s' = t_all s ++ [a] /\
    ~ In a l /\ timer_active s' a = false /\ t_dtors s' = t_dtors s /\ t_serial s' = t_serial s /\ t_tick s' = t_tick s /\
    t_uid s' = S (t_uid s) /\
    exists n, t_cell s' a = Some n /\ tn_interval n = i /\ tn_uid n = t_uid s).
Proof.
  intros HI Hn Hi. unfold tr, create_on_q. set (s' := mkTS _ _ _ _ _ _ _ _ _ _).
  destruct HI as (HC & HB & Hs).
  assert (Hna : ~ In a (t_all s)) by (intros G; destruct (tb_in _ _ HB a G) as (m & Hm & _); congruence).
  assert (Hal : ~ In a l) by (intros G; auto).
  set (n0 := mkT LPoison LPoison i INVALID_INTERVAL 1 true (t_uid s) 0) in *.
  assert (Hc : forall x, t_cell s' x = if Nat.eqb x a then Some n0 else t_cell s x) by reflexivity.
  assert (HC' : TC s' l).
  { destruct HC.
    assert (X : forall x, In x l -> expire_of s' x = expire_of s x /\ serial_of s' x = serial_of s x).
    { intros x Hx. unfold expire_of, serial_of. rewrite Hc. destruct (Nat.eqb_spec x a); auto. subst. tauto. }
    constructor; cbn [t_rb t_first t_serial s']; auto.
    - destruct tc_tree as (t & m & F & R & I). exists t, m. split; auto. apply focus_with_cell; auto. simpl.
      rewrite occ_count, (proj1 (count_occ_not_In _ _ _)); auto. rewrite I. auto.
    - apply seg_other; auto.
    - eapply before_ext; eauto.
    - intros x m Hm Hx. rewrite Hc in Hm. destruct (Nat.eqb_spec x a); [injection Hm as <-; auto|eauto].
    - intros x. cbn [s_heap with_cell]. rewrite Hc. unfold hupd. destruct (Nat.eqb_spec x a); [split; discriminate|apply tc_dom].
    - intros x Hx. rewrite (proj2 (X x Hx)). auto. }
  split; [|split; [|split; [auto|split; [auto|split; [|split; [auto|split; [auto|split; [auto|split; [auto|]]]]]]]]].
  - split; [auto|]. split.
    + constructor; cbn [t_all t_uid t_dtors s'].
      * apply (NoDup_Add (a := a) (l := t_all s)); [rewrite <- (app_nil_r (t_all s)) at 1; apply Add_app|]. split; auto. apply HB.
      * intros x Hx. rewrite Hc. destruct (Nat.eqb_spec x a) as [->|].
        -- exists n0. rewrite (tb_none _ _ HB a Hn). auto.
        -- apply (tb_in _ _ HB). apply in_app_iff in Hx as [Hx|[Hx|[]]]; auto; congruence.
      * intros x m Hm Hx. rewrite Hc in Hm. rewrite in_app_iff in Hx. destruct (Nat.eqb_spec x a) as [->|].
        -- exfalso. apply Hx. right. left. auto.
        -- apply (tb_out _ _ HB); auto.
      * intros x Hx. rewrite Hc in Hx. destruct (Nat.eqb_spec x a); [discriminate|]. apply (tb_none _ _ HB); auto.
      * intros x m Hm. rewrite Hc in Hm. destruct (Nat.eqb_spec x a); [injection Hm as <-|apply (tb_range _ _ HB x m Hm)].
        simpl. split; [unfold INVALID_INTERVAL; lia|auto].
      * intros x m Hm. rewrite Hc in Hm. destruct (Nat.eqb_spec x a); [injection Hm as <-; simpl; lia|].
        pose proof (tb_uid _ _ HB x m Hm). lia.
      * intros x y m1 m2 H1 H2 E. rewrite Hc in H1, H2. destruct (Nat.eqb_spec x a), (Nat.eqb_spec y a); subst; auto.
        -- injection H1 as <-. simpl in E. pose proof (tb_uid _ _ HB y m2 H2). lia.
        -- injection H2 as <-. simpl in E. pose proof (tb_uid _ _ HB x m1 H1). lia.
        -- eapply (tb_inj _ _ HB); eauto.
      * apply HB.
      * intros u Hu. destruct (tb_dead _ _ HB u Hu) as (Y1 & Y2). split; [lia|]. intros x m Hm. rewrite Hc in Hm.
        destruct (Nat.eqb_spec x a); [injection Hm as <-; simpl; lia|eauto].
      * intros u Hu. destruct (Nat.eq_dec u (t_uid s)) as [->|Hne].
        -- right. exists a, n0. rewrite Hc, Nat.eqb_refl. auto.
        -- destruct (tb_cover _ _ HB u ltac:(lia)) as [Y|(x & m & Hm & E)]; auto. right. exists x, m. rewrite Hc.
           destruct (Nat.eqb_spec x a); [congruence|auto].
    + intros x Hx. cbn [t_all s']. apply in_app_iff. left. auto.
  - split; [auto|]. split; [simpl; lia|]. split; [auto|]. split; [simpl; lia|]. intros x Hx.
    unfold same_view, timer_active. rewrite Hc, (proj2 (Nat.eqb_neq _ _) Hx). split; auto. destruct (t_cell s x); auto 6.
  - rewrite (active_in _ _ HC'). destruct (in_dec Nat.eq_dec a l); tauto.
  - exists n0. rewrite Hc, Nat.eqb_refl. auto.
Qed.

(** ** cancel, reschedule, kill *)
Lemma cancel_TI s l rf a n : TI s l rf -> t_cell s a = Some n ->
  tr (cancel_on_q a) s (fun _ s' => TI s' (without a l) rf /\ eff a s s' /\ t_all s' = t_all s /\ t_dtors s' = t_dtors s /\
    t_tick s' = t_tick s /\ t_serial s' = t_serial s /\ t_uid s' = t_uid s /\
    exists n', t_cell s' a = Some n' /\ strip n' = strip n).
Proof.
  intros HI Hn. eapply tr_conseq; [apply (cancel_on_q_ok s l a n); auto; [apply HI|eapply TI_len; eauto]|].
  destruct HI as (HC & HB & Hs).
  intros _ s' (HC' & (R1 & R2 & R3 & R4 & R5 & R6) & Hse & Hi & Ef).
  split; [|split; [auto|split; [auto|split; [auto|split; [auto|split; [auto|split; [auto|]]]]]]].
  - split; [auto|]. split; [apply (TB_ext s); auto; apply same_info_book; auto|].
    intros x Hx. rewrite R1. apply without_in in Hx. apply Hs. tauto.
  - eapply same_info_some; eauto.
Qed.

Lemma resched_ok s l rf a n i e : TI s l rf -> In a (t_all s) -> t_cell s a = Some n -> interval_ok i ->
  0 <= e < 18446744073709551616 ->
  tr (resched_on_q a i e) s (fun _ s' => exists l', TI s' l' rf /\ In a l' /\ eff a s s' /\ t_all s' = t_all s /\
    t_dtors s' = t_dtors s /\ t_uid s' = t_uid s /\
    exists n', t_cell s' a = Some n' /\
      tn_interval n' = (if e =? 0 then (if i =? INVALID_INTERVAL then tn_interval n else i) else INVALID_INTERVAL) /\
      tn_expire n' = sched_expiry s (if i =? INVALID_INTERVAL then tn_interval n else i) e /\
      tn_installed n' = tn_installed n /\ tn_uid n' = tn_uid n /\ tn_serial n' = t_serial s).
Proof.
  intros HI Hin Hn Hiv He. unfold resched_on_q. apply tr_bind.
  eapply tr_conseq; [eapply cancel_TI; eauto|].
  intros _ s1 (HI1 & Ef1 & Ea1 & Ed1 & Et1 & Es1 & Eu1 & n1 & Hn1 & Hst1).
  apply strip_fields in Hst1.
  assert (Hnw : ~ In a (without a l)) by (rewrite without_in; tauto).
  assert (Hck : clock_at s1 (t_tick s1) = clock_at s (t_tick s)).
  { unfold clock_at. destruct Ef1 as (X & _). rewrite X, Et1. reflexivity. }
  apply tr_bind.
  assert (Fin : forall s2 n2, TI s2 (without a l) rf -> eff a s1 s2 -> t_all s2 = t_all s -> t_dtors s2 = t_dtors s -> t_uid s2 = t_uid s ->
     t_serial s2 = t_serial s -> clock_at s2 (t_tick s2) = clock_at s (t_tick s) -> t_cell s2 a = Some n2 ->
     (e = 0 -> tn_interval n2 = if i =? INVALID_INTERVAL then tn_interval n else i) -> tn_installed n2 = tn_installed n -> tn_uid n2 = tn_uid n ->
     tr (sched_timer a e) s2 (fun _ s' => exists l', TI s' l' rf /\ In a l' /\ eff a s s' /\ t_all s' = t_all s /\
    t_dtors s' = t_dtors s /\ t_uid s' = t_uid s /\
    exists n', t_cell s' a = Some n' /\
      tn_interval n' = (if e =? 0 then (if i =? INVALID_INTERVAL then tn_interval n else i) else INVALID_INTERVAL) /\
      tn_expire n' = sched_expiry s (if i =? INVALID_INTERVAL then tn_interval n else i) e /\
      tn_installed n' = tn_installed n /\ tn_uid n' = tn_uid n /\ tn_serial n' = t_serial s)).
  { intros s2 n2 HI2 Ef2 Ea2 Ed2 Eu2 Es2 Ec2 Hn2 X1 X2 X3. eapply tr_conseq.
    { eapply sched_ok; eauto. rewrite Ea2. auto. }
    intros _ s3 (L & R & Hl & HI3 & Ef3 & Ea3 & Ed3 & Eu3 & Es3 & n3 & Hn3 & Y1 & Y2 & Y3 & Y4 & Y5 & Y6).
    exists (L ++ a :: R). split; auto. split; [apply in_app_iff; right; left; auto|].
    split; [eapply eff_trans; [exact Ef1|eapply eff_trans; eauto]|]. split; [congruence|]. split; [congruence|]. split; [congruence|].
    exists n3. split; [auto|]. unfold sched_expiry in *. rewrite Ec2 in Y2.
    destruct (Z.eqb_spec e 0) as [E0|E0].
    - rewrite X1 in Y1, Y2 by auto. intuition congruence.
    - intuition congruence. }
  destruct (Z.eqb_spec e 0) as [E0|E0]; cbn [andb].
  - destruct (Z.eqb_spec i INVALID_INTERVAL) as [Ei|Ei]; cbn [negb].
    + apply tr_ret. eapply (Fin s1 n1); eauto using eff_refl. intuition congruence. intuition congruence. intuition congruence.
    + eapply tr_tmod; [exact Hn1|]. eapply (Fin _ (with_interval i n1)); auto.
      * eapply TI_mod; eauto. simpl. apply (tb_range _ _ (proj1 (proj2 HI1)) a n1 Hn1).
      * eapply eff_mod; eauto. apply HI1.
      * apply cupd_eq.
      * simpl. intuition congruence.
      * simpl. intuition congruence.
  - apply tr_ret. eapply (Fin s1 n1); eauto using eff_refl. intuition congruence. intuition congruence. intuition congruence.
Qed.

Lemma kill_ok s l rf a n : TI s l rf -> t_cell s a = Some n ->
  tr (kill_on_q a) s (fun r s' => eff a s s' /\ t_tick s' = t_tick s /\
    ((In a (t_all s) /\ r = 0 /\ TI s' (without a l) rf /\ t_all s' = without a (t_all s)) \/
     (~ In a (t_all s) /\ r = - AOSL_EINVAL /\ s' = s))).
Proof.
  intros HI Hn. assert (HB := proj1 (proj2 HI)). unfold kill_on_q. apply tr_bind. eapply tr_tld; [exact Hn|].
  destruct (in_dec Nat.eq_dec a (t_all s)) as [Hi|Hi].
  2:{ destruct (tb_out _ _ HB a n Hn Hi) as (X1 & _). rewrite X1. apply tr_ret. split; [apply eff_refl|]. split; auto. }
  destruct (tb_in _ _ HB a Hi) as (m & Hm & X1 & X2). assert (m = n) by congruence. subst m. rewrite X1.
  apply tr_bind. eapply tr_tmod; [exact Hn|]. set (s1 := put_cell _ s).
  assert (TC1 : TC s1 l) by (eapply TC_mod; [apply HI|eauto|auto|auto|auto]).
  apply tr_bind. eapply tr_conseq.
  { apply (cancel_on_q_ok s1 l a (with_installed false n)); auto.
    - change (t_all s1) with (t_all s). eapply TI_len; eauto. - apply cupd_eq. }
  intros _ s2 (TC2 & (R1 & R2 & R3 & R4 & R5 & R6) & Hse & Hinf & Ef2).
  apply tr_bind. unfold tr at 1. set (s3 := put_all _ s2).
  assert (Hall3 : t_all s3 = without a (t_all s)) by (cbn [s3 put_all t_all]; rewrite R1; reflexivity).
  destruct (same_info_some _ _ a _ Hinf (cupd_eq _ _ _)) as (n2 & Hn2 & Hst2). apply strip_fields in Hst2.
  destruct Hst2 as (S1 & S2 & S3 & S4 & S5 & S6). cbn [tn_interval tn_expire tn_usage tn_installed tn_uid tn_serial with_installed] in *.
  assert (TC3 : TC s3 (without a l)) by (apply (TC_ext s2); auto).
  assert (Ef3 : eff a s s3).
  { apply eff_trans with (s' := s1); [eapply eff_mod; [apply HI|eauto]|].
    apply eff_trans with (s' := s2); auto. split; [auto|]. split; [auto|]. split; [auto|]. split; [auto|].
    intros x _. split; [reflexivity|]. change (t_cell s3 x) with (t_cell s2 x). destruct (t_cell s2 x); auto 6. }
  assert (Hbk : forall x m, t_cell s3 x = Some m -> x <> a -> exists m0, t_cell s x = Some m0 /\ book m0 = book m).
  { intros x m Hm0 Hx. change (t_cell s3) with (t_cell s2) in Hm0. destruct (same_info_some' _ _ _ _ Hinf Hm0) as (m0 & Hm1 & Hst).
    unfold s1 in Hm1. cbn [t_cell put_cell] in Hm1. rewrite cupd_neq in Hm1 by auto. exists m0. split; auto. symmetry. now apply strip_book. }
  assert (Hbk' : forall x m, t_cell s x = Some m -> x <> a -> exists m0, t_cell s3 x = Some m0 /\ book m0 = book m).
  { intros x m Hm0 Hx. change (t_cell s3) with (t_cell s2). 
    destruct (same_info_some _ _ x m Hinf) as (m0 & Hm1 & Hst); [cbn [t_cell put_cell s1]; rewrite cupd_neq; auto|].
    exists m0. split; auto. now apply strip_book. }
  assert (TI3 : TI s3 (without a l) (inc rf a)).
  { split; [auto|]. split.
    - constructor; rewrite ?Hall3; cbn [t_uid t_dtors s3 put_all]; rewrite ?R4, ?R5; change (t_uid s1) with (t_uid s); change (t_dtors s1) with (t_dtors s).
      + apply NoDup_filter. apply HB.
      + intros x Hx. apply without_in in Hx as (Hx & Hxa). destruct (tb_in _ _ HB x Hx) as (m & Hm' & Y1 & Y2).
        destruct (Hbk' _ _ Hm' Hxa) as (m0 & Hm0 & [=]). exists m0. rewrite inc_neq by auto. intuition congruence.
      + intros x m Hm0 Hx. destruct (Nat.eq_dec x a) as [->|Hxa].
        * change (t_cell s3) with (t_cell s2) in Hm0. assert (m = n2) by congruence. subst m. rewrite inc_eq. split; [congruence|]. lia.
        * destruct (Hbk _ _ Hm0 Hxa) as (m0 & Hm1 & [=]). rewrite inc_neq by auto.
          destruct (tb_out _ _ HB x m0 Hm1) as (Y1 & Y2 & Y3); [intros G; apply Hx; apply without_in; auto|]. intuition congruence.
      + intros x Hx. destruct (Nat.eq_dec x a) as [->|Hxa]; [change (t_cell s3) with (t_cell s2) in Hx; congruence|].
        rewrite inc_neq by auto. apply (tb_none _ _ HB). destruct (t_cell s x) eqn:E; auto.
        destruct (Hbk' _ _ E Hxa) as (m0 & Hm0 & _). congruence.
      + intros x m Hm0. destruct (Nat.eq_dec x a) as [->|Hxa].
        * change (t_cell s3) with (t_cell s2) in Hm0. assert (m = n2) by congruence. subst m. rewrite S1, S2. apply (tb_range _ _ HB a n Hn).
        * destruct (Hbk _ _ Hm0 Hxa) as (m0 & Hm1 & [=]). pose proof (tb_range _ _ HB x m0 Hm1). intuition congruence.
      + intros x m Hm0. destruct (Nat.eq_dec x a) as [->|Hxa].
        * change (t_cell s3) with (t_cell s2) in Hm0. assert (m = n2) by congruence. subst m. rewrite S5. apply (tb_uid _ _ HB a n Hn).
        * destruct (Hbk _ _ Hm0 Hxa) as (m0 & Hm1 & [=]). replace (tn_uid m) with (tn_uid m0) by congruence. apply (tb_uid _ _ HB x m0 Hm1).
      + intros x y m1 m2 H1 H2 E. 
        assert (Q : forall z m, t_cell s3 z = Some m -> exists m0, t_cell s z = Some m0 /\ tn_uid m0 = tn_uid m).
        { intros z m Hz. destruct (Nat.eq_dec z a) as [->|Hza].
          - change (t_cell s3) with (t_cell s2) in Hz. exists n. split; auto. congruence.
          - destruct (Hbk _ _ Hz Hza) as (m0 & Hm1 & [=]). exists m0. auto. }
        destruct (Q _ _ H1) as (k1 & K1 & E1). destruct (Q _ _ H2) as (k2 & K2 & E2). eapply (tb_inj _ _ HB); eauto. congruence.
      + apply HB.
      + intros u Hu. destruct (tb_dead _ _ HB u Hu) as (Y1 & Y2). split; auto. intros x m Hm0.
        destruct (Nat.eq_dec x a) as [->|Hxa].
        * change (t_cell s3) with (t_cell s2) in Hm0. assert (m = n2) by congruence. subst m. rewrite S5. eauto.
        * destruct (Hbk _ _ Hm0 Hxa) as (m0 & Hm1 & [=]). replace (tn_uid m) with (tn_uid m0) by congruence. eauto.
      + intros u Hu. destruct (tb_cover _ _ HB u Hu) as [Y|(x & m & Hm0 & E)]; auto. right.
        destruct (Nat.eq_dec x a) as [->|Hxa].
        * exists a, n2. change (t_cell s3) with (t_cell s2). split; auto. congruence.
        * destruct (Hbk' _ _ Hm0 Hxa) as (m0 & Hm1 & [=]). exists x, m0. split; auto. congruence.
    - rewrite Hall3. intros x Hx. apply without_in in Hx as (Hx & Hxa). apply without_in. split; auto. apply (proj2 (proj2 HI)); auto. }
  apply tr_bind. eapply tr_conseq; [apply (timer_put_ok s3 _ _ a TI3); rewrite inc_eq; lia|].
  intros _ s4 (TI4 & Ef4 & Ea4 & Et4 & _). apply tr_ret.
  split; [eapply eff_trans; eauto|]. split; [rewrite Et4; cbn [s3 put_all t_tick]; rewrite R3; reflexivity|].
  left. split; auto. split; auto. split; [|congruence].
  eapply TI_rf; [|exact TI4]. intros x. now rewrite dec_inc.
Qed.
