(** * Timer queue: bookkeeping invariant and the public operations. *)
From Coq Require Import Sorting.Sorted Permutation.
From Verif Require Import Base Rbtree RbtreeProof RbtreeSpec RbtreeThms Timer TimerSpec TimerProof.

Record TB (s : tst) (rf : nat -> nat) : Prop := {
  tb_nodup : NoDup (t_all s);
  tb_in : forall a, In a (t_all s) -> exists n, t_cell s a = Some n /\ tn_installed n = true /\ tn_usage n = 1 + Z.of_nat (rf a);
  tb_out : forall a n, t_cell s a = Some n -> ~ In a (t_all s) ->
             tn_installed n = false /\ tn_usage n = Z.of_nat (rf a) /\ (0 < rf a)%nat;
  tb_none : forall a, t_cell s a = None -> rf a = 0%nat;
  tb_range : forall a n, t_cell s a = Some n -> 0 <= tn_expire n < 18446744073709551616 /\ interval_ok (tn_interval n);
  tb_uid : forall a n, t_cell s a = Some n -> (tn_uid n < t_uid s)%nat;
  tb_inj : forall a b n m, t_cell s a = Some n -> t_cell s b = Some m -> tn_uid n = tn_uid m -> a = b;
  tb_dead_nodup : NoDup (t_dtors s);
  tb_dead : forall u, In u (t_dtors s) -> (u < t_uid s)%nat /\ forall a n, t_cell s a = Some n -> tn_uid n <> u;
  tb_cover : forall u, (u < t_uid s)%nat -> In u (t_dtors s) \/ exists a n, t_cell s a = Some n /\ tn_uid n = u
}.
Definition TI (s : tst) (l : list nat) (rf : nat -> nat) : Prop :=
  TC s l /\ TB s rf /\ incl l (t_all s).

Lemma TI_len s l rf : TI s l rf -> (length l <= length (t_all s))%nat.
Proof. intros (HC & HB & HI). apply NoDup_incl_length; auto. eapply TC_nodup; eauto. Qed.

(** Same apart from pointers, arming number. *)
Definition book (n : tnode) : Z * Z * Z * bool * nat :=
  (tn_interval n, tn_expire n, tn_usage n, tn_installed n, tn_uid n).
Lemma TB_ext s s' rf :
  (forall x, option_map book (t_cell s' x) = option_map book (t_cell s x)) ->
  t_all s' = t_all s -> t_dtors s' = t_dtors s -> t_uid s' = t_uid s ->
  TB s rf -> TB s' rf.
Proof.
  intros HC Ha Hd Hu HB.
  assert (G : forall x n, t_cell s' x = Some n -> exists m, t_cell s x = Some m /\ book m = book n).
  { intros x n Hx. specialize (HC x). rewrite Hx in HC. destruct (t_cell s x) as [m|]; simpl in HC; [|discriminate].
    exists m. split; auto. unfold book in *. congruence. }
  assert (G' : forall x n, t_cell s x = Some n -> exists m, t_cell s' x = Some m /\ book m = book n).
  { intros x n Hx. specialize (HC x). rewrite Hx in HC. destruct (t_cell s' x) as [m|]; simpl in HC; [|discriminate].
    exists m. split; auto. unfold book in *. congruence. }
  constructor; rewrite ?Ha, ?Hd, ?Hu.
  - apply HB.
  - intros a Hin. destruct (tb_in _ _ HB a Hin) as (n & Hn & X1 & X2). destruct (G' _ _ Hn) as (m & Hm & [=]).
    exists m. intuition congruence.
  - intros a n Hn Hin. destruct (G _ _ Hn) as (m & Hm & [=]).
    destruct (tb_out _ _ HB a m Hm Hin) as (X1 & X2 & X3). intuition congruence.
  - intros a Hn. apply (tb_none _ _ HB). specialize (HC a). rewrite Hn in HC. destruct (t_cell s a); [discriminate|auto].
  - intros a n Hn. destruct (G _ _ Hn) as (m & Hm & [=]).
    pose proof (tb_range _ _ HB a m Hm). intuition congruence.
  - intros a n Hn. destruct (G _ _ Hn) as (m & Hm & [=]). replace (tn_uid n) with (tn_uid m) by congruence. eapply (tb_uid _ _ HB); eauto.
  - intros a b n m Hn Hm Hu'. destruct (G _ _ Hn) as (n0 & Hn0 & [=]). destruct (G _ _ Hm) as (m0 & Hm0 & [=]).
    eapply (tb_inj _ _ HB); eauto. congruence.
  - apply HB.
  - intros u Hi. destruct (tb_dead _ _ HB u Hi) as (X1 & X2). split; auto.
    intros a n Hn. destruct (G _ _ Hn) as (m & Hm & [=]). replace (tn_uid n) with (tn_uid m) by congruence. eauto.
  - intros u Hi. destruct (tb_cover _ _ HB u Hi) as [X|(a & n & Hn & X)]; auto.
    right. destruct (G' _ _ Hn) as (m & Hm & [=]). exists a, m. split; congruence.
Qed.
Lemma strip_book n n' : strip n' = strip n -> book n' = book n.
Proof. intros H. apply strip_fields in H. unfold book. intuition congruence. Qed.
Lemma same_info_book c c' : same_info c c' -> forall x, option_map book (c' x) = option_map book (c x).
Proof.
  intros H x. destruct (c x) as [n|] eqn:Hx.
  - destruct (same_info_some _ _ _ _ H Hx) as (n' & -> & Hs). simpl. f_equal. now apply strip_book.
  - rewrite (proj2 (same_info_none _ _ x H) Hx). reflexivity.
Qed.

(** Change interval / expiry of one timer. *)
Lemma TB_mod s a n n' rf : TB s rf -> t_cell s a = Some n ->
  tn_usage n' = tn_usage n -> tn_installed n' = tn_installed n -> tn_uid n' = tn_uid n ->
  0 <= tn_expire n' < 18446744073709551616 -> interval_ok (tn_interval n') ->
  TB (put_cell (cupd (t_cell s) a (Some n')) s) rf.
Proof.
  intros HB Hn E1 E2 E3 R1 R2.
  assert (G : forall x m, cupd (t_cell s) a (Some n') x = Some m -> exists m0, t_cell s x = Some m0 /\
    tn_usage m = tn_usage m0 /\ tn_installed m = tn_installed m0 /\ tn_uid m = tn_uid m0).
  { intros x m. unfold cupd. destruct (Nat.eqb_spec x a) as [->|]; [intros [= <-]; eauto|eauto]. }
  assert (G' : forall x m0, t_cell s x = Some m0 -> exists m, cupd (t_cell s) a (Some n') x = Some m /\
    tn_usage m = tn_usage m0 /\ tn_installed m = tn_installed m0 /\ tn_uid m = tn_uid m0).
  { intros x m. unfold cupd. destruct (Nat.eqb_spec x a) as [->|]; [rewrite Hn; intros [= <-]; eauto|eauto]. }
  constructor; cbn [t_all t_cell t_dtors t_uid put_cell].
  - apply HB.
  - intros x Hx. destruct (tb_in _ _ HB x Hx) as (m & Hm & X1 & X2). destruct (G' _ _ Hm) as (m' & Hm' & Y1 & Y2 & Y3).
    exists m'. intuition congruence.
  - intros x m Hm Hx. destruct (G _ _ Hm) as (m' & Hm' & Y1 & Y2 & Y3).
    destruct (tb_out _ _ HB x m' Hm' Hx) as (X1 & X2 & X3). intuition congruence.
  - intros x Hx. apply (tb_none _ _ HB). unfold cupd in Hx. destruct (Nat.eqb_spec x a); [discriminate|auto].
  - intros x m Hm. unfold cupd in Hm. destruct (Nat.eqb_spec x a); [injection Hm as <-; auto|eapply (tb_range _ _ HB); eauto].
  - intros x m Hm. destruct (G _ _ Hm) as (m' & Hm' & Y1 & Y2 & Y3). rewrite Y3. eapply (tb_uid _ _ HB); eauto.
  - intros x y m1 m2 H1 H2 E. destruct (G _ _ H1) as (m1' & K1 & Y1 & Y2 & Y3). destruct (G _ _ H2) as (m2' & K2 & Z1 & Z2 & Z3).
    eapply (tb_inj _ _ HB); eauto. congruence.
  - apply HB.
  - intros u Hi. destruct (tb_dead _ _ HB u Hi) as (X1 & X2). split; auto. intros x m Hm.
    destruct (G _ _ Hm) as (m' & Hm' & Y1 & Y2 & Y3). rewrite Y3. eauto.
  - intros u Hi. destruct (tb_cover _ _ HB u Hi) as [X|(x & m & Hm & X)]; auto. right.
    destruct (G' _ _ Hm) as (m' & Hm' & Y1 & Y2 & Y3). exists x, m'. split; congruence.
Qed.

Lemma TC_ext s s' l : TC s l -> t_rb s' = t_rb s -> t_cell s' = t_cell s -> t_first s' = t_first s ->
  t_serial s' = t_serial s -> TC s' l.
Proof.
  intros H E1 E2 E3 E4. destruct H. constructor; unfold serial_of, expire_of, before in *; rewrite ?E1, ?E2, ?E3, ?E4; auto.
  eapply before_ext; [|eassumption]. intros x _. unfold expire_of, serial_of. rewrite E2. auto.
Qed.
Lemma TC_mod s l a n n' : TC s l -> t_cell s a = Some n ->
  tn_next n' = tn_next n -> tn_prev n' = tn_prev n ->
  (In a l -> tn_expire n' = tn_expire n /\ tn_serial n' = tn_serial n) ->
  TC (put_cell (cupd (t_cell s) a (Some n')) s) l.
Proof.
  intros H Hn E1 E2 E3. destruct H.
  assert (X : forall x, In x l -> expire_of (put_cell (cupd (t_cell s) a (Some n')) s) x = expire_of s x /\
                        serial_of (put_cell (cupd (t_cell s) a (Some n')) s) x = serial_of s x).
  { intros x Hx. unfold expire_of, serial_of. cbn [t_cell put_cell]. unfold cupd.
    destruct (Nat.eqb_spec x a) as [->|]; auto. rewrite Hn. auto. }
  constructor; cbn [t_cell t_rb t_first t_serial put_cell]; auto.
  - eapply seg_frame; [eassumption|]. intros x m Hx Hm. unfold cupd. destruct (Nat.eqb_spec x a) as [->|].
    + exists n'. replace m with n by congruence. auto.
    + exists m. auto.
  - eapply before_ext; eauto.
  - intros x m Hm Hx. unfold cupd in Hm. destruct (Nat.eqb_spec x a) as [->|].
    + injection Hm as <-. rewrite E1. eauto.
    + eauto.
  - intros x. rewrite tc_dom. unfold cupd. destruct (Nat.eqb_spec x a) as [->|]; [|tauto]. rewrite Hn. split; discriminate.
  - intros x Hx. rewrite (proj2 (X x Hx)). auto.
Qed.

(** ** Effect on the other timers *)
Definition eff (a : nat) (s s' : tst) : Prop :=
  t_clk s' = t_clk s /\ (t_tick s <= t_tick s')%nat /\ t_held s' = t_held s /\
  (t_serial s <= t_serial s')%nat /\
  forall x, x <> a -> same_view s s' x.

Lemma same_view_refl s x : same_view s s x.
Proof. split; auto. destruct (t_cell s x); auto 6. Qed.
Lemma same_view_trans s s' s'' x : same_view s s' x -> same_view s' s'' x -> same_view s s'' x.
Proof.
  intros (H1 & H2) (H3 & H4). split; [congruence|].
  destruct (t_cell s x), (t_cell s' x), (t_cell s'' x); try tauto. intuition congruence.
Qed.
Lemma eff_refl a s : eff a s s.
Proof. split; [auto|]. split; [lia|]. split; [auto|]. split; [lia|]. intros. apply same_view_refl. Qed.
Lemma eff_trans a s s' s'' : eff a s s' -> eff a s' s'' -> eff a s s''.
Proof.
  intros (H1 & H2 & H3 & H4 & H5) (G1 & G2 & G3 & G4 & G5). split; [congruence|]. split; [lia|].
  split; [congruence|]. split; [lia|]. intros x Hx. eapply same_view_trans; eauto.
Qed.
Lemma active_in s l : TC s l -> forall x, timer_active s x = if in_dec Nat.eq_dec x l then true else false.
Proof.
  intros H x. destruct (in_dec Nat.eq_dec x l) as [Hi|Hi].
  - now apply (TC_active _ _ _ H).
  - destruct (timer_active s x) eqn:E; auto. apply (TC_active _ _ _ H) in E. tauto.
Qed.
Lemma same_view_in s s' l l' x : TC s l -> TC s' l' -> (In x l' <-> In x l) ->
  (option_map (fun n => (tn_interval n, tn_expire n, tn_installed n, tn_serial n, tn_uid n)) (t_cell s' x) =
   option_map (fun n => (tn_interval n, tn_expire n, tn_installed n, tn_serial n, tn_uid n)) (t_cell s x)) ->
  same_view s s' x.
Proof.
  intros H H' Hi E. split.
  - rewrite (active_in _ _ H), (active_in _ _ H').
    destruct (in_dec Nat.eq_dec x l), (in_dec Nat.eq_dec x l'); tauto.
  - destruct (t_cell s x), (t_cell s' x); simpl in E; try discriminate; auto. injection E as ? ? ? ? ?. auto 6.
Qed.
Lemma same_info_view c c' x : same_info c c' ->
  option_map (fun n => (tn_interval n, tn_expire n, tn_installed n, tn_serial n, tn_uid n)) (c' x) =
  option_map (fun n => (tn_interval n, tn_expire n, tn_installed n, tn_serial n, tn_uid n)) (c x).
Proof.
  intros H. destruct (c x) as [n|] eqn:Hx.
  - destruct (same_info_some _ _ _ _ H Hx) as (n' & -> & Hs). apply strip_fields in Hs. simpl. f_equal.
    intuition congruence.
  - rewrite (proj2 (same_info_none _ _ x H) Hx). reflexivity.
Qed.

(** ** cancel *)
Definition without (a : nat) (l : list nat) : list nat := filter (fun x => negb (Nat.eqb x a)) l.
Lemma without_in a l x : In x (without a l) <-> In x l /\ x <> a.
Proof. unfold without. rewrite filter_In, negb_true_iff, Nat.eqb_neq. tauto. Qed.
Lemma without_split a L R : NoDup (L ++ a :: R) -> without a (L ++ a :: R) = L ++ R.
Proof.
  intros ND. apply NoDup_remove in ND as (ND & Hn). unfold without. rewrite filter_app. simpl.
  rewrite Nat.eqb_refl. simpl. rewrite in_app_iff in Hn.
  rewrite !filter_all; auto; intros x Hx; apply negb_true_iff, Nat.eqb_neq; intros ->; tauto.
Qed.
Lemma without_notin a l : ~ In a l -> without a l = l.
Proof. intros H. apply filter_all. intros x Hx. apply negb_true_iff, Nat.eqb_neq. intros ->. auto. Qed.

Lemma is_linked_in s l a n : TC s l -> t_cell s a = Some n -> is_linked n = true <-> In a l.
Proof. intros H Hn. rewrite <- (TC_active _ _ a H). unfold timer_active. rewrite Hn. tauto. Qed.

Lemma cancel_on_q_ok s l a n : TC s l -> (length l <= length (t_all s))%nat -> t_cell s a = Some n ->
  tr (cancel_on_q a) s (fun _ s' => TC s' (without a l) /\ same_rest s s' /\ t_serial s' = t_serial s /\
    same_info (t_cell s) (t_cell s') /\ eff a s s').
Proof.
  intros HC Hlen Hn. unfold cancel_on_q. apply tr_bind. eapply tr_tld; [exact Hn|].
  destruct (is_linked n) eqn:Hl.
  - apply (is_linked_in _ _ _ _ HC Hn) in Hl. destruct (in_split _ _ Hl) as (L & R & ->).
    eapply tr_conseq; [eapply unlink_timer_ok; eauto|].
    intros _ s' (HC' & Hr & Hs & Hi & Ho).
    rewrite without_split by (eapply TC_nodup; eauto).
    split; [auto|]. split; [auto|]. split; [auto|]. split; [auto|].
    destruct Hr as (R1 & R2 & R3 & R4 & R5 & R6). split; [auto|]. split; [lia|]. split; [auto|]. split; [lia|].
    intros x Hx. eapply same_view_in; eauto using same_info_view.
    rewrite !in_app_iff. simpl. intuition congruence.
  - apply tr_ret. assert (Hi : ~ In a l) by (intros G; apply (is_linked_in _ _ _ _ HC Hn) in G; congruence).
    rewrite without_notin by auto. split; [exact HC|]. split; [repeat split; auto|]. split; [auto|].
    split; [apply same_info_refl|apply eff_refl].
Qed.

(** ** arming *)
Lemma insert_ok s l rf a n : TI s l rf -> ~ In a l -> In a (t_all s) -> t_cell s a = Some n ->
  tr (insert_timer a) s (fun _ s' => exists L R, l = L ++ R /\ TI s' (L ++ a :: R) rf /\ eff a s s' /\
    t_all s' = t_all s /\ t_dtors s' = t_dtors s /\ t_uid s' = t_uid s /\ t_tick s' = t_tick s /\
    t_serial s' = S (t_serial s) /\
    exists n', t_cell s' a = Some n' /\ tn_interval n' = tn_interval n /\ tn_expire n' = tn_expire n /\
      tn_usage n' = tn_usage n /\ tn_installed n' = tn_installed n /\ tn_uid n' = tn_uid n /\ tn_serial n' = t_serial s).
Proof.
  intros HI Hal Hin Hn. assert (Hlen := TI_len _ _ _ HI). destruct HI as (HC & HB & Hsub).
  eapply tr_conseq; [eapply insert_timer_ok; eauto|].
  intros _ s' (L & R & -> & HC' & HL & HR & Hr & Hs & Hi & Ho).
  destruct Hr as (R1 & R2 & R3 & R4 & R5 & R6).
  exists L, R. split; auto. split; [|split; [|split; [auto|split; [auto|split; [auto|split; [auto|split; [auto|]]]]]]].
  - split; [auto|]. split.
    + apply (TB_ext s); auto. intros x. rewrite (same_info_book _ _ Hi x). unfold cupd.
      destruct (Nat.eqb_spec x a) as [->|]; auto. rewrite Hn. reflexivity.
    + rewrite R1. intros x Hx. apply in_app_iff in Hx as [Hx|[<-|Hx]]; auto; apply Hsub; apply in_app_iff; auto.
  - split; [auto|]. split; [lia|]. split; [auto|]. split; [lia|]. intros x Hx.
    eapply same_view_in; eauto.
    + rewrite !in_app_iff. simpl. intuition congruence.
    + rewrite (same_info_view _ _ x Hi). rewrite cupd_neq; auto.
  - destruct (same_info_some _ _ a _ Hi (cupd_eq _ _ _)) as (n' & Hn' & Hst). exists n'. split; auto.
    apply strip_fields in Hst. destruct n; simpl in *. tauto.
Qed.

(** The expiry that scheduling with [e] gives a timer with interval [i]. *)
Definition sched_expiry (s : tst) (i e : Z) : Z :=
  if e =? 0 then (if i =? INVALID_INTERVAL then 18446744073709551615 else u64 (clock_at s (t_tick s) + i)) else e.

Lemma TI_mod s l rf a n n' : TI s l rf -> t_cell s a = Some n -> ~ In a l ->
  tn_next n' = tn_next n -> tn_prev n' = tn_prev n ->
  tn_usage n' = tn_usage n -> tn_installed n' = tn_installed n -> tn_uid n' = tn_uid n ->
  0 <= tn_expire n' < 18446744073709551616 -> interval_ok (tn_interval n') ->
  TI (put_cell (cupd (t_cell s) a (Some n')) s) l rf.
Proof.
  intros (HC & HB & Hs) Hn Hal E1 E2 E3 E4 E5 R1 R2. split; [|split].
  - eapply TC_mod; eauto. tauto.
  - eapply TB_mod; eauto.
  - exact Hs.
Qed.
Lemma eff_mod s l a n n' : TC s l -> t_cell s a = Some n ->
  eff a s (put_cell (cupd (t_cell s) a (Some n')) s).
Proof.
  intros HC Hn. split; [auto|]. split; [simpl; lia|]. split; [auto|]. split; [simpl; lia|].
  intros x Hx. unfold same_view, timer_active. cbn [t_cell put_cell]. rewrite cupd_neq by auto.
  split; auto. destruct (t_cell s x); auto 6.
Qed.

Lemma sched_ok s l rf a n e : TI s l rf -> ~ In a l -> In a (t_all s) -> t_cell s a = Some n ->
  0 <= e < 18446744073709551616 ->
  tr (sched_timer a e) s (fun _ s' => exists L R, l = L ++ R /\ TI s' (L ++ a :: R) rf /\ eff a s s' /\
    t_all s' = t_all s /\ t_dtors s' = t_dtors s /\ t_uid s' = t_uid s /\ t_serial s' = S (t_serial s) /\
    exists n', t_cell s' a = Some n' /\ tn_interval n' = (if e =? 0 then tn_interval n else INVALID_INTERVAL) /\
      tn_expire n' = sched_expiry s (tn_interval n) e /\
      tn_usage n' = tn_usage n /\ tn_installed n' = tn_installed n /\ tn_uid n' = tn_uid n /\ tn_serial n' = t_serial s).
Proof.
  intros HI Hal Hin Hn He. unfold sched_timer, sched_expiry. apply tr_bind.
  assert (Hrg := tb_range _ _ (proj1 (proj2 HI)) _ _ Hn).
  assert (Fin : forall s1 n1, TI s1 l rf -> eff a s s1 -> t_all s1 = t_all s -> t_dtors s1 = t_dtors s -> t_uid s1 = t_uid s ->
    t_serial s1 = t_serial s -> t_cell s1 a = Some n1 ->
    tn_interval n1 = (if e =? 0 then tn_interval n else INVALID_INTERVAL) ->
    tn_expire n1 = sched_expiry s (tn_interval n) e ->
    tn_usage n1 = tn_usage n -> tn_installed n1 = tn_installed n -> tn_uid n1 = tn_uid n ->
    tr (insert_timer a) s1 (fun _ s' => exists L R, l = L ++ R /\ TI s' (L ++ a :: R) rf /\ eff a s s' /\
    t_all s' = t_all s /\ t_dtors s' = t_dtors s /\ t_uid s' = t_uid s /\ t_serial s' = S (t_serial s) /\
    exists n', t_cell s' a = Some n' /\ tn_interval n' = (if e =? 0 then tn_interval n else INVALID_INTERVAL) /\
      tn_expire n' = sched_expiry s (tn_interval n) e /\
      tn_usage n' = tn_usage n /\ tn_installed n' = tn_installed n /\ tn_uid n' = tn_uid n /\ tn_serial n' = t_serial s)).
  { intros s1 n1 HI1 Ef Ea Ed Eu Es Hn1 X1 X2 X3 X4 X5. eapply tr_conseq; [eapply insert_ok; eauto; rewrite Ea; auto|].
    intros _ s' (L & R & -> & HI' & Ef' & Ea' & Ed' & Eu' & _ & Es' & n' & Hn' & Y1 & Y2 & Y3 & Y4 & Y5 & Y6).
    exists L, R. split; auto. split; auto. split; [eapply eff_trans; eauto|]. split; [congruence|]. split; [congruence|].
    split; [congruence|]. split; [congruence|]. exists n'. intuition congruence. }
  unfold sched_expiry in Fin.
  destruct (Z.eqb_spec e 0) as [He0|He0]; cbn [negb].
  - apply tr_bind. eapply tr_tld; [exact Hn|]. destruct (Z.eqb_spec (tn_interval n) INVALID_INTERVAL) as [Hi|Hi]; cbn [negb].
    + eapply tr_tmod; [exact Hn|]. eapply (Fin _ (with_expire 18446744073709551615 n)); auto.
      * eapply TI_mod; eauto; simpl; try tauto; lia.
      * eapply eff_mod; eauto. apply HI.
      * apply cupd_eq.
    + apply tr_bind. unfold tick_now, tr at 1. cbv beta iota.
      set (s1 := mkTS _ _ _ _ _ _ _ _ _ _).
      assert (HI1 : TI s1 l rf).
      { destruct HI as (HC & HB & Hs). split; [apply (TC_ext s); auto|]. split; [apply (TB_ext s); auto|exact Hs]. }
      assert (Ef1 : eff a s s1).
      { split; [auto|]. split; [simpl; lia|]. split; [auto|]. split; [simpl; lia|]. intros x Hx.
        split; auto. simpl. destruct (t_cell s x); auto 6. }
      eapply tr_tmod; [exact Hn|].
      eapply (Fin _ (with_expire (u64 (u64 (t_clk s (t_tick s)) + tn_interval n)) n)); auto.
      * eapply TI_mod; eauto; simpl; try tauto; apply u64_range.
      * eapply eff_trans; [exact Ef1|]. eapply eff_mod; eauto. apply HI1.
      * apply cupd_eq.
  - apply tr_bind. eapply tr_tmod; [exact Hn|].
    eapply tr_tmod; [apply cupd_eq|]. cbn [t_cell put_cell].
    assert (HI1 : TI (put_cell (cupd (t_cell s) a (Some (with_interval INVALID_INTERVAL n))) s) l rf).
    { eapply TI_mod; eauto; simpl; try tauto. right. auto. }
    eapply (Fin _ (with_expire e (with_interval INVALID_INTERVAL n))); auto.
    + eapply (TI_mod _ l rf a (with_interval INVALID_INTERVAL n) (with_expire e (with_interval INVALID_INTERVAL n)) HI1);
        simpl; auto. apply cupd_eq. right; auto.
    + eapply eff_trans; [eapply (eff_mod s l a n (with_interval INVALID_INTERVAL n)); eauto; apply HI|].
      eapply eff_mod; [apply HI1|]. apply cupd_eq.
    + apply cupd_eq.
Qed.
