(** * Timer queue: running the queue, histories. *)
From Coq Require Import Sorting.Sorted Permutation.
From Verif Require Import Base Rbtree RbtreeProof RbtreeErase RbtreeSpec RbtreeThms Timer TimerSpec TimerProof TimerThms TimerOps TimerApi.

Lemma fire_head_ok s a l rf now n : TI s (a :: l) rf -> t_cell s a = Some n ->
  tr (fire_head now a) s (fun _ s' => exists l', TI s' l' rf /\ eff a s s' /\ t_dtors s' = t_dtors s /\
    exists n', t_cell s' a = Some n' /\ tn_interval n' = tn_interval n /\ tn_installed n' = tn_installed n /\ tn_uid n' = tn_uid n /\
    ((tn_interval n = INVALID_INTERVAL /\ timer_active s' a = false /\ tn_expire n' = tn_expire n /\ t_tick s' = t_tick s) \/
     (tn_interval n <> INVALID_INTERVAL /\ timer_active s' a = true /\ t_tick s' = S (t_tick s) /\
      tn_serial n' = t_serial s /\ (t_serial s < t_serial s')%nat /\
      tn_expire n' = u64 (clock_at s (t_tick s) + tn_interval n - (now - tn_expire n))))).
Proof.
  intros HI Hn. assert (Hlen := TI_len _ _ _ HI). destruct HI as (HC & HB & Hs).
  assert (Hin : In a (t_all s)) by (apply Hs; left; auto).
  unfold fire_head. apply tr_bind. eapply tr_conseq; [apply (unlink_timer_ok s [] l a); auto|].
  intros _ s1 (HC1 & (R1 & R2 & R3 & R4 & R5 & R6) & Hs1 & Hi1 & Ho1). simpl in HC1.
  assert (ND := TC_nodup _ _ HC). inversion ND as [|? ? Hal ND']; subst.
  assert (HI1 : TI s1 l rf).
  { split; [auto|]. split; [apply (TB_ext s); auto; apply same_info_book; auto|]. rewrite R1. intros x Hx. apply Hs. right. auto. }
  assert (Ef1 : eff a s s1).
  { split; [auto|]. split; [lia|]. split; [auto|]. split; [lia|]. intros x Hx.
    eapply same_view_in; eauto using same_info_view. simpl. intuition congruence. }
  destruct (same_info_some _ _ a n Hi1 Hn) as (n1 & Hn1 & Hst). apply strip_fields in Hst.
  destruct Hst as (S1 & S2 & S3 & S4 & S5 & S6).
  apply tr_bind. eapply tr_tld; [exact Hn1|]. rewrite S1. destruct (Z.eqb_spec (tn_interval n) INVALID_INTERVAL) as [Ei|Ei]; cbn [negb].
  - apply tr_ret. exists l. split; auto. split; auto. split; auto. exists n1. split; auto. split; auto. split; auto. split; auto.
    left. split; auto. split; [|auto]. rewrite (active_in _ _ HC1). destruct (in_dec Nat.eq_dec a l); tauto.
  - apply tr_bind. unfold tick_now, tr at 1. cbv beta iota. set (s2 := mkTS _ _ _ _ _ _ _ _ _ _).
    assert (HI2 : TI s2 l rf) by (eapply (TI_ext s1); eauto).
    assert (Ef2 : eff a s1 s2).
    { split; [auto|]. split; [simpl; lia|]. split; [auto|]. split; [simpl; lia|]. intros x Hx. now apply same_view_cell. }
    apply tr_bind. eapply tr_tmod; [exact Hn1|]. set (e' := u64 _). set (s3 := put_cell _ s2).
    assert (HI3 : TI s3 l rf).
    { eapply (TI_mod s2 l rf a n1 (with_expire e' n1)); eauto. simpl. apply u64_range.
      simpl. rewrite S1. apply (tb_range _ _ HB a n Hn). }
    assert (Ef3 : eff a s2 s3) by (eapply eff_mod; [apply HI2|exact Hn1]).
    eapply tr_conseq; [apply (insert_ok s3 l rf a (with_expire e' n1)); auto; [cbn; rewrite R1; auto|apply cupd_eq]|].
    intros _ s4 (L & R & -> & HI4 & Ef4 & Ea4 & Ed4 & Eu4 & Et4 & Es4 & n4 & Hn4 & Y1 & Y2 & Y3 & Y4 & Y5 & Y6).
    exists (L ++ a :: R). split; auto.
    split; [eapply eff_trans; [exact Ef1|]; eapply eff_trans; [exact Ef2|]; eapply eff_trans; eauto|].
    split; [rewrite Ed4; exact R4|]. exists n4. split; auto. cbn in Y1, Y2, Y3, Y4, Y5. split; [congruence|]. split; [congruence|].
    split; [congruence|]. right. split; auto.
    split; [apply (TC_active _ _ _ (proj1 HI4)), in_app_iff; right; left; auto|].
    split; [rewrite Et4; cbn; congruence|]. split; [rewrite Y6; exact Hs1|]. split; [rewrite Es4; cbn; lia|].
    rewrite Y2. unfold e', clock_at. rewrite R2, R3, S2. reflexivity.
Qed.

(** ** The run *)
Inductive fires (cb : nat -> nat -> list cop) (now : Z) : nat -> tst -> list firing -> tst -> Prop :=
| fires_nil i s : fires cb now i s [] s
| fires_cons i s a s1 s2 fs s' :
    earliest s a -> time_after_eq now (expire_of s a) = true ->
    fire_head now a s = Ok (tt, s1) -> exec_cops (cb i a) s1 = Ok (tt, s2) ->
    fires cb now (S i) s2 fs s' -> fires cb now i s (mkF a s s1 :: fs) s'.

Lemma TC_earliest s l a : TC s l -> (earliest s a <-> exists l', l = a :: l').
Proof.
  intros H. assert (S := tc_sorted _ _ H). split.
  - intros (Ha & Hb). apply (TC_active _ _ _ H) in Ha. destruct l as [|x l]; [destruct Ha|].
    destruct (Nat.eq_dec x a) as [->|Hne]; [eauto|]. exfalso.
    destruct Ha as [->|Ha]; [congruence|]. inversion S as [|? ? S' F]; subst. rewrite Forall_forall in F.
    specialize (F _ Ha). assert (G : before s a x) by (apply Hb; auto; apply (TC_active _ _ _ H); left; auto).
    unfold before in *. lia.
  - intros (l' & ->). split; [apply (TC_active _ _ _ H); left; auto|]. intros b Hb Hne. apply (TC_active _ _ _ H) in Hb.
    destruct Hb as [->|Hb]; [congruence|]. inversion S as [|? ? S' F]; subst. rewrite Forall_forall in F. auto.
Qed.
Lemma expire_of_cell s a n : t_cell s a = Some n -> expire_of s a = tn_expire n.
Proof. intros H. unfold expire_of. now rewrite H. Qed.

Definition nothing_due (now : Z) (s : tst) : Prop :=
  forall a, earliest s a -> time_after_eq now (expire_of s a) = false.

Lemma fire_head_TIh s a now : TIh s -> earliest s a ->
  exists n, t_cell s a = Some n /\ tr (fire_head now a) s (fun _ s' => TIh s' /\ eff a s s' /\ t_dtors s' = t_dtors s /\
    exists n', t_cell s' a = Some n' /\ tn_interval n' = tn_interval n /\ tn_installed n' = tn_installed n /\ tn_uid n' = tn_uid n /\
    ((tn_interval n = INVALID_INTERVAL /\ timer_active s' a = false /\ tn_expire n' = tn_expire n /\ t_tick s' = t_tick s) \/
     (tn_interval n <> INVALID_INTERVAL /\ timer_active s' a = true /\ t_tick s' = S (t_tick s) /\
      tn_serial n' = t_serial s /\ (t_serial s < t_serial s')%nat /\
      tn_expire n' = u64 (clock_at s (t_tick s) + tn_interval n - (now - tn_expire n))))).
Proof.
  intros (l & HI) He. apply (TC_earliest _ _ _ (proj1 HI)) in He as (l' & ->).
  destruct (TC_cell _ _ a (proj1 HI) (or_introl eq_refl)) as (n & Hn & _). exists n. split; auto.
  eapply tr_conseq; [eapply fire_head_ok; eauto|]. intros _ s' (l2 & H1 & H2 & H3).
  split; [exists l2; destruct H2 as (_ & _ & -> & _); auto|]. auto.
Qed.

Lemma run_loop_ok cb now : (forall i a, Forall cop_ok (cb i a)) -> forall loops i s, TIh s ->
  tr (run_loop cb now loops i) s (fun r s' => TIh s' /\ fires cb now i s (snd r) s' /\
    (fst r = true -> nothing_due now s') /\ (fst r = false -> length (snd r) = loops)).
Proof.
  intros Hcb. induction loops as [|loops IH]; intros i s HT; assert (HT' := HT); destruct HT' as (l & HI);
    assert (Hf := tc_first _ _ (proj1 HI)); cbn [run_loop].
  - unfold tr. rewrite Hf. destruct l as [|a l]; simpl hd_error; cbv iota.
    { split; [auto|]. split; [constructor|]. split; [|discriminate]. intros _ b Hb. apply (TC_earliest _ _ _ (proj1 HI)) in Hb as (? & [=]). }
    destruct (TC_cell _ _ a (proj1 HI) (or_introl eq_refl)) as (n & Hn & _).
    unfold tbind, tld, bind. rewrite Hn. destruct (time_after_eq now (tn_expire n)) eqn:E; unfold tret; cbn.
    + split; [auto|]. split; [constructor|]. split; auto. discriminate.
    + split; [auto|]. split; [constructor|]. split; [|discriminate]. intros _ b Hb.
      apply (TC_earliest _ _ _ (proj1 HI)) in Hb as (? & [= <- <-]). rewrite (expire_of_cell _ _ _ Hn). auto.
  - destruct l as [|a l].
    { unfold tr. rewrite Hf. simpl. split; [auto|]. split; [constructor|]. split; [|discriminate].
      intros _ b Hb. apply (TC_earliest _ _ _ (proj1 HI)) in Hb as (? & [=]). }
    destruct (TC_cell _ _ a (proj1 HI) (or_introl eq_refl)) as (n & Hn & _).
    assert (He : earliest s a) by (apply (TC_earliest _ _ _ (proj1 HI)); eauto).
    unfold tr. rewrite Hf. simpl hd_error. cbv iota.
    change (tr (do n <- tld a;
       if time_after_eq now (tn_expire n) then
         run fire_head now a;
         fun s1 =>
         (run exec_cops (cb i a);
          do r <- run_loop cb now loops (S i);
          tret (fst r, mkF a s s1 :: snd r)) s1
       else tret (true, [])) s (fun r s' => TIh s' /\ fires cb now i s (snd r) s' /\
       (fst r = true -> nothing_due now s') /\ (fst r = false -> length (snd r) = S loops))).
    apply tr_bind. eapply tr_tld; [exact Hn|]. destruct (time_after_eq now (tn_expire n)) eqn:E.
    + apply tr_bind. destruct (fire_head_TIh s a now HT He) as (n0 & _ & Hfh).
      destruct (tr_ok _ _ _ Hfh) as (u & s1 & Hr & HT1 & _). destruct u. unfold tr at 1. rewrite Hr.
      unfold tr. destruct (tr_ok _ _ _ (exec_cops_ok (cb i a) s1 HT1 (Hcb i a))) as (u & s2 & Hr2 & HT2 & _). destruct u.
      unfold tbind at 1. unfold bind. rewrite Hr2.
      specialize (IH (S i) s2 HT2). unfold tbind, bind, tret. unfold tr in IH.
      destruct (run_loop cb now loops (S i) s2) as [[r s3]| | ]; auto. cbn [fst snd].
      destruct IH as (I1 & I2 & I3 & I4). split; auto. split; [|split; auto; intros G; cbn; f_equal; auto].
      econstructor; eauto. rewrite (expire_of_cell _ _ _ Hn). auto.
    + apply tr_ret. cbn. split; [auto|]. split; [constructor|]. split; [|discriminate]. intros _ b Hb.
      apply (TC_earliest _ _ _ (proj1 HI)) in Hb as (? & [= <- <-]). rewrite (expire_of_cell _ _ _ Hn). auto.
Qed.

Definition with_tick (k : nat) (s : tst) : tst :=
  mkTS (t_rb s) (t_cell s) (t_first s) (t_all s) (t_clk s) k (t_dtors s) (t_serial s) (t_uid s) (t_held s).
Lemma with_tick_TIh k s : TIh s -> TIh (with_tick k s).
Proof. intros (l & HI). exists l. eapply (TI_ext s); eauto. Qed.
Lemma run_timers_ok cb loops s : (forall i a, Forall cop_ok (cb i a)) -> TIh s ->
  tr (run_timers cb loops) s (fun r s' => TIh s' /\
    fires cb (clock_at s (t_tick s)) 0 (with_tick (S (t_tick s)) s) (snd r) s' /\
    (fst r = true -> nothing_due (clock_at s (t_tick s)) s') /\ (fst r = false -> length (snd r) = loops)).
Proof.
  intros Hcb HT. unfold run_timers. apply tr_bind. unfold tick_now, tr at 1. cbv beta iota.
  apply (run_loop_ok cb _ Hcb loops 0 (with_tick (S (t_tick s)) s)). now apply with_tick_TIh.
Qed.

(** ** What one iteration of the run does *)
Lemma fires_step (cb : nat -> nat -> list cop) now i s a s1 s2 : (forall i a, Forall cop_ok (cb i a)) -> TIh s -> earliest s a ->
  fire_head now a s = Ok (tt, s1) -> exec_cops (cb i a) s1 = Ok (tt, s2) ->
  TIh s1 /\ TIh s2 /\ eff a s s1 /\ cops_post (cb i a) s1 s2 /\
  exists n n', t_cell s a = Some n /\ t_cell s1 a = Some n' /\ tn_interval n' = tn_interval n /\ tn_installed n' = tn_installed n /\ tn_uid n' = tn_uid n /\
    ((tn_interval n = INVALID_INTERVAL /\ timer_active s1 a = false /\ tn_expire n' = tn_expire n /\ t_tick s1 = t_tick s) \/
     (tn_interval n <> INVALID_INTERVAL /\ timer_active s1 a = true /\ t_tick s1 = S (t_tick s) /\
      tn_serial n' = t_serial s /\ (t_serial s < t_serial s1)%nat /\
      tn_expire n' = u64 (clock_at s (t_tick s) + tn_interval n - (now - tn_expire n)))).
Proof.
  intros Hcb HT He H1 H2. destruct (fire_head_TIh s a now HT He) as (n & Hn & Hfh).
  unfold tr in Hfh. rewrite H1 in Hfh. destruct Hfh as (HT1 & Ef & _ & n' & Hn' & X).
  pose proof (exec_cops_ok (cb i a) s1 HT1 (Hcb i a)) as Hc. unfold tr in Hc. rewrite H2 in Hc.
  split; auto. split; [apply Hc|]. split; auto. split; auto. exists n, n'. tauto.
Qed.
Lemma fires_TIh (cb : nat -> nat -> list cop) now : (forall i a, Forall cop_ok (cb i a)) -> forall i s fs s', fires cb now i s fs s' -> TIh s ->
  TIh s' /\ cle s s'.
Proof.
  intros Hcb i s fs s' H. induction H as [|i s a s1 s2 fs s' He Hd H1 H2 HF IH]; intros HT; [split; auto using cle_refl|].
  destruct (fires_step _ _ _ _ _ _ _ Hcb HT He H1 H2) as (HT1 & HT2 & Ef & Hc & _).
  destruct (IH HT2) as (IH1 & IH2). split; auto. eapply cle_trans; [eapply eff_cle; eauto|]. eapply cle_trans; [apply Hc|auto].
Qed.
Lemma fires_forall cb now i s fs s' : fires cb now i s fs s' ->
  Forall (fun f => earliest (f_picked f) (f_timer f) /\ time_after_eq now (expire_of (f_picked f) (f_timer f)) = true) fs.
Proof. induction 1; constructor; auto. Qed.

(** An inactive timer that no callback arms is not fired and stays inactive. *)
Lemma kept_inactive' s s' x : kept s s' x -> timer_active s x = false -> timer_active s' x = false.
Proof. intros K H. destruct (timer_active s' x) eqn:E; auto. destruct (K E) as (V & _). congruence. Qed.
Lemma fires_inactive (cb : nat -> nat -> list cop) now b : (forall i a, Forall cop_ok (cb i a)) -> (forall i a, arms_on b (cb i a) = false) ->
  forall i s fs s', fires cb now i s fs s' -> TIh s -> timer_active s b = false ->
  timer_active s' b = false /\ ~ In b (map f_timer fs).
Proof.
  intros Hcb Hb i s fs s' H. induction H as [|i s a s1 s2 fs s' He Hd H1 H2 HF IH]; intros HT Hn; [auto|].
  destruct (fires_step _ _ _ _ _ _ _ Hcb HT He H1 H2) as (HT1 & HT2 & Ef & Hc & _).
  assert (Hab : b <> a) by (intros ->; destruct He; congruence).
  assert (N1 : timer_active s1 b = false). { destruct (proj2 (proj2 (proj2 (proj2 Ef))) b Hab) as (V & _). congruence. }
  assert (N2 : timer_active s2 b = false). { eapply kept_inactive'; [apply Hc|]; auto. }
  destruct (IH HT2 N2) as (I1 & I2). split; auto. simpl. intros [G|G]; auto.
Qed.

(** A one-shot timer that no callback touches: fires at most once; exactly
    once if it was active and the run went on until nothing was due. *)
Lemma fires_oneshot (cb : nat -> nat -> list cop) now b : (forall i a, Forall cop_ok (cb i a)) -> (forall i a, touches b (cb i a) = false) ->
  forall i s fs s', fires cb now i s fs s' -> TIh s -> timer_active s b = true ->
  (exists n, t_cell s b = Some n /\ tn_interval n = INVALID_INTERVAL) ->
  (count_occ Nat.eq_dec (map f_timer fs) b = 1%nat /\ timer_active s' b = false) \/
  (~ In b (map f_timer fs) /\ same_view s s' b).
Proof.
  intros Hcb Hb i s fs s' H.
  assert (Harm : forall i a, arms_on b (cb i a) = false).
  { intros i' a'. specialize (Hb i' a'). unfold arms_on, touches in *. induction (cb i' a') as [|c l IH]; auto.
    simpl in *. apply orb_false_iff in Hb as (B1 & B2). rewrite B1, andb_false_r. simpl. auto. }
  induction H as [|i s a s1 s2 fs s' He Hd H1 H2 HF IH]; intros HT Ha (n & Hn & Hi); [right; split; [auto|apply same_view_refl]|].
  destruct (fires_step _ _ _ _ _ _ _ Hcb HT He H1 H2) as (HT1 & HT2 & Ef & Hc & n0 & n1 & Hn0 & Hn1 & X1 & X2 & X3 & X4).
  destruct (Nat.eq_dec a b) as [->|Hab].
  - left. assert (n0 = n) by congruence. subst n0. destruct X4 as [(_ & Na & _)|(G & _)]; [|congruence].
    assert (N2 : timer_active s2 b = false) by (eapply kept_inactive'; [apply Hc|]; auto).
    destruct (fires_inactive cb now b Hcb Harm _ _ _ _ HF HT2 N2) as (I1 & I2). split; auto.
    simpl. destruct (Nat.eq_dec b b); [|congruence]. f_equal. now apply count_occ_not_In.
  - assert (V1 : same_view s s2 b).
    { eapply same_view_trans; [apply (proj2 (proj2 (proj2 (proj2 Ef)))); auto|]. apply (proj1 (proj2 (proj2 Hc))). auto. }
    destruct V1 as (Va & Vc). rewrite Hn in Vc. destruct (t_cell s2 b) as [m|] eqn:Hm; [|tauto].
    assert (Ha2 : timer_active s2 b = true) by congruence.
    assert (Hm2 : exists n0, t_cell s2 b = Some n0 /\ tn_interval n0 = INVALID_INTERVAL) by (exists m; split; auto; intuition congruence).
    destruct (IH HT2 Ha2 ltac:(rewrite <- Hm; exact Hm2)) as [(I1 & I2)|(I1 & I2)].
    + left. split; auto. simpl. destruct (Nat.eq_dec a b); [congruence|auto].
    + right. split; [simpl; tauto|]. eapply same_view_trans; [|exact I2]. split; auto. rewrite Hn, Hm. auto.
Qed.

(** ** The clock *)
Lemma time_after_eq_spec now e : 0 <= now < 9223372036854775808 -> 0 <= e < 18446744073709551616 ->
  time_after_eq now e = (e <=? now) || (now + 9223372036854775808 <? e).
Proof.
  intros H1 H2. unfold time_after_eq, s64, wrap_signed. cbv zeta.
  change (18446744073709551616 / 2) with 9223372036854775808.
  destruct (Z.leb_spec e now) as [Hl|Hl].
  - rewrite Z.mod_small by lia. destruct (Z.leb_spec 9223372036854775808 (now - e)); simpl; lia.
  - replace ((now - e) mod 18446744073709551616) with (now - e + 18446744073709551616)
      by (symmetry; rewrite <- (Z_mod_plus_full _ 1); rewrite Z.mod_small; lia).
    destruct (Z.leb_spec 9223372036854775808 (now - e + 18446744073709551616)); simpl; lia.
Qed.
Lemma TIh_expire_range s a : TIh s -> 0 <= expire_of s a < 18446744073709551616.
Proof.
  intros (l & HI). unfold expire_of. destruct (t_cell s a) as [n|] eqn:E; [|lia].
  apply (tb_range _ _ (proj1 (proj2 HI)) a n E).
Qed.
Lemma TIh_earliest s x : TIh s -> timer_active s x = true -> exists a, earliest s a.
Proof.
  intros (l & HI) H. apply (TC_active _ _ _ (proj1 HI)) in H. destruct l as [|a l]; [destruct H|].
  exists a. apply (TC_earliest _ _ _ (proj1 HI)). eauto.
Qed.
Lemma nothing_due_all s now : TIh s -> 0 <= now < 9223372036854775808 -> nothing_due now s ->
  forall x, timer_active s x = true -> now < expire_of s x.
Proof.
  intros HT Hw Hn x Hx. destruct (TIh_earliest _ _ HT Hx) as (a & Ha).
  assert (E := Hn a Ha). rewrite time_after_eq_spec in E; auto using TIh_expire_range.
  apply orb_false_iff in E as (E1 & E2). destruct (Nat.eq_dec x a) as [->|Hne]; [lia|].
  destruct (proj2 Ha x Hx Hne); lia.
Qed.

(** ** Order of one run *)
(** Armed timers with [now <= clock], no wrapping: a re-armed timer goes
    after the one just fired. *)
Definition fkey (f : firing) : Z * nat := (expire_of (f_picked f) (f_timer f), serial_of (f_picked f) (f_timer f)).
Definition fle (f g : firing) : Prop :=
  fst (fkey f) < fst (fkey g) \/ (fst (fkey f) = fst (fkey g) /\ (snd (fkey f) < snd (fkey g))%nat).
Definition kle (e : Z) (k : nat) (s : tst) (x : nat) : Prop :=
  e < expire_of s x \/ (e = expire_of s x /\ (k < serial_of s x)%nat).

Lemma same_view_key s s' x : timer_active s' x = true -> same_view s s' x ->
  timer_active s x = true /\ expire_of s' x = expire_of s x /\ serial_of s' x = serial_of s x.
Proof.
  intros Ha (V1 & V2). split; [congruence|]. unfold expire_of, serial_of. destruct (t_cell s x), (t_cell s' x); tauto.
Qed.
(** Small numbers: nothing wraps. *)
Definition B62 : Z := 4611686018427387904.
Definition small (s : tst) : Prop :=
  (forall i, 0 <= t_clk s i < B62) /\
  (forall a n, t_cell s a = Some n -> tn_interval n = INVALID_INTERVAL \/ 0 <= tn_interval n < B62).

Lemma fires_sorted (cb : nat -> nat -> list cop) now : (forall i a, Forall cop_ok (cb i a)) -> (forall b i a, arms_on b (cb i a) = false) ->
  forall i s fs s', fires cb now i s fs s' -> TIh s ->
  (forall j, (t_tick s <= j)%nat -> now <= clock_at s j < B62) -> 0 <= now ->
  (forall b n, timer_active s b = true -> t_cell s b = Some n -> tn_interval n = INVALID_INTERVAL \/ 0 <= tn_interval n < B62) ->
  (forall b, timer_active s b = true -> expire_of s b < 9223372036854775808) ->
  StronglySorted fle fs /\ forall e k, (forall b, timer_active s b = true -> kle e k s b) ->
     Forall (fun f => e < fst (fkey f) \/ (e = fst (fkey f) /\ (k < snd (fkey f))%nat)) fs.
Proof.
  intros Hcb Hb i s fs s' H.
  induction H as [|i s a s1 s2 fs s' He Hd H1 H2 HF IH]; intros HT Hck Hn0 Hiv Hex; [split; [constructor|intros; constructor]|].
  destruct (fires_step _ _ _ _ _ _ _ Hcb HT He H1 H2) as (HT1 & HT2 & Ef & Hc & n & n1 & Hn & Hn1 & X1 & X2 & X3 & X4).
  assert (Hrg := TIh_expire_range s a HT). rewrite (expire_of_cell _ _ _ Hn) in Hrg.
  assert (Hclk : t_clk s1 = t_clk s /\ (t_tick s <= t_tick s1)%nat) by (destruct Ef as (E1 & E2 & _); auto).
  assert (Hclk2 : t_clk s2 = t_clk s1 /\ (t_tick s1 <= t_tick s2)%nat) by (destruct Hc as (_ & (E1 & E2 & _) & _); auto).
  assert (Hae := Hex a (proj1 He)). rewrite (expire_of_cell _ _ _ Hn) in Hae.
  assert (Hwin : 0 <= now < B62) by (specialize (Hck (t_tick s) (le_n _)); lia).
  assert (Hle : tn_expire n <= now).
  { rewrite (expire_of_cell _ _ _ Hn) in Hd. rewrite time_after_eq_spec in Hd by (unfold B62 in *; lia).
    apply orb_true_iff in Hd as [Hd|Hd]; lia. }
  (* every timer active in s2 comes from one active in s, with the same key, or is [a] re-armed *)
  assert (Key : forall b, timer_active s2 b = true ->
     (timer_active s b = true /\ b <> a /\ expire_of s2 b = expire_of s b /\ serial_of s2 b = serial_of s b /\
        (forall m2, t_cell s2 b = Some m2 -> exists m, t_cell s b = Some m /\ tn_interval m2 = tn_interval m)) \/
     (b = a /\ tn_interval n <> INVALID_INTERVAL /\ 0 <= tn_interval n < B62 /\
       tn_expire n + tn_interval n <= expire_of s2 a < 9223372036854775808 /\ serial_of s2 a = t_serial s /\
       (forall m2, t_cell s2 b = Some m2 -> tn_interval m2 = tn_interval n))).
  { intros b Hab2. destruct Hc as (_ & _ & _ & Hk). assert (V2 := Hk b (Hb b i a) Hab2).
    destruct (same_view_key _ _ _ Hab2 V2) as (A1 & E2 & S2).
    destruct (Nat.eq_dec b a) as [->|Hne].
    - right. destruct X4 as [(G1 & G2 & _)|(G1 & G2 & G3 & G4 & G5 & G6)]; [congruence|].
      destruct (Hiv a n (proj1 He) Hn) as [Q|Q]; [congruence|].
      split; auto. split; auto. split; auto. rewrite E2, S2. rewrite (expire_of_cell _ _ _ Hn1). unfold serial_of. rewrite Hn1.
      assert (Hck0 := Hck (t_tick s) (le_n _)).
      assert (Hx : tn_expire n1 = clock_at s (t_tick s) + tn_interval n - (now - tn_expire n)).
      { rewrite G6. unfold u64. apply Z.mod_small. unfold B62 in *. lia. }
      split; [unfold B62 in *; lia|]. split; auto.
      intros m2 Hm2. destruct V2 as (_ & V2). rewrite Hn1, Hm2 in V2. intuition congruence.
    - left. assert (V1 := proj2 (proj2 (proj2 (proj2 Ef))) b Hne). destruct (same_view_key _ _ _ A1 V1) as (A0 & E1 & S1).
      split; auto. split; auto. split; [congruence|]. split; [congruence|]. intros m2 Hm2.
      destruct V1 as (_ & V1), V2 as (_ & V2). rewrite Hm2 in V2. destruct (t_cell s1 b) as [m1|]; [|tauto].
      destruct (t_cell s b) as [m|]; [|tauto]. exists m. split; auto. intuition congruence. }
  assert (Hca : (serial_of s a < t_serial s)%nat).
  { destruct HT as (l & HI). apply (tc_serial _ _ (proj1 HI)). apply (TC_active _ _ _ (proj1 HI)). apply He. }
  assert (Pre : StronglySorted fle fs /\ forall e k, (forall b, timer_active s2 b = true -> kle e k s2 b) ->
     Forall (fun f => e < fst (fkey f) \/ (e = fst (fkey f) /\ (k < snd (fkey f))%nat)) fs).
  { apply IH; auto.
    - intros j Hj. unfold clock_at. destruct Hclk as (C1 & C2), Hclk2 as (C3 & C4). rewrite C3, C1. apply Hck. lia.
    - intros b m2 Hb2 Hm2. destruct (Key b Hb2) as [(K1 & K2 & K3 & K4 & K5)|(-> & K2 & K3 & K4 & K5 & K6)].
      + destruct (K5 _ Hm2) as (m & Hm & ->). eauto.
      + rewrite (K6 _ Hm2). auto.
    - intros b Hb2. destruct (Key b Hb2) as [(K1 & K2 & K3 & K4 & K5)|(-> & K2 & K3 & K4 & K5 & K6)]; [rewrite K3; auto|lia]. }
  destruct Pre as (P1 & P2). split.
  - constructor; auto. apply (P2 (expire_of s a) (serial_of s a)). intros b Hb2.
    destruct (Key b Hb2) as [(K1 & K2 & K3 & K4 & K5)|(-> & K2 & K3 & K4 & K5 & K6)].
    + unfold kle. rewrite K3, K4. exact (proj2 He b K1 K2).
    + unfold kle. rewrite K5, (expire_of_cell _ _ _ Hn). lia.
  - intros e k Hbefore. constructor.
    + exact (Hbefore a (proj1 He)).
    + apply P2. intros b Hb2. destruct (Key b Hb2) as [(K1 & K2 & K3 & K4 & K5)|(-> & K2 & K3 & K4 & K5 & K6)].
      * unfold kle. rewrite K3, K4. exact (Hbefore b K1).
      * specialize (Hbefore a (proj1 He)). unfold kle in *. rewrite K5. rewrite (expire_of_cell _ _ _ Hn) in Hbefore. lia.
Qed.
