(** * Consequences of the invariants, one event at a time *)
From Verif Require Import Base Mpq MpqInv MpqLife MpqSpec MpqTrace MpqMore MpqComp.

Ltac on_event H E :=
  revert E; destruct H; at_pcs; unfold add_section;
  repeat match goal with
  | |- context [if r_nofail ?r || ?b then act _ _ _ _ _ _ else _] => let N := fresh "HNF" in destruct (r_nofail r || b) eqn:N; proj in N
  | |- context [if q_nonblock ?b then act _ _ _ _ _ _ else _] => let N := fresh "HNB" in destruct (q_nonblock b) eqn:N; proj in N
  | |- context [if own_term ?b ?c then act _ _ _ _ _ _ else _] => let N := fresh "HOT" in destruct (own_term b c) eqn:N
  end; rewrite ?hist_next, ?hist_sync, ?hist_rel, ?hist_drv, hist_act; cbn [rev app];
  let EV := fresh "EV" in intros EV; apply app_inv_head in EV; try discriminate EV; injection EV; clear EV; intros; subst.

Lemma starts_sub s q r : reachable s -> In r (starts q (hist s)) -> In r (accepts q (hist s)).
Proof. intros R H. destruct (iv_content _ (inv_reachable _ R) q) as [A _ _]. rewrite A. apply in_or_app. auto. Qed.
Lemma ends_sub s q r : reachable s -> In r (ends q (hist s)) -> In r (starts q (hist s)).
Proof. intros R H. destruct (iv_content _ (inv_reachable _ R) q) as [_ A _]. rewrite A. apply in_or_app. auto. Qed.
Lemma dones_sub s q r : reachable s -> In r (dones q (hist s)) -> In r (ends q (hist s)).
Proof. intros R H. destruct (iv_content _ (inv_reachable _ R) q) as [_ _ A]. rewrite A. apply in_or_app. auto. Qed.

(** A request has one fate. *)
Lemma fate s e1 e2 i : reachable s -> In e1 (hist s) -> In e2 (hist s) -> In i (decides e1) -> In i (decides e2) -> e1 = e2.
Proof. intros R. apply flat_map_unique. apply (dc_nodup _ (iv_decided _ (inv_reachable _ R))). Qed.
Lemma call_unique s t1 q1 r1 t2 q2 r2 : reachable s -> In (ECall t1 q1 r1) (hist s) -> In (ECall t2 q2 r2) (hist s) -> r_id r1 = r_id r2 ->
  t1 = t2 /\ q1 = q2 /\ r1 = r2.
Proof.
  intros R H1 H2 E. 
  pose proof (flat_map_unique _ (hist s) _ _ (r_id r1) (ca_nodup _ (i2_calls _ (inv2_reachable _ R))) H1 H2 (or_introl eq_refl)) as X.
  cbn in X. rewrite E in X. specialize (X (or_introl eq_refl)). injection X as -> -> ->. auto.
Qed.

Lemma runs_app i h h' : runs i (h ++ h') = (runs i h + runs i h')%nat.
Proof. unfold runs. rewrite filter_app, app_length. reflexivity. Qed.
(** How often a function was called. *)
Definition calls_of (i : nat) (e : event) : bool :=
  match e with EStart _ _ r _ | EInline _ _ r _ => (r_id r =? i)%nat | _ => false end.
Lemma runs_pos i h : (0 < runs i h)%nat <-> exists e, In e h /\ calls_of i e = true.
Proof.
  unfold runs. fold (calls_of i). split.
  - destruct (filter (calls_of i) h) as [|e l] eqn:E; cbn; [lia|]. intros _. exists e. apply filter_In. rewrite E. left. reflexivity.
  - intros (e & H). apply filter_In in H. destruct (filter (calls_of i) h); [destruct H|]. cbn. lia.
Qed.
Lemma run_fate s i : reachable s -> (0 < runs i (hist s))%nat -> In i (decided (hist s)) /\
  exists e, In e (hist s) /\ (match e with EAccept _ _ r | EInline _ _ r _ => r_id r = i | _ => False end).
Proof.
  intros R H. apply runs_pos in H. destruct H as (e & H & Hc).
  assert (HE : exists e0, In e0 (hist s) /\ (match e0 with EAccept _ _ r | EInline _ _ r _ => r_id r = i | _ => False end)).
  { destruct e; try discriminate Hc; cbn in Hc; apply Nat.eqb_eq in Hc.
    - assert (X : In r (starts q (hist s))) by (apply in_starts; eauto). apply starts_sub, in_accepts in X; auto.
      destruct X as [t' X]. exists (EAccept t' q r). auto.
    - exists (EInline t q r k). auto. }
  split; [|exact HE]. destruct HE as (e0 & H0 & H1). unfold decided. apply in_flat_map. exists e0. split; [exact H0|].
  destruct e0; try contradiction; left; exact H1.
Qed.

Lemma NoDup_map_sub {A B} (f : A -> B) l l' : NoDup (map f (l ++ l')) -> NoDup (map f l).
Proof. rewrite map_app. induction (map f l) as [|a m IH]; [constructor|]. cbn. intros H. inversion_clear H as [|? ? X Y]. constructor; [intros Z; apply X, in_or_app; auto|auto]. Qed.
Lemma starts_nodup s q : reachable s -> NoDup (map r_id (starts q (hist s))).
Proof.
  intros R. pose proof (inv_reachable _ R) as I. pose proof (accepts_nodup _ q I) as ND.
  destruct (iv_content _ I q) as [A _ _]. rewrite A in ND. eapply NoDup_map_sub, ND.
Qed.
(** A start is a first start. *)
Lemma start_first s s' t q r k : reachable s -> step s s' -> hist s' = hist s ++ [EStart t q r k] -> runs (r_id r) (hist s) = 0%nat.
Proof.
  intros R H E. destruct (runs (r_id r) (hist s)) eqn:ER; [reflexivity|exfalso].
  assert (HP : (0 < runs (r_id r) (hist s))%nat) by lia. clear ER.
  assert (R' : reachable s') by (eapply R_step; eassumption).
  pose proof (starts_nodup s' q R') as ND. pose proof (inv_reachable _ R) as I.
  assert (HS : In r (starts q (hist s'))) by (apply in_starts; exists t, k; rewrite E; apply in_or_app; right; left; reflexivity).
  apply starts_sub in HS; [|exact R']. apply in_accepts in HS. destruct HS as [ta HS].
  apply runs_pos in HP. destruct HP as (e & He & Hc).
  assert (He' : In e (hist s')) by (rewrite E; apply in_or_app; auto).
  destruct e; try discriminate Hc; cbn in Hc; apply Nat.eqb_eq in Hc.
  - assert (X : In r0 (starts q0 (hist s))) by (apply in_starts; eauto).
    assert (X' : In r0 (accepts q0 (hist s'))). { apply starts_sub; [exact R'|]. apply in_starts. eauto. }
    apply in_accepts in X'. destruct X' as [t' X'].
    assert (Y : EAccept t' q0 r0 = EAccept ta q r).
    { eapply (fate s'); [exact R'|exact X'|exact HS|left; reflexivity|left; congruence]. }
    injection Y as -> -> ->. rewrite E, starts_app, map_app in ND. cbn in ND. rewrite Nat.eqb_refl in ND. cbn in ND.
    apply NoDup_remove_2 in ND. apply ND. rewrite app_nil_r. apply in_map. exact X.
  - assert (Y : EInline t0 q0 r0 k0 = EAccept ta q r).
    { eapply (fate s'); [exact R'|exact He'|exact HS|left; reflexivity|left; congruence]. }
    discriminate.
Qed.
Lemma inline_first s s' t q r k : reachable s -> step s s' -> hist s' = hist s ++ [EInline t q r k] -> runs (r_id r) (hist s) = 0%nat.
Proof.
  intros R H E. destruct (runs (r_id r) (hist s)) eqn:ER; [reflexivity|exfalso].
  assert (HP : (0 < runs (r_id r) (hist s))%nat) by lia. apply (run_fate _ _ R) in HP. destruct HP as [HP _].
  pose proof (inv_reachable _ (R_step _ _ R H)) as I. pose proof (dc_nodup _ (iv_decided _ I)) as ND. rewrite E, decided_app in ND.
  cbn in ND. apply NoDup_remove_2 in ND. rewrite app_nil_r in ND. contradiction.
Qed.
Lemma runs_le s i : reachable s -> (runs i (hist s) <= 1)%nat.
Proof.
  induction 1 as [|s s' R IH H]; [cbn; lia|].
  destruct (step_event _ _ H) as [E|[e E]]; rewrite E; [exact IH|]. rewrite runs_app.
  destruct (calls_of i e) eqn:Ec.
  - destruct e; try discriminate Ec; cbn in Ec; apply Nat.eqb_eq in Ec; subst i.
    + rewrite (start_first _ _ _ _ _ _ R H E). cbn. rewrite Nat.eqb_refl. cbn. lia.
    + rewrite (inline_first _ _ _ _ _ _ R H E). cbn. rewrite Nat.eqb_refl. cbn. lia.
  - replace (runs i [e]) with 0%nat; [lia|]. unfold runs. cbn. destruct e; cbn in *; rewrite ?Ec; reflexivity.
Qed.

Lemma outstanding_cnt s q : reachable s -> outstanding q (hist s) = q_cnt (s_q s q).
Proof.
  intros R. pose proof (inv_reachable _ R) as I. rewrite (in_queue_cnt _ _ (iv_cnt _ I q)).
  destruct (iv_content _ I q) as [A B C]. unfold outstanding, in_queue. rewrite A, B, C, !app_length. lia.
Qed.
Lemma outstanding_ord s q : reachable s -> outstanding_ordinary q (hist s) = Z.of_nat (length (filter ordinary (in_queue (s_q s q)))).
Proof.
  intros R. pose proof (inv_reachable _ R) as I. destruct (iv_content _ I q) as [A B C].
  unfold outstanding_ordinary, in_queue. rewrite A, B, C, !filter_app, !app_length. lia.
Qed.
Lemma created s q t m : reachable s -> runs_queue t q m (hist s) <-> q_made (s_q s q) = true /\ q_thread (s_q s q) = t /\ q_max (s_q s q) = m.
Proof. intros R. apply (mk_made _ _ _ (i2_marks _ (inv2_reachable _ R) q)). Qed.
Lemma valid_inst s q : reachable s -> valid q (hist s) <-> q_inst (s_q s q) = true.
Proof.
  intros R. pose proof (inv2_reachable _ R) as I2. pose proof (i2_inv _ I2) as I. unfold valid. rewrite (mk_gone _ _ _ (i2_marks _ I2 q)).
  split.
  - intros [(t & m & H) H']. apply (created s) in H; [|exact R]. destruct H as (H & _).
    rewrite (lf_inst _ _ (iv_life _ I q)) by exact H. destruct (before_exit _); congruence.
  - intros H. pose proof (inst_made _ _ (iv_base _ I) H) as Hm. split.
    + exists (q_thread (s_q s q)), (q_max (s_q s q)). apply (created s); auto.
    + rewrite (lf_inst _ _ (iv_life _ I q)) in H by exact Hm. congruence.
Qed.
