(** * Steps of aosl_ref_destroy keep the invariant. *)
From Verif Require Import Base Refobj RefobjInv RefobjStep RefobjOp.

(** While aosl_ref_destroy has the write lock no locked callback runs. *)
Lemma all_closed T o r i k t del g st e l : OInv T o r i k -> (t < T)%nat -> k t = FDes o del g st e :: l -> st = DSet \/ st = DUnl -> forall u, (u < T)%nat -> csum openc (k u) = 0.
Proof.
  intros H Ht Hk S. pose proof (facts_of _ _ _ _ _ _ _ _ H Ht Hk) as F. destruct H as [V1 V2 V3 V4 V5 V6 V7 V8 V9 V10 V11 V12 V13 V14 V15 V16 V17].
  assert (X : wrw (FDes o del g st e) = 1 /\ lkw (FDes o del g st e) = 1 /\ rdc (FDes o del g st e) = 0 /\ rraw (FDes o del g st e) = 0 /\ openc (FDes o del g st e) = 0) by (destruct S as [-> | ->]; repeat split).
  destruct X as [X1 [X2 [X3 [X4 X5]]]].
  pose proof (f_wr _ _ _ _ _ _ _ _ F) as FW. pose proof (f_lk _ _ _ _ _ _ _ _ F) as FK. rewrite X1 in FW. rewrite X2 in FK.
  pose proof (csum_nonneg wrw l wrw_nn). pose proof (csum_nonneg lkw l lkw_nn).
  assert (W : writer r = true) by (destruct (writer r); [reflexivity|cbn [b2z] in FW; lia]). assert (K : lk r = true) by (destruct (lk r); [reflexivity|cbn [b2z] in FK; lia]).
  rewrite K in *. cbn [b2z] in *. specialize (V6 W). rewrite V6 in V3.
  assert (LK1 : forall u, (u < T)%nat -> csum lkw (k u) <= 1).
  { intros u Hu. pose proof (sumT_ge T (fun u => csum lkw (k u)) u Hu (fun u => csum_nonneg lkw (k u) lkw_nn)) as Q. cbn beta in Q. lia. }
  assert (TH : forall u, (u < T)%nat -> thr (k u) = 0).
  { intros u Hu. assert (Q : sumT T (fun u => thr (k u)) = sumT T (fun u => if (u <? T)%nat then thr (k u) else 0)).
    { apply sumT_ext. intros v Hv. apply Nat.ltb_lt in Hv. rewrite Hv. reflexivity. }
    assert (P : forall v, 0 <= (if (v <? T)%nat then thr (k v) else 0)) by (intros v; destruct (Nat.ltb_spec v T); [apply (thr_nonneg r o); auto|lia]).
    pose proof (sumT_ge T (fun u => if (u <? T)%nat then thr (k u) else 0) u Hu P) as W'. cbn beta in W'. pose proof (P u) as P'. apply Nat.ltb_lt in Hu. rewrite Hu in W', P'. lia. }
  assert (C : forall v, wfs r o v -> csum lkw v = 0 -> thr v = 0 -> csum openc v = 0).
  { intros v W1 L1 T1. pose proof (raw_nonneg r o v W1 ltac:(lia)). pose proof (csum_nonneg rdc v rdc_nn). unfold thr in T1. destruct (Z.ltb_spec 0 (csum rdc v)); [lia|]. apply (closed r o); auto; lia. }
  intros u Hu. destruct (Nat.eq_dec u t) as [->|N].
  - specialize (TH t Hu). specialize (V10 t Hu). rewrite Hk in *. unfold thr in TH. cbn [csum wfs] in *. rewrite X3, X4 in TH. rewrite X5. rewrite !Z.add_0_l in *. apply C; [tauto|lia|exact TH].
  - apply C; auto. pose proof (sumT_two T (fun u => csum lkw (k u)) u t Hu Ht N (fun v => csum_nonneg lkw (k v) lkw_nn)) as Q. cbn beta in Q. rewrite Hk in Q. cbn [csum] in Q. rewrite X2 in Q. pose proof (csum_nonneg lkw (k u) lkw_nn). lia.
Qed.

Lemma des_ok T o r i k t del g st e l r' i' fs es :
  OInv T o r i k -> (t < T)%nat -> k t = FDes o del g st e :: l -> Forall below_ok l ->
  des_step t o r i del g st e l = Go r' i' fs es -> OInv T o r' i' (fupd k t (fs ++ l)).
Proof.
  intros H Ht Hk B E. pose proof (facts_of _ _ _ _ _ _ _ _ H Ht Hk) as F.
  pose proof (f_wf _ _ _ _ _ _ _ _ F) as WF. cbn [wfx] in WF. destruct WF as [W1 [W2 W3]].
  pose proof (f_lc _ _ _ _ _ _ _ _ F) as FL. pose proof (f_nn _ _ _ _ _ _ _ _ F) as NN. pose proof (f_gc _ _ _ _ _ _ _ _ F) as FG.
  pose proof (use_gcc l B) as UG.
  destruct st; cbn [des_step] in E.
  - destruct (onq o l && negb (async r)) eqn:NL; [discriminate|]. assert (R0 : csum rdc l = 0).
    { simp. destruct (0 <? csum wlc l) eqn:WL; [apply Z.ltb_lt in WL; destruct (f_lc2 _ _ _ _ _ _ _ _ F) as [_ Q]; simp; apply Q; exact WL|]. rewrite FL in E. destruct (Z.to_nat (csum rdc l)) eqn:Q; [lia|discriminate E]. }
    destruct (lc r t) as [[|n]|] eqn:LC; try discriminate E; eqs E; destruct del; updgo H Ht Hk F; try (rewrite FG by assumption; lia).
 all: match goal with |- ?g => idtac g; idtac "1" end.
  - subst del. destruct i; eqs E; updgo H Ht Hk F.
 all: match goal with |- ?g => idtac g; idtac "2" end.
  - destruct (destroyed r) eqn:Dd; eqs E; destruct del; updgo H Ht Hk F.
 all: match goal with |- ?g => idtac g; idtac "3" end.
  - destruct (lk r) eqn:K; [discriminate|]. destruct (writer r) eqn:W; [discriminate|]. destruct (readers r =? 0) eqn:R0; [|discriminate]. apply Z.eqb_eq in R0. cbn [orb negb] in E. eqs E. destruct del; updgo H Ht Hk F.
 all: match goal with |- ?g => idtac g; idtac "4" end.
  - eqs E. pose proof (all_closed _ _ _ _ _ _ _ _ _ _ _ H Ht Hk (or_introl eq_refl)) as AC.
    eapply (OInv_upd _ _ _ _ _ _ _ _ _ _ _ H Ht Hk); posefacts F; simp; unfold thr in *; simp;
    try match goal with |- true = true -> _ => intros _; right; intros u Hu; destruct (Nat.eq_dec u t) as [->|N]; [rewrite fupd_eq; specialize (AC t Hu); rewrite Hk in AC; exact AC|rewrite fupd_ne by assumption; auto] end;
    destruct del; lf2.
    all: try (cbn [wfx]; simp; split; [tauto|]; split; [reflexivity|]; destruct (destroyed r); auto).
 all: match goal with |- ?g => idtac g; idtac "5" end.
  - eqs E. destruct del; updgo H Ht Hk F.
 all: destruct (writer r), (lk r); simp; lia.
  - destruct W2 as [-> W2]. unfold put in E. simp. destruct (usage r - 1 =? 0) eqn:U; eqs E; [apply Z.eqb_eq in U|apply Z.eqb_neq in U]; updgo H Ht Hk F. all: putfin.
 all: match goal with |- ?g => idtac g; idtac "7" end.
  - destruct W2 as [-> W2]. destruct (cfree r && negb (async r)) eqn:CA.
    + destruct (1 + g <? usage r) eqn:U; [discriminate|]. apply Z.ltb_ge in U. eqs E.
      assert (CF : cfree r = true) by (destruct (cfree r); [reflexivity|discriminate CA]). destruct W1 as [_ [_ G]]. specialize (G CF).
      pose proof (v_use _ _ _ _ _ H) as V1. pose proof (sumT_nonneg T (fun u => csum ownc (k u)) (fun u => csum_nonneg ownc (k u) own_nn)) as N1.
      pose proof (sumT_ge T (fun u => csum use (k u)) t Ht (fun u => csum_nonneg use (k u) use_nn)) as N2. cbn beta in N2. rewrite Hk in N2. simp.
      assert (OT : forall u, (u < T)%nat -> u <> t -> csum use (k u) = 0).
      { intros u Hu N. pose proof (sumT_two T (fun u => csum use (k u)) u t Hu Ht N (fun v => csum_nonneg use (k v) use_nn)) as Q. cbn beta in Q. rewrite Hk in Q. simp. pose proof (csum_nonneg use (k u) use_nn). destruct i; simp; lia. }
      assert (I0 : i = false /\ sumT T (fun u => csum ownc (k u)) = 0) by (destruct i; simp; [lia|split; [reflexivity|lia]]). destruct I0 as [I1 I2].
      updgo H Ht Hk F. right. split; [exact I1|]. split; [lia|]. split; [congruence|exact OT].
    + eqs E. updgo H Ht Hk F.
      exfalso. match goal with a : cfree r = true, b : async r = false |- _ => rewrite a, b in CA; discriminate CA end.
  - unfold put in E. simp. destruct (usage r - 1 =? 0) eqn:U; eqs E; [apply Z.eqb_eq in U|apply Z.eqb_neq in U]; destruct del; updgo H Ht Hk F. all: putfin.
 all: match goal with |- ?g => idtac g; idtac "10" end.
  - eqs E. destruct del; updgo H Ht Hk F.
 all: match goal with |- ?g => idtac g; idtac "11" end.
Qed.
