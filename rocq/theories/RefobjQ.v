(** * Steps of the queue functions keep the invariant. *)
From Verif Require Import Base Refobj RefobjInv RefobjStep RefobjOp.

Lemma q_ok T o r i k t lkd st rf id l r' i' fs es :
  OInv T o r i k -> (t < T)%nat -> k t = FQ o lkd st rf id :: l -> Forall below_ok l ->
  q_step t o r i lkd st rf id = Go r' i' fs es -> OInv T o r' i' (fupd k t (proj o fs ++ l)).
Proof.
  intros H Ht Hk B E. pose proof (facts_of _ _ _ _ _ _ _ _ H Ht Hk) as F.
  pose proof (f_wf _ _ _ _ _ _ _ _ F) as WF. cbn [wfx] in WF. destruct WF as [W1 W2].
  pose proof (f_lc _ _ _ _ _ _ _ _ F) as FL. pose proof (f_nn _ _ _ _ _ _ _ _ F) as NN.
  assert (PR : forall x, about o x = true -> proj o [x] = [x]) by (intros x X; unfold proj; cbn [filter]; rewrite X; reflexivity).
  assert (PR2 : forall x, about o x = true -> proj o [FFin o FDtor; x] = [FFin o FDtor; x]) by (intros x X; unfold proj; cbn [filter about]; rewrite Nat.eqb_refl; cbn [about] in X; rewrite X; reflexivity).
  destruct st; cbn [q_step] in E; try discriminate E.
  - subst lkd. destruct (async r) eqn:AS.
    + eqs E. rewrite PR by (cbn; apply Nat.eqb_refl). updgo H Ht Hk F. all: try (simp; rewrite AS; tauto).
    + destruct (writer r) eqn:W; [discriminate|]. eqs E. rewrite PR by (cbn; apply Nat.eqb_refl). updgo H Ht Hk F. all: try (simp; rewrite AS; tauto).
  - destruct (destroyed r) eqn:Dd; eqs E; (rewrite PR by (cbn; apply Nat.eqb_refl)); destruct lkd; updgo H Ht Hk F.
  - eqs E. rewrite PR by (cbn; apply Nat.eqb_refl). destruct lkd; updgo H Ht Hk F.
  - unfold refobj_put in E. destruct (cfree r) eqn:CF.
    + destruct (gc r t <? 1); [discriminate|]. unfold put in E. simp. destruct (usage r - 1 =? 0) eqn:U; eqs E; [apply Z.eqb_eq in U|apply Z.eqb_neq in U]; rewrite ?PR, ?PR2 by (cbn; apply Nat.eqb_refl); destruct lkd; updgo H Ht Hk F. all: putfin.
    + unfold put in E. simp. destruct (usage r - 1 =? 0) eqn:U; eqs E; [apply Z.eqb_eq in U|apply Z.eqb_neq in U]; rewrite ?PR, ?PR2 by (cbn; apply Nat.eqb_refl); destruct lkd; updgo H Ht Hk F. all: putfin.
  - destruct rf; eqs E; cbn [proj filter about]; destruct lkd; updgo H Ht Hk F.
Qed.

