(** * C31: memory statistics. *)
From Verif Require Import Base Mm MmSpec MmProof.
From Coq Require Import Permutation.
Ltac Zify.zify_post_hook ::= Z.div_mod_to_equations.

Lemma positions_in k l : In k (positions l) <-> 0 < pcount k l.
Proof.
  unfold positions. rewrite nodup_In, in_flat_map. unfold pcount, at_pos. split.
  - intros (b & Hb & Hk). destruct (b_pos b) as [j|] eqn:E; [|destruct Hk]. destruct Hk as [->|[]].
    assert (X : In b (filter (fun b => match b_pos b with Some j => (j =? k)%nat | None => false end) l)) by (apply filter_In; rewrite E, Nat.eqb_refl; auto).
    destruct (filter _ l); [destruct X|cbn [length]; lia].
  - intros H. destruct (filter _ l) as [|b r] eqn:E; [cbn in H; lia|]. assert (X : In b (b :: r)) by (left; reflexivity). rewrite <- E in X. apply filter_In in X as [X Y].
    exists b. split; [exact X|]. destruct (b_pos b) as [j|]; [|discriminate]. apply Nat.eqb_eq in Y. left. exact Y.
Qed.
Lemma cost_perm z l l' : Permutation l l' -> cost z l = cost z l'.
Proof.
  intros P. unfold cost. change (fold_right _ 0 l) with (csum z l). change (fold_right _ 0 l') with (csum z l'). rewrite (csum_perm z l l' P). do 3 f_equal.
  apply Permutation_length, NoDup_Permutation; [apply NoDup_nodup..|]. intros k. unfold positions. rewrite !nodup_In, !in_flat_map.
  split; intros (b & Hb & Hk); exists b; (split; [|exact Hk]); [eapply Permutation_in; eassumption|eapply Permutation_in; [symmetry; eassumption|exact Hb]].
Qed.
Lemma used_nodes z s : reachable z s -> s_used s = u64 (cost z (s_nodes s)).
Proof.
  intros R. destruct (books_reachable z s R) as [_ K2 K3 K4 _]. rewrite K2. unfold cost. change (fold_right _ 0 (s_nodes s)) with (csum z (s_nodes s)). do 4 f_equal.
  apply Permutation_length, NoDup_Permutation; [exact K3|apply NoDup_nodup|]. intros k. rewrite K4, positions_in. tauto.
Qed.

(** C31: whenever no call is in progress, the reported amount is what the
    blocks the program owns cost - provided no address was handed out again
    while an aosl_realloc was between releasing it and updating the statistics,
    and no block was resized to 0 (C31_race_refuted, C31_zero_refuted). *)
Theorem C31_exact_partial : forall z s, reachable z s -> s_inited s = true -> s_fly s = [] ->
  s_raced s = false -> s_lost s = [] -> s_used s = u64 (cost z (s_live s)).
Proof.
  intros z s R Hi Hf Hr Hl. rewrite (used_nodes z s R). f_equal. apply cost_perm. apply (Permutation_count_occ blk_dec). intros b.
  rewrite (h_eq _ (good_reachable z s R) Hr b). unfold tbcnt. rewrite Hf, Hl. cbn. lia.
Qed.
Print Assumptions C31_exact_partial.

(** C31, per code position: number and total size of the blocks allocated there. *)
Theorem C31_positions_partial : forall z s k, reachable z s -> s_inited s = true -> s_fly s = [] ->
  s_raced s = false -> s_lost s = [] ->
  (In k (s_keys s) <-> at_pos k (s_live s) <> []) /\
  (In k (s_keys s) -> s_cnts s k = Z.of_nat (length (at_pos k (s_live s))) /\ s_psize s k = u64 (total (at_pos k (s_live s)))).
Proof.
  intros z s k R Hi Hf Hr Hl. destruct (books_reachable z s R) as [_ _ _ K4 K5].
  assert (P : Permutation (s_nodes s) (s_live s)). { apply (Permutation_count_occ blk_dec). intros b. rewrite (h_eq _ (good_reachable z s R) Hr b). unfold tbcnt. rewrite Hf, Hl. cbn. lia. }
  assert (Q : Permutation (at_pos k (s_nodes s)) (at_pos k (s_live s))).
  { unfold at_pos. clear - P. induction P; cbn [filter]; try destruct (match b_pos x with Some j => _ | None => _ end); try destruct (match b_pos y with Some j => _ | None => _ end); auto; try reflexivity; try apply perm_swap. etransitivity; eassumption. }
  assert (T : forall l l', Permutation l l' -> total l = total l') by (induction 1; unfold total in *; cbn; lia).
  split.
  - rewrite K4. unfold pcount. rewrite (Permutation_length Q). destruct (at_pos k (s_live s)); cbn; split; intros; try lia; congruence.
  - intros H. destruct (K5 k H) as [A B]. rewrite A, B. unfold pcount, tsum. rewrite (Permutation_length Q), (T _ _ Q). auto.
Qed.
Print Assumptions C31_positions_partial.

(** C31: after everything is freed the amount is zero, whatever happened before
    (also after such a race). *)
Theorem C31_zero_after_all_freed : forall z s, reachable z s -> s_fly s = [] -> s_live s = [] -> s_lost s = [] -> s_used s = 0.
Proof.
  intros z s R Hf Hl Ho. rewrite (used_nodes z s R). assert (E : s_nodes s = []).
  { destruct (s_nodes s) as [|b l] eqn:E; [reflexivity|exfalso]. pose proof (h_le _ (good_reachable z s R) (b_ptr b)) as L. unfold tcnt in L. rewrite Hf, Hl, Ho, E in L. cbn in L.
    destruct (Z.eq_dec (b_ptr b) (b_ptr b)); [lia|congruence]. }
  rewrite E. unfold cost. cbn. rewrite Z.mul_0_r. reflexivity.
Qed.
Print Assumptions C31_zero_after_all_freed.

(** A single thread never causes such a race as long as it does not resize to 0:
    when a call starts and no other is in progress, no address is stale. *)
Theorem C31_one_at_a_time : forall s b, s_fly s = [] -> s_lost s = [] -> race s b = s_raced s.
Proof. intros s b Hf Hl. unfold race, stale_keys. rewrite Hf, Hl. cbn. apply orb_false_r. Qed.
Print Assumptions C31_one_at_a_time.

(** ** Histories *)
Tactic Notation "st" uconstr(c) tactic(tac) := match goal with R : reachable ?z ?s |- _ =>
  let R' := fresh in eassert (R' : reachable z _) by (eapply (R_step z s _ R); eapply c; tac); clear R; rename R' into R end.
Ltac fr := split; [discriminate|split; [cbn; intuition discriminate|cbn; lia]].
Definition z0 := mkSz 40 48.

(** malloc 100 and 50 at the same position, resize the first to 300, free the second. *)
Example mm_execution : exists s, reachable z0 s /\ s_inited s = true /\ s_fly s = [] /\ s_raced s = false /\ s_lost s = [] /\
  s_live s = [mkBlk 64 300 None] /\ s_used s = 340.
Proof.
  pose proof (R_init z0) as R. st S_init ltac:(reflexivity).
  st (S_malloc z0 _ (mkBlk 16 100 (Some 1%nat))) ltac:(first [fr]). st (S_ins z0 _ _ [] []) ltac:(first [reflexivity]).
  st (S_malloc z0 _ (mkBlk 32 50 (Some 1%nat))) ltac:(first [fr]). st (S_ins z0 _ _ [] []) ltac:(first [reflexivity]).
  st (S_realloc z0 _ (mkBlk 16 100 (Some 1%nat)) (mkBlk 64 300 None) [mkBlk 32 50 (Some 1%nat)] []) ltac:(first [reflexivity | right; fr]).
  eassert (R' : reachable z0 _). { eapply (R_step _ _ _ R). eapply (S_rem _ _ 16 _ _ [] []); [reflexivity|]. eapply (RP_some _ _ _ (mkBlk 16 100 (Some 1%nat)) [mkBlk 32 50 (Some 1%nat)] []); [reflexivity|discriminate|reflexivity|reflexivity]. }
  clear R; rename R' into R. st (S_ins z0 _ _ [] []) ltac:(first [reflexivity]).
  st (S_free z0 _ (mkBlk 32 50 (Some 1%nat)) [mkBlk 64 300 None] []) ltac:(first [reflexivity]).
  eassert (R' : reachable z0 _). { eapply (R_step _ _ _ R). eapply (S_remf _ _ 32 _ [] []); [reflexivity|]. eapply (RP_some _ _ _ (mkBlk 32 50 (Some 1%nat)) [mkBlk 64 300 None] []); [reflexivity|discriminate|reflexivity|reflexivity]. }
  clear R; rename R' into R. st (S_hal_free z0 _ 32 [] []) ltac:(first [reflexivity]).
  eexists. split; [exact R|]. vm_compute. repeat split; reflexivity.
Qed.

(** Thread A resizes a block of 100 bytes, which moves from 16 to 64; before A
    gets to the statistics, thread B allocates 7 bytes and is given address 16.
    A then removes B's node.  After both have finished, the program owns 7 and
    200 bytes, but the statistics say 100 and 200. *)
Theorem C31_race_refuted : exists s, reachable z0 s /\ s_inited s = true /\ s_fly s = [] /\ s_lost s = [] /\
  cost z0 (s_live s) = 207 + 2 * 40 /\ s_used s = 300 + 2 * 40.
Proof.
  pose proof (R_init z0) as R. st S_init ltac:(reflexivity).
  st (S_malloc z0 _ (mkBlk 16 100 None)) ltac:(first [fr]). st (S_ins z0 _ _ [] []) ltac:(first [reflexivity]).
  st (S_realloc z0 _ (mkBlk 16 100 None) (mkBlk 64 200 None) [] []) ltac:(first [reflexivity | right; fr]).
  st (S_malloc z0 _ (mkBlk 16 7 None)) ltac:(first [split; [discriminate|split; [cbn; intuition discriminate|cbn; lia]]]).
  eassert (R' : reachable z0 _). { eapply (R_step _ _ _ R). eapply (S_ins _ _ _ [] [_]). reflexivity. }
  clear R; rename R' into R.
  eassert (R' : reachable z0 _). { eapply (R_step _ _ _ R). eapply (S_rem _ _ 16 _ _ [] []); [reflexivity|]. eapply (RP_some _ _ _ (mkBlk 16 7 None) [] [mkBlk 16 100 None]); [reflexivity|discriminate|reflexivity|reflexivity]. }
  clear R; rename R' into R. st (S_ins z0 _ _ [] []) ltac:(first [reflexivity]).
  eexists. split; [exact R|]. vm_compute. repeat split; reflexivity.
Qed.
Print Assumptions C31_race_refuted.

(** aosl_realloc (p, 0): the block is gone, the statistics keep it. *)
Theorem C31_zero_refuted : exists s, reachable z0 s /\ s_inited s = true /\ s_fly s = [] /\ s_live s = [] /\ s_raced s = false /\ s_used s = 140.
Proof.
  pose proof (R_init z0) as R. st S_init ltac:(reflexivity).
  st (S_malloc z0 _ (mkBlk 16 100 None)) ltac:(first [fr]). st (S_ins z0 _ _ [] []) ltac:(first [reflexivity]).
  st (S_realloc_zero z0 _ (mkBlk 16 100 None) [] []) ltac:(first [reflexivity]).
  eexists. split; [exact R|]. vm_compute. repeat split; reflexivity.
Qed.
Print Assumptions C31_zero_refuted.
