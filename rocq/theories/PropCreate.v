(** * C57: creating a queue *)
From Verif Require Import Base Create CreateInv.

Ltac ptt := match goal with
  | |- _ \/ _ \/ _ -> _ => let D := fresh in intros [D|[D|D]]; try discriminate D; match goal with H : _ \/ _ \/ _ -> 0 <= _ |- _ => apply H; auto end
  end.
Ltac fin2 := constructor; red_st; first [solve [tr_tac]|solve [ptt]|crush].

Lemma creator_ok c v s s' : Inv c v s -> creator_step c v s = Some s' -> Inv c v s'.
Proof.
  intros HI H. destruct s as [cc b lk1 lk2 wk dn res err lv1 lv2 q be ce se bad badq tr]. destruct HI.
  cbn [s_c s_b s_lk1 s_lk2 s_wake s_done s_res s_err s_live1 s_live2 s_q s_berr s_cerr s_serr s_bad s_badq s_tr] in *.
  destruct cc; cbn [creator_step s_c] in H; try discriminate.
  - (* CStart *)
    destruct b; try discriminate. assert (tr = []) by auto. subst tr.
    destruct (checks c) as [[e|]|] eqn:Ec; injection H as <-.
    + constructor; red_st; first [solve [ptt]|solve [crush]|idtac].
      intros l1 ok e' l2 E. destruct l1 as [|x l1]; [injection E as <- <- <-|destruct l1; discriminate]. unfold returned. rewrite Ec. split; [discriminate|split; [auto|discriminate]].
    + constructor; red_st; first [solve [ptt]|solve [crush]|idtac].
      intros l1 ok e' l2 E. destruct l1 as [|x l1]; [injection E as <- <- <-|destruct l1; discriminate]. unfold returned. rewrite Ec. split; [discriminate|split; [auto|discriminate]].
    + fin2.
  - (* CHal *)
    destruct b; try discriminate. destruct (Z.eqb_spec (e_pthread v) 0) as [E0|E0].
    + rewrite E0 in H. injection H as <-. fin2; try (rewrite E0; reflexivity). apply i_ck; discriminate.
    + unfold hal_create in H. destruct (Z.ltb_spec (e_pthread v) 0); injection H as <-.
      * constructor; red_st; first [solve [ptt]|solve [crush]|idtac].
        apply rets_ret; [exact (i_noret ltac:(discriminate))|]. unfold returned. rewrite (i_ck ltac:(discriminate) ltac:(discriminate)).
        split; [congruence|split; [congruence|intros _; apply Z.lt_le_incl; assumption]].
      * fin2. destruct (Z.eqb_spec (e_pthread v) 0); auto; contradiction.
  - (* CLk1 *) cbn [s_lk1] in H. destruct lk1; [discriminate|]. injection H as <-. destruct b; try discriminate; fin2.
  - (* CTest1 *) cbn [s_done] in H. destruct dn; injection H as <-; destruct b; try discriminate; fin2.
  - (* CSleep1 *) cbn [s_wake s_lk1] in H. destruct wk; [|discriminate]. destruct lk1; [discriminate|]. injection H as <-. destruct b; try discriminate; fin2.
  - (* CUn1 *) injection H as <-. destruct b; try discriminate; fin2.
  - (* CDes1 *) injection H as <-. destruct b; try discriminate; fin2.
  - (* CLk2 *) cbn [s_lk2] in H. destruct lk2; [discriminate|]. injection H as <-. destruct b; try discriminate; fin2.
  - (* CTest2 *) cbn [s_res] in H. destruct res; injection H as <-; destruct b as [| | | | | | |[]|[]| | | | | |]; try discriminate; fin2.
  - (* CSleep2 *) cbn [s_wake s_lk2] in H. destruct wk; [|discriminate]. destruct lk2; [discriminate|]. injection H as <-. destruct b; try discriminate; fin2.
  - (* CUn2 *) injection H as <-. destruct b as [| | | | | | |[]|[]| | | | | |]; try discriminate; fin2.
  - (* CDes2 *) injection H as <-. destruct b as [| | | | | | |[]|[]| | | | | |]; try discriminate; fin2.
  - (* CErr *)
    cbn [s_res] in H. assert (Hp : past2 b = true) by (destruct b as [| | | | | | |[]|[]| | | | | |]; try discriminate; auto).
    rewrite Hp in i_res. rewrite i_res in H. destruct (fails c v) eqn:Ef; cbn [negb] in H; injection H as <-.
    + destruct b as [| | | | | | |[]|[]| | | | | |]; try discriminate; cbn in i_way; try (rewrite Ef in i_way; discriminate).
      constructor; red_st; first [solve [ptt]|solve [crush]|idtac].
      apply rets_ret; [exact (i_noret ltac:(discriminate))|]. unfold returned. rewrite (i_ck ltac:(discriminate) ltac:(discriminate)).
      cbn in i_start, i_inits, i_finis. split; [|split; [congruence|intros _; apply Z.eqb_eq in i_start; rewrite i_start; apply Z.le_refl]]. intros _ _. rewrite Ef. split; auto.
    + destruct b as [| | | | | | |[]|[]| | | | | |]; try discriminate; fin2.
  - (* CQid *)
    assert (Ef : fails c v = false) by auto.
    injection H as <-.
    destruct b as [| | | | | | |[]|[]| | | | | |]; try discriminate; (constructor; red_st; first [solve [ptt]|solve [crush]|idtac];
      apply rets_ret; [exact (i_noret ltac:(discriminate))|]; unfold returned; rewrite (i_ck ltac:(discriminate) ltac:(discriminate));
      cbn in i_start, i_inits, i_finis; split; [|split; [congruence|intros _; apply Z.eqb_eq in i_start; rewrite i_start; apply Z.le_refl]]; intros _ _; rewrite Ef; split; [auto|split; [auto|discriminate]]).
Qed.

Lemma wake_ok c v s : Inv c v s -> Inv c v (setWake true s).
Proof.
  intros HI. destruct s as [cc b lk1 lk2 wk dn res err lv1 lv2 q be ce se bad badq tr]. destruct HI.
  constructor; cbn [setWake s_c s_b s_lk1 s_lk2 s_wake s_done s_res s_err s_live1 s_live2 s_q s_berr s_cerr s_serr s_bad s_badq s_tr] in *; auto.
Qed.
Theorem inv_reach c v s : reachable c v s -> Inv c v s.
Proof.
  induction 1 as [e|s s' _ IH H]; [apply Inv_init|]. destruct H; [eapply creator_ok|eapply child_ok|apply wake_ok]; eauto.
Qed.

(** ** C57 *)

(** The two threads never use a stack frame that is gone: what the child gets
    from the creator it reads before the creator goes on. *)
Theorem C57_frames c v s : reachable c v s -> s_bad s = false.
Proof. intros H. apply (inv_reach c v s H). Qed.

(** If aosl_mpq_create returns a queue, the queue was made, and init was run,
    exactly once, and succeeded, before the call returned.  [l2] is what had
    happened when the call returned. *)
Theorem C57_success c v s l1 e l2 :
  reachable c v s -> e_pthread v = 0 -> s_tr s = l1 ++ EReturn true e :: l2 ->
  e_q v = Some 0 /\ (c_init c = true -> 0 <= e_init v /\ count EInit l2 = 1%nat) /\ (c_init c = false -> count EInit l2 = 0%nat).
Proof.
  intros H Hp E. pose proof (i_ret _ _ _ (inv_reach c v s H) _ _ _ _ E) as (R1 & R2 & _).
  destruct (checks c) eqn:Ec; [destruct R2 as (R2 & _); discriminate|]. destruct (R1 eq_refl Hp) as (R & Ri & _).
  assert (Ef : fails c v = false) by (destruct (fails c v); [discriminate|auto]). unfold fails in Ef. apply orb_false_iff in Ef as (Eq & En).
  rewrite Eq in Ri. unfold q_fails in Eq. unfold init_fails in En.
  split; [destruct (e_q v) as [[| |]|]; congruence|]. split; intros Hi; rewrite Hi in *; cbn [given] in Ri.
  - split; auto. unfold q_fails in En. rewrite Eq in En. cbn in En. destruct (Z.ltb_spec (e_init v) 0); [discriminate|auto].
  - auto.
Qed.
(** If it fails once the thread is there, then the queue could not be made or
    init has failed, fini has run exactly once before the call returned, and
    aosl_errno is that of the failure. *)
Theorem C57_failure c v s l1 e l2 :
  reachable c v s -> checks c = None -> e_pthread v = 0 -> s_tr s = l1 ++ EReturn false e :: l2 ->
  (e_q v <> Some 0 \/ (c_init c = true /\ e_init v < 0)) /\
  (c_fini c = true -> count EFini l2 = 1%nat) /\
  (c_init c = true -> e_q v = Some 0 -> count EInit l2 = 1%nat) /\
  (forall x, e_q v = Some x -> x <> 0 -> e = x) /\ (e_q v = Some 0 -> e = e_init_errno v).
Proof.
  intros H Hc Hp E. pose proof (i_ret _ _ _ (inv_reach c v s H) _ _ _ _ E) as (R1 & _). destruct (R1 Hc Hp) as (R & Ri & Rf).
  assert (Ef : fails c v = true) by (destruct (fails c v); [auto|discriminate]). destruct (Rf Ef) as (Rn & Re).
  split; [|split; [|split; [|split]]].
  - unfold fails, init_fails, q_fails in Ef. destruct (e_q v) as [[| |]|]; try (left; discriminate). cbn in Ef. right.
    destruct (c_init c); [|discriminate]. cbn in Ef. split; auto. destruct (Z.ltb_spec (e_init v) 0); [auto|discriminate].
  - intros Hf. rewrite Hf in Rn. exact Rn.
  - intros Hi Hq. unfold q_fails in Ri. rewrite Hq, Hi in Ri. exact Ri.
  - intros x Hx Hn. unfold failure in Re. rewrite Hx in Re. destruct x; auto; congruence.
  - intros Hx. unfold failure in Re. rewrite Hx in Re. auto.
Qed.
(** The limits of the arguments: priority, greatest number of functions, and no flag
    above the low 16 bits. *)
Definition allowed (c : cfg) : Prop :=
  0 <= c_pri c <= 5 /\ 1 <= c_max c <= 1000000 /\ forall i, 16 <= i < 32 -> Z.testbit (c_flags c) i = false.
Lemma checks_allowed c : checks c = None <-> allowed c.
Proof.
  assert (M : forall i, Z.testbit 4294901760 i = (16 <=? i) && (i <? 32)).
  { intros i. change 4294901760 with (Z.shiftl (Z.ones 16) 16). destruct (Z.leb_spec 16 i) as [L|L].
    - rewrite Z.shiftl_spec by lia. destruct (Z.ltb_spec i 32); [rewrite Z.ones_spec_low by lia; reflexivity|rewrite Z.ones_spec_high by lia; reflexivity].
    - cbn [andb]. destruct (Z.neg_nonneg_cases i); [apply Z.testbit_neg_r; assumption|]. rewrite Z.shiftl_spec by lia. apply Z.testbit_neg_r. lia. }
  assert (F : Z.land (u32 (c_flags c)) 4294901760 = 0 <-> forall i, 16 <= i < 32 -> Z.testbit (c_flags c) i = false).
  { assert (T : forall i, Z.testbit (Z.land (u32 (c_flags c)) 4294901760) i = (Z.testbit (c_flags c) i && ((16 <=? i) && (i <? 32)))%bool).
    { intros i. rewrite Z.land_spec, M. unfold u32. destruct (Z.neg_nonneg_cases i) as [N|N]; [rewrite !Z.testbit_neg_r by exact N; reflexivity|].
      destruct (Z.ltb_spec i 32) as [L|L].
      - change 4294967296 with (2 ^ 32). rewrite Z.mod_pow2_bits_low by lia. reflexivity.
      - rewrite !andb_false_r. reflexivity. }
    split; intros H.
    - intros i Hi. specialize (T i). rewrite H, Z.bits_0 in T. destruct (Z.leb_spec 16 i); [|lia]. destruct (Z.ltb_spec i 32); [|lia]. destruct (Z.testbit (c_flags c) i); [discriminate|reflexivity].
    - apply Z.bits_inj_0. intros i. rewrite T. destruct (Z.leb_spec 16 i); [|apply andb_false_r]. destruct (Z.ltb_spec i 32); [|apply andb_false_r]. rewrite H by lia. reflexivity. }
  unfold checks, allowed. destruct (Z.eqb_spec (Z.land (u32 (c_flags c)) 4294901760) 0) as [E|E]; cbn [negb].
  - pose proof (proj1 F E) as E1. destruct (Z.ltb_spec (c_max c) 1), (Z.ltb_spec 1000000 (c_max c)); cbn [orb]; try (split; [discriminate|intros (? & ? & _); lia]).
    destruct (Z.ltb_spec (c_pri c) 0), (Z.ltb_spec 5 (c_pri c)); cbn [orb]; try (split; [discriminate|intros (? & ? & _); lia]). split; [intros _|reflexivity]. split; [lia|]. split; [lia|exact E1].
  - split; [discriminate|]. intros (_ & _ & H). exfalso; apply E, (proj2 F), H.
Qed.
(** A call with arguments outside the limits fails and does nothing else; with arguments
    inside them, and a thread, it fails only if the queue could not be made or init failed. *)
Theorem C57_arguments c v s : reachable c v s ->
  (~ allowed c -> s_tr s = [] \/ exists e, s_tr s = [EReturn false e]) /\
  (allowed c -> e_pthread v = 0 -> forall e, In (EReturn false e) (s_tr s) -> e_q v <> Some 0 \/ (c_init c = true /\ e_init v < 0)).
Proof.
  intros R. split.
  - intros N. assert (CK : exists o, checks c = Some o) by (destruct (checks c) as [o|] eqn:E; [eauto|]; apply checks_allowed in E; contradiction). destruct CK as (o & CK).
    assert (G : s_b s = BNone /\ (s_c s = CStart /\ s_tr s = [] \/ s_c s = CRet /\ exists e, s_tr s = [EReturn false e])).
    { induction R as [e|s s' R IH ST]; [cbn; auto|]. destruct IH as (B & IH). destruct ST as [s' H|s' H|H _].
      - unfold creator_step in H. destruct IH as [(C & T)|(C & e & T)]; rewrite C in H; [|discriminate]. rewrite CK in H. destruct o as [x|]; injection H as <-; (split; [exact B|]); right; (split; [reflexivity|]); cbn; rewrite T; eauto.
      - unfold child_step in H. rewrite B in H. discriminate.
      - split; [exact B|]. destruct IH as [(C & T)|(C & e & T)]; destruct H; congruence. }
    destruct G as (_ & [(_ & T)|(_ & T)]); auto.
  - intros A P e H. apply in_split in H. destruct H as (l1 & l2 & E). apply checks_allowed in A. apply (C57_failure c v s l1 e l2 R A P E).
Qed.
Example C57_arguments_ex : allowed (mkCfg 3 1 100 true true) /\ ~ allowed (mkCfg 65536 1 100 true true) /\ ~ allowed (mkCfg 0 1 1000001 true true) /\ ~ allowed (mkCfg 0 6 100 true true).
Proof. rewrite <- !checks_allowed. repeat split; intros; try reflexivity; discriminate. Qed.
(** init and fini run at most once each; when the child has ended, fini has
    run. *)
Theorem C57_at_most_once c v s :
  reachable c v s ->
  (count EInit (s_tr s) <= given (c_init c))%nat /\ (count EFini (s_tr s) <= given (c_fini c))%nat /\
  (s_b s = BEnd -> count EFini (s_tr s) = given (c_fini c)).
Proof.
  intros H. pose proof (inv_reach c v s H) as HI. rewrite (i_inits _ _ _ HI), (i_finis _ _ _ HI).
  split; [|split].
  - unfold inits. destruct (s_b s); try lia; destruct (q_fails v); lia.
  - unfold finis. destruct (s_b s); try lia; destruct (fails c v); lia.
  - intros ->. reflexivity.
Qed.
(** fini never runs before init. *)
Lemma init_first_step c v s s' : Inv c v s -> step c v s s' ->
  (forall l1 l2, s_tr s = l1 ++ EInit :: l2 -> ~ In EFini l2) -> forall l1 l2, s_tr s' = l1 ++ EInit :: l2 -> ~ In EFini l2.
Proof.
  intros HI Hs IH.
  assert (C : s_tr s' = s_tr s \/ (exists x, x <> EInit /\ s_tr s' = x :: s_tr s) \/ (s_b s = BInit /\ s_tr s' = EInit :: s_tr s)).
  { destruct Hs as [s' H|s' H|]; [| |left; reflexivity].
    - unfold creator_step in H. destruct (s_c s).
      + destruct (checks c) as [[|]|]; injection H as <-; cbn; eauto. all: right; left; eexists; split; [|reflexivity]; discriminate.
      + destruct (e_pthread v =? 0), (hal_create (e_pthread v) <? 0); injection H as <-; cbn; eauto. all: right; left; eexists; split; [|reflexivity]; discriminate.
      + destruct (s_lk1 s); [discriminate|injection H as <-; auto].
      + destruct (s_done s); injection H as <-; auto.
      + destruct (s_wake s); [|discriminate]. destruct (s_lk1 s); [discriminate|injection H as <-; auto].
      + injection H as <-; auto.
      + injection H as <-; auto.
      + destruct (s_lk2 s); [discriminate|injection H as <-; auto].
      + destruct (s_res s); injection H as <-; auto.
      + destruct (s_wake s); [|discriminate]. destruct (s_lk2 s); [discriminate|injection H as <-; auto].
      + injection H as <-; auto.
      + injection H as <-; auto.
      + destruct (s_res s) as [[]|]; injection H as <-; auto; right; left; eexists; (split; [|reflexivity]); discriminate.
      + injection H as <-. right; left; eexists; (split; [|reflexivity]); discriminate.
      + discriminate.
    - unfold child_step, call_fini in H. destruct (s_b s); try discriminate; try (injection H as <-; auto; fail).
      + destruct (s_lk1 s); [discriminate|injection H as <-; auto].
      + destruct (e_q v) as [[| |]|]; injection H as <-; auto.
      + destruct (c_init c); [|injection H as <-; auto]. destruct (e_init v <? 0); injection H as <-; auto.
      + destruct (c_fini c); injection H as <-; auto. right; left; eexists; (split; [|reflexivity]); discriminate.
      + destruct (c_fini c); injection H as <-; auto. right; left; eexists; (split; [|reflexivity]); discriminate.
      + destruct (s_lk2 s); [discriminate|injection H as <-; auto]. }
  intros l1 l2 E. destruct C as [C|[(x & Hx & C)|(Hb & C)]]; rewrite C in E.
  - eauto.
  - destruct l1 as [|y l1]; [injection E as E1 _; congruence|injection E as _ E; eauto].
  - destruct l1 as [|y l1]; [|injection E as _ E; eauto]. assert (l2 = s_tr s) by (cbn [app] in E; congruence). subst l2.
    pose proof (i_finis _ _ _ HI) as F. rewrite Hb in F. cbn [finis] in F. clear - F. intros Hin.
    induction (s_tr s) as [|x l IH]; [destruct Hin|]. cbn [count] in F. destruct Hin as [Hin|Hin]; [rewrite Hin in F; cbn in F; discriminate|]. apply IH; auto. lia.
Qed.
Theorem C57_init_before_fini c v s l1 l2 : reachable c v s -> s_tr s = l1 ++ EInit :: l2 -> ~ In EFini l2.
Proof.
  intros H. revert l1 l2. induction H as [e|s s' Hr IH Hs]; intros l1 l2 E; [destruct l1; discriminate|].
  eapply init_first_step; eauto. apply inv_reach; auto.
Qed.

(** No deadlock: while the call has not returned, the creator or the child can
    go on. *)
Theorem C57_no_deadlock c v s :
  reachable c v s -> e_pthread v = 0 -> s_c s <> CRet -> creator_step c v s <> None \/ child_step c v s <> None.
Proof.
  intros H Hp Hn. pose proof (inv_reach c v s H) as HI.
  pose proof (i_fits _ _ _ HI) as Hf. pose proof (i_lk1 _ _ _ HI) as H1. pose proof (i_lk2 _ _ _ HI) as H2. pose proof (i_done _ _ _ HI) as Hd.
  pose proof (i_res _ _ _ HI) as Hr. pose proof (i_sleep1 _ _ _ HI) as S1. pose proof (i_sleep2 _ _ _ HI) as S2. clear HI H.
  unfold creator_step, child_step. rewrite H1, H2.
  destruct (s_c s) eqn:Ec; try congruence; try (left; discriminate).
  - left. destruct (checks c) as [[]|]; discriminate.
  - left. destruct (hal_create (e_pthread v) <? 0); discriminate.
  - destruct (s_b s) eqn:Eb; cbn in *; try (left; discriminate); right; discriminate.
  - left. destruct (s_done s); discriminate.
  - destruct (s_b s) eqn:Eb; cbn in *; try (rewrite (S1 eq_refl Hd); left; discriminate); try (right; discriminate).
    rewrite Hp in Hf. discriminate.
  - destruct (s_b s) eqn:Eb; cbn in *; try (left; discriminate); right; discriminate.
  - left. destruct (s_res s); discriminate.
  - destruct (s_b s) as [| | | | | | |[]|[]| | | | | |] eqn:Eb; cbn in *; try discriminate;
      try (rewrite (S2 eq_refl ltac:(rewrite Hr; discriminate)); left; discriminate); right; try discriminate.
    + destruct (e_q v) as [[| |]|]; discriminate.
    + destruct (c_init c); [destruct (e_init v <? 0)|]; discriminate.
  - left. destruct (s_res s) as [[]|]; discriminate.
Qed.

(** ... and it ends: a creation of any kind takes at most 40 steps, and at most
    three more for every spurious wake-up. *)
Definition rank_b (b : child) : nat :=
  match b with
  | BNone => 0 | BArgs => 18 | BLk1 => 17 | BDone => 16 | BUn1 => 15 | BEntry => 14 | BInit => 13
  | BFini true => 12 | BFree true => 11 | BFiniQ => 11 | BLk2 => 10 | BRes => 9 | BUn2 => 8 | BRun => 7 | BFini false => 6 | BFree false => 5 | BEnd => 0
  end%nat.
Definition rank_c (s : state) : nat :=
  match s_c s with
  | CStart => 40 | CHal => 38
  | CLk1 => 18 | CTest1 => if s_done s then 14 else 17
  | CSleep1 => if s_done s then 15 else if s_wake s then 18 else 16
  | CUn1 => 13 | CDes1 => 12
  | CLk2 => 11 | CTest2 => match s_res s with Some _ => 7 | None => 10 end
  | CSleep2 => match s_res s with Some _ => 8 | None => if s_wake s then 11 else 9 end
  | CUn2 => 6 | CDes2 => 5 | CErr => 4 | CQid => 3 | CRet => 0
  end%nat.
Inductive run (c : cfg) (v : env) : nat -> nat -> state -> state -> Prop :=
| Run_nil s : run c v 0 0 s s
| Run_creator n k s s1 s' : creator_step c v s = Some s1 -> run c v n k s1 s' -> run c v (S n) k s s'
| Run_child n k s s1 s' : child_step c v s = Some s1 -> run c v n k s1 s' -> run c v (S n) k s s'
| Run_spurious n k s s' : (s_c s = CSleep1 \/ s_c s = CSleep2) -> s_wake s = false -> run c v n k (setWake true s) s' -> run c v (S n) (S k) s s'.

Lemma rank_creator c v s s' : Inv c v s -> creator_step c v s = Some s' -> (rank_c s' + rank_b (s_b s') < rank_c s + rank_b (s_b s))%nat.
Proof.
  intros HI H. pose proof (i_fits _ _ _ HI) as Hf. pose proof (i_sleep1 _ _ _ HI) as S1. pose proof (i_sleep2 _ _ _ HI) as S2. clear HI.
  destruct s as [cc b lk1 lk2 wk dn res err lv1 lv2 q be ce se bad badq tr].
  cbn [s_c s_b s_lk1 s_lk2 s_wake s_done s_res s_err s_live1 s_live2 s_q s_berr s_cerr s_serr s_bad s_badq s_tr] in *.
  unfold creator_step, rank_c in *. cbn [s_c s_lk1 s_lk2 s_done s_res s_wake s_b] in *. destruct cc.
  - destruct (checks c) as [[|]|]; injection H as <-; cbn; lia.
  - destruct b; try discriminate. destruct (e_pthread v =? 0), (hal_create (e_pthread v) <? 0); injection H as <-; cbn; lia.
  - destruct lk1; [discriminate|]. injection H as <-. cbn. destruct dn; lia.
  - destruct dn; injection H as <-; cbn; lia.
  - destruct wk; [|discriminate]. destruct lk1; [discriminate|]. injection H as <-. cbn. destruct dn; lia.
  - injection H as <-. cbn. lia.
  - injection H as <-. cbn. lia.
  - destruct lk2; [discriminate|]. injection H as <-. cbn. destruct res; lia.
  - destruct res; injection H as <-; cbn; lia.
  - destruct wk; [|discriminate]. destruct lk2; [discriminate|]. injection H as <-. cbn. destruct res; lia.
  - injection H as <-. cbn. lia.
  - injection H as <-. cbn. lia.
  - destruct res as [[]|]; injection H as <-; cbn; lia.
  - injection H as <-. cbn. lia.
  - discriminate.
Qed.
Lemma rank_child c v s s' : Inv c v s -> child_step c v s = Some s' -> (rank_c s' + rank_b (s_b s') < rank_c s + rank_b (s_b s))%nat.
Proof.
  intros HI H. pose proof (i_way _ _ _ HI) as Hw. pose proof (i_done _ _ _ HI) as Hd. pose proof (i_res _ _ _ HI) as Hr.
  pose proof (i_fits _ _ _ HI) as Hf. pose proof (i_q _ _ _ HI) as Hq. clear HI.
  destruct s as [cc b lk1 lk2 wk dn res err lv1 lv2 q be ce se bad badq tr].
  cbn [s_c s_b s_lk1 s_lk2 s_wake s_done s_res s_err s_live1 s_live2 s_q s_berr s_cerr s_serr s_bad s_badq s_tr] in *.
  assert (Sm : s_c s' = cc /\ (rank_b (s_b s') < rank_b b)%nat /\
     ((s_done s' = dn /\ s_res s' = res /\ s_wake s' = wk) \/ (s_done s' = true /\ s_res s' = res /\ dn = false /\ b = BDone) \/ (s_done s' = dn /\ res = None /\ s_res s' <> None /\ b = BRes))).
  { unfold child_step, call_fini in H. cbn [s_b s_lk1 s_lk2] in H. destruct b; try discriminate; try (injection H as <-; cbn; split; [auto|split; [lia|auto]]; fail).
    - destruct lk1; [discriminate|]. injection H as <-; cbn; split; [auto|split; [lia|auto]].
    - injection H as <-; cbn in *. split; [auto|split; [lia|auto]]. right. left. auto.
    - destruct (e_q v) as [[| |]|]; injection H as <-; cbn; (split; [auto|split; [lia|auto]]).
    - destruct (c_init c); [|injection H as <-; cbn; (split; [auto|split; [lia|auto]])]. destruct (e_init v <? 0); injection H as <-; cbn; (split; [auto|split; [lia|auto]]).
    - destruct (c_fini c); injection H as <-; cbn; (split; [auto|split; [destruct rep; lia|auto]]).
    - injection H as <-; cbn; (split; [auto|split; [destruct rep; cbn; lia|auto]]).
    - destruct (c_fini c); injection H as <-; cbn; (split; [auto|split; [lia|auto]]).
    - destruct lk2; [discriminate|]. injection H as <-; cbn; split; [auto|split; [lia|auto]].
    - injection H as <-; cbn in *. split; [auto|split; [lia|auto]]. right. right. split; [auto|split; [auto|split; [discriminate|auto]]].
    - injection H as <-; cbn. split; [auto|split; [|auto]]. destruct q as [[]|]; cbn; lia. }
  destruct Sm as (Sc & Sb & Sd). unfold rank_c. cbn [s_c s_done s_res s_wake]. rewrite Sc.
  destruct Sd as [(Ed & Er & Ew)|[(Ed & Er & Ed0 & Eb)|(Ed & Er & Er' & Eb)]].
  - rewrite Ed, Er, Ew. lia.
  - rewrite Ed, Er, Ed0. subst b. destruct cc; cbn in Hf; try discriminate; try lia. destruct wk; lia.
  - rewrite Ed, Er. subst b. cbn in Hd. rewrite Hd. destruct (s_res s'); [|congruence]. destruct cc; cbn in Hf; try discriminate; try lia. destruct wk; lia.
Qed.
Theorem C57_ends c v n k s s' : reachable c v s -> run c v n k s s' -> (n <= 40 + 18 + 3 * k)%nat.
Proof.
  intros H R.
  assert (G : (n + (rank_c s' + rank_b (s_b s')) <= rank_c s + rank_b (s_b s) + 3 * k)%nat).
  { induction R as [s|n k s s1 s' E R IH|n k s s1 s' E R IH|n k s s' Hs Hw R IH].
    - lia.
    - pose proof (rank_creator c v s s1 (inv_reach _ _ _ H) E). specialize (IH (R_step _ _ _ _ H (S_creator _ _ _ _ E))). lia.
    - pose proof (rank_child c v s s1 (inv_reach _ _ _ H) E). specialize (IH (R_step _ _ _ _ H (S_child _ _ _ _ E))). lia.
    - specialize (IH (R_step _ _ _ _ H (S_spurious _ _ _ Hs Hw))).
      assert ((rank_c (setWake true s) <= rank_c s + 2)%nat).
      { unfold rank_c. cbn [setWake s_c s_done s_res s_wake]. rewrite Hw. destruct (s_c s); destruct (s_done s), (s_res s); lia. }
      change (s_b (setWake true s)) with (s_b s) in IH. lia. }
  assert ((rank_c s <= 40)%nat) by (unfold rank_c; destruct (s_c s), (s_done s), (s_res s), (s_wake s); lia).
  assert ((rank_b (s_b s) <= 18)%nat) by (destruct (s_b s) as [| | | | | | |[]|[]| | | | | |]; cbn; lia).
  lia.
Qed.

(** ** What does not hold *)

(** If the system refuses the thread (pthread_create returns a positive error
    number), the error is not noticed (aosl_hal_thread.c 24 tests for a negative
    one): the call never returns, whatever happens. *)
Theorem C57_thread_refused_refuted c v s :
  reachable c v s -> checks c = None -> 0 < e_pthread v ->
  (forall l1 ok e l2, s_tr s <> l1 ++ EReturn ok e :: l2) /\ s_c s <> CRet.
Proof.
  intros H Hc Hp. split.
  - intros l1 ok e l2 E. pose proof (i_ret _ _ _ (inv_reach c v s H) _ _ _ _ E) as (_ & _ & R). specialize (R Hc). lia.
  - assert (s_b s = BNone /\ (s_c s = CStart \/ s_c s = CHal \/ s_c s = CLk1 \/ s_c s = CTest1 \/ s_c s = CSleep1)) as (_ & D).
    { pose proof H as H0. induction H as [e|s s' Hr IH Hs]; [cbn; auto|]. destruct (IH Hr) as (Hb & D). clear IH.
      pose proof (i_done _ _ _ (inv_reach c v s Hr)) as Hd. rewrite Hb in Hd. cbn in Hd.
      destruct Hs as [s' E|s' E|]; [|unfold child_step in E; rewrite Hb in E; discriminate|cbn [setWake s_c s_b]; auto].
      unfold creator_step in E. destruct D as [D|[D|[D|[D|D]]]]; rewrite D in E.
      - rewrite Hc in E. injection E as <-. cbn. auto.
      - unfold hal_create in E. destruct (Z.eqb_spec (e_pthread v) 0); [lia|]. destruct (Z.ltb_spec (e_pthread v) 0); [lia|]. injection E as <-. cbn. auto.
      - destruct (s_lk1 s); [discriminate|]. injection E as <-. cbn. auto 6.
      - rewrite Hd in E. injection E as <-. cbn. auto 6.
      - destruct (s_wake s); [|discriminate]. destruct (s_lk1 s); [discriminate|]. injection E as <-. cbn. auto 6. }
    destruct D as [D|[D|[D|[D|D]]]]; rewrite D; discriminate.
Qed.

(** A call that fails on its arguments (the flags, the size or the priority) never
    runs fini, unlike one that fails later: the caller cannot tell whether the
    resources that fini is to free are gone. *)
Theorem C57_failed_fini_refuted c v s :
  reachable c v s -> checks c <> None -> ~ In EFini (s_tr s) /\ (s_c s = CRet -> exists e, s_tr s = [EReturn false e]).
Proof.
  intros H Hc. assert (G : s_b s = BNone /\ ((s_c s = CStart /\ s_tr s = []) \/ (s_c s = CRet /\ exists e, s_tr s = [EReturn false e]))).
  { induction H as [e|s s' Hr IH Hs]; [cbn; auto|]. destruct IH as (Hb & D).
    destruct Hs as [s' E|s' E|D2 _]; [|unfold child_step in E; rewrite Hb in E; discriminate|].
    - unfold creator_step in E. destruct D as [(D & Dt)|(D & _)]; rewrite D in E; [|discriminate].
      destruct (checks c) as [[|]|]; [| |congruence]; injection E as <-; cbn; rewrite Dt; eauto.
    - destruct D as [(D & _)|(D & _)]; rewrite D in D2; destruct D2; discriminate. }
  destruct G as (_ & [(G1 & G2)|(G1 & e & G2)]); rewrite G2.
  - split; [auto|]. intros; congruence.
  - split; [|eauto]. intros [F|[]]. discriminate.
Qed.
(** ... and with a priority out of range it does not set aosl_errno: the caller
    sees whatever was there. *)
Theorem C57_priority_errno_refuted :
  exists c, forall v e, exists s, reachable c v s /\ s_tr s = [EReturn false e].
Proof.
  exists (mkCfg 0 6 100 false false). intros v e. eexists. split; [eapply R_step; [apply R_init|apply S_creator; reflexivity]|]. reflexivity.
Qed.
(** A queue whose memory cannot be allocated is reported with aosl_errno 0. *)
Theorem C57_no_memory_errno_refuted c v s l1 e l2 :
  reachable c v s -> checks c = None -> e_pthread v = 0 -> e_q v = None -> s_tr s = l1 ++ EReturn false e :: l2 -> e = 0.
Proof.
  intros H Hc Hp Hq E. pose proof (i_ret _ _ _ (inv_reach c v s H) _ _ _ _ E) as (R1 & _). destruct (R1 Hc Hp) as (R & _ & Rf).
  destruct Rf as (_ & Rf); [unfold fails, q_fails; rewrite Hq; auto|]. unfold failure in Rf. rewrite Hq in Rf. auto.
Qed.

(** ** Runs, for the concrete cases *)
Fixpoint go (c : cfg) (v : env) (l : list who) (s : state) : option state :=
  match l with
  | [] => Some s
  | Creator :: l => match creator_step c v s with Some s' => go c v l s' | None => None end
  | Child :: l => match child_step c v s with Some s' => go c v l s' | None => None end
  end.
Lemma go_reach c v l : forall s s', reachable c v s -> go c v l s = Some s' -> reachable c v s'.
Proof.
  induction l as [|[] l IH]; intros s s' H E; cbn [go] in E; [congruence| |].
  - destruct (creator_step c v s) eqn:E1; [|discriminate]. eapply IH; [|eauto]. eapply R_step; [eauto|]. apply S_creator. auto.
  - destruct (child_step c v s) eqn:E1; [|discriminate]. eapply IH; [|eauto]. eapply R_step; [eauto|]. apply S_child. auto.
Qed.
Definition ex_c : cfg := mkCfg 1 2 100 true true.
Definition ex_v : env := mkEnv 0 (Some 0) 0 7 8.
Definition ex_bad : env := mkEnv 0 (Some 0) (-1) 7 8.
Definition times (n : nat) (w : who) : list who := repeat w n.

(** The creator waits in both places, and gets the queue. *)
Example ex_success : exists s, reachable ex_c ex_v s /\ s_tr s = [EReturn true 5; EInit] /\ s_b s = BRun /\ s_badq s = false.
Proof.
  destruct (go ex_c ex_v (times 4 Creator ++ times 4 Child ++ times 6 Creator ++ times 5 Child ++ times 6 Creator) (init_state 5)) as [s|] eqn:E; [|vm_compute in E; discriminate].
  exists s. split; [eapply go_reach; [apply R_init|eauto]|]. vm_compute in E. injection E as <-. auto.
Qed.
(** init fails: fini has run, the failure of init is reported, not that of fini. *)
Example ex_failure : exists s, reachable ex_c ex_bad s /\ s_tr s = [EReturn false 7; EFini; EInit].
Proof.
  destruct (go ex_c ex_bad (times 4 Creator ++ times 4 Child ++ times 6 Creator ++ times 7 Child ++ times 5 Creator) (init_state 5)) as [s|] eqn:E; [|vm_compute in E; discriminate].
  exists s. split; [eapply go_reach; [apply R_init|eauto]|]. vm_compute in E. injection E as <-. auto.
Qed.
(** The queue is told to end before the creator has read its id (its init, or
    another thread, destroys it): the creator reads the freed queue object. *)
Theorem C57_id_of_freed_queue_refuted : exists c v s, reachable c v s /\ s_badq s = true /\ s_tr s = [EReturn true 5; EFini; EInit].
Proof.
  exists ex_c, ex_v.
  destruct (go ex_c ex_v (times 4 Creator ++ times 4 Child ++ times 6 Creator ++ times 8 Child ++ times 6 Creator) (init_state 5)) as [s|] eqn:E; [|vm_compute in E; discriminate].
  exists s. split; [eapply go_reach; [apply R_init|eauto]|]. vm_compute in E. injection E as <-. auto.
Qed.
(** ... and only then. *)
Theorem C57_id_read c v s : reachable c v s -> s_badq s = true -> s_b s = BEnd.
Proof.
  intros H. induction H as [e|s s' Hr IH Hs]; [discriminate|]. pose proof (inv_reach c v s Hr) as HI. intros Hq.
  destruct (s_badq s) eqn:Eb.
  - specialize (IH eq_refl). destruct Hs as [s' E|s' E|]; [|unfold child_step in E; rewrite IH in E; discriminate|auto].
    assert (G : s_b s' = s_b s \/ s_c s = CHal).
    { unfold creator_step in E. destruct (s_c s); auto; left.
      - destruct (checks c) as [[|]|]; injection E as <-; auto.
      - destruct (s_lk1 s); [discriminate|injection E as <-; auto].
      - destruct (s_done s); injection E as <-; auto.
      - destruct (s_wake s); [|discriminate]. destruct (s_lk1 s); [discriminate|injection E as <-; auto].
      - injection E as <-; auto.
      - injection E as <-; auto.
      - destruct (s_lk2 s); [discriminate|injection E as <-; auto].
      - destruct (s_res s); injection E as <-; auto.
      - destruct (s_wake s); [|discriminate]. destruct (s_lk2 s); [discriminate|injection E as <-; auto].
      - injection E as <-; auto.
      - injection E as <-; auto.
      - destruct (s_res s) as [[]|]; injection E as <-; auto.
      - injection E as <-; auto.
      - discriminate. }
    destruct G as [G|G]; [congruence|]. pose proof (i_fits _ _ _ HI) as F. rewrite G, IH in F. discriminate.
  - destruct Hs as [s' E|s' E|]; [| |cbn in Hq; congruence].
    + unfold creator_step in E. destruct (s_c s) eqn:Ec.
      14: { injection E as <-. cbn in Hq |- *. rewrite Eb in Hq. pose proof (i_q _ _ _ HI) as Q. pose proof (i_fits _ _ _ HI) as F. rewrite Ec in F.
            rewrite Q in Hq. destruct (s_b s) as [| | | | | | |[]|[]| | | | | |]; cbn in F, Hq; try discriminate; auto. }
      all: exfalso; revert Hq.
      * destruct (checks c) as [[|]|]; injection E as <-; cbn; congruence.
      * destruct (e_pthread v =? 0), (hal_create (e_pthread v) <? 0); injection E as <-; cbn; congruence.
      * destruct (s_lk1 s); [discriminate|injection E as <-; cbn; congruence].
      * destruct (s_done s); injection E as <-; cbn; congruence.
      * destruct (s_wake s); [|discriminate]. destruct (s_lk1 s); [discriminate|injection E as <-; cbn; congruence].
      * injection E as <-; cbn; congruence.
      * injection E as <-; cbn; congruence.
      * destruct (s_lk2 s); [discriminate|injection E as <-; cbn; congruence].
      * destruct (s_res s); injection E as <-; cbn; congruence.
      * destruct (s_wake s); [|discriminate]. destruct (s_lk2 s); [discriminate|injection E as <-; cbn; congruence].
      * injection E as <-; cbn; congruence.
      * injection E as <-; cbn; congruence.
      * destruct (s_res s) as [[]|]; injection E as <-; cbn; congruence.
      * discriminate.
    + exfalso. revert Hq. unfold child_step, call_fini in E. destruct (s_b s); try discriminate; try (injection E as <-; cbn; congruence).
      * destruct (s_lk1 s); [discriminate|injection E as <-; cbn; congruence].
      * destruct (e_q v) as [[| |]|]; injection E as <-; cbn; congruence.
      * destruct (c_init c); [destruct (e_init v <? 0)|]; injection E as <-; cbn; congruence.
      * destruct (c_fini c); injection E as <-; cbn; congruence.
      * destruct (c_fini c); injection E as <-; cbn; congruence.
      * destruct (s_lk2 s); [discriminate|injection E as <-; cbn; congruence].
Qed.

(** ** Priorities *)

(** A higher priority never gets a lower priority of the system, and all of them
    lie strictly inside the system's range. *)
Theorem C57_priority_order lo hi p q a b :
  0 <= lo -> p <= q -> os_priority lo hi p = Some a -> os_priority lo hi q = Some b -> a <= b /\ lo < a /\ b < hi.
Proof.
  unfold os_priority. intros Hl Hpq. destruct (Z.leb_spec (hi - lo) 2); [discriminate|]. cbv zeta.
  assert (D : forall x, x = 1 \/ x = 2 \/ x = 3 \/ x = 4 \/ x = 5 \/ (match x with 1 => Some (lo + 1) | 2 => Some (Z.quot (lo + 1 + (hi - 1) - 1) 2)
    | 3 => Some (Z.max (hi - 1 - 2) (lo + 1)) | 4 => Some (Z.max (hi - 1 - 1) (lo + 1)) | 5 => Some (hi - 1) | _ => None end) = None).
  { intros x. destruct x as [|x|x]; auto 10. do 3 (try destruct x as [x|x|]); auto 10. }
  pose proof (Z.quot_div_nonneg (lo + 1 + (hi - 1) - 1) 2 ltac:(lia) ltac:(lia)) as Q. rewrite Q in *. clear Q.
  pose proof (Z.div_mod (lo + 1 + (hi - 1) - 1) 2 ltac:(lia)). pose proof (Z.mod_pos_bound (lo + 1 + (hi - 1) - 1) 2 eq_refl).
  intros Ea Eb.
  destruct (D p) as [->|[->|[->|[->|[->|N]]]]]; [| | | | |congruence];
  (destruct (D q) as [->|[->|[->|[->|[->|N]]]]]; [| | | | |congruence]); try lia; injection Ea as <-; injection Eb as <-; lia.
Qed.
(** Every priority of the API but 0 (the default) has one. *)
Theorem C57_priority_known lo hi p : 2 < hi - lo -> 1 <= p <= 5 -> exists a, os_priority lo hi p = Some a.
Proof.
  unfold os_priority. intros H Hp. destruct (Z.leb_spec (hi - lo) 2); [lia|].
  assert (p = 1 \/ p = 2 \/ p = 3 \/ p = 4 \/ p = 5) as [->|[->|[->|[->| ->]]]] by lia; eexists; reflexivity.
Qed.
Example ex_priorities : map (os_priority 1 99) [1; 2; 3; 4; 5] = [Some 2; Some 49; Some 96; Some 97; Some 98].
Proof. reflexivity. Qed.

Print Assumptions C57_frames.
Print Assumptions C57_success.
Print Assumptions C57_arguments. Print Assumptions C57_failure.
Print Assumptions C57_at_most_once.
Print Assumptions C57_init_before_fini.
Print Assumptions C57_no_deadlock.
Print Assumptions C57_ends.
Print Assumptions C57_thread_refused_refuted.
Print Assumptions C57_failed_fini_refuted.
Print Assumptions C57_priority_errno_refuted.
Print Assumptions C57_no_memory_errno_refuted.
Print Assumptions C57_id_of_freed_queue_refuted.
Print Assumptions C57_id_read.
Print Assumptions C57_priority_order.
Print Assumptions C57_priority_known.
