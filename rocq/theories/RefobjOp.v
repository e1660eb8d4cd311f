(** * Steps of the operations keep the invariant. *)
From Verif Require Import Base Refobj RefobjInv RefobjStep.

Record facts (T o : nat) (r : obj) (i : bool) (k : nat -> list frame) (t : nat) (x : frame) (l : list frame) : Prop := mkF {
  f_use : use x + csum use l + (b2z i + sumT T (fun t => csum ownc (k t))) <= usage r;
  f_own : ownc x + csum ownc l <= sumT T (fun t => csum ownc (k t));
  f_own1 : b2z i + sumT T (fun t => csum ownc (k t)) <= 1;
  f_rd : thr (x :: l) <= readers r;
  f_thr : 0 <= thr l;
  f_wr : wrw x + csum wrw l <= b2z (writer r);
  f_lk : lkw x + csum lkw l <= b2z (lk r);
  f_wrlk : b2z (writer r) <= b2z (lk r);
  f_ex : writer r = true -> readers r = 0;
  f_lc : lc r t = if 0 <? wlc x + csum wlc l then LWr else LRd (Z.to_nat (rdc x + csum rdc l));
  f_lc2 : wlc x + csum wlc l <= 1 /\ (0 < wlc x + csum wlc l -> rdc x + csum rdc l = 0);
  f_gc : cfree r = true -> gc r t = gcc x + csum gcc l;
  f_wf : wfx r o x l; f_wfl : wfs r o l;
  f_des : destroyed r = true -> openc x = 0 /\ csum openc l = 0;
  f_own0 : i = false -> sumT T (fun t => csum ownc (k t)) = 0 -> destroyed r = true;
  f_fin : finc x + csum finc l <= sumT T (fun t => csum finc (k t));
  f_fin1 : 0 < usage r -> sumT T (fun t => csum finc (k t)) = 0 /\ gone r = false;
  f_fin2 : usage r = 0 -> sumT T (fun t => csum finc (k t)) + b2z (gone r) = 1;
  f_dw : dwc x + csum dwc l <= sumT T (fun t => csum dwc (k t));
  f_wait : forall tw, waited r = Some tw -> i = false /\ sumT T (fun t => csum ownc (k t)) = 0 /\ (tw <> t -> use x + csum use l = 0);
  f_wait2 : cfree r = true -> async r = false -> i = false -> sumT T (fun t => csum ownc (k t)) = 0 -> 0 < sumT T (fun t => csum dwc (k t)) \/ waited r <> None;
  f_nn : 0 <= csum use l /\ 0 <= csum ownc l /\ 0 <= csum rdc l /\ 0 <= csum wlc l /\ 0 <= csum wrw l /\ 0 <= csum lkw l /\ 0 <= csum gcc l /\ 0 <= csum openc l /\ 0 <= csum finc l /\ 0 <= csum dwc l }.
Lemma facts_of T o r i k t x l : OInv T o r i k -> (t < T)%nat -> k t = x :: l -> facts T o r i k t x l.
Proof.
  intros [V1 V2 V3 V4 V5 V6 V7 V8 V9 V10 V11 V12 V13 V14 V15 V16 V17] Ht Hk.
  assert (G : forall c, (forall y, 0 <= c y) -> c x + csum c l <= sumT T (fun u => csum c (k u))).
  { intros c Hc. pose proof (sumT_ge T (fun u => csum c (k u)) t Ht (fun u => csum_nonneg c (k u) Hc)) as Q. cbn beta in Q. rewrite Hk in Q. exact Q. }
  assert (LK1 : forall u, (u < T)%nat -> csum lkw (k u) <= 1).
  { intros u Hu. pose proof (sumT_ge T (fun u => csum lkw (k u)) u Hu (fun u => csum_nonneg lkw (k u) lkw_nn)) as Q. cbn beta in Q. rewrite <- V5 in Q. destruct (lk r); cbn in Q; lia. }
  assert (TH : forall u, (u < T)%nat -> 0 <= thr (k u)) by (intros u Hu; apply (thr_nonneg r o); auto).
  assert (TS : thr (k t) <= sumT T (fun u => thr (k u))).
  { assert (Q : sumT T (fun u => thr (k u)) = sumT T (fun u => if (u <? T)%nat then thr (k u) else 0)).
    { apply sumT_ext. intros u Hu. apply Nat.ltb_lt in Hu. rewrite Hu. reflexivity. }
    rewrite Q. pose proof (sumT_ge T (fun u => if (u <? T)%nat then thr (k u) else 0) t Ht) as W. cbn beta in W. pose proof Ht as Hb. apply Nat.ltb_lt in Hb. rewrite Hb in W. apply W.
    intros u. destruct (Nat.ltb_spec u T); [auto|lia]. }
  specialize (LK1 t Ht) as LKt. rewrite Hk in LKt, TS. cbn [csum] in LKt. pose proof (lkw_nn x).
  specialize (V7 t Ht). specialize (V8 t Ht). specialize (V10 t Ht). rewrite Hk in V7, V8, V10. cbn [csum wfs] in V7, V8, V10.
  constructor; try (apply G; auto using own_nn, finc_nn, dwc_nn); try (split; fail); auto.
  - pose proof (G use use_nn). lia.
  - lia.
  - apply (thr_nonneg r o); [tauto|lia].
  - rewrite V4. apply G. apply wrw_nn.
  - rewrite V5. apply G. apply lkw_nn.
  - rewrite V4, V5. clear -T. induction T as [|n IH]; cbn [sumT]; [lia|]. pose proof (wrw_lkw (k n)). lia.
  - intros C. specialize (V9 C t Ht). rewrite Hk in V9. exact V9.
  - tauto.
  - tauto.
  - intros Dd. specialize (V11 Dd t Ht). rewrite Hk in V11. cbn [csum] in V11. pose proof (openc_nn x). pose proof (csum_nonneg openc l openc_nn). lia.
  - intros tw W. destruct (V16 tw W) as [A [B C]]. split; [assumption|]. split; [assumption|]. intros N. specialize (C t Ht ltac:(congruence)). rewrite Hk in C. exact C.
  - repeat split; apply csum_nonneg; auto using use_nn, own_nn, rdc_nn, wlc_nn, wrw_nn, lkw_nn, gcc_nn, openc_nn, finc_nn, dwc_nn.
Qed.

Ltac simp := cbn [oid async recur cfree usage destroyed readers writer lk rd2 lc gc rel gone waited set_usage set_destroyed set_lock set_rd2 set_lc set_gc set_rel set_gone set_waited set_oid rdunlock_raw
  csum use ownc finc finm rdc wlc rraw wrw lkw gcc openc dwc b2z app wfs] in *; rewrite ?Z.add_0_l in *.
Ltac posefacts F := let F1 := fresh in pose proof F as F1; destruct F1 as [A1 A2 A3 A4 A5 A6 A7 A8 A9 A10 A11 A12 A13 A14 A15 A16 A17 A18 A19 A20 A21 A22 A23].
Ltac ltbs := repeat match goal with |- context [0 <? ?z] => destruct (Z.ltb_spec 0 z); try lia | H : context [0 <? ?z] |- _ => destruct (Z.ltb_spec 0 z); try lia end.
Ltac lf := try reflexivity; try assumption; try lia; try (intros; lia); try (intros; assumption); try (intros; congruence); try tauto.
Ltac lf2 := lf;
  match goal with
  | |- _ = true -> (_ /\ _) \/ (forall u, _) => let D := fresh in intros D; left; split; lf
  | |- _ = false -> _ = 0 -> (_ /\ _) \/ _ = true => let a := fresh in let b := fresh in intros a b; try (left; split; lf; fail); try (right; lf; fail)
  | |- 0 < _ -> 0 < _ /\ _ /\ _ = _ => let a := fresh in intros a; split; [|split]; lf
  | |- forall tw, _ = Some tw -> _ \/ _ => let a := fresh in let b := fresh in intros a b; try (left; split; [exact b|]; split; [|split]; lf; fail)
  | |- cfree _ = true -> async _ = false -> _ -> _ -> _ \/ _ <> None => let a := fresh in let b := fresh in let c := fresh in let d := fresh in intros a b c d; try (match goal with A : cfree _ = true -> async _ = false -> _ -> _ -> _ \/ _ |- _ => destruct (A a b c ltac:(lia)); [left; lia|right; assumption] end)
  | |- forall u, u <> _ -> fupd _ _ _ u = _ => let a := fresh in let b := fresh in intros a b; apply fupd_ne; exact b
  | |- fupd _ _ _ _ = _ => rewrite fupd_eq
  | |- _ -> fupd _ _ _ _ = _ => rewrite fupd_eq
  | |- wfx _ _ _ _ /\ _ => split; [|try (eapply wfs_mono; [| | |eassumption]; lf; fail)]
  | _ => idtac end.
Lemma lc_rd (a b : Z) n : (if 0 <? a then LWr else LRd (Z.to_nat b)) = LRd n -> 0 <= a -> 0 <= b -> a = 0 /\ b = Z.of_nat n.
Proof. destruct (Z.ltb_spec 0 a); intros E A B; [discriminate E|]. assert (Z.to_nat b = n) by congruence. lia. Qed.
Lemma lc_mk (a b : Z) n : a = 0 -> b = Z.of_nat n -> LRd n = (if 0 <? a then LWr else LRd (Z.to_nat b)).
Proof. intros -> ->. cbn. rewrite Nat2Z.id. reflexivity. Qed.
Lemma lc_mkw (a : Z) b : 0 < a -> LWr = (if 0 <? a then LWr else b).
Proof. intros H. apply Z.ltb_lt in H. rewrite H. reflexivity. Qed.
Ltac lf3 := try (apply lc_mk; lia); try (apply lc_mkw; lia); try (unfold locked_ok in *; simp; intuition (auto; congruence); fail); try (ltbs; fail).
Ltac updgo H Ht Hk F := 
  eapply (OInv_upd _ _ _ _ _ _ _ _ _ _ _ H Ht Hk); posefacts F; simp; unfold thr in *; simp; 
  repeat match goal with W : writer _ = _ |- _ => rewrite W in *; clear W | W : lk _ = _ |- _ => rewrite W in *; clear W end; cbn [b2z] in *; lf2; try (cbn [wfx] in *; lf); try (lf3; fail).

Ltac putfin := try (split; [cbn [wfx] in *; simp; intuition auto|eapply wfs_mono; [| | |eassumption]; lf]; fail);
  try (intros _; match goal with A : 0 < usage _ -> _ = 0 /\ _ = false |- _ => let X := fresh in let Y := fresh in destruct (A ltac:(lia)) as [X Y]; rewrite X, Y; cbn [b2z]; lia end).
Ltac eqs E := match type of E with Go ?a ?b ?c ?d = Go ?a' ?b' ?c' ?d' => 
  let X := fresh in assert (X : a' = a /\ b' = b /\ c' = c) by (repeat split; congruence); destruct X as [-> [-> ->]]; clear E end.

Lemma op_ok T o r i k t nr kd h st e l r' i' fs es :
  OInv T o r i k -> (t < T)%nat -> k t = FOp o nr kd h st e :: l -> Forall below_ok l ->
  op_step t o r i nr kd h st e l = Go r' i' fs es -> OInv T o r' i' (fupd k t (fs ++ l)).
Proof.
  intros H Ht Hk B E. pose proof (facts_of _ _ _ _ _ _ _ _ H Ht Hk) as F.
  pose proof (f_wf _ _ _ _ _ _ _ _ F) as WF. cbn [wfx] in WF. destruct WF as [W1 [W2 W3]].
  pose proof (f_lc _ _ _ _ _ _ _ _ F) as FL. pose proof (f_nn _ _ _ _ _ _ _ _ F) as NN.
  destruct st; cbn [op_step] in E.
  - (* SGot *) subst h. simp. destruct kd.
    + eqs E. updgo H Ht Hk F.
    + destruct (onq o l && negb (async r)) eqn:NL.
      * eqs E. apply andb_true_iff in NL. destruct NL as [N1 N2]. apply negb_true_iff in N2. pose proof (onq_open r o l (f_wfl _ _ _ _ _ _ _ _ F) N1 N2).
        updgo H Ht Hk F.
      * destruct (lc r t) as [n|] eqn:LC; [|discriminate]. destruct (negb (recur r) && (0 <? n)%nat); [discriminate|]. symmetry in FL. apply lc_rd in FL; [|tauto|tauto]. destruct FL as [L1 L2].
        destruct (n =? 0)%nat eqn:N0.
        -- destruct (writer r) eqn:W; [discriminate|]. eqs E. apply Nat.eqb_eq in N0. subst n. updgo H Ht Hk F.
        -- eqs E. apply Nat.eqb_neq in N0. updgo H Ht Hk F. 
    + destruct (lc r t) as [[|n]|] eqn:LC; try discriminate. symmetry in FL. apply lc_rd in FL; [|tauto|tauto]. destruct FL as [L1 L2].
      destruct (onq o l && negb (async r)) eqn:NL.
      * apply andb_true_iff in NL. destruct NL as [N1 N2]. apply negb_true_iff in N2. destruct (lk r) eqn:K; [destruct (rd2 r); discriminate|]. eqs E. updgo H Ht Hk F.
      * destruct (lk r) eqn:K; [discriminate|]. destruct (writer r) eqn:W; [discriminate|]. destruct (readers r =? 0) eqn:R0; [|discriminate]. apply Z.eqb_eq in R0. cbn [orb negb] in E. eqs E. updgo H Ht Hk F.
  - (* SUpLk *) eqs E. destruct W3 as [-> [-> [N1 N2]]]. pose proof (raw_lower r o l (f_wfl _ _ _ _ _ _ _ _ F)) as RL. rewrite N1, N2 in RL. cbn [andb negb] in RL. updgo H Ht Hk F.
    intros W. rewrite W in *. specialize (A9 eq_refl). simp. destruct (lk r); simp; ltbs.
  - (* SUpGap *) destruct (writer r) eqn:W; [discriminate|]. destruct (readers r =? 0) eqn:R0; [|discriminate]. apply Z.eqb_eq in R0. cbn [orb negb] in E. eqs E. destruct W3 as [-> [-> [N1 N2]]]. updgo H Ht Hk F.
  - (* SLocked *) destruct (destroyed r) eqn:Dd.
    + destruct W3 as [[-> [-> N]]|[[-> ->]|[-> [-> [N1 N2]]]]]; [eqs E|eqs E|discriminate]; updgo H Ht Hk F.
    + eqs E. destruct W3 as [[-> [-> N]]|[[-> ->]|[-> [-> [N1 N2]]]]]; updgo H Ht Hk F.
  - discriminate.
  - (* SUnl *) destruct kd.
    + eqs E. destruct W3 as [[_ ->]|[[X _]|[[X _]|[[X _]|[X _]]]]]; try discriminate X. updgo H Ht Hk F.
    + destruct W3 as [[X _]|[[_ [-> [N1 N2]]]|[[_ [-> N]]|[[X _]|[X _]]]]]; try discriminate X.
      * rewrite N1, N2 in E. cbn [andb negb] in E. eqs E. updgo H Ht Hk F.
      * rewrite N in E. destruct (lc r t) as [[|n]|] eqn:LC; try discriminate. symmetry in FL. simp. apply lc_rd in FL; [|tauto|lia]. destruct FL as [L1 L2]. destruct (n =? 0)%nat eqn:N0; eqs E.
        -- apply Nat.eqb_eq in N0. subst n. updgo H Ht Hk F.
        -- apply Nat.eqb_neq in N0. updgo H Ht Hk F.
    + destruct W3 as [[X _]|[[X _]|[[X _]|[[_ ->]|[_ [-> [N1 N2]]]]]]]; try discriminate X; eqs E; updgo H Ht Hk F. all: destruct (writer r), (lk r); simp; lia.
  - (* SDownGap *) destruct (writer r) eqn:W; [discriminate|]. eqs E. destruct W3 as [-> [-> [N1 N2]]]. updgo H Ht Hk F.
  - (* SDownLk *) eqs E. destruct W3 as [-> [-> [N1 N2]]]. updgo H Ht Hk F. destruct (lk r); simp; lia.
  - (* SPut *) destruct nr; [eqs E; destruct h; updgo H Ht Hk F|]. unfold refobj_put in E.
    destruct (cfree r) eqn:CF.
    + destruct (gc r t <? 1); [discriminate|]. unfold put in E. simp. destruct (usage r - 1 =? 0) eqn:U; eqs E; [apply Z.eqb_eq in U|apply Z.eqb_neq in U]; destruct h; updgo H Ht Hk F. all: putfin.
    + unfold put in E. simp. destruct (usage r - 1 =? 0) eqn:U; eqs E; [apply Z.eqb_eq in U|apply Z.eqb_neq in U]; destruct h; updgo H Ht Hk F. all: putfin.
  - (* SRet *) eqs E. destruct h, nr; updgo H Ht Hk F. all: match goal with |- ?g => idtac g; idtac "--" end.
Qed.
