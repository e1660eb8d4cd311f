(** * Reference objects: where an installed object and a queue function come from. *)
From Verif Require Import Base Refobj RefobjSpec RefobjInv RefobjStep RefobjOp RefobjRest RefobjGlob RefobjTrace RefobjHist RefobjReach RefobjCount.

(** An object becomes visible only by its creation. *)
Lemma inst_back T l s s' o : GInv T s -> exec T l s = Some s' -> (o < s_next s')%nat -> inst s' o = true -> ((o < s_next s)%nat /\ inst s o = true /\ oid (s_o s' o) = oid (s_o s o)) \/ exists t, In (ECreate t o (oid (s_o s' o))) (s_tr s') /\ ~ nonew s o.
Proof.
  intros G E. pose proof G as [G1 G2 G3 G4 G5]. unfold exec in E. destruct (s_fail s) eqn:F; [discriminate E|].
  assert (PL : forall t L es, s' = set_stk s t L es -> (o < s_next s')%nat -> inst s' o = true -> ((o < s_next s)%nat /\ inst s o = true /\ oid (s_o s' o) = oid (s_o s o)) \/ exists t, In (ECreate t o (oid (s_o s' o))) (s_tr s') /\ ~ nonew s o) by (intros t L es -> A B; left; auto).
  assert (PF : forall f, s' = fail s f -> (o < s_next s')%nat -> inst s' o = true -> ((o < s_next s)%nat /\ inst s o = true /\ oid (s_o s' o) = oid (s_o s o)) \/ exists t, In (ECreate t o (oid (s_o s' o))) (s_tr s') /\ ~ nonew s o) by (intros f -> A B; left; auto).
  assert (PO : forall t p r L es, oid r = oid (s_o s p) -> s' = set_stk (set_o s p r) t L es -> (o < s_next s')%nat -> inst s' o = true -> ((o < s_next s)%nat /\ inst s o = true /\ oid (s_o s' o) = oid (s_o s o)) \/ exists t, In (ECreate t o (oid (s_o s' o))) (s_tr s') /\ ~ nonew s o).
  { intros t p r L es Q -> A B. left. assert (EO : oid (s_o (set_stk (set_o s p r) t L es) o) = oid (s_o s o)) by (cbn; apply (fupd_o (s_o s) p r oid); exact Q). split; [exact A|]. split; [rewrite <- B; symmetry; apply inst_same; [reflexivity|exact EO]|exact EO]. }
  assert (GO : forall t p b, oid (get t (s_o s p) b) = oid (s_o s p)) by (intros t p b; unfold get; destruct (b && _); reflexivity).
  destruct l as [t c|t|t].
  - destruct ((t <? T)%nat && at_user (s_stk s t)); [|discriminate E]. destruct c as [kd r|p|r|r del|i a rc cf]; cbn [do_call] in E.
    + destruct (lookup s r) as [p|]; [destruct (gone (s_o s p))|]; match type of E with Some ?a = _ => assert (X : s' = a) by congruence end; [exact (PF _ X)|exact (PO _ _ _ _ _ (GO t p true) X)|exact (PL _ _ _ X)].
    + destruct (onq p (s_stk s t)); [|discriminate E]. destruct (gone (s_o s p)); match type of E with Some ?a = _ => assert (X : s' = a) by congruence end; [exact (PF _ X)|exact (PL _ _ _ X)].
    + destruct (lookup s r) as [p|]; [destruct (gone (s_o s p))|]; match type of E with Some ?a = _ => assert (X : s' = a) by congruence end; [exact (PF _ X)|exact (PO _ _ _ _ _ (GO t p true) X)|exact (PL _ _ _ X)].
    + destruct (lookup s r) as [p|]; [destruct (gone (s_o s p))|]; match type of E with Some ?a = _ => assert (X : s' = a) by congruence end; [exact (PF _ X)|exact (PO _ _ _ _ _ (GO t p false) X)|exact (PL _ _ _ X)].
    + destruct ((i <? LIMIT)%nat && negb (s_bit s i)); [|discriminate E]. match type of E with Some ?a = _ => assert (X : s' = a) by congruence end. clear E. intros Ho J.
      destruct (Nat.eq_dec o (s_next s)) as [->|N].
      * exfalso. apply inst_tab in J. subst s'. cbn in J. destruct (g_tab _ G5 _ _ J). lia.
      * left. assert (Ho' : (o < s_next s)%nat) by (subst s'; cbn in Ho; lia). assert (EO : oid (s_o s' o) = oid (s_o s o)) by (subst s'; cbn; rewrite fupd_ne by exact N; reflexivity). split; [exact Ho'|]. split; [|exact EO]. rewrite <- J. symmetry. apply inst_same; [subst s'; reflexivity|exact EO].
  - unfold do_end in E. destruct (s_stk s t) as [|x l] eqn:Hs; [discriminate E|]. destruct x as [p nr kd h st e|p lkd st rf id|r|p del g st e|p st|p]; try discriminate E; try (destruct st; try discriminate E); match type of E with Some ?a = _ => assert (X : s' = a) by congruence end; exact (PL _ _ _ X).
  - assert (Ht : (t < T)%nat). { destruct (Nat.ltb_spec t T); [assumption|]. unfold do_step in E. rewrite (G3 t) in E by assumption. discriminate E. }
    unfold do_step in E. destruct (s_stk s t) as [|x l] eqn:Hs; [discriminate E|].
    assert (AL : forall p, about p x = true -> (p < s_next s)%nat /\ kof s p t = x :: proj p l /\ touches x && gone (s_o s p) = false).
    { intros p A. assert (Ho : (p < s_next s)%nat) by (apply (G2 t x p); [rewrite Hs; left; reflexivity|exact A]). pose proof (kof_top s t p x l Hs A) as Hk. split; [exact Ho|]. split; [exact Hk|].
      destruct (touches x) eqn:TC; [|reflexivity]. apply (alive _ _ _ _ _ _ _ _ (G1 p Ho) Ht Hk A TC). }
    assert (AP : forall p, about p x = true -> apply s t p l (lstep t p (s_o s p) (inst s p) x l) = Some s' -> (o < s_next s')%nat -> inst s' o = true -> ((o < s_next s)%nat /\ inst s o = true /\ oid (s_o s' o) = oid (s_o s o)) \/ exists t, In (ECreate t o (oid (s_o s' o))) (s_tr s') /\ ~ nonew s o).
    { intros p A E' Ho J. destruct (AL p A) as [Hp [Hk _]]. assert (Q : onq p l = onq p (proj p l)) by (symmetry; apply onq_proj).
      rewrite (lstep_below _ _ _ _ _ _ _ Q) in E'. destruct (lstep t p (s_o s p) (inst s p) x (proj p l)) as [|f|r' i' fs es] eqn:LS; cbn [apply] in E'; [discriminate E'| |].
      - apply (PF f); [congruence|exact Ho|exact J].
      - destruct (step_shape _ _ _ _ _ _ _ _ _ _ _ _ (G1 p Hp) Ht Hk A LS) as [_ [_ [IC [_ [EO [ER _]]]]]]. destruct IC as [-> | [I1 ->]].
        + rewrite Bool.eqb_reflx in E'. refine (PO t p r' (fs ++ l) es EO _ Ho J). congruence.
        + rewrite I1 in E'. cbn [Bool.eqb] in E'. unfold set_inst in E'. match type of E' with Some ?a = _ => assert (X : s' = a) by congruence end. clear E'.
          destruct (TInv_uninst s s' p G5) as [T1 [T2 T3]]; try (subst s'; reflexivity); auto.
          { subst s'; cbn. intros o'. apply (fupd_o (s_o s) p r' oid). exact EO. } { subst s'; cbn. intros o'. apply (fupd_b (s_o s) p r' rel). exact ER. }
          left. assert (o <> p) by (intros ->; congruence). split; [subst s'; exact Ho|]. split; [rewrite <- T3 by assumption; exact J|]. subst s'. cbn. apply (fupd_o (s_o s) p r' oid). exact EO. }
    destruct x as [p nr kd h st e|p lkd st rf id|r|p del g st e|p st|p]; try discriminate E; destruct (AL p (Nat.eqb_refl p)) as [Hp [Hk TG]]; cbv zeta in E; rewrite TG in E.
    + exact (AP p (Nat.eqb_refl p) E).
    + exact (AP p (Nat.eqb_refl p) E).
    + exact (AP p (Nat.eqb_refl p) E).
    + destruct st; try discriminate E; match type of E with Some ?a = _ => assert (X : s' = a) by congruence end; clear E; [|refine (PO _ _ _ _ _ _ X); reflexivity].
      intros Ho J. left. assert (EO : oid (s_o s' o) = oid (s_o s o)) by (subst s'; cbn; apply (fupd_o (s_o s) p (set_rel (s_o s p)) oid); reflexivity). split; [subst s'; exact Ho|]. split; [rewrite <- J; symmetry; apply inst_same; [subst s'; reflexivity|exact EO]|exact EO].
    + match type of E with Some ?a = _ => assert (X : s' = a) by congruence end; clear E. unfold install in X. destruct (s_tab s (snd (oid (s_o s p)))) as [q|] eqn:TN; [exact (PF _ X)|]. intros Ho J.
      destruct (Nat.eq_dec o p) as [->|N].
      * right. exists t. split; [subst s'; cbn; rewrite fupd_eq; cbn; apply in_or_app; right; left; reflexivity|]. intros NN. apply (NN t). rewrite Hs. left. reflexivity.
      * left. assert (EO : oid (s_o s' o) = oid (s_o s o)) by (subst s'; cbn; rewrite fupd_ne by exact N; reflexivity). split; [subst s'; exact Ho|]. split; [|exact EO]. apply inst_tab in J. apply inst_tab. rewrite EO in J. subst s'. cbn in J. unfold fupd in J. destruct (_ =? _)%nat; [congruence|exact J].
Qed.
Lemma inst_created T s : reach T s -> forall o, (o < s_next s)%nat -> inst s o = true -> exists t, In (ECreate t o (oid (s_o s o))) (s_tr s).
Proof.
  induction 1 as [|s l s' R IH E]; [cbn; intros; lia|]. intros o Ho J. destruct (reach_ok T s R) as [G _]. destruct (exec_tr T l s s' R E) as [es X].
  destruct (inst_back T l s s' o G E Ho J) as [[A [B C]]|[u [Y _]]]; [|exists u; exact Y]. destruct (IH o A B) as [t Y]. exists t. rewrite C, X. apply in_or_app. auto.
Qed.

(** A queue function has the id of its object; the marker has a reason. *)
Lemma q_back T l s s' t o lkd st rf r : GInv T s -> exec T l s = Some s' -> In (FQ o lkd st rf r) (s_stk s' t) -> (exists lkd' st' rf', In (FQ o lkd' st' rf' r) (s_stk s t)) \/ ((o < s_next s)%nat /\ inst s o = true /\ oid (s_o s o) = r).
Proof.
  intros G E. pose proof G as [G1 G2 G3 G4 G5]. unfold exec in E. destruct (s_fail s) eqn:F; [discriminate E|].
  assert (ST : forall u X Y k, s_stk s u = X ++ k -> (forall v, s_stk s' v = fupd (s_stk s) u (Y ++ k) v) -> (In (FQ o lkd st rf r) Y -> (exists lkd' st' rf', In (FQ o lkd' st' rf' r) X) \/ ((o < s_next s)%nat /\ inst s o = true /\ oid (s_o s o) = r)) ->
    In (FQ o lkd st rf r) (s_stk s' t) -> (exists lkd' st' rf', In (FQ o lkd' st' rf' r) (s_stk s t)) \/ ((o < s_next s)%nat /\ inst s o = true /\ oid (s_o s o) = r)).
  { intros u X Y k EX EY H P. rewrite EY in P. unfold fupd in P. destruct (Nat.eqb_spec t u) as [->|N]; [|eauto]. rewrite EX. apply in_app_or in P. destruct P as [P|P].
    - destruct (H P) as [[a [b [c Q]]]|Q]; [left; exists a, b, c; apply in_or_app; auto|auto].
    - left. exists lkd, st, rf. apply in_or_app. auto. }
  Ltac nq := let Q := fresh in intros Q; cbn in Q; repeat destruct Q as [Q|Q]; try discriminate Q; try contradiction.
  destruct l as [u c|u|u].
  - destruct ((u <? T)%nat && at_user (s_stk s u)); [|discriminate E]. destruct c as [kd r0|p|r0|r0 del|i a rc cf]; cbn [do_call] in E.
    + destruct (lookup s r0) as [p|]; [destruct (gone (s_o s p))|]; match type of E with Some ?a = _ => assert (X : s' = a) by congruence end; subst s'; [eauto|apply (ST u [] [FOp p false kd HNo SGot 0] (s_stk s u)); [reflexivity|reflexivity|nq]|apply (ST u [] [] (s_stk s u)); [reflexivity|reflexivity|nq]].
    + destruct (onq p (s_stk s u)); [|discriminate E]. destruct (gone (s_o s p)); match type of E with Some ?a = _ => assert (X : s' = a) by congruence end; subst s'; [eauto|apply (ST u [] [FOp p true Read HNo SGot 0] (s_stk s u)); [reflexivity|reflexivity|nq]].
    + destruct (lookup s r0) as [p|] eqn:L; [destruct (gone (s_o s p))|]; match type of E with Some ?a = _ => assert (X : s' = a) by congruence end; subst s'; [eauto| |apply (ST u [] [FMark r0] (s_stk s u)); [reflexivity|reflexivity|nq]].
      apply (ST u [] [FQ p false SGot false r0] (s_stk s u)); [reflexivity|reflexivity|]. intros [Q|[]]. right. assert (p = o /\ r0 = r) by (split; congruence). destruct H as [-> ->]. apply (lookup_inst _ _ _ G5 L).
    + destruct (lookup s r0) as [p|]; [destruct (gone (s_o s p))|]; match type of E with Some ?a = _ => assert (X : s' = a) by congruence end; subst s'; [eauto|apply (ST u [] [FDes p del 0 DStart 0] (s_stk s u)); [reflexivity|reflexivity|nq]|apply (ST u [] [] (s_stk s u)); [reflexivity|reflexivity|nq]].
    + destruct ((i <? LIMIT)%nat && negb (s_bit s i)); [|discriminate E]. match type of E with Some ?a = _ => assert (X : s' = a) by congruence end. subst s'. apply (ST u [] [FNew (s_next s)] (s_stk s u)); [reflexivity|reflexivity|nq].
  - unfold do_end in E. destruct (s_stk s u) as [|x k] eqn:Hs; [discriminate E|]. destruct x as [p nr kd h st0 e|p lkd0 st0 rf0 id|r0|p del g st0 e|p st0|p]; try discriminate E; try (destruct st0; try discriminate E); match type of E with Some ?a = _ => assert (X : s' = a) by congruence end; subst s'.
    + apply (ST u [FOp p nr kd h SRun e] [FOp p nr kd h SUnl 0] k Hs); [reflexivity|nq].
    + apply (ST u [FQ p lkd0 SRun rf0 id] [FQ p lkd0 SUnl rf0 id] k Hs); [reflexivity|]. intros [Q|[]]. left. exists lkd0, SRun, rf0. left. congruence.
    + apply (ST u [FMark r0] [] k Hs); [reflexivity|nq].
    + apply (ST u [FFin p FDtor] [FFin p FId] k Hs); [reflexivity|nq].
  - assert (Ht : (u < T)%nat). { destruct (Nat.ltb_spec u T); [assumption|]. unfold do_step in E. rewrite (G3 u) in E by assumption. discriminate E. }
    unfold do_step in E. destruct (s_stk s u) as [|x k] eqn:Hs; [discriminate E|].
    assert (AL : forall p, about p x = true -> touches x && gone (s_o s p) = false).
    { intros p A. assert (Ho : (p < s_next s)%nat) by (apply (G2 u x p); [rewrite Hs; left; reflexivity|exact A]). pose proof (kof_top s u p x k Hs A) as Hk.
      destruct (touches x) eqn:TC; [|reflexivity]. apply (alive _ _ _ _ _ _ _ _ (G1 p Ho) Ht Hk A TC). }
    assert (AP : forall p, apply s u p k (lstep u p (s_o s p) (inst s p) x k) = Some s' -> (forall r' i' fs es, lstep u p (s_o s p) (inst s p) x k = Go r' i' fs es -> In (FQ o lkd st rf r) fs -> exists lkd' st' rf', x = FQ o lkd' st' rf' r) -> In (FQ o lkd st rf r) (s_stk s' t) -> (exists lkd' st' rf', In (FQ o lkd' st' rf' r) (s_stk s t)) \/ ((o < s_next s)%nat /\ inst s o = true /\ oid (s_o s o) = r)).
    { intros p E' H. destruct (lstep u p (s_o s p) (inst s p) x k) as [|f|r' i' fs es] eqn:LS; cbn [apply] in E'; [discriminate E'| |].
      - assert (X : s' = fail s f) by congruence. subst s'. eauto.
      - match type of E' with Some ?a = _ => assert (X : s' = a) by congruence end. apply (ST u [x] fs k Hs); [subst s'; destruct (Bool.eqb i' (inst s p)); [|unfold set_inst; destruct i']; reflexivity|]. intros P. destruct (H _ _ _ _ eq_refl P) as [a [b [c ->]]]. left. exists a, b, c. left. reflexivity. }
    destruct x as [p nr kd h st0 e|p lkd0 st0 rf0 id|r0|p del g st0 e|p st0|p]; try discriminate E; cbv zeta in E; rewrite (AL p (Nat.eqb_refl p)) in E.
    + apply (AP p E). intros r' i' fs es LS P. exfalso. cbn [lstep] in LS. destruct st0; cbn [op_step] in LS; unfold refobj_put, put in LS; repeat match type of LS with (if ?b then _ else _) = _ => destruct b | match ?b with _ => _ end = _ => destruct b end; try discriminate LS; (match type of LS with Go _ _ ?f _ = _ => assert (XX : fs = f) by congruence end); subst fs; cbn in P; repeat destruct P as [P|P]; try discriminate P; contradiction.
    + apply (AP p E). intros r' i' fs es LS P. cbn [lstep] in LS. destruct st0; cbn [q_step] in LS; unfold refobj_put, put in LS; repeat match type of LS with (if ?b then _ else _) = _ => destruct b | match ?b with _ => _ end = _ => destruct b end; try discriminate LS; (match type of LS with Go _ _ ?f _ = _ => assert (XX : fs = f) by congruence end); subst fs; cbn in P; repeat destruct P as [P|P]; try discriminate P; try contradiction; do 3 eexists; f_equal; congruence.
    + apply (AP p E). intros r' i' fs es LS P. exfalso. cbn [lstep] in LS. destruct st0; cbn [des_step] in LS; unfold put in LS; repeat match type of LS with (if ?b then _ else _) = _ => destruct b | match ?b with _ => _ end = _ => destruct b end; try discriminate LS; (match type of LS with Go _ _ ?f _ = _ => assert (XX : fs = f) by congruence end); subst fs; cbn in P; repeat destruct P as [P|P]; try discriminate P; contradiction.
    + destruct st0; try discriminate E; match type of E with Some ?a = _ => assert (X : s' = a) by congruence end; subst s'; [apply (ST u [FFin p FId] [FFin p FMem] k Hs); [reflexivity|nq]|apply (ST u [FFin p FMem] [] k Hs); [reflexivity|nq]].
    + match type of E with Some ?a = _ => assert (X : s' = a) by congruence end. unfold install in X. destruct (s_tab s (snd (oid (s_o s p)))); subst s'; [eauto|]. apply (ST u [FNew p] [] k Hs); [reflexivity|nq].
Qed.
Lemma q_created T s : reach T s -> forall t o lkd st rf r, In (FQ o lkd st rf r) (s_stk s t) -> exists u, In (ECreate u o r) (s_tr s).
Proof.
  induction 1 as [|s l s' R IH E]; [cbn; intros; contradiction|]. intros t o lkd st rf r P. destruct (reach_ok T s R) as [G _]. destruct (exec_tr T l s s' R E) as [es X].
  destruct (q_back T l s s' t o lkd st rf r G E P) as [[a [b [c Q]]]|[A [B C]]].
  - destruct (IH _ _ _ _ _ _ Q) as [u Y]. exists u. rewrite X. apply in_or_app. auto.
  - destruct (inst_created T s R o A B) as [u Y]. exists u. rewrite X. apply in_or_app. left. congruence.
Qed.
(** The event of the marker. *)
Lemma mark_back T l s s' es t r : GInv T s -> exec T l s = Some s' -> s_tr s' = s_tr s ++ es -> In (EMark t r) es -> lookup s r = None \/ exists o lkd, In (FQ o lkd SRet true r) (s_stk s t) /\ (t < T)%nat.
Proof.
  intros G E ET P. pose proof G as [G1 G2 G3 G4 G5]. unfold exec in E. destruct (s_fail s) eqn:F; [discriminate E|].
  assert (ES : forall s1 es1, Some s1 = Some s' -> s_tr s1 = s_tr s ++ es1 -> es = es1) by (intros s1 es1 X Y; assert (s1 = s') by congruence; subst s1; rewrite ET in Y; exact (app_inv_head _ _ _ Y)).
  assert (NF : forall f, s' = fail s f -> es = []) by (intros f ->; cbn in ET; rewrite <- (app_nil_r (s_tr s)) in ET at 1; symmetry; exact (app_inv_head _ _ _ ET)).
  Ltac nm ES P := match goal with E : Some ?a = Some ?b |- _ => let X := fresh in pose proof (ES a _ E eq_refl) as X; subst; cbn in P; repeat destruct P as [P|P]; try discriminate P; try contradiction end.
  destruct l as [u c|u|u].
  - destruct ((u <? T)%nat && at_user (s_stk s u)); [|discriminate E]. destruct c as [kd r0|p|r0|r0 del|i a rc cf]; cbn [do_call] in E.
    + destruct (lookup s r0) as [p|]; [destruct (gone (s_o s p)); [rewrite (NF Uaf ltac:(congruence)) in P; contradiction|]|]; nm ES P.
    + destruct (onq p (s_stk s u)); [|discriminate E]. destruct (gone (s_o s p)); [rewrite (NF Uaf ltac:(congruence)) in P; contradiction|]. nm ES P.
    + destruct (lookup s r0) as [p|] eqn:L; [destruct (gone (s_o s p)); [rewrite (NF Uaf ltac:(congruence)) in P; contradiction|]|]; nm ES P. left. assert (r0 = r) by congruence. subst r0. exact L.
    + destruct (lookup s r0) as [p|]; [destruct (gone (s_o s p)); [rewrite (NF Uaf ltac:(congruence)) in P; contradiction|]|]; nm ES P.
    + destruct ((i <? LIMIT)%nat && negb (s_bit s i)); [|discriminate E]. nm ES P.
  - unfold do_end in E. destruct (s_stk s u) as [|x k]; [discriminate E|]. destruct x as [p nr kd h st0 e|p lkd0 st0 rf0 id|r0|p del g st0 e|p st0|p]; try discriminate E; try (destruct st0; try discriminate E); nm ES P.
  - assert (Ht : (u < T)%nat). { destruct (Nat.ltb_spec u T); [assumption|]. unfold do_step in E. rewrite (G3 u) in E by assumption. discriminate E. }
    unfold do_step in E. destruct (s_stk s u) as [|x k] eqn:Hs; [discriminate E|].
    assert (AL : forall p, about p x = true -> touches x && gone (s_o s p) = false).
    { intros p A. assert (Ho : (p < s_next s)%nat) by (apply (G2 u x p); [rewrite Hs; left; reflexivity|exact A]). pose proof (kof_top s u p x k Hs A) as Hk.
      destruct (touches x) eqn:TC; [|reflexivity]. apply (alive _ _ _ _ _ _ _ _ (G1 p Ho) Ht Hk A TC). }
    assert (AP : forall p, about p x = true -> apply s u p k (lstep u p (s_o s p) (inst s p) x k) = Some s' -> t = u /\ exists lkd, x = FQ p lkd SRet true r).
    { intros p A E'. assert (Ho : (p < s_next s)%nat) by (apply (G2 u x p); [rewrite Hs; left; reflexivity|exact A]). pose proof (kof_top s u p x k Hs A) as Hk.
      assert (Q : onq p k = onq p (proj p k)) by (symmetry; apply onq_proj). rewrite (lstep_below _ _ _ _ _ _ _ Q) in E'.
      destruct (lstep u p (s_o s p) (inst s p) x (proj p k)) as [|f|r' i' fs es0] eqn:LS; cbn [apply] in E'; [discriminate E'|rewrite (NF f ltac:(congruence)) in P; contradiction|].
      destruct (step_ev _ _ _ _ _ _ _ _ _ _ _ _ (G1 p Ho) Ht Hk A LS) as [_ YE _ _ _ _ _ _ _ _ _ _].
      assert (es = es0). { refine (ES _ es0 E' _). destruct (Bool.eqb i' (inst s p)); [|unfold set_inst; destruct i']; reflexivity. } subst es0. exact (YE _ P). }
    destruct x as [p nr kd h st0 e|p lkd0 st0 rf0 id|r0|p del g st0 e|p st0|p]; try discriminate E; cbv zeta in E; rewrite (AL p (Nat.eqb_refl p)) in E.
    + destruct (AP p (Nat.eqb_refl p) E) as [_ [lkd X]]. discriminate X.
    + destruct (AP p (Nat.eqb_refl p) E) as [-> [lkd X]]. right. exists p, lkd. rewrite Hs, X. split; [left; reflexivity|exact Ht].
    + destruct (AP p (Nat.eqb_refl p) E) as [_ [lkd X]]. discriminate X.
    + destruct st0; try discriminate E; nm ES P.
    + unfold install in E. destruct (s_tab s (snd (oid (s_o s p)))); [rewrite (NF Bug ltac:(congruence)) in P; contradiction|]. nm ES P.
Qed.
