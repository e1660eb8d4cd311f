(** * Counting the events of the reference objects. *)
From Verif Require Import Base Refobj RefobjSpec RefobjInv RefobjStep RefobjOp RefobjRest RefobjGlob RefobjTrace RefobjHist RefobjReach.

(** A queue function that has been taken and has not started. *)
Definition pend (x : frame) : Z := match x with FQ _ _ (SGot | SLocked) _ _ => 1 | FQ _ _ (SUnl | SPut | SRet) true _ => 1 | _ => 0 end.
(** A call whose callback has started, and that has not returned. *)
Definition begun (o : nat) (k : kind) (x : frame) : Z :=
  match x with FOp o' _ kd _ st e => if (o' =? o)%nat && keqb (Some kd) (Some k) then match st with SRun => 1 | SUnl | SDownGap | SDownLk | SPut | SRet => if e =? 0 then 1 else 0 | _ => 0 end else 0 | _ => 0 end.
Record CInv (s : st) : Prop := mkC {
  c_q : forall t, cnt (isQ t) (s_tr s) = cnt (isBN t) (s_tr s) + cnt (isM t) (s_tr s) + csum pend (s_stk s t);
  c_r : forall t o k, cnt (isB t o (Some k)) (s_tr s) = cnt (isOk t o k) (s_tr s) + csum (begun o k) (s_stk s t);
  c_l : Z.of_nat (s_life s) = 1 + cnt isC (s_tr s) mod 65535 }.
Definition bal (t : nat) (X Y : list frame) (es : list ev) : Prop :=
  (forall u, cnt (isQ u) es + (if (u =? t)%nat then csum pend X else 0) = cnt (isBN u) es + cnt (isM u) es + (if (u =? t)%nat then csum pend Y else 0)) /\
  (forall u o k, cnt (isB u o (Some k)) es + (if (u =? t)%nat then csum (begun o k) X else 0) = cnt (isOk u o k) es + (if (u =? t)%nat then csum (begun o k) Y else 0)).
Lemma bal_nil t X : bal t X X [].
Proof. split; intros; cbn [cnt]; lia. Qed.
Lemma CInv_loc s s' t X Y l es : CInv s -> s_stk s t = X ++ l -> (forall u, s_stk s' u = fupd (s_stk s) t (Y ++ l) u) -> s_tr s' = s_tr s ++ es -> bal t X Y es -> cnt isC es = 0 -> s_life s' = s_life s -> CInv s'.
Proof.
  intros [Q R L] EX ES ET [B1 B2] C EL. constructor.
  - intros u. rewrite ET, !cnt_app, Q, ES. specialize (B1 u). unfold fupd. destruct (Nat.eqb_spec u t) as [Eu|N]; [rewrite Eu in *; rewrite EX, !csum_app|]; lia.
  - intros u o k. rewrite ET, !cnt_app, R, ES. specialize (B2 u o k). unfold fupd. destruct (Nat.eqb_spec u t) as [Eu|N]; [rewrite Eu in *; rewrite EX, !csum_app|]; lia.
  - rewrite ET, cnt_app, C, Z.add_0_r, EL. exact L.
Qed.
Lemma keqb_ns k : keqb None (Some k) = false. Proof. destruct k; reflexivity. Qed.
Lemma lstep_bal t o r i x l r' i' fs es : about o x = true -> lstep t o r i x l = Go r' i' fs es -> bal t [x] fs es /\ cnt isC es = 0.
Proof.
  intros A E.
  Ltac bs := match goal with E : Go ?a ?b ?c ?d = Go ?a' ?b' ?c' ?d' |- _ => 
    let X := fresh in assert (X : a' = a /\ b' = b /\ c' = c /\ d' = d) by (repeat split; congruence); destruct X as [-> [-> [-> ->]]]; clear E end; (split; [|reflexivity]); 
    split; let u := fresh "u" in intro u; intros; cbn [cnt csum pend begun isQ isBN isM isB isOk isC andb]; rewrite ?keqb_ns; repeat match goal with |- context [keqb ?a ?b] => destruct (keqb a b) end; repeat match goal with |- context [(?a =? ?b)%nat] => destruct (Nat.eqb_spec a b) end; change (- AOSL_EPERM =? 0) with false; cbn [andb]; repeat match goal with |- context [if ?b then _ else _] => destruct b end; lia.
  destruct x as [o' nr kd h st e|o' lkd st rf id| |o' del g st e| |]; cbn [lstep] in E; try discriminate E; cbn [about] in A; apply Nat.eqb_eq in A; subst o'.
  - destruct st; cbn [op_step] in E; try discriminate E.
    + destruct kd; [bs| |].
      * destruct (onq o l && negb (async r)); [bs|]. destruct (lc r t); [|discriminate E]. destruct (negb (recur r) && (0 <? n)%nat); [discriminate E|]. destruct (n =? 0)%nat; [destruct (writer r); [discriminate E|]|]; bs.
      * destruct (lc r t) as [[|n]|]; try discriminate E. destruct (onq o l && negb (async r)); [destruct (lk r); [destruct (rd2 r); discriminate E|]; bs|]. destruct (lk r || writer r || negb (readers r =? 0)); [discriminate E|bs].
    + bs.
    + destruct (writer r || negb (readers r =? 0)); [discriminate E|bs].
    + destruct (destroyed r) eqn:DD; [destruct h; try discriminate E|]; bs.
    + destruct kd; [bs| |destruct h; bs]. destruct (onq o l && negb (async r)); [bs|]. destruct (lc r t) as [[|n]|]; try discriminate E. destruct (n =? 0)%nat; bs.
    + destruct (writer r); [discriminate E|bs].
    + bs.
    + destruct nr; [bs|]. unfold refobj_put, put in E. destruct (cfree r) eqn:C; [destruct (gc r t <? 1); [discriminate E|]|]; (match goal with E : (if ?b then _ else _) = Go _ _ _ _ |- _ => destruct b; bs end).
    + bs.
  - destruct st; cbn [q_step] in E; try discriminate E.
    + destruct (async r) eqn:AS; [bs|destruct (writer r); [discriminate E|bs]].
    + destruct (destroyed r) eqn:DD; bs.
    + destruct lkd; bs.
    + unfold refobj_put, put in E. destruct (cfree r) eqn:C; [destruct (gc r t <? 1); [discriminate E|]|]; (match goal with E : (if ?b then _ else _) = Go _ _ _ _ |- _ => destruct b; bs end).
    + destruct rf; bs.
  - destruct st; cbn [des_step] in E; try discriminate E.
    + destruct (onq o l && negb (async r)); [discriminate E|]. destruct (lc r t) as [[|n]|]; try discriminate E; bs.
    + destruct i; bs.
    + destruct (destroyed r) eqn:DD; bs.
    + destruct (lk r || writer r || negb (readers r =? 0)); [discriminate E|bs].
    + bs.
    + bs.
    + unfold put in E. destruct (usage (set_usage r (usage r - 1)) =? 0); bs.
    + destruct (cfree r && negb (async r)); [destruct (1 + g <? usage r); [discriminate E|]|]; bs.
    + unfold put in E. destruct (usage (set_usage r (usage r - 1)) =? 0); bs.
    + bs.
Qed.
Ltac bq := split; let u := fresh "u" in intro u; intros; cbn [cnt csum pend begun isQ isBN isM isB isOk isC andb Z.eqb]; rewrite ?keqb_ns; repeat match goal with |- context [keqb ?a ?b] => destruct (keqb a b) end; repeat match goal with |- context [(?a =? ?b)%nat] => destruct (Nat.eqb_spec a b) end; cbn [andb]; lia.
Lemma CInv_fail s f : CInv s -> CInv (fail s f).
Proof. intros [Q R L]. constructor; auto. Qed.
Lemma CInv_apply T s t o x l s' : GInv T s -> CInv s -> (t < T)%nat -> s_stk s t = x :: l -> about o x = true -> apply s t o l (lstep t o (s_o s o) (inst s o) x l) = Some s' -> CInv s'.
Proof.
  intros G C Ht Hs A E. destruct (lstep t o (s_o s o) (inst s o) x l) as [|f|r' i' fs es] eqn:LS; cbn [apply] in E; [discriminate E| |].
  - assert (X : s' = fail s f) by congruence. subst s'. apply CInv_fail. exact C.
  - destruct (lstep_bal _ _ _ _ _ _ _ _ _ _ A LS) as [B Z0]. match type of E with Some ?a = _ => assert (X : s' = a) by congruence end. clear E.
    assert (S1 : s_tr s' = s_tr s ++ es /\ s_life s' = s_life s /\ forall u, s_stk s' u = fupd (s_stk s) t (fs ++ l) u).
    { subst s'. destruct (Bool.eqb i' (inst s o)); [|unfold set_inst; destruct i']; repeat split; reflexivity. }
    destruct S1 as [ST [SL SK]]. exact (CInv_loc s s' t [x] fs l es C Hs SK ST B Z0 SL).
Qed.
Theorem CInv_exec T lb s s' : GInv T s -> CInv s -> exec T lb s = Some s' -> CInv s'.
Proof.
  intros G C E. unfold exec in E. destruct (s_fail s) eqn:F; [discriminate E|]. destruct lb as [t c|t|t].
  - destruct ((t <? T)%nat && at_user (s_stk s t)); [|discriminate E].
    destruct c as [kd r|o|r|r del|i a rc cf]; cbn [do_call] in E.
    + destruct (lookup s r) as [o|]; [destruct (gone (s_o s o))|]; match type of E with Some ?a = _ => assert (X : s' = a) by congruence end; clear E; subst s'; [apply CInv_fail; exact C| |].
      * eapply (CInv_loc s _ t [] [FOp o false kd HNo SGot 0] (s_stk s t) [] C); try reflexivity. bq.
      * eapply (CInv_loc s _ t [] [] (s_stk s t) [EMiss t r] C); try reflexivity. bq.
    + destruct (onq o (s_stk s t)); [|discriminate E]. destruct (gone (s_o s o)); match type of E with Some ?a = _ => assert (X : s' = a) by congruence end; clear E; subst s'; [apply CInv_fail; exact C|].
      eapply (CInv_loc s _ t [] [FOp o true Read HNo SGot 0] (s_stk s t) [] C); try reflexivity. bq.
    + destruct (lookup s r) as [o|]; [destruct (gone (s_o s o))|]; match type of E with Some ?a = _ => assert (X : s' = a) by congruence end; clear E; subst s'; [apply CInv_fail; exact C| |].
      * eapply (CInv_loc s _ t [] [FQ o false SGot false r] (s_stk s t) [EQueue t r] C); try reflexivity. bq.
      * eapply (CInv_loc s _ t [] [FMark r] (s_stk s t) [EQueue t r; EMark t r] C); try reflexivity. bq.
    + destruct (lookup s r) as [o|]; [destruct (gone (s_o s o))|]; match type of E with Some ?a = _ => assert (X : s' = a) by congruence end; clear E; subst s'; [apply CInv_fail; exact C| |].
      * eapply (CInv_loc s _ t [] [FDes o del 0 DStart 0] (s_stk s t) [EDes t o del] C); try reflexivity. bq.
      * eapply (CInv_loc s _ t [] [] (s_stk s t) [EMiss t r] C); try reflexivity. bq.
    + destruct ((i <? LIMIT)%nat && negb (s_bit s i)); [|discriminate E]. match type of E with Some ?a = _ => assert (X : s' = a) by congruence end. clear E. subst s'.
      eapply (CInv_loc s _ t [] [FNew (s_next s)] (s_stk s t) [] C); try reflexivity. bq.
  - assert (Ht : (t < T)%nat). { destruct (Nat.ltb_spec t T); [assumption|]. unfold do_end in E. rewrite (g_thr _ _ G t) in E by assumption. discriminate E. }
    unfold do_end in E. destruct (s_stk s t) as [|x l] eqn:Hs; [discriminate E|].
    destruct x as [o nr kd h st e|o lkd st rf id|r|o del g st e|o st|o]; try discriminate E; try (destruct st; try discriminate E); match type of E with Some ?a = _ => assert (X : s' = a) by congruence end; clear E; subst s'.
    + eapply (CInv_loc s _ t [FOp o nr kd h SRun e] [FOp o nr kd h SUnl 0] l _ C Hs); try reflexivity. bq.
    + assert (R : rf = false).
      { assert (Ho : (o < s_next s)%nat) by (apply (g_fresh _ _ G t (FQ o lkd SRun rf id) o); [rewrite Hs; left; reflexivity|cbn; apply Nat.eqb_refl]).
        pose proof (v_wf _ _ _ _ _ (g_obj _ _ G o Ho) t Ht) as W. rewrite (kof_top s t o _ l Hs (Nat.eqb_refl o)) in W. destruct W as [[W _] _]. destruct rf; [destruct (W eq_refl) as [_ []]|reflexivity]. }
      subst rf. eapply (CInv_loc s _ t [FQ o lkd SRun false id] [FQ o lkd SUnl false id] l _ C Hs); try reflexivity. bq.
    + eapply (CInv_loc s _ t [FMark r] [] l _ C Hs); try reflexivity. bq.
    + eapply (CInv_loc s _ t [FFin o FDtor] [FFin o FId] l _ C Hs); try reflexivity. bq.
  - assert (Ht : (t < T)%nat). { destruct (Nat.ltb_spec t T); [assumption|]. unfold do_step in E. rewrite (g_thr _ _ G t) in E by assumption. discriminate E. }
    unfold do_step in E. destruct (s_stk s t) as [|x l] eqn:Hs; [discriminate E|].
    assert (AL : forall o, about o x = true -> touches x && gone (s_o s o) = false).
    { intros o A. assert (Ho : (o < s_next s)%nat) by (apply (g_fresh _ _ G t x o); [rewrite Hs; left; reflexivity|exact A]). pose proof (kof_top s t o x l Hs A) as Hk.
      destruct (touches x) eqn:TC; [|reflexivity]. apply (alive _ _ _ _ _ _ _ _ (g_obj _ _ G o Ho) Ht Hk A TC). }
    destruct x as [o nr kd h st e|o lkd st rf id|r|o del g st e|o st|o]; try discriminate E; cbv zeta in E; rewrite (AL o (Nat.eqb_refl o)) in E.
    + apply (CInv_apply T s t o _ l s' G C Ht Hs (Nat.eqb_refl o) E).
    + apply (CInv_apply T s t o _ l s' G C Ht Hs (Nat.eqb_refl o) E).
    + apply (CInv_apply T s t o _ l s' G C Ht Hs (Nat.eqb_refl o) E).
    + destruct st; try discriminate E; match type of E with Some ?a = _ => assert (X : s' = a) by congruence end; clear E; subst s'.
      * eapply (CInv_loc s _ t [FFin o FId] [FFin o FMem] l _ C Hs); try reflexivity. bq.
      * eapply (CInv_loc s _ t [FFin o FMem] [] l _ C Hs); try reflexivity. bq.
    + match type of E with Some ?a = _ => assert (X : s' = a) by congruence end; clear E. unfold install in X. destruct (s_tab s (snd (oid (s_o s o)))); [subst s'; apply CInv_fail; exact C|].
      destruct C as [Q R L]. subst s'. constructor; cbn [s_tr s_stk s_life set_stk].
      * intros u. rewrite !cnt_app, Q. cbn. unfold fupd. destruct (Nat.eqb_spec u t) as [Eu|N]; [rewrite Eu, Hs; cbn [csum pend]|]; lia.
      * intros u p k. rewrite !cnt_app, R. cbn. unfold fupd. destruct (Nat.eqb_spec u t) as [Eu|N]; [rewrite Eu, Hs; cbn [csum begun]|]; lia.
      * rewrite cnt_app. cbn [cnt isC]. pose proof (cnt_nonneg isC (s_tr s)). unfold next_life.
        assert (Z65 : Z.of_nat 65536 = 65536) by (vm_compute; reflexivity). destruct (Nat.eqb_spec (S (s_life s)) 65536) as [Q1|Q1]; [apply (f_equal Z.of_nat) in Q1|assert (Q2 : Z.of_nat (S (s_life s)) <> Z.of_nat 65536) by (intros Q2; apply Q1, Nat2Z.inj, Q2); clear Q1]; rewrite Z65 in *; clear Z65.
        -- assert (Z1 : cnt isC (s_tr s) mod 65535 = 65534) by lia. rewrite Z.add_0_r. replace ((cnt isC (s_tr s) + 1) mod 65535) with 0; [reflexivity|]. rewrite <- Zplus_mod_idemp_l, Z1. reflexivity.
        -- assert (Z1 : 0 <= cnt isC (s_tr s) mod 65535 < 65535) by (apply Z.mod_pos_bound; lia). rewrite Z.add_0_r. rewrite <- Zplus_mod_idemp_l. rewrite (Z.mod_small (cnt isC (s_tr s) mod 65535 + 1)) by lia. lia.
Qed.
Lemma reach_count T s : reach T s -> CInv s.
Proof.
  induction 1 as [|s l s' R IH E]; [constructor; reflexivity|]. destruct (reach_ok T s R) as [G _]. exact (CInv_exec T l s s' G IH E).
Qed.

(** ** Histories are made step by step. *)
Lemma exec_tr T l s s' : reach T s -> exec T l s = Some s' -> exists es, s_tr s' = s_tr s ++ es.
Proof. intros R E. destruct (reach_ok T s R) as [G [I _]]. destruct (exec_info T l s s' G I E) as [_ [_ [es [X _]]]]. eauto. Qed.
Lemma reach_split T s : reach T s -> forall a e b, s_tr s = a ++ e :: b ->
  exists s0 l s1 d1 d2 ls, reach T s0 /\ exec T l s0 = Some s1 /\ s_tr s1 = s_tr s0 ++ d1 ++ e :: d2 /\ a = s_tr s0 ++ d1 /\ (d1 = [] \/ exists u r, e = EMark u r) /\ evok T s0 s1 e /\ run T ls s1 = Some s.
Proof.
  induction 1 as [|s l s' R IH E]; intros a e b H; [destruct a; discriminate H|].
  destruct (reach_ok T s R) as [G [I _]]. destruct (exec_info T l s s' G I E) as [_ [_ [d [D [EV SH]]]]]. pose proof D as D'. rewrite H in D.
  assert (C : (exists b', s_tr s = a ++ e :: b') \/ (exists d1 d2, d = d1 ++ e :: d2 /\ a = s_tr s ++ d1)).
  { clear -D. revert a D. generalize (s_tr s) as t0. induction t0 as [|x t0 IH]; intros a D.
    - right. exists a, b. cbn in *. auto.
    - destruct a as [|y a]; cbn in D.
      + left. exists t0. cbn. congruence.
      + assert (y = x) by congruence. subst y. destruct (IH a) as [[b' B]|[d1 [d2 [X Y]]]]; [congruence| |].
        * left. exists b'. cbn. congruence.
        * right. exists d1, d2. split; [assumption|]. cbn. congruence. }
  destruct C as [[b' B]|[d1 [d2 [X Y]]]].
  - destruct (IH _ _ _ B) as [s0 [l0 [s1 [d1 [d2 [ls [A1 [A2 [A3 [A4 [A4' [A5 A6]]]]]]]]]]]]. exists s0, l0, s1, d1, d2, (ls ++ [l]). repeat (split; [assumption|]). rewrite run_app, A6. cbn [run]. rewrite E. reflexivity.
  - exists s, l, s', d1, d2, []. subst d. do 4 (split; [assumption|]). split.
    { destruct SH as [SH|[u [r SH]]]; [left; destruct d1 as [|x d1]; [reflexivity|exfalso; rewrite SH in EV || idtac; cbn in SH; rewrite app_length in SH; cbn in SH; lia]|]. destruct d1 as [|x [|y d1]]; [left; reflexivity| |]; cbn in SH; [right; exists u, r; congruence|]. exfalso. destruct d1; discriminate SH. }
    split; [|reflexivity]. apply EV. apply in_or_app. right. left. reflexivity.
Qed.
(** The object's kind never changes, and destroyed stays set. *)
Lemma run_kept T ls s s' : reach T s -> run T ls s = Some s' -> (s_next s <= s_next s')%nat /\ forall o, (o < s_next s)%nat -> kept s s' o.
Proof.
  revert s. induction ls as [|l ls IH]; cbn [run]; intros s R E.
  - assert (s' = s) by congruence. subst s'. split; [lia|]. intros o _. apply kept_refl. reflexivity.
  - destruct (exec T l s) as [s1|] eqn:X; [|discriminate E]. destruct (reach_ok T s R) as [G [I _]]. destruct (exec_info T l s s1 G I X) as [N1 [K1 _]]. destruct (IH s1 (reach_step T s l s1 R X) E) as [N2 K2].
    split; [lia|]. intros o Ho. destruct (K1 o Ho) as [A1 [A2 [A3 A4]]]. destruct (K2 o ltac:(lia)) as [B1 [B2 [B3 B4]]]. unfold kept. repeat split; try congruence. auto.
Qed.
Lemma step_run_tr T ls s s' : reach T s -> run T ls s = Some s' -> exists es, s_tr s' = s_tr s ++ es.
Proof.
  revert s. induction ls as [|l ls IH]; cbn [run]; intros s R E.
  - assert (s' = s) by congruence. subst s'. exists []. symmetry. apply app_nil_r.
  - destruct (exec T l s) as [s1|] eqn:X; [|discriminate E]. destruct (exec_tr T l s s1 R X) as [e1 T1]. destruct (IH s1 (reach_step T s l s1 R X) E) as [e2 T2]. exists (e1 ++ e2). rewrite T2, T1, app_assoc. reflexivity.
Qed.
