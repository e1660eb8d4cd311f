(** * Reachable states and histories of the reference objects. *)
From Verif Require Import Base Refobj RefobjSpec RefobjInv RefobjStep RefobjOp RefobjRest RefobjGlob RefobjTrace RefobjHist.

Inductive reach (T : nat) : st -> Prop := reach_init : reach T init | reach_step s l s' : reach T s -> exec T l s = Some s' -> reach T s'.
Lemma run_app T a b s : run T (a ++ b) s = match run T a s with Some s => run T b s | None => None end.
Proof. revert s. induction a as [|l a IH]; intros s; [reflexivity|]. cbn [app run]. destruct (exec T l s); [apply IH|reflexivity]. Qed.
Lemma run_reach T ls s s' : reach T s -> run T ls s = Some s' -> reach T s'.
Proof. revert s. induction ls as [|l ls IH]; cbn [run]; intros s R E; [congruence|]. destruct (exec T l s) eqn:X; [|discriminate E]. eapply IH; [|exact E]. econstructor; eassumption. Qed.
Lemma reachable_reach T s : reachable T s -> reach T s.
Proof. intros [ls E]. eapply run_reach; [constructor|exact E]. Qed.
Lemma reach_reachable T s : reach T s -> reachable T s.
Proof. induction 1 as [|s l s' _ [ls E] X]; [exists []; reflexivity|]. exists (ls ++ [l]). rewrite run_app, E. cbn [run]. rewrite X. reflexivity. Qed.
Lemma reach_ok T s : reach T s -> GInv T s /\ TrInv s /\ (s_fail s = None \/ s_fail s = Some Misuse).
Proof.
  induction 1 as [|s l s' R [G [I F]] E]; [split; [apply GInv_init|split; [apply TrInv_init|auto]]|].
  destruct (exec_ok _ _ _ _ G E) as [G' [O N]]. split; [exact G'|]. split; [exact (TrInv_exec _ _ _ _ G I E)|]. unfold okf in O. rewrite N in O. exact O.
Qed.

(** What an event says about the states around it. *)
Definition evok (T : nat) (s s' : st) (e : ev) : Prop :=
  match e with
  | EBegin t o q => (o < s_next s)%nat /\ usage (s_o s o) <> 0 /\ (q <> Some Hold -> destroyed (s_o s o) = false)
  | EDtor t o => (o < s_next s)%nat /\ (t < T)%nat /\ usage (s_o s' o) = 0 /\ (cfree (s_o s o) = true -> async (s_o s o) = false -> In (EDes t o true) (s_tr s))
  | ERet t o k err => (o < s_next s)%nat /\ (err <> 0 -> err = - AOSL_EPERM /\ destroyed (s_o s o) = true)
  | EDesRet t o del err => (o < s_next s)%nat /\ (((err = 0 \/ err = - AOSL_EPERM) /\ destroyed (s_o s o) = true) \/ err = - AOSL_EINVAL)
  | EId o i => (o < s_next s)%nat /\ i = snd (oid (s_o s o)) /\ exists u, In (EDtorEnd u o) (s_tr s)
  | ECreate t o id => (o < s_next s)%nat /\ ~ nonew s o /\ fst id = s_life s /\ forall p, (p < s_next s)%nat -> p <> o -> snd (oid (s_o s p)) = snd id -> rel (s_o s p) = true
  | EDtorEnd t o => (o < s_next s)%nat /\ usage (s_o s o) = 0
  | EDes t o del => (o < s_next s)%nat /\ inst s o = true
  | EMiss t id => lookup s id = None
  | EEnd t o q => (o < s_next s)%nat
  | EQueue _ _ | EMark _ _ => True
  end.
Definition kept (s s' : st) (o : nat) : Prop := async (s_o s' o) = async (s_o s o) /\ cfree (s_o s' o) = cfree (s_o s o) /\ recur (s_o s' o) = recur (s_o s o) /\ (destroyed (s_o s o) = true -> destroyed (s_o s' o) = true).
Definition info (T : nat) (s s' : st) : Prop :=
  (s_next s <= s_next s')%nat /\ (forall o, (o < s_next s)%nat -> kept s s' o) /\ exists es, s_tr s' = s_tr s ++ es /\ (forall e, In e es -> evok T s s' e) /\ ((length es <= 1)%nat \/ exists t r, es = [EQueue t r; EMark t r]).
Lemma kept_refl s s' o : s_o s' o = s_o s o -> kept s s' o.
Proof. unfold kept. intros ->. auto. Qed.
Lemma kept_upd s o r p : async r = async (s_o s o) -> cfree r = cfree (s_o s o) -> recur r = recur (s_o s o) -> (destroyed (s_o s o) = true -> destroyed r = true) -> forall s', s_o s' = fupd (s_o s) o r -> kept s s' p.
Proof. intros A B C D s' E. unfold kept. rewrite E. unfold fupd. destruct (Nat.eqb_spec p o) as [->|N]; auto. Qed.
Lemma info_plain T s t L es : ((length es <= 1)%nat \/ exists t r, es = [EQueue t r; EMark t r]) -> (forall e, In e es -> evok T s (set_stk s t L es) e) -> info T s (set_stk s t L es).
Proof. intros N H. split; [apply Nat.le_refl|]. split; [intros o _; apply kept_refl; reflexivity|]. exists es. split; [reflexivity|]. split; [exact H|exact N]. Qed.
Lemma info_fail T s f : info T s (fail s f).
Proof. split; [apply Nat.le_refl|]. split; [intros o _; apply kept_refl; reflexivity|]. exists []. split; [cbn; symmetry; apply app_nil_r|]. split; [intros e []|left; cbn; lia]. Qed.

Lemma info_apply T s t o x l s' : GInv T s -> TrInv s -> (t < T)%nat -> s_stk s t = x :: l -> about o x = true -> apply s t o l (lstep t o (s_o s o) (inst s o) x l) = Some s' -> info T s s'.
Proof.
  intros G I Ht Hs A E. destruct (apply_ok T s t o x l s' G Ht Hs A E) as [G' _]. pose proof G as [G1 G2 G3 G4 G5].
  assert (Ho : (o < s_next s)%nat) by (apply (G2 t x o); [rewrite Hs; left; reflexivity|exact A]).
  pose proof (G1 o Ho) as H. assert (Hk : kof s o t = x :: proj o l) by (unfold kof; rewrite Hs; apply proj_cons, A).
  assert (Q : onq o l = onq o (proj o l)) by (symmetry; apply onq_proj).
  rewrite (lstep_below _ _ _ _ _ _ _ Q) in E. destruct (lstep t o (s_o s o) (inst s o) x (proj o l)) as [|f|r' i' fs es] eqn:LS; cbn [apply] in E; [discriminate E| |].
  - assert (X : s' = fail s f) by congruence. subst s'. apply info_fail.
  - destruct (step_shape _ _ _ _ _ _ _ _ _ _ _ _ H Ht Hk A LS) as [M [_ [IC [_ [EO [ER [EG [EA [EC [EU ED]]]]]]]]]].
    destruct (step_ev _ _ _ _ _ _ _ _ _ _ _ _ H Ht Hk A LS) as [YL YE _ _ _ _ YW _ _ _ _ YK].
    assert (S1 : s_next s' = s_next s /\ s_tr s' = s_tr s ++ es /\ s_o s' = fupd (s_o s) o r' /\ forall u, u <> t -> s_stk s' u = s_stk s u).
    { match type of E with Some ?a = _ => assert (X : s' = a) by congruence end. subst s'. destruct (Bool.eqb i' (inst s o)); [|unfold set_inst; destruct i']; (do 3 (split; [reflexivity|])); intros u N; cbn; apply fupd_ne; exact N. }
    destruct S1 as [SN [ST [SO SK]]]. split; [rewrite SN; apply Nat.le_refl|]. split; [intros p _; eapply kept_upd; [| | | |exact SO]; auto|]. exists es. split; [exact ST|]. split; [|left; exact YL].
    assert (OE : s_o s' o = r') by (rewrite SO; apply fupd_eq).
    pose proof (facts_of _ _ _ _ _ _ _ _ H Ht Hk) as F. pose proof (f_wf _ _ _ _ _ _ _ _ F) as WF.
    intros e Ie. pose proof (YE e Ie) as Y. destruct e; try contradiction; cbn [evok]; try exact Logic.I.
    + destruct Y as [-> ->]. split; [exact Ho|]. split; [|intros N; eapply YK; eauto].
      assert (B : exists kd nr h st e, x = FOp o nr kd h st e /\ (st = SGot \/ st = SLocked) \/ exists lkd rf id, x = FQ o lkd SLocked rf id).
      { destruct x as [o' nr kd h st e|o' lkd st rf id| |o' del g st e| |]; cbn [lstep] in LS; try discriminate LS; cbn [about] in A; apply Nat.eqb_eq in A; subst o'.
        - exists kd, nr, h, st, e. left. split; [reflexivity|]. destruct st; auto; cbn [op_step] in LS; try discriminate LS.
          + assert (es = []) by congruence. subst es. contradiction Ie.
          + destruct (writer (s_o s o) || negb (readers (s_o s o) =? 0)); [discriminate LS|]. assert (es = []) by congruence. subst es. contradiction Ie.
          + destruct kd; [| |destruct h]; repeat match type of LS with (if ?b then _ else _) = _ => destruct b | match ?b with _ => _ end = _ => destruct b end; try discriminate LS; assert (es = []) by congruence; subst es; contradiction Ie.
          + destruct (writer (s_o s o)); [discriminate LS|]. assert (es = []) by congruence. subst es. contradiction Ie.
          + assert (es = []) by congruence. subst es. contradiction Ie.
          + destruct nr; [assert (es = []) by congruence; subst es; contradiction Ie|]. exfalso. unfold refobj_put, put in LS. repeat match type of LS with (if ?b then _ else _) = _ => destruct b end; try discriminate LS; (assert (es = [] \/ es = [EDtor t o]) by (first [left; congruence|right; congruence])); (destruct H0; subst es; [contradiction Ie|destruct Ie as [Ie|[]]; discriminate Ie]).
          + exfalso. assert (es = [ERet t o kd e]) by congruence. subst es. destruct Ie as [Ie|[]]; discriminate Ie.
        - exists Hold, false, HNo, SGot, 0. right. exists lkd, rf, id. destruct st; try reflexivity; exfalso; cbn [q_step] in LS; try discriminate LS.
          + destruct (async (s_o s o)); [|destruct (writer (s_o s o)); [discriminate LS|]]; assert (es = []) by congruence; subst es; contradiction Ie.
          + assert (es = []) by congruence; subst es; contradiction Ie.
          + unfold refobj_put, put in LS. repeat match type of LS with (if ?b then _ else _) = _ => destruct b end; try discriminate LS; (assert (es = [] \/ es = [EDtor t o]) by (first [left; congruence|right; congruence])); (destruct H0; subst es; [contradiction Ie|destruct Ie as [Ie|[]]; discriminate Ie]).
          + destruct rf; [assert (es = [EMark t id]) by congruence; subst es; destruct Ie as [Ie|[]]; discriminate Ie|assert (es = []) by congruence; subst es; contradiction Ie].
        - exfalso. destruct st; cbn [des_step] in LS; unfold put in LS; repeat match type of LS with (if ?b then _ else _) = _ => destruct b | match ?b with _ => _ end = _ => destruct b end; try discriminate LS;
          (assert (es = [] \/ es = [EDtor t o] \/ es = [EDesRet t o del e]) by (first [left; congruence|right; left; congruence|right; right; congruence])); destruct H0 as [H0|[H0|H0]]; subst es; try (destruct Ie as [Ie|[]]; discriminate Ie); contradiction Ie. }
      assert (U : 1 <= csum use (x :: proj o l)).
      { cbn [csum]. pose proof (csum_nonneg use (proj o l) use_nn). destruct B as [kd [nr [h [st [e [[-> S0]|[lkd [rf [id ->]]]]]]]]]; [|cbn [use]; lia].
        destruct nr; [|destruct S0; subst st; cbn [use]; lia]. cbn [wfx] in WF. destruct WF as [W1 _]. destruct (W1 eq_refl) as [_ W2]. pose proof (onq_use o _ W2). pose proof (use_nn (FOp o true kd h st e)). lia. }
      pose proof (v_use _ _ _ _ _ H) as V. pose proof (sumT_ge T (fun u => csum use (kof s o u)) t Ht (fun u => csum_nonneg use _ use_nn)) as W. cbn beta in W. rewrite Hk in W.
      pose proof (sumT_nonneg T (fun u => csum ownc (kof s o u)) (fun u => csum_nonneg ownc _ own_nn)). destruct (inst s o); cbn [b2z] in V; lia.
    + destruct Y as [-> [-> [nr [h ->]]]]. split; [exact Ho|]. cbn [wfx] in WF. apply WF.
    + destruct Y as [-> [-> [g ->]]]. split; [exact Ho|]. cbn [wfx] in WF. destruct WF as [_ [W _]]. destruct W as [W|W]; auto.
    + destruct Y as [-> [-> U']]. split; [exact Ho|]. split; [exact Ht|]. rewrite OE. split; [exact U'|]. intros CF AS.
      assert (Ho' : (o < s_next s')%nat) by (rewrite SN; exact Ho). pose proof (g_obj _ _ G' o Ho') as H'. rewrite OE in H'.
      pose proof (v_use _ _ _ _ _ H') as V'. rewrite U' in V'. pose proof (sumT_nonneg T (fun u => csum ownc (kof s' o u)) (fun u => csum_nonneg ownc _ own_nn)) as N1. pose proof (sumT_nonneg T (fun u => csum use (kof s' o u)) (fun u => csum_nonneg use _ use_nn)) as N2.
      assert (J : inst s' o = false) by (destruct (inst s' o); [cbn [b2z] in V'; lia|reflexivity]). rewrite J in V'. cbn [b2z] in V'.
      assert (O0 : sumT T (fun u => csum ownc (kof s' o u)) = 0) by lia. assert (U0 : sumT T (fun u => csum use (kof s' o u)) = 0) by lia.
      assert (DU : sumT T (fun u => csum dwc (kof s' o u)) <= sumT T (fun u => csum use (kof s' o u))).
      { clear. induction T as [|n IH]; cbn [sumT]; [lia|]. assert (csum dwc (kof s' o n) <= csum use (kof s' o n)); [|lia]. induction (kof s' o n) as [|y q IHq]; cbn [csum]; [lia|].
        assert (dwc y <= use y); [|lia]. destruct y as [? [] ? ? [] ?|? ? [] ? ?| |? ? ? [] ?| |]; cbn; lia. }
      destruct (v_wait2 _ _ _ _ _ H') as [W|W]; [congruence|congruence|exact J|exact O0|lia|].
      destruct (waited r') as [tw|] eqn:WT; [|congruence]. destruct YW as [YW|[YW [g [st [e ->]]]]].
      * assert (tw = t).
        { destruct (Nat.eq_dec tw t) as [|N]; [assumption|exfalso]. symmetry in YW. destruct (v_wait _ _ _ _ _ H tw YW) as [B1 [B2 B3]].
          assert (Ltw : (tw < T)%nat \/ (T <= tw)%nat) by lia.
          assert (Z1 : csum use (kof s o tw) = 0).
          { destruct Ltw as [Ltw|Ltw]; [|unfold kof; rewrite (G3 tw Ltw); reflexivity]. pose proof (sumT_ge T (fun u => csum use (kof s' o u)) tw Ltw (fun u => csum_nonneg use _ use_nn)) as W'. cbn beta in W'. pose proof (csum_nonneg use (kof s' o tw) use_nn).
            unfold kof in *. rewrite SK in * by exact N. lia. }
          assert (Z2 : usage (s_o s o) = 0).
          { rewrite (v_use _ _ _ _ _ H), B1, B2. cbn [b2z]. assert (Z3 : sumT T (fun u => csum use (kof s o u)) = 0); [|lia].
            clear -B3 Z1. assert (K : forall n, (n <= T)%nat -> sumT n (fun u => csum use (kof s o u)) = 0); [|apply K, Nat.le_refl].
            induction n as [|n IH]; intros Ln; cbn [sumT]; [reflexivity|]. rewrite IH by lia. destruct (Nat.eq_dec n tw) as [->|D]; [rewrite Z1; lia|rewrite B3 by (auto; lia); lia]. }
          assert (UX : use x = 0).
          { pose proof (v_use _ _ _ _ _ H) as V. rewrite Z2 in V. pose proof (sumT_ge T (fun u => csum use (kof s o u)) t Ht (fun u => csum_nonneg use _ use_nn)) as W0. cbn beta in W0. rewrite Hk in W0. cbn [csum] in W0. pose proof (csum_nonneg use (proj o l) use_nn). pose proof (use_nn x).
            pose proof (sumT_nonneg T (fun u => csum ownc (kof s o u)) (fun u => csum_nonneg ownc _ own_nn)). rewrite B1 in V. cbn [b2z] in V. lia. }
          assert (D2 : dtors o (s_tr s') = 1) by (rewrite (t_dtor _ (TrInv_apply T s t o x l s' G I Ht Hs A ltac:(rewrite (lstep_below _ _ _ _ _ _ _ Q), LS; exact E))); rewrite OE, U'; apply Nat.ltb_lt in Ho'; rewrite Ho'; reflexivity).
          assert (D1 : dtors o (s_tr s) = 1) by (rewrite (t_dtor _ I), Z2; apply Nat.ltb_lt in Ho; rewrite Ho; reflexivity).
          unfold dtors in *. rewrite ST, cnt_app in D2. pose proof (cnt_pos (isD o) es (EDtor t o) Ie (Nat.eqb_refl o)). lia. }
        subst tw. apply (t_wait _ I o t Ho). congruence.
      * assert (o0 : True) by exact Logic.I. eapply (t_des _ I t o true g st e). rewrite Hs. left. reflexivity.
Qed.
Lemma info_call T s t c s' : GInv T s -> TrInv s -> (t < T)%nat -> at_user (s_stk s t) = true -> do_call s t c = Some s' -> info T s s'.
Proof.
  intros G I Ht U E. pose proof (g_t _ _ G) as G5.
  assert (GF : forall r b, async (get t r b) = async r /\ cfree (get t r b) = cfree r /\ recur (get t r b) = recur r /\ destroyed (get t r b) = destroyed r) by (intros r b; unfold get; destruct (b && _); repeat split; reflexivity).
  assert (PU : forall o r L es, kept s (set_o s o r) o -> (length es <= 1)%nat -> (forall e, In e es -> evok T s (set_stk (set_o s o r) t L es) e) -> info T s (set_stk (set_o s o r) t L es)).
  { intros o r L es [K1 [K2 [K3 K4]]] N H. cbn in *. rewrite fupd_eq in *. split; [apply Nat.le_refl|]. split; [intros p _; apply (kept_upd s o r); auto|]. exists es. split; [reflexivity|]. split; [exact H|left; exact N]. }
  assert (KG : forall o b, kept s (set_o s o (get t (s_o s o) b)) o).
  { intros o b. unfold kept. cbn. rewrite fupd_eq. destruct (GF (s_o s o) b) as [A [B [C D]]]. rewrite D. auto. }
  destruct c as [kd r|o|r|r del|i a rc cf]; cbn [do_call] in E.
  - destruct (lookup s r) as [o|] eqn:L; [destruct (gone (s_o s o))|]; match type of E with Some ?a = _ => assert (X : s' = a) by congruence end; subst s'; [apply info_fail|apply PU; [apply KG|cbn; lia|intros e []]|]. apply info_plain; [left; cbn; lia|]. intros e [<-|[]]. exact L.
  - destruct (onq o (s_stk s t)); [|discriminate E]. destruct (gone (s_o s o)); match type of E with Some ?a = _ => assert (X : s' = a) by congruence end; subst s'; [apply info_fail|]. apply info_plain; [left; cbn; lia|]. intros e [].
  - destruct (lookup s r) as [o|] eqn:L; [destruct (gone (s_o s o))|]; match type of E with Some ?a = _ => assert (X : s' = a) by congruence end; subst s'; [apply info_fail|apply PU; [apply KG|cbn; lia|intros e [<-|[]]; exact Logic.I]|]. apply info_plain; [right; exists t, r; reflexivity|]. intros e [<-|[<-|[]]]; exact Logic.I.
  - destruct (lookup s r) as [o|] eqn:L; [destruct (gone (s_o s o))|]; match type of E with Some ?a = _ => assert (X : s' = a) by congruence end; subst s'; [apply info_fail|apply PU; [apply KG|cbn; lia|]|].
    + intros e [<-|[]]. destruct (lookup_inst _ _ _ G5 L) as [Ho [J _]]. split; [exact Ho|exact J].
    + apply info_plain; [left; cbn; lia|]. intros e [<-|[]]. exact L.
  - destruct ((i <? LIMIT)%nat && negb (s_bit s i)); [|discriminate E]. match type of E with Some ?a = _ => assert (X : s' = a) by congruence end. subst s'. split; [cbn; lia|]. split; [intros o Ho; apply kept_refl; cbn; apply fupd_ne; lia|]. exists []. split; [reflexivity|]. split; [intros e []|left; cbn; lia].
Qed.
Lemma info_end T s t s' : GInv T s -> TrInv s -> (t < T)%nat -> do_end s t = Some s' -> info T s s'.
Proof.
  intros G I Ht E. unfold do_end in E. destruct (s_stk s t) as [|x l] eqn:Hs; [discriminate E|].
  assert (AB : forall o, about o x = true -> (o < s_next s)%nat) by (intros o A; apply (g_fresh _ _ G t x o); [rewrite Hs; left; reflexivity|exact A]).
  destruct x as [o nr kd h st e|o lkd st rf id|r|o del g st e|o st|o]; try discriminate E; try (destruct st; try discriminate E); match type of E with Some ?a = _ => assert (X : s' = a) by congruence end; subst s'; (apply info_plain; [left; cbn; lia|]); intros e'; cbn; try (intros [<-|[]]; cbn; apply AB; cbn; apply Nat.eqb_refl).
  - intros [].
  - intros [<-|[]]. split; [apply AB; cbn; apply Nat.eqb_refl|]. pose proof (kof_top s t o _ l Hs (Nat.eqb_refl o)) as Hk. apply (fin_use _ _ _ _ _ _ _ _ (g_obj _ _ G o (AB o (Nat.eqb_refl o))) Ht Hk).
Qed.
Lemma info_step T s t s' : GInv T s -> TrInv s -> (t < T)%nat -> do_step s t = Some s' -> info T s s'.
Proof.
  intros G I Ht E. pose proof G as [G1 G2 G3 G4 G5]. unfold do_step in E. destruct (s_stk s t) as [|x l] eqn:Hs; [discriminate E|].
  assert (AL : forall o, about o x = true -> (o < s_next s)%nat /\ kof s o t = x :: proj o l /\ touches x && gone (s_o s o) = false).
  { intros o A. assert (Ho : (o < s_next s)%nat) by (apply (G2 t x o); [rewrite Hs; left; reflexivity|exact A]). pose proof (kof_top s t o x l Hs A) as Hk. split; [exact Ho|]. split; [exact Hk|].
    destruct (touches x) eqn:TC; [|reflexivity]. apply (alive _ _ _ _ _ _ _ _ (G1 o Ho) Ht Hk A TC). }
  destruct x as [o nr kd h st e|o lkd st rf id|r|o del g st e|o st|o]; try discriminate E.
  - destruct (AL o (Nat.eqb_refl o)) as [Ho [Hk TG]]. cbv zeta in E. rewrite TG in E. apply (info_apply T s t o _ l s' G I Ht Hs (Nat.eqb_refl o) E).
  - destruct (AL o (Nat.eqb_refl o)) as [Ho [Hk TG]]. cbv zeta in E. rewrite TG in E. apply (info_apply T s t o _ l s' G I Ht Hs (Nat.eqb_refl o) E).
  - destruct (AL o (Nat.eqb_refl o)) as [Ho [Hk TG]]. cbv zeta in E. rewrite TG in E. apply (info_apply T s t o _ l s' G I Ht Hs (Nat.eqb_refl o) E).
  - destruct (AL o (Nat.eqb_refl o)) as [Ho [Hk TG]]. cbv zeta in E. rewrite TG in E. destruct st; try discriminate E; match type of E with Some ?a = _ => assert (X : s' = a) by congruence end; clear E; subst s'.
    + split; [apply Nat.le_refl|]. split; [intros p _; apply (kept_upd s o (set_rel (s_o s o))); auto|]. exists [EId o (snd (oid (s_o s o)))]. split; [reflexivity|]. split; [|left; cbn; lia]. intros e [<-|[]]. split; [exact Ho|]. split; [reflexivity|]. apply (t_fin _ I t o FId); [rewrite Hs; left; reflexivity|discriminate].
    + split; [apply Nat.le_refl|]. split; [intros p _; apply (kept_upd s o (set_gone (s_o s o))); auto|]. exists []. split; [reflexivity|]. split; [intros e []|left; cbn; lia].
  - destruct (AL o (Nat.eqb_refl o)) as [Ho [Hk TG]]. cbv zeta in E. rewrite TG in E. match type of E with Some ?a = _ => assert (X : s' = a) by congruence end; clear E. unfold install in X.
    destruct (s_tab s (snd (oid (s_o s o)))) as [p|] eqn:TN; [subst s'; apply info_fail|]. subst s'.
    destruct (new_use _ _ _ _ _ _ _ (G1 o Ho) Ht Hk) as [U I0]. pose proof (live_rel _ _ _ _ _ (G1 o Ho) U) as RO.
    split; [apply Nat.le_refl|]. split; [intros p _; apply (kept_upd s o (set_oid (s_o s o) (s_life s, snd (oid (s_o s o))))); auto|]. exists [ECreate t o (s_life s, snd (oid (s_o s o)))]. split; [reflexivity|]. split; [|left; cbn; lia]. intros e [<-|[]]. split; [exact Ho|]. split.
    + intros N. apply (N t). rewrite Hs. left. reflexivity.
    + split; [reflexivity|]. intros p Hp N Q. cbn [snd] in Q. destruct (rel (s_o s p)) eqn:R; [reflexivity|]. exfalso. apply N. apply (g_inj _ G5); auto.
Qed.
Theorem exec_info T l s s' : GInv T s -> TrInv s -> exec T l s = Some s' -> info T s s'.
Proof.
  intros G I E. unfold exec in E. destruct (s_fail s) eqn:F; [discriminate E|]. destruct l as [t c|t|t].
  - destruct ((t <? T)%nat && at_user (s_stk s t)) eqn:Q; [|discriminate E]. apply andb_true_iff in Q. destruct Q as [Q1 Q2]. apply Nat.ltb_lt in Q1. eapply info_call; eauto.
  - assert (Ht : (t < T)%nat). { destruct (Nat.ltb_spec t T); [assumption|]. unfold do_end in E. rewrite (g_thr _ _ G t) in E by assumption. discriminate E. } eapply info_end; eauto.
  - assert (Ht : (t < T)%nat). { destruct (Nat.ltb_spec t T); [assumption|]. unfold do_step in E. rewrite (g_thr _ _ G t) in E by assumption. discriminate E. } eapply info_step; eauto.
Qed.
