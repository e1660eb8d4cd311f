(** * The history and the state of the reference objects: every step keeps them in line. *)
From Verif Require Import Base Refobj RefobjSpec RefobjInv RefobjStep RefobjOp RefobjRest RefobjGlob RefobjTrace.

Lemma csum_app c a b : csum c (a ++ b) = csum c a + csum c b.
Proof. induction a as [|x a IH]; cbn [app csum]; [lia|]. rewrite IH. lia. Qed.

(** The part X of a stack is replaced by Y. *)
Lemma TrInv_loc T s s' t o r' l X Y es : GInv T s -> GInv T s' -> TrInv s -> (t < T)%nat -> (o < s_next s)%nat -> s_next s' = s_next s -> s_tr s' = s_tr s ++ es ->
  s_stk s t = X ++ l ->
  (forall u, s_stk s' u = fupd (s_stk s) t (Y ++ l) u) -> (forall o', s_o s' o' = fupd (s_o s) o r' o') -> (forall o', o' <> o -> (o' < s_next s)%nat -> inst s' o' = inst s o') ->
  (forall u o' k, opens u o' k es = if (u =? t)%nat then csum (runc o' k) Y - csum (runc o' k) X else 0) ->
  (forall o', dtors o' es = if (o' =? o)%nat then (if usage r' =? 0 then 1 else 0) - (if usage (s_o s o) =? 0 then 1 else 0) else 0) ->
  (forall o' del g st e, In (FDes o' del g st e) Y -> (exists g' st' e', In (FDes o' del g' st' e') X) \/ In (EDes t o' del) es) ->
  (inst s' o = false -> inst s o = true -> exists u, In (EDes u o true) (s_tr s)) ->
  (forall o', In (FNew o') X -> In (FNew o') Y \/ inst s' o' = true) ->
  (forall tw, waited r' = Some tw -> waited (s_o s o) = Some tw \/ In (EDes tw o true) (s_tr s)) ->
  (forall o', In (FNew o') Y -> In (FNew o') X) ->
  (forall u o' del, In (EDes u o' del) es -> u = t /\ o' = o /\ inst s o = true /\ (del = true -> exists g st e, In (FDes o true g st e) Y /\ early st)) ->
  (forall g st e o', In (FDes o' true g st e) X -> early st -> inst s' o' = false \/ exists g' st' e', In (FDes o' true g' st' e') Y /\ early st') ->
  (inst s o = false -> inst s' o = true -> In (FNew o) X) ->
  (forall o' st, In (FFin o' st) Y -> st <> FDtor -> (exists st', st' <> FDtor /\ In (FFin o' st') X) \/ In (EDtorEnd t o') es) ->
  (rel r' = true -> rel (s_o s o) = true \/ exists u, In (EDtorEnd u o) (s_tr s)) ->
  (oid r' = oid (s_o s o) \/ In (FNew o) X) ->
  (forall u o' id, In (ECreate u o' id) es -> o' = o /\ oid r' = id /\ inst s' o = true) ->
  (destroyed r' = true -> destroyed (s_o s o) = true \/ exists u del, In (EDes u o del) (s_tr s)) ->
  TrInv s'.
Proof.
  intros G G' I Ht Ho EN ET EX ES EO HI C1 C2 C3 C4 C5 C6 C7 C8 C9 C10 C11 C12 C13 C14 C15.
  eapply (TrInv_one T s s' t o r' (Y ++ l) es); eauto; rewrite ?EX.
  - intros u o' k. rewrite C1, !csum_app. destruct (u =? t)%nat; lia.
  - intros o' del g st e P. apply in_app_or in P. destruct P as [P|P]; [|left; exists g, st, e; apply in_or_app; auto].
    destruct (C3 _ _ _ _ _ P) as [[g' [st' [e' Q]]]|Q]; [left; exists g', st', e'; apply in_or_app; auto|auto].
  - intros o' P. apply in_app_or in P. destruct P as [P|P]; [|left; apply in_or_app; auto]. destruct (C5 _ P); [left; apply in_or_app; auto|auto].
  - intros o' P. apply in_app_or in P. apply in_or_app. destruct P as [P|P]; auto.
  - intros u o' del P. destruct (C8 _ _ _ P) as [A [B [C D]]]. split; [exact A|]. split; [exact B|]. split; [exact C|]. intros E. destruct (D E) as [g [st [e [Q R]]]]. exists g, st, e. split; [apply in_or_app; auto|exact R].
  - intros g st e o' P E. apply in_app_or in P. destruct P as [P|P]; [|right; exists g, st, e; split; [apply in_or_app; auto|exact E]].
    destruct (C9 _ _ _ _ P E) as [Q|[g' [st' [e' [Q R]]]]]; [auto|]. right. exists g', st', e'. split; [apply in_or_app; auto|exact R].
  - intros A B. apply in_or_app. auto.
  - intros o' st P N. apply in_app_or in P. destruct P as [P|P]; [|left; exists st; split; [exact N|apply in_or_app; auto]].
    destruct (C11 _ _ P N) as [[st' [A B]]|B]; [left; exists st'; split; [exact A|apply in_or_app; auto]|auto].
  - destruct C13 as [A|A]; [auto|right; apply in_or_app; auto].
Qed.
Lemma cnt_none p es : (forall e, In e es -> p e = false) -> cnt p es = 0.
Proof. induction es as [|e es IH]; cbn [cnt]; intros H; [reflexivity|]. rewrite H by (left; reflexivity). rewrite IH; [lia|]. intros x I. apply H. right. exact I. Qed.
Lemma runc_other o o' k l : o' <> o -> Forall (mine o) l -> csum (runc o' k) l = 0.
Proof.
  intros N. induction 1 as [|x l H _ IH]; cbn [csum]; [reflexivity|]. rewrite IH. assert (E : runc o' k x = 0); [|lia].
  destruct H as [H|[r ->]]; [|reflexivity]. destruct x as [p ? ? ? [] ?|p ? [] ? ?| | | |]; try reflexivity; cbn [about runc] in *; apply Nat.eqb_eq in H; subst p; apply Nat.eqb_neq in N; rewrite Nat.eqb_sym in N; rewrite N; reflexivity.
Qed.

Lemma inst_dec_same s o r' L t es i' : i' = inst s o -> set_stk (set_o (if Bool.eqb i' (inst s o) then s else set_inst s o i') o r') t L es = set_stk (set_o s o r') t L es.
Proof. intros ->. rewrite Bool.eqb_reflx. reflexivity. Qed.

(** Steps inside a call. *)
Lemma TrInv_apply T s t o x l s' : GInv T s -> TrInv s -> (t < T)%nat -> s_stk s t = x :: l -> about o x = true -> apply s t o l (lstep t o (s_o s o) (inst s o) x l) = Some s' -> TrInv s'.
Proof.
  intros G I Ht Hs A E. destruct (apply_ok T s t o x l s' G Ht Hs A E) as [G' _]. pose proof G as [G1 G2 G3 G4 G5].
  assert (Ho : (o < s_next s)%nat) by (apply (G2 t x o); [rewrite Hs; left; reflexivity|exact A]).
  pose proof (G1 o Ho) as H. assert (Hk : kof s o t = x :: proj o l) by (unfold kof; rewrite Hs; apply proj_cons, A).
  assert (Q : onq o l = onq o (proj o l)) by (symmetry; apply onq_proj).
  rewrite (lstep_below _ _ _ _ _ _ _ Q) in E. destruct (lstep t o (s_o s o) (inst s o) x (proj o l)) as [|f|r' i' fs es] eqn:LS; cbn [apply] in E; [discriminate E| |].
  - assert (X : s' = fail s f) by congruence. subst s'. destruct I. constructor; auto.
  - destruct (step_shape _ _ _ _ _ _ _ _ _ _ _ _ H Ht Hk A LS) as [M [_ [IC [_ [EO [ER _]]]]]].
    destruct (step_ev _ _ _ _ _ _ _ _ _ _ _ _ H Ht Hk A LS) as [_ YE YB YD YS YI YW YX YF YN YR _].
    assert (IN : forall y, In y (s_stk s t) <-> y = x \/ In y l) by (intros y; rewrite Hs; cbn; intuition).
    assert (XD : forall del g st e, x = FDes o del g st e -> In (EDes t o del) (s_tr s)).
    { intros del g st e ->. eapply (t_des _ I t o del g st e). rewrite Hs. left. reflexivity. }
    assert (U0 : usage (s_o s o) <> 0 \/ use x = 0).
    { destruct (Z.eq_dec (usage (s_o s o)) 0) as [U|U]; [right|left; exact U]. pose proof (v_use _ _ _ _ _ H) as V. rewrite U in V.
      pose proof (sumT_nonneg T (fun u => csum ownc (kof s o u)) (fun u => csum_nonneg ownc _ own_nn)). pose proof (sumT_ge T (fun u => csum use (kof s o u)) t Ht (fun u => csum_nonneg use _ use_nn)) as W. cbn beta in W. rewrite Hk in W. cbn [csum] in W.
      pose proof (csum_nonneg use (proj o l) use_nn). pose proof (use_nn x). destruct (inst s o); cbn [b2z] in V; lia. }
    specialize (YD U0).
    assert (NE : forall u p k, cnt (isE u p k) es = 0).
    { intros u p k. apply cnt_none. intros e Ie. specialize (YE e Ie). destruct e; try reflexivity. contradiction. }
    assert (NX : forall st, x <> FFin o st /\ x <> FNew o).
    { intros st. split; intros ->; cbn [lstep] in LS; discriminate LS. }
    assert (NXF : forall p, x <> FNew p).
    { intros p ->. cbn [lstep] in LS. discriminate LS. }
    assert (S1 : s_next s' = s_next s /\ s_tr s' = s_tr s ++ es /\ s_stk s' = fupd (s_stk s) t (fs ++ l) /\ s_o s' = fupd (s_o s) o r' /\ inst s' o = i' /\ forall o', o' <> o -> inst s' o' = inst s o').
    { destruct IC as [-> | [I1 ->]].
      - rewrite Bool.eqb_reflx in E. assert (X : s' = set_stk (set_o s o r') t (fs ++ l) es) by congruence. subst s'. cbn [s_next s_tr s_stk s_o set_stk set_o]. do 4 (split; [reflexivity|]).
        split; [|intros o' _]; (apply inst_same; [reflexivity|]); cbn; [rewrite fupd_eq; exact EO|apply (fupd_o (s_o s) o r' oid); exact EO].
      - rewrite I1 in E. cbn [Bool.eqb] in E. unfold set_inst in E. match type of E with Some ?a = _ => assert (X : s' = a) by congruence end. clear E.
        destruct (TInv_uninst s s' o G5) as [T1 [T2 T3]]; subst s'; cbn; try reflexivity; auto.
        { intros o'. apply (fupd_o (s_o s) o r' oid). exact EO. } { intros o'. apply (fupd_b (s_o s) o r' rel). exact ER. }
        do 4 (split; [reflexivity|]). split; assumption. }
    destruct S1 as [SN [ST [SK [SO [IO IP]]]]].
    eapply (TrInv_loc T s s' t o r' l [x] fs es G G' I Ht Ho SN ST Hs); try (rewrite SK; reflexivity); try (rewrite SO; reflexivity); auto.
    + intros u p k. unfold opens. rewrite NE. cbn [csum]. destruct (Nat.eqb_spec u t) as [->|N].
      * destruct (Nat.eq_dec p o) as [->|Np]; [rewrite YB; lia|]. rewrite (runc_other o p k fs Np M). assert (R : csum (runc p k) [x] = 0) by (apply (runc_other o); [exact Np|repeat constructor; exact A]). cbn [csum] in R. rewrite R.
        rewrite cnt_none; [lia|]. intros e Ie. specialize (YE e Ie). destruct e; try reflexivity. destruct YE as [-> ->]. cbn [isB]. apply not_eq_sym in Np. apply Nat.eqb_neq in Np. rewrite Np, andb_false_r. reflexivity.
      * rewrite cnt_none; [lia|]. intros e Ie. specialize (YE e Ie). destruct e; try reflexivity. destruct YE as [-> ->]. cbn [isB]. apply not_eq_sym in N. apply Nat.eqb_neq in N. rewrite N. reflexivity.
    + intros p. destruct (Nat.eqb_spec p o) as [->|N]; [exact YD|]. apply cnt_none. intros e Ie. specialize (YE e Ie). destruct e; try reflexivity. destruct YE as [-> [-> _]]. cbn [isD]. apply Nat.eqb_neq. congruence.
    + intros p del g st e P. destruct (YS _ _ _ _ _ P) as [-> [g' [st' [e' ->]]]]. left. exists g', st', e'. left. reflexivity.
    + intros J1 J2. rewrite IO in J1. destruct YI as [g [st [e ->]]]; [congruence|]. exists t. eapply XD. reflexivity.
    + intros p [P|[]]. exfalso. exact (NXF p P).
    + intros tw W. destruct YW as [YW|[YW [g [st [e ->]]]]]; [left; congruence|]. right. assert (tw = t) by congruence. subst tw. eapply XD. reflexivity.
    + intros p P. exfalso. exact (YN p P).
    + intros u p del P. specialize (YE _ P). contradiction.
    + intros g st e p [P|[]] ER'. subst x. assert (p = o) by (cbn [about] in A; apply Nat.eqb_eq; exact A). subst p. destruct (YR _ _ _ eq_refl ER') as [J|[g' [st' [e' [-> J]]]]]; [left; congruence|]. right. exists g', st', e'. split; [left; reflexivity|exact J].
    + intros J1 J2. exfalso. destruct IC as [IC|[IC _]]; congruence.
    + intros p st P N. exfalso. exact (N (YF _ _ P)).
    + intros R. left. congruence.
    + intros u p id P. specialize (YE _ P). contradiction.
    + intros D. destruct (YX D) as [X|[del [g [st [e ->]]]]]; [auto|]. right. exists t, del. eapply XD. reflexivity.
Qed.
(** Simple steps: the object's place in the table, its id and its flags stay. *)
Lemma TrInv_flat T s s' t o r' l X Y es : GInv T s -> GInv T s' -> TrInv s -> (t < T)%nat -> (o < s_next s)%nat -> s_stk s t = X ++ l -> s' = set_stk (set_o s o r') t (Y ++ l) es ->
  oid r' = oid (s_o s o) -> waited r' = waited (s_o s o) -> rel r' = rel (s_o s o) -> destroyed r' = destroyed (s_o s o) -> (usage r' =? 0) = (usage (s_o s o) =? 0) ->
  (forall u o' k, opens u o' k es = if (u =? t)%nat then csum (runc o' k) Y - csum (runc o' k) X else 0) ->
  (forall o', dtors o' es = 0) ->
  (forall o' del g st e, In (FDes o' del g st e) Y -> In (EDes t o' del) es) ->
  (forall o', ~ In (FNew o') Y) -> (forall o', ~ In (FNew o') X) ->
  (forall u o' del, In (EDes u o' del) es -> u = t /\ o' = o /\ inst s o = true /\ (del = true -> exists g st e, In (FDes o true g st e) Y /\ early st)) ->
  (forall g st e o', ~ In (FDes o' true g st e) X) ->
  (forall o' st, In (FFin o' st) Y -> st <> FDtor -> (exists st', st' <> FDtor /\ In (FFin o' st') X) \/ In (EDtorEnd t o') es) ->
  (forall u o' id, ~ In (ECreate u o' id) es) -> TrInv s'.
Proof.
  intros G G' I Ht Ho Hs ES EO EW ER ED EU C1 C2 C3 C5 C7 C8 C9 C11 C14.
  assert (IS : forall o', inst s' o' = inst s o') by (intros o'; subst s'; apply inst_same; [reflexivity|]; cbn; apply (fupd_o (s_o s) o r' oid); exact EO).
  eapply (TrInv_loc T s s' t o r' l X Y es G G' I Ht Ho); try (subst s'; reflexivity); auto.
  - intros p. rewrite C2, EU. destruct (p =? o)%nat; lia.
  - intros p del g st e P. right. eapply C3. exact P.
  - rewrite IS. congruence.
  - intros p P. exfalso. exact (C7 _ P).
  - intros tw. rewrite EW. auto.
  - intros p P. exfalso. exact (C5 _ P).
  - intros g st e p P. exfalso. exact (C9 _ _ _ _ P).
  - rewrite IS. congruence.
  - rewrite ER. auto.
  - intros u p id P. exfalso. exact (C14 _ _ _ P).
  - rewrite ED. auto.
Qed.
Lemma TrInv_mark s t L es : TrInv s -> (forall o k, csum (runc o k) L = csum (runc o k) (s_stk s t)) -> (forall x, (forall r, x <> FMark r) -> In x L <-> In x (s_stk s t)) ->
  (forall e, In e es -> match e with EMiss _ _ | EQueue _ _ | EMark _ _ => True | _ => False end) -> TrInv (set_stk s t L es).
Proof.
  intros [I1 I2 I3 I4 I5 I6 I7 I8 I9 I10 I11] R M EV.
  assert (N : forall p, (forall e, In e es -> p e = false) -> cnt p es = 0) by (intros p; apply cnt_none).
  assert (IN : forall e, In e (s_tr s ++ es) -> match e with EMiss _ _ | EQueue _ _ | EMark _ _ => True | _ => In e (s_tr s) end).
  { intros e P. apply in_app_or in P. destruct P as [P|P]; [destruct e; auto|]. specialize (EV e P). destruct e; auto; contradiction. }
  assert (ST : forall u x, (forall r, x <> FMark r) -> In x (fupd (s_stk s) t L u) <-> In x (s_stk s u)).
  { intros u x Hx. unfold fupd. destruct (Nat.eqb_spec u t) as [->|_]; [apply M; exact Hx|reflexivity]. }
  assert (NW : forall p, nonew (set_stk s t L es) p <-> nonew s p) by (intros p; unfold nonew; cbn [s_stk set_stk]; split; intros H u P; apply (H u); apply (ST u (FNew p)) in P || apply (ST u (FNew p)); auto; discriminate).
  constructor; cbn [s_tr s_stk s_o s_next set_stk].
  - intros u o k. rewrite opens_app, I1. unfold opens. rewrite !N by (intros e P; specialize (EV e P); destruct e; try contradiction; reflexivity). unfold fupd. destruct (Nat.eqb_spec u t) as [->|_]; [rewrite R|]; lia.
  - intros o. unfold dtors. rewrite cnt_app, (N (isD o)) by (intros e P; specialize (EV e P); destruct e; try contradiction; reflexivity). rewrite Z.add_0_r. apply I2.
  - intros u o del g st e P. apply ST in P; [|discriminate]. apply in_or_app. left. eapply I3. exact P.
  - intros o Ho J W. apply NW in W. destruct (I4 o Ho J W) as [u P]. exists u. apply in_or_app. auto.
  - intros o u Ho W. apply in_or_app. left. auto.
  - intros u o del P. apply IN in P. cbn in P. destruct (I6 _ _ _ P) as [A B]. split; [exact A|]. apply NW. exact B.
  - intros u o P. apply IN in P. cbn in P. destruct (I7 _ _ P) as [[g [st [e [A B]]]]|A]; [left; exists g, st, e; split; [apply ST; [discriminate|exact A]|exact B]|right; exact A].
  - intros u o st P Q. apply ST in P; [|discriminate]. destruct (I8 _ _ _ P Q) as [v A]. exists v. apply in_or_app. auto.
  - intros o Ho Q. destruct (I9 _ Ho Q) as [v A]. exists v. apply in_or_app. auto.
  - intros u o id P. apply IN in P. cbn in P. destruct (I10 _ _ _ P) as [A [B C]]. split; [exact A|]. split; [exact B|]. apply NW. exact C.
  - intros o Ho Q. destruct (I11 _ Ho Q) as [v [d A]]. exists v, d. apply in_or_app. auto.
Qed.
Lemma set_o_same s t L es o : TrInv (set_stk (set_o s o (s_o s o)) t L es) -> TrInv (set_stk s t L es).
Proof.
  assert (X : forall o', fupd (s_o s) o (s_o s o) o' = s_o s o') by (intros o'; unfold fupd; destruct (Nat.eqb_spec o' o) as [->|_]; reflexivity).
  assert (IS : forall p, inst (set_stk (set_o s o (s_o s o)) t L es) p = inst (set_stk s t L es) p) by (intros p; apply inst_same; cbn; [reflexivity|rewrite X; reflexivity]).
  intros [I1 I2 I3 I4 I5 I6 I7 I8 I9 I10 I11]. cbn in *. constructor; cbn; auto.
  - intros p. rewrite I2, X. reflexivity.
  - intros p Hp J. apply I4; auto. rewrite IS. exact J.
  - intros p u Hp. rewrite <- (X p). auto.
  - intros u p P. rewrite <- IS. auto.
  - intros p Hp. rewrite <- (X p). auto.
  - intros u p id P. rewrite <- (X p). eauto.
  - intros p Hp. rewrite <- (X p). auto.
Qed.
Lemma use_z T s o : GInv T s -> (o < s_next s)%nat -> inst s o = true -> usage (s_o s o) <> 0 /\ usage (s_o s o) + 1 <> 0.
Proof. intros G Ho J. pose proof (g_obj _ _ G o Ho) as H. rewrite J in H. pose proof (inst_use _ _ _ _ H). lia. Qed.
Lemma set_o_id2 T s t L es o : GInv T (set_stk s t L es) -> GInv T (set_stk (set_o s o (s_o s o)) t L es).
Proof.
  assert (X : forall o', fupd (s_o s) o (s_o s o) o' = s_o s o') by (intros o'; unfold fupd; destruct (Nat.eqb_spec o' o) as [->|_]; reflexivity).
  intros [G1 G2 G3 G4 [G5 G6 G7]]. cbn in *. constructor; cbn; auto.
  - intros o' Ho. specialize (G1 o' Ho). rewrite X. assert (I : inst (set_stk (set_o s o (s_o s o)) t L es) o' = inst (set_stk s t L es) o') by (apply inst_same; cbn; [reflexivity|rewrite X; reflexivity]). rewrite I. exact G1.
  - constructor; cbn. + intros i o' E. rewrite X. exact (G5 i o' E). + intros o' E. rewrite X. exact (G6 o' E). + intros p q E F. rewrite !X. exact (G7 p q E F).
Qed.
(** Calls. *)
Lemma TrInv_call T s t c s' : GInv T s -> TrInv s -> (t < T)%nat -> at_user (s_stk s t) = true -> do_call s t c = Some s' -> TrInv s'.
Proof.
  intros G I Ht U E. destruct (call_ok T s t c s' G Ht U E) as [G' _]. pose proof G as [G1 G2 G3 G4 G5].
  assert (GET : forall r o b, lookup s r = Some o -> (o < s_next s)%nat /\ inst s o = true /\ gone (s_o s o) = false /\ (usage (get t (s_o s o) b) =? 0) = (usage (s_o s o) =? 0)).
  { intros r o b L. destruct (lookup_inst _ _ _ G5 L) as [Ho [J R]]. destruct (use_z T s o G Ho J) as [U1 U2]. pose proof (G1 o Ho) as H. rewrite J in H. destruct (v_fin1 _ _ _ _ _ H (inst_use _ _ _ _ H)) as [_ GN].
    split; [exact Ho|]. split; [exact J|]. split; [exact GN|]. apply Z.eqb_neq in U1. apply Z.eqb_neq in U2. rewrite U1. unfold get. destruct (b && _); exact U2. }
  assert (GF : forall r b, oid (get t r b) = oid r /\ waited (get t r b) = waited r /\ rel (get t r b) = rel r /\ destroyed (get t r b) = destroyed r) by (intros r b; unfold get; destruct (b && _); repeat split; reflexivity).
  assert (Z0 : forall u o' k, opens u o' k [] = if (u =? t)%nat then 0 - 0 else 0) by (intros u o' k; destruct (u =? t)%nat; reflexivity).
  destruct c as [kd r|o|r|r del|i a rc cf]; cbn [do_call] in E.
  - destruct (lookup s r) as [o|] eqn:L.
    + destruct (GET r o true L) as [Ho [J [GN UU]]]. rewrite GN in E. match type of E with Some ?a = _ => assert (X : s' = a) by congruence end. destruct (GF (s_o s o) true) as [F1 [F2 [F3 F4]]].
      eapply (TrInv_flat T s s' t o (get t (s_o s o) true) (s_stk s t) [] [FOp o false kd HNo SGot 0] [] G G' I Ht Ho eq_refl X); auto; cbn; try (intros; tauto); unfold not; intros; repeat match goal with H : _ \/ _ |- _ => destruct H end; try contradiction; try discriminate; auto; try (match goal with |- context [(?a =? ?b)%nat] => destruct (a =? b)%nat; reflexivity end).
    + match type of E with Some ?a = _ => assert (X : s' = a) by congruence end. subst s'. apply TrInv_mark; [exact I|reflexivity|reflexivity|]. intros e [<-|[]]. exact Logic.I.
  - destruct (onq o (s_stk s t)) eqn:Q; [|discriminate E]. destruct (gone (s_o s o)) eqn:GN.
    { assert (X : s' = fail s Uaf) by congruence. subst s'. destruct I. constructor; auto. }
    assert (Ho : (o < s_next s)%nat).
    { unfold onq in Q. apply existsb_exists in Q. destruct Q as [x [J Q]]. apply (G2 t x o J). destruct x as [|? ? [] ? ?| | | |]; try discriminate Q. exact Q. }
    match type of E with Some ?a = _ => assert (X : s' = a) by congruence end. subst s'. apply (set_o_same s t _ _ o).
    eapply (TrInv_flat T s _ t o (s_o s o) (s_stk s t) [] [FOp o true Read HNo SGot 0] [] G (set_o_id2 T s t _ _ o G') I Ht Ho eq_refl eq_refl); auto; cbn; try (intros; tauto); unfold not; intros; repeat match goal with H : _ \/ _ |- _ => destruct H end; try contradiction; try discriminate; auto; try (match goal with |- context [(?a =? ?b)%nat] => destruct (a =? b)%nat; reflexivity end).
  - destruct (lookup s r) as [o|] eqn:L.
    + destruct (GET r o true L) as [Ho [J [GN UU]]]. rewrite GN in E. match type of E with Some ?a = _ => assert (X : s' = a) by congruence end. destruct (GF (s_o s o) true) as [F1 [F2 [F3 F4]]].
      eapply (TrInv_flat T s s' t o (get t (s_o s o) true) (s_stk s t) [] [FQ o false SGot false r] [EQueue t r] G G' I Ht Ho eq_refl X); auto; cbn; try (intros; tauto); unfold not; intros; repeat match goal with H : _ \/ _ |- _ => destruct H end; try contradiction; try discriminate; auto; try (match goal with |- context [(?a =? ?b)%nat] => destruct (a =? b)%nat; reflexivity end).
    + match type of E with Some ?a = _ => assert (X : s' = a) by congruence end. subst s'. apply TrInv_mark; [exact I|reflexivity| |].
      * intros x Hx. cbn. split; [intros [<-|P]; [exfalso; exact (Hx r eq_refl)|exact P]|auto].
      * intros e [<-|[<-|[]]]; exact Logic.I.
  - destruct (lookup s r) as [o|] eqn:L.
    + destruct (GET r o false L) as [Ho [J [GN UU]]]. rewrite GN in E. match type of E with Some ?a = _ => assert (X : s' = a) by congruence end. destruct (GF (s_o s o) false) as [F1 [F2 [F3 F4]]].
      eapply (TrInv_flat T s s' t o (get t (s_o s o) false) (s_stk s t) [] [FDes o del 0 DStart 0] [EDes t o del] G G' I Ht Ho eq_refl X); auto; cbn; try (intros; tauto).
      * intros p d g st e [P|[]]. left. congruence.
      * intros p [P|[]]. discriminate P.
      * intros u p d [P|[]]. assert (u = t /\ p = o /\ d = del) by (repeat split; congruence). destruct H as [-> [-> ->]]. do 2 (split; [reflexivity|]). split; [exact J|]. intros ->. exists 0, DStart, 0. split; [left; reflexivity|left; reflexivity].
      * intros p st [P|[]]. discriminate P.
      * intros u p id [P|[]]. discriminate P.
    + match type of E with Some ?a = _ => assert (X : s' = a) by congruence end. subst s'. apply TrInv_mark; [exact I|reflexivity|reflexivity|]. intros e [<-|[]]. exact Logic.I.
  - destruct ((i <? LIMIT)%nat && negb (s_bit s i)) eqn:Q; [|discriminate E]. match type of E with Some ?a = _ => assert (X : s' = a) by congruence end. clear E.
    pose proof I as [I1 I2 I3 I4 I5 I6 I7 I8 I9 I10 I11].
    assert (IO : forall o, (o < s_next s)%nat -> inst s' o = inst s o) by (intros o Ho; subst s'; apply inst_same; cbn; [reflexivity|rewrite fupd_ne by lia; reflexivity]).
    assert (TR : s_tr s' = s_tr s) by (subst s'; cbn; apply app_nil_r). assert (NX : s_next s' = S (s_next s)) by (subst s'; reflexivity).
    assert (SO : forall o, (o < s_next s)%nat -> s_o s' o = s_o s o) by (intros o Ho; subst s'; cbn; apply fupd_ne; lia). assert (SN : s_o s' (s_next s) = new_obj i a rc cf) by (subst s'; cbn; apply fupd_eq).
    assert (ST : forall u x, In x (s_stk s' u) <-> (u = t /\ x = FNew (s_next s)) \/ In x (s_stk s u)).
    { intros u x. subst s'. cbn. unfold fupd. destruct (Nat.eqb_spec u t) as [->|N]; cbn; intuition. }
    assert (NW : forall p, (p < s_next s)%nat -> nonew s' p <-> nonew s p).
    { intros p Hp. unfold nonew. split; intros H u P; apply (H u); [apply ST; auto|]. apply ST in P. destruct P as [[_ P]|P]; [injection P; lia|exact P]. }
    constructor; rewrite ?TR.
    + intros u o k. rewrite I1. subst s'. cbn [s_stk set_stk]. unfold fupd. destruct (Nat.eqb_spec u t) as [->|N]; cbn [csum runc]; lia.
    + intros o. rewrite I2, NX. destruct (Nat.ltb_spec o (s_next s)) as [L|L].
      * destruct (Nat.ltb_spec o (S (s_next s))); [|lia]. rewrite SO by exact L. reflexivity.
      * cbn [andb]. destruct (Nat.ltb_spec o (S (s_next s))); [|reflexivity]. assert (o = s_next s) by lia. subst o. rewrite SN. reflexivity.
    + intros u o del g st e P. apply ST in P. destruct P as [[_ P]|P]; [discriminate P|]. eapply I3. exact P.
    + intros o. rewrite NX. intros Ho J N. destruct (Nat.eq_dec o (s_next s)) as [->|D]; [exfalso; apply (N t); apply ST; auto|]. apply I4; [lia|rewrite <- IO by lia; exact J|]. apply NW; [lia|exact N].
    + intros o u. rewrite NX. intros Ho W. destruct (Nat.eq_dec o (s_next s)) as [->|D]; [rewrite SN in W; discriminate W|]. rewrite SO in W by lia. apply I5; [lia|exact W].
    + intros u o del P. destruct (I6 _ _ _ P) as [A B]. rewrite NX. split; [lia|]. apply NW; assumption.
    + intros u o P. destruct (I6 _ _ _ P) as [A B]. destruct (I7 _ _ P) as [[g [st [e [C D]]]]|C]; [left; exists g, st, e; split; [apply ST; auto|exact D]|right; rewrite IO by exact A; exact C].
    + intros u o st P. apply ST in P. destruct P as [[_ P]|P]; [discriminate P|]. eauto.
    + intros o. rewrite NX. intros Ho R. destruct (Nat.eq_dec o (s_next s)) as [->|D]; [rewrite SN in R; discriminate R|]. rewrite SO in R by lia. apply I9; [lia|exact R].
    + intros u o id P. destruct (I10 _ _ _ P) as [A [B C]]. rewrite NX. split; [lia|]. rewrite SO by exact A. split; [exact B|]. apply NW; assumption.
    + intros o. rewrite NX. intros Ho R. destruct (Nat.eq_dec o (s_next s)) as [->|D]; [rewrite SN in R; discriminate R|]. rewrite SO in R by lia. apply I11; [lia|exact R].
Qed.
(** A callback returns. *)
Lemma TrInv_end T s t s' : GInv T s -> TrInv s -> (t < T)%nat -> do_end s t = Some s' -> TrInv s'.
Proof.
  intros G I Ht E. destruct (end_ok T s t s' G Ht E) as [G' _]. pose proof G as [G1 G2 G3 G4 G5]. unfold do_end in E. destruct (s_stk s t) as [|x l] eqn:Hs; [discriminate E|].
  assert (AB : forall o, about o x = true -> (o < s_next s)%nat) by (intros o A; apply (G2 t x o); [rewrite Hs; left; reflexivity|exact A]).
  destruct x as [o nr kd h st e|o lkd st rf id|r|o del g st e|o st|o]; try discriminate E.
  - destruct st; try discriminate E. match type of E with Some ?a = _ => assert (X : s' = a) by congruence end. subst s'. apply (set_o_same s t _ _ o).
    eapply (TrInv_flat T s _ t o (s_o s o) l [FOp o nr kd h SRun e] [FOp o nr kd h SUnl 0] [EEnd t o (Some kd)] G (set_o_id2 T s t _ _ o G') I Ht (AB o (Nat.eqb_refl o)) Hs eq_refl); auto; cbn; unfold not; intros; repeat match goal with H : _ \/ _ |- _ => destruct H end; try contradiction; try discriminate; auto.
    rewrite (Nat.eqb_sym u t). destruct (Nat.eqb_spec t u) as [->|N]; cbn [andb]; [|reflexivity]. destruct ((o =? o')%nat && keqb (Some kd) k); reflexivity.
  - destruct st; try discriminate E. match type of E with Some ?a = _ => assert (X : s' = a) by congruence end. subst s'. apply (set_o_same s t _ _ o).
    eapply (TrInv_flat T s _ t o (s_o s o) l [FQ o lkd SRun rf id] [FQ o lkd SUnl rf id] [EEnd t o None] G (set_o_id2 T s t _ _ o G') I Ht (AB o (Nat.eqb_refl o)) Hs eq_refl); auto; cbn; unfold not; intros; repeat match goal with H : _ \/ _ |- _ => destruct H end; try contradiction; try discriminate; auto.
    rewrite (Nat.eqb_sym u t). destruct (Nat.eqb_spec t u) as [->|N]; cbn [andb]; [|reflexivity]. destruct ((o =? o')%nat && keqb None k); reflexivity.
  - match type of E with Some ?a = _ => assert (X : s' = a) by congruence end. subst s'. apply TrInv_mark; [exact I| | |].
    + intros o k. rewrite Hs. reflexivity.
    + intros x Hx. rewrite Hs. cbn. split; [auto|intros [<-|P]; [exfalso; exact (Hx r eq_refl)|exact P]].
    + intros e [].
  - destruct st; try discriminate E. match type of E with Some ?a = _ => assert (X : s' = a) by congruence end. subst s'. apply (set_o_same s t _ _ o).
    eapply (TrInv_flat T s _ t o (s_o s o) l [FFin o FDtor] [FFin o FId] [EDtorEnd t o] G (set_o_id2 T s t _ _ o G') I Ht (AB o (Nat.eqb_refl o)) Hs eq_refl); auto; cbn; unfold not; intros; repeat match goal with H : _ \/ _ |- _ => destruct H end; try contradiction; try discriminate; auto.
    + destruct (u =? t)%nat; reflexivity.
    + right. left. congruence.
Qed.
(** Steps. *)
Lemma TrInv_step T s t s' : GInv T s -> TrInv s -> (t < T)%nat -> do_step s t = Some s' -> TrInv s'.
Proof.
  intros G I Ht E. destruct (step_ok T s t s' G Ht E) as [G' _]. pose proof G as [G1 G2 G3 G4 G5]. unfold do_step in E. destruct (s_stk s t) as [|x l] eqn:Hs; [discriminate E|].
  assert (AL : forall o, about o x = true -> (o < s_next s)%nat /\ kof s o t = x :: proj o l /\ touches x && gone (s_o s o) = false).
  { intros o A. assert (Ho : (o < s_next s)%nat) by (apply (G2 t x o); [rewrite Hs; left; reflexivity|exact A]). pose proof (kof_top s t o x l Hs A) as Hk. split; [exact Ho|]. split; [exact Hk|].
    destruct (touches x) eqn:TC; [|reflexivity]. apply (alive _ _ _ _ _ _ _ _ (G1 o Ho) Ht Hk A TC). }
  destruct x as [o nr kd h st e|o lkd st rf id|r|o del g st e|o st|o]; try discriminate E.
  - destruct (AL o (Nat.eqb_refl o)) as [Ho [Hk TG]]. cbv zeta in E. rewrite TG in E. apply (TrInv_apply T s t o _ l s' G I Ht Hs (Nat.eqb_refl o) E).
  - destruct (AL o (Nat.eqb_refl o)) as [Ho [Hk TG]]. cbv zeta in E. rewrite TG in E. apply (TrInv_apply T s t o _ l s' G I Ht Hs (Nat.eqb_refl o) E).
  - destruct (AL o (Nat.eqb_refl o)) as [Ho [Hk TG]]. cbv zeta in E. rewrite TG in E. apply (TrInv_apply T s t o _ l s' G I Ht Hs (Nat.eqb_refl o) E).
  - destruct (AL o (Nat.eqb_refl o)) as [Ho [Hk TG]]. cbv zeta in E. rewrite TG in E. destruct st; try discriminate E; match type of E with Some ?a = _ => assert (X : s' = a) by congruence end; clear E.
    + assert (EO : forall o', oid (s_o s' o') = oid (s_o s o')) by (intros o'; subst s'; cbn; apply (fupd_o (s_o s) o (set_rel (s_o s o)) oid); reflexivity).
      assert (IS : forall o', inst s' o' = inst s o') by (intros o'; apply inst_same; [subst s'; reflexivity|apply EO]).
      assert (DE : exists u, In (EDtorEnd u o) (s_tr s)) by (apply (t_fin _ I t o FId); [rewrite Hs; left; reflexivity|discriminate]).
      eapply (TrInv_loc T s s' t o (set_rel (s_o s o)) l [FFin o FId] [FFin o FMem] [EId o (snd (oid (s_o s o)))] G G' I Ht Ho); try (subst s'; reflexivity); auto; try rewrite !IS; cbn; unfold not; intros; repeat match goal with H : _ \/ _ |- _ => destruct H end; try contradiction; try discriminate; auto; try congruence.
      * destruct (u =? t)%nat; reflexivity.
      * rewrite Z.sub_diag. destruct (o' =? o)%nat; reflexivity.
      * left. exists FId. split; [discriminate|left; congruence].
    + eapply (TrInv_flat T s s' t o (set_gone (s_o s o)) l [FFin o FMem] [] [] G G' I Ht Ho Hs X); auto; cbn; unfold not; intros; repeat match goal with H : _ \/ _ |- _ => destruct H end; try contradiction; try discriminate; auto.
      destruct (u =? t)%nat; reflexivity.
  - destruct (AL o (Nat.eqb_refl o)) as [Ho [Hk TG]]. cbv zeta in E. rewrite TG in E. match type of E with Some ?a = _ => assert (X : s' = a) by congruence end; clear E. unfold install in X.
    destruct (s_tab s (snd (oid (s_o s o)))) as [p|] eqn:TN; [subst s'; destruct I; constructor; auto|].
    destruct (new_use _ _ _ _ _ _ _ (G1 o Ho) Ht Hk) as [U I0].
    assert (SO : forall o', snd (oid (s_o s' o')) = snd (oid (s_o s o'))).
    { intros o'. subst s'. cbn. unfold fupd. destruct (Nat.eqb_spec o' o) as [->|_]; reflexivity. }
    assert (TB : forall i, s_tab s' i = fupd (s_tab s) (snd (oid (s_o s o))) (Some o) i) by (intros i; subst s'; reflexivity).
    assert (I1 : inst s' o = true) by (apply inst_tab; rewrite SO, TB; apply fupd_eq).
    assert (IP : forall o', o' <> o -> inst s' o' = inst s o').
    { intros o' N. unfold inst. rewrite SO, TB. unfold fupd. destruct (Nat.eqb_spec (snd (oid (s_o s o'))) (snd (oid (s_o s o)))) as [Q|_]; [|reflexivity]. rewrite Q, TN. apply Nat.eqb_neq. congruence. }
    eapply (TrInv_loc T s s' t o (set_oid (s_o s o) (s_life s, snd (oid (s_o s o)))) l [FNew o] [] [ECreate t o (s_life s, snd (oid (s_o s o)))] G G' I Ht Ho); try (subst s'; reflexivity); auto; try rewrite I1; cbn; unfold not; intros; repeat match goal with H : _ \/ _ |- _ => destruct H end; try contradiction; try discriminate; auto; try congruence.
    * destruct (u =? t)%nat; reflexivity.
    * rewrite Z.sub_diag. destruct (o' =? o)%nat; reflexivity.
    * right. congruence.
    * repeat split; congruence.
Qed.
Theorem TrInv_exec T l s s' : GInv T s -> TrInv s -> exec T l s = Some s' -> TrInv s'.
Proof.
  intros G I E. unfold exec in E. destruct (s_fail s) eqn:F; [discriminate E|]. destruct l as [t c|t|t].
  - destruct ((t <? T)%nat && at_user (s_stk s t)) eqn:Q; [|discriminate E]. apply andb_true_iff in Q. destruct Q as [Q1 Q2]. apply Nat.ltb_lt in Q1. eapply TrInv_call; eauto.
  - assert (Ht : (t < T)%nat). { destruct (Nat.ltb_spec t T); [assumption|]. unfold do_end in E. rewrite (g_thr _ _ G t) in E by assumption. discriminate E. } eapply TrInv_end; eauto.
  - assert (Ht : (t < T)%nat). { destruct (Nat.ltb_spec t T); [assumption|]. unfold do_step in E. rewrite (g_thr _ _ G t) in E by assumption. discriminate E. } eapply TrInv_step; eauto.
Qed.
