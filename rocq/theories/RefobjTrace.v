(** * The history and the state of the reference objects. *)
From Verif Require Import Base Refobj RefobjSpec RefobjInv RefobjStep RefobjOp RefobjRest RefobjGlob.

Lemma cnt_app p a b : cnt p (a ++ b) = cnt p a + cnt p b.
Proof. induction a as [|e a IH]; cbn [app cnt]; [lia|]. rewrite IH. lia. Qed.
Lemma cnt_nonneg p a : 0 <= cnt p a.
Proof. induction a as [|e a IH]; cbn [cnt]; [lia|]. destruct (p e); lia. Qed.
Lemma cnt_pos p a e : In e a -> p e = true -> 1 <= cnt p a.
Proof. induction a as [|x a IH]; intros I P; [contradiction|]. cbn [cnt]. pose proof (cnt_nonneg p a). destruct I as [->|I]; [rewrite P; lia|specialize (IH I P); destruct (p x); lia]. Qed.
Lemma cnt_in p a : 1 <= cnt p a -> exists e, In e a /\ p e = true.
Proof. induction a as [|x a IH]; cbn [cnt]; intros H; [lia|]. destruct (p x) eqn:P; [exists x; split; [left; reflexivity|exact P]|]. destruct (IH ltac:(lia)) as [e [I E]]. exists e. split; [right; exact I|exact E]. Qed.

(** A callback of kind [q] of object [o] runs in this frame. *)
Definition runc (o : nat) (q : option kind) (x : frame) : Z :=
  match x with FOp o' _ kd _ SRun _ => if (o' =? o)%nat && keqb (Some kd) q then 1 else 0 | FQ o' _ SRun _ _ => if (o' =? o)%nat && keqb None q then 1 else 0 | _ => 0 end.
Lemma runc_nn o q x : 0 <= runc o q x. Proof. destruct x as [? ? ? ? [] ?|? ? [] ? ?| | | |]; cbn [runc]; try lia; destruct (_ && _); lia. Qed.
Definition early (st : dstage) : Prop := st = DStart \/ st = DUninst.

(** What the step of one object does, besides keeping the invariant. *)
Record ev_step (t o : nat) (r : obj) (i : bool) (x : frame) (r' : obj) (i' : bool) (fs : list frame) (es : list ev) : Prop := mkEv {
  y_len : (length es <= 1)%nat;
  y_ev : forall e, In e es -> match e with
    | EBegin t' o' _ => t' = t /\ o' = o
    | EDtor t' o' => t' = t /\ o' = o /\ usage r' = 0
    | ERet t' o' k err => t' = t /\ o' = o /\ exists nr h, x = FOp o nr k h SRet err
    | EDesRet t' o' del err => t' = t /\ o' = o /\ exists g, x = FDes o del g DRet err
    | EMark t' id => t' = t /\ exists lkd, x = FQ o lkd SRet true id
    | _ => False end;
  y_beg : forall k, cnt (isB t o k) es = csum (runc o k) fs - runc o k x;
  y_dtor : usage r <> 0 \/ use x = 0 -> dtors o es = (if usage r' =? 0 then 1 else 0) - (if usage r =? 0 then 1 else 0);
  y_des : forall o' del g st e, In (FDes o' del g st e) fs -> o' = o /\ exists g' st' e', x = FDes o del g' st' e';
  y_inst : i' <> i -> exists g st e, x = FDes o true g st e;
  y_wait : waited r' = waited r \/ (waited r' = Some t /\ exists g st e, x = FDes o true g st e);
  y_dest : destroyed r' = true -> destroyed r = true \/ exists del g st e, x = FDes o del g st e;
  y_fin : forall o' st, In (FFin o' st) fs -> st = FDtor;
  y_new : forall o', ~ In (FNew o') fs;
  y_early : forall g st e, x = FDes o true g st e -> early st -> i' = false \/ exists g' st' e', fs = [FDes o true g' st' e'] /\ early st';
  y_begk : forall q, In (EBegin t o q) es -> q <> Some Hold -> destroyed r = false }.
Lemma keqb_refl k : keqb k k = true. Proof. destruct k as [[]|]; reflexivity. Qed.
Lemma step_ev T o r i k t x l r' i' fs es : OInv T o r i k -> (t < T)%nat -> k t = x :: l -> about o x = true -> lstep t o r i x l = Go r' i' fs es -> ev_step t o r i x r' i' fs es.
Proof.
  intros H Ht Hk A E. pose proof (facts_of _ _ _ _ _ _ _ _ H Ht Hk) as F. pose proof (f_wf _ _ _ _ _ _ _ _ F) as WF. pose proof (f_use _ _ _ _ _ _ _ _ F) as FU. pose proof (f_nn _ _ _ _ _ _ _ _ F) as NN.
  assert (I0 : 0 <= b2z i) by (destruct i; cbn; lia). assert (S0 : 0 <= sumT T (fun u => csum ownc (k u))) by (apply sumT_nonneg; intros u; apply csum_nonneg, own_nn).
  Ltac one := match goal with H : _ \/ _ |- _ => destruct H as [H|H] | H : False |- _ => destruct H | H : _ /\ _ |- _ => destruct H | H : exists _, _ |- _ => destruct H 
    | H : @eq frame ?a ?b |- _ => first [discriminate H|injection H; clear H; intros; subst] | H : @eq ev ?a ?b |- _ => first [discriminate H|injection H; clear H; intros; subst] end.
  Ltac shq := match goal with E : Go ?a ?b ?c ?d = Go ?a' ?b' ?c' ?d' |- _ => 
    let X := fresh in assert (X : a' = a /\ b' = b /\ c' = c /\ d' = d) by (repeat split; congruence); destruct X as [-> [-> [-> ->]]]; clear E end;
    constructor; cbn [length In csum runc app isB cnt dtors usage set_usage set_destroyed set_lock set_rd2 set_lc set_gc set_rel set_gone set_waited set_oid rdunlock_raw destroyed waited async]; unfold dtors; cbn [cnt isD];
    rewrite ?Nat.eqb_refl; cbn [andb];
    repeat match goal with U : (_ =? _) = _ |- _ => rewrite U end;
    try lia; try tauto; try congruence; eauto;
    unfold not; intros; repeat one; subst; cbn [use] in *; try lia; try congruence; try tauto; repeat split; eauto;
    try match goal with |- context [keqb ?a ?b] => destruct (keqb a b); lia end;
    try (repeat match goal with |- context [(?a =? ?b)%Z] => destruct (Z.eqb_spec a b) end; lia);
    try (match goal with Y : early _ |- _ => unfold early in *; first [exfalso; destruct Y; discriminate|right; do 3 eexists; split; [reflexivity|auto]] end); try (match goal with WF : wfx _ _ _ _ |- _ => cbn [wfx] in WF; decompose [and] WF; subst; eauto 8; fail end); try (right; eauto; fail).
  destruct x as [o' nr kd h st e|o' lkd st rf id| |o' del g st e| |]; cbn [lstep] in E; try discriminate E; cbn [about] in A; apply Nat.eqb_eq in A; subst o'.
  - destruct st; cbn [op_step] in E; try discriminate E.
    + destruct kd; [shq| |].
      * destruct (onq o l && negb (async r)) eqn:NL.
        -- assert (ND : destroyed r = false).
           { apply andb_true_iff in NL. destruct NL as [N1 N2]. apply negb_true_iff in N2. destruct (destroyed r) eqn:D; [|reflexivity]. pose proof (onq_open r o l (f_wfl _ _ _ _ _ _ _ _ F) N1 N2). destruct (f_des _ _ _ _ _ _ _ _ F D). lia. }
           shq.
        -- destruct (lc r t); [|discriminate E]. destruct (negb (recur r) && (0 <? n)%nat); [discriminate E|]. destruct (n =? 0)%nat; [destruct (writer r); [discriminate E|]|]; shq.
      * destruct (lc r t) as [[|n]|]; try discriminate E. destruct (onq o l && negb (async r)); [destruct (lk r); [destruct (rd2 r); discriminate E|]; shq|]. destruct (lk r || writer r || negb (readers r =? 0)); [discriminate E|shq].
    + shq.
    + destruct (writer r || negb (readers r =? 0)); [discriminate E|shq].
    + destruct (destroyed r) eqn:DD; [destruct h; try discriminate E|]; shq.
    + destruct kd; [shq| |destruct h; shq]. destruct (onq o l && negb (async r)); [shq|]. destruct (lc r t) as [[|n]|]; try discriminate E. destruct (n =? 0)%nat; shq.
    + destruct (writer r); [discriminate E|shq].
    + shq.
    + destruct nr; [shq|]. unfold refobj_put, put in E. cbn [use] in FU. destruct (cfree r) eqn:C; [destruct (gc r t <? 1); [discriminate E|]|]; match goal with E : (if ?b then _ else _) = Go _ _ _ _ |- _ => destruct b eqn:UU; cbn [usage set_usage set_gc] in UU; [apply Z.eqb_eq in UU|apply Z.eqb_neq in UU] end; shq.
    + shq.
  - destruct st; cbn [q_step] in E; try discriminate E.
    + destruct (async r) eqn:AS; [shq|destruct (writer r); [discriminate E|shq]].
    + destruct (destroyed r) eqn:DD; shq.
    + destruct lkd; shq.
    + unfold refobj_put, put in E. cbn [use] in FU. destruct (cfree r) eqn:C; [destruct (gc r t <? 1); [discriminate E|]|]; match goal with E : (if ?b then _ else _) = Go _ _ _ _ |- _ => destruct b eqn:UU; cbn [usage set_usage set_gc] in UU; [apply Z.eqb_eq in UU|apply Z.eqb_neq in UU] end; shq.
    + destruct rf; shq.
  - destruct st; cbn [des_step] in E; try discriminate E.
    + destruct (onq o l && negb (async r)); [discriminate E|]. destruct (lc r t) as [[|n]|]; try discriminate E; shq.
    + destruct i; shq.
    + destruct (destroyed r) eqn:DD; shq.
    + destruct (lk r || writer r || negb (readers r =? 0)); [discriminate E|shq].
    + shq.
    + shq.
    + unfold put in E. cbn [use] in FU. destruct (usage (set_usage r (usage r - 1)) =? 0) eqn:UU; cbn [usage set_usage] in UU; [apply Z.eqb_eq in UU|apply Z.eqb_neq in UU]; shq.
    + destruct (cfree r && negb (async r)); [destruct (1 + g <? usage r); [discriminate E|]|]; shq.
    + unfold put in E. cbn [use] in FU. destruct (usage (set_usage r (usage r - 1)) =? 0) eqn:UU; cbn [usage set_usage] in UU; [apply Z.eqb_eq in UU|apply Z.eqb_neq in UU]; shq.
    + shq.
Qed.

(** ** History and state. *)
Definition nonew (s : st) (o : nat) : Prop := forall u, ~ In (FNew o) (s_stk s u).
Record TrInv (s : st) : Prop := mkTr {
  t_open : forall t o k, opens t o k (s_tr s) = csum (runc o k) (s_stk s t);
  t_dtor : forall o, dtors o (s_tr s) = if (o <? s_next s)%nat && (usage (s_o s o) =? 0) then 1 else 0;
  t_des : forall t o del g st e, In (FDes o del g st e) (s_stk s t) -> In (EDes t o del) (s_tr s);
  t_inst : forall o, (o < s_next s)%nat -> inst s o = false -> nonew s o -> exists t, In (EDes t o true) (s_tr s);
  t_wait : forall o t, (o < s_next s)%nat -> waited (s_o s o) = Some t -> In (EDes t o true) (s_tr s);
  t_new : forall t o del, In (EDes t o del) (s_tr s) -> (o < s_next s)%nat /\ nonew s o;
  t_unin : forall t o, In (EDes t o true) (s_tr s) -> (exists g st e, In (FDes o true g st e) (s_stk s t) /\ early st) \/ inst s o = false;
  t_fin : forall t o st, In (FFin o st) (s_stk s t) -> st <> FDtor -> exists u, In (EDtorEnd u o) (s_tr s);
  t_rel : forall o, (o < s_next s)%nat -> rel (s_o s o) = true -> exists u, In (EDtorEnd u o) (s_tr s);
  t_cre : forall t o id, In (ECreate t o id) (s_tr s) -> (o < s_next s)%nat /\ oid (s_o s o) = id /\ nonew s o;
  t_dest : forall o, (o < s_next s)%nat -> destroyed (s_o s o) = true -> exists t del, In (EDes t o del) (s_tr s) }.
Lemma TrInv_init : TrInv init.
Proof. constructor; cbn; intros; try contradiction; try lia; reflexivity. Qed.
Lemma csum_zero_in c l x : (forall y, 0 <= c y) -> csum c l = 0 -> In x l -> c x = 0.
Proof.
  intros N. induction l as [|y l IH]; cbn [csum]; intros E I; [contradiction|]. pose proof (N y). pose proof (csum_nonneg c l N). destruct I as [->|I]; [lia|apply IH; [lia|exact I]].
Qed.
Lemma in_proj o x l : In x l -> about o x = true -> In x (proj o l).
Proof. intros I A. unfold proj. apply filter_In. auto. Qed.
Lemma inst_nonew T s o : GInv T s -> (o < s_next s)%nat -> inst s o = true -> nonew s o.
Proof.
  intros G Ho I u X. destruct (Nat.ltb_spec u T) as [L|L]; [|rewrite (g_thr _ _ G u L) in X; exact X].
  pose proof (v_own _ _ _ _ _ (g_obj _ _ G o Ho)) as V. rewrite I in V. cbn [b2z] in V.
  pose proof (sumT_ge T (fun u => csum ownc (kof s o u)) u L (fun v => csum_nonneg ownc _ own_nn)) as W. cbn beta in W.
  assert (Z0 : csum ownc (kof s o u) = 0) by (pose proof (csum_nonneg ownc (kof s o u) own_nn); lia).
  pose proof (csum_zero_in ownc _ (FNew o) own_nn Z0 (in_proj o _ _ X (Nat.eqb_refl o))) as Q. discriminate Q.
Qed.
Lemma opens_app t o k a b : opens t o k (a ++ b) = opens t o k a + opens t o k b.
Proof. unfold opens. rewrite !cnt_app. lia. Qed.

Lemma TrInv_one T s s' t o r' L es : GInv T s -> GInv T s' -> TrInv s -> (t < T)%nat -> (o < s_next s)%nat -> s_next s' = s_next s -> s_tr s' = s_tr s ++ es ->
  (forall u, s_stk s' u = fupd (s_stk s) t L u) -> (forall o', s_o s' o' = fupd (s_o s) o r' o') -> (forall o', o' <> o -> (o' < s_next s)%nat -> inst s' o' = inst s o') ->
  (forall u o' k, opens u o' k es = if (u =? t)%nat then csum (runc o' k) L - csum (runc o' k) (s_stk s t) else 0) ->
  (forall o', dtors o' es = if (o' =? o)%nat then (if usage r' =? 0 then 1 else 0) - (if usage (s_o s o) =? 0 then 1 else 0) else 0) ->
  (forall o' del g st e, In (FDes o' del g st e) L -> (exists g' st' e', In (FDes o' del g' st' e') (s_stk s t)) \/ In (EDes t o' del) es) ->
  (inst s' o = false -> inst s o = true -> exists u, In (EDes u o true) (s_tr s)) ->
  (forall o', In (FNew o') (s_stk s t) -> In (FNew o') L \/ inst s' o' = true) ->
  (forall tw, waited r' = Some tw -> waited (s_o s o) = Some tw \/ In (EDes tw o true) (s_tr s)) ->
  (forall o', In (FNew o') L -> In (FNew o') (s_stk s t)) ->
  (forall u o' del, In (EDes u o' del) es -> u = t /\ o' = o /\ inst s o = true /\ (del = true -> exists g st e, In (FDes o true g st e) L /\ early st)) ->
  (forall g st e o', In (FDes o' true g st e) (s_stk s t) -> early st -> inst s' o' = false \/ exists g' st' e', In (FDes o' true g' st' e') L /\ early st') ->
  (inst s o = false -> inst s' o = true -> In (FNew o) (s_stk s t)) ->
  (forall o' st, In (FFin o' st) L -> st <> FDtor -> (exists st', st' <> FDtor /\ In (FFin o' st') (s_stk s t)) \/ In (EDtorEnd t o') es) ->
  (rel r' = true -> rel (s_o s o) = true \/ exists u, In (EDtorEnd u o) (s_tr s)) ->
  (oid r' = oid (s_o s o) \/ In (FNew o) (s_stk s t)) ->
  (forall u o' id, In (ECreate u o' id) es -> o' = o /\ oid r' = id /\ inst s' o = true) ->
  (destroyed r' = true -> destroyed (s_o s o) = true \/ exists u del, In (EDes u o del) (s_tr s)) ->
  TrInv s'.
Proof.
  intros G G' [I1 I2 I3 I4 I5 I6 I7 I8 I9 I10 I11] Ht Ho EN ET ES EO HI C1 C2 C3 C4 C5 C6 C7 C8 C9 C10 C11 C12 C13 C14 C15.
  assert (SE : s_stk s' t = L) by (rewrite ES; apply fupd_eq). assert (SN : forall u, u <> t -> s_stk s' u = s_stk s u) by (intros u N; rewrite ES; apply fupd_ne; exact N).
  assert (OE : s_o s' o = r') by (rewrite EO; apply fupd_eq). assert (ON : forall p, p <> o -> s_o s' p = s_o s p) by (intros p N; rewrite EO; apply fupd_ne; exact N).
  assert (INC : forall e, In e (s_tr s) -> In e (s_tr s')) by (intros e I; rewrite ET; apply in_or_app; auto).
  assert (NN : forall p, nonew s p -> nonew s' p).
  { intros p N u X. destruct (Nat.eq_dec u t) as [->|D]; [rewrite SE in X; apply (N t); auto|rewrite SN in X by exact D; exact (N u X)]. }
  assert (NB : forall p, (p < s_next s)%nat -> nonew s' p -> inst s' p = false -> nonew s p).
  { intros p Hp N J u X. destruct (Nat.eq_dec u t) as [->|D]; [|apply (N u); rewrite SN by exact D; exact X]. destruct (C5 p X) as [Y|Y]; [apply (N t); rewrite SE; exact Y|congruence]. }
  constructor.
  - intros u p k. rewrite ET, opens_app, I1, C1. destruct (Nat.eqb_spec u t) as [->|D]; [rewrite SE; lia|rewrite SN by exact D; lia].
  - intros p. unfold dtors. rewrite ET, cnt_app, EN. fold (dtors p (s_tr s)) (dtors p es). rewrite I2, C2. destruct (Nat.eqb_spec p o) as [->|D]; [|rewrite ON by exact D; lia].
    rewrite OE. pose proof Ho as Hb. apply Nat.ltb_lt in Hb. rewrite Hb. cbn [andb]. lia.
  - intros u p del g st e X. rewrite ET. apply in_or_app. destruct (Nat.eq_dec u t) as [->|D]; [|rewrite SN in X by exact D; left; eapply I3; exact X].
    rewrite SE in X. destruct (C3 _ _ _ _ _ X) as [[g' [st' [e' Y]]]|Y]; [left; eapply I3; exact Y|right; exact Y].
  - intros p. rewrite EN. intros Hp J N. pose proof (NB p Hp N J) as N'. destruct (inst s p) eqn:Q.
    + assert (p = o) by (destruct (Nat.eq_dec p o); [assumption|rewrite HI in J by assumption; congruence]). subst p. destruct (C4 J Q) as [u X]. eauto.
    + destruct (I4 p Hp Q N') as [u X]. eauto.
  - intros p tw. rewrite EN. intros Hp W. destruct (Nat.eq_dec p o) as [->|D]; [|rewrite ON in W by exact D; eauto]. rewrite OE in W. destruct (C6 tw W) as [X|X]; eauto.
  - intros u p del X. rewrite EN. rewrite ET in X. apply in_app_or in X. destruct X as [X|X].
    + destruct (I6 _ _ _ X). auto.
    + destruct (C8 _ _ _ X) as [_ [-> [J _]]]. split; [exact Ho|]. apply NN. eapply inst_nonew; eauto.
  - intros u p X. rewrite ET in X. apply in_app_or in X. destruct X as [X|X].
    + destruct (I7 _ _ X) as [[g [st [e [Y Z0]]]]|Y].
      * destruct (Nat.eq_dec u t) as [->|D]; [|left; exists g, st, e; rewrite SN by exact D; auto]. destruct (C9 _ _ _ _ Y Z0) as [W|[g' [st' [e' [W W']]]]]; [auto|]. left. exists g', st', e'. rewrite SE. auto.
      * right. destruct (inst s' p) eqn:J; [|reflexivity]. exfalso. destruct (Nat.eq_dec p o) as [->|D]; [|rewrite HI in J by (try apply (I6 _ _ _ X); assumption); congruence].
        destruct (I6 _ _ _ X) as [_ N]. apply (N t). apply C10; assumption.
    + destruct (C8 _ _ _ X) as [-> [-> [_ Y]]]. destruct (Y eq_refl) as [g [st [e [Z0 W]]]]. left. exists g, st, e. rewrite SE. auto.
  - intros u p st X N. destruct (Nat.eq_dec u t) as [->|D].
    + rewrite SE in X. destruct (C11 _ _ X N) as [[st' [Y Z0]]|Y]; [destruct (I8 _ _ _ Z0 Y) as [v W]; eauto|]. exists t. rewrite ET. apply in_or_app. auto.
    + rewrite SN in X by exact D. destruct (I8 _ _ _ X N) as [v W]. eauto.
  - intros p. rewrite EN. intros Hp R. destruct (Nat.eq_dec p o) as [->|D].
    + rewrite OE in R. destruct (C12 R) as [X|[v X]]; [destruct (I9 o Ho X) as [v W]; eauto|eauto].
    + rewrite ON in R by exact D. destruct (I9 p Hp R) as [v W]. eauto.
  - intros u p id X. rewrite EN. rewrite ET in X. apply in_app_or in X. destruct X as [X|X].
    + destruct (I10 _ _ _ X) as [A [B C]]. split; [exact A|]. split; [|apply NN, C]. destruct (Nat.eq_dec p o) as [->|D]; [|rewrite ON by exact D; exact B]. rewrite OE. destruct C13 as [->|Y]; [exact B|]. exfalso. exact (C t Y).
    + destruct (C14 _ _ _ X) as [-> [A B]]. rewrite OE. split; [exact Ho|]. split; [exact A|]. eapply inst_nonew; eauto. rewrite EN. exact Ho.
  - intros p. rewrite EN. intros Hp R. destruct (Nat.eq_dec p o) as [->|D].
    + rewrite OE in R. destruct (C15 R) as [X|[v [del X]]]; [destruct (I11 o Ho X) as [v [del W]]; eauto|eauto].
    + rewrite ON in R by exact D. destruct (I11 p Hp R) as [v [del W]]. eauto.
Qed.
