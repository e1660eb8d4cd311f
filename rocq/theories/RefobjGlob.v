(** * The invariant of the whole state. *)
From Verif Require Import Base Refobj RefobjInv RefobjStep RefobjOp RefobjQ RefobjDes RefobjRest.

(** ** Steps do not abort or touch freed memory. *)
Lemma step_nobug T o r i k t x l f : OInv T o r i k -> (t < T)%nat -> k t = x :: l -> lstep t o r i x l = Fail f -> f = Misuse.
Proof.
  intros H Ht Hk E. pose proof (facts_of _ _ _ _ _ _ _ _ H Ht Hk) as F. pose proof (f_wf _ _ _ _ _ _ _ _ F) as WF.
  pose proof (f_lc _ _ _ _ _ _ _ _ F) as FL. pose proof (f_nn _ _ _ _ _ _ _ _ F) as NN. pose proof (f_lc2 _ _ _ _ _ _ _ _ F) as F2. pose proof (f_gc _ _ _ _ _ _ _ _ F) as FG.
  destruct x as [o' nr kd h st e|o' lkd st rf id| |o' del g st e| |]; cbn [lstep] in E; try discriminate E.
  - cbn [wfx] in WF. destruct WF as [W1 [W2 W3]]. destruct st; cbn [op_step] in E; try discriminate E.
    + destruct kd; try discriminate E.
      * destruct (onq o l && negb (async r)); [discriminate E|]. destruct (lc r t); [|congruence]. destruct (negb (recur r) && (0 <? n)%nat); [congruence|]. destruct (n =? 0)%nat; [destruct (writer r)|]; discriminate E.
      * destruct (lc r t) as [[|n]|]; try congruence. destruct (onq o l && negb (async r)); [destruct (lk r); [destruct (rd2 r)|]; congruence|]. destruct (lk r || writer r || negb (readers r =? 0)); discriminate E.
    + destruct (writer r || negb (readers r =? 0)); discriminate E.
    + destruct (destroyed r) eqn:D; [|discriminate E]. destruct h; try discriminate E. destruct W3 as [[_ [X _]]|[[_ X]|[_ [_ [N1 N2]]]]]; try discriminate X.
      pose proof (onq_open r o l (f_wfl _ _ _ _ _ _ _ _ F) N1 N2). destruct (f_des _ _ _ _ _ _ _ _ F D). lia.
    + destruct kd; try discriminate E; [|destruct h; discriminate E]. destruct (onq o l && negb (async r)) eqn:NL; [discriminate E|].
      destruct W3 as [[X _]|[[_ [_ [N1 N2]]]|[[_ [-> N]]|[[X _]|[X _]]]]]; try discriminate X; [rewrite N1, N2 in NL; discriminate NL|]. simp.
      assert (W0 : csum wlc l = 0) by lia. rewrite W0 in FL. cbn [Z.ltb Z.compare] in FL. rewrite FL in E. destruct (Z.to_nat (1 + csum rdc l)) eqn:Q; [lia|discriminate E].
    + destruct (writer r); discriminate E.
    + destruct nr; [discriminate E|]. unfold refobj_put, put in E. destruct (cfree r) eqn:C.
      * simp. destruct (Z.ltb_spec (gc r t) 1); [rewrite FG in * by reflexivity; lia|]. destruct (usage r - 1 =? 0); discriminate E.
      * destruct (usage (set_usage r (usage r - 1)) =? 0); discriminate E.
  - destruct st; cbn [q_step] in E; try discriminate E.
    + destruct (async r); [discriminate E|]. destruct (writer r); discriminate E.
    + destruct (destroyed r); discriminate E.
    + unfold refobj_put, put in E. destruct (cfree r) eqn:C.
      * simp. destruct (Z.ltb_spec (gc r t) 1); [rewrite FG in * by reflexivity; lia|]. destruct (usage r - 1 =? 0); discriminate E.
      * destruct (usage (set_usage r (usage r - 1)) =? 0); discriminate E.
    + destruct rf; discriminate E.
  - destruct st; cbn [des_step] in E; try discriminate E.
    + destruct (onq o l && negb (async r)); [congruence|]. destruct (lc r t) as [[|n]|]; congruence.
    + destruct i; discriminate E.
    + destruct (destroyed r); discriminate E.
    + destruct (lk r || writer r || negb (readers r =? 0)); discriminate E.
    + unfold put in E. destruct (usage (set_usage r (usage r - 1)) =? 0); discriminate E.
    + destruct (cfree r && negb (async r)); [destruct (1 + g <? usage r)|]; discriminate E.
    + unfold put in E. destruct (usage (set_usage r (usage r - 1)) =? 0); discriminate E.
Qed.
Lemma alive T o r i k t x l : OInv T o r i k -> (t < T)%nat -> k t = x :: l -> about o x = true -> touches x = true -> gone r = false.
Proof.
  intros H Ht Hk A Tc. pose proof (facts_of _ _ _ _ _ _ _ _ H Ht Hk) as F. pose proof (f_wf _ _ _ _ _ _ _ _ F) as WF. posefacts F.
  assert (I0 : 0 <= b2z i) by (destruct i; cbn; lia). assert (S0 : 0 <= sumT T (fun u => csum ownc (k u))) by (apply sumT_nonneg; intros u; apply csum_nonneg, own_nn).
  destruct x as [o' nr kd h st e|o' lkd st rf id| |o' del g st e|o' st|o']; cbn [touches] in Tc.
  - destruct nr.
    + cbn [wfx] in WF. destruct WF as [W1 _]. destruct (W1 eq_refl) as [_ Q]. pose proof (onq_use o l Q). pose proof (use_nn (FOp o' true kd h st e)). apply A18. lia.
    + assert (U : use (FOp o' false kd h st e) = 1) by (destruct st; try discriminate Tc; reflexivity). apply A18. lia.
  - assert (U : use (FQ o' lkd st rf id) = 1) by (destruct st; try discriminate Tc; reflexivity). apply A18. lia.
  - discriminate A.
  - assert (U : use (FDes o' del g st e) = 1) by (destruct st; try discriminate Tc; reflexivity). apply A18. lia.
  - cbn [about] in A. apply Nat.eqb_eq in A. subst o'. apply (fin_use _ _ _ _ _ _ _ _ H Ht Hk).
  - assert (U : ownc (FNew o') = 1) by reflexivity. pose proof (use_nn (FNew o')). apply A18. lia.
Qed.

(** ** The shape of a step. *)
Definition mine (o : nat) (x : frame) : Prop := about o x = true \/ exists r, x = FMark r.
Lemma step_shape T o r i k t x l r' i' fs es : OInv T o r i k -> (t < T)%nat -> k t = x :: l -> about o x = true -> lstep t o r i x l = Go r' i' fs es ->
  Forall (mine o) fs /\ Forall below_ok (tl fs) /\ (i' = i \/ i = true /\ i' = false) /\ match x with FQ _ _ _ _ _ => True | _ => proj o fs = fs end /\ oid r' = oid r /\ rel r' = rel r /\ gone r' = gone r /\ async r' = async r /\ cfree r' = cfree r /\ recur r' = recur r /\ (destroyed r = true -> destroyed r' = true).
Proof.
  intros H Ht Hk A E. pose proof (facts_of _ _ _ _ _ _ _ _ H Ht Hk) as F. posefacts F.
  assert (M : forall y, about o y = true -> mine o y) by (intros y Y; left; exact Y).
  Ltac shp := match goal with E : Go ?a ?b ?c ?d = Go ?a' ?b' ?c' ?d' |- _ => 
    let X := fresh in assert (X : a' = a /\ b' = b /\ c' = c) by (repeat split; congruence); destruct X as [-> [-> ->]]; clear E end;
    (split; [repeat (apply Forall_cons; [first [left; cbn [about]; apply Nat.eqb_refl|right; eexists; reflexivity]|]); apply Forall_nil|]);
    (split; [cbn [tl]; repeat constructor|]); (split; [auto|]); (split; [first [exact I|unfold proj; cbn [filter about]; rewrite ?Nat.eqb_refl; reflexivity]|]); cbn [oid async recur cfree usage destroyed readers writer lk rd2 lc gc rel gone waited set_usage set_destroyed set_lock set_rd2 set_lc set_gc set_rel set_gone set_waited set_oid rdunlock_raw]; repeat split; auto; try (intros; congruence).
  Ltac put_shp := match goal with E : (if ?b then _ else _) = Go _ _ _ _ |- _ => destruct b; shp end.
  destruct x as [o' nr kd h st e|o' lkd st rf id| |o' del g st e| |]; cbn [lstep] in E; try discriminate E; cbn [about] in A; apply Nat.eqb_eq in A; subst o'.
  - destruct st; cbn [op_step] in E; try discriminate E.
    + destruct kd; [shp| |].
      * destruct (onq o l && negb (async r)); [shp|]. destruct (lc r t); [|discriminate E]. destruct (negb (recur r) && (0 <? n)%nat); [discriminate E|]. destruct (n =? 0)%nat; [destruct (writer r); [discriminate E|]|]; shp.
      * destruct (lc r t) as [[|n]|]; try discriminate E. destruct (onq o l && negb (async r)); [destruct (lk r); [destruct (rd2 r); discriminate E|]; shp|]. destruct (lk r || writer r || negb (readers r =? 0)); [discriminate E|shp].
    + shp.
    + destruct (writer r || negb (readers r =? 0)); [discriminate E|shp].
    + destruct (destroyed r) eqn:DD; [destruct h; try discriminate E|]; shp.
    + destruct kd; [shp| |destruct h; shp]. destruct (onq o l && negb (async r)); [shp|]. destruct (lc r t) as [[|n]|]; try discriminate E. destruct (n =? 0)%nat; shp.
    + destruct (writer r); [discriminate E|shp].
    + shp.
    + destruct nr; [shp|]. unfold refobj_put, put in E. destruct (cfree r) eqn:C; [destruct (gc r t <? 1); [discriminate E|]|]; put_shp.
    + shp.
  - destruct st; cbn [q_step] in E; try discriminate E.
    + destruct (async r) eqn:AS; [shp|destruct (writer r); [discriminate E|shp]].
    + destruct (destroyed r) eqn:DD; shp.
    + destruct lkd; shp.
    + unfold refobj_put, put in E. destruct (cfree r) eqn:C; [destruct (gc r t <? 1); [discriminate E|]|]; put_shp.
    + destruct rf; shp.
  - destruct st; cbn [des_step] in E; try discriminate E.
    + destruct (onq o l && negb (async r)); [discriminate E|]. destruct (lc r t) as [[|n]|]; try discriminate E; shp.
    + destruct i; shp.
    + destruct (destroyed r) eqn:DD; shp.
    + destruct (lk r || writer r || negb (readers r =? 0)); [discriminate E|shp].
    + shp.
    + shp.
    + unfold put in E. destruct (usage (set_usage r (usage r - 1)) =? 0) eqn:U; [|shp]. apply Z.eqb_eq in U. exfalso. cbn [usage set_usage] in U. cbn [wfx] in A13. destruct A13 as [_ [[-> _] _]].
      cbn [use ownc] in *. destruct i; cbn [b2z] in *; lia.
    + destruct (cfree r && negb (async r)); [destruct (1 + g <? usage r); [discriminate E|]|]; shp.
    + unfold put in E. put_shp.
    + shp.
Qed.

(** ** Projections. *)
Lemma proj_app o a b : proj o (a ++ b) = proj o a ++ proj o b.
Proof. unfold proj. apply filter_app. Qed.
Lemma onq_proj o l : onq o (proj o l) = onq o l.
Proof.
  unfold onq, proj. induction l as [|x l IH]; cbn [filter existsb]; [reflexivity|]. destruct (about o x) eqn:A; cbn [existsb]; rewrite IH; [reflexivity|].
  destruct x as [|? ? [] ? ?| | | |]; cbn [onq1 about] in *; try reflexivity. rewrite A. reflexivity.
Qed.
Lemma proj_about o o' l : o <> o' -> Forall (mine o) l -> proj o' l = [].
Proof.
  intros N. induction 1 as [|x l H _ IH]; [reflexivity|]. unfold proj in *. cbn [filter]. rewrite IH. assert (A : about o' x = false); [|rewrite A; reflexivity].
  destruct H as [H|[r ->]]; [|reflexivity]. destruct x; cbn [about] in *; try discriminate H; try (apply Nat.eqb_eq in H; subst; apply Nat.eqb_neq; exact N). 
Qed.
Lemma proj_below o l : Forall below_ok l -> Forall below_ok (proj o l).
Proof. intros H. unfold proj. induction H as [|x l H _ IH]; cbn [filter]; [constructor|]. destruct (about o x); [constructor|]; assumption. Qed.
Lemma OInv_ext T o r i k k' : (forall t, (t < T)%nat -> k t = k' t) -> OInv T o r i k -> OInv T o r i k'.
Proof.
  intros E [V1 V2 V3 V4 V5 V6 V7 V8 V9 V10 V11 V12 V13 V14 V15 V16 V17].
  assert (X : forall F : list frame -> Z, sumT T (fun u => F (k' u)) = sumT T (fun u => F (k u))) by (intros F; apply sumT_ext; intros u Hu; rewrite (E u Hu); reflexivity).
  constructor; rewrite ?(X (csum _)), ?(X thr); auto.
  - intros u Hu. rewrite <- (E u Hu). auto.
  - intros u Hu. rewrite <- (E u Hu). auto.
  - intros C u Hu. rewrite <- (E u Hu). auto.
  - intros u Hu. rewrite <- (E u Hu). auto.
  - intros C u Hu. rewrite <- (E u Hu). auto.
  - intros tw W. destruct (V16 tw W) as [A [B C]]. split; [exact A|]. split; [exact B|]. intros u Hu N. rewrite <- (E u Hu). auto.
Qed.
Lemma lstep_below t o r i x l l' : onq o l = onq o l' -> lstep t o r i x l = lstep t o r i x l'.
Proof. intros Q. destruct x as [? ? ? ? [] ?|? ? [] ? ?| |? ? ? [] ?| |]; cbn [lstep op_step q_step des_step]; rewrite ?Q; reflexivity. Qed.
(** The step of one object, for any of the three kinds of calls. *)
Lemma lstep_ok T o r i k t x l r' i' fs es : OInv T o r i k -> (t < T)%nat -> k t = x :: l -> about o x = true -> Forall below_ok l ->
  lstep t o r i x l = Go r' i' fs es -> OInv T o r' i' (fupd k t (proj o fs ++ l)).
Proof.
  intros H Ht Hk A B E. destruct (step_shape _ _ _ _ _ _ _ _ _ _ _ _ H Ht Hk A E) as [_ [_ [_ [P _]]]].
  destruct x as [o' nr kd h st e|o' lkd st rf id| |o' del g st e| |]; cbn [lstep] in E; try discriminate E; cbn [about] in A; apply Nat.eqb_eq in A; subst o'.
  - rewrite P. eapply op_ok; eassumption.
  - eapply q_ok; eassumption.
  - rewrite P. eapply des_ok; eassumption.
Qed.

(** ** The state. *)
Definition kof (s : st) (o t : nat) : list frame := proj o (s_stk s t).
Record TInv (s : st) : Prop := mkT {
  g_tab : forall i o, s_tab s i = Some o -> (o < s_next s)%nat /\ snd (oid (s_o s o)) = i;
  g_bit : forall o, (o < s_next s)%nat -> rel (s_o s o) = false -> s_bit s (snd (oid (s_o s o))) = true;
  g_inj : forall o o', (o < s_next s)%nat -> (o' < s_next s)%nat -> rel (s_o s o) = false -> rel (s_o s o') = false -> snd (oid (s_o s o)) = snd (oid (s_o s o')) -> o = o' }.
Record GInv (T : nat) (s : st) : Prop := mkG {
  g_obj : forall o, (o < s_next s)%nat -> OInv T o (s_o s o) (inst s o) (kof s o);
  g_fresh : forall t x o, In x (s_stk s t) -> about o x = true -> (o < s_next s)%nat;
  g_thr : forall t, (T <= t)%nat -> s_stk s t = [];
  g_below : forall t, Forall below_ok (tl (s_stk s t));
  g_t : TInv s }.

Lemma inst_tab s o : inst s o = true <-> s_tab s (snd (oid (s_o s o))) = Some o.
Proof. unfold inst. destruct (s_tab s _) as [o'|]; [|split; discriminate]. destruct (Nat.eqb_spec o' o) as [->|N]; split; congruence. Qed.
Lemma GInv_init T : GInv T init.
Proof.
  constructor; cbn.
  - intros; lia.
  - intros; contradiction.
  - reflexivity.
  - constructor.
  - constructor; cbn; intros; try discriminate; lia.
Qed.
(** An object that is not freed keeps its index. *)
Lemma live_rel T o r i k : OInv T o r i k -> 0 < usage r -> rel r = false.
Proof.
  intros H U. destruct (v_fin1 _ _ _ _ _ H U) as [F G]. pose proof (v_rel _ _ _ _ _ H) as R. rewrite G in R. cbn [b2z] in R.
  assert (X : sumT T (fun t => csum finm (k t)) <= sumT T (fun t => csum finc (k t))).
  { clear. induction T as [|n IH]; cbn [sumT]; [lia|]. pose proof (finm_finc (k n)). lia. }
  destruct (rel r); [cbn [b2z] in R; lia|reflexivity].
Qed.
Lemma inst_use T o r k : OInv T o r true k -> 0 < usage r.
Proof.
  intros H. pose proof (v_use _ _ _ _ _ H) as V. cbn [b2z] in V. pose proof (sumT_nonneg T (fun u => csum use (k u)) (fun u => csum_nonneg use (k u) use_nn)). pose proof (sumT_nonneg T (fun u => csum ownc (k u)) (fun u => csum_nonneg ownc (k u) own_nn)). lia.
Qed.
Lemma new_use T o r i k t l : OInv T o r i k -> (t < T)%nat -> k t = FNew o :: l -> 0 < usage r /\ i = false.
Proof.
  intros H Ht Hk. pose proof (facts_of _ _ _ _ _ _ _ _ H Ht Hk) as F. posefacts F. cbn [use ownc] in *. destruct i; cbn [b2z] in *; [lia|]. split; [lia|reflexivity].
Qed.

(** A change of one object and one stack. *)
Lemma GInv_one T s s' t o r' L : GInv T s -> (t < T)%nat -> (o < s_next s)%nat -> s_next s' = s_next s ->
  (forall u, s_stk s' u = fupd (s_stk s) t L u) -> (forall o', s_o s' o' = fupd (s_o s) o r' o') ->
  OInv T o r' (inst s' o) (fupd (kof s o) t (proj o L)) ->
  (forall o', o' <> o -> proj o' L = proj o' (s_stk s t)) ->
  (forall o', o' <> o -> (o' < s_next s)%nat -> inst s' o' = inst s o') ->
  (forall x o', In x L -> about o' x = true -> (o' < s_next s)%nat) ->
  Forall below_ok (tl L) -> TInv s' -> GInv T s'.
Proof.
  intros [G1 G2 G3 G4 G5] Ht Ho EN ES EO H HP HI HF HB HT. constructor; rewrite ?EN; auto.
  - intros o' Ho'. rewrite EO. destruct (Nat.eq_dec o' o) as [->|N].
    + rewrite fupd_eq. eapply OInv_ext; [|exact H]. intros u Hu. unfold kof. rewrite ES. unfold fupd. destruct (u =? t)%nat; reflexivity.
    + rewrite fupd_ne, HI by assumption. eapply OInv_ext; [|exact (G1 o' Ho')]. intros u Hu. unfold kof. rewrite ES. destruct (Nat.eq_dec u t) as [->|Nu]; [rewrite fupd_eq; symmetry; auto|rewrite fupd_ne by assumption; reflexivity].
  - intros u x o'. rewrite ES. destruct (Nat.eq_dec u t) as [->|Nu]; [rewrite fupd_eq; apply HF|rewrite fupd_ne by assumption; apply G2].
  - intros u Hu. rewrite ES, fupd_ne by lia. auto.
  - intros u. rewrite ES. destruct (Nat.eq_dec u t) as [->|Nu]; [rewrite fupd_eq; exact HB|rewrite fupd_ne by assumption; auto].
Qed.
Lemma TInv_same s s' : TInv s -> s_next s' = s_next s -> (forall i, s_tab s' i = s_tab s i) -> (forall i, s_bit s' i = s_bit s i) ->
  (forall o, oid (s_o s' o) = oid (s_o s o)) -> (forall o, rel (s_o s' o) = rel (s_o s o)) -> TInv s'.
Proof.
  intros [A B C] EN ET EB EO ER. constructor; rewrite ?EN.
  - intros i o. rewrite ET, EO. apply A.
  - intros o. rewrite ER, EO, EB. apply B.
  - intros o o'. rewrite !ER, !EO. apply C.
Qed.
Lemma inst_same s s' o : (forall i, s_tab s' i = s_tab s i) -> oid (s_o s' o) = oid (s_o s o) -> inst s' o = inst s o.
Proof. intros A B. unfold inst. rewrite B, A. reflexivity. Qed.
Lemma proj_cons o x l : about o x = true -> proj o (x :: l) = x :: proj o l.
Proof. intros A. unfold proj. cbn [filter]. rewrite A. reflexivity. Qed.
Lemma about_ne o o' x : about o x = true -> o' <> o -> about o' x = false.
Proof. intros A N. destruct x; cbn [about] in *; try discriminate A; apply Nat.eqb_eq in A; subst; apply Nat.eqb_neq; congruence. Qed.
Lemma proj_other o o' x l : about o x = true -> o' <> o -> proj o' (x :: l) = proj o' l.
Proof. intros A N. unfold proj. cbn [filter]. rewrite (about_ne o o' x A N). reflexivity. Qed.
Lemma fupd_o {A} (f : nat -> A) (o : nat) (v : A) (g : A -> ref) (o' : nat) : g v = g (f o) -> g (fupd f o v o') = g (f o').
Proof. intros E. unfold fupd. destruct (Nat.eqb_spec o' o) as [->|_]; [exact E|reflexivity]. Qed.
Lemma fupd_b {A} (f : nat -> A) (o : nat) (v : A) (g : A -> bool) (o' : nat) : g v = g (f o) -> g (fupd f o v o') = g (f o').
Proof. intros E. unfold fupd. destruct (Nat.eqb_spec o' o) as [->|_]; [exact E|reflexivity]. Qed.
Lemma at_user_below l : at_user l = true -> Forall below_ok (tl l) -> Forall below_ok l.
Proof. intros A B. destruct l as [|x l]; [constructor|]. constructor; [|exact B]. destruct x as [? ? ? ? [] ?|? ? [] ? ?| |? ? ? [] ?|? []|]; try discriminate A; exact I. Qed.

Lemma TInv_uninst s s' o : TInv s -> s_next s' = s_next s -> inst s o = true -> (forall i, s_tab s' i = fupd (s_tab s) (snd (oid (s_o s o))) None i) -> (forall i, s_bit s' i = s_bit s i) ->
  (forall o, oid (s_o s' o) = oid (s_o s o)) -> (forall o, rel (s_o s' o) = rel (s_o s o)) -> TInv s' /\ inst s' o = false /\ forall o', o' <> o -> inst s' o' = inst s o'.
Proof.
  intros [A B C] EN I ET EB EO ER. split; [constructor; rewrite ?EN|split].
  - intros i o'. rewrite ET, EO. unfold fupd. destruct (i =? _)%nat; [discriminate|apply A].
  - intros o'. rewrite ER, EO, EB. apply B.
  - intros p q. rewrite !ER, !EO. apply C.
  - unfold inst. rewrite EO, ET, fupd_eq. reflexivity.
  - intros o' N. unfold inst. rewrite EO, ET. unfold fupd. destruct (Nat.eqb_spec (snd (oid (s_o s o'))) (snd (oid (s_o s o)))) as [E|_]; [|reflexivity].
    apply inst_tab in I. rewrite E, I. symmetry. apply Nat.eqb_neq. congruence.
Qed.

Lemma apply_ok T s t o x l s' : GInv T s -> (t < T)%nat -> s_stk s t = x :: l -> about o x = true -> apply s t o l (lstep t o (s_o s o) (inst s o) x l) = Some s' ->
  GInv T s' /\ (s_fail s' = s_fail s \/ s_fail s' = Some Misuse).
Proof.
  intros G Ht Hs A E. pose proof G as [G1 G2 G3 G4 G5]. assert (Ho : (o < s_next s)%nat) by (apply (G2 t x o); [rewrite Hs; left; reflexivity|exact A]).
  pose proof (G1 o Ho) as H. assert (Hk : kof s o t = x :: proj o l) by (unfold kof; rewrite Hs; apply proj_cons, A).
  pose proof (G4 t) as B. rewrite Hs in B. cbn [tl] in B. assert (Q : onq o l = onq o (proj o l)) by (symmetry; apply onq_proj).
  rewrite (lstep_below _ _ _ _ _ _ _ Q) in E. destruct (lstep t o (s_o s o) (inst s o) x (proj o l)) as [|f|r' i' fs es] eqn:LS; cbn [apply] in E; [discriminate E| |].
  - assert (X : s' = fail s f) by congruence. subst s'. apply (step_nobug _ _ _ _ _ _ _ _ _ H Ht Hk) in LS. subst f. split; [|right; reflexivity]. destruct G as [H1 H2 H3 H4 [H5 H6 H7]]. constructor; auto. constructor; auto.
  - destruct (step_shape _ _ _ _ _ _ _ _ _ _ _ _ H Ht Hk A LS) as [M [TB [IC [_ [EO [ER _]]]]]].
    pose proof (lstep_ok _ _ _ _ _ _ _ _ _ _ _ _ H Ht Hk A (proj_below o l B) LS) as H'.
    assert (TL : Forall below_ok (tl (fs ++ l))).
    { destruct fs as [|y fs]; [cbn [app]; destruct B; [constructor|assumption]|]. cbn [app tl]. apply Forall_app. split; [exact TB|exact B]. }
    assert (FR : forall y o', In y (fs ++ l) -> about o' y = true -> (o' < s_next s)%nat).
    { intros y o' I Ay. apply in_app_or in I. destruct I as [I|I]; [|apply (G2 t y o'); [rewrite Hs; right; exact I|exact Ay]].
      rewrite Forall_forall in M. destruct (M y I) as [My|[q ->]]; [|discriminate Ay]. destruct (Nat.eq_dec o' o) as [->|N]; [exact Ho|]. rewrite (about_ne o o' y My N) in Ay. discriminate Ay. }
    assert (PO : forall o', o' <> o -> proj o' (fs ++ l) = proj o' (s_stk s t)).
    { intros o' N. rewrite proj_app, (proj_about o o' fs) by (auto; congruence). rewrite Hs, (proj_other o o' x l A N). reflexivity. }
    destruct IC as [-> | [I1 ->]].
    + rewrite Bool.eqb_reflx in E. assert (X : s' = set_stk (set_o s o r') t (fs ++ l) es) by congruence. subst s'. split; [|left; reflexivity].
      assert (IS : forall o', inst (set_stk (set_o s o r') t (fs ++ l) es) o' = inst s o').
      { intros o'. apply inst_same; [reflexivity|]. cbn. apply (fupd_o (s_o s) o r' oid). exact EO. }
      eapply (GInv_one T s _ t o r' (fs ++ l) G Ht Ho); cbn; try reflexivity; auto.
      * rewrite IS. rewrite proj_app. exact H'.
      * eapply TInv_same; [exact G5| | | | |]; cbn; try reflexivity; intros o'; [apply (fupd_o (s_o s) o r' oid)|apply (fupd_b (s_o s) o r' rel)]; assumption.
    + rewrite I1 in E. cbn [Bool.eqb] in E. unfold set_inst in E. match type of E with Some ?a = _ => assert (X : s' = a) by congruence end. clear E.
      destruct (TInv_uninst s s' o G5) as [T1 [T2 T3]]; subst s'; cbn; try reflexivity; auto.
      { intros o'. apply (fupd_o (s_o s) o r' oid). exact EO. } { intros o'. apply (fupd_b (s_o s) o r' rel). exact ER. }
      split; [|left; reflexivity]. eapply (GInv_one T s _ t o r' (fs ++ l) G Ht Ho); cbn; try reflexivity; auto.
      rewrite T2, proj_app. exact H'.
Qed.

(** Changes that push or pop frames of one object without touching the table. *)
Lemma GInv_simple T s t o r' L es : GInv T s -> (t < T)%nat -> (o < s_next s)%nat -> oid r' = oid (s_o s o) -> rel r' = rel (s_o s o) ->
  OInv T o r' (inst s o) (fupd (kof s o) t (proj o L)) -> (forall o', o' <> o -> proj o' L = proj o' (s_stk s t)) ->
  (forall x o', In x L -> about o' x = true -> (o' < s_next s)%nat) -> Forall below_ok (tl L) -> GInv T (set_stk (set_o s o r') t L es).
Proof.
  intros G Ht Ho EO ER H P F B. assert (IS : forall o', inst (set_stk (set_o s o r') t L es) o' = inst s o').
  { intros o'. apply inst_same; [reflexivity|]. cbn. apply (fupd_o (s_o s) o r' oid). exact EO. }
  eapply (GInv_one T s _ t o r' L G Ht Ho); cbn; try reflexivity; auto.
  - rewrite IS. exact H.
  - eapply TInv_same; [exact (g_t _ _ G)| | | | |]; cbn; try reflexivity; intros o'; [apply (fupd_o (s_o s) o r' oid)|apply (fupd_b (s_o s) o r' rel)]; assumption.
Qed.
(** Changes of a stack that no object sees. *)
Lemma GInv_mark T s t L es : GInv T s -> (t < T)%nat -> (forall o, proj o L = proj o (s_stk s t)) -> (forall x o', In x L -> about o' x = true -> (o' < s_next s)%nat) -> Forall below_ok (tl L) -> GInv T (set_stk s t L es).
Proof.
  intros [G1 G2 G3 G4 G5] Ht P F B. constructor; cbn; auto.
  - intros o Ho. eapply OInv_ext; [|exact (G1 o Ho)]. intros u Hu. unfold kof. cbn. destruct (Nat.eq_dec u t) as [->|N]; [rewrite fupd_eq; symmetry; apply P|rewrite fupd_ne by assumption; reflexivity].
  - intros u x o. destruct (Nat.eq_dec u t) as [->|N]; [rewrite fupd_eq; apply F|rewrite fupd_ne by assumption; apply G2].
  - intros u Hu. rewrite fupd_ne by lia. auto.
  - intros u. destruct (Nat.eq_dec u t) as [->|N]; [rewrite fupd_eq; exact B|rewrite fupd_ne by assumption; auto].
  - destruct G5. constructor; auto.
Qed.
Lemma lookup_inst s r o : TInv s -> lookup s r = Some o -> (o < s_next s)%nat /\ inst s o = true /\ oid (s_o s o) = r.
Proof.
  intros [A B C] L. unfold lookup in L. destruct (s_tab s (snd r)) as [p|] eqn:E; [|discriminate L]. destruct ((fst (oid (s_o s p)) =? fst r)%nat && (snd (oid (s_o s p)) =? snd r)%nat) eqn:Q; [|discriminate L].
  assert (p = o) by congruence. subst p. apply andb_true_iff in Q. destruct Q as [Q1 Q2]. apply Nat.eqb_eq in Q1. apply Nat.eqb_eq in Q2. destruct (A _ _ E) as [X Y]. split; [exact X|]. split; [apply inst_tab; congruence|].
  destruct (oid (s_o s o)), r. cbn in *. congruence.
Qed.

Lemma push_about o x l : about o x = true -> (forall o', o' <> o -> proj o' (x :: l) = proj o' l).
Proof. intros A o' N. apply (proj_other o); assumption. Qed.
Lemma GInv_push T s t o x r' es : GInv T s -> (t < T)%nat -> (o < s_next s)%nat -> at_user (s_stk s t) = true -> about o x = true -> oid r' = oid (s_o s o) -> rel r' = rel (s_o s o) ->
  OInv T o r' (inst s o) (fupd (kof s o) t (x :: kof s o t)) -> GInv T (set_stk (set_o s o r') t (x :: s_stk s t) es).
Proof.
  intros G Ht Ho U A EO ER H. apply GInv_simple; auto.
  - rewrite (proj_cons o x _ A). exact H.
  - apply push_about, A.
  - intros y o' [<-|I] Ay; [|exact (g_fresh _ _ G t y o' I Ay)]. destruct (Nat.eq_dec o' o) as [->|N]; [exact Ho|]. rewrite (about_ne o o' x A N) in Ay. discriminate Ay.
  - cbn [tl]. apply at_user_below; [exact U|apply (g_below _ _ G)].
Qed.
Lemma fresh_tail T s t x l o' y : GInv T s -> s_stk s t = x :: l -> In y l -> about o' y = true -> (o' < s_next s)%nat.
Proof. intros G E I A. apply (g_fresh _ _ G t y o'); [rewrite E; right; exact I|exact A]. Qed.
Lemma tail_below T s t x l : GInv T s -> s_stk s t = x :: l -> Forall below_ok l.
Proof. intros G E. pose proof (g_below _ _ G t) as B. rewrite E in B. exact B. Qed.
Lemma tl_below l : Forall below_ok l -> Forall below_ok (tl l).
Proof. intros B. destruct B; [constructor|assumption]. Qed.
(** The top frame is replaced by another one about the same object. *)
Lemma GInv_top T s t o x y l r' es : GInv T s -> (t < T)%nat -> s_stk s t = x :: l -> about o x = true -> about o y = true -> oid r' = oid (s_o s o) -> rel r' = rel (s_o s o) ->
  OInv T o r' (inst s o) (fupd (kof s o) t (y :: proj o l)) -> GInv T (set_stk (set_o s o r') t (y :: l) es).
Proof.
  intros G Ht E A A' EO ER H. assert (Ho : (o < s_next s)%nat) by (apply (g_fresh _ _ G t x o); [rewrite E; left; reflexivity|exact A]). apply GInv_simple; auto.
  - rewrite (proj_cons o y _ A'). exact H.
  - intros o' N. rewrite E, (proj_other o o' y l A' N), (proj_other o o' x l A N). reflexivity.
  - intros z o' [<-|I] Az; [|exact (fresh_tail T s t x l o' z G E I Az)]. destruct (Nat.eq_dec o' o) as [->|N]; [exact Ho|]. rewrite (about_ne o o' y A' N) in Az. discriminate Az.
  - exact (tail_below T s t x l G E).
Qed.
Lemma kof_top s t o x l : s_stk s t = x :: l -> about o x = true -> kof s o t = x :: proj o l.
Proof. intros E A. unfold kof. rewrite E. apply proj_cons, A. Qed.
Lemma set_o_id T s t L es o : GInv T (set_stk (set_o s o (s_o s o)) t L es) -> GInv T (set_stk s t L es).
Proof.
  assert (X : forall o', fupd (s_o s) o (s_o s o) o' = s_o s o') by (intros o'; unfold fupd; destruct (Nat.eqb_spec o' o) as [->|_]; reflexivity).
  intros [G1 G2 G3 G4 [G5 G6 G7]]. cbn in *. constructor; cbn; auto.
  - intros o' Ho. specialize (G1 o' Ho). rewrite X in G1. assert (I : inst (set_stk (set_o s o (s_o s o)) t L es) o' = inst (set_stk s t L es) o') by (apply inst_same; cbn; [reflexivity|rewrite X; reflexivity]). rewrite I in G1. exact G1.
  - constructor; cbn. + intros i o' E. specialize (G5 i o' E). rewrite X in G5. exact G5. + intros o' E. specialize (G6 o' E). rewrite X in G6. exact G6. + intros p q E F. specialize (G7 p q E F). rewrite !X in G7. exact G7.
Qed.

Definition okf (s s' : st) : Prop := s_fail s' = s_fail s \/ s_fail s' = Some Misuse.
Lemma call_ok T s t c s' : GInv T s -> (t < T)%nat -> at_user (s_stk s t) = true -> do_call s t c = Some s' -> GInv T s' /\ okf s s'.
Proof.
  intros G Ht U E. pose proof G as [G1 G2 G3 G4 G5]. destruct c as [kd r|o|r|r del|i a rc cf]; cbn [do_call] in E.
  - destruct (lookup s r) as [o|] eqn:L.
    + destruct (lookup_inst _ _ _ G5 L) as [Ho [I R]]. pose proof (G1 o Ho) as H. rewrite I in H. destruct (v_fin1 _ _ _ _ _ H (inst_use _ _ _ _ H)) as [_ GN]. rewrite GN in E.
      match type of E with Some ?a = _ => assert (X : s' = a) by congruence end. subst s'. split; [|left; reflexivity]. apply GInv_push; auto; try (cbn; apply Nat.eqb_refl); try (unfold get; destruct (true && cfree _); reflexivity).
      rewrite I. apply get_ok; auto. left. split; [reflexivity|]. exists kd. reflexivity.
    + match type of E with Some ?a = _ => assert (X : s' = a) by congruence end. subst s'. split; [|left; reflexivity]. apply GInv_mark; auto. intros x o' I A. exact (G2 t x o' I A).
  - destruct (onq o (s_stk s t)) eqn:Q; [|discriminate E]. assert (Ho : (o < s_next s)%nat).
    { unfold onq in Q. apply existsb_exists in Q. destruct Q as [x [I Q]]. apply (G2 t x o I). destruct x as [|? ? [] ? ?| | | |]; try discriminate Q. exact Q. }
    pose proof (G1 o Ho) as H. rewrite <- onq_proj in Q. assert (GN : gone (s_o s o) = false).
    { pose proof (onq_use o _ Q). pose proof (v_use _ _ _ _ _ H) as V. pose proof (sumT_ge T (fun u => csum use (kof s o u)) t Ht (fun u => csum_nonneg use _ use_nn)) as S1. cbn beta in S1. unfold kof in S1 at 1.
      pose proof (sumT_nonneg T (fun u => csum ownc (kof s o u)) (fun u => csum_nonneg ownc _ own_nn)). apply (v_fin1 _ _ _ _ _ H). destruct (inst s o); cbn [b2z] in V; lia. }
    rewrite GN in E. match type of E with Some ?a = _ => assert (X : s' = a) by congruence end. subst s'. split; [|left; reflexivity]. apply (set_o_id T s t _ _ o). apply GInv_push; auto; [cbn; apply Nat.eqb_refl|]. apply push_ok; auto.
  - destruct (lookup s r) as [o|] eqn:L.
    + destruct (lookup_inst _ _ _ G5 L) as [Ho [I R]]. pose proof (G1 o Ho) as H. rewrite I in H. destruct (v_fin1 _ _ _ _ _ H (inst_use _ _ _ _ H)) as [_ GN]. rewrite GN in E.
      match type of E with Some ?a = _ => assert (X : s' = a) by congruence end. subst s'. split; [|left; reflexivity]. apply GInv_push; auto; try (cbn; apply Nat.eqb_refl); try (unfold get; destruct (true && cfree _); reflexivity).
      rewrite I. apply get_ok; auto. right. left. split; [reflexivity|]. exists r. reflexivity.
    + match type of E with Some ?a = _ => assert (X : s' = a) by congruence end. subst s'. split; [|left; reflexivity]. apply GInv_mark; auto. * intros x o' [<-|I] A; [discriminate A|exact (G2 t x o' I A)]. * cbn [tl]. apply at_user_below; auto.
  - destruct (lookup s r) as [o|] eqn:L.
    + destruct (lookup_inst _ _ _ G5 L) as [Ho [I R]]. pose proof (G1 o Ho) as H. rewrite I in H. destruct (v_fin1 _ _ _ _ _ H (inst_use _ _ _ _ H)) as [_ GN]. rewrite GN in E.
      match type of E with Some ?a = _ => assert (X : s' = a) by congruence end. subst s'. split; [|left; reflexivity]. apply GInv_push; auto; try (cbn; apply Nat.eqb_refl); try reflexivity.
      rewrite I. apply get_ok; auto. right. right. split; [reflexivity|]. exists del. reflexivity.
    + match type of E with Some ?a = _ => assert (X : s' = a) by congruence end. subst s'. split; [|left; reflexivity]. apply GInv_mark; auto. intros x o' I A. exact (G2 t x o' I A).
  - destruct ((i <? LIMIT)%nat && negb (s_bit s i)) eqn:Q; [|discriminate E]. match type of E with Some ?a = _ => assert (X : s' = a) by congruence end. apply andb_true_iff in Q. destruct Q as [_ Q]. apply negb_true_iff in Q. clear E.
    assert (NI : forall o, (o < s_next s)%nat -> rel (s_o s o) = false -> snd (oid (s_o s o)) <> i) by (intros o Ho R Z0; pose proof (g_bit _ G5 o Ho R) as Y; congruence).
    assert (NF : forall u, proj (s_next s) (s_stk s u) = []).
    { intros u. assert (Z0 : forall l, (forall x, In x l -> about (s_next s) x = false) -> proj (s_next s) l = []).
      { intros l F. unfold proj. induction l as [|x l IH]; [reflexivity|]. cbn [filter]. rewrite F by (left; reflexivity). apply IH. intros y I. apply F. right. exact I. }
      apply Z0. intros x I. destruct (about (s_next s) x) eqn:A; [|reflexivity]. pose proof (G2 u x _ I A). lia. }
    assert (IO : forall o, (o < s_next s)%nat -> inst s' o = inst s o) by (intros o Ho; subst s'; apply inst_same; cbn; [reflexivity|rewrite fupd_ne by lia; reflexivity]).
    assert (IN : inst s' (s_next s) = false).
    { unfold inst. subst s'. cbn. rewrite fupd_eq. cbn. destruct (s_tab s i) as [p|] eqn:TB; [|reflexivity]. destruct (g_tab _ G5 _ _ TB). apply Nat.eqb_neq. lia. }
    split; [|left; subst s'; reflexivity]. constructor.
    + intros o. subst s'. cbn [s_next set_stk]. intros Ho. destruct (Nat.eq_dec o (s_next s)) as [->|N].
      * rewrite IN. cbn [s_o set_stk]. rewrite fupd_eq. eapply (new_ok T _ i a rc cf _ t Ht). intros u Hu. unfold kof. cbn. unfold fupd. destruct (u =? t)%nat; [|apply NF]. 
        cbn [filter about]. rewrite Nat.eqb_refl. f_equal. apply NF.
      * rewrite IO by lia. cbn [s_o set_stk]. rewrite fupd_ne by assumption. eapply OInv_ext; [|apply G1; lia]. intros u Hu. unfold kof. cbn [s_stk set_stk]. destruct (Nat.eq_dec u t) as [->|Nu]; [rewrite fupd_eq|rewrite fupd_ne by assumption; reflexivity].
        symmetry. apply (proj_other (s_next s)); [cbn; apply Nat.eqb_refl|exact N].
    + subst s'. cbn. intros u x o. destruct (Nat.eq_dec u t) as [->|Nu]; [rewrite fupd_eq|rewrite fupd_ne by assumption; intros I A; specialize (G2 u x o I A); lia].
      intros [<-|I] A; [cbn in A; apply Nat.eqb_eq in A; lia|specialize (G2 t x o I A); lia].
    + subst s'. cbn. intros u Hu. rewrite fupd_ne by lia. auto.
    + subst s'. cbn. intros u. destruct (Nat.eq_dec u t) as [->|Nu]; [rewrite fupd_eq|rewrite fupd_ne by assumption; auto]. cbn [tl]. apply at_user_below; auto.
    + subst s'. constructor; cbn.
      * intros j o TB. destruct (g_tab _ G5 _ _ TB). rewrite fupd_ne by lia. split; [lia|assumption].
      * intros o Ho. destruct (Nat.eq_dec o (s_next s)) as [->|N]; [rewrite fupd_eq; cbn; intros _; apply fupd_eq|rewrite fupd_ne by assumption]. intros R. rewrite fupd_ne by (apply NI; [lia|assumption]). apply (g_bit _ G5); [lia|assumption].
      * intros p q Hp Hq. destruct (Nat.eq_dec p (s_next s)) as [->|Np], (Nat.eq_dec q (s_next s)) as [->|Nq]; rewrite ?fupd_eq, ?fupd_ne by assumption; try reflexivity; cbn.
        -- intros _ R Z0. exfalso. apply (NI q); [lia|assumption|congruence].
        -- intros R _ Z0. exfalso. apply (NI p); [lia|assumption|congruence].
        -- apply (g_inj _ G5); lia.
Qed.
Lemma end_ok T s t s' : GInv T s -> (t < T)%nat -> do_end s t = Some s' -> GInv T s' /\ okf s s'.
Proof.
  intros G Ht E. pose proof G as [G1 G2 G3 G4 G5]. unfold do_end in E. destruct (s_stk s t) as [|x l] eqn:Hs; [discriminate E|].
  destruct x as [o nr kd h st e|o lkd st rf id|r|o del g st e|o st|o]; try discriminate E.
  - destruct st; try discriminate E. match type of E with Some ?a = _ => assert (X : s' = a) by congruence end. subst s'. split; [|left; reflexivity].
    assert (A : about o (FOp o nr kd h SRun e) = true) by (cbn; apply Nat.eqb_refl). assert (Ho : (o < s_next s)%nat) by (refine (G2 t _ o _ A); rewrite Hs; left; reflexivity).
    apply (set_o_id T s t _ _ o). eapply (GInv_top T s t o _ _ l _ _ G Ht Hs A); [cbn; apply Nat.eqb_refl|reflexivity|reflexivity|]. eapply end_op_ok; [exact (G1 o Ho)|exact Ht|exact (kof_top s t o _ l Hs A)].
  - destruct st; try discriminate E. match type of E with Some ?a = _ => assert (X : s' = a) by congruence end. subst s'. split; [|left; reflexivity].
    assert (A : about o (FQ o lkd SRun rf id) = true) by (cbn; apply Nat.eqb_refl). assert (Ho : (o < s_next s)%nat) by (refine (G2 t _ o _ A); rewrite Hs; left; reflexivity).
    apply (set_o_id T s t _ _ o). eapply (GInv_top T s t o _ _ l _ _ G Ht Hs A); [cbn; apply Nat.eqb_refl|reflexivity|reflexivity|]. eapply end_q_ok; [exact (G1 o Ho)|exact Ht|exact (kof_top s t o _ l Hs A)].
  - match type of E with Some ?a = _ => assert (X : s' = a) by congruence end. subst s'. split; [|left; reflexivity]. apply GInv_mark; auto.
    + intros o. rewrite Hs. reflexivity.
    + intros x o' I A. exact (fresh_tail T s t _ l o' x G Hs I A).
    + apply tl_below. exact (tail_below T s t _ l G Hs).
  - destruct st; try discriminate E. match type of E with Some ?a = _ => assert (X : s' = a) by congruence end. subst s'. split; [|left; reflexivity].
    assert (A : about o (FFin o FDtor) = true) by (cbn; apply Nat.eqb_refl). assert (Ho : (o < s_next s)%nat) by (refine (G2 t _ o _ A); rewrite Hs; left; reflexivity).
    apply (set_o_id T s t _ _ o). eapply (GInv_top T s t o _ _ l _ _ G Ht Hs A); [cbn; apply Nat.eqb_refl|reflexivity|reflexivity|]. eapply end_fin_ok; [exact (G1 o Ho)|exact Ht|exact (kof_top s t o _ l Hs A)].
Qed.
Lemma step_ok T s t s' : GInv T s -> (t < T)%nat -> do_step s t = Some s' -> GInv T s' /\ okf s s'.
Proof.
  intros G Ht E. pose proof G as [G1 G2 G3 G4 G5]. unfold do_step in E. destruct (s_stk s t) as [|x l] eqn:Hs; [discriminate E|].
  assert (AL : forall o, about o x = true -> (o < s_next s)%nat /\ kof s o t = x :: proj o l /\ touches x && gone (s_o s o) = false).
  { intros o A. assert (Ho : (o < s_next s)%nat) by (apply (G2 t x o); [rewrite Hs; left; reflexivity|exact A]). pose proof (kof_top s t o x l Hs A) as Hk. split; [exact Ho|]. split; [exact Hk|].
    destruct (touches x) eqn:TC; [|reflexivity]. apply (alive _ _ _ _ _ _ _ _ (G1 o Ho) Ht Hk A TC). }
  destruct x as [o nr kd h st e|o lkd st rf id|r|o del g st e|o st|o]; try discriminate E.
  - destruct (AL o (Nat.eqb_refl o)) as [Ho [Hk TG]]. cbv zeta in E. rewrite TG in E. apply (apply_ok T s t o _ l s' G Ht Hs (Nat.eqb_refl o) E).
  - destruct (AL o (Nat.eqb_refl o)) as [Ho [Hk TG]]. cbv zeta in E. rewrite TG in E. apply (apply_ok T s t o _ l s' G Ht Hs (Nat.eqb_refl o) E).
  - destruct (AL o (Nat.eqb_refl o)) as [Ho [Hk TG]]. cbv zeta in E. rewrite TG in E. apply (apply_ok T s t o _ l s' G Ht Hs (Nat.eqb_refl o) E).
  - destruct (AL o (Nat.eqb_refl o)) as [Ho [Hk TG]]. cbv zeta in E. rewrite TG in E. destruct st; try discriminate E; match type of E with Some ?a = _ => assert (X : s' = a) by congruence end; clear E.
    + pose proof (rel_ok _ _ _ _ _ _ _ (G1 o Ho) Ht Hk) as H'. destruct (fin_use _ _ _ _ _ _ _ _ (G1 o Ho) Ht Hk) as [_ [_ [_ [R _]]]]. specialize (R ltac:(discriminate)).
      assert (EO : forall o', oid (s_o s' o') = oid (s_o s o')) by (intros o'; subst s'; cbn; apply (fupd_o (s_o s) o (set_rel (s_o s o)) oid); reflexivity).
      assert (IS : forall o', inst s' o' = inst s o') by (intros o'; apply inst_same; [subst s'; reflexivity|apply EO]).
      split; [|left; subst s'; reflexivity]. eapply (GInv_one T s s' t o (set_rel (s_o s o)) (FFin o FMem :: l) G Ht Ho); try (subst s'; reflexivity); auto.
      * rewrite IS, proj_cons by (cbn; apply Nat.eqb_refl). exact H'.
      * intros o' N. rewrite Hs, !(proj_other o o') by (auto; cbn; apply Nat.eqb_refl). reflexivity.
      * intros y o' [<-|I] A; [cbn in A; apply Nat.eqb_eq in A; subst; exact Ho|exact (fresh_tail T s t _ l o' y G Hs I A)].
      * exact (tail_below T s t _ l G Hs).
      * destruct G5 as [A B C]. constructor.
        -- intros i p. rewrite EO. subst s'. apply A.
        -- intros p. rewrite EO. subst s'. cbn. intros Hp. destruct (Nat.eq_dec p o) as [->|N]; [rewrite fupd_eq; discriminate|rewrite fupd_ne by assumption]. intros Rp.
           rewrite fupd_ne; [auto|]. intros Q. apply N. apply (C p o); auto.
        -- intros p q. rewrite !EO. subst s'. cbn. intros Hp Hq. destruct (Nat.eq_dec p o) as [->|Np]; [rewrite fupd_eq; discriminate|]. destruct (Nat.eq_dec q o) as [->|Nq]; [rewrite fupd_eq; discriminate|]. rewrite !fupd_ne by assumption. apply C; assumption.
    + pose proof (free_ok _ _ _ _ _ _ _ (G1 o Ho) Ht Hk) as H'. subst s'. split; [|left; reflexivity]. apply GInv_simple; auto.
      * intros o' N. rewrite Hs, (proj_other o o') by (auto; cbn; apply Nat.eqb_refl). reflexivity.
      * intros y o' I A. exact (fresh_tail T s t _ l o' y G Hs I A).
      * apply tl_below. exact (tail_below T s t _ l G Hs).
  - destruct (AL o (Nat.eqb_refl o)) as [Ho [Hk TG]]. cbv zeta in E. rewrite TG in E. match type of E with Some ?a = _ => assert (X : s' = a) by congruence end; clear E.
    destruct (new_use _ _ _ _ _ _ _ (G1 o Ho) Ht Hk) as [U I0]. pose proof (live_rel _ _ _ _ _ (G1 o Ho) U) as RO.
    assert (TN : s_tab s (snd (oid (s_o s o))) = None).
    { destruct (s_tab s (snd (oid (s_o s o)))) as [p|] eqn:TB; [|reflexivity]. exfalso. destruct (g_tab _ G5 _ _ TB) as [Hp Ip].
      assert (PI : inst s p = true) by (apply inst_tab; rewrite Ip; exact TB). pose proof (G1 p Hp) as HP. rewrite PI in HP. pose proof (live_rel _ _ _ _ _ HP (inst_use _ _ _ _ HP)) as RP.
      assert (p = o) by (apply (g_inj _ G5); auto). subst p. congruence. }
    unfold install in X. rewrite TN in X. split; [|left; subst s'; reflexivity]. pose proof (G1 o Ho) as H. rewrite I0 in H. pose proof (install_ok _ _ _ _ _ _ (s_life s, snd (oid (s_o s o))) H Ht Hk) as H'.
    assert (SO : forall o', snd (oid (s_o s' o')) = snd (oid (s_o s o'))).
    { intros o'. subst s'. cbn. unfold fupd. destruct (Nat.eqb_spec o' o) as [->|_]; reflexivity. }
    assert (RL : forall o', rel (s_o s' o') = rel (s_o s o')) by (intros o'; subst s'; cbn; apply (fupd_b (s_o s) o (set_oid (s_o s o) (s_life s, snd (oid (s_o s o)))) rel); reflexivity).
    assert (TB : forall i, s_tab s' i = fupd (s_tab s) (snd (oid (s_o s o))) (Some o) i) by (intros i; subst s'; reflexivity).
    eapply (GInv_one T s s' t o _ l G Ht Ho); try (subst s'; reflexivity).
    * assert (I1 : inst s' o = true) by (apply inst_tab; rewrite SO, TB; apply fupd_eq). rewrite I1. exact H'.
    * intros o' N. rewrite Hs, (proj_other o o') by (auto; cbn; apply Nat.eqb_refl). reflexivity.
    * intros o' N Ho'. unfold inst. rewrite SO, TB. unfold fupd. destruct (Nat.eqb_spec (snd (oid (s_o s o'))) (snd (oid (s_o s o)))) as [Q|_]; [|reflexivity]. rewrite Q, TN. apply Nat.eqb_neq. congruence.
    * intros y o' I A. exact (fresh_tail T s t _ l o' y G Hs I A).
    * apply tl_below. exact (tail_below T s t _ l G Hs).
    * destruct G5 as [A B C]. assert (EN : s_next s' = s_next s) by (subst s'; reflexivity). assert (EB : s_bit s' = s_bit s) by (subst s'; reflexivity). constructor; rewrite ?EN.
      -- intros i p. rewrite TB, SO. unfold fupd. destruct (Nat.eqb_spec i (snd (oid (s_o s o)))) as [->|_]; [|apply A]. intros Q. assert (o = p) by congruence. subst p. auto.
      -- intros p. rewrite RL, SO, EB. apply B.
      -- intros p q. rewrite !RL, !SO. apply C.
Qed.
Lemma exec_ok T l s s' : GInv T s -> exec T l s = Some s' -> GInv T s' /\ okf s s' /\ s_fail s = None.
Proof.
  intros G E. unfold exec in E. destruct (s_fail s) eqn:F; [discriminate E|]. rewrite <- F.
  destruct l as [t c|t|t].
  - destruct ((t <? T)%nat && at_user (s_stk s t)) eqn:Q; [|discriminate E]. apply andb_true_iff in Q. destruct Q as [Q1 Q2]. apply Nat.ltb_lt in Q1. destruct (call_ok T s t c s' G Q1 Q2 E). auto.
  - assert (Ht : (t < T)%nat). { destruct (Nat.ltb_spec t T); [assumption|]. unfold do_end in E. rewrite (g_thr _ _ G t) in E by assumption. discriminate E. } destruct (end_ok T s t s' G Ht E). auto.
  - assert (Ht : (t < T)%nat). { destruct (Nat.ltb_spec t T); [assumption|]. unfold do_step in E. rewrite (g_thr _ _ G t) in E by assumption. discriminate E. } destruct (step_ok T s t s' G Ht E). auto.
Qed.
