(** * C27, C28, C29: reference objects. *)
From Verif Require Import Base Refobj RefobjSpec RefobjInv RefobjStep RefobjOp RefobjRest RefobjGlob RefobjTrace RefobjHist RefobjReach RefobjCount RefobjMore.

(** ** Helpers. *)
Lemma runc_proj o k l : csum (runc o k) l = csum (runc o k) (proj o l).
Proof.
  unfold proj. induction l as [|x l IH]; cbn [filter csum]; [reflexivity|]. destruct (about o x) eqn:A; cbn [csum]; rewrite IH; [reflexivity|].
  assert (runc o k x = 0); [|lia]. destruct x as [p ? ? ? [] ?|p ? [] ? ?| | | |]; try reflexivity; cbn [about runc] in *; rewrite A; reflexivity.
Qed.
Lemma runc_use r o k l : wfs r o l -> csum use l = 0 -> csum (runc o k) l = 0.
Proof.
  induction l as [|x l IH]; cbn [wfs csum]; intros W U; [reflexivity|]. destruct W as [W1 W2]. pose proof (use_nn x). pose proof (csum_nonneg use l use_nn). rewrite IH by (auto; lia). assert (runc o k x = 0); [|lia].
  destruct x as [p nr kd h st e|p lkd st rf id| | | |]; try reflexivity.
  - destruct st; try reflexivity. destruct nr; [|cbn [use] in *; lia]. cbn [wfx] in W1. destruct W1 as [W1 _]. destruct (W1 eq_refl) as [_ Q]. pose proof (onq_use o l Q). lia.
  - destruct st; try reflexivity. cbn [use] in *. lia.
Qed.
Lemma runc_openc r o k l : wfs r o l -> locked k -> (k = None -> async r = false) -> csum (runc o k) l <= csum openc l.
Proof.
  intros W L N. induction l as [|x l IH]; cbn [wfs csum] in *; [lia|]. destruct W as [W1 W2]. specialize (IH W2). assert (runc o k x <= openc x); [|lia]. unfold locked in L.
  destruct x as [p nr kd h st e|p lkd st rf id| | | |]; try (cbn; lia).
  - destruct st; try (destruct kd; cbn; lia). cbn [runc openc]. destruct (p =? o)%nat; cbn [andb]; [|destruct kd; lia]. destruct kd, k as [[]|]; cbn; try lia; congruence.
  - destruct st; try (destruct lkd; cbn; lia). cbn [wfx] in W1. destruct W1 as [_ ->]. cbn [runc openc]. destruct k as [kd|]; [rewrite keqb_ns, andb_false_r; destruct (negb (async r)); lia|]. rewrite N by reflexivity. cbn. destruct (_ && _); lia.
Qed.
Lemma beyond T s t o k : reach T s -> (s_next s <= o)%nat -> csum (runc o k) (s_stk s t) = 0.
Proof.
  intros R L. destruct (reach_ok T s R) as [G _]. assert (X : forall l, (forall x, In x l -> about o x = false) -> csum (runc o k) l = 0).
  { induction l as [|x l IH]; cbn [csum]; intros H; [reflexivity|]. rewrite IH by (intros y Y; apply H; right; exact Y). assert (A : about o x = false) by (apply H; left; reflexivity). assert (runc o k x = 0); [|lia].
    destruct x as [p ? ? ? [] ?|p ? [] ? ?| | | |]; try reflexivity; cbn [about runc] in *; rewrite A; reflexivity. }
  apply X. intros x I. destruct (about o x) eqn:A; [|reflexivity]. pose proof (g_fresh _ _ G t x o I A). lia.
Qed.
Lemma opens_st T s t o k : reach T s -> opens t o k (s_tr s) = csum (runc o k) (kof s o t).
Proof. intros R. destruct (reach_ok T s R) as [_ [I _]]. rewrite (t_open _ I). unfold kof. apply runc_proj. Qed.
(** When the count is 0 no callback runs, and the table does not hold the object. *)
Lemma zero_idle T s o : reach T s -> (o < s_next s)%nat -> usage (s_o s o) = 0 -> inst s o = false /\ nonew s o /\ forall u k, opens u o k (s_tr s) = 0.
Proof.
  intros R Ho U. destruct (reach_ok T s R) as [G [I _]]. pose proof (g_obj _ _ G o Ho) as H. pose proof (v_use _ _ _ _ _ H) as V. rewrite U in V.
  pose proof (sumT_nonneg T (fun u => csum ownc (kof s o u)) (fun u => csum_nonneg ownc _ own_nn)). pose proof (sumT_nonneg T (fun u => csum use (kof s o u)) (fun u => csum_nonneg use _ use_nn)).
  assert (J : inst s o = false) by (destruct (inst s o); [cbn [b2z] in V; lia|reflexivity]). split; [exact J|]. rewrite J in V. cbn [b2z] in V.
  assert (O0 : sumT T (fun u => csum ownc (kof s o u)) = 0) by lia. assert (U0 : sumT T (fun u => csum use (kof s o u)) = 0) by lia. split.
  - intros u X. destruct (Nat.ltb_spec u T) as [L|L]; [|rewrite (g_thr _ _ G u L) in X; exact X].
    pose proof (sumT_ge T (fun u => csum ownc (kof s o u)) u L (fun v => csum_nonneg ownc _ own_nn)) as W. cbn beta in W.
    assert (Z0 : csum ownc (kof s o u) = 0) by (pose proof (csum_nonneg ownc (kof s o u) own_nn); lia).
    pose proof (csum_zero_in ownc _ (FNew o) own_nn Z0 (in_proj o _ _ X (Nat.eqb_refl o))) as Q. discriminate Q.
  - intros u k. rewrite (opens_st T) by exact R. destruct (Nat.ltb_spec u T) as [L|L]; [|unfold kof; rewrite (g_thr _ _ G u L); reflexivity].
    pose proof (sumT_ge T (fun u => csum use (kof s o u)) u L (fun v => csum_nonneg use _ use_nn)) as W. cbn beta in W. apply (runc_use (s_o s o)); [exact (v_wf _ _ _ _ _ H u L)|]. pose proof (csum_nonneg use (kof s o u) use_nn). lia.
Qed.
Lemma dtor_zero T s o : reach T s -> (1 <= dtors o (s_tr s) <-> (o < s_next s)%nat /\ usage (s_o s o) = 0).
Proof.
  intros R. destruct (reach_ok T s R) as [_ [I _]]. rewrite (t_dtor _ I). destruct (Nat.ltb_spec o (s_next s)); cbn [andb]; [|split; [lia|intros [A _]; lia]].
  destruct (Z.eqb_spec (usage (s_o s o)) 0); split; try lia; auto.
Qed.
Lemma dtor_in t o tr : In (EDtor t o) tr -> 1 <= dtors o tr.
Proof. intros P. apply (cnt_pos (isD o) tr (EDtor t o) P). cbn. apply Nat.eqb_refl. Qed.
Lemma quiet_sums T s o c : quiet s -> sumT T (fun u => csum c (kof s o u)) = 0.
Proof. intros Q. apply sumT_zero. intros u. unfold kof. rewrite (Q u). reflexivity. Qed.

(** ** C27: the destructor. *)
(** It runs at most once. *)
Theorem C27_at_most_once T s o : reachable T s -> 0 <= dtors o (s_tr s) <= 1.
Proof.
  intros R. apply reachable_reach in R. destruct (reach_ok T s R) as [_ [I _]]. rewrite (t_dtor _ I). destruct (_ && _); lia.
Qed.
Print Assumptions C27_at_most_once.

(** It runs only after a deleting aosl_ref_destroy was called for the object, when no callback of the object is running on any thread, and no callback of the object starts after it. *)
Theorem C27_after_last_user T s a t o b : reachable T s -> s_tr s = a ++ EDtor t o :: b ->
  (exists u, In (EDes u o true) a) /\ (forall u k, opens u o k a = 0) /\ (forall u k, ~ In (EBegin u o k) b) /\ dtors o a = 0 /\ dtors o b = 0.
Proof.
  intros R E. apply reachable_reach in R. destruct (reach_split T s R _ _ _ E) as [s0 [l [s1 [d1 [d2 [ls [R0 [X [T1 [A [D [V RN]]]]]]]]]]]]. destruct D as [->|[? [? D]]]; [|discriminate D].
  cbn [app] in T1. rewrite app_nil_r in A. pose proof (reach_step T s0 l s1 R0 X) as R1. destruct V as [Ho [Ht [U _]]].
  assert (D2 : d2 = []).
  { destruct (reach_ok T s0 R0) as [G0 [I0 _]]. destruct (exec_info T l s0 s1 G0 I0 X) as [_ [_ [es [Y [_ SH]]]]]. rewrite T1 in Y. apply app_inv_head in Y. subst es. destruct SH as [SH|[u [r SH]]]; [|discriminate SH]. destruct d2; [reflexivity|cbn in SH; lia]. }
  subst d2. assert (Ho1 : (o < s_next s1)%nat). { destruct (reach_ok T s0 R0) as [G0 [I0 _]]. destruct (exec_info T l s0 s1 G0 I0 X) as [N _]. lia. }
  destruct (zero_idle T s1 o R1 Ho1 U) as [J [NW OP]]. destruct (reach_ok T s1 R1) as [_ [I1 _]]. split; [|split; [|split]].
  - destruct (t_inst _ I1 o Ho1 J NW) as [u P]. rewrite T1 in P. apply in_app_or in P. exists u. rewrite A. destruct P as [P|[P|[]]]; [exact P|discriminate P].
  - intros u k. specialize (OP u k). rewrite T1, opens_app in OP. rewrite A. unfold opens in *. cbn [cnt isB isE] in OP. lia.
  - intros u k P. apply in_split in P. destruct P as [b1 [b2 P]]. rewrite P in E.
    assert (E' : s_tr s = (a ++ EDtor t o :: b1) ++ EBegin u o k :: b2) by (rewrite <- app_assoc; exact E).
    destruct (reach_split T s R _ _ _ E') as [s2 [l2 [s3 [e1 [e2 [ls2 [R2 [X2 [T2 [A2 [D2 [V2 _]]]]]]]]]]]]. destruct D2 as [->|[? [? D2]]]; [|discriminate D2]. rewrite app_nil_r in A2.
    assert (Z1 : 1 <= dtors o (s_tr s2)) by (rewrite <- A2; apply (dtor_in t); apply in_or_app; right; left; reflexivity).
    apply (dtor_zero T s2 o R2) in Z1. destruct V2 as [_ [V2 _]]. tauto.
  - destruct (reach_ok T s R) as [_ [I _]]. pose proof (t_dtor _ I o) as C. unfold dtors in *. rewrite E, cnt_app in C. cbn [cnt isD] in C. rewrite Nat.eqb_refl in C.
    pose proof (cnt_nonneg (isD o) a). pose proof (cnt_nonneg (isD o) b). destruct (_ && _) in C; lia.
Qed.
Print Assumptions C27_after_last_user.

(** The implementation's own consistency checks never fire, and freed memory is never used. *)
Theorem C27_memory_safe T s : reachable T s -> s_fail s = None \/ s_fail s = Some Misuse.
Proof. intros R. apply reachable_reach in R. apply (reach_ok T s R). Qed.
Print Assumptions C27_memory_safe.

(** When no call is under way, an object is destructed and its memory and its index are given back if a deleting aosl_ref_destroy was called for it; otherwise it is still there. *)
Theorem C27_exactly_once T s t o r : reachable T s -> quiet s -> In (ECreate t o r) (s_tr s) ->
  ((exists u, In (EDes u o true) (s_tr s)) -> dtors o (s_tr s) = 1 /\ gone (s_o s o) = true /\ rel (s_o s o) = true /\ lookup s r <> Some o) /\
  ((forall u, ~ In (EDes u o true) (s_tr s)) -> dtors o (s_tr s) = 0 /\ gone (s_o s o) = false /\ lookup s r = Some o).
Proof.
  intros R Q C. apply reachable_reach in R. destruct (reach_ok T s R) as [G [I _]]. destruct (t_cre _ I _ _ _ C) as [Ho [OI NW]]. pose proof (g_obj _ _ G o Ho) as H.
  pose proof (v_use _ _ _ _ _ H) as V. rewrite !(quiet_sums T s o _ Q) in V. split.
  - intros [u D]. assert (J : inst s o = false) by (destruct (t_unin _ I _ _ D) as [[g [st [e [P _]]]]|J]; [rewrite (Q u) in P; contradiction|exact J]).
    rewrite J in V. cbn [b2z] in V. assert (U : usage (s_o s o) = 0) by lia. pose proof (v_fin2 _ _ _ _ _ H U) as F. rewrite (quiet_sums T s o _ Q) in F. pose proof (v_rel _ _ _ _ _ H) as RL. rewrite (quiet_sums T s o _ Q) in RL.
    assert (GN : gone (s_o s o) = true) by (destruct (gone (s_o s o)); [reflexivity|cbn [b2z] in F; lia]). rewrite GN in RL. cbn [b2z] in RL. split; [|split; [exact GN|split]].
    + rewrite (t_dtor _ I), U. apply Nat.ltb_lt in Ho. rewrite Ho. reflexivity.
    + destruct (rel (s_o s o)); [reflexivity|cbn [b2z] in RL; lia].
    + intros L. destruct (lookup_inst _ _ _ (g_t _ _ G) L) as [_ [L2 _]]. congruence.
  - intros N. assert (J : inst s o = true) by (destruct (inst s o) eqn:J; [reflexivity|]; destruct (t_inst _ I o Ho J NW) as [u D]; exfalso; exact (N u D)).
    rewrite J in V. cbn [b2z] in V. split; [|split].
    + rewrite (t_dtor _ I). destruct (Z.eqb_spec (usage (s_o s o)) 0); [lia|]. rewrite andb_false_r. reflexivity.
    + apply (v_fin1 _ _ _ _ _ H). lia.
    + apply inst_tab in J. unfold lookup. rewrite OI in J. rewrite J, OI, !Nat.eqb_refl. reflexivity.
Qed.
Print Assumptions C27_exactly_once.

(** The index is given back only after the destructor has returned. *)
Theorem C27_id_after_dtor T s a o i b : reachable T s -> s_tr s = a ++ EId o i :: b -> (exists u, In (EDtorEnd u o) a) /\ dtors o a = 1.
Proof.
  intros R E. apply reachable_reach in R. destruct (reach_split T s R _ _ _ E) as [s0 [l [s1 [d1 [d2 [ls [R0 [X [T1 [A [D [V RN]]]]]]]]]]]]. destruct D as [->|[? [? D]]]; [|discriminate D]. rewrite app_nil_r in A. subst a.
  destruct V as [Ho [_ [u P]]]. split; [eauto|]. apply in_split in P. destruct P as [a1 [a2 P]]. destruct (reach_split T s0 R0 _ _ _ P) as [s2 [l2 [s3 [e1 [e2 [ls2 [R2 [X2 [T2 [A2 [D2 [V2 _]]]]]]]]]]]]. destruct D2 as [->|[? [? D2]]]; [|discriminate D2]. rewrite app_nil_r in A2.
  assert (Z1 : 1 <= dtors o (s_tr s2)) by (apply (dtor_zero T s2 o R2); exact V2). destruct (reach_ok T s0 R0) as [_ [I0 _]]. assert (dtors o (s_tr s0) <= 1) by (rewrite (t_dtor _ I0); destruct (_ && _); lia).
  unfold dtors in *. rewrite P, cnt_app in *. subst a1. pose proof (cnt_nonneg (isD o) (EDtorEnd u o :: a2)). lia.
Qed.
Print Assumptions C27_id_after_dtor.

(** An index is used for a new object only after the destructor of the earlier one has returned. *)
Theorem C27_index_reuse T s a t o r b t' o' r' : reachable T s -> s_tr s = a ++ ECreate t o r :: b -> In (ECreate t' o' r') a -> snd r = snd r' -> o' <> o /\ exists u, In (EDtorEnd u o') a.
Proof.
  intros R E P Q. apply reachable_reach in R. destruct (reach_split T s R _ _ _ E) as [s0 [l [s1 [d1 [d2 [ls [R0 [X [T1 [A [D [V RN]]]]]]]]]]]]. destruct D as [->|[? [? D]]]; [|discriminate D]. rewrite app_nil_r in A. subst a.
  destruct (reach_ok T s0 R0) as [_ [I0 _]]. destruct (t_cre _ I0 _ _ _ P) as [Ho' [OI NW]]. destruct V as [Ho [NN [_ V]]]. assert (N : o' <> o) by (intros ->; contradiction). split; [exact N|]. apply (t_rel _ I0 o' Ho'). apply V; auto. congruence.
Qed.
Print Assumptions C27_index_reuse.

(** An object whose destructor must run on the caller's side: the thread that runs it has called the deleting aosl_ref_destroy of it. *)
Theorem C27_caller_free T s a t o b : reachable T s -> s_tr s = a ++ EDtor t o :: b -> cfree (s_o s o) = true -> async (s_o s o) = false -> In (EDes t o true) a.
Proof.
  intros R E CF AS. apply reachable_reach in R. destruct (reach_split T s R _ _ _ E) as [s0 [l [s1 [d1 [d2 [ls [R0 [X [T1 [A [D [V RN]]]]]]]]]]]]. destruct D as [->|[? [? D]]]; [|discriminate D]. rewrite app_nil_r in A. subst a.
  destruct V as [Ho [Ht [U V]]]. assert (RN0 : run T (l :: ls) s0 = Some s) by (cbn [run]; rewrite X; exact RN). destruct (run_kept T _ _ _ R0 RN0) as [_ K]. destruct (K o Ho) as [K1 [K2 _]]. apply V; congruence.
Qed.
Print Assumptions C27_caller_free.

(** The life numbers of two creations differ unless 65535 objects are created from the one to the other. *)
Lemma life_at T s a t o r b : reach T s -> s_tr s = a ++ ECreate t o r :: b -> Z.of_nat (fst r) = 1 + cnt isC a mod 65535.
Proof.
  intros R E. destruct (reach_split T s R _ _ _ E) as [s0 [l [s1 [d1 [d2 [ls [R0 [X [T1 [A [D [V RN]]]]]]]]]]]]. destruct D as [->|[? [? D]]]; [|discriminate D]. rewrite app_nil_r in A. subst a. destruct V as [_ [_ [V _]]]. rewrite V. apply (c_l _ (reach_count T s0 R0)).
Qed.
Theorem C27_ids_differ T s a t o r b t' o' r' c : reachable T s -> s_tr s = a ++ ECreate t o r :: b ++ ECreate t' o' r' :: c -> cnt isC b < 65534 -> fst r <> fst r'.
Proof.
  intros R E C Q. apply reachable_reach in R. pose proof (life_at T s _ _ _ _ _ R E) as L1. assert (E' : s_tr s = (a ++ ECreate t o r :: b) ++ ECreate t' o' r' :: c) by (rewrite <- app_assoc; exact E). pose proof (life_at T s _ _ _ _ _ R E') as L2.
  rewrite Q, L2 in L1. rewrite cnt_app in L1. cbn [cnt isC] in L1. pose proof (cnt_nonneg isC b). pose proof (cnt_nonneg isC a).
  assert (M : (cnt isC a + (1 + cnt isC b)) mod 65535 = cnt isC a mod 65535) by lia. pose proof (Z.div_mod (cnt isC a + (1 + cnt isC b)) 65535 ltac:(lia)). pose proof (Z.div_mod (cnt isC a) 65535 ltac:(lia)).
  assert (K : (cnt isC a + (1 + cnt isC b)) / 65535 - cnt isC a / 65535 = 0 \/ (cnt isC a + (1 + cnt isC b)) / 65535 - cnt isC a / 65535 <= -1 \/ 1 <= (cnt isC a + (1 + cnt isC b)) / 65535 - cnt isC a / 65535) by lia. lia.
Qed.
Print Assumptions C27_ids_differ.
(** A reference to an object never finds another one, as long as fewer than 65535 objects were created since. *)
Theorem C27_stale_reference T s a t o r b o' : reachable T s -> s_tr s = a ++ ECreate t o r :: b -> cnt isC b < 65535 -> lookup s r = Some o' -> o' = o.
Proof.
  intros R E C L. pose proof R as R'. apply reachable_reach in R. destruct (reach_ok T s R) as [G [I _]]. destruct (lookup_inst _ _ _ (g_t _ _ G) L) as [Ho' [J OI]]. destruct (inst_created T s R o' Ho' J) as [t' P]. rewrite OI in P.
  rewrite E in P. apply in_app_or in P. destruct P as [P|[P|P]].
  - exfalso. destruct (C27_index_reuse T s a t o r b t' o' r R' E P eq_refl) as [_ [u D]]. apply in_split in D. destruct D as [a1 [a2 D]]. 
    assert (E2 : s_tr s = a1 ++ EDtorEnd u o' :: (a2 ++ ECreate t o r :: b)) by (rewrite E, D, <- app_assoc; reflexivity).
    destruct (reach_split T s R _ _ _ E2) as [s2 [l2 [s3 [e1 [e2 [ls2 [R2 [X2 [T2 [A2 [D2 [V2 RN]]]]]]]]]]]].
    assert (Z1 : 1 <= dtors o' (s_tr s2)) by (apply (dtor_zero T s2 o' R2); exact V2). assert (Z2 : 1 <= dtors o' (s_tr s)).
    { assert (RN0 : run T (l2 :: ls2) s2 = Some s) by (cbn [run]; rewrite X2; exact RN). destruct (step_run_tr T _ _ _ R2 RN0) as [es Y]. unfold dtors in *. rewrite Y, cnt_app. pose proof (cnt_nonneg (isD o') es). lia. }
    apply (dtor_zero T s o' R) in Z2. destruct Z2 as [_ Z2]. pose proof (g_obj _ _ G o' Ho') as H. rewrite J in H. pose proof (inst_use _ _ _ _ H). lia.
  - congruence.
  - exfalso. apply in_split in P. destruct P as [b1 [b2 P]]. rewrite P in E, C. apply (C27_ids_differ T s a t o r b1 t' o' r b2 R' E); [|reflexivity]. rewrite cnt_app in C. cbn [cnt isC] in C. pose proof (cnt_nonneg isC b2). lia.
Qed.
Print Assumptions C27_stale_reference.

(** ** C28: after aosl_ref_destroy. *)
Lemma desret_destroyed T s a t o del err b : reach T s -> s_tr s = a ++ EDesRet t o del err :: b -> err <> - AOSL_EINVAL ->
  exists s0 ls, reach T s0 /\ s_tr s0 = a /\ (o < s_next s0)%nat /\ destroyed (s_o s0 o) = true /\ run T ls s0 = Some s.
Proof.
  intros R E N. destruct (reach_split T s R _ _ _ E) as [s0 [l [s1 [d1 [d2 [ls [R0 [X [T1 [A [D [V RN]]]]]]]]]]]]. destruct D as [->|[? [? D]]]; [|discriminate D]. rewrite app_nil_r in A. subst a.
  destruct V as [Ho V]. destruct V as [[_ V]|V]; [|contradiction]. exists s0, (l :: ls). repeat (split; [auto|]). cbn [run]. rewrite X. exact RN.
Qed.
(** Once it has returned (and not with -EINVAL) no queue function, aosl_ref_read or aosl_ref_write callback of the object starts. *)
Theorem C28_none_starts T s a t o del err b : reachable T s -> s_tr s = a ++ EDesRet t o del err :: b -> err <> - AOSL_EINVAL -> forall u k, locked k -> ~ In (EBegin u o k) b.
Proof.
  intros R E N u k K P. apply reachable_reach in R. apply in_split in P. destruct P as [b1 [b2 P]]. rewrite P in E. assert (E' : s_tr s = (a ++ EDesRet t o del err :: b1) ++ EBegin u o k :: b2) by (rewrite <- app_assoc; exact E).
  destruct (reach_split T s R _ _ _ E') as [s2 [l2 [s3 [e1 [e2 [ls2 [R2 [X2 [T2 [A2 [D2 [V2 RN]]]]]]]]]]]]. destruct D2 as [->|[? [? D2]]]; [|discriminate D2]. rewrite app_nil_r in A2. symmetry in A2.
  destruct (desret_destroyed T s2 _ _ _ _ _ _ R2 A2 N) as [s0 [ls [R0 [T0 [Ho [DS RN0]]]]]]. destruct (run_kept T _ _ _ R0 RN0) as [_ KP]. destruct (KP o Ho) as [_ [_ [_ K4]]]. destruct V2 as [_ [_ V2]]. rewrite (K4 DS) in V2. discriminate (V2 K).
Qed.
Print Assumptions C28_none_starts.

(** At the time it returns none of them is running on any thread.  (The queue functions of an object created asynchronous are not covered: see below.) *)
Theorem C28_none_running T s a t o del err b : reachable T s -> s_tr s = a ++ EDesRet t o del err :: b -> err <> - AOSL_EINVAL -> forall u k, locked k -> (k = None -> async (s_o s o) = false) -> opens u o k a = 0.
Proof.
  intros R E N u k K AS. apply reachable_reach in R. destruct (desret_destroyed T s _ _ _ _ _ _ R E N) as [s0 [ls [R0 [T0 [Ho [DS RN0]]]]]]. destruct (run_kept T _ _ _ R0 RN0) as [_ KP]. destruct (KP o Ho) as [K1 _].
  rewrite <- T0, (opens_st T s0 u o k R0). destruct (reach_ok T s0 R0) as [G _]. destruct (Nat.ltb_spec u T) as [L|L]; [|unfold kof; rewrite (g_thr _ _ G u L); reflexivity].
  pose proof (g_obj _ _ G o Ho) as H. pose proof (runc_openc (s_o s0 o) o k (kof s0 o u) (v_wf _ _ _ _ _ H u L) K) as W. rewrite <- K1 in W. specialize (W AS). rewrite (v_des _ _ _ _ _ H DS u L) in W. pose proof (csum_nonneg (runc o k) (kof s0 o u) (runc_nn o k)). lia.
Qed.
Print Assumptions C28_none_running.

(** After a deleting aosl_ref_destroy has returned, whatever it returned, no reference finds the object. *)
Lemma desret_top T l s s' t o del err es : GInv T s -> exec T l s = Some s' -> s_tr s' = s_tr s ++ es -> In (EDesRet t o del err) es -> exists g k, s_stk s t = FDes o del g DRet err :: k.
Proof.
  intros G E. unfold exec in E. destruct (s_fail s) eqn:F0; [discriminate E|].
  assert (NO : forall es0 : list ev, s_tr s' = s_tr s ++ es0 -> ~ In (EDesRet t o del err) es0 -> s_tr s' = s_tr s ++ es -> In (EDesRet t o del err) es -> exists g k, s_stk s t = FDes o del g DRet err :: k).
  { intros es0 X N Y P. rewrite X in Y. apply app_inv_head in Y. subst es0. contradiction. }
  destruct l as [u c|u|u].
  - destruct (_ && _) in E; [|discriminate E]. destruct c as [k r|p|r|r d|i a rc cf]; cbn [do_call] in E; try (destruct (lookup s r) as [p|]); try (destruct (gone (s_o s p))); try (destruct (onq p _)); try (destruct (_ && _) in E); try discriminate E; injection E as <-; first [apply (NO []); [cbn; rewrite ?app_nil_r; reflexivity|intros []]|eapply NO; [reflexivity|cbn; intuition discriminate]].
  - unfold do_end in E. destruct (s_stk s u) as [|[p nr k h st e|p lkd st rf id| |p d g st e|p st|p] k0]; try discriminate E; try (destruct st; try discriminate E); injection E as <-; eapply NO; try reflexivity; cbn; intuition discriminate.
  - unfold do_step in E. destruct (s_stk s u) as [|x k0] eqn:Hs; [discriminate E|].
    assert (Ht : (u < T)%nat) by (destruct (Nat.ltb_spec u T) as [|Lt]; [assumption|]; rewrite (g_thr _ _ G u Lt) in Hs; discriminate Hs).
    assert (MAIN : forall p, about p x = true -> (if touches x && gone (s_o s p) then Some (fail s Uaf) else apply s u p k0 (lstep u p (s_o s p) (inst s p) x k0)) = Some s' -> s_tr s' = s_tr s ++ es -> In (EDesRet t o del err) es -> exists g k, s_stk s t = FDes o del g DRet err :: k).
    { intros p A E'. assert (Ho : (p < s_next s)%nat) by (apply (g_fresh _ _ G u x p); [rewrite Hs; left; reflexivity|exact A]).
      assert (Hk : kof s p u = x :: proj p k0) by (unfold kof; rewrite Hs; apply proj_cons, A).
      destruct (_ && _) in E'; [injection E' as <-; apply (NO []); [cbn; rewrite app_nil_r; reflexivity|intros []]|]. assert (Q : onq p k0 = onq p (proj p k0)) by (symmetry; apply onq_proj). rewrite (lstep_below _ _ _ _ _ _ _ Q) in E'.
      destruct (lstep u p (s_o s p) (inst s p) x (proj p k0)) as [|f|r' i' fs es0] eqn:LS; cbn [apply] in E'; [discriminate E'|injection E' as <-; apply (NO []); [cbn; rewrite app_nil_r; reflexivity|intros []]|].
      pose proof (step_ev _ _ _ _ _ _ _ _ _ _ _ _ (g_obj _ _ G p Ho) Ht Hk A LS) as EV. injection E' as <-. unfold set_inst. intros Y P. assert (es = es0) by (destruct (Bool.eqb _ _) in Y; [|destruct i']; cbn in Y; apply app_inv_head in Y; auto). subst es0.
      destruct (y_ev _ _ _ _ _ _ _ _ _ EV _ P) as [-> [-> [g ->]]]. exists g, k0. exact Hs. }
    destruct x as [p nr k h st e|p lkd st rf id| |p d g st e|p st|p]; try discriminate E; try (apply (MAIN p); [cbn; apply Nat.eqb_refl|exact E]).
    + destruct st; try discriminate E; destruct (_ && _) in E; injection E as <-; first [apply (NO []); [cbn; rewrite ?app_nil_r; reflexivity|intros []]|eapply NO; [reflexivity|cbn; intuition discriminate]].
    + destruct (_ && _) in E; injection E as <-; [apply (NO []); [cbn; rewrite app_nil_r; reflexivity|intros []]|]. unfold install in NO |- *. destruct (s_tab s _); [apply (NO []); [cbn; rewrite app_nil_r; reflexivity|intros []]|]. eapply NO; [reflexivity|cbn; intuition discriminate].
Qed.
Lemma uninst_run T ls s s' o t : reach T s -> run T ls s = Some s' -> (o < s_next s)%nat -> In (EDes t o true) (s_tr s) -> inst s o = false -> inst s' o = false.
Proof.
  revert s. induction ls as [|l ls IH]; cbn [run]; intros s R E Ho D J; [congruence|]. destruct (exec T l s) as [s1|] eqn:X; [|discriminate E]. destruct (reach_ok T s R) as [G [I _]]. destruct (exec_info T l s s1 G I X) as [N _]. destruct (exec_tr T l s s1 R X) as [es Y].
  apply (IH s1); [econstructor; eassumption|exact E|lia|rewrite Y; apply in_or_app; auto|]. destruct (inst s1 o) eqn:J1; [|reflexivity]. exfalso. destruct (inst_back T l s s1 o G X ltac:(lia) J1) as [[_ [B _]]|[u [_ B]]]; [congruence|]. apply B. apply (t_new _ I _ _ _ D).
Qed.
Theorem C28_not_found T s a t o err b r : reachable T s -> s_tr s = a ++ EDesRet t o true err :: b -> lookup s r <> Some o.
Proof.
  intros R E L. apply reachable_reach in R. destruct (reach_ok T s R) as [G [I _]]. destruct (lookup_inst _ _ _ (g_t _ _ G) L) as [_ [J _]].
  destruct (reach_split T s R _ _ _ E) as [s0 [l [s1 [d1 [d2 [ls [R0 [X [T1 [A [D [V RN]]]]]]]]]]]]. destruct D as [->|[? [? D]]]; [|discriminate D]. destruct (reach_ok T s0 R0) as [G0 [I0 _]]. cbn [app] in T1.
  destruct (desret_top T l s0 s1 t o true err _ G0 X T1 (or_introl eq_refl)) as [g [k HS]]. assert (P : In (EDes t o true) (s_tr s0)) by (apply (t_des _ I0 t o true g DRet err); rewrite HS; left; reflexivity).
  destruct V as [Ho _]. assert (J0 : inst s0 o = false).
  { destruct (t_unin _ I0 _ _ P) as [[g' [st [e [Q EY]]]]|J0]; [|exact J0]. exfalso. rewrite HS in Q. destruct Q as [Q|Q]; [injection Q; intros; subst; destruct EY; discriminate|]. pose proof (g_below _ _ G0 t) as B. rewrite HS in B. cbn [tl] in B. rewrite Forall_forall in B. specialize (B _ Q). destruct EY; subst st; contradiction B. }
  assert (RN0 : run T (l :: ls) s0 = Some s) by (cbn [run]; rewrite X; exact RN). pose proof (uninst_run T _ _ _ o t R0 RN0 Ho P J0). congruence.
Qed.
Print Assumptions C28_not_found.

(** Every function a queue takes starts exactly once, with the live object or with the release-only marker. *)
Theorem C28_runs_once T s t : reachable T s -> s_stk s t = [] -> cnt (isQ t) (s_tr s) = cnt (isBN t) (s_tr s) + cnt (isM t) (s_tr s).
Proof. intros R E. apply reachable_reach in R. rewrite (c_q _ (reach_count T s R)), E. cbn [csum]. lia. Qed.
Print Assumptions C28_runs_once.

(** The marker is given only if aosl_ref_destroy was called for an object of this reference, or there never was one. *)
Definition isCr (r : ref) (e : ev) : bool := match e with ECreate _ _ r' => (fst r' =? fst r)%nat && (snd r' =? snd r)%nat | _ => false end.
Theorem C28_marker_reason T s a t r b : reachable T s -> s_tr s = a ++ EMark t r :: b -> (exists t' o u del, In (ECreate t' o r) a /\ In (EDes u o del) a) \/ (forall t' o, ~ In (ECreate t' o r) a).
Proof.
  intros R E. apply reachable_reach in R. destruct (reach_split T s R _ _ _ E) as [s0 [l [s1 [d1 [d2 [ls [R0 [X [T1 [A [D [V RN]]]]]]]]]]]]. destruct (reach_ok T s0 R0) as [G0 [I0 _]].
  assert (SUB : forall e, In e (s_tr s0) -> In e a) by (intros e P; rewrite A; apply in_or_app; auto).
  destruct (mark_back T l s0 s1 _ t r G0 X T1) as [L|[o [lkd [P Ht]]]]; [apply in_or_app; right; left; reflexivity| |].
  - destruct (Z.le_gt_cases 1 (cnt (isCr r) (s_tr s0))) as [C|C].
    + left. apply cnt_in in C. destruct C as [e [P Q]]. destruct e as [t' o r'| | | | | | | | | | |]; try discriminate Q. cbn [isCr] in Q. apply andb_true_iff in Q. destruct Q as [Q1 Q2]. apply Nat.eqb_eq in Q1. apply Nat.eqb_eq in Q2.
      assert (r' = r) by (destruct r, r'; cbn in *; congruence). subst r'. destruct (t_cre _ I0 _ _ _ P) as [Ho [OI NW]].
      assert (J : inst s0 o = false). { destruct (inst s0 o) eqn:J; [|reflexivity]. apply inst_tab in J. rewrite OI in J. unfold lookup in L. rewrite J, OI, !Nat.eqb_refl in L. discriminate L. }
      destruct (t_inst _ I0 o Ho J NW) as [u Q]. exists t', o, u, true. auto.
    + right. intros t' o P. assert (P0 : In (ECreate t' o r) (s_tr s0)).
      { rewrite A in P. apply in_app_or in P. destruct P as [P|P]; [exact P|]. exfalso. destruct (exec_info T l s0 s1 G0 I0 X) as [_ [_ [es [Y [_ SH]]]]]. rewrite T1 in Y. apply app_inv_head in Y. subst es. destruct SH as [SH|[u [r0 SH]]].
        - rewrite app_length in SH. cbn in SH. destruct d1; [contradiction P|cbn in SH; lia].
        - destruct d1 as [|x [|y d1]]; [contradiction P| |destruct d1; discriminate SH]. destruct P as [P|[]]. cbn in SH. congruence. }
      pose proof (cnt_pos (isCr r) _ _ P0) as W. cbn [isCr] in W. rewrite !Nat.eqb_refl in W. specialize (W eq_refl). lia.
  - left. destruct (q_created T s0 R0 _ _ _ _ _ _ P) as [t' Q]. assert (Ho : (o < s_next s0)%nat) by (apply (g_fresh _ _ G0 t _ o P); cbn; apply Nat.eqb_refl).
    assert (DS : destroyed (s_o s0 o) = true).
    { pose proof (v_wf _ _ _ _ _ (g_obj _ _ G0 o Ho) t Ht) as W. assert (P' : In (FQ o lkd SRet true r) (kof s0 o t)) by (apply in_proj; [exact P|cbn; apply Nat.eqb_refl]). revert W P'. generalize (kof s0 o t). induction l0 as [|x k IH]; [intros _ []|]. cbn [wfs]. intros [W1 W2] [->|P']; [|auto]. cbn [wfx] in W1. destruct W1 as [W1 _]. apply W1. reflexivity. }
    destruct (t_dest _ I0 o Ho DS) as [u [del Z0]]. exists t', o, u, del. auto.
Qed.
Print Assumptions C28_marker_reason.

(** ** C29: the lock. *)
(** While a thread runs an aosl_ref_write callback of the object no other thread runs a read or write callback of it, or a queue function of it with its lock. *)
Theorem C29_exclusion T s t o u k : reachable T s -> 1 <= opens t o (Some Write) (s_tr s) -> u <> t -> locked k -> (k = None -> async (s_o s o) = false) -> opens u o k (s_tr s) = 0.
Proof.
  intros R W N K AS. apply reachable_reach in R. destruct (reach_ok T s R) as [G _]. rewrite (opens_st T s t o (Some Write) R) in W.
  assert (Ho : (o < s_next s)%nat). { destruct (Nat.ltb_spec o (s_next s)) as [|L]; [assumption|]. pose proof (beyond T s t o (Some Write) R L) as B. rewrite runc_proj in B. unfold kof in W. lia. }
  assert (Lt : (t < T)%nat). { destruct (Nat.ltb_spec t T) as [|L]; [assumption|]. unfold kof in W. rewrite (g_thr _ _ G t L) in W. cbn in W. lia. }
  rewrite (opens_st T s u o k R). destruct (Nat.ltb_spec u T) as [Lu|L]; [|unfold kof; rewrite (g_thr _ _ G u L); reflexivity].
  pose proof (g_obj _ _ G o Ho) as H. pose proof (v_wf _ _ _ _ _ H t Lt) as WT. pose proof (v_wf _ _ _ _ _ H u Lu) as WU.
  assert (WR : 1 <= csum wrw (kof s o t)).
  { revert WT W. generalize (kof s o t). induction l as [|x l IH]; cbn [wfs csum]; [lia|]. intros [W1 W2] Q. pose proof (csum_nonneg wrw l wrw_nn). pose proof (wrw_nn x). destruct (Z.eq_dec (runc o (Some Write) x) 0) as [Z0|Z0]; [specialize (IH W2 ltac:(lia)); lia|].
    assert (wrw x = 1); [|lia]. destruct x as [p nr kd h st e|p lkd st rf id| | | |]; try (cbn in Z0; lia).
    - destruct st; try (cbn in Z0; lia). cbn [runc] in Z0. destruct kd; cbn [keqb] in Z0; rewrite ?andb_false_r in Z0; try lia. cbn [wfx] in W1. destruct W1 as [_ [_ [[X _]|[[X _]|[[X _]|[[_ ->]|[_ [-> _]]]]]]]]; try discriminate X; reflexivity.
    - destruct st; try (cbn in Z0; lia). cbn [runc] in Z0. rewrite keqb_ns, andb_false_r in Z0. lia. }
  pose proof (sumT_two T (fun v => csum lkw (kof s o v)) t u Lt Lu (not_eq_sym N) (fun v => csum_nonneg lkw _ lkw_nn)) as L2. cbn beta in L2. pose proof (v_lk _ _ _ _ _ H) as VL. pose proof (wrw_lkw (kof s o t)).
  assert (LT : b2z (lk (s_o s o)) <= 1) by (destruct (lk (s_o s o)); cbn; lia). pose proof (csum_nonneg lkw (kof s o u) lkw_nn) as L3. assert (LU : csum lkw (kof s o u) = 0) by lia.
  pose proof (sumT_ge T (fun v => csum wrw (kof s o v)) t Lt (fun v => csum_nonneg wrw _ wrw_nn)) as L4. cbn beta in L4. pose proof (v_wr _ _ _ _ _ H) as VW.
  assert (WT' : writer (s_o s o) = true) by (destruct (writer (s_o s o)); [reflexivity|cbn [b2z] in VW; lia]). pose proof (v_ex _ _ _ _ _ H WT') as RD. rewrite (v_rd _ _ _ _ _ H) in RD.
  assert (TN : forall v, (v < T)%nat -> 0 <= thr (kof s o v)).
  { intros v Lv. apply (thr_nonneg (s_o s o) o); [exact (v_wf _ _ _ _ _ H v Lv)|]. pose proof (sumT_ge T (fun v => csum lkw (kof s o v)) v Lv (fun v => csum_nonneg lkw _ lkw_nn)) as L5. cbn beta in L5. lia. }
  assert (TU : thr (kof s o u) = 0).
  { pose proof (TN u Lu). assert (thr (kof s o u) <= sumT T (fun v => thr (kof s o v))); [|lia]. revert Lu TN. clear. induction T as [|n IH]; intros Lu TN; [lia|]. cbn [sumT].
    assert (S0 : forall m, (m <= S n)%nat -> 0 <= sumT m (fun v => thr (kof s o v))) by (induction m as [|m IHm]; intros Hm; cbn [sumT]; [lia|]; specialize (TN m ltac:(lia)); specialize (IHm ltac:(lia)); lia).
    destruct (Nat.eq_dec u n) as [->|D]; [specialize (S0 n ltac:(lia)); lia|]. pose proof (TN n ltac:(lia)). specialize (IH ltac:(lia) ltac:(intros v Lv; apply TN; lia)). lia. }
  unfold thr in TU. pose proof (raw_nonneg (s_o s o) o (kof s o u) WU ltac:(lia)). pose proof (csum_nonneg rdc (kof s o u) rdc_nn).
  destruct (Z.ltb_spec 0 (csum rdc (kof s o u))) as [Q|Q]; [lia|]. pose proof (closed (s_o s o) o (kof s o u) WU ltac:(lia) LU ltac:(lia)) as CL.
  pose proof (runc_openc (s_o s o) o k (kof s o u) WU K AS) as RO. pose proof (csum_nonneg (runc o k) (kof s o u) (runc_nn o k)). lia.
Qed.
Print Assumptions C29_exclusion.

(** An operation that does not return 0 returns -EPERM, after aosl_ref_destroy was called for the object. *)
Theorem C29_refused T s a t o k err b : reachable T s -> s_tr s = a ++ ERet t o k err :: b -> err <> 0 -> err = - AOSL_EPERM /\ exists u del, In (EDes u o del) a.
Proof.
  intros R E N. apply reachable_reach in R. destruct (reach_split T s R _ _ _ E) as [s0 [l [s1 [d1 [d2 [ls [R0 [X [T1 [A [D [V RN]]]]]]]]]]]]. destruct D as [->|[? [? D]]]; [|discriminate D]. rewrite app_nil_r in A. subst a.
  destruct V as [Ho V]. destruct (V N) as [V1 V2]. split; [exact V1|]. destruct (reach_ok T s0 R0) as [_ [I0 _]]. exact (t_dest _ I0 o Ho V2).
Qed.
Print Assumptions C29_refused.

(** A return value of 0 means that the callback has run: when a thread is in no call its returns with 0, its callbacks begun and its callbacks ended are equally many. *)
Theorem C29_ok_means_ran T s t o k : reachable T s -> s_stk s t = [] -> cnt (isOk t o k) (s_tr s) = cnt (isB t o (Some k)) (s_tr s) /\ cnt (isB t o (Some k)) (s_tr s) = cnt (isE t o (Some k)) (s_tr s).
Proof.
  intros R E. apply reachable_reach in R. pose proof (c_r _ (reach_count T s R) t o k) as C. rewrite E in C. cbn [csum] in C. destruct (reach_ok T s R) as [_ [I _]]. pose proof (t_open _ I t o (Some k)) as O. rewrite E in O. unfold opens in O. cbn [csum] in O. lia.
Qed.
Print Assumptions C29_ok_means_ran.

(** After aosl_ref_destroy has returned, the aosl_ref_read and aosl_ref_write calls return -EPERM, except those whose callback had started before. *)
Lemma begun_nn o k x : 0 <= begun o k x.
Proof. destruct x as [p ? kd ? st e| | | | |]; cbn [begun]; try lia. destruct (_ && _); [|lia]. destruct st; try lia; destruct (e =? 0); lia. Qed.
Theorem C29_refused_after_destroy T s a t o del err b : reachable T s -> s_tr s = a ++ EDesRet t o del err :: b -> err <> - AOSL_EINVAL ->
  forall u k e, k <> Hold -> cnt (isB u o (Some k)) a = cnt (isOk u o k) a -> In (ERet u o k e) b -> e = - AOSL_EPERM.
Proof.
  intros R E N u k e K C P. destruct (Z.eq_dec e 0) as [->|Ne].
  - exfalso. assert (KL : locked (Some k)) by (unfold locked; congruence). pose proof (C28_none_starts T s a t o del err b R E N u (Some k) KL) as NB. apply reachable_reach in R. pose proof (c_r _ (reach_count T s R) u o k) as CR. rewrite E, !cnt_app in CR. cbn [cnt isB isOk] in CR.
    pose proof (csum_nonneg (begun o k) (s_stk s u) (begun_nn o k)). assert (B0 : cnt (isB u o (Some k)) b = 0).
    { destruct (Z.le_gt_cases 1 (cnt (isB u o (Some k)) b)) as [Q|Q]; [|pose proof (cnt_nonneg (isB u o (Some k)) b); lia]. exfalso. apply cnt_in in Q. destruct Q as [x [Q1 Q2]]. destruct x as [| |t' o' k'| | | | | | | | |]; try discriminate Q2. cbn [isB] in Q2.
      apply andb_true_iff in Q2. destruct Q2 as [Q2 Q3]. apply andb_true_iff in Q2. destruct Q2 as [Q2 Q4]. apply Nat.eqb_eq in Q2. apply Nat.eqb_eq in Q4. subst t' o'. assert (k' = Some k) by (destruct k' as [[]|], k; cbn in Q3; congruence). subst k'. exact (NB Q1). }
    pose proof (cnt_pos (isOk u o k) b (ERet u o k 0) P) as W. cbn [isOk] in W. rewrite !Nat.eqb_refl, keqb_refl in W. specialize (W eq_refl). lia.
  - apply in_split in P. destruct P as [b1 [b2 P]]. rewrite P in E. apply (C29_refused T s (a ++ EDesRet t o del err :: b1) u o k e b2 R); [rewrite <- app_assoc; exact E|exact Ne].
Qed.
Print Assumptions C29_refused_after_destroy.

(** ** C29: nothing stays locked. *)
Lemma fupd_same {A} (f : nat -> A) k v : fupd f k v k = v.
Proof. unfold fupd. rewrite Nat.eqb_refl. reflexivity. Qed.
Lemma op_go T s t o nr k h st e l r i fs es : s_fail s = None -> s_stk s t = FOp o nr k h st e :: l -> gone (s_o s o) = false ->
  op_step t o (s_o s o) (inst s o) nr k h st e l = Go r i fs es ->
  exists s', exec T (LStep t) s = Some s' /\ s_stk s' t = fs ++ l /\ s_o s' o = r /\ s_tr s' = s_tr s ++ es /\ s_fail s' = None.
Proof.
  intros F K GN P. eexists. unfold exec. rewrite F. unfold do_step. rewrite K, GN, andb_false_r, P. cbn [apply]. split; [reflexivity|]. unfold set_stk, set_o, set_inst. cbn [s_stk s_o s_tr s_fail].
  rewrite !fupd_same. destruct (Bool.eqb _ _); [auto|]. destruct i; cbn [s_stk s_o s_tr s_fail]; auto.
Qed.
Lemma op_call T s t o k r : reach T s -> s_fail s = None -> (t < T)%nat -> at_user (s_stk s t) = true -> lookup s r = Some o ->
  exists s', exec T (LCall t (COp k r)) s = Some s' /\ s_stk s' t = FOp o false k HNo SGot 0 :: s_stk s t /\ s_o s' o = get t (s_o s o) true /\ gone (s_o s o) = false /\ s_tr s' = s_tr s /\ s_fail s' = None.
Proof.
  intros R F L A K. destruct (exec T (LCall t (COp k r)) s) as [s'|] eqn:X; revert X; unfold exec; rewrite F, A, (proj2 (Nat.ltb_lt t T) L); cbn [andb do_call]; rewrite K; destruct (gone (s_o s o)) eqn:GN; try discriminate; intros X.
  - exfalso. assert (X' : exec T (LCall t (COp k r)) s = Some (fail s Uaf)) by (unfold exec; rewrite F, A, (proj2 (Nat.ltb_lt t T) L); cbn [andb do_call]; rewrite K, GN; reflexivity).
    destruct (reach_ok T _ (reach_step T s _ _ R X')) as [_ [_ [Q|Q]]]; discriminate Q.
  - injection X as <-. exists (set_stk (set_o s o (get t (s_o s o) true)) t (FOp o false k HNo SGot 0 :: s_stk s t) []). unfold set_stk, set_o. cbn [s_stk s_o s_tr s_fail]. rewrite !fupd_same, app_nil_r. repeat (split; [reflexivity|]). exact F.
Qed.
Lemma get_fields t r b : lc (get t r b) = lc r /\ readers (get t r b) = readers r /\ writer (get t r b) = writer r /\ lk (get t r b) = lk r /\ destroyed (get t r b) = destroyed r /\ recur (get t r b) = recur r /\ async (get t r b) = async r /\ gone (get t r b) = gone r.
Proof. unfold get. destruct (b && _); repeat split; reflexivity. Qed.
(** However calls were nested before, when none is under way the next aosl_ref_hold, aosl_ref_read or aosl_ref_write starts its callback without waiting for anything. *)
Theorem C29_balanced T s t o r k : reachable T s -> s_fail s = None -> quiet s -> (t < T)%nat -> lookup s r = Some o -> destroyed (s_o s o) = false ->
  exists n s', run T (LCall t (COp k r) :: repeat (LStep t) n) s = Some s' /\ s_tr s' = s_tr s ++ [EBegin t o (Some k)].
Proof.
  intros R F Q L K DS. apply reachable_reach in R. destruct (reach_ok T s R) as [G [I _]]. destruct (lookup_inst _ _ _ (g_t _ _ G) K) as [Ho _]. pose proof (g_obj _ _ G o Ho) as H.
  assert (K0 : forall u, kof s o u = []) by (intros u; unfold kof; rewrite (Q u); reflexivity).
  assert (RD : readers (s_o s o) = 0) by (rewrite (v_rd _ _ _ _ _ H); apply sumT_zero; intros u; rewrite K0; reflexivity).
  assert (WR : writer (s_o s o) = false) by (pose proof (v_wr _ _ _ _ _ H) as V; rewrite (quiet_sums T s o _ Q) in V; destruct (writer (s_o s o)); [discriminate V|reflexivity]).
  assert (LK : lk (s_o s o) = false) by (pose proof (v_lk _ _ _ _ _ H) as V; rewrite (quiet_sums T s o _ Q) in V; destruct (lk (s_o s o)); [discriminate V|reflexivity]).
  assert (LC : lc (s_o s o) t = LRd 0) by (rewrite (v_lc _ _ _ _ _ H t L), K0; reflexivity).
  assert (A : at_user (s_stk s t) = true) by (rewrite (Q t); reflexivity).
  destruct (op_call T s t o k r R F L A K) as [s1 [X1 [S1 [O1 [GN [T1 F1]]]]]]. rewrite (Q t) in S1. destruct (get_fields t (s_o s o) true) as [G1 [G2 [G3 [G4 [G5 [G6 [G7 G8]]]]]]]. rewrite <- O1 in G1, G2, G3, G4, G5, G6, G7, G8. rewrite GN in G8.
  destruct k.
  - destruct (op_go T s1 t o _ _ _ _ _ _ _ _ _ _ F1 S1 G8 eq_refl) as [s2 [X2 [S2 [O2 [T2 F2]]]]]. exists 1%nat, s2. cbn [repeat run]. rewrite X1, X2. split; [reflexivity|congruence].
  - assert (P : op_step t o (s_o s1 o) (inst s1 o) false Read HNo SGot 0 [] = Go (set_lc (set_lock (s_o s1 o) (readers (s_o s1 o) + 1) false (lk (s_o s1 o))) t (LRd 1)) (inst s1 o) [FOp o false Read HRd SLocked 0] []) by (cbn [op_step onq existsb andb]; rewrite G1, G3, WR, LC; cbn; rewrite andb_false_r; reflexivity).
    destruct (op_go T s1 t o _ _ _ _ _ _ _ _ _ _ F1 S1 G8 P) as [s2 [X2 [S2 [O2 [T2 F2]]]]]. cbn [app] in S2. assert (G9 : gone (s_o s2 o) = false) by (rewrite O2; exact G8). assert (D9 : destroyed (s_o s2 o) = false) by (rewrite O2; cbn; congruence).
    assert (P2 : op_step t o (s_o s2 o) (inst s2 o) false Read HRd SLocked 0 [] = Go (s_o s2 o) (inst s2 o) [FOp o false Read HRd SRun 0] [EBegin t o (Some Read)]) by (cbn [op_step]; rewrite D9; reflexivity).
    destruct (op_go T s2 t o _ _ _ _ _ _ _ _ _ _ F2 S2 G9 P2) as [s3 [X3 [S3 [O3 [T3 F3]]]]]. exists 2%nat, s3. cbn [repeat run]. rewrite X1, X2, X3. split; [reflexivity|]. rewrite T3, T2, T1, app_nil_r. reflexivity.
  - assert (P : op_step t o (s_o s1 o) (inst s1 o) false Write HNo SGot 0 [] = Go (set_lc (set_lock (s_o s1 o) 0 true true) t LWr) (inst s1 o) [FOp o false Write HWr SLocked 0] []) by (cbn [op_step onq existsb andb]; rewrite G1, G2, G3, G4, WR, LK, RD, LC; reflexivity).
    destruct (op_go T s1 t o _ _ _ _ _ _ _ _ _ _ F1 S1 G8 P) as [s2 [X2 [S2 [O2 [T2 F2]]]]]. cbn [app] in S2. assert (G9 : gone (s_o s2 o) = false) by (rewrite O2; exact G8). assert (D9 : destroyed (s_o s2 o) = false) by (rewrite O2; cbn; congruence).
    assert (P2 : op_step t o (s_o s2 o) (inst s2 o) false Write HWr SLocked 0 [] = Go (s_o s2 o) (inst s2 o) [FOp o false Write HWr SRun 0] [EBegin t o (Some Write)]) by (cbn [op_step]; rewrite D9; reflexivity).
    destruct (op_go T s2 t o _ _ _ _ _ _ _ _ _ _ F2 S2 G9 P2) as [s3 [X3 [S3 [O3 [T3 F3]]]]]. exists 2%nat, s3. cbn [repeat run]. rewrite X1, X2, X3. split; [reflexivity|]. rewrite T3, T2, T1, app_nil_r. reflexivity.
Qed.
Print Assumptions C29_balanced.

(** In a recursive object, a thread that runs an aosl_ref_read callback starts a nested one without waiting and is never refused, whatever the other threads do. *)
Lemma read_frame r o l : wfs r o l -> 1 <= csum (runc o (Some Read)) l -> (onq o l && negb (async r) = true \/ 1 <= csum rdc l) /\ 1 <= csum openc l.
Proof.
  induction l as [|x l IH]; cbn [wfs csum onq existsb]; [lia|]. intros [W1 W2] Q. pose proof (csum_nonneg rdc l rdc_nn). pose proof (rdc_nn x). pose proof (csum_nonneg openc l openc_nn). pose proof (openc_nn x).
  destruct (Z.eq_dec (runc o (Some Read) x) 0) as [Z0|Z0].
  - destruct (IH W2 ltac:(lia)) as [[A|A] B]; split; try lia. left. unfold onq in A. destruct (existsb (onq1 o) l); [rewrite orb_true_r; exact A|discriminate A].
  - destruct x as [p nr kd h st e|p lkd st rf id| | | |]; try (cbn in Z0; lia).
    + destruct st; try (cbn in Z0; lia). destruct kd; cbn [runc keqb] in Z0; rewrite ?andb_false_r in Z0; try lia. cbn [openc]. split; [|lia]. cbn [wfx] in W1. destruct W1 as [_ [_ [[X _]|[[_ [_ [A C]]]|[[_ [-> _]]|[[X _]|[X _]]]]]]]; try discriminate X.
      * left. unfold onq in A. rewrite A, C, orb_true_r. reflexivity.
      * right. cbn [rdc] in *. lia.
    + destruct st; cbn [runc] in Z0; rewrite ?keqb_ns, ?andb_false_r in Z0; lia.
Qed.
Theorem C29_recursive_read T s t o r : reachable T s -> s_fail s = None -> (t < T)%nat -> at_user (s_stk s t) = true -> lookup s r = Some o -> recur (s_o s o) = true -> 1 <= opens t o (Some Read) (s_tr s) ->
  exists n s', run T (LCall t (COp Read r) :: repeat (LStep t) n) s = Some s' /\ s_tr s' = s_tr s ++ [EBegin t o (Some Read)].
Proof.
  intros R F L A K RC OR. apply reachable_reach in R. destruct (reach_ok T s R) as [G [I _]]. destruct (lookup_inst _ _ _ (g_t _ _ G) K) as [Ho _]. pose proof (g_obj _ _ G o Ho) as H.
  rewrite (opens_st T s t o _ R) in OR. destruct (read_frame (s_o s o) o (kof s o t) (v_wf _ _ _ _ _ H t L) OR) as [RD OP].
  assert (DS : destroyed (s_o s o) = false) by (destruct (destroyed (s_o s o)) eqn:D; [rewrite (v_des _ _ _ _ _ H D t L) in OP; lia|reflexivity]).
  destruct (op_call T s t o Read r R F L A K) as [s1 [X1 [S1 [O1 [GN [T1 F1]]]]]]. destruct (get_fields t (s_o s o) true) as [G1 [G2 [G3 [G4 [G5 [G6 [G7 G8]]]]]]]. rewrite <- O1 in G1, G2, G3, G4, G5, G6, G7, G8. rewrite GN in G8.
  destruct (onq o (s_stk s t) && negb (async (s_o s o))) eqn:NL.
  - assert (P : op_step t o (s_o s1 o) (inst s1 o) false Read HNo SGot 0 (s_stk s t) = Go (s_o s1 o) (inst s1 o) [FOp o false Read HNo SRun 0] [EBegin t o (Some Read)]) by (cbn [op_step]; rewrite G7, NL; reflexivity).
    destruct (op_go T s1 t o _ _ _ _ _ _ _ _ _ _ F1 S1 G8 P) as [s2 [X2 [S2 [O2 [T2 F2]]]]]. exists 1%nat, s2. cbn [repeat run]. rewrite X1, X2. split; [reflexivity|congruence].
  - destruct RD as [RD|RD]; [unfold kof in RD; rewrite onq_proj in RD; congruence|].
    pose proof (v_lc _ _ _ _ _ H t L) as LC. destruct (v_lc2 _ _ _ _ _ H t L) as [_ LC2]. destruct (Z.ltb_spec 0 (csum wlc (kof s o t))) as [W|W]; [specialize (LC2 W); lia|].
    destruct (Z.to_nat (csum rdc (kof s o t))) as [|n] eqn:N; [lia|].
    assert (P : op_step t o (s_o s1 o) (inst s1 o) false Read HNo SGot 0 (s_stk s t) = Go (set_lc (s_o s1 o) t (LRd (S (S n)))) (inst s1 o) [FOp o false Read HRd SLocked 0] []) by (cbn [op_step]; rewrite G7, NL, G1, LC, G6, RC; reflexivity).
    destruct (op_go T s1 t o _ _ _ _ _ _ _ _ _ _ F1 S1 G8 P) as [s2 [X2 [S2 [O2 [T2 F2]]]]]. cbn [app] in S2. assert (G9 : gone (s_o s2 o) = false) by (rewrite O2; exact G8). assert (D9 : destroyed (s_o s2 o) = false) by (rewrite O2; cbn; congruence).
    assert (P2 : op_step t o (s_o s2 o) (inst s2 o) false Read HRd SLocked 0 (s_stk s t) = Go (s_o s2 o) (inst s2 o) [FOp o false Read HRd SRun 0] [EBegin t o (Some Read)]) by (cbn [op_step]; rewrite D9; reflexivity).
    destruct (op_go T s2 t o _ _ _ _ _ _ _ _ _ _ F2 S2 G9 P2) as [s3 [X3 [S3 [O3 [T3 F3]]]]]. exists 2%nat, s3. cbn [repeat run]. rewrite X1, X2, X3. split; [reflexivity|]. rewrite T3, T2, T1, app_nil_r. reflexivity.
Qed.
Print Assumptions C29_recursive_read.

(** ** C29: the aborts. *)
Lemma open_rd r o l : wfs r o l -> allab o l -> Forall below_ok l -> 1 <= csum rdc l -> 1 <= csum (runc o (Some Read)) l.
Proof.
  induction l as [|x l IH]; cbn [wfs csum]; [lia|]. intros [W1 W2] A B Q. inversion A as [|? ? A1 A2]; subst. inversion B as [|? ? B1 B2]; subst. specialize (IH W2 A2 B2). pose proof (csum_nonneg (runc o (Some Read)) l (runc_nn o _)). pose proof (runc_nn o (Some Read) x).
  destruct (Z.eq_dec (rdc x) 0) as [Z0|Z0]; [pose proof (csum_nonneg rdc l rdc_nn); lia|]. destruct x as [p nr kd h st e| | | | |]; try (cbn in Z0; lia). destruct h; try (cbn in Z0; lia). destruct st; try (cbn in Z0; lia); try contradiction B1.
  cbn [wfx] in W1. destruct W1 as [_ [_ [[_ X]|[[_ [X _]]|[[-> _]|[[_ X]|[_ [X _]]]]]]]]; try discriminate X. cbn [runc about] in *. rewrite A1 in *. cbn [andb keqb] in *. lia.
Qed.
Lemma open_wr r o l : wfs r o l -> allab o l -> Forall below_ok l -> 1 <= csum wlc l -> 1 <= csum (runc o (Some Write)) l.
Proof.
  induction l as [|x l IH]; cbn [wfs csum]; [lia|]. intros [W1 W2] A B Q. inversion A as [|? ? A1 A2]; subst. inversion B as [|? ? B1 B2]; subst. specialize (IH W2 A2 B2). pose proof (csum_nonneg (runc o (Some Write)) l (runc_nn o _)). pose proof (runc_nn o (Some Write) x).
  destruct (Z.eq_dec (wlc x) 0) as [Z0|Z0]; [pose proof (csum_nonneg wlc l wlc_nn); lia|]. destruct x as [p nr kd h st e| | | | |]; try (cbn in Z0; lia). destruct h; try (cbn in Z0; lia); destruct st; try (cbn in Z0; lia); try contradiction B1.
  - cbn [wfx] in W1. destruct W1 as [_ [_ [[_ X]|[[_ [X _]]|[[_ [X _]]|[[-> _]|[_ [X _]]]]]]]]; try discriminate X. cbn [runc about] in *. rewrite A1 in *. cbn [andb keqb] in *. lia.
  - cbn [wfx] in W1. destruct W1 as [_ [_ [[_ X]|[[_ [X _]]|[[_ [X _]]|[[_ X]|[-> _]]]]]]]; try discriminate X. cbn [runc about] in *. rewrite A1 in *. cbn [andb keqb] in *. lia.
Qed.
Lemma open_q o l : onq o l = true -> 1 <= csum (runc o None) l.
Proof.
  unfold onq. induction l as [|x l IH]; cbn [existsb csum]; [discriminate|]. intros Q. pose proof (csum_nonneg (runc o None) l (runc_nn o _)). pose proof (runc_nn o None x). apply orb_true_iff in Q. destruct Q as [Q|Q]; [|specialize (IH Q); lia].
  destruct x as [|p lkd st rf id| | | |]; try discriminate Q. destruct st; try discriminate Q. cbn [onq1 runc] in *. rewrite Q in *. cbn [andb keqb] in *. lia.
Qed.
Lemma misuse_open T o r i k t x l : OInv T o r i k -> (t < T)%nat -> k t = x :: l -> allab o l -> Forall below_ok l -> lstep t o r i x l = Fail Misuse -> exists q, locked q /\ 1 <= csum (runc o q) l.
Proof.
  intros H Ht Hk A B E. pose proof (v_lc _ _ _ _ _ H t Ht) as LC. pose proof (v_wf _ _ _ _ _ H t Ht) as W. rewrite Hk in LC, W. cbn [csum wfs] in LC, W. destruct W as [_ W].
  assert (RD : 1 <= csum rdc l -> exists q, locked q /\ 1 <= csum (runc o q) l) by (intros Q; exists (Some Read); split; [unfold locked; discriminate|apply (open_rd r); auto]).
  assert (WR : 1 <= csum wlc l -> exists q, locked q /\ 1 <= csum (runc o q) l) by (intros Q; exists (Some Write); split; [unfold locked; discriminate|apply (open_wr r); auto]).
  assert (QU : onq o l = true -> exists q, locked q /\ 1 <= csum (runc o q) l) by (intros Q; exists None; split; [unfold locked; discriminate|apply open_q; auto]).
  assert (LN : forall n, lc r t = LRd (S n) -> wlc x = 0 -> rdc x = 0 -> exists q, locked q /\ 1 <= csum (runc o q) l) by (intros n Q W0 R0; apply RD; rewrite Q, W0, R0 in LC; destruct (0 <? _); [discriminate LC|]; injection LC; lia).
  assert (LW : lc r t = LWr -> wlc x = 0 -> exists q, locked q /\ 1 <= csum (runc o q) l) by (intros Q W0; apply WR; rewrite Q, W0 in LC; destruct (Z.ltb_spec 0 (0 + csum wlc l)); [lia|discriminate LC]).
  destruct x as [p nr kd h st e|p lkd st rf id| |p del g st e| |]; cbn [lstep] in E; try discriminate E.
  - assert (X : st = SGot).
    { destruct st; try reflexivity; exfalso; cbn [op_step] in E; try discriminate E.
      - destruct (_ || _); discriminate E.
      - destruct (destroyed r); [destruct h; discriminate E|discriminate E].
      - destruct kd; try discriminate E; [|destruct h; discriminate E]. destruct (_ && _); [discriminate E|]. destruct (lc r t) as [[|n]|]; discriminate E.
      - destruct (writer r); discriminate E.
      - unfold refobj_put, put in E. destruct nr; [discriminate E|]. destruct (cfree r); [destruct (_ <? _); [discriminate E|]|]; destruct (_ =? _); discriminate E. }
    subst st. cbn [op_step] in E. destruct kd; try discriminate E.
    + destruct (_ && _); [discriminate E|]. destruct (lc r t) as [[|n]|] eqn:LL; [|apply (LN n); auto; destruct h; reflexivity|apply LW; auto; destruct h; reflexivity]. exfalso. cbn [Nat.ltb Nat.leb Nat.eqb] in E. rewrite andb_false_r in E. destruct (writer r); discriminate E.
    + destruct (lc r t) as [[|n]|] eqn:LL; [|apply (LN n); auto; destruct h; reflexivity|apply LW; auto; destruct h; reflexivity]. destruct (onq o l) eqn:OQ; [auto|]. exfalso. cbn [andb] in E. destruct (_ || _); discriminate E.
  - exfalso. unfold q_step, refobj_put, put in E. destruct st; try discriminate E.
    + destruct (async r); [discriminate E|destruct (writer r); discriminate E].
    + destruct (destroyed r); discriminate E.
    + destruct (cfree r); [destruct (_ <? _); [discriminate E|]|]; destruct (_ =? _); discriminate E.
    + destruct rf; discriminate E.
  - assert (X : st = DStart).
    { destruct st; try reflexivity; exfalso; unfold des_step, put in E; try discriminate E.
      - destruct i; discriminate E.
      - destruct (destroyed r); discriminate E.
      - destruct (_ || _); discriminate E.
      - destruct (_ =? _); discriminate E.
      - destruct (_ && _); [destruct (_ <? _); discriminate E|discriminate E].
      - destruct (_ =? _); discriminate E. }
    subst st. cbn [des_step] in E. destruct (onq o l) eqn:OQ; [auto|]. cbn [andb] in E. destruct (lc r t) as [[|n]|] eqn:LL; try discriminate E. apply (LN n); auto.
Qed.
(** The program is aborted only when a thread makes a call about an object from inside an aosl_ref_read, aosl_ref_write or queue function callback of the same object. *)
Theorem C29_abort_reason T s l s' f : reachable T s -> exec T l s = Some s' -> s_fail s' = Some f -> exists t o k, l = LStep t /\ locked k /\ 1 <= opens t o k (s_tr s).
Proof.
  intros R E F. apply reachable_reach in R. pose proof (reach_step T s l s' R E) as R'. destruct (reach_ok T s R) as [G _]. destruct (reach_ok T s' R') as [_ [_ M]]. assert (f = Misuse) by (destruct M; congruence). subst f. clear M R'.
  unfold exec in E. destruct (s_fail s) eqn:F0; [discriminate E|]. destruct l as [t c|t|t].
  - exfalso. destruct (_ && _) in E; [|discriminate E]. destruct c as [k r|o|r|r del|i a rc cf]; cbn [do_call] in E; try (destruct (lookup s r) as [o|]); try (destruct (gone (s_o s o))); try (destruct (onq o _)); try (destruct (_ && _) in E); try discriminate E; injection E as <-; cbn in F; congruence.
  - exfalso. unfold do_end in E. destruct (s_stk s t) as [|[o nr k h st e|o lkd st rf id| |o del g st e|o st|o] k0]; try discriminate E; try (destruct st; try discriminate E); injection E as <-; cbn in F; congruence.
  - unfold do_step in E. destruct (s_stk s t) as [|x k0] eqn:Hs; [discriminate E|]. 
    assert (Ht : (t < T)%nat) by (destruct (Nat.ltb_spec t T) as [|Lt]; [assumption|]; rewrite (g_thr _ _ G t Lt) in Hs; discriminate Hs).
    assert (MAIN : forall o, about o x = true -> (if touches x && gone (s_o s o) then Some (fail s Uaf) else apply s t o k0 (lstep t o (s_o s o) (inst s o) x k0)) = Some s' -> exists t0 o0 k, LStep t = LStep t0 /\ locked k /\ 1 <= opens t0 o0 k (s_tr s)).
    { intros o A E'. assert (Ho : (o < s_next s)%nat) by (apply (g_fresh _ _ G t x o); [rewrite Hs; left; reflexivity|exact A]).
      assert (Hk : kof s o t = x :: proj o k0) by (unfold kof; rewrite Hs; apply proj_cons, A). pose proof (g_below _ _ G t) as B. rewrite Hs in B. cbn [tl] in B.
      destruct (_ && _) in E'; [injection E' as <-; cbn in F; discriminate F|]. assert (Q : onq o k0 = onq o (proj o k0)) by (symmetry; apply onq_proj). rewrite (lstep_below _ _ _ _ _ _ _ Q) in E'.
      destruct (lstep t o (s_o s o) (inst s o) x (proj o k0)) as [|f|r' i' fs es] eqn:LS; cbn [apply] in E'; [discriminate E'| |].
      - injection E' as <-. cbn in F. assert (f = Misuse) by congruence. subst f. destruct (misuse_open T o _ _ _ _ _ _ (g_obj _ _ G o Ho) Ht Hk) as [q [Q1 Q2]]; auto.
        { unfold allab, proj. apply Forall_forall. intros y Y. apply filter_In in Y. apply Y. } { apply proj_below, B. }
        exists t, o, q. split; [reflexivity|]. split; [exact Q1|]. rewrite (opens_st T s t o q R), Hk. cbn [csum]. pose proof (runc_nn o q x). lia.
      - injection E' as <-. cbn in F. destruct (Bool.eqb _ _) in F; [congruence|]. unfold set_inst in F. destruct i'; cbn in F; congruence. }
    destruct x as [o nr k h st e|o lkd st rf id| |o del g st e|o st|o]; try discriminate E; try (apply (MAIN o); [cbn; apply Nat.eqb_refl|exact E]).
    + exfalso. destruct st; try discriminate E; destruct (_ && _) in E; injection E as <-; cbn in F; congruence.
    + exfalso. destruct (_ && _) in E; injection E as <-; [cbn in F; congruence|]. unfold install in F. destruct (s_tab s _); cbn in F; congruence.
Qed.
Print Assumptions C29_abort_reason.
