(** * The other transitions of one object. *)
From Verif Require Import Base Refobj RefobjInv RefobjStep RefobjOp.

Ltac gen H Ht := eapply (OInv_gen _ _ _ _ _ _ _ _ _ _ H Ht eq_refl).
(** A lookup succeeds and a reference is taken. *)
Lemma get_ok T o r k t x c : OInv T o r true k -> (t < T)%nat ->
  (c = true /\ (exists kd, x = FOp o false kd HNo SGot 0) \/ c = true /\ (exists id, x = FQ o false SGot false id) \/ c = false /\ (exists del, x = FDes o del 0 DStart 0)) ->
  OInv T o (get t r c) true (fupd k t (x :: k t)).
Proof.
  intros H Ht X. pose proof H as [V1 V2 V3 V4 V5 V6 V7 V8 V9 V10 V11 V12 V13 V14 V15 V16 V17].
  assert (U : 0 < usage r). { pose proof (sumT_nonneg T (fun u => csum use (k u)) (fun u => csum_nonneg use (k u) use_nn)). pose proof (sumT_nonneg T (fun u => csum ownc (k u)) (fun u => csum_nonneg ownc (k u) own_nn)). cbn [b2z] in *. lia. }
  assert (NW : waited r = None) by (destruct (waited r) as [tw|] eqn:W; [destruct (V16 tw eq_refl) as [X0 _]; discriminate X0|reflexivity]).
  specialize (V7 t Ht). specialize (V8 t Ht). specialize (V10 t Ht). 
  assert (V9' : cfree r = true -> gc r t = csum gcc (k t)) by auto. assert (V11' : destroyed r = true -> csum openc (k t) = 0) by auto. destruct (V13 U) as [F1 F2].
  unfold get. destruct X as [[-> [[] ->]]|[[-> [id ->]]|[-> [[] ->]]]]; cbn [andb set_usage cfree]; destruct (cfree r) eqn:CF; simp; 
  gen H Ht; simp; unfold thr; simp; lf; rewrite ?NW; try (intros; discriminate); 
  try (intros; apply fupd_ne; assumption); rewrite ?fupd_eq; lf.
  all: try (split; [cbn [wfx]; simp; intuition congruence|eapply wfs_mono; [| | |eassumption]; lf]; fail).
  all: try (intros D0; left; split; [exact D0|]; rewrite V11' by assumption; lia).
  all: try (intros _; rewrite V9' by reflexivity; lia).
  all: try (intros; split; [lia|]; split; [lia|reflexivity]).
Qed.
(** aosl_refobj_read from the queue function. *)
Lemma push_ok T o r i k t : OInv T o r i k -> (t < T)%nat -> onq o (k t) = true -> OInv T o r i (fupd k t (FOp o true Read HNo SGot 0 :: k t)).
Proof.
  intros H Ht Q. pose proof H as [V1 V2 V3 V4 V5 V6 V7 V8 V9 V10 V11 V12 V13 V14 V15 V16 V17].
  specialize (V7 t Ht). specialize (V8 t Ht). specialize (V10 t Ht). 
  assert (V9' : cfree r = true -> gc r t = csum gcc (k t)) by auto. assert (V11' : destroyed r = true -> csum openc (k t) = 0) by auto.
  gen H Ht; simp; unfold thr; simp; lf.
  all: try (split; [cbn [wfx]; simp; intuition congruence|eapply wfs_mono; [| | |eassumption]; lf]; fail).
  all: try (intros D0; left; split; [exact D0|]; rewrite V11' by assumption; lia).
  all: try (intros; split; [lia|]; split; [lia|reflexivity]).
  all: try (intros A B; left; split; lf; fail).
  all: try (intros tw W; left; split; [exact W|split; [reflexivity|lia]]).
  - intros A B C D0. destruct (V17 A B C ltac:(lia)); [left; lia|right; assumption].
Qed.
(** Callbacks return. *)
Lemma end_op_ok T o r i k t nr kd h e l : OInv T o r i k -> (t < T)%nat -> k t = FOp o nr kd h SRun e :: l -> OInv T o r i (fupd k t (FOp o nr kd h SUnl 0 :: l)).
Proof.
  intros H Ht Hk. pose proof (facts_of _ _ _ _ _ _ _ _ H Ht Hk) as F. 
  destruct h; updgo H Ht Hk F; try (intros; rewrite A14 in *; lf); try (intros; destruct kd; lf; fail).
  all: try (destruct (A15 ltac:(assumption)); assumption).
Qed.
Lemma end_q_ok T o r i k t lkd rf id l : OInv T o r i k -> (t < T)%nat -> k t = FQ o lkd SRun rf id :: l -> OInv T o r i (fupd k t (FQ o lkd SUnl rf id :: l)).
Proof.
  intros H Ht Hk. pose proof (facts_of _ _ _ _ _ _ _ _ H Ht Hk) as F.
  destruct lkd; updgo H Ht Hk F.
  all: match goal with |- ?g => idtac g; idtac "q" end.
Qed.
Lemma end_fin_ok T o r i k t l : OInv T o r i k -> (t < T)%nat -> k t = FFin o FDtor :: l -> OInv T o r i (fupd k t (FFin o FId :: l)).
Proof. intros H Ht Hk. pose proof (facts_of _ _ _ _ _ _ _ _ H Ht Hk) as F. updgo H Ht Hk F. 
  all: match goal with |- ?g => idtac g; idtac "f" end.
Qed.
(** The end of refobj_free. *)
Lemma sumT_sub T f g : sumT T (fun u => f u - g u) = sumT T f - sumT T g.
Proof. induction T as [|n IH]; cbn [sumT]; [lia|]. rewrite IH. lia. Qed.
Lemma fin_use T o r i k t l st : OInv T o r i k -> (t < T)%nat -> k t = FFin o st :: l -> usage r = 0 /\ gone r = false /\ sumT T (fun u => csum finc (k u)) = 1 /\ (st <> FMem -> rel r = false) /\ (st = FMem -> rel r = true).
Proof.
  intros H Ht Hk. pose proof (facts_of _ _ _ _ _ _ _ _ H Ht Hk) as F. posefacts F. simp. pose proof (v_use _ _ _ _ _ H) as V1. pose proof (v_rel _ _ _ _ _ H) as V15.
  pose proof (sumT_nonneg T (fun u => csum use (k u)) (fun u => csum_nonneg use (k u) use_nn)). pose proof (sumT_nonneg T (fun u => csum ownc (k u)) (fun u => csum_nonneg ownc (k u) own_nn)).
  assert (U : 0 <= usage r) by (destruct i; simp; lia). assert (U0 : usage r = 0) by (destruct (Z.eq_dec (usage r) 0); [assumption|destruct (A18 ltac:(lia)); lia]).
  pose proof (A19 U0) as Q. pose proof (finm_finc l). pose proof (csum_nonneg finm l finm_nn).
  assert (G : gone r = false) by (destruct (gone r); [simp; lia|reflexivity]). rewrite G in *. cbn [b2z] in *.
  pose proof (sumT_ge T (fun u => csum finc (k u) - csum finm (k u)) t Ht ltac:(intros u; pose proof (finm_finc (k u)); lia)) as M. cbn beta in M. rewrite sumT_sub, Hk in M. cbn [csum finc] in M.
  pose proof (sumT_ge T (fun u => csum finm (k u)) t Ht (fun u => csum_nonneg finm (k u) finm_nn)) as M2. cbn beta in M2. rewrite Hk in M2. cbn [csum] in M2.
  split; [exact U0|]. split; [reflexivity|]. split; [lia|]. split; intros S.
  - assert (E : finm (FFin o st) = 0) by (destruct st; [reflexivity|reflexivity|congruence]). rewrite E in M. destruct (rel r); [cbn [b2z] in *; lia|reflexivity].
  - subst st. cbn [finm] in M2. destruct (rel r); [reflexivity|cbn [b2z] in *; lia].
Qed.
Lemma rel_ok T o r i k t l : OInv T o r i k -> (t < T)%nat -> k t = FFin o FId :: l -> OInv T o (set_rel r) i (fupd k t (FFin o FMem :: l)).
Proof.
  intros H Ht Hk. pose proof (facts_of _ _ _ _ _ _ _ _ H Ht Hk) as F. destruct (fin_use _ _ _ _ _ _ _ _ H Ht Hk) as [U [G [S [R _]]]]. specialize (R ltac:(discriminate)).
  updgo H Ht Hk F. rewrite R. cbn [b2z]. lia.
Qed.
Lemma free_ok T o r i k t l : OInv T o r i k -> (t < T)%nat -> k t = FFin o FMem :: l -> OInv T o (set_gone r) i (fupd k t l).
Proof.
  intros H Ht Hk. pose proof (facts_of _ _ _ _ _ _ _ _ H Ht Hk) as F. destruct (fin_use _ _ _ _ _ _ _ _ H Ht Hk) as [U [G [S [_ R]]]].
  updgo H Ht Hk F. all: try (eapply wfs_mono; [| | |eassumption]; lf; fail).
Qed.
(** A new object, and its installation. *)
Lemma install_ok T o r k t l id : OInv T o r false k -> (t < T)%nat -> k t = FNew o :: l -> OInv T o (set_oid r id) true (fupd k t l).
Proof.
  intros H Ht Hk. pose proof (facts_of _ _ _ _ _ _ _ _ H Ht Hk) as F.
  updgo H Ht Hk F. all: try (eapply wfs_mono; [| | |eassumption]; lf; fail).
Qed.
Lemma new_ok T o i a rc cf k t : (t < T)%nat -> (forall u, (u < T)%nat -> k u = if (u =? t)%nat then [FNew o] else []) -> OInv T o (new_obj i a rc cf) false k.
Proof.
  intros Ht Hk. assert (X : forall F : list frame -> Z, F [] = 0 -> sumT T (fun u => F (k u)) = F [FNew o]).
  { intros F F0. rewrite (sumT_ext T (fun u => F (k u)) (fun u => F (if (u =? t)%nat then [FNew o] else []))) by (intros u Hu; rewrite (Hk u Hu); reflexivity).
    rewrite (sumT_upd T (fun _ => 0) (fun u => F (if (u =? t)%nat then [FNew o] else [])) t Ht).
    - rewrite sumT_zero by reflexivity. rewrite Nat.eqb_refl. lia.
    - intros x N. apply Nat.eqb_neq in N. rewrite N. exact F0. }
  assert (Y : forall u, (u < T)%nat -> k u = [FNew o] \/ k u = []) by (intros u Hu; rewrite (Hk u Hu); destruct (u =? t)%nat; auto).
  unfold new_obj. constructor; simp; rewrite ?(X (csum _) eq_refl), ?(X thr eq_refl); cbn; try reflexivity; try lia; try discriminate.
  all: intros; match goal with A : (?u < _)%nat |- _ => destruct (Y u A) as [-> | ->] end; cbn; try lia; auto.
Qed.
