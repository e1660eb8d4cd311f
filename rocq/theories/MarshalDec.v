(** * Decoding an encoded value reconstructs it *)
From Verif Require Import Base Psb PsbSpec PsbProof Arith Marshal MarshalSpec MarshalChain MarshalSafe.

Ltac Zify.zify_post_hook ::= Z.div_mod_to_equations.

Scheme holds_ind2 := Induction for holds Sort Prop
  with holds_fields_ind2 := Induction for holds_fields Sort Prop
  with holds_elems_ind2 := Induction for holds_elems Sort Prop.
Combined Scheme holds_mut from holds_ind2, holds_fields_ind2, holds_elems_ind2.
Scheme wire_ind2 := Induction for wire Sort Prop
  with wire_fields_ind2 := Induction for wire_fields Sort Prop
  with wire_elems_ind2 := Induction for wire_elems Sort Prop.
Combined Scheme wire_mut from wire_ind2, wire_fields_ind2, wire_elems_ind2.

(** ** Bytes in memory *)
Lemma mread_agree m m' n : forall a,
  (forall x, a <= x < a + Z.of_nat n -> m' x = m x) -> mread m' a n = mread m a n.
Proof.
  induction n as [|n IH]; intros a H; [reflexivity|]. cbn [mread].
  rewrite H by lia. rewrite IH; [reflexivity|]. intros x Hx. apply H. lia.
Qed.
Lemma mread_mapped m n : forall a bs, mread m a n = Some bs ->
  forall x, a <= x < a + Z.of_nat n -> m x <> None.
Proof.
  induction n as [|n IH]; intros a bs H x Hx; [lia|]. cbn [mread] in H.
  destruct (m a) as [b|] eqn:Ea; [|discriminate].
  destruct (mread m (a + 1) n) as [bs'|] eqn:Er; [|discriminate].
  destruct (Z.eq_dec x a) as [->|]; [congruence|]. eapply IH; [eassumption|lia].
Qed.
Lemma bytes_at_intro m bs : forall a,
  (forall x, a <= x < a + zlen bs -> m x = nth_error bs (Z.to_nat (x - a))) -> bytes_at m a bs.
Proof.
  unfold bytes_at. induction bs as [|b bs IH]; intros a H; [reflexivity|].
  assert (HL : zlen (b :: bs) = 1 + zlen bs) by (unfold zlen; cbn [length]; lia). pose proof (zlen_nonneg bs).
  cbn [length mread]. rewrite (H a) by lia. rewrite Z.sub_diag. cbn [Z.to_nat nth_error].
  rewrite IH; [reflexivity|]. intros x Hx. rewrite (H x) by lia.
  replace (Z.to_nat (x - a)) with (S (Z.to_nat (x - (a + 1)))) by lia. reflexivity.
Qed.
Lemma le_val_bytes n : forall v, 0 <= v < 256 ^ Z.of_nat n -> le_val (le_bytes n v) = v.
Proof.
  induction n as [|n IH]; intros v Hv.
  - cbn in *. lia.
  - cbn [le_bytes le_val]. rewrite IH; [lia|].
    replace (Z.of_nat (S n)) with (1 + Z.of_nat n) in Hv by lia. rewrite Z.pow_add_r in Hv by lia.
    change (256 ^ 1) with 256 in Hv. split; [lia|]. apply Z.div_lt_upper_bound; lia.
Qed.
Lemma le_bytes_val bs : all_bytes bs -> le_bytes (length bs) (le_val bs) = bs.
Proof.
  induction 1 as [|b bs Hb H IH]; [reflexivity|]. cbn [length le_val le_bytes].
  replace ((b + 256 * le_val bs) mod 256) with b by lia.
  replace ((b + 256 * le_val bs) / 256) with (le_val bs) by lia. rewrite IH. reflexivity.
Qed.
Lemma le_val_range bs : all_bytes bs -> 0 <= le_val bs < 256 ^ zlen bs.
Proof.
  induction 1 as [|b bs Hb H IH]; [cbn; lia|]. cbn [le_val].
  replace (zlen (b :: bs)) with (1 + zlen bs) by (unfold zlen; cbn [length]; lia).
  pose proof (zlen_nonneg bs). rewrite Z.pow_add_r by lia. change (256 ^ 1) with 256. lia.
Qed.
Lemma le_bytes_all n : forall v, all_bytes (le_bytes n v).
Proof. induction n; intros v; cbn; constructor; [lia|apply IHn]. Qed.
Lemma num_at_bytes m a n v : bytes_at m a (le_bytes n v) -> 0 <= v < 256 ^ Z.of_nat n -> num_at m a n v.
Proof.
  intros H Hv. exists (le_bytes n v). unfold bytes_at in H. rewrite le_bytes_len in H.
  split; [assumption|]. split; [apply le_bytes_all|apply le_val_bytes, Hv].
Qed.
Lemma nul_index_string s rest : no_nul s -> nul_index (s ++ 0 :: rest) = Some (zlen s).
Proof.
  induction 1 as [|b s Hb H IH]; [reflexivity|]. cbn [app nul_index].
  replace (b =? 0) with false by lia. rewrite IH. unfold zlen; cbn [length]. f_equal. lia.
Qed.
Lemma in_range a n x : In x (range a n) <-> a <= x < a + n.
Proof.
  unfold range. rewrite in_map_iff. split.
  - intros (i & <- & Hi). apply in_seq in Hi. lia.
  - intros Hx. exists (Z.to_nat (x - a)). split; [lia|]. apply in_seq. lia.
Qed.

(** ** What [holds] depends on *)
Section Frame.
  Variable T : ttab.
  Variable m m' : mem.
  Lemma num_at_frame a n v : (forall x, a <= x < a + Z.of_nat n -> m' x = m x) -> num_at m a n v -> num_at m' a n v.
  Proof. intros H (bs & E & R). exists bs. rewrite (mread_agree m m') by assumption. auto. Qed.
  Lemma bytes_at_frame a bs : (forall x, a <= x < a + zlen bs -> m' x = m x) -> bytes_at m a bs -> bytes_at m' a bs.
  Proof. unfold bytes_at. intros H E. rewrite (mread_agree m m') by assumption. assumption. Qed.

  Ltac fin := (eauto;
      try (eapply num_at_frame; [|eassumption]; intros x Hx; match goal with H : _ |- _ => apply H; apply in_range; cbn in Hx; lia end);
      try (eapply bytes_at_frame; [|eassumption]; intros x Hx; match goal with H : _ |- _ => apply H; apply in_range; rewrite ?zlen_app in *; try change (zlen [0]) with 1 in *; lia end)).
  Lemma holds_frame_all :
    (forall t p v F, holds T m t p v F -> (forall a, In a F -> m' a = m a) -> holds T m' t p v F) /\
    (forall t p vs F, holds_fields T m t p vs F -> (forall a, In a F -> m' a = m a) -> holds_fields T m' t p vs F) /\
    (forall t p sz i vs F, holds_elems T m t p sz i vs F -> (forall a, In a F -> m' a = m a) -> holds_elems T m' t p sz i vs F).
  Proof.
    apply holds_mut; intros;
      repeat match goal with
      | H : forall a, In a (_ ++ _) -> m' a = m a |- _ =>
          pose proof (fun a Ha => H a (in_or_app _ _ a (or_introl Ha)));
          pose proof (fun a Ha => H a (in_or_app _ _ a (or_intror Ha))); clear H
      end.
    - eapply H_void; fin.
    - eapply H_plain; fin.
    - eapply H_null; fin.
    - eapply H_pointer; fin.
    - eapply H_reference; fin.
    - eapply H_string; fin.
    - eapply H_struct; fin.
    - eapply H_fixed_bytes; fin.
    - eapply H_var_bytes; fin.
    - eapply H_bytes_nil; fin.
    - eapply H_dyn_empty; fin.
    - eapply H_dyn_bytes; fin.
    - eapply H_fixed_array; fin.
    - eapply H_var_array; fin.
    - eapply H_dyn_array_empty; fin.
    - eapply H_dyn_array; fin.
    - eapply HF_end; fin.
    - eapply HF_cons; fin.
    - eapply HE_end; fin.
    - eapply HE_cons; fin.
  Qed.
  Lemma holds_mapped_all :
    (forall t p v F, holds T m t p v F -> forall a, In a F -> m a <> None) /\
    (forall t p vs F, holds_fields T m t p vs F -> forall a, In a F -> m a <> None) /\
    (forall t p sz i vs F, holds_elems T m t p sz i vs F -> forall a, In a F -> m a <> None).
  Proof.
    assert (Hnum : forall a n v x, num_at m a n v -> a <= x < a + Z.of_nat n -> m x <> None).
    { intros a n v x (bs & E & _). eapply mread_mapped; eassumption. }
    assert (Hbs : forall a bs x, bytes_at m a bs -> a <= x < a + zlen bs -> m x <> None).
    { intros a bs x Hb. eapply mread_mapped; eassumption. }
    apply holds_mut; intros;
      repeat match goal with H : In _ (_ ++ _) |- _ => apply in_app_or in H; destruct H as [H|H] end;
      try contradiction;
      repeat match goal with H : In _ (range _ _) |- _ => apply in_range in H end;
      try (eapply Hnum; [eassumption|cbn; lia]);
      try (eapply Hbs; [eassumption|rewrite ?zlen_app; try change (zlen [0]) with 1; lia]);
      eauto.
  Qed.
End Frame.
Definition holds_frame T m m' := proj1 (holds_frame_all T m m').
Definition holds_mapped T m := proj1 (holds_mapped_all T m).

Lemma wire_weaken_all T (P Q : Z -> Prop) : (forall b, P b -> Q b) ->
  (forall t v w, wire T P t v w -> wire T Q t v w) /\
  (forall t vs w, wire_fields T P t vs w -> wire_fields T Q t vs w) /\
  (forall t vs w, wire_elems T P t vs w -> wire_elems T Q t vs w).
Proof.
  intros H. apply wire_mut; intros;
    first [ solve [eapply W_void; eauto] | solve [eapply W_plain; eauto] | solve [eapply W_null; eauto]
          | solve [eapply W_pointer; eauto] | solve [eapply W_reference; eauto] | solve [eapply W_string; eauto]
          | solve [eapply W_struct; eauto] | solve [eapply W_fixed_bytes; eauto] | solve [eapply W_var_bytes; eauto]
          | solve [eapply W_bytes_nil; eauto] | solve [eapply W_dyn_bytes; eauto] | solve [eapply W_fixed_array; eauto]
          | solve [eapply W_var_array; eauto] | solve [eapply W_dyn_array; eauto] | solve [econstructor; eauto] ].
Qed.
Lemma wire_weaken T (P Q : Z -> Prop) t v w : (forall b, P b -> Q b) -> wire T P t v w -> wire T Q t v w.
Proof. intros H. apply (proj1 (wire_weaken_all T P Q H)). Qed.
