(** * Unmarshalling arbitrary bytes: memory safety, framing, consumption *)
From Verif Require Import Base Psb PsbSpec PsbProof Arith Marshal MarshalSpec MarshalChain.

Ltac Zify.zify_post_hook ::= Z.div_mod_to_equations.

(** ** Memory *)
Lemma mwrite_spec bs : forall m a,
  (forall x, a <= x < a + zlen bs -> m x <> None) ->
  exists m', mwrite m a bs = Some m' /\
    forall x, m' x = if (a <=? x) && (x <? a + zlen bs) then nth_error bs (Z.to_nat (x - a)) else m x.
Proof.
  induction bs as [|b bs IH]; intros m a Hm.
  - exists m. split; [reflexivity|]. intros x. cbn.
    replace ((a <=? x) && (x <? a + 0)) with false by lia. reflexivity.
  - cbn [mwrite]. assert (HL : zlen (b :: bs) = 1 + zlen bs) by (unfold zlen; cbn [length]; lia).
    pose proof (zlen_nonneg bs).
    destruct (m a) as [b0|] eqn:Ea; [|exfalso; apply (Hm a); [lia|assumption]].
    destruct (IH (mset m a b) (a + 1)) as (m' & E & Hm').
    { intros x Hx. unfold mset. replace (x =? a) with false by lia. apply Hm. lia. }
    exists m'. split; [assumption|]. intros x. rewrite Hm', HL. unfold mset.
    destruct (Z.eqb_spec x a) as [->|Hne].
    + replace ((a + 1 <=? a) && (a <? a + 1 + zlen bs)) with false by lia.
      replace ((a <=? a) && (a <? a + (1 + zlen bs))) with true by lia.
      rewrite Z.sub_diag. reflexivity.
    + destruct ((a <=? x) && (x <? a + (1 + zlen bs))) eqn:Ec.
      * replace ((a + 1 <=? x) && (x <? a + 1 + zlen bs)) with true by lia.
        replace (Z.to_nat (x - a)) with (S (Z.to_nat (x - (a + 1)))) by lia. reflexivity.
      * replace ((a + 1 <=? x) && (x <? a + 1 + zlen bs)) with false by lia. reflexivity.
Qed.
Lemma le_bytes_len n : forall v, length (le_bytes n v) = n.
Proof. induction n; intros v; cbn; auto. Qed.
Lemma zlen_le_bytes n v : zlen (le_bytes n v) = Z.of_nat n.
Proof. unfold zlen. rewrite le_bytes_len. reflexivity. Qed.
Lemma unmapped_spec m a n : unmapped m a n = true -> forall x, a <= x < a + n -> m x = None.
Proof.
  unfold unmapped. rewrite forallb_forall. intros H x Hx.
  specialize (H (Z.to_nat (x - a))). rewrite in_seq in H.
  replace (a + Z.of_nat (Z.to_nat (x - a))) with x in H by lia.
  destruct (m x); [|reflexivity]. discriminate H. lia.
Qed.

(** ** Parts of an object *)
Lemma part_shift T t p a : part T t p a -> forall d, part T t (p + d) (a + d).
Proof.
  induction 1; intros d.
  - eapply P_inline; eauto. lia.
  - eapply P_bytes; eauto. lia.
  - eapply P_count; eauto. lia.
  - eapply P_ref; eauto. replace (p + d + ti_off ti) with (p + ti_off ti + d) by lia. auto.
  - eapply P_field; eauto. replace (p + d + ti_off ti) with (p + ti_off ti + d) by lia. auto.
  - eapply P_elem; eauto. replace (p + d + ti_off ti + sz * i) with (p + ti_off ti + sz * i + d) by lia. auto.
Qed.
Lemma fits_part T c sz p a : fits T c -> type_size T c = GSize sz -> part T c p a -> p <= a < p + sz.
Proof.
  intros (sz' & E & _ & H) E' Hp. rewrite E in E'. injection E' as ->.
  apply (part_shift _ _ _ _) with (d := - p) in Hp.
  replace (p + - p) with 0 in Hp by lia. apply H in Hp. lia.
Qed.
Lemma fits_size T c sz : fits T c -> type_size T c = GSize sz -> 0 <= sz < 2 ^ 32.
Proof. intros (sz' & E & H & _) E'. rewrite E in E'. injection E' as ->. assumption. Qed.

(** ** The effect of a piece of the run *)
Notation fst_ := (ust (list Z)).
Definition keeps (P : Z -> Prop) (s s' : fst_) : Prop :=
  forall a b, u_mem s a = Some b ->
    (exists b', u_mem s' a = Some b') /\ (~ P a -> u_mem s' a = Some b).
(** [k] bytes were consumed and only the addresses in [P] (of those mapped
    before) may have changed. *)
Definition adv (P : Z -> Prop) (s s' : fst_) (k : Z) : Prop :=
  0 <= k <= zlen (u_in s) /\ u_in s' = skipn (Z.to_nat k) (u_in s) /\ keeps P s s'.
Definition mapped (s : fst_) (Q : Z -> Prop) : Prop := forall a, Q a -> u_mem s a <> None.

Lemma adv_refl P s : adv P s s 0.
Proof.
  split; [pose proof (zlen_nonneg (u_in s)); lia|]. split; [reflexivity|].
  intros a b H. eauto.
Qed.
Lemma adv_trans (P P1 : Z -> Prop) s s1 s2 k1 k2 :
  adv P s s1 k1 -> adv P1 s1 s2 k2 -> (forall a, P1 a -> P a \/ u_mem s a = None) -> adv P s s2 (k1 + k2).
Proof.
  intros (H1 & H2 & H3) (H4 & H5 & H6) HP. split.
  - rewrite H2 in H4. unfold zlen in *. rewrite skipn_length in H4. lia.
  - split.
    + rewrite H5, H2, skipn_skipn. f_equal. lia.
    + intros a b Hab. destruct (H3 a b Hab) as [[b1 E1] Hk1]. destruct (H6 a b1 E1) as [[b2 E2] Hk2].
      split; [eauto|]. intros HnP. specialize (Hk1 HnP). rewrite Hk1 in E1. injection E1 as <-.
      apply Hk2. intros HP1. destruct (HP a HP1); [tauto|congruence].
Qed.
Lemma adv_weak (P P1 : Z -> Prop) s s1 k :
  adv P1 s s1 k -> (forall a, P1 a -> P a \/ u_mem s a = None) -> adv P s s1 k.
Proof. intros H HP. replace k with (0 + k) by lia. eapply adv_trans; [apply adv_refl|eassumption|assumption]. Qed.
Lemma mapped_keeps P s s' Q : mapped s Q -> keeps P s s' -> mapped s' Q.
Proof.
  intros H Hk a Ha. specialize (H a Ha). destruct (u_mem s a) as [b|] eqn:E; [|congruence].
  destruct (Hk a b E) as [[b' ->] _]. discriminate.
Qed.
Lemma mapped_adv P s s' k Q : mapped s Q -> adv P s s' k -> mapped s' Q.
Proof. intros H (_ & _ & Hk). eapply mapped_keeps; eassumption. Qed.

Definition decode_errors : list Z := [AOSL_EMSGSIZE; AOSL_ENOSPC; AOSL_ENOMEM; AOSL_EINVAL].

(** No undefined behaviour from here; [s0] is the state the effects are
    measured from. *)
Definition spec {A} (P : Z -> Prop) (s0 : fst_) (r : res fst_ A) (Q : A -> fst_ -> Prop) : Prop :=
  match r with
  | RVal a s => Q a s
  | RErr e s => In (- e) decode_errors /\ exists k, adv P s0 s k
  | RFuel => True
  | RBad _ | RUB => False
  end.
Lemma spec_bind {A B} P s0 (m : fst_ -> res fst_ A) (k : A -> fst_ -> res fst_ B) s Q :
  spec P s0 (m s) (fun a s1 => spec P s0 (k a s1) Q) -> spec P s0 (rbind m k s) Q.
Proof. unfold rbind. destruct (m s); cbn; auto. Qed.
Lemma spec_mono {A} P s0 (r : res fst_ A) (Q Q' : A -> fst_ -> Prop) :
  spec P s0 r Q -> (forall a s, Q a s -> Q' a s) -> spec P s0 r Q'.
Proof. destruct r; cbn; auto. Qed.
(** A call whose effects are known from its own starting state. *)
Lemma spec_call {A} (P P1 : Z -> Prop) s0 s k (r : res fst_ A) (Q1 Q : A -> fst_ -> Prop) :
  spec P1 s r Q1 -> adv P s0 s k -> (forall a, P1 a -> P a \/ u_mem s0 a = None) ->
  (forall a s', Q1 a s' -> Q a s') -> spec P s0 r Q.
Proof.
  intros Hr Ha HP HQ. destruct r; cbn in *; auto.
  destruct Hr as (H1 & k1 & H2). split; [assumption|]. eexists. eapply adv_trans; eassumption.
Qed.
Lemma spec_fail {A} P s0 s k e (Q : A -> fst_ -> Prop) :
  adv P s0 s k -> In (- e) decode_errors -> spec P s0 (rfail e s) Q.
Proof. cbn. eauto. Qed.

Section Safe.
  Variable E : menv.
  Variable T : ttab.
  Variable strict : bool.
  Hypothesis Hnull : e_helper_null E = true.
  Hypothesis Hok : types_ok T.
  Hypothesis Hstrict : strict = true.
  Notation rf := (flat_reader strict).

  (** Advancing from [s0] via [s]. *)
  Lemma write_spec P s0 s k a bs (Q : unit -> fst_ -> Prop) :
    adv P s0 s k -> mapped s (fun x => a <= x < a + zlen bs) ->
    (forall x, a <= x < a + zlen bs -> P x \/ u_mem s0 x = None) ->
    (forall s', adv P s0 s' k ->
       (forall x, u_mem s' x = if (a <=? x) && (x <? a + zlen bs) then nth_error bs (Z.to_nat (x - a)) else u_mem s x) ->
       u_in s' = u_in s -> u_nalloc s' = u_nalloc s -> u_blocks s' = u_blocks s -> Q tt s') ->
    spec P s0 (write (list Z) a bs s) Q.
  Proof.
    intros Ha Hm HP HQ. unfold write. destruct (mwrite_spec bs (u_mem s) a Hm) as (m' & -> & Hm').
    cbn. apply HQ; auto.
    replace k with (k + 0) by lia. eapply adv_trans with (P1 := fun x => a <= x < a + zlen bs); [eassumption| |assumption].
    split; [pose proof (zlen_nonneg (u_in s)); lia|]. split; [reflexivity|].
    intros x b Hx. cbn [u_mem]. rewrite Hm'.
    destruct ((a <=? x) && (x <? a + zlen bs)) eqn:Ec.
    - split; [|intros; lia].
      destruct (nth_error bs (Z.to_nat (x - a))) eqn:En; [eauto|]. apply nth_error_None in En. unfold zlen in Ec. lia.
    - split; eauto.
  Qed.
  Lemma malloc_spec P s0 s k n (Q : option Z -> fst_ -> Prop) :
    adv P s0 s k ->
    (forall s', adv P s0 s' k -> u_mem s' = u_mem s -> u_in s' = u_in s -> Q None s') ->
    (forall s' a, adv P s0 s' k -> 0 < a -> a + n <= 2 ^ 63 ->
       (forall x, a <= x < a + n -> u_mem s x = None /\ exists b, u_mem s' x = Some b) ->
       (forall x, ~ (a <= x < a + n) -> u_mem s' x = u_mem s x) ->
       u_in s' = u_in s -> Q (Some a) s') ->
    spec P s0 (malloc (list Z) E n s) Q.
  Proof.
    intros Ha HN HS. unfold malloc.
    assert (Hf : spec P s0 (RVal None (mkU (u_mem s) (u_in s) (S (u_nalloc s)) (u_blocks s))) Q).
    { cbn. apply HN; auto. }
    destruct (e_addr E (u_nalloc s)) as [a|]; [|assumption].
    destruct ((0 <? a) && (a + n <=? 2 ^ 63) && unmapped (u_mem s) a n) eqn:Ec; [|assumption].
    apply andb_true_iff in Ec. destruct Ec as [Ec Hu]. pose proof (unmapped_spec _ _ _ Hu) as Hu'. clear Hu Hf HN.
    cbn. apply HS; cbn [u_mem u_in]; try lia; auto.
    - destruct Ha as (H1 & H2 & H3). split; [assumption|]. split; [assumption|].
      intros x b Hx. destruct (H3 x b Hx) as [[b' Hb'] Hk]. cbn [u_mem].
      destruct ((a <=? x) && (x <? a + n)) eqn:Ec2; [rewrite Hu' in Hb' by lia; discriminate|eauto].
    - intros x Hx. split; [apply Hu'; assumption|].
      replace ((a <=? x) && (x <? a + n)) with true by lia. eauto.
    - intros x Hx. replace ((a <=? x) && (x <? a + n)) with false by lia. reflexivity.
  Qed.
  Lemma base_spec P s0 s k n (Q : list Z -> fst_ -> Prop) : 0 <= n ->
    adv P s0 s k ->
    (forall s', adv P s0 s' (k + n) -> n <= zlen (u_in s) -> u_mem s' = u_mem s ->
       Q (firstn (Z.to_nat n) (u_in s)) s') ->
    spec P s0 (base (list Z) rf n s) Q.
  Proof.
    intros Hn Ha HQ. unfold base. cbn [r_base flat_reader].
    destruct (Z.ltb_spec (zlen (u_in s)) n) as [Hlt|Hge]; cbn.
    - split; [cbn; auto|]. exists (zlen (u_in s0)).
      destruct Ha as (H1 & H2 & H3). split; [lia|]. split; [|exact H3].
      cbn [u_in]. symmetry. apply skipn_all2. unfold zlen. lia.
    - apply HQ; auto. destruct Ha as (H1 & H2 & H3). split.
      + rewrite H2 in Hge. unfold zlen in *. rewrite skipn_length in Hge. lia.
      + split; [|exact H3]. cbn [u_in]. rewrite H2, skipn_skipn. f_equal. lia.
  Qed.
  Lemma dec_bytes_spec P s0 s k a n (Q : Z -> fst_ -> Prop) : 0 <= n ->
    adv P s0 s k -> mapped s (fun x => a <= x < a + n) ->
    (forall x, a <= x < a + n -> P x \/ u_mem s0 x = None) ->
    (forall s', adv P s0 s' (k + n) -> n <= zlen (u_in s) ->
       (forall x, u_mem s' x = if (a <=? x) && (x <? a + n) then nth_error (u_in s) (Z.to_nat (x - a)) else u_mem s x) ->
       Q n s') ->
    spec P s0 (dec_bytes (list Z) rf a n s) Q.
  Proof.
    intros Hn Ha Hm HP HQ. unfold dec_bytes. cbn [r_bytes flat_reader].
    set (bs := firstn (Z.to_nat n) (u_in s)).
    assert (HL : zlen bs = Z.min n (zlen (u_in s))).
    { subst bs. unfold zlen. rewrite firstn_length. lia. }
    set (s1 := mkU _ _ _ _). pose proof (zlen_nonneg (u_in s)).
    assert (Ha1 : adv P s0 s1 (k + Z.min n (zlen (u_in s)))).
    { destruct Ha as (H1 & H2 & H3). split.
      - rewrite H2. unfold zlen. rewrite skipn_length. unfold zlen in H1. lia.
      - split; [|exact H3]. subst s1. cbn [u_in]. rewrite H2, skipn_skipn.
        destruct (Z.leb_spec n (zlen (skipn (Z.to_nat k) (u_in s0)))) as [Hle|Hgt].
        + f_equal. lia.
        + assert (HLs : zlen (skipn (Z.to_nat k) (u_in s0)) = zlen (u_in s0) - k).
          { unfold zlen in *. rewrite skipn_length. lia. }
          rewrite HLs in *. rewrite !skipn_all2; [reflexivity| |]; clear - Hgt H1; unfold zlen in *; lia. }
    apply spec_bind. eapply write_spec; [exact Ha1| | |].
    - intros x Hx. apply Hm. lia.
    - intros x Hx. apply HP. lia.
    - intros s' Ha' Hmem Hin _ _. destruct (Z.leb_spec n (zlen (u_in s))) as [Hle|Hgt].
      + cbn. apply HQ; auto.
        * rewrite Z.min_l in Ha' by lia. exact Ha'.
        * intros x. rewrite Hmem, HL, Z.min_l by lia.
          destruct ((a <=? x) && (x <? a + n)) eqn:Ec; [|reflexivity].
          subst bs. rewrite <- (firstn_skipn (Z.to_nat n) (u_in s)) at 2.
          rewrite nth_error_app1; [reflexivity|]. clear - HL Hle Ec. unfold zlen in *. lia.
      + eapply spec_fail; [exact Ha'|]. cbn. auto.
  Qed.
  Lemma dec16_spec P s0 s k (Q : Z -> fst_ -> Prop) :
    adv P s0 s k ->
    (forall s' v, adv P s0 s' (k + 2) -> 2 <= zlen (u_in s) -> u_mem s' = u_mem s -> 0 <= v < 65536 ->
       v = u16 (le_val (firstn 2 (u_in s))) -> Q v s') ->
    spec P s0 (dec16 (list Z) rf s) Q.
  Proof.
    intros Ha HQ. unfold dec16. apply spec_bind. eapply base_spec; [lia|eassumption|].
    intros s' Ha' Hl Hm. cbn [rret spec]. apply HQ; auto.
    - unfold cpu_to_le16. unfold u16. lia.
  Qed.
  Lemma strsize_spec P s0 s k (Q : Z -> fst_ -> Prop) :
    adv P s0 s k -> (forall n, nul_index (u_in s) = Some (n - 1) -> Q n s) ->
    spec P s0 (strsize (list Z) rf s) Q.
  Proof.
    intros Ha HQ. unfold strsize. cbn [r_strsize flat_reader].
    destruct (nul_index (u_in s)) as [n|] eqn:En.
    - cbn. apply HQ. f_equal. lia.
    - rewrite Hstrict. eapply spec_fail; [eassumption|]. cbn. auto.
  Qed.
  Lemma presence_spec P s0 s k (Q : Z -> fst_ -> Prop) :
    adv P s0 s k ->
    (forall s', adv P s0 s' (k + 1) -> 1 <= zlen (u_in s) -> u_mem s' = u_mem s ->
       Q (le_val (firstn 1 (u_in s))) s') ->
    spec P s0 (presence (list Z) rf E s) Q.
  Proof.
    intros Ha HQ. unfold presence. rewrite Hnull. apply spec_bind. eapply base_spec; [lia|eassumption|].
    intros s' H1 H2 H3. cbn [rret spec]. apply HQ; auto.
  Qed.

  Definition safe_fun (f : fst_ -> res fst_ Z) (P : Z -> Prop) : Prop :=
    forall s, mapped s P -> spec P s (f s) (fun n s' => adv P s s' n).

  (** One call of a safe function, in the middle of something. *)
  Lemma call_spec f (P P1 : Z -> Prop) s0 s k (Q : Z -> fst_ -> Prop) :
    safe_fun f P1 -> adv P s0 s k -> mapped s P1 -> (forall a, P1 a -> P a \/ u_mem s0 a = None) ->
    (forall n s', adv P s0 s' (k + n) -> adv P1 s s' n -> Q n s') ->
    spec P s0 (f s) Q.
  Proof.
    intros Hf Ha Hm HP HQ. eapply spec_call; [apply Hf; assumption|eassumption|assumption|].
    cbn. intros n s' Hn. apply HQ; [|assumption]. eapply adv_trans; eassumption.
  Qed.

  Lemma elems_safe f (P1 : Z -> Z -> Prop) a st : (forall x, safe_fun (f x) (P1 x)) ->
    forall k (P : Z -> Prop) s0 s d i len,
    adv P s0 s (d + len) ->
    (forall j, i <= j < i + Z.of_nat k -> mapped s (P1 (a + st * j))) ->
    (forall j x, i <= j < i + Z.of_nat k -> P1 (a + st * j) x -> P x \/ u_mem s0 x = None) ->
    spec P s0 (each_elem f a st i k len s) (fun n s' => adv P s0 s' (d + n)).
  Proof.
    intros Hf. induction k as [|k IH]; intros P s0 s d i len Ha Hm HP; cbn [each_elem].
    - cbn. assumption.
    - apply spec_bind. eapply call_spec; [apply Hf|eassumption| | |].
      + apply Hm. lia.
      + intros x. apply HP. lia.
      + intros n s' Ha' Ha1. apply IH.
        * replace (d + (len + n)) with (d + len + n) by lia. assumption.
        * intros j Hj. eapply mapped_adv; [|exact Ha1]. apply Hm. lia.
        * intros j x Hj. apply HP. lia.
  Qed.
  Lemma field_next c0 t ti : (c0 <= t)%nat -> nth_error T t = Some ti -> ti_id ti <> TVoid ->
    (forall i, (c0 <= i < t)%nat -> exists ti, nth_error T i = Some ti /\ ti_id ti <> TVoid) ->
    field T c0 t.
  Proof.
    intros Hc Et Hv Hp. split; [assumption|]. intros i Hi.
    destruct (Nat.eq_dec i t) as [->|]; [eauto|]. apply Hp. lia.
  Qed.
  Lemma fields_safe f (P1 : nat -> Z -> Prop) c0 :
    (forall t, field T c0 t -> safe_fun (f t) (P1 t)) ->
    (exists e ti', (c0 <= e)%nat /\ nth_error T e = Some ti' /\ ti_id ti' = TVoid) ->
    forall k (P : Z -> Prop) s0 s t len,
    adv P s0 s len ->
    (forall c, field T c0 c -> mapped s (P1 c)) ->
    (forall c x, field T c0 c -> P1 c x -> P x) ->
    (c0 <= t)%nat -> (length T < t + k)%nat ->
    (forall i, (c0 <= i < t)%nat -> exists ti, nth_error T i = Some ti /\ ti_id ti <> TVoid) ->
    spec P s0 (each_field T f k t len s) (fun n s' => adv P s0 s' n).
  Proof.
    intros Hf (e & tie & He & Ee & Ve).
    assert (HeT : (e < length T)%nat) by (apply nth_error_Some; congruence).
    induction k as [|k IH]; intros P s0 s t len Ha Hm HP Hc0 Hk Hpre; cbn [each_field].
    - exfalso. destruct (Hpre e) as (ti & E1 & E2); [lia|]. rewrite Ee in E1. injection E1 as <-. contradiction.
    - destruct (nth_error T t) as [ti|] eqn:Et.
      2:{ apply nth_error_None in Et. exfalso. destruct (Hpre e) as (ti & E1 & E2); [lia|].
          rewrite Ee in E1. injection E1 as <-. contradiction. }
      assert (Hgo : ti_id ti <> TVoid ->
        spec P s0 ((get n <- f t; each_field T f k (S t) (len + n)) s) (fun n s' => adv P s0 s' n)).
      { intros Hv. assert (Hfld : field T c0 t) by (eapply field_next; eauto).
        apply spec_bind. eapply call_spec; [apply Hf, Hfld|eassumption|apply Hm; assumption| |].
        - intros a Hp. left. eapply HP; eassumption.
        - intros n s' Ha' Ha1. apply IH; auto; try lia.
          + intros c Hc. eapply mapped_adv; [|exact Ha1]. apply Hm. assumption.
          + intros i Hi. destruct (Nat.eq_dec i t) as [->|]; [eauto|]. apply Hpre. lia. }
      destruct (ti_id ti) eqn:Ei; try (apply Hgo; discriminate).
      cbn. assumption.
  Qed.

  Lemma plain_part t ti p n : nth_error T t = Some ti -> inline_size (ti_id ti) = Some n ->
    forall x, p + ti_off ti <= x < p + ti_off ti + n -> part T t p x.
  Proof. intros. eapply P_inline; eauto. Qed.

  Lemma dec_base_safe n fn a (P : Z -> Prop) s :
    0 <= n -> mapped s P -> (forall x, a <= x < a + n -> P x) ->
    spec P s (dec_base (list Z) rf n fn a s) (fun k s' => adv P s s' k).
  Proof.
    intros Hn Hm HP. apply spec_bind. eapply base_spec; [lia|apply adv_refl|]. intros s1 Ha1 _ Em.
    apply spec_bind. eapply write_spec; [exact Ha1| | |].
    - intros x Hx. rewrite Em. apply Hm, HP. rewrite zlen_le_bytes in Hx. lia.
    - intros x Hx. left. apply HP. rewrite zlen_le_bytes in Hx. lia.
    - intros s2 Ha2 _ _ _ _. cbn. exact Ha2.
  Qed.
  Lemma dec_raw_safe n a (P : Z -> Prop) s :
    0 <= n -> mapped s P -> (forall x, a <= x < a + n -> P x) ->
    spec P s (dec_raw (list Z) rf n a s) (fun k s' => adv P s s' k).
  Proof.
    intros Hn Hm HP. apply spec_bind. eapply base_spec; [lia|apply adv_refl|]. intros s1 Ha1 Hl Em.
    assert (Hz : zlen (firstn (Z.to_nat n) (u_in s)) = n) by (unfold zlen in *; rewrite firstn_length; lia).
    apply spec_bind. eapply write_spec; [exact Ha1| | |].
    - intros x Hx. rewrite Em. apply Hm, HP. lia.
    - intros x Hx. left. apply HP. lia.
    - intros s2 Ha2 _ _ _ _. cbn. exact Ha2.
  Qed.
  Lemma mapped_same s s' Q : u_mem s' = u_mem s -> mapped s Q -> mapped s' Q.
  Proof. intros E1 H a Ha. rewrite E1. auto. Qed.

  Theorem unmarshal_safe fuel : forall t p, (t < length T)%nat ->
    safe_fun (unmarshal (list Z) rf E T fuel t p) (part T t p).
  Proof.
    induction fuel as [|f IH]; intros t p Ht s Hm; cbn [unmarshal]; [exact I|].
    destruct (nth_error T t) as [ti|] eqn:Et; [|apply nth_error_None in Et; lia].
    pose proof (Hok _ _ Et) as [Hsz He].
    apply spec_bind. cbn [umem spec].
    match goal with |- context [if ?c then rret 0 else _] => destruct c end; [apply adv_refl|].
    destruct (ti_id ti) eqn:Ei; cbn [entry_ok] in He.
    - apply adv_refl.
    - apply dec_base_safe; [lia|assumption|]. eapply plain_part; [eassumption|]. rewrite Ei. reflexivity.
    - apply dec_base_safe; [lia|assumption|]. eapply plain_part; [eassumption|]. rewrite Ei. reflexivity.
    - apply dec_base_safe; [lia|assumption|]. eapply plain_part; [eassumption|]. rewrite Ei. reflexivity.
    - apply dec_base_safe; [lia|assumption|]. eapply plain_part; [eassumption|]. rewrite Ei. reflexivity.
    - apply dec_base_safe; [lia|assumption|]. eapply plain_part; [eassumption|]. rewrite Ei. reflexivity.
    - apply dec_base_safe; [lia|assumption|]. eapply plain_part; [eassumption|]. rewrite Ei. reflexivity.
    - apply dec_raw_safe; [lia|assumption|]. eapply plain_part; [eassumption|]. rewrite Ei. reflexivity.
    - apply dec_raw_safe; [lia|assumption|]. eapply plain_part; [eassumption|]. rewrite Ei. reflexivity.
    - (* pointer *)
      assert (HP : forall x, p + ti_off ti <= x < p + ti_off ti + 8 -> part T t p x).
      { eapply plain_part; [eassumption|]. rewrite Ei. reflexivity. }
      apply spec_bind. eapply presence_spec; [apply adv_refl|]. intros s1 Ha1 _ Em1.
      destruct (negb _).
      + destruct He as (sz & Esz & Hszr & Hin). pose proof Esz as Esz0. rewrite Esz.
        apply spec_bind. eapply malloc_spec; [exact Ha1| |].
        * intros s2 Ha2 _ _. eapply spec_fail; [exact Ha2|]. cbn; auto.
        * intros s2 q Ha2 Hq0 Hq1 Hnew Hold _.
          apply spec_bind. unfold write_ptr. eapply write_spec; [exact Ha2| | |].
          -- rewrite zlen_le_bytes. intros x Hx. eapply mapped_adv; [exact Hm|exact Ha2|]. apply HP. lia.
          -- rewrite zlen_le_bytes. intros x Hx. left. apply HP. lia.
          -- intros s3 Ha3 Hm3 _ _ _. rewrite zlen_le_bytes in Hm3.
             apply spec_bind. eapply call_spec; [apply IH| | | |].
             ++ unfold type_size, get_type_size in Esz0. apply nth_error_Some. intros En. rewrite En in Esz0. discriminate.
             ++ exact Ha3.
             ++ intros x Hx. pose proof (fits_part T (ti_child ti) sz q x (ex_intro _ sz (conj Esz (conj Hszr Hin))) Esz Hx) as Hr.
                rewrite Hm3. destruct ((p + ti_off ti <=? x) && _) eqn:Ec.
                ** intros En. apply nth_error_None in En. rewrite le_bytes_len in En. lia.
                ** destruct (Hnew x Hr) as [_ [b ->]]. discriminate.
             ++ intros x Hx. right.
                pose proof (fits_part T (ti_child ti) sz q x (ex_intro _ sz (conj Esz (conj Hszr Hin))) Esz Hx) as Hr.
                destruct (Hnew x Hr) as [Hn _]. rewrite Em1 in Hn. exact Hn.
             ++ intros n s4 Ha4 _. cbn. replace (1 + n) with (0 + 1 + n) by lia. exact Ha4.
      + apply spec_bind. unfold write_ptr. eapply write_spec; [exact Ha1| | |].
        -- rewrite zlen_le_bytes. intros x Hx. eapply mapped_adv; [exact Hm|exact Ha1|]. apply HP. lia.
        -- rewrite zlen_le_bytes. intros x Hx. left. apply HP. lia.
        -- intros s3 Ha3 _ _ _ _. cbn. exact Ha3.
    - (* reference *)
      destruct He as (c & Ec). eapply call_spec; [apply IH|apply adv_refl| | |].
      + apply nth_error_Some. congruence.
      + intros x Hx. apply Hm. eapply P_ref; eassumption.
      + intros x Hx. left. eapply P_ref; eassumption.
      + intros n s' Ha' _. exact Ha'.
    - (* string *)
      assert (HP : forall x, p + ti_off ti <= x < p + ti_off ti + 8 -> part T t p x).
      { eapply plain_part; [eassumption|]. rewrite Ei. reflexivity. }
      apply spec_bind. eapply presence_spec; [apply adv_refl|]. intros s1 Ha1 _ Em1.
      destruct (negb _).
      + apply spec_bind. eapply strsize_spec; [exact Ha1|]. intros n Hn.
        assert (Hu : 0 <= u16 n) by (unfold u16; lia).
        apply spec_bind. eapply malloc_spec; [exact Ha1| |].
        * intros s2 Ha2 _ _. eapply spec_fail; [exact Ha2|]. cbn; auto.
        * intros s2 q Ha2 Hq0 Hq1 Hnew Hold _.
          apply spec_bind. unfold write_ptr. eapply write_spec; [exact Ha2| | |].
          -- rewrite zlen_le_bytes. intros x Hx. eapply mapped_adv; [exact Hm|exact Ha2|]. apply HP. lia.
          -- rewrite zlen_le_bytes. intros x Hx. left. apply HP. lia.
          -- intros s3 Ha3 Hm3 _ _ _. rewrite zlen_le_bytes in Hm3.
             apply spec_bind. eapply dec_bytes_spec; [exact Hu|exact Ha3| | |].
             ++ intros x Hr. rewrite Hm3. destruct ((p + ti_off ti <=? x) && _) eqn:Ec.
                ** intros En. apply nth_error_None in En. rewrite le_bytes_len in En. lia.
                ** destruct (Hnew x Hr) as [_ [b ->]]. discriminate.
             ++ intros x Hr. right. destruct (Hnew x Hr) as [Hn' _]. rewrite Em1 in Hn'. exact Hn'.
             ++ intros s4 Ha4 _ _. cbn. replace (1 + u16 n) with (0 + 1 + u16 n) by lia. exact Ha4.
      + apply spec_bind. unfold write_ptr. eapply write_spec; [exact Ha1| | |].
        -- rewrite zlen_le_bytes. intros x Hx. eapply mapped_adv; [exact Hm|exact Ha1|]. apply HP. lia.
        -- rewrite zlen_le_bytes. intros x Hx. left. apply HP. lia.
        -- intros s3 Ha3 _ _ _ _. cbn. exact Ha3.
    - (* struct *)
      destruct He as [Hend _].
      eapply fields_safe with (c0 := ti_child ti)
        (P1 := fun c => part T c (p + ti_off ti)).
      + intros c [Hle Hc]. apply IH. destruct (Hc c) as (tc & Ec & _); [lia|].
        apply nth_error_Some. congruence.
      + exact Hend.
      + apply adv_refl.
      + intros c Hc x Hx. apply Hm. eapply P_field; eassumption.
      + intros c x Hc Hx. eapply P_field; eassumption.
      + lia.
      + lia.
      + intros i Hi. lia.
    - (* fixed bytes *)
      assert (HP : forall x, p + ti_off ti <= x < p + ti_off ti + ti_array_size ti -> part T t p x).
      { intros x Hx. eapply P_bytes; [eassumption|rewrite Ei; cbn; auto|assumption]. }
      eapply dec_bytes_spec; [lia|apply adv_refl| | |].
      + intros x Hx. apply Hm, HP, Hx.
      + intros x Hx. left. apply HP, Hx.
      + intros s' Ha _ _. exact Ha.
    - (* var bytes *)
      assert (HP : forall x, p + ti_off ti <= x < p + ti_off ti + ti_array_size ti -> part T t p x).
      { intros x Hx. eapply P_bytes; [eassumption|rewrite Ei; cbn; auto|assumption]. }
      assert (HC : forall x, p + ti_cnt ti <= x < p + ti_cnt ti + 2 -> part T t p x).
      { intros x Hx. eapply P_count; [eassumption|rewrite Ei; cbn; auto|assumption]. }
      apply spec_bind. eapply dec16_spec; [apply adv_refl|]. intros s1 v Ha1 _ Em1 Hv _.
      destruct (Z.ltb_spec (ti_array_size ti) v).
      { eapply spec_fail; [exact Ha1|]. cbn; auto. }
      apply spec_bind. unfold write16. eapply write_spec; [exact Ha1| | |].
      + rewrite zlen_le_bytes. intros x Hx. eapply mapped_adv; [exact Hm|exact Ha1|]. apply HC. lia.
      + rewrite zlen_le_bytes. intros x Hx. left. apply HC. lia.
      + intros s2 Ha2 _ _ _ _. apply spec_bind. eapply dec_bytes_spec; [lia|exact Ha2| | |].
        * intros x Hx. eapply mapped_adv; [exact Hm|exact Ha2|]. apply HP. lia.
        * intros x Hx. left. apply HP. lia.
        * intros s3 Ha3 _ _. exact Ha3.
    - (* bytes with NUL *)
      assert (HP : forall x, p + ti_off ti <= x < p + ti_off ti + ti_array_size ti -> part T t p x).
      { intros x Hx. eapply P_bytes; [eassumption|rewrite Ei; cbn; auto|assumption]. }
      apply spec_bind. eapply strsize_spec; [apply adv_refl|]. intros n Hn.
      assert (Hu : 0 <= u16 n) by (unfold u16; lia).
      destruct (Z.ltb_spec (ti_array_size ti) (u16 n)).
      { eapply spec_fail; [apply adv_refl|]. cbn; auto. }
      eapply dec_bytes_spec; [exact Hu|apply adv_refl| | |].
      + intros x Hx. apply Hm, HP. lia.
      + intros x Hx. left. apply HP. lia.
      + intros s' Ha _ _. exact Ha.
    - (* dynamic bytes *)
      assert (HP : forall x, p + ti_off ti <= x < p + ti_off ti + 16 -> part T t p x).
      { eapply plain_part; [eassumption|]. rewrite Ei. reflexivity. }
      apply spec_bind. eapply dec16_spec; [apply adv_refl|]. intros s1 v Ha1 _ Em1 Hv _.
      apply spec_bind. unfold write16, write_ptr. eapply write_spec; [exact Ha1| | |].
      { rewrite zlen_le_bytes. intros x Hx. eapply mapped_adv; [exact Hm|exact Ha1|]. apply HP. lia. }
      { rewrite zlen_le_bytes. intros x Hx. left. apply HP. lia. }
      intros s2 Ha2 Hm2 _ _ _. apply spec_bind. eapply write_spec; [exact Ha2| | |].
      { rewrite zlen_le_bytes. intros x Hx. eapply mapped_adv; [exact Hm|exact Ha2|]. apply HP. lia. }
      { rewrite zlen_le_bytes. intros x Hx. left. apply HP. lia. }
      intros s3 Ha3 Hm3 _ _ _. rewrite zlen_le_bytes in Hm2, Hm3.
      destruct (Z.ltb_spec 0 (v + 0)); [|cbn; exact Ha3].
      apply spec_bind. eapply malloc_spec; [exact Ha3| |].
      + intros s4 Ha4 _ _. apply spec_bind. eapply write_spec; [exact Ha4| | |].
        { rewrite zlen_le_bytes. intros x Hx. eapply mapped_adv; [exact Hm|exact Ha4|]. apply HP. lia. }
        { rewrite zlen_le_bytes. intros x Hx. left. apply HP. lia. }
        intros s5 Ha5 _ _ _ _. apply spec_bind. eapply write_spec; [exact Ha5| | |].
        { rewrite zlen_le_bytes. intros x Hx. eapply mapped_adv; [exact Hm|exact Ha5|]. apply HP. lia. }
        { rewrite zlen_le_bytes. intros x Hx. left. apply HP. lia. }
        intros s6 Ha6 _ _ _ _. eapply spec_fail; [exact Ha6|]. cbn; auto.
      + intros s4 q Ha4 Hq0 Hq1 Hnew Hold _. apply spec_bind. eapply write_spec; [exact Ha4| | |].
        { rewrite zlen_le_bytes. intros x Hx. eapply mapped_adv; [exact Hm|exact Ha4|]. apply HP. lia. }
        { rewrite zlen_le_bytes. intros x Hx. left. apply HP. lia. }
        intros s5 Ha5 Hm5 _ _ _. rewrite zlen_le_bytes in Hm5.
        apply spec_bind. replace (0 <? v) with true by lia. eapply dec_bytes_spec; [lia|exact Ha5| | |].
        * intros x Hr. rewrite Hm5. destruct ((p + ti_off ti + 8 <=? x) && _) eqn:Ec.
          ** intros En. apply nth_error_None in En. rewrite le_bytes_len in En. lia.
          ** destruct (Hnew x ltac:(lia)) as [_ [b ->]]. discriminate.
        * intros x Hr. right. destruct (Hnew x ltac:(lia)) as [Hn' _].
          destruct (u_mem s x) as [b|] eqn:Eb; [|reflexivity]. exfalso.
          destruct Ha3 as (_ & _ & Hk). destruct (Hk x b Eb) as [[b' Hb'] _]. congruence.
        * intros s6 Ha6 _ _. apply spec_bind. cbn. exact Ha6.
    - (* dynamic string *)
      assert (HP : forall x, p + ti_off ti <= x < p + ti_off ti + 16 -> part T t p x).
      { eapply plain_part; [eassumption|]. rewrite Ei. reflexivity. }
      apply spec_bind. eapply dec16_spec; [apply adv_refl|]. intros s1 v Ha1 _ Em1 Hv _.
      apply spec_bind. unfold write16, write_ptr. eapply write_spec; [exact Ha1| | |].
      { rewrite zlen_le_bytes. intros x Hx. eapply mapped_adv; [exact Hm|exact Ha1|]. apply HP. lia. }
      { rewrite zlen_le_bytes. intros x Hx. left. apply HP. lia. }
      intros s2 Ha2 Hm2 _ _ _. apply spec_bind. eapply write_spec; [exact Ha2| | |].
      { rewrite zlen_le_bytes. intros x Hx. eapply mapped_adv; [exact Hm|exact Ha2|]. apply HP. lia. }
      { rewrite zlen_le_bytes. intros x Hx. left. apply HP. lia. }
      intros s3 Ha3 Hm3 _ _ _. rewrite zlen_le_bytes in Hm2, Hm3.
      destruct (Z.ltb_spec 0 (v + 1)); [|lia].
      apply spec_bind. eapply malloc_spec; [exact Ha3| |].
      + intros s4 Ha4 _ _. apply spec_bind. eapply write_spec; [exact Ha4| | |].
        { rewrite zlen_le_bytes. intros x Hx. eapply mapped_adv; [exact Hm|exact Ha4|]. apply HP. lia. }
        { rewrite zlen_le_bytes. intros x Hx. left. apply HP. lia. }
        intros s5 Ha5 _ _ _ _. apply spec_bind. eapply write_spec; [exact Ha5| | |].
        { rewrite zlen_le_bytes. intros x Hx. eapply mapped_adv; [exact Hm|exact Ha5|]. apply HP. lia. }
        { rewrite zlen_le_bytes. intros x Hx. left. apply HP. lia. }
        intros s6 Ha6 _ _ _ _. eapply spec_fail; [exact Ha6|]. cbn; auto.
      + intros s4 q Ha4 Hq0 Hq1 Hnew Hold _. apply spec_bind. eapply write_spec; [exact Ha4| | |].
        { rewrite zlen_le_bytes. intros x Hx. eapply mapped_adv; [exact Hm|exact Ha4|]. apply HP. lia. }
        { rewrite zlen_le_bytes. intros x Hx. left. apply HP. lia. }
        intros s5 Ha5 Hm5 _ _ _. rewrite zlen_le_bytes in Hm5.
        assert (Hmap5 : mapped s5 (fun x => q <= x < q + (v + 1))).
        { intros x Hr. rewrite Hm5. destruct ((p + ti_off ti + 8 <=? x) && _) eqn:Ec.
          ** intros En. apply nth_error_None in En. rewrite le_bytes_len in En. lia.
          ** destruct (Hnew x ltac:(lia)) as [_ [b ->]]. discriminate. }
        assert (Hnone : forall x, q <= x < q + (v + 1) -> u_mem s x = None).
        { intros x Hr. destruct (Hnew x ltac:(lia)) as [Hn' _].
          destruct (u_mem s x) as [b|] eqn:Eb; [|reflexivity]. exfalso.
          destruct Ha3 as (_ & _ & Hk). destruct (Hk x b Eb) as [[b' Hb'] _]. congruence. }
        apply spec_bind. destruct (Z.ltb_spec 0 v).
        * eapply dec_bytes_spec; [lia|exact Ha5| | |].
          { intros x Hr. apply Hmap5. lia. }
          { intros x Hr. right. apply Hnone. lia. }
          intros s6 Ha6 _ Hm6. apply spec_bind. eapply write_spec; [exact Ha6| | |].
          { intros x Hx. rewrite Hm6. replace ((q <=? x) && (x <? q + v)) with false by (unfold zlen in Hx; cbn in Hx; lia).
            apply Hmap5. unfold zlen in Hx; cbn in Hx; lia. }
          { intros x Hx. right. apply Hnone. unfold zlen in Hx; cbn in Hx; lia. }
          intros s7 Ha7 _ _ _ _. exact Ha7.
        * cbn [rret spec]. apply spec_bind. eapply write_spec; [exact Ha5| | |].
          { intros x Hx. apply Hmap5. unfold zlen in Hx; cbn in Hx; lia. }
          { intros x Hx. right. apply Hnone. unfold zlen in Hx; cbn in Hx; lia. }
          intros s7 Ha7 _ _ _ _. exact Ha7.
    - (* fixed array *)
      destruct He as ((sz & Esz & Hszr & Hin) & Hmax). rewrite Esz.
      replace (65535 <? ti_array_size ti) with false by lia.
      assert (Hc : (ti_child ti < length T)%nat).
      { unfold type_size, get_type_size in Esz. apply nth_error_Some. intros En. rewrite En in Esz. discriminate. }
      eapply spec_mono; [eapply elems_safe with (P1 := part T (ti_child ti)) (d := 0)|].
      + intros x. apply IH, Hc.
      + apply adv_refl.
      + intros j Hj x Hx. apply Hm. eapply P_elem; [eassumption|rewrite Ei; cbn; auto|eassumption| |eassumption]. lia.
      + intros j x Hj Hx. left. eapply P_elem; [eassumption|rewrite Ei; cbn; auto|eassumption| |eassumption]. lia.
      + cbn. intros n s' Ha. exact Ha.
    - (* var array *)
      destruct He as ((sz & Esz & Hszr & Hin) & Hdis). rewrite Esz.
      assert (HC : forall x, p + ti_cnt ti <= x < p + ti_cnt ti + 2 -> part T t p x).
      { intros x Hx. eapply P_count; [eassumption|rewrite Ei; cbn; auto|assumption]. }
      assert (Hc : (ti_child ti < length T)%nat).
      { unfold type_size, get_type_size in Esz. apply nth_error_Some. intros En. rewrite En in Esz. discriminate. }
      apply spec_bind. eapply dec16_spec; [apply adv_refl|]. intros s1 v Ha1 _ Em1 Hv _.
      destruct (Z.ltb_spec (ti_array_size ti) v).
      { eapply spec_fail; [exact Ha1|]. cbn; auto. }
      apply spec_bind. unfold write16. eapply write_spec; [exact Ha1| | |].
      + rewrite zlen_le_bytes. intros x Hx. eapply mapped_adv; [exact Hm|exact Ha1|]. apply HC. lia.
      + rewrite zlen_le_bytes. intros x Hx. left. apply HC. lia.
      + intros s2 Ha2 _ _ _ _. apply spec_bind.
        eapply spec_mono; [eapply elems_safe with (P1 := part T (ti_child ti)) (d := 2)|].
        * intros x. apply IH, Hc.
        * exact Ha2.
        * intros j Hj. eapply mapped_adv; [|exact Ha2]. intros x Hx. apply Hm.
          eapply P_elem; [eassumption|rewrite Ei; cbn; auto|eassumption| |eassumption]. lia.
        * intros j x Hj Hx. left. eapply P_elem; [eassumption|rewrite Ei; cbn; auto|eassumption| |eassumption]. lia.
        * cbn. intros n s' Ha. exact Ha.
    - (* dynamic array *)
      assert (HP : forall x, p + ti_off ti <= x < p + ti_off ti + 16 -> part T t p x).
      { eapply plain_part; [eassumption|]. rewrite Ei. reflexivity. }
      destruct He as (sz & Esz & Hszr & Hin).
      assert (Hc : (ti_child ti < length T)%nat).
      { unfold type_size, get_type_size in Esz. apply nth_error_Some. intros En. rewrite En in Esz. discriminate. }
      apply spec_bind. eapply dec16_spec; [apply adv_refl|]. intros s1 v Ha1 _ Em1 Hv _.
      apply spec_bind. unfold write16, write_ptr. eapply write_spec; [exact Ha1| | |].
      { rewrite zlen_le_bytes. intros x Hx. eapply mapped_adv; [exact Hm|exact Ha1|]. apply HP. lia. }
      { rewrite zlen_le_bytes. intros x Hx. left. apply HP. lia. }
      intros s2 Ha2 Hm2 _ _ _. apply spec_bind. eapply write_spec; [exact Ha2| | |].
      { rewrite zlen_le_bytes. intros x Hx. eapply mapped_adv; [exact Hm|exact Ha2|]. apply HP. lia. }
      { rewrite zlen_le_bytes. intros x Hx. left. apply HP. lia. }
      intros s3 Ha3 Hm3 _ _ _. rewrite zlen_le_bytes in Hm2, Hm3.
      destruct (Z.ltb_spec 0 v); [|cbn; exact Ha3].
      rewrite Esz. assert (Hprod : u64 (sz * v) = sz * v) by (unfold u64; rewrite Z.mod_small; [reflexivity|nia]).
      apply spec_bind. eapply malloc_spec; [exact Ha3| |].
      + intros s4 Ha4 _ _. apply spec_bind. eapply write_spec; [exact Ha4| | |].
        { rewrite zlen_le_bytes. intros x Hx. eapply mapped_adv; [exact Hm|exact Ha4|]. apply HP. lia. }
        { rewrite zlen_le_bytes. intros x Hx. left. apply HP. lia. }
        intros s5 Ha5 _ _ _ _. apply spec_bind. eapply write_spec; [exact Ha5| | |].
        { rewrite zlen_le_bytes. intros x Hx. eapply mapped_adv; [exact Hm|exact Ha5|]. apply HP. lia. }
        { rewrite zlen_le_bytes. intros x Hx. left. apply HP. lia. }
        intros s6 Ha6 _ _ _ _. eapply spec_fail; [exact Ha6|]. cbn; auto.
      + rewrite Hprod. intros s4 q Ha4 Hq0 Hq1 Hnew Hold _. apply spec_bind. eapply write_spec; [exact Ha4| | |].
        { rewrite zlen_le_bytes. intros x Hx. eapply mapped_adv; [exact Hm|exact Ha4|]. apply HP. lia. }
        { rewrite zlen_le_bytes. intros x Hx. left. apply HP. lia. }
        intros s5 Ha5 Hm5 _ _ _. rewrite zlen_le_bytes in Hm5.
        assert (Hrange : forall j x, 0 <= j < v -> part T (ti_child ti) (q + sz * j) x -> q <= x < q + sz * v).
        { intros j x Hj Hx.
          pose proof (fits_part T (ti_child ti) sz _ x (ex_intro _ sz (conj Esz (conj Hszr Hin))) Esz Hx). nia. }
        apply spec_bind. eapply spec_mono; [eapply elems_safe with (P1 := part T (ti_child ti)) (d := 2)|].
        * intros x. apply IH, Hc.
        * exact Ha5.
        * intros j Hj x Hx. pose proof (Hrange j x ltac:(lia) Hx) as Hr.
          rewrite Hm5. destruct ((p + ti_off ti + 8 <=? x) && _) eqn:Ec.
          ** intros En. apply nth_error_None in En. rewrite le_bytes_len in En. lia.
          ** destruct (Hnew x ltac:(lia)) as [_ [b ->]]. discriminate.
        * intros j x Hj Hx. pose proof (Hrange j x ltac:(lia) Hx) as Hr. right. destruct (Hnew x ltac:(lia)) as [Hn' _].
          destruct (u_mem s x) as [b|] eqn:Eb; [|reflexivity]. exfalso.
          destruct Ha3 as (_ & _ & Hk). destruct (Hk x b Eb) as [[b' Hb'] _]. congruence.
        * cbn. intros n s' Ha. exact Ha.
    - eapply spec_fail; [apply adv_refl|]. cbn; auto.
  Qed.
End Safe.
