(** * User-level facts about the handle pools *)
From Coq Require Import FinFun.
From Verif Require Import Base Bitmap BitmapSpec BitmapProof Idpool IdpoolProof.

Ltac Zify.zify_post_hook ::= Z.div_mod_to_equations.

Lemma pool_never_aborts max ops :
  exists s es, prun (pool_init max) ops = Ok (s, es) /\ length es = length ops.
Proof.
  destruct (run_any ops _ (pinv_init max)) as (s & es & H & _ & _ & L & _). eauto.
Qed.

Lemma reach_inv max ops s es : prun (pool_init max) ops = Ok (s, es) ->
  pinv s /\ p_max s = max /\ p_ninst s = Z.of_nat (issued es).
Proof.
  intros H. destruct (run_any ops _ (pinv_init max)) as (s' & es' & H' & I & X & _ & N).
  rewrite H in H'. injection H' as <- <-. split; [assumption|]. split; [|assumption].
  destruct X as [X _]. exact X.
Qed.

Lemma lookup_exact max ops s es h :
  prun (pool_init max) ops = Ok (s, es) ->
  exists r, lookup s h = Ok r /\ forall p, r = Some p <-> installed_as s p h.
Proof. intros H. apply lookup_spec. eapply reach_inv; eassumption. Qed.

Lemma handles_distinct max ops s es p q h :
  prun (pool_init max) ops = Ok (s, es) ->
  installed_as s p h -> installed_as s q h -> p = q.
Proof.
  intros H Hp Hq. destruct (lookup_exact _ _ _ _ h H) as (r & _ & Hr).
  apply Hr in Hp. apply Hr in Hq. congruence.
Qed.

Lemma step_pinv s op s' e : pinv s -> pstep s op = Ok (s', e) ->
  pinv s' /\ sext s s' /\ p_ninst s' = p_ninst s + Z.of_nat (issued [e]).
Proof.
  intros Hs H. destruct (step_any s op Hs) as (s1 & e1 & E & H1 & H2 & H3).
  rewrite H in E. injection E as <- <-. auto.
Qed.

Lemma run_pinv s ops s' es : pinv s -> prun s ops = Ok (s', es) ->
  pinv s' /\ sext s s' /\ length es = length ops /\ p_ninst s' = p_ninst s + Z.of_nat (issued es).
Proof.
  intros Hs H. destruct (run_any ops s Hs) as (s1 & e1 & E & H1 & H2 & H3 & H4).
  rewrite H in E. injection E as <- <-. auto.
Qed.

Lemma prun_cons s o ops s' es : prun s (o :: ops) = Ok (s', es) ->
  exists s1 e es', pstep s o = Ok (s1, e) /\ prun s1 ops = Ok (s', es') /\ es = e :: es'.
Proof.
  cbn [prun]. destruct (pstep s o) as [[s1 e]| |]; cbn [bind]; try discriminate.
  destruct (prun s1 ops) as [[s2 es2]| |] eqn:E2; cbn [bind]; try discriminate.
  intros H. injection H as <- <-. eauto 8.
Qed.

Lemma stale_handle_dead max pre p mid post s e1 h e2 e3 :
  prun (pool_init max) (pre ++ PInstall p :: mid ++ PUninstall p :: post)
    = Ok (s, e1 ++ EvHandle h :: e2 ++ EvUninst 0 :: e3) ->
  length e1 = length pre -> length e2 = length mid ->
  Z.of_nat (issued (e2 ++ e3)) < 65535 ->
  lookup s h = Ok None.
Proof.
  intros H L1 L2 Hn.
  apply prun_app in H. destruct H as (s1 & e1' & er & R1 & R2 & E1).
  pose proof (pinv_init max) as I0.
  destruct (run_pinv _ _ _ _ I0 R1) as (I1 & _ & Le1 & _).
  assert (Hsplit : forall (A : Type) (a b c d : list A), length a = length b -> a ++ c = b ++ d -> a = b /\ c = d).
  { intros A a. induction a as [|x a IH]; intros [|y b] c d Hl He; try discriminate; [auto|].
    cbn in *. injection He as <- He. destruct (IH b c d ltac:(lia) He) as [<- <-]. auto. }
  apply Hsplit in E1; [|lia]. destruct E1 as [<- <-].
  apply prun_cons in R2. destruct R2 as (s2 & ev & er & S2 & R3 & E2). injection E2 as <- <-.
  destruct (step_install s1 p I1) as (s2' & ev' & S2' & I2 & X2 & N2 & Ho).
  rewrite S2 in S2'. injection S2' as <- <-.
  destruct (Ho h eq_refl) as (o2 & P2 & Hh2 & Ph2 & Hn2).
  apply prun_app in R3. destruct R3 as (s3 & e2' & er & R3 & R4 & E3).
  destruct (run_pinv _ _ _ _ I2 R3) as (I3 & X3 & Le2 & N3).
  apply Hsplit in E3; [|lia]. destruct E3 as [<- <-].
  apply prun_cons in R4. destruct R4 as (s4 & ev & er & S4 & R5 & E4). injection E4 as <- <-.
  destruct (step_uninstall s3 p I3) as (s4' & ev' & S4' & I4 & X4 & N4 & Hu).
  rewrite S4 in S4'. injection S4' as <- <-.
  destruct (Hu eq_refl) as (o4 & P4 & Ph4).
  destruct (run_pinv _ _ _ _ I4 R5) as (I5 & X5 & Le5 & N5).
  destruct (lookup_spec s h I5) as (r & Er & Hr). rewrite Er. f_equal.
  destruct r as [q|]; [exfalso|reflexivity].
  destruct (proj1 (Hr q) eq_refl) as (oq & Pq & Phq & Hhq).
  (* the old object in the final state *)
  assert (Hneq1 : o_handle o2 <> -1).
  { destruct (pi_handle s2 I2 p o2 P2) as (_ & G & _). apply G. auto. }
  destruct (sext_trans _ _ _ X3 (sext_trans _ _ _ X4 X5)) as [_ X25].
  destruct (X25 p o2 P2) as (o5 & P5 & O25). destruct O25 as (Os & Oh & _).
  destruct (Oh Hneq1) as [Oh1 Oh2].
  destruct X5 as [_ X5]. destruct (X5 p o4 P4) as (o5' & P5' & (_ & _ & Rk)).
  rewrite P5 in P5'. injection P5' as <-.
  assert (Hpq : p <> q).
  { intros ->. rewrite P5 in Pq. injection Pq as ->. rewrite Phq, Ph4 in Rk. cbn in Rk. lia. }
  assert (Hq1 : o_handle oq <> -1).
  { destruct (pi_handle s I5 q oq Pq) as (_ & G & _). apply G. auto. }
  destruct (pi_handle s I5 q oq Pq) as (_ & _ & Gq). destruct (Gq Hq1) as (Sq & Fq & Nq).
  assert (Hp1 : o_handle o5 <> -1) by congruence.
  destruct (pi_handle s I5 p o5 P5) as (_ & _ & Gp). destruct (Gp Hp1) as (Sp & Fp & Np).
  assert (E : make_obj_id (o_slot o5) (o_nth o5 mod 65535 + 1) =
              make_obj_id (o_slot oq) (o_nth oq mod 65535 + 1)) by congruence.
  apply make_obj_id_inj in E; try lia. destruct E as [E1 E2].
  assert (Hlt : o_nth o5 < o_nth oq).
  { apply (pi_order s I5 p q); auto. unfold live. congruence. }
  rewrite issued_app in Hn.
  cbn [issued] in *.
  lia.
Qed.

(** ** Capacity *)
Definition is_live (o : pobj) : bool := match o_phase o with Released => false | _ => true end.

Lemma is_live_iff o : is_live o = true <-> live o.
Proof. unfold is_live, live. destruct (o_phase o); split; congruence. Qed.

Lemma nodup_filter_map {A B} (P : A -> bool) (f : A -> B) l :
  (forall p q a b, nth_error l p = Some a -> nth_error l q = Some b ->
     P a = true -> P b = true -> f a = f b -> p = q) ->
  NoDup (map f (filter P l)).
Proof.
  induction l as [|x l IH]; intros H; cbn [filter map]; [constructor|].
  assert (IH' : NoDup (map f (filter P l))).
  { apply IH. intros p q a b Ha Hb Pa Pb E.
    assert (S p = S q) by (eapply H; eauto). lia. }
  destruct (P x) eqn:Ex; [|assumption]. cbn [map]. constructor; [|assumption].
  intros Hin. apply in_map_iff in Hin. destruct Hin as (y & Ey & Hy).
  apply filter_In in Hy. destruct Hy as [Hy Py]. apply In_nth_error in Hy. destruct Hy as [n Hn].
  assert (S n = O); [|lia]. apply (H (S n) O y x); auto.
Qed.

Lemma in_use_slots s : in_use s = length (map o_slot (filter is_live (p_objs s))).
Proof. unfold in_use, is_live. rewrite map_length. reflexivity. Qed.

Definition zseq (n : nat) : list Z := map Z.of_nat (seq 0 n).
Lemma zseq_len n : length (zseq n) = n.
Proof. unfold zseq. rewrite map_length, seq_length. reflexivity. Qed.
Lemma zseq_in n z : In z (zseq n) <-> 0 <= z < Z.of_nat n.
Proof.
  unfold zseq. rewrite in_map_iff. split.
  - intros (k & <- & Hk). apply in_seq in Hk. lia.
  - intros H. exists (Z.to_nat z). split; [lia|]. apply in_seq. lia.
Qed.
Lemma zseq_nodup n : NoDup (zseq n).
Proof. unfold zseq. apply FinFun.Injective_map_NoDup; [|apply seq_NoDup]. intros a b. lia. Qed.

Lemma slots_nodup s : pinv s -> NoDup (map o_slot (filter is_live (p_objs s))).
Proof.
  intros Hs. apply nodup_filter_map. intros p q a b Ha Hb Pa Pb E.
  apply is_live_iff in Pa. apply is_live_iff in Pb. eapply (pi_uniq s Hs); eauto.
Qed.

Lemma in_use_le_size s : pinv s -> Z.of_nat (in_use s) <= p_size s.
Proof.
  intros Hs. rewrite in_use_slots.
  assert (H : (length (map o_slot (filter is_live (p_objs s))) <= length (zseq (length (p_tbl s))))%nat).
  { apply NoDup_incl_length; [apply slots_nodup; assumption|].
    intros z Hz. apply in_map_iff in Hz. destruct Hz as (o & <- & Ho).
    apply filter_In in Ho. destruct Ho as [Ho Lo]. apply In_nth_error in Ho. destruct Ho as [n Hn].
    apply is_live_iff in Lo. apply zseq_in. apply (pi_slot s Hs n o Hn Lo). }
  rewrite zseq_len in H. unfold p_size. lia.
Qed.

Lemma in_use_full s : pinv s ->
  (forall i, 0 <= i < p_size s -> bitval (p_bits s) i = true) -> Z.of_nat (in_use s) = p_size s.
Proof.
  intros Hs Hall. pose proof (in_use_le_size s Hs).
  assert (H1 : (length (zseq (length (p_tbl s))) <= length (map o_slot (filter is_live (p_objs s))))%nat).
  { apply NoDup_incl_length; [apply zseq_nodup|].
    intros z Hz. apply zseq_in in Hz.
    destruct (proj1 (pi_bit s Hs z Hz) (Hall z Hz)) as (p & o & Hp & Lo & <-).
    apply in_map. apply filter_In. split; [eapply nth_error_In; eassumption|].
    apply is_live_iff. assumption. }
  rewrite zseq_len in H1. rewrite <- in_use_slots in H1. unfold p_size in *. lia.
Qed.

Lemma in_use_free s i : pinv s -> 0 <= i < p_size s -> bitval (p_bits s) i = false ->
  Z.of_nat (in_use s) < p_size s.
Proof.
  intros Hs Hi Hb. pose proof (in_use_le_size s Hs). 
  enough (Z.of_nat (in_use s) <> p_size s) by lia. intros E.
  assert (H1 : incl (zseq (length (p_tbl s))) (map o_slot (filter is_live (p_objs s)))).
  { apply NoDup_length_incl; [apply slots_nodup; assumption| |].
    - rewrite zseq_len, <- in_use_slots. unfold p_size in E. lia.
    - intros z Hz. apply in_map_iff in Hz. destruct Hz as (o & <- & Ho).
      apply filter_In in Ho. destruct Ho as [Ho Lo]. apply In_nth_error in Ho. destruct Ho as [n Hn].
      apply is_live_iff in Lo. apply zseq_in. apply (pi_slot s Hs n o Hn Lo). }
  assert (Hin : In i (zseq (length (p_tbl s)))) by (apply zseq_in; exact Hi).
  apply H1 in Hin. apply in_map_iff in Hin. destruct Hin as (o & <- & Ho).
  apply filter_In in Ho. destruct Ho as [Ho Lo]. apply In_nth_error in Ho. destruct Ho as [n Hn].
  apply is_live_iff in Lo.
  assert (bitval (p_bits s) (o_slot o) = true); [|congruence].
  apply (pi_bit s Hs); [assumption|]. eauto.
Qed.

Lemma create_exact s : pinv s -> 248 <= p_max s ->
  exists s' e, pstep s (PGet true true) = Ok (s', e) /\
   ((in_use s < 248)%nat -> e = EvNew (length (p_objs s))) /\
   ((248 <= in_use s)%nat -> e = EvErr (- AOSL_ENOMEM) \/ e = EvErr (- AOSL_EOVERFLOW)) /\
   (in_use s <= 248)%nat.
Proof.
  intros Hs Hmax. destruct (step_get s true true Hs) as (s' & e & Hst & _).
  exists s', e. split; [assumption|]. cbn [pstep] in Hst. unfold get_unused in Hst.
  pose proof (pi_bits s Hs) as Hb. pose proof (pi_cnt s Hs) as Hcnt.
  destruct (pi_size s Hs) as (k & Hk & Hkr). pose proof (in_use_le_size s Hs) as Hle.
  destruct (find_first_zero_spec _ Hb) as [(E & Hall)|(Hr & Hz & Hall)].
  - rewrite E in Hst. change (-1 <? 0) with true in Hst. cbv iota in Hst.
    rewrite Hcnt in Hall. pose proof (in_use_full s Hs Hall) as Hf.
    destruct (Z.leb_spec (p_max s) (p_size s)) as [Hm|Hm].
    { cbn [bind] in Hst. change (- AOSL_EOVERFLOW <? 0) with true in Hst. cbv iota in Hst.
      injection Hst as <- <-. repeat split; try lia. auto. }
    destruct (bitmap_create true (p_size s + 8)) as [nb0|] eqn:Ec.
    2:{ cbn [bind] in Hst. change (- AOSL_ENOMEM <? 0) with true in Hst. cbv iota in Hst.
        injection Hst as <- <-. unfold bitmap_create in Ec.
        destruct (Z.eqb_spec (u8 (p_size s + 8)) 0) as [Hu|]; [|discriminate].
        unfold u8 in Hu. assert (k = 31) by lia. repeat split; try lia. auto. }
    destruct (bitmap_create_spec _ _ _ Ec) as (Hb0 & Hc0 & Hz0).
    pose proof (bi_cnt _ Hb0) as Hcr.
    assert (Hu : k <= 30). { rewrite Hc0 in Hcr. unfold u8 in *. lia. }
    cbn [negb] in Hst.
    destruct (bitmap_copy nb0 (p_bits s)) as [nb| |]; cbn [bind] in Hst; try discriminate.
    destruct (Z.ltb_spec (bitmap_find_first_zero_bit nb) 0); cbn [bind] in Hst; try discriminate.
    destruct (bitmap_set nb _) as [nb'| |]; cbn [bind p_objs] in Hst; try discriminate.
    destruct (Z.ltb_spec (bitmap_find_first_zero_bit nb) 0); try lia.
    injection Hst as <- <-. repeat split; try lia.
  - destruct (Z.ltb_spec (bitmap_find_first_zero_bit (p_bits s)) 0); try lia.
    destruct (bitmap_set _ _) as [nb'| |]; cbn [bind p_objs] in Hst; try discriminate.
    destruct (Z.ltb_spec (bitmap_find_first_zero_bit (p_bits s)) 0); try lia.
    injection Hst as <- <-. rewrite Hcnt in Hr.
    pose proof (in_use_free s _ Hs Hr Hz). repeat split; try lia.
Qed.

Lemma creation_succeeds_below_248 max ops s es :
  248 <= max -> prun (pool_init max) ops = Ok (s, es) ->
  (in_use s <= 248)%nat /\
  ((in_use s < 248)%nat <-> exists s' p, pstep s (PGet true true) = Ok (s', EvNew p)).
Proof.
  intros Hmax H. destruct (reach_inv _ _ _ _ H) as (I & M & _).
  destruct (create_exact s I ltac:(lia)) as (s' & e & Hst & H1 & H2 & H3).
  split; [assumption|]. split.
  - intros Hlt. rewrite (H1 Hlt) in Hst. eauto.
  - intros (s2 & p & Hst2). rewrite Hst in Hst2. injection Hst2 as _ ->.
    destruct (Nat.lt_ge_cases (in_use s) 248) as [|Hge]; [assumption|].
    destruct (H2 Hge); discriminate.
Qed.

(** [n] creations in a row: with fewer than 248 they all succeed. *)
Fixpoint nget (n : nat) : list pop :=
  match n with O => [] | S n => nget n ++ [PGet true true] end.

Lemma in_use_new s s' p a1 a2 : pstep s (PGet a1 a2) = Ok (s', EvNew p) -> in_use s' = S (in_use s).
Proof.
  cbn [pstep]. unfold get_unused.
  assert (G : forall s2 r, p_objs s2 = p_objs s ->
     in_use (mkPool (p_max s2) (p_tbl s2) (p_bits s2) (p_life s2)
       (p_objs s2 ++ [mkObj r (-1) Reserved 0]) (p_ninst s2)) = S (in_use s)).
  { intros s2 r E. unfold in_use. cbn [p_objs]. rewrite E, filter_app, app_length. cbn. lia. }
  destruct (bitmap_find_first_zero_bit (p_bits s) <? 0).
  - destruct (p_max s <=? p_size s). { cbn [bind]. change (- AOSL_EOVERFLOW <? 0) with true. discriminate. }
    destruct (bitmap_create a1 (p_size s + 8)). 2:{ cbn [bind]. change (- AOSL_ENOMEM <? 0) with true. discriminate. }
    destruct (negb a2). { cbn [bind]. change (- AOSL_ENOMEM <? 0) with true. discriminate. }
    destruct (bitmap_copy b (p_bits s)) as [nb| |]; cbn [bind]; try discriminate.
    destruct (bitmap_find_first_zero_bit nb <? 0) eqn:E1; cbn [bind]; try discriminate.
    destruct (bitmap_set nb _); cbn [bind]; try discriminate. rewrite E1.
    intros H. injection H as <- <-.
    match goal with |- in_use ?x = _ => change x with (mkPool (p_max s) (p_tbl s ++ repeat None 8) a (p_life s)
       (p_objs (mkPool (p_max s) (p_tbl s ++ repeat None 8) a (p_life s) (p_objs s) (p_ninst s)) ++
        [mkObj (bitmap_find_first_zero_bit nb) (-1) Reserved 0]) (p_ninst s)) end.
    unfold in_use. cbn [p_objs]. rewrite filter_app, app_length. cbn. lia.
  - destruct (bitmap_set _ _); cbn [bind]; try discriminate.
    destruct (bitmap_find_first_zero_bit (p_bits s) <? 0); try discriminate.
    intros H. injection H as <- <-. unfold in_use. cbn [p_objs]. rewrite filter_app, app_length. cbn. lia.
Qed.

Lemma prun_snoc s a o s1 e1 s2 e : prun s a = Ok (s1, e1) -> pstep s1 o = Ok (s2, e) ->
  prun s (a ++ [o]) = Ok (s2, e1 ++ [e]).
Proof.
  revert s e1. induction a as [|x a IH]; intros s e1 H1 H2; cbn [app prun] in *.
  - injection H1 as <- <-. rewrite H2. reflexivity.
  - destruct (pstep s x) as [[sx ex]| |]; cbn [bind] in *; try discriminate.
    destruct (prun sx a) as [[sy ey]| |] eqn:E; cbn [bind] in *; try discriminate.
    injection H1 as <- <-. rewrite (IH _ _ E H2). reflexivity.
Qed.

Lemma nget_run max n : 248 <= max -> (n <= 248)%nat ->
  exists s es, prun (pool_init max) (nget n) = Ok (s, es) /\ in_use s = n.
Proof.
  intros Hmax. induction n as [|n IH]; intros Hn.
  - exists (pool_init max), []. split; reflexivity.
  - destruct (IH ltac:(lia)) as (s & es & H & U).
    destruct (proj1 (proj2 (creation_succeeds_below_248 _ _ _ _ Hmax H)) ltac:(lia)) as (s' & p & Hst).
    exists s', (es ++ [EvNew p]). cbn [nget]. split; [eapply prun_snoc; eassumption|].
    rewrite (in_use_new _ _ _ _ _ Hst). lia.
Qed.

Lemma creation_fails_at_248 max : 248 <= max ->
  exists ops s es s' e, prun (pool_init max) ops = Ok (s, es) /\ in_use s = 248%nat /\
    pstep s (PGet true true) = Ok (s', EvErr e).
Proof.
  intros Hmax. destruct (nget_run max 248 Hmax ltac:(lia)) as (s & es & H & U).
  destruct (reach_inv _ _ _ _ H) as (I & M & _).
  destruct (create_exact s I ltac:(lia)) as (s' & e & Hst & _ & H2 & _).
  exists (nget 248), s, es, s'.
  destruct (H2 ltac:(lia)) as [->| ->]; eauto.
Qed.

(** ** Handle reuse after 65535 installs *)
Definition cyc (k : nat) : list pop :=
  [PGet true true; PInstall k; PUninstall k; PRelease k].
Fixpoint cycles (n : nat) : list pop :=
  match n with O => [] | S n => cycles n ++ cyc n end.

Definition idle (max : Z) (n : nat) (s : pool) : Prop :=
  p_max s = max /\ p_tbl s = repeat None 8 /\ p_bits s = mkBitmap [0] 8 /\
  p_life s = Z.of_nat n mod 65535 + 1 /\ length (p_objs s) = n.

Lemma upd_snoc {A} (l : list A) x y n : n = length l -> upd (l ++ [x]) n y = l ++ [y].
Proof. intros ->. induction l; cbn; [reflexivity|]. f_equal. assumption. Qed.
Lemma nth_snoc {A} (l : list A) x n : n = length l -> nth_error (l ++ [x]) n = Some x.
Proof. intros ->. rewrite nth_error_app2 by lia. rewrite Nat.sub_diag. reflexivity. Qed.

Lemma get_idle max n s : idle max n s ->
  pstep s (PGet true true) =
    Ok (mkPool max (repeat None 8) (mkBitmap [1] 8) (p_life s) (p_objs s ++ [mkObj 0 (-1) Reserved 0]) (p_ninst s),
        EvNew n).
Proof.
  intros (M & T & B & L & O). cbn [pstep]. unfold get_unused. rewrite B.
  change (bitmap_find_first_zero_bit (mkBitmap [0] 8)) with 0. change (0 <? 0) with false. cbv iota.
  change (bitmap_set (mkBitmap [0] 8) 0) with (Ok (mkBitmap [1] 8)).
  cbn [bind p_max p_tbl p_bits p_life p_objs p_ninst]. change (0 <? 0) with false. cbv iota.
  rewrite M, T, O. reflexivity.
Qed.

Lemma install_idle max n s l : l = p_life s -> 1 <= l <= 65535 -> length (p_objs s) = n ->
  pstep (mkPool max (repeat None 8) (mkBitmap [1] 8) l (p_objs s ++ [mkObj 0 (-1) Reserved 0]) (p_ninst s))
        (PInstall n) =
  Ok (mkPool max (Some n :: repeat None 7) (mkBitmap [1] 8)
         (if u16 (l + 1) =? 0 then 1 else u16 (l + 1))
         (p_objs s ++ [mkObj 0 (make_obj_id 0 l) Installed (p_ninst s)]) (p_ninst s + 1),
      EvHandle (make_obj_id 0 l)).
Proof.
  intros -> Hl O. cbn [pstep p_objs]. rewrite nth_snoc by auto. cbn [o_phase].
  unfold install. cbn [o_slot]. unfold p_size, cell, set_cell, set_obj. cbn [p_tbl p_objs p_max p_bits p_life p_ninst].
  cbn [repeat length Z.of_nat Z.ltb Z.leb Z.compare orb nth_error Z.to_nat Pos.of_succ_nat Pos.succ upd bind].
  rewrite upd_snoc by auto. reflexivity.
Qed.

Lemma cyc_run max n s : idle max n s ->
  exists s' es, prun s (cyc n) = Ok (s', es) /\ idle max (S n) s' /\ issued es = 1%nat.
Proof.
  intros I. pose proof (get_idle _ _ _ I) as G. destruct I as (M & T & B & L & O).
  unfold cyc. cbn [prun]. rewrite G. cbn [bind].
  rewrite (install_idle max n s (p_life s) eq_refl ltac:(rewrite L; lia) O). cbn [bind].
  set (l' := if u16 (p_life s + 1) =? 0 then 1 else u16 (p_life s + 1)).
  assert (Hl' : l' = Z.of_nat (S n) mod 65535 + 1).
  { subst l'. rewrite L. unfold u16. destruct (Z.eqb_spec ((Z.of_nat n mod 65535 + 1 + 1) mod 65536) 0); lia. }
  assert (Hgid : get_id (make_obj_id 0 (p_life s)) = 0) by (apply get_id_make; [lia|rewrite L; lia]).
  cbn [pstep p_objs]. rewrite nth_snoc by auto. cbn [o_phase].
  unfold uninstall. cbn [o_handle]. rewrite Hgid.
  unfold p_size, cell, set_cell, set_obj. cbn [p_tbl p_objs p_max p_bits p_life p_ninst].
  cbn [repeat length Z.of_nat Z.ltb Z.leb Z.compare orb nth_error Z.to_nat Pos.of_succ_nat Pos.succ upd bind].
  rewrite Nat.eqb_refl. cbn [bind p_objs o_slot o_handle o_nth]. rewrite upd_snoc by auto. rewrite nth_snoc by auto.
  cbn [o_phase]. unfold release, put_unused, p_size. cbn [o_phase o_handle]. rewrite Hgid.
  cbn [p_tbl p_bits p_max p_life p_objs p_ninst].
  cbn [repeat length Z.of_nat Z.ltb Z.leb Z.compare orb nth_error Z.to_nat Pos.of_succ_nat Pos.succ upd bind].
  change (bitmap_clear (mkBitmap [1] 8) 0) with (Ok (mkBitmap [0] 8)).
  cbn [bind p_tbl p_bits p_max p_life p_objs p_ninst]. unfold set_obj. cbn [p_objs]. rewrite upd_snoc by auto.
  eexists; eexists. split; [reflexivity|]. split; [|reflexivity].
  split; [reflexivity|]. split; [reflexivity|]. split; [reflexivity|]. split; [exact Hl'|].
  cbn [p_objs]. rewrite app_length. cbn. lia.
Qed.

Lemma prun_app_ok s a s1 e1 b s2 e2 : prun s a = Ok (s1, e1) -> prun s1 b = Ok (s2, e2) ->
  prun s (a ++ b) = Ok (s2, e1 ++ e2).
Proof.
  revert s e1. induction a as [|x a IH]; intros s e1 H1 H2; cbn [app prun] in *.
  - injection H1 as <- <-. assumption.
  - destruct (pstep s x) as [[sx ex]| |]; cbn [bind] in *; try discriminate.
    destruct (prun sx a) as [[sy ey]| |] eqn:E; cbn [bind] in *; try discriminate.
    injection H1 as <- <-. rewrite (IH _ _ E H2). reflexivity.
Qed.

Lemma cycles_run max n :
  exists s es, prun (pool_init max) (cycles n) = Ok (s, es) /\ idle max n s /\ issued es = n.
Proof.
  induction n as [|n (s & es & H & I & C)].
  - exists (pool_init max), []. repeat split; reflexivity.
  - destruct (cyc_run _ _ _ I) as (s' & es' & H' & I' & C').
    exists s', (es ++ es'). cbn [cycles]. split; [eapply prun_app_ok; eassumption|].
    split; [assumption|]. rewrite issued_app. lia.
Qed.

(** A handle deleted long ago resolves to an unrelated new object after exactly
    65535 further creations. *)
Lemma handle_reuse max :
  exists ops s es, prun (pool_init max) ([PGet true true; PInstall 0; PUninstall 0; PRelease 0] ++ ops) = Ok (s, es) /\
    nth_error es 1 = Some (EvHandle 65536) /\
    nth_error es 2 = Some (EvUninst 0) /\
    Z.of_nat (issued es) = 65536 /\
    exists p, lookup s 65536 = Ok (Some p) /\ p <> 0%nat.
Proof.
  assert (exists n, Z.of_nat n = 65535) as (n & HnZ) by (exists (Z.to_nat 65535); lia).
  destruct (cycles_run max n) as (s & es & H & I & C).
  assert (Hn : exists m tl, n = S m /\ cycles n = cyc 0 ++ tl).
  { destruct n as [|m]; [lia|]. exists m. clear.
    enough (exists tl, cycles (S m) = cyc 0 ++ tl) as (tl & Htl) by eauto.
    induction m as [|m (tl & IH)]; [exists []; reflexivity|].
    exists (tl ++ cyc (S m)). change (cycles (S (S m))) with (cycles (S m) ++ cyc (S m)).
    rewrite IH, app_assoc. reflexivity. }
  destruct Hn as (m & tl & Hnm & Htl).
  pose proof (get_idle _ _ _ I) as G. pose proof I as (M & T & B & L & O).
  assert (L1 : p_life s = 1). { rewrite L, HnZ. reflexivity. }
  pose proof (install_idle max n s (p_life s) eq_refl ltac:(lia) O) as In.
  assert (F : prun s [PGet true true; PInstall n] = Ok
     (mkPool max (Some n :: repeat None 7) (mkBitmap [1] 8) (if u16 (p_life s + 1) =? 0 then 1 else u16 (p_life s + 1))
         (p_objs s ++ [mkObj 0 (make_obj_id 0 (p_life s)) Installed (p_ninst s)]) (p_ninst s + 1),
      [EvNew n; EvHandle (make_obj_id 0 (p_life s))])).
  { cbn [prun]. rewrite G. cbn [bind]. rewrite In. reflexivity. }
  pose proof (prun_app_ok _ _ _ _ _ _ _ H F) as R.
  exists (tl ++ [PGet true true; PInstall n]).
  eexists. eexists. rewrite app_assoc. unfold cyc in Htl. rewrite <- Htl. split; [exact R|].
  (* the first events *)
  assert (Hfirst : exists rest, es = EvNew 0 :: EvHandle 65536 :: EvUninst 0 :: EvReleased :: rest).
  { rewrite Htl in H. apply prun_app in H. destruct H as (s1 & ea & eb & Ha & Hb & ->).
    assert (Ha' : prun (pool_init max) (cyc 0) =
       Ok (mkPool max (repeat None 8) (mkBitmap [0] 8) 2 [mkObj 0 65536 Released 0] 1,
           [EvNew 0; EvHandle 65536; EvUninst 0; EvReleased])) by (vm_compute; reflexivity).
    unfold cyc in Ha'. rewrite Ha' in Ha. injection Ha as <- <-. exists eb. reflexivity. }
  destruct Hfirst as (rest & ->).
  split; [reflexivity|]. split; [reflexivity|]. split.
  { rewrite issued_app, C. cbn [issued]. lia. }
  rewrite L1. unfold lookup. change (get_id 65536) with 0. unfold p_size, cell.
  cbn [p_tbl repeat length Z.of_nat Z.ltb Z.leb Z.compare nth_error Z.to_nat Pos.of_succ_nat Pos.succ p_objs].
  rewrite nth_snoc by auto. cbn [o_phase o_handle]. change (make_obj_id 0 1) with 65536.
  rewrite Z.eqb_refl. exists n. split; [reflexivity|lia].
Qed.
