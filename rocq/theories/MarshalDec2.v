(** * Decoding an encoded value reconstructs it (continued) *)
From Verif Require Import Base Psb PsbSpec PsbProof Arith Marshal MarshalSpec MarshalChain MarshalSafe MarshalDec.

Ltac Zify.zify_post_hook ::= Z.div_mod_to_equations.

Section Decode.
  Variable E : menv.
  Variable T : ttab.
  Variable strict : bool.
  Hypothesis Hnull : e_helper_null E = true.
  Hypothesis Hok : types_ok T.
  Variable present : Z -> Prop.
  Hypothesis Hpresent : forall b, present b -> b <> 0.
  Notation rf := (flat_reader strict).

  Definition alloc_failed : Prop := exists n (s1 s2 : fst_), malloc (list Z) E n s1 = RVal None s2.

  Definition dspec {A} (r : res fst_ A) (Q : A -> fst_ -> Prop) : Prop :=
    match r with
    | RVal a s => Q a s
    | RErr e s => e = - AOSL_ENOMEM /\ alloc_failed
    | RFuel | RBad _ | RUB => False
    end.
  Lemma dbind {A B} (m : fst_ -> res fst_ A) (k : A -> fst_ -> res fst_ B) s Q :
    dspec (m s) (fun a s1 => dspec (k a s1) Q) -> dspec (rbind m k s) Q.
  Proof. unfold rbind. destruct (m s); cbn; auto. Qed.
  Lemma dmono {A} (r : res fst_ A) (Q Q' : A -> fst_ -> Prop) :
    dspec r Q -> (forall a s, Q a s -> Q' a s) -> dspec r Q'.
  Proof. destruct r; cbn; auto. Qed.

  Lemma dwrite P s0 s k a bs (Q : unit -> fst_ -> Prop) :
    adv P s0 s k -> mapped s (fun x => a <= x < a + zlen bs) ->
    (forall x, a <= x < a + zlen bs -> P x \/ u_mem s0 x = None) ->
    (forall s', adv P s0 s' k ->
       (forall x, u_mem s' x = if (a <=? x) && (x <? a + zlen bs) then nth_error bs (Z.to_nat (x - a)) else u_mem s x) ->
       u_in s' = u_in s -> Q tt s') ->
    dspec (write (list Z) a bs s) Q.
  Proof.
    intros Ha Hm HP HQ. pose proof (write_spec E strict P s0 s k a bs (fun u s' => Q u s') Ha Hm HP) as H.
    assert (H' : spec P s0 (write (list Z) a bs s) Q) by (apply H; intros; apply HQ; assumption).
    unfold write in *. destruct (mwrite (u_mem s) a bs); [exact H'|contradiction].
  Qed.
  Lemma dmalloc P s0 s k n (Q : option Z -> fst_ -> Prop) :
    adv P s0 s k ->
    (forall s', alloc_failed -> adv P s0 s' k -> u_mem s' = u_mem s -> u_in s' = u_in s -> Q None s') ->
    (forall s' a, adv P s0 s' k -> 0 < a -> a + n <= 2 ^ 63 ->
       (forall x, a <= x < a + n -> u_mem s x = None /\ exists b, u_mem s' x = Some b) ->
       (forall x, ~ (a <= x < a + n) -> u_mem s' x = u_mem s x) ->
       u_in s' = u_in s -> Q (Some a) s') ->
    dspec (malloc (list Z) E n s) Q.
  Proof.
    intros Ha HN HS.
    assert (H' : spec P s0 (malloc (list Z) E n s)
      (fun o s' => (o = None -> alloc_failed) -> Q o s')).
    { eapply (malloc_spec E strict); [exact Ha| |].
      - intros s' H1 H2 H3 Hf. apply HN; auto.
      - intros s' a H1 H2 H3 H4 H5 H6 _. eapply HS; eauto. }
    destruct (malloc (list Z) E n s) as [o s'|e s'|r| |] eqn:Em; cbn in *; auto.
    - apply H'. intros ->. exists n, s, s'. exact Em.
    - exfalso. unfold malloc in Em. destruct (e_addr E (u_nalloc s)); [|discriminate].
      destruct (_ && _ && _); discriminate.
    - unfold malloc in Em. destruct (e_addr E (u_nalloc s)); [|discriminate].
      destruct (_ && _ && _); discriminate.
  Qed.
  Lemma dbase P s0 s k w rest (Q : list Z -> fst_ -> Prop) :
    adv P s0 s k -> u_in s = w ++ rest ->
    (forall s', adv P s0 s' (k + zlen w) -> u_mem s' = u_mem s -> u_in s' = rest -> Q w s') ->
    dspec (base (list Z) rf (zlen w) s) Q.
  Proof.
    intros Ha Ein HQ. unfold base. cbn [r_base flat_reader]. rewrite Ein.
    pose proof (zlen_nonneg rest). pose proof (zlen_nonneg w).
    rewrite zlen_app. replace (zlen w + zlen rest <? zlen w) with false by lia.
    replace (Z.to_nat (zlen w)) with (length w) by (unfold zlen; lia).
    rewrite firstn_app, skipn_app, firstn_all, skipn_all. replace (length w - length w)%nat with O by lia.
    cbn [firstn skipn]. rewrite app_nil_r, app_nil_l. cbn [dspec]. apply HQ; auto.
    destruct Ha as (H1 & H2 & H3). split.
    - rewrite H2 in Ein. apply (f_equal zlen) in Ein. rewrite zlen_app in Ein. unfold zlen in *. rewrite skipn_length in Ein. lia.
    - split; [|exact H3]. cbn [u_in]. replace (Z.to_nat (k + zlen w)) with (Z.to_nat k + length w)%nat by (unfold zlen in *; lia).
      rewrite <- skipn_skipn, <- H2, Ein, skipn_app, skipn_all. replace (length w - length w)%nat with O by lia. reflexivity.
  Qed.
  Lemma ddec_bytes P s0 s k a w rest (Q : Z -> fst_ -> Prop) :
    adv P s0 s k -> u_in s = w ++ rest ->
    mapped s (fun x => a <= x < a + zlen w) ->
    (forall x, a <= x < a + zlen w -> P x \/ u_mem s0 x = None) ->
    (forall s', adv P s0 s' (k + zlen w) -> bytes_at (u_mem s') a w -> u_in s' = rest ->
       (forall x, ~ (a <= x < a + zlen w) -> u_mem s' x = u_mem s x) ->
       Q (zlen w) s') ->
    dspec (dec_bytes (list Z) rf a (zlen w) s) Q.
  Proof.
    intros Ha Ein Hm HP HQ. unfold dec_bytes. cbn [r_bytes flat_reader]. rewrite Ein.
    pose proof (zlen_nonneg rest). pose proof (zlen_nonneg w).
    rewrite zlen_app. replace (zlen w <=? zlen w + zlen rest) with true by lia.
    replace (Z.to_nat (zlen w)) with (length w) by (unfold zlen; lia).
    rewrite firstn_app, skipn_app, firstn_all, skipn_all. replace (length w - length w)%nat with O by lia.
    cbn [firstn skipn]. rewrite app_nil_r, app_nil_l. apply dbind.
    eapply dwrite with (P := P) (s0 := s0) (k := k + zlen w); [| | |].
    - destruct Ha as (H1 & H2 & H3). split.
      + rewrite H2 in Ein. apply (f_equal zlen) in Ein. rewrite zlen_app in Ein. unfold zlen in *. rewrite skipn_length in Ein. lia.
      + split; [|exact H3]. cbn [u_in]. replace (Z.to_nat (k + zlen w)) with (Z.to_nat k + length w)%nat by (unfold zlen in *; lia).
        rewrite <- skipn_skipn, <- H2, Ein, skipn_app, skipn_all. replace (length w - length w)%nat with O by lia. reflexivity.
    - exact Hm.
    - exact HP.
    - intros s' Ha' Hm' Hin'. cbn [rret dspec]. apply HQ; auto.
      + apply bytes_at_intro. intros x Hx. rewrite Hm'. replace ((a <=? x) && (x <? a + zlen w)) with true by lia. reflexivity.
      + intros x Hx. rewrite Hm'. replace ((a <=? x) && (x <? a + zlen w)) with false by lia. reflexivity.
  Qed.
  Lemma ddec16 P s0 s k v rest (Q : Z -> fst_ -> Prop) :
    adv P s0 s k -> u_in s = le_bytes 2 v ++ rest -> 0 <= v < 65536 ->
    (forall s', adv P s0 s' (k + 2) -> u_mem s' = u_mem s -> u_in s' = rest -> Q v s') ->
    dspec (dec16 (list Z) rf s) Q.
  Proof.
    intros Ha Ein Hv HQ. unfold dec16. apply dbind.
    change 2 with (zlen (le_bytes 2 v)). eapply dbase; [eassumption|eassumption|].
    intros s' H1 H2 H3. cbn [rret dspec]. rewrite le_val_bytes by (cbn; lia).
    replace (cpu_to_le16 v) with v by (unfold cpu_to_le16, u16; lia). apply HQ; assumption.
  Qed.
  Lemma dpresence P s0 s k b rest (Q : Z -> fst_ -> Prop) :
    adv P s0 s k -> u_in s = b :: rest ->
    (forall s', adv P s0 s' (k + 1) -> u_mem s' = u_mem s -> u_in s' = rest -> Q b s') ->
    dspec (presence (list Z) rf E s) Q.
  Proof.
    intros Ha Ein HQ. unfold presence. rewrite Hnull. apply dbind.
    change 1 with (zlen [b]). eapply dbase; [eassumption|exact Ein|].
    intros s' H1 H2 H3. cbn [rret dspec le_val]. replace (b + 256 * 0) with b by lia. apply HQ; assumption.
  Qed.
  Lemma dstrsize s str rest (Q : Z -> fst_ -> Prop) :
    u_in s = str ++ 0 :: rest -> no_nul str -> Q (zlen str + 1) s ->
    dspec (strsize (list Z) rf s) Q.
  Proof.
    intros Ein Hs HQ. unfold strsize. cbn [r_strsize flat_reader]. rewrite Ein, nul_index_string by assumption. exact HQ.
  Qed.

  (** The result of decoding [v] of type [t] at [p]. *)
  Definition owned (P : Z -> Prop) (s : fst_) (F : list Z) : Prop :=
    forall a, In a F -> P a \/ u_mem s a = None.
  Definition decodes (f t : nat) (p : Z) (v : val) (w : list Z) : Prop :=
    forall s rest, u_in s = w ++ rest -> mapped s (part T t p) ->
      dspec (unmarshal (list Z) rf E T f t p s)
        (fun n s' => n = zlen w /\ u_in s' = rest /\ adv (part T t p) s s' (zlen w) /\
           exists F, holds T (u_mem s') t p v F /\ owned (part T t p) s F).
  Definition fparts (t : nat) (p : Z) (a : Z) : Prop := exists c, field T t c /\ part T c p a.
  Definition apart (t : nat) : Prop :=
    forall c c' a, field T t c -> field T t c' -> c <> c' -> part T c 0 a -> part T c' 0 a -> False.
  Definition decodes_fields (f t : nat) (p : Z) (vs : list val) (w : list Z) : Prop :=
    forall s rest k len, u_in s = w ++ rest -> mapped s (fparts t p) -> apart t -> (length T < t + k)%nat ->
      dspec (each_field T (fun t' => unmarshal (list Z) rf E T f t' p) k t len s)
        (fun n s' => n = len + zlen w /\ u_in s' = rest /\ adv (fparts t p) s s' (zlen w) /\
           exists F, holds_fields T (u_mem s') t p vs F /\ owned (fparts t p) s F).
  Definition eparts (t : nat) (p sz i : Z) (k : nat) (a : Z) : Prop :=
    exists j, i <= j < i + Z.of_nat k /\ part T t (p + sz * j) a.
  Definition decodes_elems (f t : nat) (p sz : Z) (vs : list val) (w : list Z) : Prop :=
    forall s rest i len, u_in s = w ++ rest -> mapped s (eparts t p sz i (length vs)) ->
      dspec (each_elem (unmarshal (list Z) rf E T f t) p sz i (length vs) len s)
        (fun n s' => n = len + zlen w /\ u_in s' = rest /\ adv (eparts t p sz i (length vs)) s s' (zlen w) /\
           exists F, holds_elems T (u_mem s') t p sz i vs F /\ owned (eparts t p sz i (length vs)) s F).

  (** The entry has no callback. *)
  Lemma unmarshal_unfold f t ti p s : nth_error T t = Some ti -> ti_have ti = None ->
    forall (Q : Z -> fst_ -> Prop),
    (forall m, dspec ((fun (_ : mem) => unmarshal (list Z) rf E T (S f) t p s) m) Q) ->
    dspec (unmarshal (list Z) rf E T (S f) t p s) Q.
  Proof. intros _ _ Q H. apply (H (u_mem s)). Qed.

  Lemma keep_holds P s s' k t p v F : adv P s s' k -> holds T (u_mem s) t p v F ->
    (forall a, In a F -> ~ P a) -> holds T (u_mem s') t p v F.
  Proof.
    intros (_ & _ & Hk) Hh HF. eapply holds_frame; [eassumption|]. intros a Ha.
    pose proof (holds_mapped T _ _ _ _ _ Hh a Ha) as Hm.
    destruct (u_mem s a) as [b|] eqn:Eb; [|congruence]. apply (Hk a b Eb). auto.
  Qed.
  Lemma inline_part t ti p n x : nth_error T t = Some ti -> inline_size (ti_id ti) = Some n ->
    p + ti_off ti <= x < p + ti_off ti + n -> part T t p x.
  Proof. intros. eapply P_inline; eassumption. Qed.
  Lemma part_disj c c' p a t : apart t -> field T t c -> field T t c' -> c <> c' -> part T c p a -> part T c' p a -> False.
  Proof.
    intros Ha H1 H2 H3 H4 H5. apply part_shift with (d := - p) in H4, H5.
    replace (p + - p) with 0 in * by lia. exact (Ha _ _ _ H1 H2 H3 H4 H5).
  Qed.
  Lemma field_S t ti c : nth_error T t = Some ti -> ti_id ti <> TVoid -> field T (S t) c -> field T t c.
  Proof.
    intros Et Hv [H1 H2]. split; [lia|]. intros i Hi. destruct (Nat.eq_dec i t) as [->|]; [eauto|]. apply H2. lia.
  Qed.
  Lemma child_lt c sz : type_size T c = GSize sz -> (c < length T)%nat.
  Proof. intros Esz. unfold type_size, get_type_size in Esz. apply nth_error_Some. intros En. rewrite En in Esz. discriminate. Qed.

  Lemma decodes_all :
    (forall t v w, wire T present t v w -> exists f0, forall f, (f0 <= f)%nat -> forall p, decodes f t p v w) /\
    (forall t vs w, wire_fields T present t vs w -> exists f0, forall f, (f0 <= f)%nat -> forall p, decodes_fields f t p vs w) /\
    (forall t vs w, wire_elems T present t vs w -> forall sz, fits T t -> type_size T t = GSize sz ->
       exists f0, forall f, (f0 <= f)%nat -> forall p, decodes_elems f t p sz vs w).
  Proof.
    apply wire_mut.
    - (* void *)
      intros t ti Et Eh Ei. exists 1%nat. intros [|f] Hf p; [lia|]. intros s rest Ein Hm. cbn [unmarshal]. rewrite Et.
      apply dbind. cbn [umem dspec]. rewrite Eh, Ei. cbn [rret dspec].
      split; [reflexivity|]. split; [exact Ein|]. split; [apply adv_refl|].
      exists []. split; [eapply H_void; eassumption|]. intros a [].
    - (* plain *)
      intros t ti n bs Et Eh Ei Hn Hb. exists 1%nat. intros [|f] Hf p; [lia|]. intros s rest Ein Hm. cbn [unmarshal]. rewrite Et.
      assert (Hpart : forall x, p + ti_off ti <= x < p + ti_off ti + n -> part T t p x).
      { intros x Hx. eapply inline_part; [eassumption| |eassumption]. destruct (ti_id ti); try discriminate Ei; exact Ei. }
      apply dbind. cbn [umem dspec]. rewrite Eh.
      assert (Hraw : forall bs', bs' = bs -> dspec ((get _ <- write (list Z) (p + ti_off ti) bs'; rret n)
                                 (mkU (u_mem s) rest (u_nalloc s) (u_blocks s)))
        (fun n s' => n = zlen bs /\ u_in s' = rest /\ adv (part T t p) s s' (zlen bs) /\
           exists F, holds T (u_mem s') t p (VBytes bs) F /\ owned (part T t p) s F)).
      { intros bs' ->. apply dbind. eapply dwrite with (P := part T t p) (s0 := s) (k := zlen bs).
        - split; [|split].
          + rewrite Ein, zlen_app. pose proof (zlen_nonneg rest). pose proof (zlen_nonneg bs). lia.
          + rewrite Ein. replace (Z.to_nat (zlen bs)) with (length bs) by (unfold zlen; lia).
            rewrite skipn_app, skipn_all. replace (length bs - length bs)%nat with O by lia. reflexivity.
          + intros a b Hab. cbn [u_mem]. eauto.
        - intros x Hx. cbn [u_mem]. apply Hm, Hpart. lia.
        - intros x Hx. left. apply Hpart. lia.
        - intros s' Ha' Hm' Hin'. cbn [rret dspec]. split; [lia|]. split; [exact Hin'|]. split; [exact Ha'|].
          eexists. split.
          + eapply H_plain; [eassumption|eassumption|exact Ei| |exact Hn|exact Hb].
            apply bytes_at_intro. intros x Hx. rewrite Hm'.
            replace ((p + ti_off ti <=? x) && (x <? p + ti_off ti + zlen bs)) with true by lia. reflexivity.
          + intros a Ha. apply in_range in Ha. left. apply Hpart. lia. }
      assert (Hbase : forall k, k = n -> forall (g : list Z -> fst_ -> res fst_ Z) Q,
         dspec (g bs (mkU (u_mem s) rest (u_nalloc s) (u_blocks s))) Q ->
         dspec (rbind (base (list Z) rf k) g s) Q).
      { intros k -> g Q HQ. unfold rbind, base. cbn [r_base flat_reader].
        rewrite Ein, zlen_app, Hn. pose proof (zlen_nonneg rest). replace (n + zlen rest <? n) with false by lia.
        replace (Z.to_nat n) with (length bs) by (unfold zlen in Hn; lia).
        rewrite firstn_app, skipn_app, firstn_all, skipn_all. replace (length bs - length bs)%nat with O by lia.
        cbn [firstn skipn]. rewrite app_nil_r, app_nil_l. exact HQ. }
      pose proof (le_val_range bs Hb) as Hvr. pose proof (le_bytes_val bs Hb) as Hlv. 
      destruct (ti_id ti) eqn:Eid; try discriminate Ei; cbn in Ei; injection Ei as <-;
        unfold dec_base, dec_raw; (apply Hbase; [reflexivity|]); apply Hraw; try reflexivity;
        rewrite Hn in Hvr;
        match goal with |- le_bytes ?k (?fn _) = _ => replace (fn (le_val bs)) with (le_val bs);
          [replace k with (length bs); [exact Hlv|unfold zlen in Hn; cbn; lia]|] end;
        cbn in Hvr; unfold cpu_to_le16, cpu_to_le32, cpu_to_le64, u8, u16, u32, u64; symmetry; apply Z.mod_small; exact Hvr.
    - (* null *)
      intros t ti Et Eh Ei. exists 1%nat. intros [|f] Hf p; [lia|]. intros s rest Ein Hm. cbn [unmarshal]. rewrite Et.
      assert (Hpart : forall x, p + ti_off ti <= x < p + ti_off ti + 8 -> part T t p x).
      { intros x Hx. eapply inline_part; [eassumption| |eassumption]. destruct Ei as [-> | ->]; reflexivity. }
      apply dbind. cbn [umem dspec]. rewrite Eh.
      assert (Hgo : forall k : Z -> fst_ -> res fst_ Z, k 0 = (get _ <- write_ptr (list Z) (p + ti_off ti) 0; rret 1) ->
        dspec ((get b <- presence (list Z) rf E; k b) s)
        (fun n s' => n = zlen [0] /\ u_in s' = rest /\ adv (part T t p) s s' (zlen [0]) /\
           exists F, holds T (u_mem s') t p VNull F /\ owned (part T t p) s F)).
      { intros k Ek. apply dbind. eapply dpresence; [apply (adv_refl (part T t p))|exact Ein|].
        intros s1 Ha1 Hm1 Hin1. rewrite Ek. apply dbind. unfold write_ptr. eapply dwrite; [exact Ha1| | |].
        - rewrite zlen_le_bytes. intros x Hx. rewrite Hm1. apply Hm, Hpart. lia.
        - rewrite zlen_le_bytes. intros x Hx. left. apply Hpart. lia.
        - intros s2 Ha2 Hm2 Hin2. cbn [rret dspec]. split; [reflexivity|]. split; [congruence|]. split; [exact Ha2|].
          eexists. split.
          + eapply H_null; [eassumption|eassumption|exact Ei|]. apply num_at_bytes; [|cbn; lia].
            apply bytes_at_intro. intros x Hx. rewrite Hm2. rewrite zlen_le_bytes in *.
            replace ((p + ti_off ti <=? x) && (x <? p + ti_off ti + Z.of_nat 8)) with true by lia. reflexivity.
          + intros a Ha. apply in_range in Ha. left. apply Hpart. lia. }
      destruct Ei as [Ei|Ei]; rewrite Ei; apply Hgo; reflexivity.
    - (* pointer *)
      intros t ti b0 v w Et Eh Ei Hb0 Hw (f0 & IH). exists (S f0). intros [|f] Hf p; [lia|].
      intros s rest Ein Hm. cbn [unmarshal]. rewrite Et. cbn [app] in Ein.
      assert (Hpart : forall x, p + ti_off ti <= x < p + ti_off ti + 8 -> part T t p x).
      { intros x Hx. eapply inline_part; [eassumption| |eassumption]. rewrite Ei; reflexivity. }
      pose proof (Hok _ _ Et) as [_ He]. rewrite Ei in He. pose proof He as (sz & Esz & Hszr & _).
      apply dbind. cbn [umem dspec]. rewrite Eh, Ei.
      apply dbind. eapply dpresence; [apply (adv_refl (part T t p))|exact Ein|]. intros s1 Ha1 Hm1 Hin1.
      replace (negb (b0 =? 0)) with true by (apply Hpresent in Hb0; lia). rewrite Esz.
      apply dbind. eapply dmalloc; [exact Ha1|intros s2 Hf2 _ _ _; cbn; auto|].
      intros s2 q Ha2 Hq0 Hq1 Hnew Hold Hin2.
      apply dbind. unfold write_ptr. eapply dwrite; [exact Ha2| | |].
      { rewrite zlen_le_bytes. intros x Hx. eapply mapped_adv; [exact Hm|exact Ha2|]. apply Hpart. lia. }
      { rewrite zlen_le_bytes. intros x Hx. left. apply Hpart. lia. }
      intros s3 Ha3 Hm3 Hin3. rewrite zlen_le_bytes in Hm3.
      assert (Hfit : forall x, part T (ti_child ti) q x -> q <= x < q + sz) by (intros x Hx; eapply fits_part; eassumption).
      assert (Hsep : forall x, q <= x < q + sz -> ~ (p + ti_off ti <= x < p + ti_off ti + 8)).
      { intros x Hx Hx'. destruct (Hnew x Hx) as [Hn _]. rewrite Hm1 in Hn. apply (Hm x); [apply Hpart; assumption|assumption]. }
      assert (Hfresh : forall x, q <= x < q + sz -> u_mem s x = None).
      { intros x Hx. rewrite <- Hm1. apply Hnew, Hx. }
      apply dbind. eapply dmono; [apply (IH f ltac:(lia) q s3 rest)|].
      + rewrite Hin3, Hin2. exact Hin1.
      + intros x Hx. specialize (Hfit x Hx). rewrite Hm3.
        replace ((p + ti_off ti <=? x) && (x <? p + ti_off ti + Z.of_nat 8)) with false by (specialize (Hsep x Hfit); lia).
        destruct (Hnew x Hfit) as [_ [b ->]]. discriminate.
      + cbn [rret dspec]. intros n s4 (-> & Hin4 & Ha4 & F & HF & HO). 
        assert (Hzl : zlen (b0 :: w) = 1 + zlen w) by (unfold zlen; cbn [length]; lia).
        split; [lia|]. split; [exact Hin4|]. split.
        * rewrite Hzl. replace (1 + zlen w) with (0 + 1 + zlen w) by lia. eapply adv_trans; [exact Ha3|exact Ha4|].
          intros x Hx. right. apply Hfresh, Hfit, Hx.
        * eexists. split.
          -- eapply H_pointer; [eassumption|eassumption|exact Ei| | |exact HF].
             2: lia.
             eapply num_at_frame with (m := u_mem s3).
             ++ intros x Hx. cbn in Hx. destruct Ha4 as (_ & _ & Hk).
                destruct (u_mem s3 x) as [b|] eqn:Eb.
                ** apply (Hk x b Eb). intros Hc. specialize (Hfit x Hc). apply (Hsep x Hfit). lia.
                ** exfalso. rewrite Hm3 in Eb. replace ((p + ti_off ti <=? x) && _) with true in Eb by lia.
                   apply nth_error_None in Eb. rewrite le_bytes_len in Eb. lia.
             ++ apply num_at_bytes.
                ** apply bytes_at_intro. rewrite zlen_le_bytes. intros x Hx. rewrite Hm3.
                   replace ((p + ti_off ti <=? x) && _) with true by lia. reflexivity.
                ** change (256 ^ Z.of_nat 8) with (2 ^ 64). lia.
          -- intros a Ha. apply in_app_or in Ha. destruct Ha as [Ha|Ha].
             ++ apply in_range in Ha. left. apply Hpart, Ha.
             ++ right. destruct (HO a Ha) as [Hc|Hc]; [apply Hfresh, Hfit, Hc|].
                destruct (u_mem s a) as [b|] eqn:Eb; [|reflexivity]. exfalso.
                destruct Ha3 as (_ & _ & Hk). destruct (Hk a b Eb) as [[b' Hb'] _]. congruence.
    - (* reference *)
      intros t ti v w Et Eh Ei Hw (f0 & IH). exists (S f0). intros [|f] Hf p; [lia|].
      intros s rest Ein Hm. cbn [unmarshal]. rewrite Et. apply dbind. cbn [umem dspec]. rewrite Eh, Ei.
      eapply dmono; [apply (IH f ltac:(lia) _ s rest Ein)|].
      + intros x Hx. apply Hm. eapply P_ref; eassumption.
      + cbn beta. intros n s' (-> & Hin & Ha & F & HF & HO). split; [reflexivity|]. split; [exact Hin|]. split.
        * eapply adv_weak; [exact Ha|]. intros x Hx. left. eapply P_ref; eassumption.
        * exists F. split; [eapply H_reference; eassumption|]. intros x Hx.
          destruct (HO x Hx) as [Hc|Hc]; [left; eapply P_ref; eassumption|auto].
    - (* string *)
      intros t ti b0 str Et Eh Ei Hb0 Hnn Hlen. exists 1%nat. intros [|f] Hf p; [lia|].
      intros s rest Ein Hm. cbn [unmarshal]. rewrite Et. cbn [app] in Ein. rewrite <- app_assoc in Ein. cbn [app] in Ein.
      assert (Hpart : forall x, p + ti_off ti <= x < p + ti_off ti + 8 -> part T t p x).
      { intros x Hx. eapply inline_part; [eassumption| |eassumption]. rewrite Ei; reflexivity. }
      pose proof (zlen_nonneg str).
      apply dbind. cbn [umem dspec]. rewrite Eh, Ei.
      apply dbind. eapply dpresence; [apply (adv_refl (part T t p))|exact Ein|]. intros s1 Ha1 Hm1 Hin1.
      replace (negb (b0 =? 0)) with true by (apply Hpresent in Hb0; lia).
      apply dbind. eapply dstrsize; [exact Hin1|exact Hnn|].
      replace (u16 (zlen str + 1)) with (zlen (str ++ [0])).
      2:{ rewrite zlen_app. change (zlen [0]) with 1. unfold u16. lia. }
      apply dbind. eapply dmalloc; [exact Ha1|intros s2 Hf2 _ _ _; cbn; auto|].
      intros s2 q Ha2 Hq0 Hq1 Hnew Hold Hin2.
      apply dbind. unfold write_ptr. eapply dwrite; [exact Ha2| | |].
      { rewrite zlen_le_bytes. intros x Hx. eapply mapped_adv; [exact Hm|exact Ha2|]. apply Hpart. lia. }
      { rewrite zlen_le_bytes. intros x Hx. left. apply Hpart. lia. }
      intros s3 Ha3 Hm3 Hin3. rewrite zlen_le_bytes in Hm3. set (sz := zlen (str ++ [0])) in *.
      assert (Hsep : forall x, q <= x < q + sz -> ~ (p + ti_off ti <= x < p + ti_off ti + 8)).
      { intros x Hx Hx'. destruct (Hnew x Hx) as [Hn _]. rewrite Hm1 in Hn. apply (Hm x); [apply Hpart; assumption|assumption]. }
      assert (Hfresh : forall x, q <= x < q + sz -> u_mem s x = None).
      { intros x Hx. rewrite <- Hm1. apply Hnew, Hx. }
      apply dbind. subst sz. eapply ddec_bytes with (rest := rest); [exact Ha3| | | |].
      + rewrite Hin3, Hin2, Hin1, <- app_assoc. reflexivity.
      + intros x Hx. rewrite Hm3.
        replace ((p + ti_off ti <=? x) && (x <? p + ti_off ti + Z.of_nat 8)) with false by (specialize (Hsep x Hx); lia).
        destruct (Hnew x Hx) as [_ [b ->]]. discriminate.
      + intros x Hx. right. apply Hfresh, Hx.
      + intros s4 Ha4 Hb4 Hin4 Hm4. cbn [rret dspec].
        assert (Hzl : zlen (b0 :: str ++ [0]) = 1 + zlen (str ++ [0])) by (unfold zlen; cbn [length]; lia).
        split; [lia|]. split; [exact Hin4|]. split.
        * rewrite Hzl. replace (1 + zlen (str ++ [0])) with (0 + 1 + zlen (str ++ [0])) by lia. exact Ha4.
        * eexists. split.
          -- eapply H_string with (q := q); [eassumption|eassumption|exact Ei| | | |exact Hnn|exact Hlen]; [|lia|exact Hb4].
             apply num_at_bytes; [|change (256 ^ Z.of_nat 8) with (2 ^ 64); pose proof (zlen_nonneg (str ++ [0])); lia].
             apply bytes_at_intro. rewrite zlen_le_bytes. intros x Hx. rewrite Hm4, Hm3.
             ++ replace ((p + ti_off ti <=? x) && _) with true by lia. reflexivity.
             ++ intros Hc. apply (Hsep x Hc). lia.
          -- intros a Ha. apply in_app_or in Ha. destruct Ha as [Ha|Ha]; apply in_range in Ha.
             ++ left. apply Hpart, Ha.
             ++ right. apply Hfresh. rewrite zlen_app. exact Ha.
    - (* struct *)
      intros t ti vs w Et Eh Ei Hw (f0 & IH). exists (S f0). intros [|f] Hf p; [lia|].
      intros s rest Ein Hm. cbn [unmarshal]. rewrite Et. apply dbind. cbn [umem dspec]. rewrite Eh, Ei.
      pose proof (Hok _ _ Et) as [_ He]. rewrite Ei in He. destruct He as [_ Hap].
      assert (Hsub : forall x, fparts (ti_child ti) (p + ti_off ti) x -> part T t p x).
      { intros x (c & Hc & Hx). eapply P_field; eassumption. }
      eapply dmono; [apply (IH f ltac:(lia) (p + ti_off ti) s rest (S (length T)) 0 Ein)|].
      + intros x Hx. apply Hm, Hsub, Hx.
      + exact Hap.
      + lia.
      + cbn beta. intros n s' (-> & Hin & Ha & F & HF & HO). split; [reflexivity|]. split; [exact Hin|]. split.
        * eapply adv_weak; [exact Ha|]. auto.
        * exists F. split; [eapply H_struct; eassumption|]. intros x Hx. destruct (HO x Hx); auto.
    - (* fixed bytes *)
      intros t ti bs Et Eh Ei Hlen. exists 1%nat. intros [|f] Hf p; [lia|].
      intros s rest Ein Hm. cbn [unmarshal]. rewrite Et. apply dbind. cbn [umem dspec]. rewrite Eh, Ei.
      assert (Hpart : forall x, p + ti_off ti <= x < p + ti_off ti + zlen bs -> part T t p x).
      { intros x Hx. eapply P_bytes; [eassumption|rewrite Ei; cbn; auto|lia]. }
      rewrite <- Hlen. eapply ddec_bytes; [apply (adv_refl (part T t p))|exact Ein| | |].
      + intros x Hx. apply Hm, Hpart, Hx.
      + intros x Hx. left. apply Hpart, Hx.
      + intros s' Ha Hb Hin _. split; [reflexivity|]. split; [exact Hin|]. split; [exact Ha|].
        eexists. split; [eapply H_fixed_bytes; eassumption|]. intros a Hr. apply in_range in Hr. left. apply Hpart. lia.
    - (* var bytes *)
      intros t ti bs Et Eh Ei Hlen Hmax. exists 1%nat. intros [|f] Hf p; [lia|].
      intros s rest Ein Hm. cbn [unmarshal]. rewrite Et. apply dbind. cbn [umem dspec]. rewrite Eh, Ei.
      pose proof (Hok _ _ Et) as [_ He]. rewrite Ei in He.
      assert (Hpart : forall x, p + ti_off ti <= x < p + ti_off ti + zlen bs -> part T t p x).
      { intros x Hx. eapply P_bytes; [eassumption|rewrite Ei; cbn; auto|lia]. }
      assert (Hcnt : forall x, p + ti_cnt ti <= x < p + ti_cnt ti + 2 -> part T t p x).
      { intros x Hx. eapply P_count; [eassumption|rewrite Ei; cbn; auto|lia]. }
      rewrite <- app_assoc in Ein. pose proof (zlen_nonneg bs).
      apply dbind. eapply ddec16; [apply (adv_refl (part T t p))|exact Ein|lia|]. intros s1 Ha1 Hm1 Hin1.
      replace (ti_array_size ti <? zlen bs) with false by lia.
      apply dbind. unfold write16. eapply dwrite; [exact Ha1| | |].
      { rewrite zlen_le_bytes. intros x Hx. rewrite Hm1. apply Hm, Hcnt. lia. }
      { rewrite zlen_le_bytes. intros x Hx. left. apply Hcnt. lia. }
      intros s2 Ha2 Hm2 Hin2. rewrite zlen_le_bytes in Hm2.
      apply dbind. eapply ddec_bytes; [exact Ha2|rewrite Hin2; exact Hin1| | |].
      + intros x Hx. eapply mapped_adv; [exact Hm|exact Ha2|]. apply Hpart, Hx.
      + intros x Hx. left. apply Hpart, Hx.
      + intros s3 Ha3 Hb3 Hin3 Hm3. cbn [rret dspec].
        rewrite zlen_app, zlen_le_bytes. change (Z.of_nat 2) with 2.
        split; [reflexivity|]. split; [exact Hin3|]. split; [replace (2 + zlen bs) with (0 + 2 + zlen bs) by lia; exact Ha3|].
        eexists. split.
        * eapply H_var_bytes; [eassumption|eassumption|exact Ei| |exact Hlen|exact Hb3].
          apply num_at_bytes; [|change (256 ^ Z.of_nat 2) with 65536; lia].
          apply bytes_at_intro. rewrite zlen_le_bytes. intros x Hx. rewrite Hm3, Hm2.
          -- replace ((p + ti_cnt ti <=? x) && _) with true by lia. reflexivity.
          -- intros Hc. apply (He (x - p)); lia.
        * intros a Hr. left. apply in_app_or in Hr. destruct Hr as [Hr|Hr]; apply in_range in Hr; [apply Hcnt, Hr|apply Hpart, Hr].
    - (* bytes with NUL *)
      intros t ti str Et Eh Ei Hnn Hlen Hmax. exists 1%nat. intros [|f] Hf p; [lia|].
      intros s rest Ein Hm. cbn [unmarshal]. rewrite Et. apply dbind. cbn [umem dspec]. rewrite Eh, Ei.
      assert (Hpart : forall x, p + ti_off ti <= x < p + ti_off ti + ti_array_size ti -> part T t p x).
      { intros x Hx. eapply P_bytes; [eassumption|rewrite Ei; cbn; auto|lia]. }
      rewrite <- app_assoc in Ein. cbn [app] in Ein. pose proof (zlen_nonneg str).
      apply dbind. eapply dstrsize; [exact Ein|exact Hnn|].
      assert (Hu : u16 (zlen str + 1) = zlen (str ++ [0])).
      { rewrite zlen_app. change (zlen [0]) with 1. unfold u16. lia. }
      rewrite Hu. assert (Hz : zlen (str ++ [0]) = zlen str + 1) by (rewrite zlen_app; reflexivity).
      replace (ti_array_size ti <? zlen (str ++ [0])) with false by lia.
      eapply ddec_bytes; [apply (adv_refl (part T t p))|rewrite <- app_assoc; exact Ein| | |].
      + intros x Hx. apply Hm, Hpart. lia.
      + intros x Hx. left. apply Hpart. lia.
      + intros s' Ha Hb Hin _. split; [reflexivity|]. split; [exact Hin|]. split; [exact Ha|].
        eexists. split; [eapply H_bytes_nil; eassumption|]. intros a Hr. apply in_range in Hr. left. apply Hpart. lia.
    - (* dynamic bytes, dynamic string *)
      intros t ti bs Et Eh Ei Hlen. exists 1%nat. intros [|f] Hf p; [lia|].
      intros s rest Ein Hm. cbn [unmarshal]. rewrite Et. apply dbind. cbn [umem dspec]. rewrite Eh.
      assert (Hpart : forall x, p + ti_off ti <= x < p + ti_off ti + 16 -> part T t p x).
      { intros x Hx. eapply inline_part; [eassumption| |eassumption]. destruct Ei as [-> | ->]; reflexivity. }
      rewrite <- app_assoc in Ein. pose proof (zlen_nonneg bs).
      assert (Hgo : forall one, one = 0 \/ one = 1 -> dspec
        ((get val <- dec16 (list Z) rf;
          get _ <- write16 (list Z) (p + ti_off ti) val;
          get _ <- write16 (list Z) (p + ti_off ti + 2) (u16 (val + one));
          if 0 <? val + one then
            get q <- malloc (list Z) E (val + one);
            match q with
            | None =>
                get _ <- write16 (list Z) (p + ti_off ti) 0;
                get _ <- write16 (list Z) (p + ti_off ti + 2) 0;
                rfail (- AOSL_ENOMEM)
            | Some q =>
                get _ <- write_ptr (list Z) (p + ti_off ti + 8) q;
                get k <- (if 0 <? val then dec_bytes (list Z) rf q val else rret 0);
                get _ <- (if one =? 1 then write (list Z) (q + val) [0] else rret tt);
                rret (2 + k)
            end
          else rret 2) s)
        (fun n s' => n = zlen (le_bytes 2 (zlen bs) ++ bs) /\ u_in s' = rest /\
           adv (part T t p) s s' (zlen (le_bytes 2 (zlen bs) ++ bs)) /\
           exists F, holds T (u_mem s') t p (VBytes bs) F /\ owned (part T t p) s F)).
      { intros one Hone.
        assert (Hzl : zlen (le_bytes 2 (zlen bs) ++ bs) = 2 + zlen bs) by (rewrite zlen_app, zlen_le_bytes; reflexivity).
        rewrite Hzl. clear Hzl.
        apply dbind. eapply ddec16; [apply (adv_refl (part T t p))|exact Ein|lia|]. intros s1 Ha1 Hm1 Hin1.
        apply dbind. unfold write16, write_ptr. eapply dwrite; [exact Ha1| | |].
        { rewrite zlen_le_bytes. intros x Hx. rewrite Hm1. apply Hm, Hpart. lia. }
        { rewrite zlen_le_bytes. intros x Hx. left. apply Hpart. lia. }
        intros s2 Ha2 Hm2 Hin2. rewrite zlen_le_bytes in Hm2.
        apply dbind. eapply dwrite; [exact Ha2| | |].
        { rewrite zlen_le_bytes. intros x Hx. eapply mapped_adv; [exact Hm|exact Ha2|]. apply Hpart. lia. }
        { rewrite zlen_le_bytes. intros x Hx. left. apply Hpart. lia. }
        intros s3 Ha3 Hm3 Hin3. rewrite zlen_le_bytes in Hm3.
        assert (Hempty : bs = [] -> forall s', adv (part T t p) s s' (0 + 2) -> u_in s' = rest ->
                 (forall x, p + ti_off ti <= x < p + ti_off ti + 2 -> u_mem s' x = u_mem s3 x) ->
                 2 = 2 + zlen bs /\ u_in s' = rest /\ adv (part T t p) s s' (2 + zlen bs) /\
                 (exists F, holds T (u_mem s') t p (VBytes bs) F /\ owned (part T t p) s F)).
        { intros Eb s' Ha' Hin' Hm'. rewrite Eb in *. split; [reflexivity|]. split; [assumption|]. split; [exact Ha'|].
          eexists. split; [eapply H_dyn_empty; [eassumption|eassumption|exact Ei|]|].
          - apply num_at_bytes; [|cbn; lia]. apply bytes_at_intro. rewrite zlen_le_bytes. intros x Hx.
            rewrite Hm' by lia. rewrite Hm3, Hm2.
            replace ((p + ti_off ti + 2 <=? x) && _) with false by lia.
            replace ((p + ti_off ti <=? x) && _) with true by lia. reflexivity.
          - intros a Hr. apply in_range in Hr. left. apply Hpart. lia. }
        destruct (Z.ltb_spec 0 (zlen bs + one)) as [Hpos|Hz].
        2:{ cbn [rret dspec]. destruct bs; [|unfold zlen in *; cbn [length] in *; lia].
            apply Hempty; [reflexivity|exact Ha3| |auto]. rewrite Hin3, Hin2. exact Hin1. }
        apply dbind. eapply dmalloc; [exact Ha3| |].
        { intros s4 Hf4 Ha4 _ _. apply dbind. eapply dwrite; [exact Ha4| | |].
          { rewrite zlen_le_bytes. intros x Hx. eapply mapped_adv; [exact Hm|exact Ha4|]. apply Hpart. lia. }
          { rewrite zlen_le_bytes. intros x Hx. left. apply Hpart. lia. }
          intros s5 Ha5 _ _. apply dbind. eapply dwrite; [exact Ha5| | |].
          { rewrite zlen_le_bytes. intros x Hx. eapply mapped_adv; [exact Hm|exact Ha5|]. apply Hpart. lia. }
          { rewrite zlen_le_bytes. intros x Hx. left. apply Hpart. lia. }
          intros s6 _ _ _. cbn. auto. }
        intros s4 q Ha4 Hq0 Hq1 Hnew Hold Hin4.
        assert (Hfresh : forall x, q <= x < q + (zlen bs + one) -> u_mem s x = None).
        { intros x Hx. destruct (Hnew x Hx) as [Hn' _].
          destruct (u_mem s x) as [b|] eqn:Eb; [|reflexivity]. exfalso.
          destruct Ha3 as (_ & _ & Hk). destruct (Hk x b Eb) as [[b' Hb'] _]. congruence. }
        assert (Hsep : forall x, q <= x < q + (zlen bs + one) -> ~ (p + ti_off ti <= x < p + ti_off ti + 16)).
        { intros x Hx Hx'. apply (Hm x); [apply Hpart; assumption|apply Hfresh; assumption]. }
        apply dbind. eapply dwrite; [exact Ha4| | |].
        { rewrite zlen_le_bytes. intros x Hx. eapply mapped_adv; [exact Hm|exact Ha4|]. apply Hpart. lia. }
        { rewrite zlen_le_bytes. intros x Hx. left. apply Hpart. lia. }
        intros s5 Ha5 Hm5 Hin5. rewrite zlen_le_bytes in Hm5.
        assert (Hmap5 : mapped s5 (fun x => q <= x < q + (zlen bs + one))).
        { intros x Hx. rewrite Hm5. specialize (Hsep x Hx).
          replace ((p + ti_off ti + 8 <=? x) && _) with false by lia. destruct (Hnew x Hx) as [_ [b ->]]. discriminate. }
        (* the header survives the rest *)
        assert (Hdone : forall s', bs <> [] -> adv (part T t p) s s' (0 + 2 + zlen bs) -> u_in s' = rest ->
           bytes_at (u_mem s') q bs -> (forall x, ~ (q <= x < q + (zlen bs + one)) -> u_mem s' x = u_mem s5 x) ->
           2 + zlen bs = 2 + zlen bs /\ u_in s' = rest /\ adv (part T t p) s s' (2 + zlen bs) /\
           (exists F, holds T (u_mem s') t p (VBytes bs) F /\ owned (part T t p) s F)).
        { intros s' Hne Ha' Hin' Hb' Hm'. split; [reflexivity|]. split; [exact Hin'|]. split; [exact Ha'|].
          eexists. split; [eapply H_dyn_bytes with (q := q); [eassumption|eassumption|exact Ei| |exact Hne| |exact Hb']|].
          - apply num_at_bytes; [|change (256 ^ Z.of_nat 2) with 65536; lia].
            apply bytes_at_intro. rewrite zlen_le_bytes. intros x Hx.
            rewrite Hm' by (intros Hc; apply (Hsep x Hc); lia).
            rewrite Hm5. replace ((p + ti_off ti + 8 <=? x) && _) with false by lia.
            rewrite Hold by (intros Hc; apply (Hsep x Hc); lia).
            rewrite Hm3, Hm2. replace ((p + ti_off ti + 2 <=? x) && _) with false by lia.
            replace ((p + ti_off ti <=? x) && _) with true by lia. reflexivity.
          - apply num_at_bytes; [|change (256 ^ Z.of_nat 8) with (2 ^ 64); lia].
            apply bytes_at_intro. rewrite zlen_le_bytes. intros x Hx.
            rewrite Hm' by (intros Hc; apply (Hsep x Hc); lia).
            rewrite Hm5. replace ((p + ti_off ti + 8 <=? x) && _) with true by lia. reflexivity.
          - intros a Hr. apply in_app_or in Hr. destruct Hr as [Hr|Hr]; [apply in_range in Hr; left; apply Hpart; lia|].
            apply in_app_or in Hr. destruct Hr as [Hr|Hr]; apply in_range in Hr; [left; apply Hpart; lia|right; apply Hfresh; lia]. }
        assert (Hin5' : u_in s5 = bs ++ rest) by (rewrite Hin5, Hin4, Hin3, Hin2; exact Hin1).
        apply dbind. destruct (Z.ltb_spec 0 (zlen bs)) as [Hbp|Hb0].
        - assert (Hne : bs <> []) by (intros ->; cbn in Hbp; lia).
          eapply ddec_bytes; [exact Ha5|exact Hin5'| | |].
          { intros x Hx. apply Hmap5. lia. }
          { intros x Hx. right. apply Hfresh. lia. }
          intros s6 Ha6 Hb6 Hin6 Hm6. apply dbind.
          destruct Hone as [-> | ->].
          + cbn [Z.eqb rret dspec]. apply Hdone; auto. intros x Hx. apply Hm6. lia.
          + change (1 =? 1) with true. cbv iota. eapply dwrite; [exact Ha6| | |].
            { change (zlen [0]) with 1. intros x Hx. rewrite Hm6 by lia. apply Hmap5. lia. }
            { change (zlen [0]) with 1. intros x Hx. right. apply Hfresh. lia. }
            change (zlen [0]) with 1. intros s7 Ha7 Hm7 Hin7. cbn [rret dspec]. apply Hdone; auto.
            * congruence.
            * eapply bytes_at_frame; [|exact Hb6]. intros x Hx. rewrite Hm7.
              replace ((q + zlen bs <=? x) && (x <? q + zlen bs + 1)) with false by lia. reflexivity.
            * intros x Hx. rewrite Hm7. replace ((q + zlen bs <=? x) && (x <? q + zlen bs + 1)) with false by lia.
              apply Hm6. lia.
        - assert (Eb : bs = []) by (destruct bs; [reflexivity|unfold zlen in Hb0; cbn [length] in Hb0; lia]).
          cbn [rret dspec]. apply dbind.
          destruct Hone as [-> | ->].
          + lia.
          + change (1 =? 1) with true. cbv iota. eapply dwrite; [exact Ha5| | |].
            { change (zlen [0]) with 1. intros x Hx. apply Hmap5. lia. }
            { change (zlen [0]) with 1. intros x Hx. right. apply Hfresh. lia. }
            change (zlen [0]) with 1. intros s7 Ha7 Hm7 Hin7. cbn [rret dspec]. replace (2 + 0) with 2 by lia. apply Hempty; auto.
            * rewrite Hin7, Hin5', Eb. reflexivity.
            * intros x Hx. rewrite Hm7.
              replace ((q + zlen bs <=? x) && (x <? q + zlen bs + 1)) with false.
              2:{ symmetry. apply andb_false_iff.
                  destruct (Z.leb_spec (q + zlen bs) x); [|auto]. right. apply Z.ltb_ge.
                  destruct (Z.le_gt_cases (q + zlen bs + 1) x); [assumption|]. exfalso. apply (Hsep x); lia. }
              rewrite Hm5. replace ((p + ti_off ti + 8 <=? x) && _) with false by lia.
              apply Hold. intros Hc. apply (Hsep x Hc). lia. }
      destruct Ei as [Ei'|Ei']; rewrite Ei'; apply Hgo; auto.
    - (* fixed array *)
      intros t ti vs w Et Eh Ei Hlen Hmax Hw IH0.
      pose proof (Hok _ _ Et) as [_ He]. rewrite Ei in He. destruct He as (Hfit & _). pose proof Hfit as (sz & Esz & _).
      destruct (IH0 sz Hfit Esz) as (f0 & IH). exists (S f0). intros [|f] Hf p; [lia|].
      intros s rest Ein Hm. cbn [unmarshal]. rewrite Et. apply dbind. cbn [umem dspec]. rewrite Eh, Ei, Esz.
      replace (65535 <? ti_array_size ti) with false by lia.
      replace (Z.to_nat (ti_array_size ti)) with (length vs) by lia.
      assert (Hsub : forall x, eparts (ti_child ti) (p + ti_off ti) sz 0 (length vs) x -> part T t p x).
      { intros x (j & Hj & Hx). eapply P_elem; [eassumption|rewrite Ei; cbn; auto|eassumption| |exact Hx]. lia. }
      eapply dmono; [apply (IH f ltac:(lia) (p + ti_off ti) s rest 0 0 Ein)|].
      + intros x Hx. apply Hm, Hsub, Hx.
      + cbn beta. intros n s' (-> & Hin & Ha & F & HF & HO). split; [reflexivity|]. split; [exact Hin|]. split.
        * eapply adv_weak; [exact Ha|]. auto.
        * exists F. split; [eapply H_fixed_array; eassumption|]. intros x Hx. destruct (HO x Hx); auto.
    - (* var array *)
      intros t ti vs w Et Eh Ei Hlen Hmax Hw IH0.
      pose proof (Hok _ _ Et) as [_ He]. rewrite Ei in He. destruct He as (Hfit & Hdis). pose proof Hfit as (sz & Esz & _).
      pose proof (fits_size _ _ _ Hfit Esz) as Hszr.
      destruct (IH0 sz Hfit Esz) as (f0 & IH). exists (S f0). intros [|f] Hf p; [lia|].
      intros s rest Ein Hm. cbn [unmarshal]. rewrite Et. apply dbind. cbn [umem dspec]. rewrite Eh, Ei, Esz.
      assert (Hcnt : forall x, p + ti_cnt ti <= x < p + ti_cnt ti + 2 -> part T t p x).
      { intros x Hx. eapply P_count; [eassumption|rewrite Ei; cbn; auto|lia]. }
      assert (Hsub : forall x, eparts (ti_child ti) (p + ti_off ti) sz 0 (length vs) x -> part T t p x).
      { intros x (j & Hj & Hx). eapply P_elem; [eassumption|rewrite Ei; cbn; auto|eassumption| |exact Hx]. lia. }
      assert (Hsub' : forall x, eparts (ti_child ti) (p + ti_off ti) sz 0 (length vs) x ->
                p + ti_off ti <= x < p + ti_off ti + sz * ti_array_size ti).
      { intros x (j & Hj & Hx). pose proof (fits_part _ _ _ _ _ Hfit Esz Hx). nia. }
      rewrite <- app_assoc in Ein.
      apply dbind. eapply ddec16; [apply (adv_refl (part T t p))|exact Ein|lia|]. intros s1 Ha1 Hm1 Hin1.
      replace (ti_array_size ti <? Z.of_nat (length vs)) with false by lia.
      apply dbind. unfold write16. eapply dwrite; [exact Ha1| | |].
      { rewrite zlen_le_bytes. intros x Hx. rewrite Hm1. apply Hm, Hcnt. lia. }
      { rewrite zlen_le_bytes. intros x Hx. left. apply Hcnt. lia. }
      intros s2 Ha2 Hm2 Hin2. rewrite zlen_le_bytes in Hm2.
      rewrite Nat2Z.id. apply dbind.
      eapply dmono; [apply (IH f ltac:(lia) (p + ti_off ti) s2 rest 0 0)|].
      + rewrite Hin2. exact Hin1.
      + intros x Hx. eapply mapped_adv; [exact Hm|exact Ha2|]. apply Hsub, Hx.
      + cbn [rret dspec]. intros n s' (-> & Hin & Ha & F & HF & HO).
        rewrite zlen_app, zlen_le_bytes. change (Z.of_nat 2) with 2.
        split; [reflexivity|]. split; [exact Hin|]. split.
        * replace (2 + zlen w) with (0 + 2 + zlen w) by lia. eapply adv_trans; [exact Ha2|exact Ha|]. auto.
        * eexists. split; [eapply H_var_array; [eassumption|eassumption|exact Ei|exact Esz| |lia|exact HF]|].
          -- eapply num_at_frame with (m := u_mem s2).
             ++ intros x Hx. cbn in Hx. destruct Ha as (_ & _ & Hk).
                destruct (u_mem s2 x) as [b|] eqn:Eb.
                ** apply (Hk x b Eb). intros Hc. apply Hsub' in Hc. apply (Hdis (x - p) sz); [assumption|lia|lia].
                ** exfalso. rewrite Hm2 in Eb. replace ((p + ti_cnt ti <=? x) && _) with true in Eb by lia.
                   apply nth_error_None in Eb. rewrite le_bytes_len in Eb. lia.
             ++ apply num_at_bytes; [|change (256 ^ Z.of_nat 2) with 65536; lia].
                apply bytes_at_intro. rewrite zlen_le_bytes. intros x Hx. rewrite Hm2.
                replace ((p + ti_cnt ti <=? x) && _) with true by lia. reflexivity.
          -- intros a Hr. apply in_app_or in Hr. destruct Hr as [Hr|Hr].
             ++ apply in_range in Hr. left. apply Hcnt, Hr.
             ++ destruct (HO a Hr) as [Hc|Hc]; [left; apply Hsub, Hc|].
                right. destruct (u_mem s a) as [b|] eqn:Eb; [|reflexivity]. exfalso.
                destruct Ha2 as (_ & _ & Hk). destruct (Hk a b Eb) as [[b' Hb'] _]. congruence.
    - (* dynamic array *)
      intros t ti vs w Et Eh Ei Hmax Hw IH0.
      pose proof (Hok _ _ Et) as [_ He]. rewrite Ei in He. rename He into Hfit. pose proof Hfit as (sz & Esz & _).
      pose proof (fits_size _ _ _ Hfit Esz) as Hszr.
      destruct (IH0 sz Hfit Esz) as (f0 & IH). exists (S f0). intros [|f] Hf p; [lia|].
      intros s rest Ein Hm. cbn [unmarshal]. rewrite Et. apply dbind. cbn [umem dspec]. rewrite Eh, Ei.
      assert (Hpart : forall x, p + ti_off ti <= x < p + ti_off ti + 16 -> part T t p x).
      { intros x Hx. eapply inline_part; [eassumption| |eassumption]. rewrite Ei; reflexivity. }
      rewrite <- app_assoc in Ein.
      rewrite zlen_app, zlen_le_bytes. change (Z.of_nat 2) with 2.
      apply dbind. eapply ddec16; [apply (adv_refl (part T t p))|exact Ein|lia|]. intros s1 Ha1 Hm1 Hin1.
      apply dbind. unfold write16, write_ptr. eapply dwrite; [exact Ha1| | |].
      { rewrite zlen_le_bytes. intros x Hx. rewrite Hm1. apply Hm, Hpart. lia. }
      { rewrite zlen_le_bytes. intros x Hx. left. apply Hpart. lia. }
      intros s2 Ha2 Hm2 Hin2. rewrite zlen_le_bytes in Hm2.
      apply dbind. eapply dwrite; [exact Ha2| | |].
      { rewrite zlen_le_bytes. intros x Hx. eapply mapped_adv; [exact Hm|exact Ha2|]. apply Hpart. lia. }
      { rewrite zlen_le_bytes. intros x Hx. left. apply Hpart. lia. }
      intros s3 Ha3 Hm3 Hin3. rewrite zlen_le_bytes in Hm3.
      assert (Hin3' : u_in s3 = w ++ rest) by (rewrite Hin3, Hin2; exact Hin1).
      destruct (Z.ltb_spec 0 (Z.of_nat (length vs))) as [Hpos|Hz].
      2:{ cbn [rret dspec]. destruct vs; [|cbn [length] in Hz; lia]. inversion Hw; subst.
          split; [reflexivity|]. split; [exact Hin3'|]. split; [exact Ha3|].
          eexists. split; [eapply H_dyn_array_empty; [eassumption|eassumption|exact Ei|]|].
          - apply num_at_bytes; [|cbn; lia]. apply bytes_at_intro. rewrite zlen_le_bytes. intros x Hx.
            rewrite Hm3, Hm2. replace ((p + ti_off ti + 2 <=? x) && _) with false by lia.
            replace ((p + ti_off ti <=? x) && _) with true by lia. reflexivity.
          - intros a Hr. apply in_range in Hr. left. apply Hpart. lia. }
      rewrite Esz.
      assert (Hprod : u64 (sz * Z.of_nat (length vs)) = sz * Z.of_nat (length vs)).
      { unfold u64; rewrite Z.mod_small; [reflexivity|nia]. }
      rewrite Hprod. apply dbind. eapply dmalloc; [exact Ha3| |].
      { intros s4 Hf4 Ha4 _ _. apply dbind. eapply dwrite; [exact Ha4| | |].
        { rewrite zlen_le_bytes. intros x Hx. eapply mapped_adv; [exact Hm|exact Ha4|]. apply Hpart. lia. }
        { rewrite zlen_le_bytes. intros x Hx. left. apply Hpart. lia. }
        intros s5 Ha5 _ _. apply dbind. eapply dwrite; [exact Ha5| | |].
        { rewrite zlen_le_bytes. intros x Hx. eapply mapped_adv; [exact Hm|exact Ha5|]. apply Hpart. lia. }
        { rewrite zlen_le_bytes. intros x Hx. left. apply Hpart. lia. }
        intros s6 _ _ _. cbn. auto. }
      intros s4 q Ha4 Hq0 Hq1 Hnew Hold Hin4. set (n := Z.of_nat (length vs)) in *.
      assert (Hfresh : forall x, q <= x < q + sz * n -> u_mem s x = None).
      { intros x Hx. destruct (Hnew x Hx) as [Hn' _].
        destruct (u_mem s x) as [b|] eqn:Eb; [|reflexivity]. exfalso.
        destruct Ha3 as (_ & _ & Hk). destruct (Hk x b Eb) as [[b' Hb'] _]. congruence. }
      assert (Hsep : forall x, q <= x < q + sz * n -> ~ (p + ti_off ti <= x < p + ti_off ti + 16)).
      { intros x Hx Hx'. apply (Hm x); [apply Hpart; assumption|apply Hfresh; assumption]. }
      assert (Hsub : forall x, eparts (ti_child ti) q sz 0 (length vs) x -> q <= x < q + sz * n).
      { intros x (j & Hj & Hx). pose proof (fits_part _ _ _ _ _ Hfit Esz Hx). nia. }
      apply dbind. eapply dwrite; [exact Ha4| | |].
      { rewrite zlen_le_bytes. intros x Hx. eapply mapped_adv; [exact Hm|exact Ha4|]. apply Hpart. lia. }
      { rewrite zlen_le_bytes. intros x Hx. left. apply Hpart. lia. }
      intros s5 Ha5 Hm5 Hin5. rewrite zlen_le_bytes in Hm5.
      subst n. rewrite Nat2Z.id. apply dbind.
      eapply dmono; [apply (IH f ltac:(lia) q s5 rest 0 0)|].
      + rewrite Hin5, Hin4. exact Hin3'.
      + intros x Hx. apply Hsub in Hx. rewrite Hm5. specialize (Hsep x Hx).
        replace ((p + ti_off ti + 8 <=? x) && _) with false by lia. destruct (Hnew x Hx) as [_ [b ->]]. discriminate.
      + cbn [rret dspec]. intros n s' (-> & Hin & Ha & F & HF & HO).
        split; [reflexivity|]. split; [exact Hin|]. split.
        * replace (2 + zlen w) with (0 + 2 + zlen w) by lia. eapply adv_trans; [exact Ha5|exact Ha|].
          intros x Hx. right. apply Hfresh, Hsub, Hx.
        * assert (Hkeep : forall x, p + ti_off ti <= x < p + ti_off ti + 16 -> u_mem s' x = u_mem s5 x).
          { intros x Hx. destruct Ha as (_ & _ & Hk). destruct (u_mem s5 x) as [b|] eqn:Eb.
            - apply (Hk x b Eb). intros Hc. apply Hsub in Hc. apply (Hsep x Hc Hx).
            - exfalso. pose proof (mapped_adv _ _ _ _ _ Hm Ha5) as Hm'. apply (Hm' x); [apply Hpart, Hx|exact Eb]. }
          eexists. split; [eapply H_dyn_array with (q := q); [eassumption|eassumption|exact Ei|exact Esz| | | |exact HF]|].
          -- apply num_at_bytes; [|change (256 ^ Z.of_nat 2) with 65536; lia].
             apply bytes_at_intro. rewrite zlen_le_bytes. intros x Hx. rewrite Hkeep by lia.
             rewrite Hm5. replace ((p + ti_off ti + 8 <=? x) && _) with false by lia.
             rewrite Hold by (intros Hc; apply (Hsep x Hc); lia).
             rewrite Hm3, Hm2. replace ((p + ti_off ti + 2 <=? x) && _) with false by lia.
             replace ((p + ti_off ti <=? x) && _) with true by lia. reflexivity.
          -- intros ->. cbn in Hpos. lia.
          -- apply num_at_bytes; [|change (256 ^ Z.of_nat 8) with (2 ^ 64); nia].
             apply bytes_at_intro. rewrite zlen_le_bytes. intros x Hx. rewrite Hkeep by lia.
             rewrite Hm5. replace ((p + ti_off ti + 8 <=? x) && _) with true by lia. reflexivity.
          -- intros a Hr. apply in_app_or in Hr. destruct Hr as [Hr|Hr]; [apply in_range in Hr; left; apply Hpart; lia|].
             apply in_app_or in Hr. destruct Hr as [Hr|Hr]; [apply in_range in Hr; left; apply Hpart; lia|].
             right. destruct (HO a Hr) as [Hc|Hc]; [apply Hfresh, Hsub, Hc|].
             destruct (u_mem s a) as [b|] eqn:Eb; [|reflexivity]. exfalso.
             destruct Ha5 as (_ & _ & Hk). destruct (Hk a b Eb) as [[b' Hb'] _]. congruence.
    - (* no more fields *)
      intros t ti Et Ei. exists O. intros f _ p s rest k len Ein Hm _ Hk.
      assert (t < length T)%nat by (apply nth_error_Some; congruence).
      destruct k; [lia|]. cbn [each_field]. rewrite Et, Ei. cbn [rret dspec].
      split; [cbn; lia|]. split; [exact Ein|]. split; [apply adv_refl|].
      exists []. split; [eapply HF_end; eassumption|intros a []].
    - (* field *)
      intros t ti v vs w1 w2 Et Hv Hw1 (f1 & IH1) Hw2 (f2 & IH2). exists (Nat.max f1 f2).
      intros f Hf p s rest k len Ein Hm Hap Hk.
      assert (t < length T)%nat by (apply nth_error_Some; congruence).
      destruct k; [lia|]. cbn [each_field]. rewrite Et.
      assert (Hft : field T t t).
      { split; [lia|]. intros i Hi. replace i with t by lia. eauto. }
      assert (Hgo : dspec ((get n <- unmarshal (list Z) rf E T f t p;
                            each_field T (fun t' => unmarshal (list Z) rf E T f t' p) k (S t) (len + n)) s)
        (fun n s' => n = len + zlen (w1 ++ w2) /\ u_in s' = rest /\ adv (fparts t p) s s' (zlen (w1 ++ w2)) /\
           exists F, holds_fields T (u_mem s') t p (v :: vs) F /\ owned (fparts t p) s F)).
      { rewrite <- app_assoc in Ein. apply dbind. eapply dmono; [apply (IH1 f ltac:(lia) p s (w2 ++ rest) Ein)|].
        - intros x Hx. apply Hm. exists t. auto.
        - cbn beta. intros n s1 (-> & Hin1 & Ha1 & F1 & HF1 & HO1).
          assert (Ha1' : adv (fparts t p) s s1 (zlen w1)) by (eapply adv_weak; [exact Ha1|]; intros x Hx; left; exists t; auto).
          assert (Hsub : forall x, fparts (S t) p x -> fparts t p x).
          { intros x (c & Hc & Hx). exists c. split; [eapply field_S; eassumption|exact Hx]. }
          eapply dmono; [apply (IH2 f ltac:(lia) p s1 rest k (len + zlen w1) Hin1)|].
          + intros x Hx. eapply mapped_adv; [exact Hm|exact Ha1'|]. apply Hsub, Hx.
          + intros c c' a Hc Hc'. apply Hap; eapply field_S; eassumption.
          + lia.
          + cbn beta. intros n s2 (-> & Hin2 & Ha2 & F2 & HF2 & HO2).
            split; [rewrite zlen_app; lia|]. split; [exact Hin2|]. split.
            * rewrite zlen_app. eapply adv_trans; [exact Ha1'|exact Ha2|]. auto.
            * exists (F1 ++ F2). split.
              -- eapply HF_cons; [exact Et|exact Hv| |exact HF2].
                 eapply keep_holds; [exact Ha2|exact HF1|].
                 intros a HaF Hc. destruct (HO1 a HaF) as [Hp|Hn].
                 ++ destruct Hc as (c & Hc & Hx). eapply (part_disj t c p a t Hap Hft); [eapply field_S; eassumption| |exact Hp|exact Hx].
                    destruct Hc as [Hc _]. lia.
                 ++ apply (Hm a); [apply Hsub, Hc|exact Hn].
              -- intros a Hr. apply in_app_or in Hr. destruct Hr as [Hr|Hr].
                 ++ destruct (HO1 a Hr); [left; exists t; auto|auto].
                 ++ destruct (HO2 a Hr) as [Hc|Hc]; [left; apply Hsub, Hc|].
                    right. destruct (u_mem s a) as [b|] eqn:Eb; [|reflexivity]. exfalso.
                    destruct Ha1 as (_ & _ & Hk1). destruct (Hk1 a b Eb) as [[b' Hb'] _]. congruence. }
      destruct (ti_id ti); try exact Hgo. congruence.
    - (* no more elements *)
      intros t sz _ _. exists O. intros f _ p s rest i len Ein Hm. cbn [length each_elem rret dspec].
      split; [cbn; lia|]. split; [exact Ein|]. split; [apply adv_refl|].
      exists []. split; [constructor|intros a []].
    - (* element *)
      intros t v vs w1 w2 Hw1 (f1 & IH1) Hw2 IH2 sz Hfit Esz. destruct (IH2 sz Hfit Esz) as (f2 & IH2').
      exists (Nat.max f1 f2). intros f Hf p s rest i len Ein Hm. cbn [length each_elem].
      rewrite <- app_assoc in Ein. apply dbind. eapply dmono; [apply (IH1 f ltac:(lia) (p + sz * i) s (w2 ++ rest) Ein)|].
      + intros x Hx. apply Hm. exists i. split; [cbn [length]; lia|exact Hx].
      + cbn beta. intros n s1 (-> & Hin1 & Ha1 & F1 & HF1 & HO1).
        assert (Hone : forall x, part T t (p + sz * i) x -> eparts t p sz i (S (length vs)) x).
        { intros x Hx. exists i. split; [lia|exact Hx]. }
        assert (Ha1' : adv (eparts t p sz i (S (length vs))) s s1 (zlen w1)) by (eapply adv_weak; [exact Ha1|]; intros x Hx; left; auto).
        assert (Hsub : forall x, eparts t p sz (i + 1) (length vs) x -> eparts t p sz i (S (length vs)) x).
        { intros x (j & Hj & Hx). exists j. split; [lia|exact Hx]. }
        eapply dmono; [apply (IH2' f ltac:(lia) p s1 rest (i + 1) (len + zlen w1) Hin1)|].
        * intros x Hx. eapply mapped_adv; [exact Hm|exact Ha1'|]. apply Hsub, Hx.
        * cbn beta. intros n s2 (-> & Hin2 & Ha2 & F2 & HF2 & HO2).
          split; [rewrite zlen_app; lia|]. split; [exact Hin2|]. split.
          -- rewrite zlen_app. eapply adv_trans; [exact Ha1'|exact Ha2|]. auto.
          -- exists (F1 ++ F2). split.
             ++ eapply HE_cons; [|exact HF2]. eapply keep_holds; [exact Ha2|exact HF1|].
                intros a HaF Hc. destruct (HO1 a HaF) as [Hp|Hn].
                ** destruct Hc as (j & Hj & Hx). pose proof (fits_part _ _ _ _ _ Hfit Esz Hp).
                   pose proof (fits_part _ _ _ _ _ Hfit Esz Hx). nia.
                ** apply (Hm a); [apply Hsub, Hc|exact Hn].
             ++ intros a Hr. apply in_app_or in Hr. destruct Hr as [Hr|Hr].
                ** destruct (HO1 a Hr); [left; auto|auto].
                ** destruct (HO2 a Hr) as [Hc|Hc]; [left; apply Hsub, Hc|].
                   right. destruct (u_mem s a) as [b|] eqn:Eb; [|reflexivity]. exfalso.
                   destruct Ha1 as (_ & _ & Hk1). destruct (Hk1 a b Eb) as [[b' Hb'] _]. congruence.
  Qed.
End Decode.
