(** * Dynamic arrays: proofs *)
From Verif Require Import Base PsbSpec PsbProof Dynarr DynarrSpec MarshalChain.

Ltac Zify.zify_post_hook ::= Z.div_mod_to_equations.

Lemma grow_spec stride t : 0 < stride <= 16 -> 0 <= t <= 10240 ->
  forall fuel a, 0 <= a < 65536 -> t - a < Z.of_nat fuel ->
  let r := grow fuel stride a t in
  (t <= a -> r = a) /\ (a < t -> a < r /\ t <= r < t + stride).
Proof.
  intros Hs Ht. induction fuel as [|f IH]; intros a Ha Hf; cbn [grow].
  - split; [auto|]. intros; lia.
  - destruct (Z.ltb_spec a t).
    + replace (u16 (a + stride)) with (a + stride) by (unfold u16; lia).
      specialize (IH (a + stride) ltac:(lia) ltac:(lia)). cbv zeta in IH. destruct IH as [I1 I2].
      split; [lia|]. intros _. destruct (Z.leb_spec t (a + stride)).
      * rewrite I1 by lia. lia.
      * specialize (I2 ltac:(lia)). lia.
    + split; [auto|lia].
Qed.
Lemma u64_small x : 0 <= x < 2 ^ 64 -> u64 x = x.
Proof. intros H. unfold u64. apply Z.mod_small. lia. Qed.
Lemma firstn_zlen (n : Z) (l : list Z) : 0 <= n <= zlen l -> zlen (firstn (Z.to_nat n) l) = n.
Proof. intros H. unfold zlen in *. rewrite firstn_length. lia. Qed.
Lemma firstn_same_app (n : nat) (a b : list Z) : length a = n -> firstn n (a ++ b) = a.
Proof. intros <-. rewrite firstn_app, Nat.sub_diag, firstn_all. cbn. apply app_nil_r. Qed.

Section Dyn.
  Variable E : denv.
  Variable es : nat -> Z.

  Lemma seq_len w i : wf es w -> zlen (seq_of es w i) = es i * d_count (w_arr w i).
  Proof.
    intros H. unfold seq_of. pose proof (wf_range _ _ H i) as Hr. pose proof (wf_es _ _ H i) as He.
    destruct (d_values (w_arr w i)) as [b|] eqn:Ev.
    - destruct (wf_block _ _ H _ _ Ev) as (Ha & l & El & Hl). rewrite El. apply firstn_zlen. nia.
    - pose proof (wf_null _ _ H _ Ev). replace (d_count (w_arr w i)) with 0 by lia. cbn. lia.
  Qed.
  (** Changing one array and its storage. *)
  Definition arr_is (w : world) (i : nat) (c a : Z) (b : nat) (l : list Z) : Prop :=
    w_arr w i = mkDyn c a (Some b) /\ w_heap w b = Some l /\ zlen l = es i * a /\ 0 <= c <= a /\ 0 < a < 65536.
  Lemma arr_is_seq w i c a b l : arr_is w i c a b l -> seq_of es w i = firstn (Z.to_nat (es i * c)) l.
  Proof. intros (H1 & H2 & _). unfold seq_of. rewrite H1. cbn. rewrite H2. reflexivity. Qed.
  (** [w'] differs from [w] in array [i] and the blocks it had or has. *)
  Definition frame (i : nat) (b : nat) (w w' : world) : Prop :=
    (forall j, j <> i -> w_arr w' j = w_arr w j) /\
    (forall c, c <> b -> w_heap w' c = match d_values (w_arr w i) with
                                      | Some b0 => if (c =? b0)%nat then None else w_heap w c
                                      | None => w_heap w c end) /\
    (w_next w <= w_next w')%nat /\ (b < w_next w')%nat.
  Lemma frame_ok w w' i b c a l : wf es w -> frame i b w w' -> arr_is w' i c a b l ->
    (d_values (w_arr w i) = Some b \/ w_heap w b = None) ->
    wf es w' /\ forall j, j <> i -> seq_of es w' j = seq_of es w j.
  Proof.
    intros H (Hf1 & Hf2 & Hf3 & Hf4) (A1 & A2 & A3 & A4 & A5) Hb.
    assert (Hother : forall j c0, j <> i -> d_values (w_arr w j) = Some c0 -> c0 <> b /\ w_heap w' c0 = w_heap w c0).
    { intros j c0 Hj Ev. assert (Hc : c0 <> b).
      { intros ->. destruct Hb as [Hb|Hb]; [apply Hj; eapply wf_apart; eassumption|].
        destruct (wf_block _ _ H _ _ Ev) as (_ & l0 & El & _). congruence. }
      split; [exact Hc|]. rewrite Hf2 by exact Hc. destruct (d_values (w_arr w i)) as [b0|] eqn:Ei; [|reflexivity].
      destruct (Nat.eqb_spec c0 b0) as [->|]; [|reflexivity]. exfalso. apply Hj. eapply wf_apart; eassumption. }
    split.
    - constructor.
      + apply (wf_es _ _ H).
      + intros j. destruct (Nat.eq_dec j i) as [->|Hj]; [rewrite A1; cbn; lia|rewrite Hf1 by exact Hj; apply (wf_range _ _ H)].
      + intros j. destruct (Nat.eq_dec j i) as [->|Hj]; [rewrite A1; discriminate|rewrite Hf1 by exact Hj; apply (wf_null _ _ H)].
      + intros j b0. destruct (Nat.eq_dec j i) as [->|Hj].
        * rewrite A1. cbn. intros [= <-]. split; [lia|eauto].
        * rewrite Hf1 by exact Hj. intros Ev. destruct (wf_block _ _ H _ _ Ev) as (Ha & l0 & El & Hl).
          split; [exact Ha|]. exists l0. rewrite (proj2 (Hother _ _ Hj Ev)). auto.
      + intros j k b0. destruct (Nat.eq_dec j i) as [->|Hj]; destruct (Nat.eq_dec k i) as [->|Hk]; auto.
        * rewrite A1, Hf1 by exact Hk. cbn. intros [= <-] Ev. exfalso. apply (proj1 (Hother _ _ Hk Ev)). reflexivity.
        * rewrite A1, Hf1 by exact Hj. cbn. intros Ev [= <-]. exfalso. apply (proj1 (Hother _ _ Hj Ev)). reflexivity.
        * rewrite !Hf1 by assumption. apply (wf_apart _ _ H).
      + intros c0 Hc0. destruct (Nat.eq_dec c0 b) as [->|Hcb]; [exists i; rewrite A1; reflexivity|].
        rewrite Hf2 in Hc0 by exact Hcb.
        assert (Hl : w_heap w c0 <> None) by (destruct (d_values (w_arr w i)); [destruct (_ =? _)%nat; congruence|exact Hc0]).
        destruct (wf_live _ _ H _ Hl) as [j Ej]. exists j.
        rewrite Hf1; [exact Ej|]. intros ->. rewrite Ej in Hc0. rewrite Nat.eqb_refl in Hc0. congruence.
      + intros c0 Hc0. rewrite Hf2 by lia. pose proof (wf_next _ _ H c0 ltac:(lia)) as Hn.
        destruct (d_values (w_arr w i)); [destruct (_ =? _)%nat; auto|exact Hn].
    - intros j Hj. unfold seq_of. rewrite Hf1 by exact Hj. destruct (d_values (w_arr w j)) as [b0|] eqn:Ev; [|reflexivity].
      rewrite (proj2 (Hother _ _ Hj Ev)). reflexivity.
  Qed.

  Lemma wr_ok w b off bs l : w_heap w b = Some l -> 0 <= off -> off + zlen bs <= zlen l ->
    wr w b off bs = Ok (set_block w b (Some (firstn (Z.to_nat off) l ++ bs ++ skipn (Z.to_nat off + length bs) l))).
  Proof. intros Hb Ho Hl. unfold wr. rewrite Hb. replace ((0 <=? off) && (off + zlen bs <=? zlen l)) with true by lia. reflexivity. Qed.
  Lemma wr_len off (bs l : list Z) : 0 <= off -> off + zlen bs <= zlen l ->
    zlen (firstn (Z.to_nat off) l ++ bs ++ skipn (Z.to_nat off + length bs) l) = zlen l.
  Proof. intros Ho Hl. unfold zlen in *. rewrite !app_length, firstn_length, skipn_length. lia. Qed.
  Lemma rd_ok w b off n l : w_heap w b = Some l -> 0 <= off -> 0 <= n -> off + n <= zlen l ->
    rd w b off n = Some (firstn (Z.to_nat n) (skipn (Z.to_nat off) l)).
  Proof. intros Hb Ho Hn Hl. unfold rd. rewrite Hb. replace ((0 <=? off) && (0 <=? n) && (off + n <=? zlen l)) with true by lia. reflexivity. Qed.

  (** The capacity step: either NULL, or array [i] has capacity [A] and the
      same content; the other arrays are as before. *)
  Lemma regrow_ok w i A : wf es w -> d_alloc (w_arr w i) < A < 65536 ->
    let d := w_arr w i in
    (regrow E w i (es i) A = Ok (false, mkWorld (w_arr w) (w_heap w) (S (w_next w))) /\ d_ok E (w_next w) = false) \/
    exists w1 l, regrow E w i (es i) A = Ok (true, w1) /\
      arr_is w1 i (d_count d) A (w_next w) l /\ frame i (w_next w) w w1 /\
      firstn (Z.to_nat (es i * d_count d)) l = seq_of es w i.
  Proof.
    intros H HA d. pose proof (wf_es _ _ H i) as He. pose proof (wf_range _ _ H i) as Hr. fold d in Hr, HA.
    unfold regrow. fold d. replace (d_alloc d <? A) with true by lia.
    unfold dmalloc. set (k := w_next w). destruct (d_ok E k) eqn:Ek; [|left; auto].
    right. rewrite (u64_small (es i * A)) by nia.
    set (fresh := map (d_junk E k) (seq 0 (Z.to_nat (es i * A)))).
    assert (Hfl : zlen fresh = es i * A) by (unfold zlen, fresh; rewrite map_length, seq_length; nia).
    set (w1 := mkWorld (w_arr w) (fun c => if (c =? k)%nat then Some fresh else w_heap w c) (S k)).
    assert (Hk : w_heap w1 k = Some fresh) by (unfold w1; cbn; rewrite Nat.eqb_refl; reflexivity).
    assert (Hold : forall b, d_values d = Some b -> b <> k).
    { intros b Ev ->. destruct (wf_block _ _ H _ _ Ev) as (_ & l0 & El & _). rewrite (wf_next _ _ H k (le_n _)) in El. discriminate. }
    destruct (d_values d) as [b0|] eqn:Ev.
    - destruct (wf_block _ _ H _ _ Ev) as (Ha & l0 & El0 & Hl0). fold d in Ha, Hl0.
      assert (Hb0 : w_heap w1 b0 = Some l0) by (unfold w1; cbn; destruct (Nat.eqb_spec b0 k); [exfalso; eapply Hold; [reflexivity|assumption]|exact El0]).
      assert (Hseq : seq_of es w i = firstn (Z.to_nat (es i * d_count d)) l0) by (unfold seq_of; fold d; rewrite Ev, El0; reflexivity).
      assert (exists l w2, (if 0 <? d_count d then let* bs := rd_values w1 (Some b0) 0 (u64 (es i * d_count d)) in wr w1 k 0 bs else Ok w1) = Ok w2 /\
        w_arr w2 = w_arr w /\ w_next w2 = S k /\ w_heap w2 k = Some l /\ zlen l = es i * A /\ (forall c, c <> k -> w_heap w2 c = w_heap w c) /\
        firstn (Z.to_nat (es i * d_count d)) l = seq_of es w i) as (l & w2 & E2 & B1 & B2 & B3 & B4 & B5 & B6).
      { destruct (Z.ltb_spec 0 (d_count d)).
        - rewrite (u64_small (es i * d_count d)) by nia. unfold rd_values. replace (es i * d_count d =? 0) with false by nia.
          rewrite (rd_ok _ _ _ _ _ Hb0) by nia. cbn [bind skipn Z.to_nat].
          rewrite (wr_ok _ _ _ _ _ Hk); [|lia|rewrite firstn_zlen by nia; nia].
          eexists _, _. split; [reflexivity|]. cbn [w_arr w_next w_heap set_block w1]. rewrite Nat.eqb_refl.
          split; [reflexivity|]. split; [reflexivity|]. split; [reflexivity|].
          split; [rewrite wr_len; [exact Hfl|lia|rewrite firstn_zlen by nia; nia]|].
          split; [intros c Hc; destruct (Nat.eqb_spec c k); [contradiction|reflexivity]|].
          cbn [firstn app Z.to_nat]. rewrite Hseq. apply firstn_same_app.
          pose proof (firstn_zlen (es i * d_count d) l0 ltac:(nia)) as Hz. unfold zlen in Hz. lia.
        - exists fresh, w1. split; [reflexivity|]. split; [reflexivity|]. split; [reflexivity|]. split; [exact Hk|]. split; [exact Hfl|].
          split; [intros c Hc; unfold w1; cbn; destruct (Nat.eqb_spec c k); [contradiction|reflexivity]|].
          rewrite Hseq. replace (d_count d) with 0 by lia. rewrite Z.mul_0_r. reflexivity. }
      rewrite E2. cbn [bind]. replace (0 <? d_alloc d) with true by lia. unfold dfree.
      rewrite (B5 b0) by (apply Hold; reflexivity). rewrite El0. cbn [bind].
      eexists _, l. split; [reflexivity|]. assert (Hkb : k <> b0) by (intros ->; eapply Hold; reflexivity).
      split; [|split; [|exact B6]].
      + unfold arr_is. cbn. rewrite Nat.eqb_refl. split; [reflexivity|].
        destruct (Nat.eqb_spec k b0); [contradiction|]. split; [exact B3|]. split; [exact B4|]. lia.
      + unfold frame. cbn. fold d. rewrite Ev. rewrite B1, B2. split.
        * intros j Hj. destruct (Nat.eqb_spec j i); [contradiction|reflexivity].
        * split; [|fold k; lia]. intros c Hc. destruct (Nat.eqb_spec c b0); [reflexivity|]. apply B5, Hc.
    - pose proof (wf_null _ _ H _ Ev) as Ha0. fold d in Ha0. assert (Hc0 : d_count d = 0) by lia.
      replace (0 <? d_count d) with false by lia. cbn [bind]. replace (0 <? d_alloc d) with false by lia. cbn [bind].
      eexists _, fresh. split; [reflexivity|]. split; [|split].
      + unfold arr_is. cbn. rewrite !Nat.eqb_refl. split; [reflexivity|]. split; [reflexivity|]. split; [exact Hfl|]. lia.
      + unfold frame. cbn. fold d. rewrite Ev. split.
        * intros j Hj. destruct (Nat.eqb_spec j i); [contradiction|reflexivity].
        * split; [|fold k; lia]. intros c Hc. destruct (Nat.eqb_spec c k); [contradiction|reflexivity].
      + rewrite Hc0, Z.mul_0_r. unfold seq_of. fold d. rewrite Ev. reflexivity.
  Qed.

  Definition fresh_failed (w : world) : world := mkWorld (w_arr w) (w_heap w) (S (w_next w)).
  Lemma fresh_failed_ok w : wf es w -> wf es (fresh_failed w) /\ unchanged es w (fresh_failed w).
  Proof.
    intros H. split; [|intros j; reflexivity]. constructor; try apply H.
    intros b Hb. cbn in Hb. apply (wf_next _ _ H). lia.
  Qed.
  (** After the capacity step, in both cases. *)
  Lemma capacity_ok w i stride t : wf es w -> 0 < stride <= 16 -> d_count (w_arr w i) <= t <= 10240 -> 0 < t ->
    let d := w_arr w i in
    let A := grow grow_fuel stride (d_alloc d) t in
    (regrow E w i (es i) A = Ok (false, fresh_failed w) /\ d_ok E (w_next w) = false) \/
    exists w1 b l, regrow E w i (es i) A = Ok (true, w1) /\ arr_is w1 i (d_count d) A b l /\ t <= A /\
      frame i b w w1 /\ (d_values d = Some b \/ w_heap w b = None) /\
      firstn (Z.to_nat (es i * d_count d)) l = seq_of es w i /\
      (forall j c, j <> i -> d_values (w_arr w j) = Some c -> w_heap w1 c = w_heap w c).
  Proof.
    intros H Hs Ht Htp d A. pose proof (wf_range _ _ H i) as Hr. fold d in Hr, Ht.
    destruct (grow_spec stride t Hs ltac:(lia) grow_fuel (d_alloc d) ltac:(lia) ltac:(unfold grow_fuel; lia)) as [G1 G2].
    fold A in G1, G2. destruct (Z.ltb_spec (d_alloc d) t) as [Hlt|Hge].
    - specialize (G2 Hlt). destruct (regrow_ok w i A H) as [[E1 E2]|(w1 & l & E1 & A1 & F1 & S1)]; [fold d; lia|left; auto|].
      right. exists w1, (w_next w), l. split; [exact E1|]. split; [exact A1|]. split; [lia|]. split; [exact F1|].
      assert (Hn : w_heap w (w_next w) = None) by (apply (wf_next _ _ H); lia).
      split; [right; exact Hn|]. split; [exact S1|].
      intros j c Hj Ev. destruct F1 as (_ & F1 & _). rewrite F1.
      + destruct (d_values (w_arr w i)) as [b0|] eqn:E0; [|reflexivity]. destruct (Nat.eqb_spec c b0) as [->|]; [|reflexivity].
        exfalso. apply Hj. eapply wf_apart; eassumption.
      + intros ->. destruct (wf_block _ _ H _ _ Ev) as (_ & l0 & El & _). congruence.
    - specialize (G1 Hge). right. unfold regrow. fold d. replace (d_alloc d <? A) with false by lia.
      destruct (d_values d) as [b|] eqn:Ev; [|pose proof (wf_null _ _ H _ Ev) as Hx; fold d in Hx; lia].
      destruct (wf_block _ _ H _ _ Ev) as (Ha & l & El & Hl). fold d in Ha, Hl.
      exists w, b, l. split; [reflexivity|]. split.
      { unfold arr_is. fold d. rewrite G1. split; [destruct d; cbn in *; congruence|]. split; [exact El|]. split; [exact Hl|]. lia. }
      split; [lia|]. split.
      { unfold frame. fold d. rewrite Ev. split; [auto|]. split.
        - intros c Hc. destruct (Nat.eqb_spec c b); [contradiction|reflexivity].
        - split; [lia|]. destruct (Nat.ltb_spec b (w_next w)); [assumption|]. rewrite (wf_next _ _ H b) in El by assumption. discriminate. }
      split; [left; reflexivity|]. split; [unfold seq_of; fold d; rewrite Ev, El; reflexivity|auto].
  Qed.
  (** Writing the new elements behind the old ones. *)
  Lemma append_ok w w1 i b l c A bs n : wf es w -> frame i b w w1 -> arr_is w1 i c A b l ->
    (d_values (w_arr w i) = Some b \/ w_heap w b = None) ->
    firstn (Z.to_nat (es i * c)) l = seq_of es w i ->
    zlen bs = es i * n -> 0 <= n -> c + n <= A ->
    exists w2, wr w1 b (es i * c) bs = Ok w2 /\
      let w3 := set_arr w2 i (mkDyn (c + n) A (Some b)) in
      wf es w3 /\ becomes es w w3 i (seq_of es w i ++ bs) /\ w_arr w2 = w_arr w1.
  Proof.
    intros H F A1 Hb Hs Hl Hn HA. pose proof (wf_es _ _ H i) as He. pose proof A1 as (B1 & B2 & B3 & B4 & B5).
    rewrite (wr_ok _ _ _ _ _ B2) by nia. eexists. split; [reflexivity|]. cbv zeta.
    set (l' := firstn (Z.to_nat (es i * c)) l ++ bs ++ skipn (Z.to_nat (es i * c) + length bs) l).
    set (w3 := set_arr _ _ _).
    assert (A3 : arr_is w3 i (c + n) A b l').
    { unfold arr_is, w3. cbn. rewrite !Nat.eqb_refl. split; [reflexivity|]. split; [reflexivity|].
      split; [unfold l'; rewrite wr_len by nia; exact B3|]. lia. }
    assert (F3 : frame i b w w3).
    { destruct F as (F1 & F2 & F3). unfold frame, w3. cbn. split.
      - intros j Hj. destruct (Nat.eqb_spec j i); [contradiction|]. apply F1, Hj.
      - split; [|exact F3]. intros c0 Hc0. destruct (Nat.eqb_spec c0 b); [contradiction|]. apply F2, Hc0. }
    destruct (frame_ok w w3 i b (c + n) A l' H F3 A3 Hb) as [W3 S3].
    split; [exact W3|]. split; [|reflexivity]. split; [|exact S3].
    rewrite (arr_is_seq _ _ _ _ _ _ A3). unfold l'. rewrite Hs.
    assert (Hz : length (seq_of es w i) = Z.to_nat (es i * c)).
    { rewrite <- Hs, firstn_length. unfold zlen in B3. nia. }
    rewrite app_assoc. apply firstn_same_app. rewrite app_length, Hz. unfold zlen in Hl. nia.
  Qed.
  Lemma becomes_same w i : becomes es w w i (seq_of es w i).
  Proof. split; auto. Qed.

  Lemma fetch_ok w w1 i s bs : wf es w -> source_bytes es w i s bs ->
    (forall j c, j <> i -> d_values (w_arr w j) = Some c -> w_heap w1 c = w_heap w c) ->
    fetch w1 s (zlen bs) = Ok bs.
  Proof.
    intros H Hs Hh. destruct s as [l|b off]; cbn in *.
    - subst. rewrite Z.eqb_refl. reflexivity.
    - destruct Hs as (j & Hj & Ev & Ho & Hl & Hb).
      destruct (wf_block _ _ H _ _ Ev) as (Ha & l & El & Hll). pose proof (wf_es _ _ H j). pose proof (wf_range _ _ H j).
      pose proof (seq_len w j H) as Hsl.
      assert (Hse : seq_of es w j = firstn (Z.to_nat (es j * d_count (w_arr w j))) l) by (unfold seq_of; rewrite Ev, El; reflexivity).
      rewrite (rd_ok _ _ _ _ l); [|rewrite (Hh _ _ Hj Ev); exact El|exact Ho|apply zlen_nonneg|nia].
      f_equal. rewrite Hb at 2. rewrite Hse. unfold zlen. rewrite Nat2Z.id. rewrite skipn_firstn_comm, firstn_firstn.
      f_equal. unfold zlen in Hl, Hsl. nia.
  Qed.

  Theorem add_elems_ok w i s bs n : wf es w -> source_bytes es w i s bs -> zlen bs = es i * n -> 0 <= n < 2 ^ 63 ->
    exists r w', add_elems E w i s (es i) n = Ok (r, w') /\ wf es w' /\
      (if 10240 <=? d_count (w_arr w i) + n then r = - AOSL_E2BIG /\ w' = w
       else (r = 0 /\ becomes es w w' i (seq_of es w i ++ bs)) \/
            (r = - AOSL_ENOMEM /\ d_ok E (w_next w) = false /\ unchanged es w w')).
  Proof.
    intros H Hs Hl Hn. unfold add_elems. set (d := w_arr w i). pose proof (wf_range _ _ H i) as Hr. fold d in Hr.
    pose proof (wf_es _ _ H i) as He. rewrite (u64_small (n + d_count d)) by lia.
    change DYNAMIC_ARRAY_MAX_COUNT with 10240.
    destruct (Z.leb_spec 10240 (d_count d)); [|destruct (Z.leb_spec 10240 n); [|destruct (Z.leb_spec 10240 (n + d_count d))]].
    1-3: exists (- AOSL_E2BIG), w; replace (10240 <=? d_count d + n) with true by lia; auto.
    replace (10240 <=? d_count d + n) with false by lia.
    replace (u16 (d_count d + n)) with (d_count d + n) by (unfold u16; lia).
    destruct (Z.eqb_spec (d_count d + n) 0) as [Hz|Hz].
    - assert (n = 0) as -> by lia. assert (Ez : d_count d = 0) by lia.
      assert (bs = []) as -> by (destruct bs; [reflexivity|unfold zlen in Hl; cbn [length] in Hl; lia]).
      replace (grow grow_fuel DYNAMIC_ARRAY_GROW_STRIDE (d_alloc d) (d_count d + 0)) with (d_alloc d).
      + unfold regrow. fold d. rewrite Z.ltb_irrefl. cbn [bind negb]. exists 0, w. split; [reflexivity|]. split; [exact H|].
        left. split; [reflexivity|]. rewrite app_nil_r. apply becomes_same.
      + symmetry. apply (grow_spec DYNAMIC_ARRAY_GROW_STRIDE (d_count d + 0)); unfold DYNAMIC_ARRAY_GROW_STRIDE, grow_fuel; lia.
    - destruct (capacity_ok w i DYNAMIC_ARRAY_GROW_STRIDE (d_count d + n) H ltac:(unfold DYNAMIC_ARRAY_GROW_STRIDE; lia) ltac:(fold d; lia) ltac:(lia))
        as [[E1 E2]|(w1 & b & l & E1 & A1 & HA & F1 & Hb & S1 & Hh)]; fold d in E1.
      + rewrite E1. cbn [bind negb]. destruct (fresh_failed_ok w H). eexists _, _. split; [reflexivity|]. split; [assumption|]. right. auto.
      + rewrite E1. cbn [bind negb]. pose proof A1 as (B1 & _). fold d in HA, A1, B1, S1.
        destruct (Z.ltb_spec 0 n).
        * rewrite B1. cbn [d_count d_alloc d_values wr_values]. rewrite (u64_small (es i * n)) by nia. rewrite <- Hl.
          rewrite (fetch_ok w w1 i s bs H Hs Hh). cbn [bind]. rewrite (u64_small (es i * d_count d)) by nia.
          destruct (append_ok w w1 i b l (d_count d) _ bs n H F1 A1 Hb S1 Hl ltac:(lia) HA) as (w2 & E3 & W3 & S3 & _).
          rewrite E3. cbn [bind]. replace (u16 (d_count d + n)) with (d_count d + n) by (unfold u16; lia).
          eexists _, _. split; [reflexivity|]. split; [exact W3|]. left. auto.
        * assert (n = 0) as -> by lia.
          assert (bs = []) as -> by (destruct bs; [reflexivity|unfold zlen in Hl; cbn [length] in Hl; lia]).
          destruct (frame_ok w w1 i b _ _ l H F1 A1 Hb) as [W1 S2].
          exists 0, w1. split; [reflexivity|]. split; [exact W1|]. left. split; [reflexivity|]. split; [|exact S2].
          rewrite app_nil_r, (arr_is_seq _ _ _ _ _ _ A1). exact S1.
  Qed.
  (** Resetting the count. *)
  Lemma reset_ok w i : wf es w ->
    let w' := set_arr w i (mkDyn 0 (d_alloc (w_arr w i)) (d_values (w_arr w i))) in
    wf es w' /\ becomes es w w' i [].
  Proof.
    intros H w'. pose proof (wf_range _ _ H i) as Hr.
    assert (Hv : forall j, d_values (w_arr w' j) = d_values (w_arr w j)) by (intros j; unfold w'; cbn; destruct (Nat.eqb_spec j i) as [->|]; reflexivity).
    assert (Ha : forall j, d_alloc (w_arr w' j) = d_alloc (w_arr w j)) by (intros j; unfold w'; cbn; destruct (Nat.eqb_spec j i) as [->|]; reflexivity).
    split.
    - constructor.
      + apply (wf_es _ _ H).
      + intros j. rewrite Ha. unfold w'. cbn. destruct (Nat.eqb_spec j i) as [->|]; [cbn; lia|apply (wf_range _ _ H)].
      + intros j. rewrite Hv, Ha. apply (wf_null _ _ H).
      + intros j b. rewrite Hv, Ha. apply (wf_block _ _ H).
      + intros j k b. rewrite !Hv. apply (wf_apart _ _ H).
      + intros b Hb. destruct (wf_live _ _ H b Hb) as [j Hj]. exists j. rewrite Hv. exact Hj.
      + apply (wf_next _ _ H).
    - split.
      + unfold seq_of. rewrite Hv. unfold w'. cbn. rewrite Nat.eqb_refl. cbn. rewrite Z.mul_0_r. cbn.
        destruct (d_values (w_arr w i)); [destruct (w_heap w n)|]; reflexivity.
      + intros j Hj. unfold seq_of. rewrite Hv. unfold w'. cbn. destruct (Nat.eqb_spec j i); [contradiction|reflexivity].
  Qed.
  Lemma becomes_trans w w1 w2 i l l' : becomes es w w1 i l -> becomes es w1 w2 i l' -> becomes es w w2 i l'.
  Proof. intros [H1 H2] [H3 H4]. split; [exact H3|]. intros j Hj. rewrite H4, H2 by exact Hj. reflexivity. Qed.
  Lemma becomes_unchanged w w1 w2 i l : becomes es w w1 i l -> unchanged es w1 w2 -> becomes es w w2 i l.
  Proof. intros [H1 H2] H3. split; [rewrite H3; exact H1|]. intros j Hj. rewrite H3, H2 by exact Hj. reflexivity. Qed.

  Theorem strcat_ok w i str : wf es w -> es i = 1 ->
    exists r w', strcat E w i str = Ok (r, w') /\ wf es w' /\
      (if 10240 <=? d_count (w_arr w i) + zlen str then r = - AOSL_E2BIG /\ w' = w
       else (r = 0 /\ becomes es w w' i (seq_of es w i ++ str) /\
             exists b l, d_values (w_arr w' i) = Some b /\ w_heap w' b = Some l /\ exists rest, l = seq_of es w' i ++ 0 :: rest) \/
            (r = - AOSL_ENOMEM /\ d_ok E (w_next w) = false /\ unchanged es w w')).
  Proof.
    intros H H1. unfold strcat. set (d := w_arr w i). pose proof (wf_range _ _ H i) as Hr. fold d in Hr.
    pose proof (zlen_nonneg str) as Hstr. set (len := zlen str) in *.
    destruct (Z.leb_spec DYNAMIC_ARRAY_MAX_COUNT (d_count d)) as [Q1|Q1].
    { exists (- AOSL_E2BIG), w. change DYNAMIC_ARRAY_MAX_COUNT with 10240 in Q1. replace (10240 <=? d_count d + len) with true by lia. auto. }
    destruct (Z.leb_spec DYNAMIC_ARRAY_MAX_COUNT len) as [Q2|Q2].
    { exists (- AOSL_E2BIG), w. change DYNAMIC_ARRAY_MAX_COUNT with 10240 in Q2. replace (10240 <=? d_count d + len) with true by lia. auto. }
    change DYNAMIC_ARRAY_MAX_COUNT with 10240 in *. rewrite (u64_small (len + d_count d)) by lia.
    destruct (Z.leb_spec 10240 (len + d_count d)) as [Q3|Q3].
    { exists (- AOSL_E2BIG), w. replace (10240 <=? d_count d + len) with true by lia. auto. }
    replace (10240 <=? d_count d + len) with false by lia.
    replace (u16 (d_count d + len + 1)) with (d_count d + len + 1) by (unfold u16; lia).
    destruct (capacity_ok w i DYNAMIC_BYTES_GROW_STRIDE (d_count d + len + 1) H ltac:(unfold DYNAMIC_BYTES_GROW_STRIDE; lia) ltac:(fold d; lia) ltac:(lia))
      as [[E1 E2]|(w1 & b & l & E1 & A1 & HA & F1 & Hb & S1 & Hh)]; fold d in E1; rewrite H1 in E1; rewrite E1; cbn [bind negb].
    - destruct (fresh_failed_ok w H). eexists _, _. split; [reflexivity|]. split; [assumption|]. right. auto.
    - fold d in HA, A1, S1. match type of HA with _ <= ?x => remember x as A0 eqn:EA0; clear EA0 end.
      assert (exists w2 A, (if 0 <? len then let* w' := wr_values w1 (d_values (w_arr w1 i)) (d_count (w_arr w1 i)) str in
                  Ok (set_arr w' i (mkDyn (u16 (d_count (w_arr w1 i) + len)) (d_alloc (w_arr w1 i)) (d_values (w_arr w1 i)))) else Ok w1) = Ok w2 /\
        wf es w2 /\ becomes es w w2 i (seq_of es w i ++ str) /\ w_arr w2 i = mkDyn (d_count d + len) A (Some b) /\ d_count d + len + 1 <= A) as (w2 & A & E3 & W2 & S2 & B2 & HA2).
      { pose proof A1 as (B1 & _). destruct (Z.ltb_spec 0 len).
        - rewrite B1. cbn [d_count d_alloc d_values wr_values].
          assert (Hl : zlen str = es i * len) by (rewrite H1; unfold len; lia).
          destruct (append_ok w w1 i b l (d_count d) _ str len H F1 A1 Hb S1 Hl ltac:(lia) ltac:(lia)) as (w2 & E3 & W3 & S3 & _).
          rewrite H1, Z.mul_1_l in E3. rewrite E3. cbn [bind]. replace (u16 (d_count d + len)) with (d_count d + len) by (unfold u16; lia).
          eexists _, _. split; [reflexivity|]. split; [exact W3|]. split; [exact S3|]. split; [cbn; rewrite Nat.eqb_refl; reflexivity|lia].
        - assert (El : len = 0) by lia. assert (str = []) as -> by (unfold len, zlen in El; destruct str; [reflexivity|cbn [length] in El; lia]).
          destruct (frame_ok w w1 i b _ _ l H F1 A1 Hb) as [W1 S2].
          eexists w1, _. split; [reflexivity|]. split; [exact W1|]. split; [split; [|exact S2]|].
          + rewrite app_nil_r, (arr_is_seq _ _ _ _ _ _ A1). exact S1.
          + split; [rewrite B1; f_equal; lia|lia]. }
      rewrite E3. cbn [bind]. rewrite B2. cbn [d_values d_count wr_values].
      destruct (wf_block _ _ W2 i b ltac:(rewrite B2; reflexivity)) as (Ha & l2 & El2 & Hl2). rewrite B2, H1 in Hl2. cbn [d_alloc] in Hl2.
      rewrite (wr_ok _ _ _ _ _ El2); [|lia|unfold zlen at 1; cbn [length]; lia]. cbn [bind].
      set (l3 := firstn (Z.to_nat (d_count d + len)) l2 ++ [0] ++ skipn (Z.to_nat (d_count d + len) + length [0]) l2).
      set (w3 := set_block w2 b (Some l3)).
      assert (A3 : arr_is w3 i (d_count d + len) A b l3).
      { unfold arr_is, w3. cbn. rewrite Nat.eqb_refl, B2, H1. split; [reflexivity|]. split; [reflexivity|].
        pose proof (wf_range _ _ W2 i) as Hr2. rewrite B2 in Hr2. cbn [d_alloc d_count] in Hr2.
        split; [unfold l3; rewrite wr_len; [lia|lia|unfold zlen at 1; cbn [length]; lia]|]. lia. }
      assert (F3 : frame i b w2 w3).
      { unfold frame, w3. cbn. rewrite B2. cbn. split; [auto|]. split.
        - intros c Hc. destruct (Nat.eqb_spec c b); [contradiction|reflexivity].
        - split; [lia|]. destruct (Nat.ltb_spec b (w_next w2)); [assumption|]. rewrite (wf_next _ _ W2 b) in El2 by assumption. discriminate. }
      destruct (frame_ok w2 w3 i b _ _ l3 W2 F3 A3) as [W3 S3]; [left; rewrite B2; reflexivity|].
      assert (Hn : length (firstn (Z.to_nat (d_count d + len)) l2) = Z.to_nat (d_count d + len)) by (rewrite firstn_length; unfold zlen in Hl2; lia).
      assert (Hseq3 : seq_of es w3 i = firstn (Z.to_nat (d_count d + len)) l2).
      { rewrite (arr_is_seq _ _ _ _ _ _ A3), H1, Z.mul_1_l. unfold l3. apply firstn_same_app, Hn. }
      assert (Hseq2 : seq_of es w2 i = firstn (Z.to_nat (d_count d + len)) l2).
      { unfold seq_of. rewrite B2. cbn [d_values d_count]. rewrite El2, H1, Z.mul_1_l. reflexivity. }
      exists 0, w3. split; [reflexivity|]. split; [exact W3|]. left. split; [reflexivity|]. split.
      + destruct S2 as [S2 S2']. split; [rewrite Hseq3, <- Hseq2; exact S2|].
        intros j Hj. rewrite S3, S2' by exact Hj. reflexivity.
      + destruct A3 as (A3 & A3' & _). exists b, l3. rewrite A3. split; [reflexivity|]. split; [exact A3'|].
        eexists. rewrite Hseq3. unfold l3. reflexivity.
  Qed.
  (** Emptying an array and giving up its block. *)
  Definition dropped (i : nat) (w w' : world) : Prop :=
    w_arr w' i = mkDyn 0 0 None /\ (forall j, j <> i -> w_arr w' j = w_arr w j) /\
    (forall c, w_heap w' c = match d_values (w_arr w i) with
                             | Some b0 => if (c =? b0)%nat then None else w_heap w c
                             | None => w_heap w c end) /\ (w_next w <= w_next w')%nat.
  Lemma drop_ok w w' i : wf es w -> dropped i w w' -> wf es w' /\ becomes es w w' i [].
  Proof.
    intros H (D1 & D2 & D3 & D4).
    assert (Hother : forall j c0, j <> i -> d_values (w_arr w j) = Some c0 -> w_heap w' c0 = w_heap w c0).
    { intros j c0 Hj Ev. rewrite D3. destruct (d_values (w_arr w i)) as [b0|] eqn:Ei; [|reflexivity].
      destruct (Nat.eqb_spec c0 b0) as [->|]; [|reflexivity]. exfalso. apply Hj. eapply wf_apart; eassumption. }
    split.
    - constructor.
      + apply (wf_es _ _ H).
      + intros j. destruct (Nat.eq_dec j i) as [->|Hj]; [rewrite D1; cbn; lia|rewrite D2 by exact Hj; apply (wf_range _ _ H)].
      + intros j. destruct (Nat.eq_dec j i) as [->|Hj]; [rewrite D1; reflexivity|rewrite D2 by exact Hj; apply (wf_null _ _ H)].
      + intros j b0. destruct (Nat.eq_dec j i) as [->|Hj]; [rewrite D1; discriminate|].
        rewrite D2 by exact Hj. intros Ev. rewrite (Hother _ _ Hj Ev). apply (wf_block _ _ H _ _ Ev).
      + intros j k b0. destruct (Nat.eq_dec j i) as [->|Hj]; [rewrite D1; discriminate|].
        destruct (Nat.eq_dec k i) as [->|Hk]; [rewrite D1; discriminate|]. rewrite !D2 by assumption. apply (wf_apart _ _ H).
      + intros c0 Hc0. rewrite D3 in Hc0.
        assert (Hl : w_heap w c0 <> None) by (destruct (d_values (w_arr w i)); [destruct (_ =? _)%nat; congruence|exact Hc0]).
        destruct (wf_live _ _ H _ Hl) as [j Ej]. exists j.
        rewrite D2; [exact Ej|]. intros ->. rewrite Ej in Hc0. rewrite Nat.eqb_refl in Hc0. congruence.
      + intros c0 Hc0. rewrite D3. pose proof (wf_next _ _ H c0 ltac:(lia)) as Hn.
        destruct (d_values (w_arr w i)); [destruct (_ =? _)%nat; auto|exact Hn].
    - split; [unfold seq_of; rewrite D1; reflexivity|].
      intros j Hj. unfold seq_of. rewrite D2 by exact Hj. destruct (d_values (w_arr w j)) as [b0|] eqn:Ev; [|reflexivity].
      rewrite (Hother _ _ Hj Ev). reflexivity.
  Qed.
  (** "if (allocated > 0) aosl_free (values)" *)
  Lemma free_ok w i w0 : wf es w -> w_arr w0 i = w_arr w i ->
    (forall b, d_values (w_arr w i) = Some b -> w_heap w0 b = w_heap w b) ->
    exists w1, (if 0 <? d_alloc (w_arr w0 i) then dfree w0 (d_values (w_arr w0 i)) else Ok w0) = Ok w1 /\
      w_arr w1 = w_arr w0 /\ w_next w1 = w_next w0 /\
      forall c, w_heap w1 c = match d_values (w_arr w i) with
                              | Some b0 => if (c =? b0)%nat then None else w_heap w0 c
                              | None => w_heap w0 c end.
  Proof.
    intros H Ea Eh. rewrite Ea. destruct (d_values (w_arr w i)) as [b|] eqn:Ev.
    - destruct (wf_block _ _ H _ _ Ev) as (Ha & l & El & _). replace (0 <? d_alloc (w_arr w i)) with true by lia.
      cbn [dfree]. rewrite (Eh b eq_refl), El. eexists. split; [reflexivity|]. auto.
    - rewrite (wf_null _ _ H _ Ev). cbn. eexists. split; [reflexivity|]. auto.
  Qed.
  Theorem take_ok w dst src : wf es w -> es dst = es src ->
    exists w', take w dst src = Ok w' /\ wf es w' /\
      (if (dst =? src)%nat then becomes es w w' dst []
       else seq_of es w' dst = seq_of es w src /\ seq_of es w' src = [] /\
            forall j, j <> dst -> j <> src -> seq_of es w' j = seq_of es w j).
  Proof.
    intros H He. unfold take.
    destruct (free_ok w dst w H eq_refl ltac:(auto)) as (w1 & E1 & B1 & B2 & B3). rewrite E1. cbn [bind].
    eexists. split; [reflexivity|]. destruct (Nat.eqb_spec dst src) as [->|Hne].
    - apply drop_ok; [exact H|]. unfold dropped. cbn. rewrite Nat.eqb_refl. split; [reflexivity|]. split.
      + intros j Hj. destruct (Nat.eqb_spec j src); [contradiction|]. rewrite B1. reflexivity.
      + rewrite B2. auto.
    - set (wd := mkWorld (fun j => if (j =? dst)%nat then mkDyn 0 0 None else w_arr w j) (w_heap w1) (w_next w)).
      destruct (drop_ok w wd dst H) as [Wd Sd].
      { unfold dropped, wd. cbn. rewrite Nat.eqb_refl. split; [reflexivity|]. split; [|split; [exact B3|lia]].
        intros j Hj. destruct (Nat.eqb_spec j dst); [contradiction|reflexivity]. }
      set (w' := set_arr _ _ _).
      assert (Ad : w_arr w' dst = w_arr wd src).
      { unfold w', wd. cbn. rewrite Nat.eqb_refl. destruct (Nat.eqb_spec dst src); [contradiction|].
        destruct (Nat.eqb_spec src dst); [congruence|]. rewrite B1. reflexivity. }
      assert (As : w_arr w' src = mkDyn 0 0 None) by (unfold w'; cbn; rewrite Nat.eqb_refl; reflexivity).
      assert (Ao : forall j, j <> dst -> j <> src -> w_arr w' j = w_arr wd j).
      { intros j Hd Hs. unfold w', wd. cbn. destruct (Nat.eqb_spec j src); [contradiction|]. destruct (Nat.eqb_spec j dst); [contradiction|]. rewrite B1. reflexivity. }
      assert (Hh : w_heap w' = w_heap wd) by reflexivity.
      assert (Dn : w_arr wd dst = mkDyn 0 0 None) by (unfold wd; cbn; rewrite Nat.eqb_refl; reflexivity).
      assert (Own : forall j b, d_values (w_arr w' j) = Some b -> (j = dst /\ d_values (w_arr wd src) = Some b) \/ (j <> dst /\ j <> src /\ d_values (w_arr wd j) = Some b)).
      { intros j b Ev. destruct (Nat.eq_dec j dst) as [->|Hd]; [left; rewrite Ad in Ev; auto|].
        destruct (Nat.eq_dec j src) as [->|Hs]; [rewrite As in Ev; discriminate|]. right. rewrite Ao in Ev by assumption. auto. }
      split.
      + constructor.
        * apply (wf_es _ _ H).
        * intros j. destruct (Nat.eq_dec j dst) as [->|Hd]; [rewrite Ad; apply (wf_range _ _ Wd)|].
          destruct (Nat.eq_dec j src) as [->|Hs]; [rewrite As; cbn; lia|rewrite Ao by assumption; apply (wf_range _ _ Wd)].
        * intros j. destruct (Nat.eq_dec j dst) as [->|Hd]; [rewrite Ad; apply (wf_null _ _ Wd)|].
          destruct (Nat.eq_dec j src) as [->|Hs]; [rewrite As; reflexivity|rewrite Ao by assumption; apply (wf_null _ _ Wd)].
        * intros j b Ev. rewrite Hh. destruct (Own _ _ Ev) as [(-> & Ev')|(Hd & Hs & Ev')].
          -- rewrite Ad, He. apply (wf_block _ _ Wd _ _ Ev').
          -- rewrite Ao by assumption. apply (wf_block _ _ Wd _ _ Ev').
        * intros j k b Ej Ek. destruct (Own _ _ Ej) as [(-> & Ej')|(Hd & Hs & Ej')]; destruct (Own _ _ Ek) as [(-> & Ek')|(Hd' & Hs' & Ek')]; auto.
          -- exfalso. apply Hs'. eapply wf_apart; eassumption.
          -- exfalso. apply Hs. eapply wf_apart; eassumption.
          -- eapply wf_apart; eassumption.
        * intros b Hb. rewrite Hh in Hb. destruct (wf_live _ _ Wd b Hb) as [j Ej].
          destruct (Nat.eq_dec j src) as [->|Hs]; [exists dst; rewrite Ad; exact Ej|].
          destruct (Nat.eq_dec j dst) as [->|Hd]; [rewrite Dn in Ej; discriminate|]. exists j. rewrite Ao by assumption. exact Ej.
        * intros b Hb. rewrite Hh. apply (wf_next _ _ Wd). unfold w' in Hb. cbn in Hb. rewrite B2 in Hb. exact Hb.
      + destruct Sd as [_ Sd]. split; [|split].
        * rewrite <- (Sd src) by congruence. unfold seq_of. rewrite Ad, Hh, He. reflexivity.
        * unfold seq_of. rewrite As. reflexivity.
        * intros j Hd Hs. rewrite <- (Sd j) by exact Hd. unfold seq_of. rewrite Ao, Hh by assumption. reflexivity.
  Qed.

  Theorem bytes_copy_ok w dst src : wf es w -> es dst = 1 -> es src = 1 ->
    exists r w', bytes_copy E w dst src = Ok (r, w') /\ wf es w' /\
      ((r = 0 /\ becomes es w w' dst (seq_of es w src)) \/
       (r = -1 /\ d_ok E (w_next w) = false /\ unchanged es w w')).
  Proof.
    intros H H1 H2. unfold bytes_copy. set (s := w_arr w src). pose proof (wf_range _ _ H src) as Hr. fold s in Hr.
    destruct (Z.ltb_spec 0 (d_alloc s)) as [Hpos|Hz].
    - unfold dmalloc. set (k := w_next w). destruct (d_ok E k) eqn:Ek.
      2:{ exists (-1), (fresh_failed w). split; [reflexivity|]. destruct (fresh_failed_ok w H). split; [assumption|]. right. auto. }
      set (fresh := map (d_junk E k) (seq 0 (Z.to_nat (d_alloc s)))).
      assert (Hfl : zlen fresh = d_alloc s) by (unfold zlen, fresh; rewrite map_length, seq_length; lia).
      set (w1 := mkWorld (w_arr w) (fun c => if (c =? k)%nat then Some fresh else w_heap w c) (S k)).
      assert (Hk : w_heap w1 k = Some fresh) by (unfold w1; cbn; rewrite Nat.eqb_refl; reflexivity).
      assert (Hold : forall b, w_heap w b <> None -> b <> k) by (intros b Hb ->; apply Hb, (wf_next _ _ H); unfold k; lia).
      destruct (d_values s) as [b|] eqn:Ev; [|pose proof (wf_null _ _ H _ Ev) as Hx; fold s in Hx; lia].
      destruct (wf_block _ _ H _ _ Ev) as (_ & l & El & Hl). fold s in Hl. rewrite H2, Z.mul_1_l in Hl.
      assert (Hb1 : w_heap w1 b = Some l) by (unfold w1; cbn; destruct (Nat.eqb_spec b k); [exfalso; apply (Hold b); congruence|exact El]).
      assert (Hseq : seq_of es w src = firstn (Z.to_nat (d_count s)) l) by (unfold seq_of; fold s; rewrite Ev, El, H2, Z.mul_1_l; reflexivity).
      assert (Erd : rd_values w1 (Some b) 0 (d_count s) = Ok (firstn (Z.to_nat (d_count s)) l)).
      { unfold rd_values. destruct (Z.eqb_spec (d_count s) 0) as [->|]; [reflexivity|]. rewrite (rd_ok _ _ _ _ _ Hb1) by lia. reflexivity. }
      rewrite Erd. cbn [bind].
      pose proof (firstn_zlen (d_count s) l ltac:(lia)) as Hfz.
      rewrite (wr_ok _ _ _ _ _ Hk) by lia. cbn [bind].
      set (l2 := firstn (Z.to_nat 0) fresh ++ _ ++ _). set (w2 := set_block w1 k (Some l2)).
      assert (Hl2 : zlen l2 = d_alloc s) by (unfold l2; rewrite wr_len by lia; exact Hfl).
      assert (Hf2 : firstn (Z.to_nat (d_count s)) l2 = seq_of es w src).
      { unfold l2. cbn [Z.to_nat firstn app]. rewrite Hseq. apply firstn_same_app. unfold zlen in Hfz. lia. }
      assert (exists l3 w3, (if d_count s <? d_alloc s then wr w2 k (d_count s) [0] else Ok w2) = Ok w3 /\
        w_arr w3 = w_arr w /\ w_next w3 = S k /\ w_heap w3 k = Some l3 /\ zlen l3 = d_alloc s /\
        (forall c, c <> k -> w_heap w3 c = w_heap w c) /\ firstn (Z.to_nat (d_count s)) l3 = seq_of es w src) as (l3 & w3 & E3 & C1 & C2 & C3 & C4 & C5 & C6).
      { assert (Hk2 : w_heap w2 k = Some l2) by (unfold w2; cbn; rewrite Nat.eqb_refl; reflexivity).
        assert (Ho : forall c, c <> k -> w_heap w2 c = w_heap w c) by (intros c Hc; unfold w2, w1; cbn; destruct (Nat.eqb_spec c k); [contradiction|reflexivity]).
        destruct (Z.ltb_spec (d_count s) (d_alloc s)).
        - rewrite (wr_ok _ _ _ _ _ Hk2); [|lia|unfold zlen at 1; cbn [length]; lia]. eexists _, _. split; [reflexivity|].
          cbn [w_arr w_next w_heap set_block w2 w1]. rewrite Nat.eqb_refl. split; [reflexivity|]. split; [reflexivity|]. split; [reflexivity|].
          split; [rewrite wr_len; [exact Hl2|lia|unfold zlen at 1; cbn [length]; lia]|].
          split; [intros c Hc; destruct (Nat.eqb_spec c k); [contradiction|reflexivity]|].
          rewrite firstn_same_app; [exact Hf2|]. rewrite firstn_length. unfold zlen in Hl2. lia.
        - exists l2, w2. auto 10. }
      rewrite E3. cbn [bind].
      destruct (free_ok w dst w3 H) as (w4 & E4 & D1 & D2 & D3); [rewrite C1; reflexivity| |].
      { intros b0 Ev0. destruct (wf_block _ _ H _ _ Ev0) as (_ & l0 & El0 & _). apply C5, Hold. congruence. }
      rewrite E4. cbn [bind]. rewrite D1, C1. fold s.
      exists 0. eexists. split; [reflexivity|]. set (w' := set_arr _ _ _).
      assert (Kd : d_values (w_arr w dst) <> Some k) by (intros Ex; destruct (wf_block _ _ H _ _ Ex) as (_ & l0 & El0 & _); apply (Hold k); congruence).
      assert (A' : arr_is w' dst (d_count s) (d_alloc s) k l3).
      { unfold arr_is, w'. cbn. rewrite Nat.eqb_refl, D3. split; [reflexivity|].
        split; [destruct (d_values (w_arr w dst)) as [b0|]; [destruct (Nat.eqb_spec k b0); [congruence|]|]; exact C3|]. rewrite H1, Z.mul_1_l. split; [exact C4|lia]. }
      assert (F' : frame dst k w w').
      { unfold frame, w'. cbn. rewrite D2, C2. split.
        - intros j Hj. destruct (Nat.eqb_spec j dst); [contradiction|]. rewrite D1, C1. reflexivity.
        - split; [|fold k; lia]. intros c Hc. rewrite D3. destruct (d_values (w_arr w dst)); [destruct (_ =? _)%nat; [reflexivity|]|]; apply C5, Hc. }
      destruct (frame_ok w w' dst k _ _ l3 H F' A') as [W' S']; [right; apply (wf_next _ _ H); unfold k; lia|].
      split; [exact W'|]. left. split; [reflexivity|]. split; [|exact S'].
      rewrite (arr_is_seq _ _ _ _ _ _ A'), H1, Z.mul_1_l. exact C6.
    - assert (Hc0 : d_count s = 0 /\ d_alloc s = 0) by lia. destruct Hc0 as [Hc0 Ha0].
      destruct (free_ok w dst w H eq_refl ltac:(auto)) as (w1 & E1 & D1 & D2 & D3). rewrite E1. cbn [bind]. rewrite D1. fold s. rewrite Hc0, Ha0.
      eexists _, _. split; [reflexivity|].
      match goal with |- wf es ?x /\ _ => assert (Hd : dropped dst w x) end.
      { unfold dropped. cbn. rewrite Nat.eqb_refl. split; [reflexivity|]. split; [|split; [exact D3|lia]].
        intros j Hj. destruct (Nat.eqb_spec j dst); [contradiction|]. rewrite D1. reflexivity. }
      destruct (drop_ok _ _ _ H Hd) as [W' S']. split; [exact W'|]. left. split; [reflexivity|].
      replace (seq_of es w src) with (@nil Z); [exact S'|].
      pose proof (seq_len w src H) as Hx. fold s in Hx. rewrite Hc0 in Hx. destruct (seq_of es w src); [reflexivity|unfold zlen in Hx; cbn [length] in Hx; lia].
  Qed.

  Lemma values_ok w i : wf es w -> es i = 1 -> forall n, 0 <= n <= d_count (w_arr w i) ->
    rd_values w (d_values (w_arr w i)) 0 n = Ok (firstn (Z.to_nat n) (seq_of es w i)).
  Proof.
    intros H H1 n Hn. unfold rd_values. pose proof (wf_range _ _ H i) as Hr. destruct (Z.eqb_spec n 0) as [->|Hz]; [reflexivity|].
    unfold seq_of. destruct (d_values (w_arr w i)) as [b|] eqn:Ev; [|pose proof (wf_null _ _ H _ Ev); lia].
    destruct (wf_block _ _ H _ _ Ev) as (_ & l & El & Hl). rewrite El. rewrite H1, Z.mul_1_l in Hl.
    rewrite (rd_ok _ _ _ _ _ El) by lia. cbn [Z.to_nat skipn]. rewrite H1, Z.mul_1_l, firstn_firstn. do 2 f_equal. lia.
  Qed.
  Lemma memcmp_0 : forall a b, length a = length b -> (memcmp a b = 0 <-> a = b).
  Proof.
    induction a as [|x a IH]; intros [|y b] Hl; cbn in *; try lia; [tauto|].
    destruct (Z.eqb_spec x y) as [->|Hne].
    - rewrite IH by lia. split; [intros ->; reflexivity|intros [= ->]; reflexivity].
    - split; [lia|intros [= -> ->]; contradiction].
  Qed.
  Theorem compare_ok w i j : wf es w -> es i = 1 -> es j = 1 ->
    exists r, bytes_compare w i j = Ok r /\ (r = 0 <-> seq_of es w i = seq_of es w j).
  Proof.
    intros H H1 H2. unfold bytes_compare. pose proof (seq_len w i H) as L1. pose proof (seq_len w j H) as L2. rewrite H1, Z.mul_1_l in L1. rewrite H2, Z.mul_1_l in L2.
    pose proof (wf_range _ _ H i) as R1. pose proof (wf_range _ _ H j) as R2.
    destruct (Z.eqb_spec (d_count (w_arr w i)) (d_count (w_arr w j))) as [Heq|Hne]; cbn [negb].
    - rewrite (values_ok w i H H1) by lia. rewrite (values_ok w j H H2) by lia. cbn [bind]. eexists. split; [reflexivity|].
      rewrite <- L1, <- L2 at 1. unfold zlen. rewrite !Nat2Z.id, !firstn_all. apply memcmp_0. unfold zlen in *. lia.
    - eexists. split; [reflexivity|]. split; [lia|]. intros Hs. rewrite Hs in L1. lia.
  Qed.
  Theorem strcpy_out_ok w i buf_sz : wf es w -> es i = 1 -> 0 < buf_sz < 2 ^ 64 ->
    strcpy_out w i buf_sz = Ok (firstn (Z.to_nat (buf_sz - 1)) (seq_of es w i) ++ [0]).
  Proof.
    intros H H1 Hb. unfold strcpy_out. pose proof (seq_len w i H) as L1. rewrite H1, Z.mul_1_l in L1. pose proof (wf_range _ _ H i) as R1.
    destruct (Z.leb_spec buf_sz (d_count (w_arr w i))).
    - rewrite u64_small by lia. rewrite (values_ok w i H H1) by lia. cbn [bind]. replace (buf_sz - 1 + 1 <=? buf_sz) with true by lia. reflexivity.
    - rewrite (values_ok w i H H1) by lia. cbn [bind]. replace (d_count (w_arr w i) + 1 <=? buf_sz) with true by lia.
      do 2 f_equal. rewrite !firstn_all2; [reflexivity|unfold zlen in L1; lia|unfold zlen in L1; lia].
  Qed.
End Dyn.
