(** * A successful decoding has read a valid encoding *)
From Verif Require Import Base Psb PsbSpec PsbProof Arith Marshal MarshalSpec MarshalChain MarshalSafe MarshalDec.

Ltac Zify.zify_post_hook ::= Z.div_mod_to_equations.

(** ** More fuel does not change a finished run *)
Section Fuel.
  Variable R : Type.
  Variable rd : reader R.
  Variable E : menv.
  Variable T : ttab.
  Notation St := (ust R).
  Definition mle {A} (m m' : St -> res St A) : Prop := forall s, m s = RFuel \/ m' s = m s.
  Lemma mle_refl {A} (m : St -> res St A) : mle m m.
  Proof. intros s. auto. Qed.
  Lemma mle_bind {A B} (m m' : St -> res St A) (k k' : A -> St -> res St B) :
    mle m m' -> (forall a, mle (k a) (k' a)) -> mle (rbind m k) (rbind m' k').
  Proof.
    intros Hm Hk s. unfold rbind. destruct (Hm s) as [E1|E1]; rewrite E1; [auto|].
    destruct (m s); auto. apply Hk.
  Qed.
  Lemma mle_elems f f' : (forall x, mle (f x) (f' x)) -> forall k a st i len,
    mle (each_elem f a st i k len) (each_elem f' a st i k len).
  Proof.
    intros Hf. induction k as [|k IH]; intros; cbn [each_elem]; [apply mle_refl|].
    apply mle_bind; [apply Hf|]. intros n. apply IH.
  Qed.
  Lemma mle_fields f f' : (forall c, mle (f c) (f' c)) -> forall k t len,
    mle (each_field T f k t len) (each_field T f' k t len).
  Proof.
    intros Hf. induction k as [|k IH]; intros t len; cbn [each_field]; [apply mle_refl|].
    destruct (nth_error T t) as [ti|]; [|apply mle_refl].
    destruct (ti_id ti); try apply mle_refl; (apply mle_bind; [apply Hf|intros; apply IH]).
  Qed.
  Ltac mle_step :=
    first [ apply mle_refl | apply mle_bind; [apply mle_refl|intros ?]
          | apply mle_bind; [|intros ?]
          | match goal with
            | |- mle (if ?c then _ else _) _ => destruct c
            | |- mle (match ?x with Some _ => _ | None => _ end) _ => destruct x
            | |- mle (match ?x with GSize _ => _ | _ => _ end) _ => destruct x
            end ].
  Lemma fuel_step f : forall t p, mle (unmarshal R rd E T f t p) (unmarshal R rd E T (S f) t p).
  Proof.
    induction f as [|f IH]; intros t p; [intros s; left; reflexivity|].
    cbn [unmarshal]. destruct (nth_error T t) as [ti|]; [|apply mle_refl].
    apply mle_bind; [apply mle_refl|]. intros m.
    match goal with |- context [if ?c then rret 0 else _] => destruct c end; [apply mle_refl|].
    destruct (ti_id ti); repeat mle_step; try apply IH;
      try (apply mle_elems; intros; apply IH); try (apply mle_fields; intros; apply IH).
  Qed.
  Lemma fuel_more f g t p s r : (f <= g)%nat -> unmarshal R rd E T f t p s = r -> r <> RFuel ->
    unmarshal R rd E T g t p s = r.
  Proof.
    intros Hfg E1 Hr. induction Hfg as [|g Hfg IH]; [assumption|].
    destruct (fuel_step g t p s) as [E2|E2]; congruence.
  Qed.
End Fuel.

(** ** Parsing *)
Lemma app_split {A} (a b c d : list A) : length a = length c -> a ++ b = c ++ d -> a = c /\ b = d.
Proof.
  revert c. induction a as [|x a IH]; intros [|y c] Hl H; cbn in *; try discriminate; [auto|].
  injection H as -> H. injection Hl as Hl. destruct (IH _ Hl H) as [-> ->]. auto.
Qed.
Section Parse.
  Variable E : menv.
  Variable T : ttab.
  Variable strict : bool.
  Hypothesis Hok : types_ok T.
  Hypothesis Hhave : forall t ti, nth_error T t = Some ti -> ti_have ti = None.
  Notation rf := (flat_reader strict).

  Lemma bind_inv {A B} (m : fst_ -> res fst_ A) (k : A -> fst_ -> res fst_ B) s b s' :
    rbind m k s = RVal b s' -> exists a s1, m s = RVal a s1 /\ k a s1 = RVal b s'.
  Proof. unfold rbind. destruct (m s); try discriminate. eauto. Qed.
  Lemma ret_inv {A} (a b : A) (s s' : fst_) : rret a s = RVal b s' -> b = a /\ s' = s.
  Proof. intros [= <- <-]. auto. Qed.
  Lemma write_inv a bs s u s' : write (list Z) a bs s = RVal u s' -> u_in s' = u_in s.
  Proof. unfold write. destruct (mwrite _ _ _); [|discriminate]. intros [= <- <-]. reflexivity. Qed.
  Lemma malloc_inv n s o s' : malloc (list Z) E n s = RVal o s' -> u_in s' = u_in s.
  Proof.
    unfold malloc. destruct (e_addr E (u_nalloc s)); [destruct (_ && _ && _)|]; intros [= <- <-]; reflexivity.
  Qed.
  Lemma base_inv n s bs s' : 0 <= n -> base (list Z) rf n s = RVal bs s' -> u_in s = bs ++ u_in s' /\ zlen bs = n.
  Proof.
    intros Hn. unfold base. cbn [r_base flat_reader]. destruct (Z.ltb_spec (zlen (u_in s)) n); [discriminate|].
    intros [= <- <-]. cbn [u_in]. split; [symmetry; apply firstn_skipn|]. unfold zlen in *. rewrite firstn_length. lia.
  Qed.
  Lemma dec_bytes_inv a n s k s' : 0 <= n -> dec_bytes (list Z) rf a n s = RVal k s' ->
    k = n /\ exists bs, u_in s = bs ++ u_in s' /\ zlen bs = n.
  Proof.
    intros Hn. unfold dec_bytes. cbn [r_bytes flat_reader]. intros H. apply bind_inv in H.
    destruct H as (u & s1 & H1 & H2). apply write_inv in H1. cbn [u_in] in H1.
    destruct (Z.leb_spec n (zlen (u_in s))); [|discriminate]. unfold rret in H2. injection H2 as <- <-.
    split; [reflexivity|]. exists (firstn (Z.to_nat n) (u_in s)). rewrite H1. split; [symmetry; apply firstn_skipn|].
    unfold zlen in *. rewrite firstn_length. lia.
  Qed.
  Lemma nul_index_inv l n : nul_index l = Some n -> 0 <= n /\ exists s r, l = s ++ 0 :: r /\ no_nul s /\ zlen s = n.
  Proof.
    revert n. induction l as [|b l IH]; intros n H; [discriminate|]. cbn [nul_index] in H.
    destruct (Z.eqb_spec b 0) as [->|Hb].
    - injection H as <-. split; [lia|]. exists [], l. split; [reflexivity|]. split; [constructor|reflexivity].
    - destruct (nul_index l) as [k|] eqn:Ek; [|discriminate]. injection H as <-.
      destruct (IH k eq_refl) as (Hk & s & r & -> & Hs & <-). split; [lia|].
      exists (b :: s), r. split; [reflexivity|]. split; [constructor; assumption|]. unfold zlen; cbn [length]; lia.
  Qed.
  Lemma strsize_inv s n s' : strsize (list Z) rf s = RVal n s' ->
    s' = s /\ exists str r, u_in s = str ++ 0 :: r /\ no_nul str /\ n = zlen str + 1.
  Proof.
    unfold strsize. cbn [r_strsize flat_reader]. destruct (nul_index (u_in s)) as [k|] eqn:Ek.
    - intros [= <- <-]. split; [reflexivity|]. apply nul_index_inv in Ek. destruct Ek as (_ & str & r & H1 & H2 & <-). eauto.
    - destruct strict; discriminate.
  Qed.
  Lemma presence_inv s b s' : presence (list Z) rf E s = RVal b s' -> u_in s = b :: u_in s'.
  Proof.
    unfold presence. destruct (e_helper_null E); [|discriminate]. intros H. apply bind_inv in H.
    destruct H as (bs & s1 & H1 & H2). unfold rret in H2. injection H2 as <- <-. apply base_inv in H1; [|lia].
    destruct H1 as [H1 H3]. destruct bs as [|x [|]]; unfold zlen in H3; cbn [length] in H3; try lia.
    rewrite H1. cbn [le_val]. replace (x + 256 * 0) with x by lia. reflexivity.
  Qed.
  Lemma dec16_inv s v s' : all_bytes (u_in s) -> dec16 (list Z) rf s = RVal v s' ->
    u_in s = le_bytes 2 v ++ u_in s' /\ 0 <= v < 65536.
  Proof.
    unfold dec16. intros Hall H. apply bind_inv in H. destruct H as (bs & s1 & H1 & H2). unfold rret in H2. injection H2 as <- <-.
    apply base_inv in H1; [|lia]. destruct H1 as [H1 H3]. rewrite H1 in Hall. apply Forall_app in Hall. destruct Hall as [Hall _].
    pose proof (le_val_range bs Hall) as Hr. pose proof (le_bytes_val bs Hall) as Hl. rewrite H3 in Hr.
    change (256 ^ 2) with 65536 in Hr. replace (length bs) with 2%nat in Hl by (unfold zlen in H3; lia).
    replace (cpu_to_le16 (le_val bs)) with (le_val bs) by (unfold cpu_to_le16, u16; lia). rewrite Hl. auto.
  Qed.

  (** [m] run from [s] read [w]. *)
  Definition input_ok (s : fst_) : Prop := all_bytes (u_in s) /\ zlen (u_in s) <= 65535.
  Lemma input_ok_suffix s s' w : input_ok s -> u_in s = w ++ u_in s' -> input_ok s'.
  Proof.
    intros [H1 H2] Ein. rewrite Ein in H1, H2. apply Forall_app in H1. rewrite zlen_app in H2.
    pose proof (zlen_nonneg w). split; [tauto|lia].
  Qed.
  Lemma input_ok_same s s' : input_ok s -> u_in s' = u_in s -> input_ok s'.
  Proof. intros H Ein. eapply input_ok_suffix with (w := []); [exact H|]. cbn. congruence. Qed.

  Notation acc := (fun b : Z => b <> 0).
  Definition parses (f t : nat) (p : Z) : Prop := forall s n s', input_ok s ->
    unmarshal (list Z) rf E T f t p s = RVal n s' ->
    exists v w, wire T acc t v w /\ u_in s = w ++ u_in s' /\ n = zlen w.

  Lemma fields_parse f p : (forall c, parses f c p) ->
    forall k t len s n s', input_ok s ->
    each_field T (fun t' => unmarshal (list Z) rf E T f t' p) k t len s = RVal n s' ->
    exists vs w, wire_fields T acc t vs w /\ u_in s = w ++ u_in s' /\ n = len + zlen w.
  Proof.
    intros Hf. induction k as [|k IH]; intros t len s n s' Hi H; cbn [each_field] in H; [discriminate|].
    destruct (nth_error T t) as [ti|] eqn:Et; [|discriminate].
    assert (Hgo : ti_id ti <> TVoid ->
      (get n <- unmarshal (list Z) rf E T f t p; each_field T (fun t' => unmarshal (list Z) rf E T f t' p) k (S t) (len + n)) s = RVal n s' ->
      exists vs w, wire_fields T acc t vs w /\ u_in s = w ++ u_in s' /\ n = len + zlen w).
    { intros Hv H'. apply bind_inv in H'. destruct H' as (n1 & s1 & H1 & H2).
      destruct (Hf t s n1 s1 Hi H1) as (v & w1 & Hw1 & Ein & ->).
      destruct (IH _ _ _ _ _ (input_ok_suffix _ _ _ Hi Ein) H2) as (vs & w2 & Hw2 & Ein2 & ->).
      exists (v :: vs), (w1 ++ w2). split; [eapply WF_cons; eassumption|].
      split; [rewrite Ein, Ein2, app_assoc; reflexivity|rewrite zlen_app; lia]. }
    destruct (ti_id ti) eqn:Ei; try (apply Hgo; [discriminate|exact H]).
    unfold rret in H. injection H as <- <-. exists [], []. split; [eapply WF_end; eassumption|]. split; [reflexivity|cbn; lia].
  Qed.
  Lemma elems_parse f t : (forall p, parses f t p) ->
    forall k a st i len s n s', input_ok s ->
    each_elem (unmarshal (list Z) rf E T f t) a st i k len s = RVal n s' ->
    exists vs w, wire_elems T acc t vs w /\ length vs = k /\ u_in s = w ++ u_in s' /\ n = len + zlen w.
  Proof.
    intros Hf. induction k as [|k IH]; intros a st i len s n s' Hi H; cbn [each_elem] in H.
    - unfold rret in H. injection H as <- <-. exists [], []. split; [constructor|]. split; [reflexivity|]. split; [reflexivity|cbn; lia].
    - apply bind_inv in H. destruct H as (n1 & s1 & H1 & H2).
      destruct (Hf _ s n1 s1 Hi H1) as (v & w1 & Hw1 & Ein & ->).
      destruct (IH _ _ _ _ _ _ _ (input_ok_suffix _ _ _ Hi Ein) H2) as (vs & w2 & Hw2 & Hl & Ein2 & ->).
      exists (v :: vs), (w1 ++ w2). split; [constructor; assumption|]. split; [cbn; lia|].
      split; [rewrite Ein, Ein2, app_assoc; reflexivity|rewrite zlen_app; lia].
  Qed.
  Lemma dec_base_inv n fn a s k s' : 0 < n -> dec_base (list Z) rf n fn a s = RVal k s' ->
    exists bs, u_in s = bs ++ u_in s' /\ zlen bs = n /\ k = n.
  Proof.
    intros Hn H. unfold dec_base in H. apply bind_inv in H. destruct H as (bs & s1 & H1 & H2).
    apply bind_inv in H2. destruct H2 as (u & s2 & H2 & H3). unfold rret in H3. injection H3 as <- <-.
    apply write_inv in H2. apply base_inv in H1; [|lia]. exists bs. rewrite H2. tauto.
  Qed.
  Lemma dec_raw_inv n a s k s' : 0 < n -> dec_raw (list Z) rf n a s = RVal k s' ->
    exists bs, u_in s = bs ++ u_in s' /\ zlen bs = n /\ k = n.
  Proof.
    intros Hn H. unfold dec_raw in H. apply bind_inv in H. destruct H as (bs & s1 & H1 & H2).
    apply bind_inv in H2. destruct H2 as (u & s2 & H2 & H3). unfold rret in H3. injection H3 as <- <-.
    apply write_inv in H2. apply base_inv in H1; [|lia]. exists bs. rewrite H2. tauto.
  Qed.
  Lemma input_ok_prefix s w r : input_ok s -> u_in s = w ++ r -> all_bytes w /\ zlen w <= 65535.
  Proof.
    intros [H1 H2] Ein. rewrite Ein in H1, H2. apply Forall_app in H1. rewrite zlen_app in H2.
    pose proof (zlen_nonneg r). split; [tauto|lia].
  Qed.

  Theorem unmarshal_parses fuel : forall t p, parses fuel t p.
  Proof.
    induction fuel as [|f IH]; intros t p s n s' Hi H; cbn [unmarshal] in H; [discriminate|].
    destruct (nth_error T t) as [ti|] eqn:Et; [|discriminate].
    pose proof (Hok _ _ Et) as [Hsz He]. pose proof (Hhave _ _ Et) as Eh.
    apply bind_inv in H. destruct H as (m & s0 & H0 & H). unfold umem in H0. injection H0 as <- <-. rewrite Eh in H.
    assert (Hplain : forall k bs, plain_size (ti_id ti) = Some k -> u_in s = bs ++ u_in s' -> zlen bs = k -> n = k ->
      exists v w, wire T acc t v w /\ u_in s = w ++ u_in s' /\ n = zlen w).
    { intros k bs Hp Ein Hl ->. exists (VBytes bs), bs. split; [|split; [exact Ein|congruence]].
      eapply W_plain; try eassumption. apply (input_ok_prefix _ _ _ Hi Ein). }
    destruct (ti_id ti) eqn:Ei.
    - apply ret_inv in H. destruct H as [-> ->]. exists VVoid, []. split; [eapply W_void; eassumption|]. split; reflexivity.
    - apply dec_base_inv in H; [|lia]. destruct H as (bs & H1 & H2 & H3). eapply Hplain; [reflexivity|exact H1|exact H2|exact H3].
    - apply dec_base_inv in H; [|lia]. destruct H as (bs & H1 & H2 & H3). eapply Hplain; [reflexivity|exact H1|exact H2|exact H3].
    - apply dec_base_inv in H; [|lia]. destruct H as (bs & H1 & H2 & H3). eapply Hplain; [reflexivity|exact H1|exact H2|exact H3].
    - apply dec_base_inv in H; [|lia]. destruct H as (bs & H1 & H2 & H3). eapply Hplain; [reflexivity|exact H1|exact H2|exact H3].
    - apply dec_base_inv in H; [|lia]. destruct H as (bs & H1 & H2 & H3). eapply Hplain; [reflexivity|exact H1|exact H2|exact H3].
    - apply dec_base_inv in H; [|lia]. destruct H as (bs & H1 & H2 & H3). eapply Hplain; [reflexivity|exact H1|exact H2|exact H3].
    - apply dec_raw_inv in H; [|lia]. destruct H as (bs & H1 & H2 & H3). eapply Hplain; [reflexivity|exact H1|exact H2|exact H3].
    - apply dec_raw_inv in H; [|lia]. destruct H as (bs & H1 & H2 & H3). eapply Hplain; [reflexivity|exact H1|exact H2|exact H3].
    - apply bind_inv in H. destruct H as (b & s1 & H1 & H). apply presence_inv in H1.
      destruct (Z.eqb_spec b 0) as [->|Hb]; cbn [negb] in H.
      + apply bind_inv in H. destruct H as (u & s2 & H2 & H3). apply write_inv in H2. apply ret_inv in H3. destruct H3 as [-> ->].
        exists VNull, [0]. split; [eapply W_null; eauto|]. split; [rewrite H1, H2; reflexivity|reflexivity].
      + destruct He as (sz & Esz & _). rewrite Esz in H.
        apply bind_inv in H. destruct H as ([q|] & s2 & H2 & H3); [|discriminate]. apply malloc_inv in H2.
        apply bind_inv in H3. destruct H3 as (u & s3 & H3 & H4). apply write_inv in H3.
        apply bind_inv in H4. destruct H4 as (k & s4 & H4 & H5). apply ret_inv in H5. destruct H5 as [-> ->].
        assert (Ein3 : u_in s = [b] ++ u_in s3) by (rewrite H3, H2; exact H1).
        destruct (IH _ _ _ _ _ (input_ok_suffix _ _ _ Hi Ein3) H4) as (v & w & Hw & Ein & ->).
        exists (VSome v), (b :: w). split; [eapply W_pointer; eauto|].
        split; [rewrite Ein3, Ein; reflexivity|unfold zlen; cbn [length]; lia].
    - destruct (IH _ _ _ _ _ Hi H) as (v & w & Hw & Ein & ->). exists v, w. split; [eapply W_reference; eassumption|]. auto.
    - apply bind_inv in H. destruct H as (b & s1 & H1 & H). apply presence_inv in H1.
      destruct (Z.eqb_spec b 0) as [->|Hb]; cbn [negb] in H.
      + apply bind_inv in H. destruct H as (u & s2 & H2 & H3). apply write_inv in H2. apply ret_inv in H3. destruct H3 as [-> ->].
        exists VNull, [0]. split; [eapply W_null; eauto|]. split; [rewrite H1, H2; reflexivity|reflexivity].
      + apply bind_inv in H. destruct H as (k & s1' & Hk & H). apply strsize_inv in Hk. destruct Hk as (-> & str & r & Ein1 & Hn & ->).
        assert (Hlen : zlen str + 1 <= 65534).
        { destruct Hi as [_ Hl]. rewrite H1, Ein1 in Hl. change (b :: str ++ 0 :: r) with ((b :: str) ++ 0 :: r) in Hl.
          rewrite zlen_app in Hl. unfold zlen in *. cbn [length] in Hl. lia. }
        pose proof (zlen_nonneg str).
        replace (u16 (zlen str + 1)) with (zlen str + 1) in H by (unfold u16; lia).
        apply bind_inv in H. destruct H as ([q|] & s2 & H2 & H3); [|discriminate]. apply malloc_inv in H2.
        apply bind_inv in H3. destruct H3 as (u & s3 & H3 & H4). apply write_inv in H3.
        apply bind_inv in H4. destruct H4 as (k & s4 & H4 & H5). apply ret_inv in H5. destruct H5 as [-> ->].
        apply dec_bytes_inv in H4; [|lia]. destruct H4 as (-> & bs & Ein4 & Hbs).
        assert (Hcat : str ++ 0 :: r = bs ++ u_in s4) by (rewrite <- Ein4, H3, H2; symmetry; exact Ein1).
        assert (bs = str ++ [0] /\ r = u_in s4) as [-> ->].
        { change (0 :: r) with ([0] ++ r) in Hcat. rewrite app_assoc in Hcat.
          apply app_split in Hcat; [destruct Hcat as [<- <-]; auto|]. rewrite app_length. unfold zlen in Hbs. cbn [length]. clear - Hbs. lia. }
        exists (VSome (VBytes str)), (b :: str ++ [0]). split; [eapply W_string; eauto; lia|].
        split; [rewrite H1, Ein1; cbn; rewrite <- app_assoc; reflexivity|].
        unfold zlen in *. cbn [length]. rewrite app_length. cbn [length]. lia.
    - destruct (fields_parse f _ (fun c => IH c _) _ _ _ _ _ _ Hi H) as (vs & w & Hw & Ein & ->).
      exists (VSeq vs), w. split; [eapply W_struct; eassumption|]. auto.
    - apply dec_bytes_inv in H; [|lia]. destruct H as (-> & bs & Ein & Hl).
      exists (VBytes bs), bs. split; [eapply W_fixed_bytes; eassumption|]. auto.
    - apply bind_inv in H. destruct H as (v & s1 & H1 & H). apply dec16_inv in H1; [|apply Hi]. destruct H1 as [Ein1 Hv].
      destruct (Z.ltb_spec (ti_array_size ti) v); [discriminate|].
      apply bind_inv in H. destruct H as (u & s2 & H2 & H3). apply write_inv in H2.
      apply bind_inv in H3. destruct H3 as (k & s3 & H3 & H4). apply ret_inv in H4. destruct H4 as [-> ->].
      apply dec_bytes_inv in H3; [|lia]. destruct H3 as (-> & bs & Ein3 & Hl).
      exists (VBytes bs), (le_bytes 2 (zlen bs) ++ bs). split; [eapply W_var_bytes; try eassumption; lia|].
      split; [rewrite Ein1, <- H2, Ein3, app_assoc, Hl; reflexivity|]. rewrite zlen_app, zlen_le_bytes. lia.
    - apply bind_inv in H. destruct H as (k & s1' & Hk & H). apply strsize_inv in Hk. destruct Hk as (-> & str & r & Ein1 & Hn & ->).
      assert (Hlen : zlen str + 1 <= 65535).
      { destruct Hi as [_ Hl]. rewrite Ein1 in Hl. rewrite zlen_app in Hl. unfold zlen in *. cbn [length] in Hl. lia. }
      pose proof (zlen_nonneg str).
      replace (u16 (zlen str + 1)) with (zlen str + 1) in H by (unfold u16; lia).
      destruct (Z.ltb_spec (ti_array_size ti) (zlen str + 1)); [discriminate|].
      apply dec_bytes_inv in H; [|lia]. destruct H as (-> & bs & Ein4 & Hbs).
      assert (bs = str ++ [0]) as ->.
      { rewrite Ein1 in Ein4. change (0 :: r) with ([0] ++ r) in Ein4. rewrite app_assoc in Ein4.
        apply app_split in Ein4; [destruct Ein4 as [<- _]; reflexivity|]. rewrite app_length. unfold zlen in Hbs. cbn [length]. clear - Hbs. lia. }
      exists (VBytes str), (str ++ [0]). split; [eapply W_bytes_nil; eauto; lia|]. split; [exact Ein4|lia].
    - apply bind_inv in H. destruct H as (v & s1 & H1 & H). apply dec16_inv in H1; [|apply Hi]. destruct H1 as [Ein1 Hv].
      apply bind_inv in H. destruct H as (u & s2 & H2 & H). apply write_inv in H2.
      apply bind_inv in H. destruct H as (u3 & s3 & H3 & H). apply write_inv in H3.
      assert (Hfin : forall bs, u_in s3 = bs ++ u_in s' -> zlen bs = v -> n = 2 + zlen bs ->
         exists v0 w, wire T acc t v0 w /\ u_in s = w ++ u_in s' /\ n = zlen w).
      { intros bs Hb Hl ->. exists (VBytes bs), (le_bytes 2 (zlen bs) ++ bs).
        split; [eapply W_dyn_bytes; eauto; lia|].
        split; [rewrite Ein1, <- H2, <- H3, Hb, app_assoc, Hl; reflexivity|]. rewrite zlen_app, zlen_le_bytes. lia. }
      destruct (Z.ltb_spec 0 (v + 0)).
      + apply bind_inv in H. destruct H as ([q|] & s4 & H4 & H).
        * apply malloc_inv in H4. apply bind_inv in H. destruct H as (u5 & s5 & H5 & H). apply write_inv in H5.
          replace (0 <? v) with true in H by lia.
          apply bind_inv in H. destruct H as (k & s6 & H6 & H). apply ret_inv in H. destruct H as [-> ->].
          apply dec_bytes_inv in H6; [|lia]. destruct H6 as (-> & bs & Ein6 & Hl).
          apply (Hfin bs); [congruence|assumption|lia].
        * apply bind_inv in H. destruct H as (? & ? & ? & H). apply bind_inv in H. destruct H as (? & ? & ? & H). discriminate.
      + apply ret_inv in H. destruct H as [-> ->]. apply (Hfin []); [reflexivity|cbn; lia|reflexivity].
    - apply bind_inv in H. destruct H as (v & s1 & H1 & H). apply dec16_inv in H1; [|apply Hi]. destruct H1 as [Ein1 Hv].
      apply bind_inv in H. destruct H as (u & s2 & H2 & H). apply write_inv in H2.
      apply bind_inv in H. destruct H as (u3 & s3 & H3 & H). apply write_inv in H3.
      assert (Hfin : forall bs, u_in s3 = bs ++ u_in s' -> zlen bs = v -> n = 2 + zlen bs ->
         exists v0 w, wire T acc t v0 w /\ u_in s = w ++ u_in s' /\ n = zlen w).
      { intros bs Hb Hl ->. exists (VBytes bs), (le_bytes 2 (zlen bs) ++ bs).
        split; [eapply W_dyn_bytes; eauto; lia|].
        split; [rewrite Ein1, <- H2, <- H3, Hb, app_assoc, Hl; reflexivity|]. rewrite zlen_app, zlen_le_bytes. lia. }
      destruct (Z.ltb_spec 0 (v + 1)); [|lia].
      apply bind_inv in H. destruct H as ([q|] & s4 & H4 & H).
      + apply malloc_inv in H4. apply bind_inv in H. destruct H as (u5 & s5 & H5 & H). apply write_inv in H5.
        apply bind_inv in H. destruct H as (k & s6 & H6 & H).
        change (1 =? 1) with true in H. cbv iota in H.
        apply bind_inv in H. destruct H as (u7 & s7 & H7 & H). apply write_inv in H7. apply ret_inv in H. destruct H as [-> ->].
        destruct (Z.ltb_spec 0 v).
        * apply dec_bytes_inv in H6; [|lia]. destruct H6 as (-> & bs & Ein6 & Hl).
          apply (Hfin bs); [congruence|assumption|lia].
        * apply ret_inv in H6. destruct H6 as [-> ->]. apply (Hfin []); [cbn; congruence|cbn; lia|reflexivity].
      + apply bind_inv in H. destruct H as (? & ? & ? & H). apply bind_inv in H. destruct H as (? & ? & ? & H). discriminate.
    - destruct He as ((sz & Esz & _) & Hmax). rewrite Esz in H. replace (65535 <? ti_array_size ti) with false in H by lia.
      destruct (elems_parse f _ (fun p => IH _ p) _ _ _ _ _ _ _ _ Hi H) as (vs & w & Hw & Hl & Ein & ->).
      exists (VSeq vs), w. split; [eapply W_fixed_array; try eassumption; lia|]. auto.
    - destruct He as ((sz & Esz & _) & _). rewrite Esz in H.
      apply bind_inv in H. destruct H as (v & s1 & H1 & H). apply dec16_inv in H1; [|apply Hi]. destruct H1 as [Ein1 Hv].
      destruct (Z.ltb_spec (ti_array_size ti) v); [discriminate|].
      apply bind_inv in H. destruct H as (u & s2 & H2 & H3). apply write_inv in H2.
      apply bind_inv in H3. destruct H3 as (k & s3 & H3 & H4). apply ret_inv in H4. destruct H4 as [-> ->].
      assert (Hi2 : input_ok s2) by (eapply input_ok_suffix; [exact Hi|rewrite H2; exact Ein1]).
      destruct (elems_parse f _ (fun p => IH _ p) _ _ _ _ _ _ _ _ Hi2 H3) as (vs & w & Hw & Hl & Ein & ->).
      exists (VSeq vs), (le_bytes 2 (Z.of_nat (length vs)) ++ w).
      split; [eapply W_var_array; try eassumption; lia|].
      split; [rewrite Ein1, <- H2, Ein, app_assoc; do 3 f_equal; lia|]. rewrite zlen_app, zlen_le_bytes. lia.
    - destruct He as (sz & Esz & _).
      apply bind_inv in H. destruct H as (v & s1 & H1 & H). apply dec16_inv in H1; [|apply Hi]. destruct H1 as [Ein1 Hv].
      apply bind_inv in H. destruct H as (u & s2 & H2 & H). apply write_inv in H2.
      apply bind_inv in H. destruct H as (u3 & s3 & H3 & H). apply write_inv in H3.
      destruct (Z.ltb_spec 0 v).
      + rewrite Esz in H. apply bind_inv in H. destruct H as ([q|] & s4 & H4 & H).
        * apply malloc_inv in H4. apply bind_inv in H. destruct H as (u5 & s5 & H5 & H). apply write_inv in H5.
          apply bind_inv in H. destruct H as (k & s6 & H6 & H). apply ret_inv in H. destruct H as [-> ->].
          assert (Hi5 : input_ok s5) by (eapply input_ok_suffix; [exact Hi|rewrite H5, H4, H3, H2; exact Ein1]).
          destruct (elems_parse f _ (fun p => IH _ p) _ _ _ _ _ _ _ _ Hi5 H6) as (vs & w & Hw & Hl & Ein & ->).
          exists (VSeq vs), (le_bytes 2 (Z.of_nat (length vs)) ++ w).
          split; [eapply W_dyn_array; try eassumption; lia|].
          split; [rewrite Ein1, <- H2, <- H3, <- H4, <- H5, Ein, app_assoc; do 3 f_equal; lia|]. rewrite zlen_app, zlen_le_bytes. lia.
        * apply bind_inv in H. destruct H as (? & ? & ? & H). apply bind_inv in H. destruct H as (? & ? & ? & H). discriminate.
      + apply ret_inv in H. destruct H as [-> ->]. assert (v = 0) as -> by lia.
        exists (VSeq []), (le_bytes 2 (Z.of_nat (length (@nil val))) ++ []).
        split; [eapply W_dyn_array; try eassumption; [cbn; lia|constructor]|].
        split; [rewrite Ein1, <- H2, <- H3; reflexivity|reflexivity].
    - discriminate.
  Qed.
End Parse.
