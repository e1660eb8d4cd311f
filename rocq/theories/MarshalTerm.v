(** * Unmarshalling: bounded recursion, and what a longer input changes *)
From Verif Require Import Base Psb PsbSpec PsbProof Arith Marshal MarshalSpec MarshalChain MarshalSafe.

(** ** Recursion depth *)
Section Depth.
  Variable E : menv.
  Variable T : ttab.
  Variable strict : bool.
  Variable rank : nat -> nat.
  Variable Rk : nat.
  Hypothesis Hok : types_ok T.
  Hypothesis Hrank : ranked T rank.
  Hypothesis HR : forall t, (t < length T)%nat -> (rank t <= Rk)%nat.
  Notation rf := (flat_reader strict).

  (** From at most [L] bytes of input [m] does not run out of fuel and leaves
      at most [L']. *)
  Definition tdd {A} (L L' : nat) (m : fst_ -> res fst_ A) : Prop :=
    forall s, (length (u_in s) <= L)%nat ->
      match m s with RFuel => False | RVal _ s' => (length (u_in s') <= L')%nat | _ => True end.
  Lemma tdd_bind {A B} L L1 L2 (m : fst_ -> res fst_ A) (k : A -> fst_ -> res fst_ B) :
    tdd L L1 m -> (forall a, tdd L1 L2 (k a)) -> tdd L L2 (rbind m k).
  Proof.
    intros Hm Hk s Hs. specialize (Hm s Hs). unfold rbind. destruct (m s) as [a s1|e s1|n| |]; auto. apply Hk, Hm.
  Qed.
  Lemma tdd_ret {A} L (a : A) : tdd L L (rret a).
  Proof. intros s Hs. exact Hs. Qed.
  Lemma tdd_fail {A} L L' e : tdd L L' (@rfail _ A e).
  Proof. intros s Hs. exact I. Qed.
  Lemma tdd_ub {A} L L' : tdd L L' (@rub _ A).
  Proof. intros s Hs. exact I. Qed.
  Lemma tdd_bad {A} L L' r : tdd L L' (@rbad _ A r).
  Proof. intros s Hs. exact I. Qed.
  Lemma tdd_le {A} L L1 L2 (m : fst_ -> res fst_ A) : tdd L L1 m -> (L1 <= L2)%nat -> tdd L L2 m.
  Proof. intros Hm Hl s Hs. specialize (Hm s Hs). destruct (m s); auto; lia. Qed.
  Lemma tdd_lt {A} L L1 L2 (m : fst_ -> res fst_ A) : tdd L L2 m -> (L1 <= L)%nat -> tdd L1 L2 m.
  Proof. intros Hm Hl s Hs. apply Hm. lia. Qed.
  Lemma tdd_write L a bs : tdd L L (write (list Z) a bs).
  Proof. intros s Hs. unfold write. destruct (mwrite (u_mem s) a bs); auto. Qed.
  Lemma tdd_malloc L n : tdd L L (malloc (list Z) E n).
  Proof.
    intros s Hs. unfold malloc. destruct (e_addr E (u_nalloc s)) as [a|]; [|exact Hs].
    destruct ((0 <? a) && _ && _); exact Hs.
  Qed.
  Lemma tdd_base L n : (0 < n)%Z -> tdd L (L - Z.to_nat n) (base (list Z) rf n).
  Proof.
    intros Hn s Hs. unfold base. cbn [r_base flat_reader].
    destruct (zlen (u_in s) <? n); [exact I|]. cbn [u_in]. rewrite skipn_length. lia.
  Qed.
  Lemma tdd_dec_bytes L a n : tdd L L (dec_bytes (list Z) rf a n).
  Proof.
    intros s Hs. unfold dec_bytes. cbn [r_bytes flat_reader].
    apply (tdd_bind (A := unit) L L L).
    - apply tdd_write.
    - intros _. destruct (n <=? zlen (u_in s)); [apply tdd_ret|apply tdd_fail].
    - cbn [u_in]. rewrite skipn_length. lia.
  Qed.
  Lemma tdd_strsize L : tdd L L (strsize (list Z) rf).
  Proof.
    intros s Hs. unfold strsize. cbn [r_strsize flat_reader].
    destruct (nul_index (u_in s)); [exact Hs|]. destruct strict; exact I.
  Qed.
  Lemma tdd_presence L : tdd L (L - 1) (presence (list Z) rf E).
  Proof.
    unfold presence. destruct (e_helper_null E); [|apply tdd_ub].
    eapply tdd_bind; [apply tdd_base; lia|]. intros. apply tdd_ret.
  Qed.
  Lemma tdd_dec16 L : tdd L (L - 2) (dec16 (list Z) rf).
  Proof. unfold dec16. eapply tdd_bind; [apply tdd_base; lia|]. intros. apply tdd_ret. Qed.
  Lemma tdd_dec_base L n fn a : (0 < n)%Z -> tdd L L (dec_base (list Z) rf n fn a).
  Proof.
    intros Hn. apply tdd_bind with (L1 := L); [eapply tdd_le; [apply tdd_base; assumption|lia]|]. intros bs.
    eapply tdd_bind; [apply tdd_write|]. intros _. apply tdd_ret.
  Qed.
  Lemma tdd_dec_raw L n a : (0 < n)%Z -> tdd L L (dec_raw (list Z) rf n a).
  Proof.
    intros Hn. apply tdd_bind with (L1 := L); [eapply tdd_le; [apply tdd_base; assumption|lia]|]. intros bs.
    eapply tdd_bind; [apply tdd_write|]. intros _. apply tdd_ret.
  Qed.
  Lemma tdd_elems L f : (forall x, tdd L L (f x)) -> forall k a st i len, tdd L L (each_elem f a st i k len).
  Proof.
    intros Hf. induction k as [|k IH]; intros; cbn [each_elem]; [apply tdd_ret|].
    eapply tdd_bind; [apply Hf|]. intros n. apply IH.
  Qed.
  Lemma tdd_fields L f c0 : (forall c, field T c0 c -> tdd L L (f c)) ->
    forall k t len, (c0 <= t)%nat ->
      (forall i, (c0 <= i < t)%nat -> exists ti, nth_error T i = Some ti /\ ti_id ti <> TVoid) ->
      tdd L L (each_field T f k t len).
  Proof.
    intros Hf. induction k as [|k IH]; intros t len Hc Hpre; cbn [each_field]; [apply tdd_ub|].
    destruct (nth_error T t) as [ti|] eqn:Et; [|apply tdd_ub].
    assert (Hgo : ti_id ti <> TVoid -> tdd L L (get n <- f t; each_field T f k (S t) (len + n))).
    { intros Hv. eapply tdd_bind.
      - apply Hf. split; [assumption|]. intros i Hi. destruct (Nat.eq_dec i t) as [->|]; [eauto|apply Hpre; lia].
      - intros n. apply IH; [lia|]. intros i Hi. destruct (Nat.eq_dec i t) as [->|]; [eauto|apply Hpre; lia]. }
    destruct (ti_id ti) eqn:Ei; try (apply Hgo; discriminate). apply tdd_ret.
  Qed.

  Theorem unmarshal_deep fuel : forall t p L,
    (rank t + S Rk * L < fuel)%nat -> (t < length T)%nat ->
    tdd L L (unmarshal (list Z) rf E T fuel t p).
  Proof.
    induction fuel as [|f IH]; intros t p L Hf Ht; [lia|]. cbn [unmarshal].
    destruct (nth_error T t) as [ti|] eqn:Et; [|apply tdd_ub].
    pose proof (Hok _ _ Et) as [Hsz He]. pose proof (Hrank _ _ Et) as Hr.
    eapply tdd_bind; [intros s Hs; exact Hs|intros m].
    match goal with |- context [if ?c then rret 0 else _] => destruct c end; [apply tdd_ret|].
    assert (Hchild : forall c, (exists sz, type_size T c = GSize sz) -> (c < length T)%nat).
    { intros c (sz & Esz). unfold type_size, get_type_size in Esz. apply nth_error_Some. intros En. rewrite En in Esz. discriminate. }
    (* a call after at least one byte was consumed *)
    assert (Hdeep : forall c q, (c < length T)%nat -> (0 < L)%nat ->
               tdd (L - 1) (L - 1) (unmarshal (list Z) rf E T f c q)).
    { intros c q Hc HL. apply IH; [|assumption]. specialize (HR c Hc).
      destruct L; [lia|]. replace (S L - 1)%nat with L by lia. nia. }
    assert (Hdeep0 : forall c q, (c < length T)%nat ->
               tdd (L - 1) L (unmarshal (list Z) rf E T f c q) \/ L = O).
    { intros c q Hc. destruct L; [right; reflexivity|left]. eapply tdd_le; [apply Hdeep; [assumption|lia]|lia]. }
    destruct (ti_id ti) eqn:Ei; try apply tdd_ret; try (apply tdd_dec_base; lia); try (apply tdd_dec_raw; lia).
    - destruct L as [|L].
      { intros s Hs. unfold rbind at 1. pose proof (tdd_presence 0 s Hs) as Hp. unfold presence in *.
        destruct (e_helper_null E); [|exact I].
        unfold rbind, base. cbn [r_base flat_reader].
        destruct (u_in s) eqn:Eu; [|cbn in Hs; lia]. cbn. exact I. }
      eapply tdd_bind; [apply tdd_presence|]. intros b. destruct (negb (b =? 0)).
      + destruct He as (sz & Esz & Hszr & Hin). rewrite Esz.
        eapply tdd_bind; [apply tdd_malloc|]. intros [q|]; [|apply tdd_fail].
        eapply tdd_bind; [apply tdd_write|]. intros _.
        eapply tdd_bind; [apply Hdeep; [apply Hchild; eauto|lia]|]. intros n.
        eapply tdd_le; [apply tdd_ret|lia].
      + eapply tdd_bind; [apply tdd_write|]. intros _. eapply tdd_le; [apply tdd_ret|lia].
    - destruct He as (c & Ec). apply IH; [lia|]. apply nth_error_Some. congruence.
    - eapply tdd_bind; [apply tdd_presence|]. intros b. destruct (negb (b =? 0)).
      + eapply tdd_bind; [apply tdd_strsize|]. intros n.
        eapply tdd_bind; [apply tdd_malloc|]. intros [q|]; [|apply tdd_fail].
        eapply tdd_bind; [apply tdd_write|]. intros _.
        eapply tdd_bind; [apply tdd_dec_bytes|]. intros. eapply tdd_le; [apply tdd_ret|lia].
      + eapply tdd_bind; [apply tdd_write|]. intros _. eapply tdd_le; [apply tdd_ret|lia].
    - apply tdd_fields with (c0 := ti_child ti); [|lia|intros; lia].
      intros c Hc. pose proof (Hr c Hc). destruct Hc as [Hle Hc].
      apply IH; [lia|]. destruct (Hc c) as (tc & Ec & _); [lia|]. apply nth_error_Some. congruence.
    - apply tdd_dec_bytes.
    - eapply tdd_bind; [apply tdd_dec16|]. intros v. destruct (ti_array_size ti <? v); [apply tdd_fail|].
      eapply tdd_bind; [apply tdd_write|]. intros _.
      eapply tdd_bind; [apply tdd_dec_bytes|]. intros. eapply tdd_le; [apply tdd_ret|lia].
    - eapply tdd_bind; [apply tdd_strsize|]. intros n. destruct (ti_array_size ti <? u16 n); [apply tdd_fail|].
      apply tdd_dec_bytes.
    - eapply tdd_le with (L1 := (L - 2)%nat); [|lia]. eapply tdd_bind; [apply tdd_dec16|]. intros v.
      eapply tdd_bind; [apply tdd_write|intros _]. eapply tdd_bind; [apply tdd_write|intros _].
      destruct (0 <? v + 0); [|apply tdd_ret].
      eapply tdd_bind; [apply tdd_malloc|intros [q|]].
      + eapply tdd_bind; [apply tdd_write|intros _].
        eapply tdd_bind; [destruct (0 <? v); [apply tdd_dec_bytes|apply tdd_ret]|intros k].
        eapply tdd_bind; [apply tdd_ret|intros _; apply tdd_ret].
      + eapply tdd_bind; [apply tdd_write|intros _]. eapply tdd_bind; [apply tdd_write|intros _]. apply tdd_fail.
    - eapply tdd_le with (L1 := (L - 2)%nat); [|lia]. eapply tdd_bind; [apply tdd_dec16|]. intros v.
      eapply tdd_bind; [apply tdd_write|intros _]. eapply tdd_bind; [apply tdd_write|intros _].
      destruct (0 <? v + 1); [|apply tdd_ret].
      eapply tdd_bind; [apply tdd_malloc|intros [q|]].
      + eapply tdd_bind; [apply tdd_write|intros _].
        eapply tdd_bind; [destruct (0 <? v); [apply tdd_dec_bytes|apply tdd_ret]|intros k].
        eapply tdd_bind; [apply tdd_write|intros _; apply tdd_ret].
      + eapply tdd_bind; [apply tdd_write|intros _]. eapply tdd_bind; [apply tdd_write|intros _]. apply tdd_fail.
    - destruct He as ((sz & Esz & _) & Hmax). rewrite Esz. replace (65535 <? ti_array_size ti) with false by lia.
      apply tdd_elems. intros x. apply IH; [lia|]. apply Hchild. eauto.
    - destruct He as ((sz & Esz & _) & _). rewrite Esz.
      eapply tdd_le with (L1 := (L - 2)%nat); [|lia]. eapply tdd_bind; [apply tdd_dec16|]. intros v.
      destruct (ti_array_size ti <? v); [apply tdd_fail|]. eapply tdd_bind; [apply tdd_write|intros _].
      eapply tdd_bind; [|intros; apply tdd_ret].
      apply tdd_elems. intros x. apply IH; [nia|]. apply Hchild. eauto.
    - destruct He as (sz & Esz & _). 
      destruct (Nat.le_gt_cases L 1) as [Hsmall|Hbig].
      { intros s Hs. unfold rbind at 1, dec16, rbind at 1, base. cbn [r_base flat_reader].
        replace (zlen (u_in s) <? 2) with true by (unfold zlen; lia). exact I. }
      eapply tdd_le with (L1 := (L - 2)%nat); [|lia]. eapply tdd_bind; [apply tdd_dec16|]. intros v.
      eapply tdd_bind; [apply tdd_write|intros _]. eapply tdd_bind; [apply tdd_write|intros _].
      destruct (0 <? v); [|apply tdd_ret]. rewrite Esz.
      eapply tdd_bind; [apply tdd_malloc|intros [q|]].
      + eapply tdd_bind; [apply tdd_write|intros _]. eapply tdd_bind; [|intros; apply tdd_ret].
        apply tdd_elems. intros x. apply IH; [|apply Hchild; eauto].
        assert (Hc : (ti_child ti < length T)%nat) by (apply Hchild; eauto). specialize (HR _ Hc).
        assert (L = S (S (L - 2))) by lia. nia.
      + eapply tdd_bind; [apply tdd_write|intros _]. eapply tdd_bind; [apply tdd_write|intros _]. apply tdd_fail.
    - apply tdd_fail.
  Qed.
End Depth.

(** ** Appending bytes to the input *)
Section Append.
  Variable E : menv.
  Variable T : ttab.
  Variable q : list Z.
  Notation rf := (flat_reader true).

  Definition app_st (s s' : fst_) : Prop :=
    u_mem s' = u_mem s /\ u_nalloc s' = u_nalloc s /\ u_blocks s' = u_blocks s /\ u_in s' = u_in s ++ q.
  (** Success carries over. *)
  Definition asim {A} (m : fst_ -> res fst_ A) : Prop :=
    forall s s', app_st s s' ->
      match m s with
      | RVal a s1 => exists s1', m s' = RVal a s1' /\ app_st s1 s1'
      | _ => True
      end.
  Lemma asim_bind {A B} (m : fst_ -> res fst_ A) (k : A -> fst_ -> res fst_ B) :
    asim m -> (forall a, asim (k a)) -> asim (rbind m k).
  Proof.
    intros Hm Hk s s' Hs. specialize (Hm s s' Hs). unfold rbind. destruct (m s) as [a s1|e s1|n| |]; auto.
    destruct Hm as (s1' & -> & H1). apply Hk, H1.
  Qed.
  Lemma asim_ret {A} (a : A) : asim (rret a).
  Proof. intros s s' Hs. cbn. eauto. Qed.
  Lemma asim_fail {A} e : asim (@rfail _ A e).
  Proof. intros s s' Hs. exact I. Qed.
  Lemma asim_ub {A} : asim (@rub _ A).
  Proof. intros s s' Hs. exact I. Qed.
  Lemma asim_bad {A} r : asim (@rbad _ A r).
  Proof. intros s s' Hs. exact I. Qed.
  Lemma asim_fuel {A} : asim (@rfuel _ A).
  Proof. intros s s' Hs. exact I. Qed.
  Lemma asim_write a bs : asim (write (list Z) a bs).
  Proof.
    intros s s' (H1 & H2 & H3 & H4). unfold write. rewrite H1.
    destruct (mwrite (u_mem s) a bs); [|exact I]. eexists; split; [reflexivity|]. repeat split; auto.
  Qed.
  Lemma asim_malloc n : asim (malloc (list Z) E n).
  Proof.
    intros s s' (H1 & H2 & H3 & H4). unfold malloc. rewrite H1, H2, H3.
    destruct (e_addr E (u_nalloc s)) as [a|].
    - destruct ((0 <? a) && _ && _); (eexists; split; [reflexivity|]; repeat split; auto).
    - eexists; split; [reflexivity|]; repeat split; auto.
  Qed.
  Lemma asim_base n : asim (base (list Z) rf n).
  Proof.
    intros s s' (H1 & H2 & H3 & H4). unfold base. cbn [r_base flat_reader]. rewrite H4.
    destruct (Z.ltb_spec (zlen (u_in s)) n); [exact I|].
    pose proof (zlen_nonneg q). rewrite zlen_app. replace (zlen (u_in s) + zlen q <? n) with false by lia.
    assert (Hle : (Z.to_nat n <= length (u_in s))%nat) by (unfold zlen in *; lia).
    rewrite firstn_app, skipn_app. replace (Z.to_nat n - length (u_in s))%nat with O by lia.
    rewrite app_nil_r. eexists; split; [reflexivity|]. repeat split; auto.
  Qed.
  Lemma asim_dec_bytes a n : asim (dec_bytes (list Z) rf a n).
  Proof.
    intros s s' Hs. pose proof Hs as (H1 & H2 & H3 & H4). unfold dec_bytes. cbn [r_bytes flat_reader].
    destruct (Z.leb_spec n (zlen (u_in s))) as [Hle|Hgt].
    - rewrite H4. pose proof (zlen_nonneg q). rewrite zlen_app. replace (n <=? zlen (u_in s) + zlen q) with true by lia.
      assert (Hle' : (Z.to_nat n <= length (u_in s))%nat) by (unfold zlen in *; lia).
      rewrite firstn_app, skipn_app. replace (Z.to_nat n - length (u_in s))%nat with O by lia. rewrite app_nil_r.
      apply asim_bind; [apply asim_write|intros _; apply asim_ret|]. repeat split; auto.
    - unfold rbind. destruct (write _ _ _ _); exact I.
  Qed.
  Lemma asim_strsize : asim (strsize (list Z) rf).
  Proof.
    intros s s' Hs. pose proof Hs as (H1 & H2 & H3 & H4). unfold strsize. cbn [r_strsize flat_reader].
    rewrite H4, nul_index_app. destruct (nul_index (u_in s)); [|exact I]. eauto.
  Qed.
  Lemma asim_presence : asim (presence (list Z) rf E).
  Proof.
    unfold presence. destruct (e_helper_null E); [|apply asim_ub]. apply asim_bind; [apply asim_base|intros; apply asim_ret].
  Qed.
  Lemma asim_dec16 : asim (dec16 (list Z) rf).
  Proof. apply asim_bind; [apply asim_base|intros; apply asim_ret]. Qed.
  Lemma asim_dec_base n fn a : asim (dec_base (list Z) rf n fn a).
  Proof. apply asim_bind; [apply asim_base|intros]. apply asim_bind; [apply asim_write|intros; apply asim_ret]. Qed.
  Lemma asim_dec_raw n a : asim (dec_raw (list Z) rf n a).
  Proof. apply asim_bind; [apply asim_base|intros]. apply asim_bind; [apply asim_write|intros; apply asim_ret]. Qed.
  Lemma asim_elems f : (forall x, asim (f x)) -> forall k a st i len, asim (each_elem f a st i k len).
  Proof.
    intros Hf. induction k as [|k IH]; intros; cbn [each_elem]; [apply asim_ret|].
    apply asim_bind; [apply Hf|]. intros n. apply IH.
  Qed.
  Lemma asim_fields f : (forall c, asim (f c)) -> forall k t len, asim (each_field T f k t len).
  Proof.
    intros Hf. induction k as [|k IH]; intros t len; cbn [each_field]; [apply asim_ub|].
    destruct (nth_error T t) as [ti|]; [|apply asim_ub].
    destruct (ti_id ti); try apply asim_ret; (apply asim_bind; [apply Hf|intros; apply IH]).
  Qed.
  Lemma asim_umem {B} (k : mem -> fst_ -> res fst_ B) :
    (forall m, asim (k m)) -> asim (rbind (umem (list Z)) k).
  Proof.
    intros Hk s s' Hs. unfold rbind, umem. pose proof Hs as (H1 & _). rewrite H1. apply Hk, Hs.
  Qed.
  Ltac asim_step :=
    first [ apply asim_ret | apply asim_fail | apply asim_ub | apply asim_bad | apply asim_fuel
          | apply asim_write | apply asim_malloc | apply asim_dec_bytes | apply asim_strsize
          | apply asim_presence | apply asim_dec16 | apply asim_dec_base | apply asim_dec_raw
          | apply asim_umem; intros ?
          | apply asim_bind; [|intros ?]
          | match goal with
            | |- asim (if ?c then _ else _) => destruct c
            | |- asim (match ?x with Some _ => _ | None => _ end) => destruct x
            | |- asim (match ?x with GSize _ => _ | _ => _ end) => destruct x
            end ].
  Theorem unmarshal_append fuel : forall t p, asim (unmarshal (list Z) rf E T fuel t p).
  Proof.
    induction fuel as [|f IH]; intros t p; cbn [unmarshal]; [apply asim_fuel|].
    destruct (nth_error T t) as [ti|]; [|apply asim_ub].
    apply asim_umem. intros m.
    match goal with |- context [if ?c then rret 0 else _] => destruct c end; [apply asim_ret|].
    unfold write16, write_ptr.
    destruct (ti_id ti); repeat asim_step; try apply IH;
      try (apply asim_elems; intros; apply IH); try (apply asim_fields; intros; apply IH).
  Qed.
End Append.
