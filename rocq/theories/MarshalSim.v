(** * Decoding a chain equals decoding its content *)
From Verif Require Import Base Psb PsbSpec Marshal MarshalSpec MarshalChain.

Section Sim.
  Variable strict : bool.
  Variable E : menv.
  Variable T : ttab.
  Hypothesis sizes : forall t ti, nth_error T t = Some ti -> 0 <= ti_array_size ti.

  Definition srel (s : ust chain) (s' : ust (list Z)) : Prop :=
    u_mem s = u_mem s' /\ u_nalloc s = u_nalloc s' /\ u_blocks s = u_blocks s' /\
    crel strict (u_in s) (u_in s').

  Definition rsim {A} (r : res (ust chain) A) (r' : res (ust (list Z)) A) : Prop :=
    match r' with
    | RUB => True
    | RVal a s' => exists s, r = RVal a s /\ srel s s'
    | RErr e s' => exists s, r = RErr e s /\ srel s s'
    | RBad n => r = RBad n
    | RFuel => r = RFuel
    end.
  Definition psim {A} (p : ust chain -> res (ust chain) A) (p' : ust (list Z) -> res (ust (list Z)) A) : Prop :=
    forall s s', srel s s' -> rsim (p s) (p' s').

  Lemma psim_bind {A B} p p' (k : A -> ust chain -> res _ B) k' :
    psim p p' -> (forall a, psim (k a) (k' a)) -> psim (rbind p k) (rbind p' k').
  Proof.
    intros Hp Hk s s' Hs. specialize (Hp s s' Hs). unfold rbind.
    destruct (p' s') as [a s1'|e s1'|n| |]; cbn in Hp; auto.
    - destruct Hp as (s1 & -> & H1). apply Hk; assumption.
    - destruct Hp as (s1 & -> & H1). cbn. eauto.
    - rewrite Hp. reflexivity.
    - rewrite Hp. reflexivity.
  Qed.
  Lemma psim_ret {A} (a : A) : psim (rret a) (rret a).
  Proof. intros s s' Hs. cbn. eauto. Qed.
  Lemma psim_fail {A} e : psim (@rfail _ A e) (rfail e).
  Proof. intros s s' Hs. cbn. eauto. Qed.
  Lemma psim_ub {A} p : psim p (@rub _ A).
  Proof. intros s s' Hs. exact I. Qed.
  Lemma psim_bad {A} r : psim (@rbad _ A r) (rbad r).
  Proof. intros s s' Hs. reflexivity. Qed.
  Lemma psim_fuel {A} : psim (@rfuel _ A) rfuel.
  Proof. intros s s' Hs. reflexivity. Qed.

  Notation rc := (chain_reader).
  Notation rf := (flat_reader strict).

  Lemma psim_umem : psim (umem chain) (umem (list Z)).
  Proof. intros s s' Hs. unfold umem, rsim. exists s. split; [f_equal; apply Hs|exact Hs]. Qed.
  Lemma psim_write a bs : psim (write chain a bs) (write (list Z) a bs).
  Proof.
    intros s s' (H1 & H2 & H3 & H4). unfold write. rewrite H1.
    destruct (mwrite (u_mem s') a bs); cbn; [|exact I]. eexists; split; [reflexivity|]. repeat split; auto.
  Qed.
  Lemma psim_malloc n : psim (malloc chain E n) (malloc (list Z) E n).
  Proof.
    intros s s' (H1 & H2 & H3 & H4). unfold malloc. rewrite H1, H2, H3.
    destruct (e_addr E (u_nalloc s')) as [a|].
    - destruct ((0 <? a) && (a + n <=? 2 ^ 63) && unmapped (u_mem s') a n); cbn;
        eexists; (split; [reflexivity|]); repeat split; auto.
    - cbn. eexists; (split; [reflexivity|]); repeat split; auto.
  Qed.
  Lemma psim_base n : 0 < n -> psim (base chain rc n) (base (list Z) rf n).
  Proof.
    intros Hn s s' (H1 & H2 & H3 & H4). unfold base.
    destruct (chain_base_sim strict _ _ n H4 Hn) as (c' & Ec & Hc'). cbn [r_base chain_reader flat_reader].
    rewrite Ec.
    destruct (Z.ltb_spec (zlen (u_in s')) n); cbn.
    - eexists; split; [reflexivity|]. repeat split; auto. rewrite skipn_all2 in Hc' by (unfold zlen in *; lia). exact Hc'.
    - eexists; split; [reflexivity|]. repeat split; auto.
  Qed.
  Lemma psim_dec_bytes a n : 0 <= n -> psim (dec_bytes chain rc a n) (dec_bytes (list Z) rf a n).
  Proof.
    intros Hn s s' Hs. pose proof Hs as (H1 & H2 & H3 & H4). unfold dec_bytes. cbn [r_bytes chain_reader flat_reader].
    pose proof H4 as (b & used & empties & Ec & Hok & Hu & He & Hst & El).
    rewrite Ec in Hok. destruct (chain_bytes_sim strict used b empties n [] Hok Hu He Hst Hn) as (c' & Ecb & Hc').
    rewrite <- Ec, El in Ecb. rewrite <- Ec, El in Hc'. rewrite Ecb. cbn [app].
    apply psim_bind.
    - apply psim_write.
    - intros _. destruct (n <=? zlen (u_in s')); [apply psim_ret|apply psim_fail].
    - repeat split; auto.
  Qed.
  Lemma psim_strsize : psim (strsize chain rc) (strsize (list Z) rf).
  Proof.
    intros s s' Hs. pose proof Hs as (H1 & H2 & H3 & H4). unfold strsize.
    destruct (chain_strsize_sim strict _ _ H4) as [Eu|Eq].
    - rewrite Eu. exact I.
    - cbn [r_strsize chain_reader] in *. rewrite Eq.
      destruct (r_strsize rf (u_in s')) as [[n|]| |]; cbn; eauto.
  Qed.
  Lemma psim_presence : psim (presence chain rc E) (presence (list Z) rf E).
  Proof.
    unfold presence. destruct (e_helper_null E); [|apply psim_ub].
    apply psim_bind; [apply psim_base; lia|intros; apply psim_ret].
  Qed.
  Lemma psim_dec_base n fn a : 0 < n -> psim (dec_base chain rc n fn a) (dec_base (list Z) rf n fn a).
  Proof.
    intros Hn. apply psim_bind; [apply psim_base; assumption|intros]. apply psim_bind; [apply psim_write|intros; apply psim_ret].
  Qed.
  Lemma psim_dec_raw n a : 0 < n -> psim (dec_raw chain rc n a) (dec_raw (list Z) rf n a).
  Proof.
    intros Hn. apply psim_bind; [apply psim_base; assumption|intros]. apply psim_bind; [apply psim_write|intros; apply psim_ret].
  Qed.
  (** dec16 yields a 16 bit number; the continuation may use that. *)
  Lemma psim_dec16 {B} (k : Z -> ust chain -> res _ B) k' :
    (forall v, 0 <= v < 65536 -> psim (k v) (k' v)) ->
    psim (rbind (dec16 chain rc) k) (rbind (dec16 (list Z) rf) k').
  Proof.
    intros Hk s s' Hs. pose proof (psim_base 2 ltac:(lia) s s' Hs) as Hb.
    unfold rbind, dec16, rbind. destruct (base (list Z) rf 2 s') as [a s1'|e s1'|n| |]; cbn in Hb; auto.
    - destruct Hb as (s1 & -> & H1). cbn [rret]. apply Hk; [|assumption]. apply u16_range.
    - destruct Hb as (s1 & -> & H1). cbn. eauto.
    - rewrite Hb. reflexivity.
    - rewrite Hb. reflexivity.
  Qed.
  Lemma psim_fields f f' : (forall t, psim (f t) (f' t)) ->
    forall k t len, psim (each_field T f k t len) (each_field T f' k t len).
  Proof.
    intros Hf. induction k as [|k IH]; intros t len; cbn [each_field]; [apply psim_ub|].
    destruct (nth_error T t) as [ti|]; [|apply psim_ub].
    destruct (ti_id ti); try apply psim_ret; (apply psim_bind; [apply Hf|intros; apply IH]).
  Qed.
  Lemma psim_elems f f' : (forall a, psim (f a) (f' a)) ->
    forall k a st i len, psim (each_elem f a st i k len) (each_elem f' a st i k len).
  Proof.
    intros Hf. induction k as [|k IH]; intros a st i len; cbn [each_elem]; [apply psim_ret|].
    apply psim_bind; [apply Hf|intros; apply IH].
  Qed.

  Lemma unmarshal_sim fuel : forall t p,
    psim (unmarshal chain rc E T fuel t p) (unmarshal (list Z) rf E T fuel t p).
  Proof.
    induction fuel as [|f IH]; intros t p; cbn [unmarshal]; [apply psim_fuel|].
    destruct (nth_error T t) as [ti|] eqn:Et; [|apply psim_ub].
    pose proof (sizes _ _ Et) as Hsz.
    apply psim_bind; [apply psim_umem|intros m].
    match goal with |- context [if ?c then rret 0 else _] => destruct c end; [apply psim_ret|].
    destruct (ti_id ti).
    - apply psim_ret.
    - apply psim_dec_base; lia.
    - apply psim_dec_base; lia.
    - apply psim_dec_base; lia.
    - apply psim_dec_base; lia.
    - apply psim_dec_base; lia.
    - apply psim_dec_base; lia.
    - apply psim_dec_raw; lia.
    - apply psim_dec_raw; lia.
    - apply psim_bind; [apply psim_presence|intros b].
      destruct (negb (b =? 0)).
      + destruct (type_size T (ti_child ti)); try apply psim_ub; try apply psim_bad; try apply psim_fuel.
        apply psim_bind; [apply psim_malloc|intros [q|]]; [|apply psim_fail].
        apply psim_bind; [apply psim_write|intros _].
        apply psim_bind; [apply IH|intros; apply psim_ret].
      + apply psim_bind; [apply psim_write|intros _; apply psim_ret].
    - apply IH.
    - apply psim_bind; [apply psim_presence|intros b].
      destruct (negb (b =? 0)).
      + apply psim_bind; [apply psim_strsize|intros n].
        apply psim_bind; [apply psim_malloc|intros [q|]]; [|apply psim_fail].
        apply psim_bind; [apply psim_write|intros _].
        apply psim_bind; [apply psim_dec_bytes; apply u16_range|intros; apply psim_ret].
      + apply psim_bind; [apply psim_write|intros _; apply psim_ret].
    - apply psim_fields. intros t'. apply IH.
    - apply psim_dec_bytes; assumption.
    - apply psim_dec16. intros v Hv.
      destruct (ti_array_size ti <? v); [apply psim_fail|].
      apply psim_bind; [apply psim_write|intros _].
      apply psim_bind; [apply psim_dec_bytes; lia|intros; apply psim_ret].
    - apply psim_bind; [apply psim_strsize|intros n].
      destruct (ti_array_size ti <? u16 n); [apply psim_fail|].
      apply psim_dec_bytes. apply u16_range.
    - apply psim_dec16. intros v Hv.
      apply psim_bind; [apply psim_write|intros _].
      apply psim_bind; [apply psim_write|intros _].
      destruct (0 <? v + 0); [|apply psim_ret].
      apply psim_bind; [apply psim_malloc|intros [q|]].
      + apply psim_bind; [apply psim_write|intros _].
        apply psim_bind; [destruct (0 <? v); [apply psim_dec_bytes; lia|apply psim_ret]|intros k].
        apply psim_bind; [apply psim_ret|intros _; apply psim_ret].
      + apply psim_bind; [apply psim_write|intros _].
        apply psim_bind; [apply psim_write|intros _]. apply psim_fail.
    - apply psim_dec16. intros v Hv.
      apply psim_bind; [apply psim_write|intros _].
      apply psim_bind; [apply psim_write|intros _].
      destruct (0 <? v + 1); [|apply psim_ret].
      apply psim_bind; [apply psim_malloc|intros [q|]].
      + apply psim_bind; [apply psim_write|intros _].
        apply psim_bind; [destruct (0 <? v); [apply psim_dec_bytes; lia|apply psim_ret]|intros k].
        apply psim_bind; [apply psim_write|intros _; apply psim_ret].
      + apply psim_bind; [apply psim_write|intros _].
        apply psim_bind; [apply psim_write|intros _]. apply psim_fail.
    - destruct (type_size T (ti_child ti)); try apply psim_ub; try apply psim_bad; try apply psim_fuel.
      destruct (65535 <? ti_array_size ti); [apply psim_fuel|].
      apply psim_elems. intros a. apply IH.
    - destruct (type_size T (ti_child ti)); try apply psim_ub; try apply psim_bad; try apply psim_fuel.
      apply psim_dec16. intros v Hv.
      destruct (ti_array_size ti <? v); [apply psim_fail|].
      apply psim_bind; [apply psim_write|intros _].
      apply psim_bind; [apply psim_elems; intros a; apply IH|intros; apply psim_ret].
    - apply psim_dec16. intros v Hv.
      apply psim_bind; [apply psim_write|intros _].
      apply psim_bind; [apply psim_write|intros _].
      destruct (0 <? v); [|apply psim_ret].
      destruct (type_size T (ti_child ti)); try apply psim_ub; try apply psim_fuel.
      + apply psim_bind; [apply psim_malloc|intros [q|]].
        * apply psim_bind; [apply psim_write|intros _].
          apply psim_bind; [apply psim_elems; intros a; apply IH|intros; apply psim_ret].
        * apply psim_bind; [apply psim_write|intros _].
          apply psim_bind; [apply psim_write|intros _]. apply psim_fail.
      + apply psim_bind; [apply psim_write|intros _].
        apply psim_bind; [apply psim_write|intros _]. apply psim_fail.
    - apply psim_fail.
  Qed.
End Sim.
