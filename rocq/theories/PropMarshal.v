(** * C11, C12: marshalling and unmarshalling

    [represents T m t p v] (MarshalSpec.v): memory [m] holds at [p] an object of
    type [t] whose value is [v].  [encodes_as] is the wire format,
    [content] the bytes of a chain, [part T t p] the storage of the object
    itself.  [written] and [readable] are the admissible chains. *)
From Verif Require Import Base Psb PsbSpec PsbProof Arith Marshal MarshalSpec MarshalChain MarshalSim MarshalSafe MarshalTerm MarshalDec MarshalDec2 MarshalEnc MarshalParse MarshalGlue.

Ltac Zify.zify_post_hook ::= Z.div_mod_to_equations.

(** Memory mapped before is still mapped and, outside [P], unchanged. *)
Definition changes_only (P : Z -> Prop) (m m' : mem) : Prop :=
  forall a b, m a = Some b -> (exists b', m' a = Some b') /\ (~ P a -> m' a = Some b).
(** The destination object lies in mapped memory. *)
Definition has_room (T : ttab) (t : nat) (p : Z) (m : mem) : Prop := forall a, part T t p a -> m a <> None.
(** Some call of malloc between [s] and [s'] returned NULL. *)
Definition out_of_memory (s s' : ust chain) : Prop :=
  Z.of_nat (u_nalloc s) - Z.of_nat (length (u_blocks s)) < Z.of_nat (u_nalloc s') - Z.of_nat (length (u_blocks s')).
(** What a writer is given: a first buffer, possibly with content already, and
    linked empty buffers with room. *)
Definition writable (b : psb) (rest : chain) : Prop :=
  chain_ok (b :: rest) /\ Forall (fun b => pb_len b = 0 /\ 0 < pb_size b - pb_off b - pb_len b) rest.

Definition flat (s : ust chain) : ust (list Z) := mkU (u_mem s) (content (u_in s)) (u_nalloc s) (u_blocks s).
Lemma types_sizes T : types_ok T -> forall t ti, nth_error T t = Some ti -> 0 <= ti_array_size ti.
Proof. intros H t ti Et. destruct (H _ _ Et) as [[Hs _] _]. exact Hs. Qed.
Lemma srel_flat strict s : crel strict (u_in s) (content (u_in s)) -> srel strict s (flat s).
Proof. intros H. unfold srel, flat. cbn. auto. Qed.
Lemma api_val n s0 (s : ust chain) : 0 <= n -> call (RVal n s) s0 = Returned None n s.
Proof. intros H. unfold call, api_ret. replace (n <? 0) with false by lia. reflexivity. Qed.
Lemma api_err e s0 (s : ust chain) : e < 0 -> call (RErr e s) s0 = Returned (Some (- e)) (-1) s.
Proof. intros H. unfold call, api_ret. replace (e <? 0) with true by lia. reflexivity. Qed.

Lemma decode_error_neg e : In (- e) decode_errors -> e < 0.
Proof.
  unfold decode_errors, AOSL_EMSGSIZE, AOSL_ENOSPC, AOSL_ENOMEM, AOSL_EINVAL, AOSL_EBASE. cbn [In]. lia.
Qed.

(** The element size used throughout is the sizeof of the element type. *)
Theorem C11_element_size_is_sizeof : forall T t n, type_size T t = GSize n -> size_of T t n.
Proof.
  intros T t n. unfold type_size. generalize (S (length T)). intros f. revert t n.
  induction f as [|f IH]; intros t n; cbn [get_type_size]; [discriminate|].
  destruct (nth_error T t) as [ti|] eqn:Et; [|discriminate].
  destruct (ti_id ti) eqn:Ei; intros E; try discriminate E;
    try (injection E as <-);
    try solve [eapply SZ_void; eassumption
      |eapply SZ_plain; [eassumption|rewrite Ei; reflexivity]
      |eapply SZ_address; eauto |eapply SZ_struct; eauto |eapply SZ_bytes; eauto 6
      |eapply SZ_dynamic; eauto 6 |eapply SZ_reference; eauto];
    destruct (get_type_size f T (ti_child ti)) as [k| | |] eqn:Ek; try discriminate E; injection E as <-;
    eapply SZ_array; eauto.
Qed.
Print Assumptions C11_element_size_is_sizeof.

(** Encoding: the bytes appended are an encoding of the value. *)
Theorem C11_marshal_appends_encoding : forall E T m sf t p v b rest,
  e_mhelper_null E = true -> 65536 <= Z.of_nat sf ->
  represents T m t p v -> writable b rest ->
  exists w depth, encodes_as T t v w /\ forall fuel, (depth <= fuel)%nat ->
    match aosl_marshal E T m sf fuel t p b rest with
    | Returned None n ws =>
        n = zlen w /\ written (whole ws) /\ content (whole ws) = psb_content b ++ w
    | Returned (Some e) r _ => e = AOSL_ENOMEM /\ r = -1 /\ exists i, e_seg_ok E i = false
    | Crash | Deep => False
    end.
Proof.
  intros E T m sf t p v b rest Hnull Hsf [F HF] [Hc Hr].
  destruct (proj1 (encodes_all E T m sf Hnull Hsf) _ _ _ _ HF) as (w & Hw & f0 & Hf).
  exists w, f0. split; [exact Hw|]. intros fuel Hfuel. unfold aosl_marshal.
  inversion Hc as [|b' rest' Hb Hrest]; subst.
  assert (Hok : wok (mkW [] b rest 0)).
  { split; [|left; reflexivity]. unfold wbase. cbn. repeat split; auto; try apply Hb. }
  pose proof (Hf fuel Hfuel _ Hok) as H.
  destruct (marshal E T m sf fuel t p (mkW [] b rest 0)) as [n ws|e ws| | |]; cbn [espec] in H; try contradiction.
  - destruct H as (-> & Hws & Htext). pose proof (zlen_nonneg w). cbn [call]. unfold api_ret.
    replace (zlen w <? 0) with false by lia. cbn [fst snd].
    destruct (wok_written ws Hws) as [H1 H2]. split; [reflexivity|]. split; [exact H1|].
    rewrite H2, Htext. unfold wtext. cbn [w_past w_cur rev app]. rewrite content_cons. unfold content. cbn. rewrite app_nil_r. reflexivity.
  - destruct H as [-> [i Hi]]. cbn. eauto.
Qed.
Print Assumptions C11_marshal_appends_encoding.

(** Decoding: whatever the segmentation, whatever follows. *)
Theorem C11_unmarshal_reads_encoding : forall E T t v w,
  e_helper_null E = true -> types_ok T -> accepted_as T t v w ->
  exists depth, forall fuel p s rest, (depth <= fuel)%nat ->
    written (u_in s) -> content (u_in s) = w ++ rest -> has_room T t p (u_mem s) ->
    match aosl_unmarshal E T fuel t p s with
    | Returned None n s' =>
        n = zlen w /\ content (u_in s') = rest /\ represents T (u_mem s') t p v /\
        changes_only (part T t p) (u_mem s) (u_mem s')
    | Returned (Some e) r s' => e = AOSL_ENOMEM /\ r = -1 /\ out_of_memory s s'
    | Crash | Deep => False
    end.
Proof.
  intros E T t v w Hnull Hok Hw.
  destruct (proj1 (decodes_all E T false Hnull Hok (fun b => b <> 0) (fun b H => H)) _ _ _ Hw) as (f0 & Hf).
  exists f0. intros fuel p s rest Hfuel Hc Hin Hroom.
  pose proof (Hf fuel Hfuel p (flat s) rest Hin Hroom) as H.
  pose proof (unmarshal_sim false E T (types_sizes T Hok) fuel t p _ _ (srel_flat false s (written_crel _ Hc))) as Hsim.
  pose proof (unmarshal_bal chain chain_reader E T fuel t p s) as Hbal.
  unfold aosl_unmarshal.
  destruct (unmarshal (list Z) (flat_reader false) E T fuel t p (flat s)) as [n s'|e s'| | |]; cbn [dspec] in H; try contradiction.
  - destruct Hsim as (s1 & E1 & Hrel). rewrite E1 in *. destruct H as (-> & Hrest & (_ & _ & Hkeep) & F & HF & _).
    rewrite api_val by apply zlen_nonneg. destruct Hrel as (Hm & _ & _ & Hcr). apply crel_content in Hcr.
    rewrite Hm. split; [reflexivity|]. split; [congruence|]. split; [exists F; exact HF|]. exact Hkeep.
  - destruct Hsim as (s1 & E1 & Hrel). rewrite E1 in *. destruct H as [-> _].
    rewrite api_err by reflexivity. split; [reflexivity|]. split; [reflexivity|]. apply Hbal. reflexivity.
Qed.
Print Assumptions C11_unmarshal_reads_encoding.

(** The round trip.  [c] is any chain holding the bytes that were produced
    (and possibly more), in any segmentation: in particular the chain the
    writer left behind. *)
Theorem C11_round_trip : forall SE UE T m sf t p v b rest,
  e_mhelper_null SE = true -> e_helper_null UE = true -> 65536 <= Z.of_nat sf -> types_ok T ->
  represents T m t p v -> writable b rest ->
  exists depth, forall fuel, (depth <= fuel)%nat ->
    match aosl_marshal SE T m sf fuel t p b rest with
    | Returned None n ws =>
        exists w, content (whole ws) = psb_content b ++ w /\ n = zlen w /\
        forall s q more, written (u_in s) -> content (u_in s) = w ++ more -> has_room T t q (u_mem s) ->
          match aosl_unmarshal UE T fuel t q s with
          | Returned None n' s' =>
              n' = n /\ content (u_in s') = more /\ represents T (u_mem s') t q v /\
              changes_only (part T t q) (u_mem s) (u_mem s')
          | Returned (Some e) r s' => e = AOSL_ENOMEM /\ r = -1 /\ out_of_memory s s'
          | Crash | Deep => False
          end
    | Returned (Some e) r _ => e = AOSL_ENOMEM /\ r = -1 /\ exists i, e_seg_ok SE i = false
    | Crash | Deep => False
    end.
Proof.
  intros SE UE T m sf t p v b rest Hn1 Hn2 Hsf Hok Hrep Hwr.
  destruct (C11_marshal_appends_encoding SE T m sf t p v b rest Hn1 Hsf Hrep Hwr) as (w & d1 & Hw & H1).
  assert (Hacc : accepted_as T t v w) by (eapply wire_weaken; [|exact Hw]; intros x ->; discriminate).
  destruct (C11_unmarshal_reads_encoding UE T t v w Hn2 Hok Hacc) as (d2 & H2).
  exists (max d1 d2). intros fuel Hf. specialize (H1 fuel ltac:(lia)).
  destruct (aosl_marshal SE T m sf fuel t p b rest) as [[e|] n ws| |]; auto.
  destruct H1 as (-> & _ & Hc). exists w. split; [exact Hc|]. split; [reflexivity|].
  intros s q more Hws Hin Hroom. exact (H2 fuel q s more ltac:(lia) Hws Hin Hroom).
Qed.
Print Assumptions C11_round_trip.

(** The value of an object is determined by the memory, so "equal object" has
    a meaning. *)
Theorem C11_value_unique : forall T m t p v v',
  represents T m t p v -> represents T m t p v' -> v = v'.
Proof. exact represents_fun. Qed.
Print Assumptions C11_value_unique.

(** ** C12 *)

(** Any bytes, in any segmentation: the call returns (its recursion depth is
    bounded by the length of the input), never reads outside the chain or
    writes outside the destination and its own allocations, and consumes a
    prefix of the input. *)
Theorem C12_any_input_is_safe : forall E T rank t p s,
  e_helper_null E = true -> types_ok T -> ranked T rank -> (t < length T)%nat ->
  readable (u_in s) -> has_room T t p (u_mem s) ->
  exists depth, forall fuel, (depth <= fuel)%nat ->
    match aosl_unmarshal E T fuel t p s with
    | Returned None n s' =>
        0 <= n <= zlen (content (u_in s)) /\
        content (u_in s') = skipn (Z.to_nat n) (content (u_in s)) /\
        changes_only (part T t p) (u_mem s) (u_mem s')
    | Returned (Some e) r s' =>
        In e [AOSL_EMSGSIZE; AOSL_ENOSPC; AOSL_ENOMEM; AOSL_EINVAL] /\ r = -1 /\
        (exists k, content (u_in s') = skipn k (content (u_in s))) /\
        changes_only (part T t p) (u_mem s) (u_mem s') /\
        (e = AOSL_ENOMEM -> out_of_memory s s')
    | Crash | Deep => False
    end.
Proof.
  intros E T rank t p s Hnull Hok Hrank Ht Hr Hroom.
  set (Rk := list_max (map rank (seq 0 (length T)))).
  assert (HR : forall t, (t < length T)%nat -> (rank t <= Rk)%nat).
  { intros x Hx. unfold Rk. assert (Hin : In (rank x) (map rank (seq 0 (length T)))).
    { apply in_map, in_seq. lia. }
    pose proof (proj1 (list_max_le (map rank (seq 0 (length T))) _) (le_n _)) as Hall.
    rewrite Forall_forall in Hall. apply Hall, Hin. }
  exists (S (rank t + S Rk * length (content (u_in s)))). intros fuel Hfuel.
  pose proof (unmarshal_deep E T true rank Rk Hok Hrank HR fuel t p (length (content (u_in s))) ltac:(lia) Ht (flat s) ltac:(cbn; lia)) as Hdeep.
  pose proof (unmarshal_safe E T true Hnull Hok eq_refl fuel t p Ht (flat s) Hroom) as Hsafe.
  pose proof (unmarshal_sim true E T (types_sizes T Hok) fuel t p _ _ (srel_flat true s (readable_crel _ Hr))) as Hsim.
  pose proof (unmarshal_bal chain chain_reader E T fuel t p s) as Hbal.
  unfold aosl_unmarshal.
  destruct (unmarshal (list Z) (flat_reader true) E T fuel t p (flat s)) as [n s'|e s'| | |]; cbn [spec] in Hsafe; try contradiction.
  - destruct Hsim as (s1 & E1 & Hm & _ & _ & Hc). rewrite E1 in *. destruct Hsafe as (Hn & Hin & Hkeep).
    rewrite api_val by lia. apply crel_content in Hc. rewrite Hc, Hm. cbn [flat u_in u_mem] in *. auto.
  - destruct Hsim as (s1 & E1 & Hm & _ & _ & Hc). rewrite E1 in *. destruct Hsafe as (He & k & Hk & Hin & Hkeep).
    assert (Hneg : e < 0).
    { apply decode_error_neg, He. }
    rewrite api_err by exact Hneg. apply crel_content in Hc. rewrite Hc, Hm. cbn [flat u_in u_mem] in *.
    split; [exact He|]. split; [reflexivity|]. split; [exists (Z.to_nat k); exact Hin|]. split; [exact Hkeep|].
    intros Ee. apply Hbal. lia.
Qed.
Print Assumptions C12_any_input_is_safe.

(** What is accepted is an encoding of the object that was built: in
    particular a bounded array received at most as many elements as its type
    declares ([accepted_as] says so). *)
Theorem C12_accepted_input_is_valid : forall E T t p s fuel n s',
  e_helper_null E = true -> types_ok T -> (forall i ti, nth_error T i = Some ti -> ti_have ti = None) ->
  readable (u_in s) -> has_room T t p (u_mem s) ->
  all_bytes (content (u_in s)) -> zlen (content (u_in s)) <= 65535 ->
  aosl_unmarshal E T fuel t p s = Returned None n s' ->
  exists v w, accepted_as T t v w /\ n = zlen w /\ content (u_in s) = w ++ content (u_in s') /\
    represents T (u_mem s') t p v.
Proof.
  intros E T t p s fuel n s' Hnull Hok Hhave Hr Hroom Hall Hlen Hcall.
  pose proof (unmarshal_sim true E T (types_sizes T Hok) fuel t p _ _ (srel_flat true s (readable_crel _ Hr))) as Hsim.
  unfold aosl_unmarshal in Hcall.
  assert (Ht : (t < length T)%nat).
  { destruct fuel as [|f]; cbn [unmarshal] in Hcall; [discriminate|].
    destruct (nth_error T t) eqn:Et; [|discriminate]. apply nth_error_Some. congruence. }
  pose proof (unmarshal_safe E T true Hnull Hok eq_refl fuel t p Ht (flat s) Hroom) as Hsafe.
  destruct (unmarshal (list Z) (flat_reader true) E T fuel t p (flat s)) as [k s1|e s1| | |] eqn:Ef; cbn [spec] in Hsafe; try contradiction.
  - destruct Hsim as (s2 & E1 & Hrel). rewrite E1 in Hcall. destruct Hsafe as (Hk & _ & _).
    rewrite api_val in Hcall by lia. injection Hcall as <- <-. destruct Hrel as (Hm & _ & _ & Hc). apply crel_content in Hc.
    destruct (unmarshal_parses E T true Hok Hhave fuel t p (flat s) k s1 (conj Hall Hlen) Ef) as (v & w & Hw & Hin & ->).
    exists v, w. split; [exact Hw|]. split; [reflexivity|]. cbn [flat u_in] in Hin. rewrite Hc. split; [exact Hin|].
    destruct (proj1 (decodes_all E T true Hnull Hok (fun b => b <> 0) (fun b H => H)) _ _ _ Hw) as (f0 & Hf).
    pose proof (Hf (max fuel f0) ltac:(lia) p (flat s) (u_in s1) Hin Hroom) as Hd.
    rewrite (fuel_more _ _ _ _ fuel (max fuel f0) t p (flat s) _ ltac:(lia) Ef ltac:(discriminate)) in Hd.
    cbn [dspec] in Hd. destruct Hd as (_ & _ & _ & F & HF & _). rewrite Hm. exists F. exact HF.
  - destruct Hsim as (s2 & E1 & _). rewrite E1 in Hcall. destruct Hsafe as (He & _).
    rewrite api_err in Hcall; [discriminate|].
    apply decode_error_neg, He.
  - rewrite Hsim in Hcall. discriminate.
Qed.
Print Assumptions C12_accepted_input_is_valid.

(** A strict prefix of a valid message is rejected. *)
Theorem C12_strict_prefix_rejected : forall E T t v w q x p s fuel,
  e_helper_null E = true -> types_ok T -> accepted_as T t v w ->
  w = q ++ x -> x <> [] ->
  readable (u_in s) -> content (u_in s) = q -> has_room T t p (u_mem s) ->
  match aosl_unmarshal E T fuel t p s with
  | Returned None _ _ | Crash => False
  | Returned (Some e) r _ => r = -1
  | Deep => True
  end.
Proof.
  intros E T t v w q x p s fuel Hnull Hok Hw -> Hx Hr Hin Hroom.
  pose proof (unmarshal_sim true E T (types_sizes T Hok) fuel t p _ _ (srel_flat true s (readable_crel _ Hr))) as Hsim.
  assert (Ht : (t < length T)%nat) by (inversion Hw; subst; apply nth_error_Some; congruence).
  pose proof (unmarshal_safe E T true Hnull Hok eq_refl fuel t p Ht (flat s) Hroom) as Hsafe.
  unfold aosl_unmarshal.
  destruct (unmarshal (list Z) (flat_reader true) E T fuel t p (flat s)) as [k s1|e s1| | |] eqn:Ef; cbn [spec] in Hsafe; try contradiction.
  - exfalso. destruct Hsafe as (Hk & _ & _). cbn [flat u_in] in Hk. rewrite Hin in Hk.
    set (full := mkU (u_mem s) (q ++ x) (u_nalloc s) (u_blocks s) : ust (list Z)).
    pose proof (unmarshal_append E T x fuel t p (flat s) full) as Happ.
    assert (app_st x (flat s) full) as Ha by (unfold app_st, full, flat; cbn; rewrite Hin; auto).
    specialize (Happ Ha). rewrite Ef in Happ. destruct Happ as (s1' & E1 & _).
    destruct (proj1 (decodes_all E T true Hnull Hok (fun b => b <> 0) (fun b H => H)) _ _ _ Hw) as (f0 & Hf).
    pose proof (Hf (max fuel f0) ltac:(lia) p full [] ltac:(cbn; rewrite app_nil_r; reflexivity) Hroom) as Hd.
    rewrite (fuel_more _ _ _ _ fuel (max fuel f0) t p full _ ltac:(lia) E1 ltac:(discriminate)) in Hd.
    cbn [dspec] in Hd. destruct Hd as (Hd & _). rewrite zlen_app in Hd.
    assert (0 < zlen x) by (destruct x; [congruence|unfold zlen; cbn [length]; lia]). lia.
  - destruct Hsim as (s2 & E1 & _). rewrite E1. destruct Hsafe as (He & _).
    rewrite api_err; [reflexivity|].
    apply decode_error_neg, He.
  - rewrite Hsim. exact I.
Qed.
Print Assumptions C12_strict_prefix_rejected.

(** ** Where the round trip fails: strings of 65535 characters or more.  The
    length plus one is truncated to 16 bits; for 65535 characters nothing but
    the presence byte is written, and no object is rebuilt from that. *)
Definition string_type : ttab := [mkTI TString 0 0 0 0 None 0].
Theorem C11_long_string_refuted : forall E m sf p q str b rest fuel,
  e_mhelper_null E = true -> 65536 <= Z.of_nat sf -> writable b rest -> (0 < fuel)%nat ->
  num_at m p 8 q -> q <> 0 -> bytes_at m q (str ++ [0]) -> no_nul str -> zlen str = 65535 ->
  match aosl_marshal E string_type m sf fuel 0 p b rest with
  | Returned None n ws => n = 1 /\ content (whole ws) = psb_content b ++ [1]
  | Returned (Some e) r _ => e = AOSL_ENOMEM /\ r = -1 /\ exists i, e_seg_ok E i = false
  | Crash | Deep => False
  end.
Proof.
  intros E m sf p q str b rest fuel Hnull Hsf [Hc Hr] Hfuel Hq Hq0 Hb Hn Hl.
  destruct fuel as [|f]; [lia|]. unfold aosl_marshal.
  inversion Hc as [|b' rest' Hb1 Hrest]; subst.
  set (w0 := mkW [] b rest 0).
  assert (Hok : wok w0).
  { split; [|left; reflexivity]. unfold wbase, w0. cbn. repeat split; auto; try apply Hb1. }
  assert (H : espec E (marshal E string_type m sf (S f) 0 p w0) (fun n w' => appends [1] w0 n w')).
  { cbn [marshal string_type nth_error ti_have ti_id ti_off]. replace (p + 0) with p by lia.
    apply ebind. eapply erdv; [exact Hq|]. replace (q =? 0) with false by lia.
    apply ebind. eapply emono; [apply (epresence E sf Hnull), Hok|]. intros n1 w1 (Hn1 & Hw1 & Ht1).
    apply ebind. eapply (strlen_gen E m sf q str); [exact Hb|exact Hn|lia|]. rewrite Hl.
    apply ebind. change (enc_mem E m q (u16 (65535 + 1)) w1) with (RVal (St := wst) 0 w1). cbn [espec rret].
    split; [reflexivity|]. split; assumption. }
  destruct (marshal E string_type m sf (S f) 0 p w0) as [n ws|e ws| | |]; cbn [espec] in H; try contradiction.
  - destruct H as (-> & Hws & Htext). cbn [call]. unfold api_ret. replace (zlen [1] <? 0) with false by reflexivity. cbn [fst snd].
    destruct (wok_written ws Hws) as [H1 H2]. split; [reflexivity|].
    rewrite H2, Htext. unfold wtext, w0. cbn [w_past w_cur rev app]. rewrite content_cons. unfold content. cbn. rewrite app_nil_r. reflexivity.
  - destruct H as [-> [i Hi]]. cbn. eauto.
Qed.
Print Assumptions C11_long_string_refuted.
(** Decoding never makes an object of type string out of that one byte. *)
Theorem C11_long_string_lost_refuted : forall E p s fuel n s',
  e_helper_null E = true -> readable (u_in s) -> content (u_in s) = [1] ->
  has_room string_type 0 p (u_mem s) ->
  aosl_unmarshal E string_type fuel 0 p s <> Returned None n s'.
Proof.
  intros E p s fuel n s' Hnull Hr Hin Hroom Hcall.
  assert (Hok : types_ok string_type).
  { intros t ti Et. destruct t as [|[|t]]; [|discriminate|discriminate]. injection Et as <-. split; [cbn; lia|exact I]. }
  assert (Hw : accepted_as string_type 0 (VSome (VBytes [])) [1; 0]).
  { eapply (W_string _ _ _ _ 1 []); [reflexivity|reflexivity|reflexivity|cbn; lia|constructor|reflexivity]. }
  pose proof (C12_strict_prefix_rejected E string_type 0 _ [1; 0] [1] [0] p s fuel Hnull Hok Hw eq_refl ltac:(discriminate) Hr Hin Hroom) as H.
  rewrite Hcall in H. exact H.
Qed.
Print Assumptions C11_long_string_lost_refuted.

(** The local helper type has an uninitialised is_have member: when it is not
    NULL, the first pointer or string is undefined behaviour. *)
Theorem C12_uninitialised_helper_refuted : forall E T t ti p s fuel,
  e_helper_null E = false -> nth_error T t = Some ti -> ti_have ti = None ->
  ti_id ti = TPointer \/ ti_id ti = TString ->
  aosl_unmarshal E T (S fuel) t p s = Crash.
Proof.
  intros E T t ti p s fuel Hnull Et Eh Ei. unfold aosl_unmarshal. cbn [unmarshal]. rewrite Et.
  unfold rbind at 1. unfold umem. rewrite Eh. destruct Ei as [-> | ->]; unfold rbind at 1; unfold presence; rewrite Hnull; reflexivity.
Qed.
Print Assumptions C12_uninitialised_helper_refuted.

(** ** A concrete case: a linked list of records
    struct node { int32_t id; char *name; uint16_t n; uint16_t a[4]; struct node *next; } *)
Definition node_type : ttab :=
  [ mkTI TStruct 40 0 0 0 None 1;
    mkTI TInt32 0 0 0 0 None 0;
    mkTI TString 0 0 0 8 None 0;
    mkTI TVarArray 0 4 16 18 None 6;
    mkTI TPointer 0 0 0 32 None 0;
    mkTI TVoid 0 0 0 0 None 0;
    mkTI TInt16 0 0 0 0 None 0 ].
Lemma node_field c : field node_type 1 c -> c = 1%nat \/ c = 2%nat \/ c = 3%nat \/ c = 4%nat.
Proof.
  intros [H1 H2]. destruct (Nat.leb_spec c 4); [lia|].
  destruct (H2 5%nat ltac:(lia)) as (ti & E & Hne). injection E as <-. cbn in Hne. congruence.
Qed.
Lemma part_int16 p a : part node_type 6 p a -> p <= a < p + 2.
Proof.
  intros H; inversion H as [? ti ? n ? Et Ei Ha|? ti ? ? Et Ei Ha|? ti ? ? Et Ei Ha|? ti ? ? Et Ei Ha|? ti ? ? ? Et Ei Hf Ha|? ti ? ? ? ? Et Ei ? ? Ha]; subst;
    injection Et as <-; cbn in Ei; try discriminate; try (repeat destruct Ei as [Ei|Ei]; try discriminate; contradiction).
  injection Ei as <-. cbn in Ha. lia.
Qed.
Lemma part_field c p a : part node_type c p a -> (1 <= c <= 4)%nat ->
  match c with
  | 1%nat => p <= a < p + 4
  | 2%nat => p + 8 <= a < p + 16
  | 3%nat => p + 16 <= a < p + 26
  | _ => p + 32 <= a < p + 40
  end.
Proof.
  intros H Hc.
  assert (c = 1%nat \/ c = 2%nat \/ c = 3%nat \/ c = 4%nat) as Hc' by lia.
  inversion H as [? ti ? n ? Et Ei Ha|? ti ? ? Et Ei Ha|? ti ? ? Et Ei Ha|? ti ? ? Et Ei Ha|? ti ? ? ? Et Ei Hf Ha|? ti ? sz i ? Et Ei Es Hi Ha]; subst;
    destruct Hc' as [-> | [-> | [-> | ->]]]; injection Et as <-; cbn in Ei; try discriminate;
    try (repeat destruct Ei as [Ei|Ei]; try discriminate; try contradiction).
  all: try (injection Ei as <-; cbn in Ha; lia).
  - cbn in Ha. lia.
  - cbn in Hi, Es, Ha. injection Es as <-. apply part_int16 in Ha. lia.
Qed.
Lemma node_part p a : part node_type 0 p a -> p <= a < p + 40.
Proof.
  intros H; inversion H as [? ti ? n ? Et Ei Ha|? ti ? ? Et Ei Ha|? ti ? ? Et Ei Ha|? ti ? ? Et Ei Ha|? ti ? c ? Et Ei Hf Ha|? ti ? ? ? ? Et Ei ? ? Ha]; subst;
    injection Et as <-; cbn in Ei; try discriminate; try (repeat destruct Ei as [Ei|Ei]; try discriminate; contradiction).
  cbn in Hf, Ha. apply node_field in Hf. apply part_field in Ha; [|lia].
  destruct Hf as [-> | [-> | [-> | ->]]]; lia.
Qed.
Example node_types_ok : types_ok node_type /\ ranked node_type (fun t => match t with O => 2 | 3 => 1 | _ => 0 end)%nat.
Proof.
  split.
  - intros t ti Et.
    destruct t as [|[|[|[|[|[|[|t]]]]]]]; [| | | | | | |destruct t; discriminate]; injection Et as <-; (split; [cbn; lia|]); cbn [ti_id ti_child ti_off ti_cnt ti_array_size]; try exact I.
    + split.
      * exists 5%nat. eexists. split; [lia|]. split; reflexivity.
      * intros c c' a Hc Hc' Hne H1 H2. apply node_field in Hc. apply node_field in Hc'.
        apply part_field in H1; [|lia]. apply part_field in H2; [|lia].
        destruct Hc as [-> | [-> | [-> | ->]]]; destruct Hc' as [-> | [-> | [-> | ->]]]; try congruence; lia.
    + split; [exists 2; split; [reflexivity|]; split; [lia|]; intros a Ha; apply part_int16 in Ha; lia|].
      intros a sz Es H1 H2. lia.
    + exists 40. split; [reflexivity|]. split; [lia|]. intros a Ha. apply node_part in Ha. lia.
  - intros t ti Et.
    destruct t as [|[|[|[|[|[|[|t]]]]]]]; [| | | | | | |destruct t; discriminate]; injection Et as <-; cbn; try exact I; try lia.
    intros c Hc. apply node_field in Hc. destruct Hc as [-> | [-> | [-> | ->]]]; lia.
Qed.

(** Two nodes at 1000 and 2000, the first named "hi", the second unnamed. *)
Definition node_image : list (Z * list Z) :=
  [ (1000, [1; 2; 3; 4; 0; 0; 0; 0] ++ le_bytes 8 3000 ++ [2; 0; 7; 0; 8; 0; 9; 9; 9; 9] ++ [0; 0; 0; 0; 0; 0] ++ le_bytes 8 2000);
    (2000, [5; 6; 7; 8; 0; 0; 0; 0] ++ le_bytes 8 0 ++ [0; 0; 9; 9; 9; 9; 9; 9; 9; 9] ++ [0; 0; 0; 0; 0; 0] ++ le_bytes 8 0);
    (3000, [104; 105; 0]) ].
Fixpoint image (l : list (Z * list Z)) (a : Z) : option Z :=
  match l with
  | [] => None
  | (p, bs) :: l' => if (p <=? a) && (a <? p + zlen bs) then nth_error bs (Z.to_nat (a - p)) else image l' a
  end.
Definition node_value : val :=
  VSeq [ VBytes [1; 2; 3; 4]; VSome (VBytes [104; 105]); VSeq [VBytes [7; 0]; VBytes [8; 0]];
         VSome (VSeq [VBytes [5; 6; 7; 8]; VNull; VSeq []; VNull]) ].
Example node_represented : represents node_type (image node_image) 0 1000 node_value.
Proof.
  assert (B : forall l, forallb (fun b => (0 <=? b) && (b <? 256)) l = true -> all_bytes l).
  { intros l H. apply Forall_forall. intros b Hb. rewrite forallb_forall in H. specialize (H b Hb). lia. }
  eexists. unfold node_value.
  eapply H_struct; [reflexivity|reflexivity|reflexivity|]. cbn [ti_child ti_off node_type].
  eapply HF_cons; [reflexivity|discriminate| |].
  { eapply (H_plain _ _ 1); [reflexivity|reflexivity|reflexivity|reflexivity|reflexivity|apply B; reflexivity]. }
  eapply HF_cons; [reflexivity|discriminate| |].
  { eapply (H_string _ _ 2 _ _ 3000); [reflexivity|reflexivity|reflexivity| |discriminate|reflexivity| |reflexivity].
    - eexists. split; [reflexivity|]. split; [apply B; reflexivity|reflexivity].
    - repeat constructor; discriminate. }
  eapply HF_cons; [reflexivity|discriminate| |].
  { eapply (H_var_array _ _ 3); [reflexivity|reflexivity|reflexivity|reflexivity| |cbn; lia|].
    - eexists. split; [reflexivity|]. split; [apply B; reflexivity|reflexivity].
    - cbn [ti_child ti_off].
      repeat first [eapply HE_cons | eapply HE_end].
      all: eapply (H_plain _ _ 6); [reflexivity|reflexivity|reflexivity|reflexivity|reflexivity|apply B; reflexivity]. }
  eapply HF_cons; [reflexivity|discriminate| |eapply HF_end; reflexivity].
  eapply (H_pointer _ _ 4 _ _ 2000); [reflexivity|reflexivity|reflexivity| |discriminate|].
  { eexists. split; [reflexivity|]. split; [apply B; reflexivity|reflexivity]. }
  cbn [ti_child]. eapply (H_struct _ _ 0); [reflexivity|reflexivity|reflexivity|]. cbn [ti_child ti_off].
  eapply HF_cons; [reflexivity|discriminate| |].
  { eapply (H_plain _ _ 1); [reflexivity|reflexivity|reflexivity|reflexivity|reflexivity|apply B; reflexivity]. }
  eapply HF_cons; [reflexivity|discriminate| |].
  { eapply (H_null _ _ 2); [reflexivity|reflexivity|right; reflexivity|].
    eexists. split; [reflexivity|]. split; [apply B; reflexivity|reflexivity]. }
  eapply HF_cons; [reflexivity|discriminate| |].
  { eapply (H_var_array _ _ 3); [reflexivity|reflexivity|reflexivity|reflexivity| |cbn; lia|apply HE_end].
    eexists. split; [reflexivity|]. split; [apply B; reflexivity|reflexivity]. }
  eapply HF_cons; [reflexivity|discriminate| |eapply HF_end; reflexivity].
  eapply (H_null _ _ 4); [reflexivity|reflexivity|left; reflexivity|].
  eexists. split; [reflexivity|]. split; [apply B; reflexivity|reflexivity].
Qed.
(** A small first buffer and a larger second one. *)
Definition seg (n : nat) : psb := mkPsb (repeat 0 n) 0 0.
Example seg_writable : writable (seg 5) [seg 100].
Proof.
  split; [|repeat constructor; cbn; lia].
  repeat constructor; cbn; lia.
Qed.
