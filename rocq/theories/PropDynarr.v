(** * C13: dynamic arrays and strings behave like sequences

    [seq_of es w i] is the content of array [i] as a list of bytes ([es i] bytes
    per element); [becomes es w w' i l]: array [i] now contains [l], all others
    are as before.  [wf] (DynarrSpec.v): count <= capacity, storage exactly as
    large as the capacity, not shared, nothing leaked. *)
From Verif Require Import Base PsbSpec PsbProof Dynarr DynarrSpec DynarrProof MarshalChain.

Ltac Zify.zify_post_hook ::= Z.div_mod_to_equations.

(** ** Every operation, in any well-formed state *)
Theorem C13_add_appends : forall E es w i s bs n,
  wf es w -> source_bytes es w i s bs -> zlen bs = es i * n -> 0 <= n < 2 ^ 63 ->
  exists r w', add_elems E w i s (es i) n = Ok (r, w') /\ wf es w' /\
    (if 10240 <=? d_count (w_arr w i) + n then r = - AOSL_E2BIG /\ w' = w
     else (r = 0 /\ becomes es w w' i (seq_of es w i ++ bs)) \/
          (r = - AOSL_ENOMEM /\ d_ok E (w_next w) = false /\ unchanged es w w')).
Proof. exact add_elems_ok. Qed.
Print Assumptions C13_add_appends.

(** A string is followed by a NUL inside its storage. *)
Definition terminated (es : nat -> Z) (w : world) (i : nat) : Prop :=
  exists b l rest, d_values (w_arr w i) = Some b /\ w_heap w b = Some l /\ l = seq_of es w i ++ 0 :: rest.
Theorem C13_strcat_concatenates : forall E es w i str,
  wf es w -> es i = 1 ->
  exists r w', strcat E w i str = Ok (r, w') /\ wf es w' /\
    (if 10240 <=? d_count (w_arr w i) + zlen str then r = - AOSL_E2BIG /\ w' = w
     else (r = 0 /\ becomes es w w' i (seq_of es w i ++ str) /\ terminated es w' i) \/
          (r = - AOSL_ENOMEM /\ d_ok E (w_next w) = false /\ unchanged es w w')).
Proof.
  intros E es w i str H H1. destruct (strcat_ok E es w i str H H1) as (r & w' & E1 & W & S).
  exists r, w'. split; [exact E1|]. split; [exact W|]. destruct (10240 <=? _); [exact S|].
  destruct S as [(-> & S1 & b & l & H2 & H3 & rest & H4)|S]; [left|right; exact S].
  split; [reflexivity|]. split; [exact S1|]. exists b, l, rest. auto.
Qed.
Print Assumptions C13_strcat_concatenates.

(** strcpy replaces.  When it fails the old content is gone (see below). *)
Theorem C13_strcpy_replaces : forall E es w i str,
  wf es w -> es i = 1 ->
  exists r w', strcpy E w i str = Ok (r, w') /\ wf es w' /\
    (if 10240 <=? zlen str then r = - AOSL_E2BIG /\ becomes es w w' i []
     else (r = 0 /\ becomes es w w' i str /\ terminated es w' i) \/
          (r = - AOSL_ENOMEM /\ d_ok E (w_next w) = false /\ becomes es w w' i [])).
Proof.
  intros E es w i str H H1. unfold strcpy. destruct (reset_ok es w i H) as [W0 B0].
  set (w0 := set_arr w i _) in *. destruct (C13_strcat_concatenates E es w0 i str W0 H1) as (r & w' & E1 & W & S).
  exists r, w'. split; [exact E1|]. split; [exact W|].
  replace (d_count (w_arr w0 i)) with 0 in S by (unfold w0; cbn; rewrite Nat.eqb_refl; reflexivity). rewrite Z.add_0_l in S.
  destruct (10240 <=? zlen str).
  - destruct S as [-> ->]. auto.
  - destruct S as [(-> & S1 & S2)|(-> & S1 & S2)].
    + left. split; [reflexivity|]. split; [|exact S2]. rewrite (proj1 B0) in S1. eapply becomes_trans; eassumption.
    + right. split; [reflexivity|]. split; [exact S1|]. eapply becomes_unchanged; eassumption.
Qed.
Print Assumptions C13_strcpy_replaces.

Theorem C13_copy_data_replaces : forall E es w i bs,
  wf es w -> es i = 1 -> zlen bs < 2 ^ 63 ->
  exists r w', copy_data E w i (Ext bs) (zlen bs) = Ok (r, w') /\ wf es w' /\
    (if 10240 <=? zlen bs then r = - AOSL_E2BIG /\ becomes es w w' i []
     else (r = 0 /\ becomes es w w' i bs) \/
          (r = - AOSL_ENOMEM /\ d_ok E (w_next w) = false /\ becomes es w w' i [])).
Proof.
  intros E es w i bs H H1 Hl. unfold copy_data. destruct (reset_ok es w i H) as [W0 B0].
  set (w0 := set_arr w i _) in *. pose proof (zlen_nonneg bs).
  destruct (add_elems_ok E es w0 i (Ext bs) bs (zlen bs) W0 eq_refl ltac:(lia) ltac:(lia)) as (r & w' & E1 & W & S).
  rewrite H1 in E1. exists r, w'. split; [exact E1|]. split; [exact W|].
  replace (d_count (w_arr w0 i)) with 0 in S by (unfold w0; cbn; rewrite Nat.eqb_refl; reflexivity). rewrite Z.add_0_l in S.
  destruct (10240 <=? zlen bs).
  - destruct S as [-> ->]. auto.
  - destruct S as [(-> & S1)|(-> & S1 & S2)].
    + left. split; [reflexivity|]. rewrite (proj1 B0) in S1. eapply becomes_trans; eassumption.
    + right. split; [reflexivity|]. split; [exact S1|]. eapply becomes_unchanged; eassumption.
Qed.
Print Assumptions C13_copy_data_replaces.

(** take moves the content; the source is empty afterwards. *)
Theorem C13_take_moves : forall es w dst src,
  wf es w -> es dst = es src ->
  exists w', take w dst src = Ok w' /\ wf es w' /\
    (if (dst =? src)%nat then becomes es w w' dst []
     else seq_of es w' dst = seq_of es w src /\ seq_of es w' src = [] /\
          forall j, j <> dst -> j <> src -> seq_of es w' j = seq_of es w j).
Proof. exact take_ok. Qed.
Print Assumptions C13_take_moves.

Theorem C13_bytes_copy_copies : forall E es w dst src,
  wf es w -> es dst = 1 -> es src = 1 ->
  exists r w', bytes_copy E w dst src = Ok (r, w') /\ wf es w' /\
    ((r = 0 /\ becomes es w w' dst (seq_of es w src)) \/
     (r = -1 /\ d_ok E (w_next w) = false /\ unchanged es w w')).
Proof. exact bytes_copy_ok. Qed.
Print Assumptions C13_bytes_copy_copies.

Theorem C13_compare_decides_equality : forall es w i j,
  wf es w -> es i = 1 -> es j = 1 ->
  exists r, bytes_compare w i j = Ok r /\ (r = 0 <-> seq_of es w i = seq_of es w j).
Proof. exact compare_ok. Qed.
Print Assumptions C13_compare_decides_equality.

(** The copy into a buffer of [buf_sz] bytes is truncated and terminated. *)
Theorem C13_strcpy_out_truncates : forall es w i buf_sz,
  wf es w -> es i = 1 -> 0 < buf_sz < 2 ^ 64 ->
  strcpy_out w i buf_sz = Ok (firstn (Z.to_nat (buf_sz - 1)) (seq_of es w i) ++ [0]).
Proof. exact strcpy_out_ok. Qed.
Print Assumptions C13_strcpy_out_truncates.
Theorem C13_is_empty : forall es w i, wf es w -> (is_empty w i <> 0 <-> seq_of es w i = []).
Proof.
  intros es w i H. pose proof (seq_len es w i H) as L. pose proof (wf_es _ _ H i). pose proof (wf_range _ _ H i). unfold is_empty.
  destruct (Z.eqb_spec (d_count (w_arr w i)) 0) as [E|E].
  - rewrite E in L. split; [|lia]. intros _. destruct (seq_of es w i); [reflexivity|unfold zlen in L; cbn [length] in L; lia].
  - split; [lia|]. intros Hs. rewrite Hs in L. cbn in L. nia.
Qed.
Print Assumptions C13_is_empty.

(** ** Histories *)
Inductive op :=
| OAdd (i : nat) (bs : list Z) (n : Z)             (* n elements from outside *)
| OAddFrom (i j : nat) (off n : Z) (b : nat)       (* n elements of another array *)
| OSet (i : nat) (bs : list Z)                     (* copy_data *)
| OTake (dst src : nat)
| OCopy (dst src : nat)
| OStrcat (i : nat) (str : list Z)
| OStrcpy (i : nat) (str : list Z).
Definition run_op (E : denv) (es : nat -> Z) (w : world) (o : op) : outcome (Z * world) :=
  match o with
  | OAdd i bs n => add_elems E w i (Ext bs) (es i) n
  | OAddFrom i j off n b => add_elems E w i (Inside b off) (es i) n
  | OSet i bs => copy_data E w i (Ext bs) (zlen bs)
  | OTake d s => let* w' := take w d s in Ok (0, w')
  | OCopy d s => bytes_copy E w d s
  | OStrcat i str => strcat E w i str
  | OStrcpy i str => strcpy E w i str
  end.
(** What the caller must respect: element sizes, and that the elements read
    belong to the content of a different array. *)
Definition admissible (es : nat -> Z) (w : world) (o : op) : Prop :=
  match o with
  | OAdd i bs n => zlen bs = es i * n /\ 0 <= n < 2 ^ 63
  | OAddFrom i j off n b => j <> i /\ d_values (w_arr w j) = Some b /\ 0 <= off /\ 0 <= n < 2 ^ 31 /\
                            off + es i * n <= zlen (seq_of es w j)
  | OSet i bs => es i = 1 /\ zlen bs < 2 ^ 63
  | OTake d s => es d = es s
  | OCopy d s => es d = 1 /\ es s = 1
  | OStrcat i str | OStrcpy i str => es i = 1
  end.
Inductive reachable (E : denv) (es : nat -> Z) : world -> Prop :=
| R_init : (forall i, 1 <= es i < 2 ^ 32) -> reachable E es empty_world
| R_step w o r w' : reachable E es w -> admissible es w o -> run_op E es w o = Ok (r, w') -> reachable E es w'.

Lemma empty_wf es : (forall i, 1 <= es i < 2 ^ 32) -> wf es empty_world.
Proof. intros H. constructor; cbn; auto; try lia; try congruence. Qed.
Definition small (es : nat -> Z) (w : world) : Prop := forall i, zlen (seq_of es w i) < 10240 * es i.
Lemma small_becomes es w w' i l : small es w -> becomes es w w' i l -> zlen l < 10240 * es i -> small es w'.
Proof.
  intros Hs [H1 H2] Hl j. destruct (Nat.eq_dec j i) as [->|Hj]; [rewrite H1; exact Hl|]. rewrite H2 by exact Hj. apply Hs.
Qed.
Lemma small_unchanged es w w' : small es w -> unchanged es w w' -> small es w'.
Proof. intros Hs H j. rewrite H. apply Hs. Qed.
Lemma step_inv E es w o : wf es w -> small es w -> admissible es w o ->
  exists r w', run_op E es w o = Ok (r, w') /\ wf es w' /\ small es w'.
Proof.
  intros H Hs Ha. pose proof (wf_es _ _ H) as He.
  assert (Hadd : forall i s bs n, source_bytes es w i s bs -> zlen bs = es i * n -> 0 <= n < 2 ^ 63 ->
    exists r w', add_elems E w i s (es i) n = Ok (r, w') /\ wf es w' /\ small es w').
  { intros i s bs n H1 H2 H3. destruct (add_elems_ok E es w i s bs n H H1 H2 H3) as (r & w' & E1 & W & S).
    exists r, w'. split; [exact E1|]. split; [exact W|]. destruct (Z.leb_spec 10240 (d_count (w_arr w i) + n)).
    - destruct S as [_ ->]. exact Hs.
    - destruct S as [(_ & S)|(_ & _ & S)]; [|eapply small_unchanged; eassumption].
      eapply small_becomes; [exact Hs|exact S|]. rewrite zlen_app, (seq_len es w i H), H2. specialize (He i). nia. }
  destruct o as [i bs n|i j off n b|i bs|d s|d s|i str|i str]; cbn [run_op admissible] in *.
  - apply (Hadd i (Ext bs) bs n eq_refl); tauto.
  - destruct Ha as (Hj & Ev & Ho & Hn & Hl).
    assert (Hz : zlen (firstn (Z.to_nat (es i * n)) (skipn (Z.to_nat off) (seq_of es w j))) = es i * n).
    { apply firstn_zlen. specialize (He i). unfold zlen in *. rewrite skipn_length. nia. }
    apply (Hadd i (Inside b off) (firstn (Z.to_nat (es i * n)) (skipn (Z.to_nat off) (seq_of es w j))) n); [|exact Hz|lia].
    exists j. rewrite Hz. split; [exact Hj|]. split; [exact Ev|]. split; [exact Ho|]. split; [exact Hl|].
    f_equal. unfold zlen in Hz. specialize (He i). nia.
  - destruct Ha as [H1 Hl]. destruct (C13_copy_data_replaces E es w i bs H H1 Hl) as (r & w' & E1 & W & S).
    exists r, w'. split; [exact E1|]. split; [exact W|]. pose proof (He i).
    destruct (Z.leb_spec 10240 (zlen bs)); [destruct S as [_ S]|destruct S as [[_ S]|(_ & _ & S)]];
      (eapply small_becomes; [exact Hs|exact S|try change (zlen []) with 0; lia]).
  - destruct (take_ok es w d s H Ha) as (w' & E1 & W & S). exists 0, w'. rewrite E1. split; [reflexivity|]. split; [exact W|].
    pose proof (He s). destruct (Nat.eqb_spec d s) as [->|Hne]; [eapply small_becomes; [exact Hs|exact S|change (zlen []) with 0; lia]|].
    destruct S as (S1 & S2 & S3). intros j. destruct (Nat.eq_dec j d) as [->|Hd]; [rewrite S1, Ha; apply Hs|].
    destruct (Nat.eq_dec j s) as [->|Hj]; [rewrite S2; change (zlen []) with 0; lia|rewrite S3 by assumption; apply Hs].
  - destruct Ha as [H1 H2]. destruct (bytes_copy_ok E es w d s H H1 H2) as (r & w' & E1 & W & S).
    exists r, w'. split; [exact E1|]. split; [exact W|]. destruct S as [[_ S]|(_ & _ & S)]; [|eapply small_unchanged; eassumption].
    eapply small_becomes; [exact Hs|exact S|]. specialize (Hs s). rewrite H2 in Hs. rewrite H1. exact Hs.
  - destruct (C13_strcat_concatenates E es w i str H Ha) as (r & w' & E1 & W & S).
    exists r, w'. split; [exact E1|]. split; [exact W|]. destruct (Z.leb_spec 10240 (d_count (w_arr w i) + zlen str)).
    + destruct S as [_ ->]. exact Hs.
    + destruct S as [(_ & S & _)|(_ & _ & S)]; [|eapply small_unchanged; eassumption].
      eapply small_becomes; [exact Hs|exact S|]. rewrite zlen_app, (seq_len es w i H), Ha. lia.
  - destruct (C13_strcpy_replaces E es w i str H Ha) as (r & w' & E1 & W & S).
    exists r, w'. split; [exact E1|]. split; [exact W|].
    destruct (Z.leb_spec 10240 (zlen str)); [destruct S as [_ S]|destruct S as [(_ & S & _)|(_ & _ & S)]];
      (eapply small_becomes; [exact Hs|exact S|rewrite Ha; try change (zlen []) with 0; lia]).
Qed.
Theorem C13_reachable_invariant : forall E es w, reachable E es w ->
  wf es w /\ forall i, d_count (w_arr w i) < 10240.
Proof.
  intros E es w R. assert (G : wf es w /\ small es w).
  { induction R as [He|w o r w' R [IH1 IH2] Ha Er].
    - split; [apply empty_wf, He|]. intros i. change (zlen (seq_of es empty_world i)) with 0. specialize (He i). lia.
    - destruct (step_inv E es w o IH1 IH2 Ha) as (r' & w2 & E2 & W & S). rewrite Er in E2. injection E2 as <- <-. auto. }
  destruct G as [W S]. split; [exact W|]. intros i. specialize (S i). rewrite (seq_len es w i W) in S. pose proof (wf_es _ _ W i). nia.
Qed.
Print Assumptions C13_reachable_invariant.
(** No admissible operation in any history is undefined (no use after free, no
    overrun). *)
Theorem C13_no_undefined_behaviour : forall E es w o,
  reachable E es w -> admissible es w o -> exists r w', run_op E es w o = Ok (r, w').
Proof.
  intros E es w o R Ha.
  assert (G : wf es w /\ small es w).
  { destruct (C13_reachable_invariant E es w R) as [W S]. split; [exact W|]. intros i. rewrite (seq_len es w i W).
    specialize (S i). pose proof (wf_es _ _ W i). nia. }
  destruct G as [W S]. destruct (step_inv E es w o W S Ha) as (r & w' & E1 & _). eauto.
Qed.
Print Assumptions C13_no_undefined_behaviour.

(** ** Where the property fails *)

(** "A request beyond the maximum changes nothing" is false of strcpy and
    copy_data: they forget the old content before they fail. *)
Theorem C13_failed_strcpy_loses_content_refuted :
  exists E es w str w', reachable E es w /\ seq_of es w 0 = [104; 105] /\
    strcpy E w 0 str = Ok (- AOSL_E2BIG, w') /\ seq_of es w' 0 = [].
Proof.
  set (E := mkDEnv (fun _ => true) (fun _ _ => 0)). set (es := fun _ : nat => 1).
  destruct (strcat_ok E es empty_world 0 [104; 105] (empty_wf es ltac:(unfold es; intros; lia)) eq_refl) as (r & w & E1 & W & S).
  change (10240 <=? d_count (w_arr empty_world 0) + zlen [104; 105]) with false in S. cbv iota in S.
  destruct S as [(-> & S & _)|(_ & Hf & _)]; [|discriminate].
  exists E, es, w, (repeat 97 (Z.to_nat 10240)).
  destruct (C13_strcpy_replaces E es w 0 (repeat 97 (Z.to_nat 10240)) W eq_refl) as (r' & w' & E2 & W2 & S2).
  assert (Hz : zlen (repeat 97 (Z.to_nat 10240)) = 10240) by (unfold zlen; rewrite repeat_length; reflexivity).
  rewrite Hz in S2. change (10240 <=? 10240) with true in S2. cbv iota in S2. destruct S2 as [-> S2].
  exists w'. split.
  - eapply (R_step E es empty_world (OStrcat 0 [104; 105])); [constructor; unfold es; intros; lia|reflexivity|exact E1].
  - split; [exact (proj1 S)|]. split; [exact E2|exact (proj1 S2)].
Qed.
Print Assumptions C13_failed_strcpy_loses_content_refuted.

(** Adding an array's own elements to itself reads freed memory when it grows. *)
Theorem C13_self_append_refuted : forall E,
  (forall k, d_ok E k = true) ->
  exists w b, add_elems E empty_world 0 (Ext [1; 2; 3; 4]) 1 4 = Ok (0, w) /\
    d_values (w_arr w 0) = Some b /\ add_elems E w 0 (Inside b 0) 1 4 = UB.
Proof.
  intros E Hok. unfold add_elems at 1.
  cbn [w_arr empty_world d_count d_alloc d_values].
  change (DYNAMIC_ARRAY_MAX_COUNT <=? 0) with false. change (DYNAMIC_ARRAY_MAX_COUNT <=? 4) with false.
  change (DYNAMIC_ARRAY_MAX_COUNT <=? u64 (4 + 0)) with false. cbv iota.
  replace (grow grow_fuel DYNAMIC_ARRAY_GROW_STRIDE 0 (u16 (0 + 4))) with 4.
  2:{ assert (Hf : exists f, grow_fuel = S (S f)) by (exists (Z.to_nat 65534); unfold grow_fuel; lia). destruct Hf as [f ->]. reflexivity. }
  unfold regrow, dmalloc. cbn [w_arr empty_world d_count d_alloc d_values w_next]. rewrite Hok. cbn.
  eexists _, 0%nat. split; [reflexivity|]. cbn. split; [reflexivity|].
  unfold add_elems. cbn [w_arr set_arr set_block d_count d_alloc d_values].
  change (DYNAMIC_ARRAY_MAX_COUNT <=? u16 (0 + 4)) with false.
  replace (grow grow_fuel DYNAMIC_ARRAY_GROW_STRIDE 4 (u16 (u16 (0 + 4) + 4))) with 8.
  2:{ assert (Hf : exists f, grow_fuel = S (S f)) by (exists (Z.to_nat 65534); unfold grow_fuel; lia). destruct Hf as [f ->]. reflexivity. }
  unfold regrow, dmalloc. cbn [w_arr set_arr d_count d_alloc d_values w_next set_block]. rewrite Hok. reflexivity.
Qed.
Print Assumptions C13_self_append_refuted.

(** ** A concrete history *)
Example C13_history : exists E es w w', reachable E es w' /\ seq_of es w' 0 = [104; 105; 33] /\ seq_of es w' 1 = [104; 105] /\ w <> w'.
Proof.
  set (E := mkDEnv (fun _ => true) (fun _ _ => 0)). set (es := fun _ : nat => 1).
  assert (He : forall i, 1 <= es i < 2 ^ 32) by (unfold es; intros; lia).
  destruct (strcat_ok E es empty_world 0 [104; 105] (empty_wf es He) eq_refl) as (r & w1 & E1 & W1 & S1).
  change (10240 <=? _) with false in S1. destruct S1 as [(-> & [S1 S1'] & _)|(_ & Hf & _)]; [|discriminate].
  destruct (bytes_copy_ok E es w1 1 0 W1 eq_refl eq_refl) as (r2 & w2 & E2 & W2 & [(-> & S2 & S2')|(_ & Hf & _)]); [|discriminate].
  destruct (strcat_ok E es w2 0 [33] W2 eq_refl) as (r3 & w3 & E3 & W3 & S3).
  assert (Hc : d_count (w_arr w2 0) = 2).
  { pose proof (seq_len es w2 0 W2) as L. rewrite (S2' 0%nat) in L by lia. rewrite S1 in L. unfold es in L at 1. cbn in L. destruct (d_count (w_arr w2 0)) eqn:Ec; cbn in L; lia. }
  rewrite Hc in S3. change (10240 <=? 2 + zlen [33]) with false in S3. cbv iota in S3.
  destruct S3 as [(-> & [S3 S3'] & _)|(_ & Hf & _)]; [|discriminate].
  exists E, es, empty_world, w3. split; [|split; [|split]].
  - eapply (R_step _ _ w2 (OStrcat 0 [33])); [|reflexivity|exact E3].
    eapply (R_step _ _ w1 (OCopy 1 0)); [|split; reflexivity|exact E2].
    eapply (R_step _ _ empty_world (OStrcat 0 [104; 105])); [constructor; exact He|reflexivity|exact E1].
  - rewrite S3, (S2' 0%nat) by lia. rewrite S1. reflexivity.
  - rewrite S3' by lia. rewrite S2, S1. reflexivity.
  - intros Heq. rewrite <- Heq in S3. cbn in S3. destruct (seq_of es w2 0); discriminate.
Qed.
