From Verif Require Import Base Psb PsbSpec.
Ltac Zify.zify_post_hook ::= Z.div_mod_to_equations.

Lemma u32_fits n : fits_int n -> u32 n = n /\ s32 (u32 n) = n.
Proof.
  intros H. unfold fits_int in H. assert (E : u32 n = n) by (unfold u32; lia).
  split; [assumption|]. rewrite E. unfold s32. apply wrap_signed_id; lia.
Qed.

Lemma skipn_skipn {A} (l : list A) i j : skipn i (skipn j l) = skipn (j + i) l.
Proof.
  revert j; induction l as [|x l IH]; intros j; [rewrite !skipn_nil; reflexivity|].
  destruct j; cbn [skipn Nat.add]; [reflexivity|]. apply IH.
Qed.

Definition block_bounded (b : psb) : Prop := pb_size b < 2 ^ 63.

Lemma content_len b : psb_ok b -> Z.of_nat (length (psb_content b)) = pb_len b.
Proof.
  intros (H1 & H2 & H3). unfold psb_content. rewrite firstn_length, skipn_length. unfold pb_size in H3. lia.
Qed.

Lemma firstn_skipn_split {A} (l : list A) i a b :
  firstn (a + b) (skipn i l) = firstn a (skipn i l) ++ firstn b (skipn (i + a) l).
Proof.
  rewrite <- (firstn_skipn a (firstn (a + b) (skipn i l))).
  rewrite firstn_firstn, Nat.min_l by lia. f_equal.
  rewrite skipn_firstn_comm. replace (a + b - a)%nat with b by lia.
  rewrite skipn_skipn. reflexivity.
Qed.

Lemma write_slice_in (l bs : list Z) p :
  (p + length bs <= length l)%nat ->
  let l' := firstn p l ++ bs ++ skipn (p + length bs) l in
  length l' = length l /\
  firstn (length bs) (skipn p l') = bs /\
  (forall i n, (i + n <= p)%nat -> firstn n (skipn i l') = firstn n (skipn i l)) /\
  (forall i, (p + length bs <= i)%nat -> skipn i l' = skipn i l).
Proof.
  intros Hp. cbv zeta.
  assert (Lp : length (firstn p l) = p) by (rewrite firstn_length; lia).
  split; [|split; [|split]].
  - rewrite !app_length, skipn_length, Lp. lia.
  - rewrite skipn_app, Lp, Nat.sub_diag. rewrite (skipn_all2 (firstn p l)) by lia.
    cbn [app skipn]. rewrite firstn_app, Nat.sub_diag, firstn_all, firstn_O, app_nil_r. reflexivity.
  - intros i n Hi. rewrite skipn_app. rewrite Lp.
    replace (i - p)%nat with O by lia. cbn [skipn].
    rewrite firstn_app. rewrite skipn_length, Lp. replace (n - (p - i))%nat with O by lia.
    rewrite firstn_O, app_nil_r. rewrite skipn_firstn_comm, firstn_firstn. f_equal. lia.
  - intros i Hi. rewrite skipn_app, Lp. rewrite (skipn_all2 (firstn p l)) by lia. cbn [app].
    rewrite skipn_app. rewrite (skipn_all2 bs) by lia. cbn [app]. rewrite skipn_skipn. f_equal. lia.
Qed.

Lemma mem_write_ok b p bs : 0 <= p -> p + zlen bs <= pb_size b ->
  exists mem', mem_write b p bs = Ok (mkPsb mem' (pb_off b) (pb_len b)) /\
    length mem' = length (pb_mem b) /\
    firstn (length bs) (skipn (Z.to_nat p) mem') = bs /\
    (forall i n, (i + n <= Z.to_nat p)%nat -> firstn n (skipn i mem') = firstn n (skipn i (pb_mem b))) /\
    (forall i, (Z.to_nat p + length bs <= i)%nat -> skipn i mem' = skipn i (pb_mem b)).
Proof.
  intros Hp Hb. unfold mem_write, zlen in *.
  destruct (Z.ltb_spec p 0); [lia|]. destruct (Z.ltb_spec (pb_size b) (p + Z.of_nat (length bs))); [lia|].
  cbn [orb]. destruct (write_slice_in (pb_mem b) bs (Z.to_nat p)) as (A & B & C & D).
  { unfold pb_size in *. lia. }
  eexists. split; [reflexivity|]. auto.
Qed.

Lemma bufstep_spec b op :
  psb_ok b -> block_bounded b -> op_fits op ->
  exists b', bufstep b op = Ok (b', snd (abufstep (abs_psb b) op)) /\
    psb_ok b' /\ pb_size b' = pb_size b /\ abs_psb b' = fst (abufstep (abs_psb b) op).
Proof.
  intros Hok Hbb Hfit. pose proof Hok as (H1 & H2 & H3). pose proof (content_len b Hok) as HL.
  unfold block_bounded in Hbb.
  destruct op as [bs|n|n|bs|n|n]; cbn [op_fits] in Hfit; cbn [bufstep abufstep abs_psb a_head a_bytes a_tail].
  - (* put *)
    destruct (u32_fits _ Hfit) as [Eu _]. unfold aosl_psb_put, psb_put. fold (zlen bs). rewrite Eu.
    pose proof Hfit as Hf. unfold fits_int in Hf.
    destruct (Z.leb_spec (zlen bs) (pb_size b - pb_off b - pb_len b)) as [Hle|Hle].
    2:{ destruct (Z.leb_spec (pb_off b + pb_len b + zlen bs) (pb_size b)); [lia|].
        exists b. cbn [fst snd]. auto. }
    destruct (Z.leb_spec (pb_off b + pb_len b + zlen bs) (pb_size b)); [|lia].
    replace (u64 (pb_len b + zlen bs)) with (pb_len b + zlen bs) by (unfold u64; lia).
    destruct (mem_write_ok (mkPsb (pb_mem b) (pb_off b) (pb_len b + zlen bs)) (pb_off b + pb_len b) bs)
      as (mem' & E & L & W1 & W2 & W3); [lia|exact H|].
    rewrite E. cbn [bind pb_off pb_len fst snd]. cbn [pb_mem] in L, W2, W3.
    eexists. split; [reflexivity|].
    assert (Hsz : pb_size (mkPsb mem' (pb_off b) (pb_len b + zlen bs)) = pb_size b)
      by (unfold pb_size; cbn [pb_mem]; lia).
    split; [unfold psb_ok; cbn [pb_off pb_len]; lia|]. split; [assumption|].
    unfold abs_psb. cbn [pb_off pb_len]. rewrite Hsz. f_equal; [|lia].
    unfold psb_content. cbn [pb_off pb_len pb_mem].
    replace (Z.to_nat (pb_len b + zlen bs)) with (Z.to_nat (pb_len b) + length bs)%nat by (unfold zlen; lia).
    rewrite firstn_skipn_split. f_equal.
    + apply W2. lia.
    + replace (Z.to_nat (pb_off b) + Z.to_nat (pb_len b))%nat with (Z.to_nat (pb_off b + pb_len b)) by lia.
      exact W1.
  - (* get *)
    destruct (u32_fits _ Hfit) as [Eu _]. unfold aosl_psb_get, psb_get. rewrite Eu. unfold fits_int in Hfit.
    unfold alen, abs_psb; cbn [a_bytes a_head a_tail]. rewrite HL.
    destruct (Z.leb_spec n (pb_len b)); [|exists b; cbn [fst snd]; auto].
    unfold mem_read. change (pb_size (mkPsb (pb_mem b) (pb_off b + n) (pb_len b - n))) with (pb_size b).
    destruct (Z.ltb_spec (pb_off b) 0); [lia|]. destruct (Z.ltb_spec n 0); [lia|].
    destruct (Z.ltb_spec (pb_size b) (pb_off b + n)); [lia|]. cbn [orb bind fst snd pb_mem].
    eexists. split.
    { f_equal. f_equal. f_equal. unfold psb_content. rewrite firstn_firstn. f_equal. lia. }
    split; [unfold psb_ok; change (pb_size (mkPsb (pb_mem b) (pb_off b + n) (pb_len b - n))) with (pb_size b); cbn [pb_off pb_len]; lia|].
    split; [reflexivity|]. unfold abs_psb. change (pb_size (mkPsb (pb_mem b) (pb_off b + n) (pb_len b - n))) with (pb_size b).
    cbn [pb_off pb_len]. f_equal; [|lia]. unfold psb_content; cbn [pb_off pb_len pb_mem].
    rewrite skipn_firstn_comm, skipn_skipn. f_equal; [lia|]. f_equal. lia.
  - (* peek *)
    destruct (u32_fits _ Hfit) as [Eu _]. unfold aosl_psb_peek, psb_peek. rewrite Eu. unfold fits_int in Hfit.
    unfold alen, abs_psb; cbn [a_bytes a_head a_tail]. rewrite HL.
    destruct (Z.leb_spec n (pb_len b)); [|exists b; cbn [fst snd]; auto].
    unfold mem_read.
    destruct (Z.ltb_spec (pb_off b) 0); [lia|]. destruct (Z.ltb_spec n 0); [lia|].
    destruct (Z.ltb_spec (pb_size b) (pb_off b + n)); [lia|]. cbn [orb bind fst snd pb_mem].
    exists b. split; [|split; [assumption|split; reflexivity]].
    f_equal. f_equal. f_equal. unfold psb_content. rewrite firstn_firstn. f_equal. lia.
  - (* push *)
    destruct (u32_fits _ Hfit) as [Eu Es]. unfold aosl_psb_push, psb_push. fold (zlen bs). rewrite Es, Eu.
    pose proof Hfit as Hf. unfold fits_int in Hf.
    destruct (Z.ltb_spec (pb_off b) (zlen bs)); destruct (Z.leb_spec (zlen bs) (pb_off b)); try lia.
    { exists b. cbn [fst snd]. auto. }
    replace (u64 (pb_len b + zlen bs)) with (pb_len b + zlen bs) by (unfold u64; lia).
    destruct (mem_write_ok (mkPsb (pb_mem b) (pb_off b - zlen bs) (pb_len b + zlen bs)) (pb_off b - zlen bs) bs)
      as (mem' & E & L & W1 & W2 & W3);
      [lia|change (pb_size (mkPsb (pb_mem b) (pb_off b - zlen bs) (pb_len b + zlen bs))) with (pb_size b); lia|].
    rewrite E. cbn [bind pb_off pb_len fst snd]. cbn [pb_mem] in L, W2, W3.
    eexists. split; [reflexivity|].
    assert (Hsz : pb_size (mkPsb mem' (pb_off b - zlen bs) (pb_len b + zlen bs)) = pb_size b)
      by (unfold pb_size; cbn [pb_mem]; lia).
    split; [unfold psb_ok; cbn [pb_off pb_len]; lia|]. split; [assumption|].
    unfold abs_psb. cbn [pb_off pb_len]. rewrite Hsz. f_equal; [|lia].
    unfold psb_content. cbn [pb_off pb_len pb_mem].
    replace (Z.to_nat (pb_len b + zlen bs)) with (length bs + Z.to_nat (pb_len b))%nat by (unfold zlen; lia).
    rewrite firstn_skipn_split. f_equal; [exact W1|].
    rewrite W3 by lia. f_equal. f_equal. unfold zlen in *. lia.
  - (* pull *)
    destruct (u32_fits _ Hfit) as [Eu _]. unfold aosl_psb_pull, psb_pull. rewrite Eu. unfold fits_int in Hfit.
    unfold alen, abs_psb; cbn [a_bytes a_head a_tail]. rewrite HL.
    destruct (Z.leb_spec n (pb_len b)); destruct (Z.ltb_spec (pb_len b) n); try lia;
      [|exists b; cbn [fst snd]; auto].
    cbn [fst snd]. eexists. split; [reflexivity|].
    split; [unfold psb_ok; change (pb_size (mkPsb (pb_mem b) (pb_off b + n) (pb_len b - n))) with (pb_size b); cbn [pb_off pb_len]; lia|].
    split; [reflexivity|]. unfold abs_psb. change (pb_size (mkPsb (pb_mem b) (pb_off b + n) (pb_len b - n))) with (pb_size b).
    cbn [pb_off pb_len]. f_equal; [|lia]. unfold psb_content; cbn [pb_off pb_len pb_mem].
    rewrite skipn_firstn_comm, skipn_skipn. f_equal; [lia|]. f_equal. lia.
  - (* reserve *)
    destruct (u32_fits _ Hfit) as [Eu _]. unfold aosl_psb_reserve, psb_reserve. rewrite Eu. unfold fits_int in Hfit.
    unfold alen, abs_psb; cbn [a_bytes a_head a_tail]. rewrite HL.
    destruct (Z.ltb_spec 0 (pb_len b)).
    { exists b. cbn [fst snd]. auto. }
    replace (u64 (pb_size b - pb_off b)) with (pb_size b - pb_off b - pb_len b) by (unfold u64; lia).
    destruct (Z.leb_spec n (pb_size b - pb_off b - pb_len b)).
    2:{ exists b. cbn [fst snd]. auto. }
    cbn [fst snd]. eexists. split; [reflexivity|].
    split; [unfold psb_ok; change (pb_size (mkPsb (pb_mem b) (pb_off b + n) (pb_len b))) with (pb_size b); cbn [pb_off pb_len]; lia|].
    split; [reflexivity|]. unfold abs_psb. change (pb_size (mkPsb (pb_mem b) (pb_off b + n) (pb_len b))) with (pb_size b).
    cbn [pb_off pb_len]. f_equal; [|lia]. unfold psb_content; cbn [pb_off pb_len pb_mem].
    replace (Z.to_nat (pb_len b)) with O by lia. rewrite !firstn_O. reflexivity.
Qed.

Lemma bufrun_spec ops : forall b,
  psb_ok b -> block_bounded b -> Forall op_fits ops ->
  exists b', bufrun b ops = Ok (b', snd (abufrun (abs_psb b) ops)) /\
    psb_ok b' /\ pb_size b' = pb_size b /\ abs_psb b' = fst (abufrun (abs_psb b) ops).
Proof.
  induction ops as [|o ops IH]; intros b Hok Hbb Hf.
  - exists b. cbn. auto.
  - inversion_clear Hf. destruct (bufstep_spec b o Hok Hbb H) as (b1 & E1 & O1 & S1 & A1).
    destruct (IH b1 O1 ltac:(unfold block_bounded in *; lia) H0) as (b2 & E2 & O2 & S2 & A2).
    exists b2. cbn [bufrun abufrun]. rewrite E1. cbn [bind]. rewrite E2. cbn [bind].
    destruct (abufstep (abs_psb b) o) as [a1 e1]. cbn [fst snd] in *. subst a1.
    destruct (abufrun (abs_psb b1) ops) as [a2 e2]. cbn [fst snd] in *.
    split; [reflexivity|]. split; [assumption|]. split; [congruence|assumption].
Qed.

Lemma new_psb_ok mem : psb_ok (new_psb mem).
Proof. unfold psb_ok, new_psb, pb_size; cbn. lia. Qed.

Lemma abs_new mem : abs_psb (new_psb mem) = mkAbuf 0 [] (Z.of_nat (length mem)).
Proof. unfold abs_psb, new_psb, psb_content, pb_size; cbn. f_equal. lia. Qed.

(** Each step: window inside the block, room conserved, failure changes nothing. *)
Lemma psb_ops_safe b n :
  psb_ok b -> block_bounded b -> fits_int n ->
  (forall b' r f, In f [aosl_psb_put; aosl_psb_get; aosl_psb_peek; aosl_psb_push; aosl_psb_pull] ->
     f b n = (b', r) ->
     psb_ok b' /\ pb_size b' = pb_size b /\ (forall e, r = PErr e -> b' = b)) /\
  (forall b' e, aosl_psb_reserve b n = (b', e) ->
     psb_ok b' /\ pb_size b' = pb_size b /\ (e <> 0 -> b' = b)).
Proof.
  intros (H1 & H2 & H3) Hbb Hf. destruct (u32_fits _ Hf) as [Eu Es]. unfold fits_int in Hf. unfold block_bounded in Hbb.
  split.
  - intros b' r f Hin E. cbn in Hin.
    destruct Hin as [<-|[<-|[<-|[<-|[<-|[]]]]]];
      unfold aosl_psb_put, aosl_psb_get, aosl_psb_peek, aosl_psb_push, aosl_psb_pull,
             psb_put, psb_get, psb_peek, psb_push, psb_pull in E; rewrite ?Es, ?Eu in E.
    + destruct (Z.leb_spec (pb_off b + pb_len b + n) (pb_size b)); injection E as <- <-.
      * split; [|split; [reflexivity|discriminate]]. unfold psb_ok, pb_size in *; cbn [pb_off pb_len pb_mem].
        replace (u64 (pb_len b + n)) with (pb_len b + n) by (unfold u64; lia). lia.
      * unfold psb_ok. auto.
    + destruct (Z.leb_spec n (pb_len b)); injection E as <- <-.
      * split; [|split; [reflexivity|discriminate]]. unfold psb_ok, pb_size in *; cbn [pb_off pb_len pb_mem]. lia.
      * unfold psb_ok. auto.
    + destruct (Z.leb_spec n (pb_len b)); injection E as <- <-; unfold psb_ok; auto.
    + destruct (Z.ltb_spec (pb_off b) n); injection E as <- <-.
      * unfold psb_ok. auto.
      * split; [|split; [reflexivity|discriminate]]. unfold psb_ok, pb_size in *; cbn [pb_off pb_len pb_mem].
        replace (u64 (pb_len b + n)) with (pb_len b + n) by (unfold u64; lia). lia.
    + destruct (Z.ltb_spec (pb_len b) n); injection E as <- <-.
      * unfold psb_ok. auto.
      * split; [|split; [reflexivity|discriminate]]. unfold psb_ok, pb_size in *; cbn [pb_off pb_len pb_mem]. lia.
  - intros b' e E. unfold aosl_psb_reserve, psb_reserve in E. rewrite Eu in E.
    destruct (Z.ltb_spec 0 (pb_len b)); [injection E as <- <-; unfold psb_ok; auto|].
    destruct (Z.leb_spec n (u64 (pb_size b - pb_off b))) as [Hle|Hle]; injection E as <- <-.
    + split; [|split; [reflexivity|intros X; congruence]].
      unfold psb_ok, pb_size in *; cbn [pb_off pb_len pb_mem]. unfold u64 in Hle. lia.
    + unfold psb_ok. auto.
Qed.

(** Pointer ranges returned. *)
Lemma psb_ranges b n :
  psb_ok b -> block_bounded b -> fits_int n ->
  forall f, In f [aosl_psb_put; aosl_psb_get; aosl_psb_peek; aosl_psb_push] ->
  forall b' p, f b n = (b', PPtr p) -> 0 <= p /\ p + n <= pb_size b.
Proof.
  intros (H1 & H2 & H3) Hbb Hf f Hin b' p E. destruct (u32_fits _ Hf) as [Eu Es]. unfold fits_int in Hf.
  cbn in Hin.
  destruct Hin as [<-|[<-|[<-|[<-|[]]]]];
      unfold aosl_psb_put, aosl_psb_get, aosl_psb_peek, aosl_psb_push,
             psb_put, psb_get, psb_peek, psb_push in E; rewrite ?Es, ?Eu in E.
  - destruct (Z.leb_spec (pb_off b + pb_len b + n) (pb_size b)); inversion E; subst; lia.
  - destruct (Z.leb_spec n (pb_len b)); inversion E; subst; lia.
  - destruct (Z.leb_spec n (pb_len b)); inversion E; subst; lia.
  - destruct (Z.ltb_spec (pb_off b) n); inversion E; subst; lia.
Qed.

Lemma psb_fail_exact b n :
  psb_ok b -> block_bounded b -> fits_int n ->
  (snd (aosl_psb_put b n) = PErr (- AOSL_ENOSPC) <-> pb_size b - pb_off b - pb_len b < n) /\
  (snd (aosl_psb_get b n) = PErr (- AOSL_ENOSPC) <-> pb_len b < n) /\
  (snd (aosl_psb_peek b n) = PErr (- AOSL_ENOSPC) <-> pb_len b < n) /\
  (snd (aosl_psb_push b n) = PErr (- AOSL_ENOSPC) <-> pb_off b < n) /\
  (snd (aosl_psb_pull b n) = PErr (- AOSL_ENOSPC) <-> pb_len b < n) /\
  (snd (aosl_psb_reserve b n) = - AOSL_EPERM <-> 0 < pb_len b) /\
  (snd (aosl_psb_reserve b n) = - AOSL_ENOSPC <-> pb_len b = 0 /\ pb_size b - pb_off b < n).
Proof.
  intros (H1 & H2 & H3) Hbb Hf. destruct (u32_fits _ Hf) as [Eu Es]. unfold fits_int in Hf. unfold block_bounded in Hbb.
  unfold aosl_psb_put, aosl_psb_get, aosl_psb_peek, aosl_psb_push, aosl_psb_pull, aosl_psb_reserve,
             psb_put, psb_get, psb_peek, psb_push, psb_pull, psb_reserve; rewrite ?Es, ?Eu.
  replace (u64 (pb_size b - pb_off b)) with (pb_size b - pb_off b) by (unfold u64; lia).
  split; [destruct (Z.leb_spec (pb_off b + pb_len b + n) (pb_size b)); cbn [snd]; split; intros X; try discriminate X; try lia; try reflexivity|].
  split; [destruct (Z.leb_spec n (pb_len b)); cbn [snd]; split; intros X; try discriminate X; try lia; try reflexivity|].
  split; [destruct (Z.leb_spec n (pb_len b)); cbn [snd]; split; intros X; try discriminate X; try lia; try reflexivity|].
  split; [destruct (Z.ltb_spec (pb_off b) n); cbn [snd]; split; intros X; try discriminate X; try lia; try reflexivity|].
  split; [destruct (Z.ltb_spec (pb_len b) n); cbn [snd]; split; intros X; try discriminate X; try lia; try reflexivity|].
  destruct (Z.ltb_spec 0 (pb_len b)); [|destruct (Z.leb_spec n (pb_size b - pb_off b))]; cbn [snd];
    (split; split; intros X; try discriminate X; try lia; try reflexivity).
Qed.

Lemma total_len_spec chain :
  Forall psb_ok chain -> fold_right Z.add 0 (map pb_size chain) < 2 ^ 64 ->
  aosl_psb_total_len chain = Z.of_nat (length (concat (map psb_content chain))).
Proof.
  unfold aosl_psb_total_len. intros HF Hs.
  assert (G : forall t, 0 <= t -> t + fold_right Z.add 0 (map pb_size chain) < 2 ^ 64 ->
     fold_left (fun t b => u64 (t + pb_len b)) chain t = t + Z.of_nat (length (concat (map psb_content chain)))).
  { induction HF as [|b chain Hb HF IH]; intros t Ht Hts; cbn [fold_left map concat length].
    - cbn. lia.
    - cbn [map fold_right] in *. rewrite app_length.
      pose proof (content_len b Hb). destruct Hb as (B1 & B2 & B3).
      assert (Hnn : 0 <= fold_right Z.add 0 (map pb_size chain)).
      { clear. induction chain; cbn; [lia|]. unfold pb_size at 1. lia. }
      replace (u64 (t + pb_len b)) with (t + pb_len b) by (unfold u64; lia).
      rewrite IH by lia. lia. }
  rewrite G by lia. lia.
Qed.
