(** * Reading from a chain of segments equals reading from its content *)
From Verif Require Import Base Psb PsbSpec PsbProof Marshal MarshalSpec.

(** Byte source made of a plain list.  [strict]: a missing NUL is an error
    rather than undefined behaviour. *)
Fixpoint nul_index (l : list Z) : option Z :=
  match l with
  | [] => None
  | b :: l' => if b =? 0 then Some 0 else match nul_index l' with Some n => Some (n + 1) | None => None end
  end.
Definition flat_reader (strict : bool) : reader (list Z) :=
  mkReader (list Z)
    (fun l n => if zlen l <? n then Ok (None, []) else Ok (Some (firstn (Z.to_nat n) l), skipn (Z.to_nat n) l))
    (fun l n => Ok (firstn (Z.to_nat n) l, n <=? zlen l, skipn (Z.to_nat n) l))
    (fun l => match nul_index l with
              | Some n => Ok (Some (n + 1))
              | None => if strict then Ok None else UB
              end).

Definition crel (strict : bool) (c : chain) (l : list Z) : Prop :=
  exists b used empties, c = b :: used ++ empties /\ chain_ok c /\
    Forall (fun b => 0 < pb_len b) used /\ Forall (fun b => pb_len b = 0) empties /\
    (strict = true -> empties = []) /\ content c = l.

Definition shift (b : psb) (n : Z) : psb := mkPsb (pb_mem b) (pb_off b + n) (pb_len b - n).

Lemma shift_content b n : psb_ok b -> 0 <= n <= pb_len b ->
  psb_content (shift b n) = skipn (Z.to_nat n) (psb_content b).
Proof.
  intros (H1 & H2 & H3) Hn. unfold psb_content, shift; cbn.
  rewrite skipn_firstn_comm, skipn_skipn. f_equal; [|f_equal]; lia.
Qed.
Lemma shift_ok b n : psb_ok b -> 0 <= n <= pb_len b -> psb_ok (shift b n).
Proof. unfold psb_ok, shift, pb_size; cbn. lia. Qed.
Lemma shift_size b n : pb_size (shift b n) = pb_size b.
Proof. reflexivity. Qed.

Lemma mem_read_content b n : psb_ok b -> 0 <= n <= pb_len b ->
  mem_read b (pb_off b) n = Ok (firstn (Z.to_nat n) (psb_content b)).
Proof.
  intros (H1 & H2 & H3) Hn. unfold mem_read.
  replace (_ || _ || _) with false by (symmetry; lia). f_equal.
  unfold psb_content. rewrite firstn_firstn. f_equal. lia.
Qed.
Lemma mem_read_shift b p n k : mem_read (shift b k) p n = mem_read b p n.
Proof. reflexivity. Qed.

Lemma psb_pull_shift b n : psb_ok b -> pb_size b < 2 ^ 31 -> 0 <= n <= pb_len b ->
  fst (psb_pull b (u32 n)) = shift b n.
Proof.
  intros (H1 & H2 & H3) Hs Hn. unfold psb_pull.
  replace (u32 n) with n by (unfold u32; lia).
  replace (pb_len b <? n) with false by lia. reflexivity.
Qed.
Lemma psb_get_shift b n : psb_ok b -> 0 <= n <= pb_len b ->
  psb_get b n = (shift b n, PPtr (pb_off b)).
Proof. intros (H1 & H2 & H3) Hn. unfold psb_get. replace (n <=? pb_len b) with true by lia. reflexivity. Qed.

Lemma content_cons b c : content (b :: c) = psb_content b ++ content c.
Proof. reflexivity. Qed.
Lemma content_app c c' : content (c ++ c') = content c ++ content c'.
Proof. unfold content. rewrite map_app, concat_app. reflexivity. Qed.
Lemma content_empties e : chain_ok e -> Forall (fun b => pb_len b = 0) e -> content e = [].
Proof.
  induction e as [|b e IH]; intros Hok Hz; [reflexivity|].
  inversion Hok; inversion Hz; subst. rewrite content_cons, IH by assumption.
  destruct H1 as [Hb _]. pose proof (content_len b Hb) as HL. rewrite H5 in HL.
  destruct (psb_content b); [reflexivity|cbn in HL; lia].
Qed.
Lemma zlen_app a b : zlen (a ++ b) = zlen a + zlen b.
Proof. unfold zlen. rewrite app_length. lia. Qed.
Lemma zlen_nonneg l : 0 <= zlen l.
Proof. unfold zlen. lia. Qed.
Lemma chain_ok_cons b c : chain_ok (b :: c) <-> (psb_ok b /\ pb_size b < 2 ^ 31) /\ chain_ok c.
Proof. unfold chain_ok. split; [intros H; inversion H; auto|intros [? ?]; constructor; auto]. Qed.
Lemma chain_ok_app c c' : chain_ok (c ++ c') <-> chain_ok c /\ chain_ok c'.
Proof. apply Forall_app. Qed.

Lemma crel_shift strict b used empties n :
  chain_ok (b :: used ++ empties) ->
  Forall (fun b => 0 < pb_len b) used -> Forall (fun b => pb_len b = 0) empties ->
  (strict = true -> empties = []) -> 0 <= n <= pb_len b ->
  crel strict (shift b n :: used ++ empties) (skipn (Z.to_nat n) (content (b :: used ++ empties))).
Proof.
  intros Hok Hu He Hs Hn. exists (shift b n), used, empties.
  apply chain_ok_cons in Hok. destruct Hok as [[Hb Hz] Hok].
  repeat split; try assumption.
  - apply chain_ok_cons. repeat split; try apply shift_ok; assumption.
  - rewrite !content_cons, shift_content by assumption.
    pose proof (content_len b Hb) as HL.
    rewrite skipn_app. replace (_ - _)%nat with 0%nat by lia. reflexivity.
Qed.

Lemma crel_end strict b : psb_ok b -> pb_size b < 2 ^ 31 -> crel strict [shift b (pb_len b)] [].
Proof.
  intros Hb Hz. exists (shift b (pb_len b)), [], []. pose proof Hb as (H1 & H2 & H3).
  assert (E : psb_content (shift b (pb_len b)) = []).
  { rewrite shift_content by (assumption || lia). apply skipn_all2. pose proof (content_len b Hb). lia. }
  repeat split; try constructor; auto.
  - split; [apply shift_ok; [assumption|lia]|assumption].
  - unfold content; cbn. rewrite E. reflexivity.
Qed.

Lemma base_slow_sim strict used : forall b empties needed acc,
  chain_ok (b :: used ++ empties) ->
  Forall (fun b => 0 < pb_len b) used -> Forall (fun b => pb_len b = 0) empties ->
  (strict = true -> empties = []) -> 0 < needed ->
  let l := content (b :: used ++ empties) in
  exists c', base_slow (b :: used ++ empties) needed acc =
             Ok (if zlen l <? needed then None else Some (acc ++ firstn (Z.to_nat needed) l), c') /\
             crel strict c' (skipn (Z.to_nat needed) l).
Proof.
  induction used as [|b2 used IH]; intros b empties needed acc Hok Hu He Hs Hn l.
  - (* only empties behind *)
    assert (Hc : content empties = []).
    { apply content_empties; [|assumption]. apply chain_ok_cons in Hok. apply Hok. }
    subst l. cbn [app] in *. rewrite content_cons, Hc, app_nil_r.
    assert (G : forall e acc needed, chain_ok e -> Forall (fun b => pb_len b = 0) e -> 0 < needed -> e <> [] ->
              exists b', base_slow e needed acc = Ok (None, [b']) /\ psb_ok b' /\ pb_size b' < 2 ^ 31 /\ pb_len b' = 0).
    { clear. induction e as [|b e IH]; intros acc needed Hok Hz Hn Hne; [congruence|].
      apply chain_ok_cons in Hok. destruct Hok as [[Hb Hsz] Hok]. inversion Hz; subst.
      cbn [base_slow]. rewrite H1. replace (needed <? 0) with false by lia.
      rewrite mem_read_content by (assumption || lia). cbn [bind].
      rewrite psb_pull_shift by (assumption || lia).
      replace (needed - 0 =? 0) with false by lia.
      destruct e as [|b2 e].
      - exists (shift b 0). repeat split; auto; cbn; try lia; destruct Hb as (?&?&?); unfold pb_size in *; cbn; lia.
      - rewrite Z.sub_0_r. apply IH; auto. discriminate. }
    apply chain_ok_cons in Hok. destruct Hok as [[Hb Hsz] Hok].
    pose proof (content_len b Hb) as HL. pose proof Hb as (Hb1 & Hb2 & Hb3).
    cbn [base_slow].
    destruct (Z.ltb_spec needed (pb_len b)) as [Hlt|Hge].
    + rewrite mem_read_content by (assumption || lia). cbn [bind].
      rewrite psb_pull_shift by (assumption || lia).
      replace (needed - needed =? 0) with true by lia.
      replace (zlen _ <? needed) with false by (unfold zlen; lia).
      eexists; split; [reflexivity|].
      pose proof (crel_shift strict b [] empties needed) as Hcs. cbn [app] in Hcs.
      rewrite content_cons, Hc, app_nil_r in Hcs. apply Hcs; auto; try lia.
      apply chain_ok_cons; auto.
    + rewrite mem_read_content by (assumption || lia). cbn [bind].
      rewrite psb_pull_shift by (assumption || lia).
      destruct (Z.eqb_spec (needed - pb_len b) 0) as [E0|E0].
      * replace (zlen _ <? needed) with false by (unfold zlen; lia).
        replace needed with (pb_len b) in * by lia.
        eexists; split; [reflexivity|].
        pose proof (crel_shift strict b [] empties (pb_len b)) as Hcs. cbn [app] in Hcs.
        rewrite content_cons, Hc, app_nil_r in Hcs. apply Hcs; auto; try lia.
        apply chain_ok_cons; auto.
      * replace (zlen _ <? needed) with true by (unfold zlen; lia).
        rewrite skipn_all2 by lia.
        destruct empties as [|e1 es].
        -- eexists; split; [reflexivity|]. apply crel_end; assumption.
        -- destruct (G (e1 :: es) (acc ++ firstn (Z.to_nat (pb_len b)) (psb_content b)) (needed - pb_len b))
             as (b' & E & Hb' & Hz' & HL'); auto; try lia; try discriminate.
           exists [b']. split; [exact E|].
           exists b', [], []. repeat split; auto; try constructor; auto.
           unfold content; cbn. pose proof (content_len b' Hb') as HL2. rewrite HL' in HL2.
           destruct (psb_content b'); [reflexivity|cbn in HL2; lia].
  - pose proof Hok as Hok0. apply chain_ok_cons in Hok. destruct Hok as [[Hb Hsz] Hok].
    pose proof (content_len b Hb) as HL. pose proof Hb as (Hb1 & Hb2 & Hb3).
    subst l. cbn [app] in *. cbn [base_slow]. rewrite content_cons.
    destruct (Z.ltb_spec needed (pb_len b)) as [Hlt|Hge].
    + rewrite mem_read_content by (assumption || lia). cbn [bind].
      rewrite psb_pull_shift by (assumption || lia).
      replace (needed - needed =? 0) with true by lia.
      replace (zlen _ <? needed) with false by (rewrite zlen_app; pose proof (zlen_nonneg (content (b2 :: used ++ empties))); unfold zlen in *; lia).
      eexists; split; [rewrite firstn_app; replace (Z.to_nat needed - _)%nat with 0%nat by lia; cbn [firstn]; rewrite app_nil_r; reflexivity|].
      rewrite <- content_cons.
      apply (crel_shift strict b (b2 :: used) empties needed); auto; lia.
    + rewrite mem_read_content by (assumption || lia). cbn [bind].
      rewrite psb_pull_shift by (assumption || lia).
      rewrite (firstn_all2 (psb_content b)) by lia.
      destruct (Z.eqb_spec (needed - pb_len b) 0) as [E0|E0].
      * replace (zlen _ <? needed) with false by (rewrite zlen_app; pose proof (zlen_nonneg (content (b2 :: used ++ empties))); unfold zlen in *; lia).
        eexists; split; [rewrite firstn_app, firstn_all2 by lia; replace (Z.to_nat needed - _)%nat with 0%nat by lia; cbn [firstn]; rewrite app_nil_r; reflexivity|].
        rewrite <- content_cons. replace needed with (pb_len b) by lia.
        apply (crel_shift strict b (b2 :: used) empties (pb_len b)); auto; lia.
      * inversion Hu; subst.
        destruct (IH b2 empties (needed - pb_len b) (acc ++ psb_content b)) as (c' & E & Hc'); auto; try lia.
        exists c'. split.
        -- etransitivity; [exact E|]. f_equal. f_equal. rewrite zlen_app.
           assert (EL : zlen (psb_content b) = pb_len b) by (unfold zlen; lia). rewrite EL.
           destruct (Z.ltb_spec (zlen (content (b2 :: used ++ empties))) (needed - pb_len b));
           destruct (Z.ltb_spec (pb_len b + zlen (content (b2 :: used ++ empties))) needed); try lia; [reflexivity|].
           f_equal. rewrite <- app_assoc. f_equal. rewrite firstn_app, (firstn_all2 (psb_content b)) by lia.
           f_equal. f_equal. lia.
        -- rewrite skipn_app, (skipn_all2 (psb_content b)) by lia. cbn [app].
           replace (Z.to_nat needed - length (psb_content b))%nat with (Z.to_nat (needed - pb_len b)) by lia.
           exact Hc'.
Qed.

Lemma chain_base_sim strict c l n : crel strict c l -> 0 < n ->
  exists c', chain_base c n = Ok (if zlen l <? n then None else Some (firstn (Z.to_nat n) l), c') /\
             crel strict c' (skipn (Z.to_nat n) l).
Proof.
  intros (b & used & empties & -> & Hok & Hu & He & Hs & <-) Hn.
  unfold chain_base. pose proof Hok as Hok0. apply chain_ok_cons in Hok0. destruct Hok0 as [[Hb Hsz] Hok'].
  pose proof (content_len b Hb) as HL. pose proof Hb as (Hb1 & Hb2 & Hb3).
  destruct (Z.leb_spec n (pb_len b)) as [Hle|Hgt].
  - rewrite psb_get_shift by (assumption || lia). rewrite mem_read_shift, mem_read_content by (assumption || lia).
    cbn [bind]. rewrite content_cons, zlen_app.
    pose proof (zlen_nonneg (content (used ++ empties))).
    replace (zlen _ + _ <? n) with false by (unfold zlen in *; lia).
    eexists; split; [rewrite firstn_app; replace (Z.to_nat n - _)%nat with 0%nat by lia; cbn [firstn]; rewrite app_nil_r; reflexivity|].
    rewrite <- content_cons. apply crel_shift; auto; lia.
  - unfold psb_get. replace (n <=? pb_len b) with false by lia.
    destruct (base_slow_sim strict used b empties n [] Hok Hu He Hs Hn) as (c' & E & Hc').
    exists c'. split; [exact E|exact Hc'].
Qed.

Lemma chain_bytes_sim strict used : forall b empties n acc,
  chain_ok (b :: used ++ empties) ->
  Forall (fun b => 0 < pb_len b) used -> Forall (fun b => pb_len b = 0) empties ->
  (strict = true -> empties = []) -> 0 <= n ->
  let l := content (b :: used ++ empties) in
  exists c', chain_bytes (b :: used ++ empties) n acc =
             Ok (acc ++ firstn (Z.to_nat n) l, n <=? zlen l, c') /\
             crel strict c' (skipn (Z.to_nat n) l).
Proof.
  induction used as [|b2 used IH]; intros b empties needed acc Hok Hu He Hs Hn l.
  - assert (Hc : content empties = []).
    { apply content_empties; [|assumption]. apply chain_ok_cons in Hok. apply Hok. }
    subst l. cbn [app] in *. rewrite content_cons, Hc, app_nil_r.
    assert (G : forall e acc needed, chain_ok e -> Forall (fun b => pb_len b = 0) e -> 0 < needed -> e <> [] ->
              exists b', chain_bytes e needed acc = Ok (acc, false, [b']) /\ psb_ok b' /\ pb_size b' < 2 ^ 31 /\ pb_len b' = 0).
    { clear. induction e as [|b e IH]; intros acc needed Hok Hz Hn Hne; [congruence|].
      apply chain_ok_cons in Hok. destruct Hok as [[Hb Hsz] Hok]. inversion Hz; subst.
      cbn [chain_bytes]. rewrite H1. replace (needed <? 0) with false by lia.
      replace (u32 0) with 0 by reflexivity.
      rewrite psb_get_shift by (assumption || lia). rewrite mem_read_shift, mem_read_content by (assumption || lia). cbn [bind].
      cbn [Z.to_nat firstn]. rewrite app_nil_r.
      replace (needed - 0 =? 0) with false by lia.
      destruct e as [|b2 e].
      - exists (shift b 0). repeat split; auto; cbn; try lia; destruct Hb as (?&?&?); unfold pb_size in *; cbn; lia.
      - rewrite Z.sub_0_r. apply IH; auto. discriminate. }
    apply chain_ok_cons in Hok. destruct Hok as [[Hb Hsz] Hok].
    pose proof (content_len b Hb) as HL. pose proof Hb as (Hb1 & Hb2 & Hb3).
    cbn [chain_bytes].
    destruct (Z.ltb_spec needed (pb_len b)) as [Hlt|Hge].
    + replace (u32 needed) with needed by (unfold u32; lia).
      rewrite psb_get_shift by (assumption || lia). rewrite mem_read_shift, mem_read_content by (assumption || lia). cbn [bind].
      replace (needed - needed =? 0) with true by lia.
      replace (needed <=? zlen _) with true by (unfold zlen; lia).
      eexists; split; [reflexivity|].
      pose proof (crel_shift strict b [] empties needed) as Hcs. cbn [app] in Hcs.
      rewrite content_cons, Hc, app_nil_r in Hcs. apply Hcs; auto; try lia.
      apply chain_ok_cons; auto.
    + replace (u32 (pb_len b)) with (pb_len b) by (unfold u32; lia).
      rewrite psb_get_shift by (assumption || lia). rewrite mem_read_shift, mem_read_content by (assumption || lia). cbn [bind].
      rewrite !(firstn_all2 (psb_content b)) by lia.
      destruct (Z.eqb_spec (needed - pb_len b) 0) as [E0|E0].
      * replace (needed <=? zlen _) with true by (unfold zlen; lia).
        replace needed with (pb_len b) in * by lia.
        eexists; split; [reflexivity|].
        pose proof (crel_shift strict b [] empties (pb_len b)) as Hcs. cbn [app] in Hcs.
        rewrite content_cons, Hc, app_nil_r in Hcs. apply Hcs; auto; try lia.
        apply chain_ok_cons; auto.
      * replace (needed <=? zlen _) with false by (unfold zlen; lia).
        rewrite skipn_all2 by lia.
        destruct empties as [|e1 es].
        -- eexists; split; [reflexivity|]. apply crel_end; assumption.
        -- destruct (G (e1 :: es) (acc ++ psb_content b) (needed - pb_len b))
             as (b' & E & Hb' & Hz' & HL'); auto; try lia; try discriminate.
           exists [b']. split; [exact E|].
           exists b', [], []. repeat split; auto; try constructor; auto.
           unfold content; cbn. pose proof (content_len b' Hb') as HL2. rewrite HL' in HL2.
           destruct (psb_content b'); [reflexivity|cbn in HL2; lia].
  - pose proof Hok as Hok0. apply chain_ok_cons in Hok. destruct Hok as [[Hb Hsz] Hok].
    pose proof (content_len b Hb) as HL. pose proof Hb as (Hb1 & Hb2 & Hb3).
    subst l. cbn [app] in *. cbn [chain_bytes]. rewrite content_cons.
    pose proof (zlen_nonneg (content (b2 :: used ++ empties))) as Hnn.
    assert (EL : zlen (psb_content b) = pb_len b) by (unfold zlen; lia).
    destruct (Z.ltb_spec needed (pb_len b)) as [Hlt|Hge].
    + replace (u32 needed) with needed by (unfold u32; lia).
      rewrite psb_get_shift by (assumption || lia). rewrite mem_read_shift, mem_read_content by (assumption || lia). cbn [bind].
      replace (needed - needed =? 0) with true by lia.
      rewrite zlen_app, EL. replace (needed <=? _) with true by lia.
      eexists; split; [rewrite firstn_app; replace (Z.to_nat needed - _)%nat with 0%nat by lia; cbn [firstn]; rewrite app_nil_r; reflexivity|].
      rewrite <- content_cons.
      apply (crel_shift strict b (b2 :: used) empties needed); auto; lia.
    + replace (u32 (pb_len b)) with (pb_len b) by (unfold u32; lia).
      rewrite psb_get_shift by (assumption || lia). rewrite mem_read_shift, mem_read_content by (assumption || lia). cbn [bind].
      rewrite (firstn_all2 (psb_content b)) by lia.
      rewrite zlen_app, EL.
      destruct (Z.eqb_spec (needed - pb_len b) 0) as [E0|E0].
      * replace (needed <=? _) with true by lia.
        eexists; split; [rewrite firstn_app, firstn_all2 by lia; replace (Z.to_nat needed - _)%nat with 0%nat by lia; cbn [firstn]; rewrite app_nil_r; reflexivity|].
        rewrite <- content_cons. replace needed with (pb_len b) by lia.
        apply (crel_shift strict b (b2 :: used) empties (pb_len b)); auto; lia.
      * inversion Hu; subst.
        destruct (IH b2 empties (needed - pb_len b) (acc ++ psb_content b)) as (c' & E & Hc'); auto; try lia.
        exists c'. split.
        -- etransitivity; [exact E|]. f_equal. apply f_equal2; [apply f_equal2|reflexivity].
           ++ rewrite <- app_assoc. f_equal. rewrite firstn_app, (firstn_all2 (psb_content b)) by lia.
              f_equal. f_equal. lia.
           ++ lia.
        -- rewrite skipn_app, (skipn_all2 (psb_content b)) by lia. cbn [app].
           replace (Z.to_nat needed - length (psb_content b))%nat with (Z.to_nat (needed - pb_len b)) by lia.
           exact Hc'.
Qed.

(** The scan for the NUL. *)
Lemma nul_index_app a b : nul_index (a ++ b) =
  match nul_index a with
  | Some n => Some n
  | None => match nul_index b with Some n => Some (zlen a + n) | None => None end
  end.
Proof.
  induction a as [|x a IH]; cbn [app nul_index].
  - destruct (nul_index b); reflexivity.
  - destruct (x =? 0); [reflexivity|]. rewrite IH.
    destruct (nul_index a); [reflexivity|]. destruct (nul_index b); [|reflexivity].
    f_equal. unfold zlen. cbn [length]. lia.
Qed.

Lemma scan_seg_sim b : psb_ok b -> pb_size b < 2 ^ 31 ->
  forall k i l, 0 <= i < pb_len b -> (Z.to_nat (pb_len b - i) < k)%nat ->
  scan_seg b i l k =
  Ok (match nul_index (skipn (Z.to_nat i) (psb_content b)) with
      | Some n => (Some (l + n), l + n)
      | None => (None, l + (pb_len b - i))
      end).
Proof.
  intros Hb Hsz. pose proof Hb as (Hb1 & Hb2 & Hb3). pose proof (content_len b Hb) as HL.
  assert (Es : s32 (pb_len b) = pb_len b) by (apply wrap_signed_id; lia).
  induction k as [|k IH]; intros i l Hi Hk; [lia|].
  cbn [scan_seg].
  assert (Er : exists x, mem_read b (pb_off b + i) 1 = Ok [x] /\
                 skipn (Z.to_nat i) (psb_content b) = x :: skipn (Z.to_nat (i + 1)) (psb_content b)).
  { unfold mem_read. replace (_ || _ || _) with false by (symmetry; lia).
    destruct (skipn (Z.to_nat i) (psb_content b)) as [|x r] eqn:E.
    - exfalso. apply (f_equal (@length Z)) in E. rewrite skipn_length in E. cbn in E. lia.
    - exists x. split.
      + f_equal. unfold psb_content in E. rewrite skipn_firstn_comm, skipn_skipn in E.
        replace (Z.to_nat (pb_off b + i)) with (Z.to_nat (pb_off b) + Z.to_nat i)%nat by lia.
        destruct (skipn (Z.to_nat (pb_off b) + Z.to_nat i) (pb_mem b)) as [|y r2].
        * rewrite firstn_nil in E. discriminate.
        * destruct (Z.to_nat (pb_len b) - Z.to_nat i)%nat; [discriminate|]. cbn in E. inversion E. reflexivity.
      + f_equal. replace (Z.to_nat (i + 1)) with (Z.to_nat i + 1)%nat by lia.
        rewrite <- skipn_skipn, E. reflexivity. }
  destruct Er as (x & -> & ->). cbn [bind nul_index].
  destruct (Z.eqb_spec x 0) as [->|Hx].
  - rewrite Z.add_0_r. reflexivity.
  - assert (Em : forall (A : Type) (a0 b0 : A), match [x] with [0] => a0 | _ => b0 end = b0).
    { intros. destruct x; [congruence|reflexivity|reflexivity]. }
    replace (match x with 0 => Ok (Some l, l) | _ => _ end)
      with (if s32 (pb_len b) <=? i + 1 then Ok (None, l + 1) else scan_seg b (i + 1) (l + 1) k)
      by (destruct x; [congruence|reflexivity|reflexivity]).
    rewrite Es. destruct (Z.leb_spec (pb_len b) (i + 1)) as [Hlast|Hmore].
    + rewrite skipn_all2 by lia. cbn. f_equal. f_equal. lia.
    + rewrite IH by lia. destruct (nul_index (skipn (Z.to_nat (i + 1)) (psb_content b))) as [n|]; f_equal.
      * replace (l + 1 + n) with (l + (n + 1)) by lia. reflexivity.
      * f_equal. lia.
Qed.

Lemma scan_rest_sim c : chain_ok c -> Forall (fun b => 0 < pb_len b) c ->
  forall l empties, (nul_index (content c) <> None \/ empties = []) ->
  scan_rest (c ++ empties) l =
  Ok (match nul_index (content c) with Some n => Some (l + n + 1) | None => None end).
Proof.
  induction c as [|b c IH]; intros Hok Hp l empties Hn.
  - cbn in *. destruct Hn as [H|H]; [congruence|]. rewrite H. reflexivity.
  - apply chain_ok_cons in Hok. destruct Hok as [[Hb Hsz] Hok]. inversion Hp; subst.
    pose proof Hb as (Hb1 & Hb2 & Hb3). pose proof (content_len b Hb) as HL.
    cbn [app scan_rest]. rewrite (scan_seg_sim b Hb Hsz) by (unfold pb_size in *; lia).
    cbn [Z.to_nat skipn]. rewrite content_cons, nul_index_app in Hn |- *.
    destruct (nul_index (psb_content b)) as [n|] eqn:E1; cbn [bind].
    + reflexivity.
    + assert (Hn' : nul_index (content c) <> None \/ empties = []).
      { destruct Hn as [Hn|Hn]; [left|right; assumption]. destruct (nul_index (content c)); [congruence|exact Hn]. }
      rewrite (IH Hok H2 _ empties Hn'). f_equal. destruct (nul_index (content c)) as [n|]; [|reflexivity].
      f_equal. unfold zlen. lia.
Qed.

Lemma chain_strsize_sim strict c l : crel strict c l ->
  r_strsize (flat_reader strict) l = UB \/ chain_strsize c = r_strsize (flat_reader strict) l.
Proof.
  intros (b & used & empties & -> & Hok & Hu & He & Hs & <-).
  cbn [r_strsize flat_reader].
  pose proof Hok as Hok0. apply chain_ok_cons in Hok0. destruct Hok0 as [[Hb Hsz] Hok'].
  pose proof (content_len b Hb) as HL. pose proof Hb as (Hb1 & Hb2 & Hb3).
  assert (Es : s32 (pb_len b) = pb_len b) by (apply wrap_signed_id; lia).
  apply chain_ok_app in Hok'. destruct Hok' as [Hok1 Hok2].
  assert (Ee : content empties = []) by (apply content_empties; assumption).
  unfold chain_strsize. rewrite Es.
  assert (Et : content (b :: used ++ empties) = content (b :: used)).
  { rewrite !content_cons, content_app, Ee, app_nil_r. reflexivity. }
  rewrite Et.
  destruct (nul_index (content (b :: used))) as [n|] eqn:En.
  - right. destruct (Z.leb_spec (pb_len b) 0).
    + assert (E0 : psb_content b = []) by (destruct (psb_content b); [reflexivity|cbn in HL; lia]).
      rewrite content_cons, E0 in En. cbn [app] in En.
      rewrite (scan_rest_sim used) by (try assumption; left; congruence). rewrite En. f_equal. 
    + change (b :: used ++ empties) with ((b :: used) ++ empties).
      rewrite (scan_rest_sim (b :: used)); [rewrite En; reflexivity| | |left; congruence].
      * apply chain_ok_cons; auto.
      * constructor; auto.
  - destruct strict.
    + right. specialize (Hs eq_refl). subst empties.
      destruct (Z.leb_spec (pb_len b) 0).
      * assert (E0 : psb_content b = []) by (destruct (psb_content b); [reflexivity|cbn in HL; lia]).
        rewrite content_cons, E0 in En. cbn [app] in En.
        rewrite (scan_rest_sim used) by (try assumption; right; reflexivity). rewrite En. reflexivity.
      * change (b :: used ++ []) with ((b :: used) ++ []).
        rewrite (scan_rest_sim (b :: used)); [rewrite En; reflexivity| | |right; reflexivity].
        -- apply chain_ok_cons; auto.
        -- constructor; auto.
    + left. reflexivity.
Qed.
