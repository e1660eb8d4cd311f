(** * Encoding an object appends its wire format to the chain *)
From Verif Require Import Base Psb PsbSpec PsbProof Arith Marshal MarshalSpec MarshalChain MarshalSafe MarshalDec.

Ltac Zify.zify_post_hook ::= Z.div_mod_to_equations.

Definition room (b : psb) : Z := pb_size b - pb_off b - pb_len b.
Definition seg_ok (b : psb) : Prop := psb_ok b /\ pb_size b < 2 ^ 31.

Lemma put_append b bs : seg_ok b -> zlen bs <= room b ->
  exists b', put_copy b bs = Ok b' /\ seg_ok b' /\ psb_content b' = psb_content b ++ bs /\
             pb_len b' = pb_len b + zlen bs /\ room b' = room b - zlen bs.
Proof.
  intros [Hb Hs] Hr. pose proof Hb as (H1 & H2 & H3). pose proof (zlen_nonneg bs).
  assert (Hf : op_fits (UPut bs)) by (cbn; unfold fits_int, room in *; lia).
  destruct (bufstep_spec b (UPut bs) Hb) as (b' & E & Hok' & Hsz' & Habs); [unfold block_bounded; lia|exact Hf|].
  cbn [abufstep abs_psb a_tail] in *. unfold abs_psb in Habs at 2. cbn [a_tail a_head a_bytes] in *.
  unfold room in Hr. replace (zlen bs <=? pb_size b - pb_off b - pb_len b) with true in * by lia. cbn [snd fst a_head a_bytes a_tail abs_psb] in *.
  exists b'. unfold put_copy. cbn [bufstep] in E. unfold aosl_psb_put in E.
  destruct (psb_put b (u32 (Z.of_nat (length bs)))) as [b1 [q|e]]; [|discriminate E].
  destruct (mem_write b1 q bs) as [b2| |]; try discriminate E. cbn in E. injection E as ->.
  unfold abs_psb in Habs. injection Habs as Ho Hc Ht.
  split; [reflexivity|]. split; [split; [exact Hok'|lia]|]. split; [exact Hc|].
  unfold room. lia.
Qed.

(** ** Writer states *)
Definition wtext (w : wst) : list Z := content (rev (w_past w) ++ [w_cur w]).
Definition empty_seg (b : psb) : Prop := pb_len b = 0 /\ 0 < room b.
Definition wbase (w : wst) : Prop :=
  Forall seg_ok (w_past w) /\ seg_ok (w_cur w) /\ Forall seg_ok (w_next w) /\
  Forall (fun b => 0 < pb_len b) (tl (rev (w_past w))) /\ Forall empty_seg (w_next w).
Definition wok (w : wst) : Prop := wbase w /\ (w_past w = [] \/ 0 < pb_len (w_cur w)).
(** In the middle of a copy the current segment may be fresh. *)
Definition wpre (w : wst) : Prop := wbase w /\ (w_past w = [] \/ 0 < pb_len (w_cur w) \/ 0 < room (w_cur w)).

Ltac split5 := split; [|split; [|split; [|split]]].

Section Encode.
  Variable E : senv.
  Variable T : ttab.
  Variable m : mem.
  Variable sf : nat.
  Hypothesis Hnull : e_mhelper_null E = true.
  Hypothesis Hsf : 65536 <= Z.of_nat sf.

  Definition seg_failed : Prop := exists i, e_seg_ok E i = false.
  Definition espec {A} (r : res wst A) (Q : A -> wst -> Prop) : Prop :=
    match r with
    | RVal a s => Q a s
    | RErr e s => e = - AOSL_ENOMEM /\ seg_failed
    | RFuel | RBad _ | RUB => False
    end.
  Lemma ebind {A B} (k1 : wst -> res wst A) (k : A -> wst -> res wst B) s Q :
    espec (k1 s) (fun a s1 => espec (k a s1) Q) -> espec (rbind k1 k s) Q.
  Proof. unfold rbind. destruct (k1 s); cbn; auto. Qed.
  Lemma emono {A} (r : res wst A) (Q Q' : A -> wst -> Prop) :
    espec r Q -> (forall a s, Q a s -> Q' a s) -> espec r Q'.
  Proof. destruct r; cbn; auto. Qed.

  Lemma tailroom_room b : seg_ok b -> psb_tailroom b = room b.
  Proof. intros [(H1 & H2 & H3) Hs]. unfold psb_tailroom, room, u32. rewrite Z.mod_small; lia. Qed.
  Lemma tl_app_one {A} (l : list A) x : l <> [] -> tl (l ++ [x]) = tl l ++ [x].
  Proof. destruct l; [congruence|reflexivity]. Qed.

  Lemma next_seg_ok w : wbase w -> (w_past w = [] \/ 0 < pb_len (w_cur w)) ->
    espec (next_seg E w) (fun _ w' => wpre w' /\ 0 < room (w_cur w') /\ wtext w' = wtext w).
  Proof.
    intros (H1 & H2 & H3 & H4 & H5) Hcur. unfold next_seg.
    assert (Htl : Forall (fun b => 0 < pb_len b) (tl (rev (w_cur w :: w_past w)))).
    { cbn [rev]. destruct (w_past w) as [|b0 past] eqn:Ep; [constructor|].
      rewrite tl_app_one.
      - apply Forall_app. split; [exact H4|]. constructor; [|constructor]. destruct Hcur; [discriminate|assumption].
      - cbn [rev]. destruct (rev past); discriminate. }
    assert (Htext : forall b n k, seg_ok b -> pb_len b = 0 -> wtext (mkW (w_cur w :: w_past w) b n k) = wtext w).
    { intros b n k [Hb _] Hz. unfold wtext. cbn [w_past w_cur rev]. rewrite content_app.
      replace (content [b]) with (@nil Z); [apply app_nil_r|].
      cbn. rewrite app_nil_r. pose proof (content_len b Hb). destruct (psb_content b); [reflexivity|cbn in *; lia]. }
    destruct (w_next w) as [|b rest].
    - unfold alloc_psb. rewrite map_length, seq_length.
      replace (MAX_SPB_SIZE <? Z.of_nat DFLT_MAX_PSB_PKT) with false by (symmetry; reflexivity).
      destruct (e_seg_ok E (w_nseg w)) eqn:Eo; cbn [negb].
      + set (blk := map (e_seg_junk E (w_nseg w)) (seq 0 DFLT_MAX_PSB_PKT)).
        assert (HL : Z.of_nat (length blk) = 4096) by (subst blk; rewrite map_length, seq_length; reflexivity).
        assert (Hs : seg_ok (new_psb blk)) by (split; [apply new_psb_ok|unfold pb_size; cbn [pb_mem new_psb]; lia]).
        assert (Hr : 0 < room (new_psb blk)) by (unfold room, pb_size; cbn [pb_mem new_psb pb_off pb_len]; lia).
        cbn [espec]. split; [|split]; [|exact Hr|].
        * split; [|cbn [w_cur]; auto]. split5; cbn [w_past w_cur w_next]; auto.
        * apply Htext; [exact Hs|reflexivity].
      + cbn [espec]. split; [reflexivity|exists (w_nseg w); assumption].
    - inversion H3; inversion H5; subst. cbn [espec].
      match goal with H : empty_seg b |- _ => pose proof H as [Hz Hr] end.
      split; [|split]; [|exact Hr|].
      + split; [|cbn [w_cur]; auto]. split5; cbn [w_past w_cur w_next]; auto.
      + apply Htext; assumption.
  Qed.

  Lemma spill_ok k : forall bs w, wpre w -> bs <> [] ->
    (length bs + (if (0 <? room (w_cur w))%Z then 0 else 1) < k)%nat ->
    espec (spill E k bs w) (fun _ w' => wok w' /\ wtext w' = wtext w ++ bs).
  Proof.
    induction k as [|k IH]; intros bs w Hw Hne Hk; [lia|]. cbn [spill].
    pose proof Hw as ((H1 & H2 & H3 & H4 & H5) & Hcur).
    pose proof H2 as [(Hb1 & Hb2 & Hb3) Hbs]. assert (Hr0 : 0 <= room (w_cur w)) by (unfold room; lia).
    apply ebind. unfold fill. rewrite tailroom_room by assumption.
    set (copy := if room (w_cur w) <? Z.of_nat (length bs) then Z.to_nat (room (w_cur w)) else length bs).
    assert (Hcp : zlen (firstn copy bs) = Z.of_nat copy).
    { unfold zlen. rewrite firstn_length. subst copy. destruct (Z.ltb_spec (room (w_cur w)) (Z.of_nat (length bs))); lia. }
    assert (Hcr : Z.of_nat copy <= room (w_cur w)).
    { subst copy. destruct (Z.ltb_spec (room (w_cur w)) (Z.of_nat (length bs))); lia. }
    destruct (put_append (w_cur w) (firstn copy bs)) as (b' & Ep & Hsb & Hcb & Hlb & Hrb); [assumption|lia|].
    rewrite Ep. cbn [espec].
    set (w1 := mkW (w_past w) b' (w_next w) (w_nseg w)).
    assert (Hbase1 : wbase w1) by (split5; cbn [w_past w_cur w_next w1]; auto).
    assert (Htx1 : wtext w1 = wtext w ++ firstn copy bs).
    { unfold wtext, w1. cbn [w_past w_cur]. rewrite !content_app. cbn. rewrite !app_nil_r, Hcb, app_assoc. reflexivity. }
    destruct (skipn copy bs) as [|x rest] eqn:Es.
    - cbn [rret espec]. rewrite <- (firstn_skipn copy bs), Es, app_nil_r in Hne.
      assert (Hpos : 0 < zlen (firstn copy bs)).
      { unfold zlen. destruct (firstn copy bs); [congruence|cbn; lia]. }
      split; [split; [exact Hbase1|right; cbn [w_cur w1]; lia]|].
      rewrite Htx1. f_equal. pose proof (firstn_skipn copy bs) as Hfs. rewrite Es, app_nil_r in Hfs. exact Hfs.
    - assert (Hlt : room (w_cur w) < Z.of_nat (length bs) /\ copy = Z.to_nat (room (w_cur w))).
      { subst copy. destruct (Z.ltb_spec (room (w_cur w)) (Z.of_nat (length bs))); [auto|].
        rewrite skipn_all in Es. discriminate. }
      destruct Hlt as [Hlt Ec].
      apply ebind. eapply emono; [apply next_seg_ok; [exact Hbase1|]|].
      + cbn [w_past w_cur w1]. destruct Hcur as [?|[?|?]]; [auto| |]; right; lia.
      + cbn beta. intros _ w2 (Hw2 & Hr2 & Ht2).
        eapply emono; [apply IH; [exact Hw2|discriminate|]|].
        * replace (0 <? room (w_cur w2)) with true by lia.
          assert (HL : length (x :: rest) = (length bs - copy)%nat) by (rewrite <- Es; apply skipn_length).
          rewrite HL. destruct (Z.ltb_spec 0 (room (w_cur w))); lia.
        * cbn beta. intros _ w3 [Hw3 Ht3]. split; [exact Hw3|].
          rewrite Ht3, Ht2, Htx1, <- app_assoc. f_equal. rewrite <- Es. apply firstn_skipn.
  Qed.
  Lemma wok_wpre w : wok w -> wpre w.
  Proof. intros [H [H'|H']]; split; auto. Qed.

  (** Appends [w] and returns [n]. *)
  Definition appends (w : list Z) (ws : wst) (n : Z) (ws' : wst) : Prop :=
    n = zlen w /\ wok ws' /\ wtext ws' = wtext ws ++ w.
  Lemma spilled bs w : wok w -> bs <> [] ->
    espec ((get _ <- spill E (spill_bound bs w) bs; rret (Z.of_nat (length bs))) w)
      (fun n w' => appends bs w n w').
  Proof.
    intros Hw Hne. apply ebind. eapply emono; [apply spill_ok; [apply wok_wpre, Hw|exact Hne|]|].
    - unfold spill_bound. destruct (0 <? room (w_cur w)); lia.
    - cbn beta. intros _ w' [H1 H2]. cbn [rret espec]. split; [reflexivity|auto].
  Qed.
  Lemma enc_base_ok bs w : wok w -> bs <> [] -> zlen bs < 2 ^ 31 ->
    espec (enc_base E bs w) (fun n w' => appends bs w n w').
  Proof.
    intros Hw Hne Hl. pose proof Hw as ((H1 & H2 & H3 & H4 & H5) & Hcur). unfold enc_base.
    pose proof (zlen_nonneg bs). assert (Hu : u32 (Z.of_nat (length bs)) = Z.of_nat (length bs)) by (unfold u32, zlen in *; lia).
    destruct (Z.leb_spec (zlen bs) (room (w_cur w))) as [Hle|Hgt].
    - destruct (put_append (w_cur w) bs H2 Hle) as (b' & Ep & Hsb & Hcb & Hlb & Hrb).
      unfold put_copy in Ep. rewrite Hu in Ep.
      destruct (psb_put (w_cur w) (Z.of_nat (length bs))) as [b1 [q|e]]; [|discriminate Ep]. rewrite Ep.
      cbn [espec]. split; [reflexivity|]. split.
      + split; [split5; cbn [w_past w_cur w_next]; auto|]. right. cbn [w_cur].
        pose proof H2 as [(Hb1 & Hb2 & Hb3) _]. assert (0 < zlen bs) by (unfold zlen; destruct bs; [congruence|cbn; lia]). lia.
      + unfold wtext. cbn [w_past w_cur]. rewrite !content_app. cbn. rewrite !app_nil_r, Hcb, app_assoc. reflexivity.
    - unfold psb_put. unfold room in Hgt. unfold zlen in Hgt.
      replace (pb_off (w_cur w) + pb_len (w_cur w) + Z.of_nat (length bs) <=? pb_size (w_cur w)) with false by lia.
      apply spilled; assumption.
  Qed.
  Lemma appends_nil w : wok w -> appends [] w 0 w.
  Proof. intros H. split; [reflexivity|]. split; [exact H|]. rewrite app_nil_r. reflexivity. Qed.
  Lemma enc_bytes_ok bs w : wok w -> espec (enc_bytes E bs w) (fun n w' => appends bs w n w').
  Proof.
    intros Hw. unfold enc_bytes. destruct bs as [|b bs]; [cbn; apply appends_nil, Hw|]. apply spilled; [exact Hw|discriminate].
  Qed.
  Lemma appends_app w1 w2 s0 s1 s2 n1 n2 : appends w1 s0 n1 s1 -> appends w2 s1 n2 s2 -> appends (w1 ++ w2) s0 (n1 + n2) s2.
  Proof.
    intros (-> & H1 & H2) (-> & H3 & H4). split; [rewrite zlen_app; reflexivity|]. split; [exact H3|].
    rewrite H4, H2, app_assoc. reflexivity.
  Qed.

  Lemma erdv a n v w (Q : Z -> wst -> Prop) : num_at m a n v -> Q v w -> espec (rdv m a n w) Q.
  Proof. intros (bs & Er & _ & Ev) HQ. unfold rdv. apply ebind. unfold rdm. rewrite Er. cbn. rewrite Ev. exact HQ. Qed.
  Lemma eenc_mem a bs w : bytes_at m a bs -> wok w -> espec (enc_mem E m a (zlen bs) w) (fun n w' => appends bs w n w').
  Proof.
    intros Hb Hw. unfold enc_mem. apply ebind. unfold rdm.
    replace (Z.to_nat (zlen bs)) with (length bs) by (unfold zlen; lia). rewrite Hb. cbn. apply enc_bytes_ok, Hw.
  Qed.
  Lemma eenc16 v w : wok w -> 0 <= v < 65536 -> espec (enc16 E v w) (fun n w' => appends (le_bytes 2 v) w n w').
  Proof.
    intros Hw Hv. unfold enc16. replace (cpu_to_le16 v) with v by (unfold cpu_to_le16, u16; lia).
    apply enc_base_ok; [exact Hw|discriminate|rewrite zlen_le_bytes; lia].
  Qed.
  Lemma epresence b w : wok w -> espec (mpresence E b w) (fun n w' => appends [b] w n w').
  Proof. intros Hw. unfold mpresence. rewrite Hnull. apply enc_base_ok; [exact Hw|discriminate|cbn; lia]. Qed.
  Lemma bytes_at_app a s1 s2 : bytes_at m a (s1 ++ s2) -> bytes_at m a s1 /\ bytes_at m (a + zlen s1) s2.
  Proof.
    revert a. induction s1 as [|x s1 IH]; intros a H; unfold bytes_at in *; cbn [app length mread] in *.
    - split; [reflexivity|]. replace (a + zlen []) with a by (cbn; lia). exact H.
    - destruct (m a) as [b|]; [|discriminate]. destruct (mread m (a + 1) (length (s1 ++ s2))) as [bs|] eqn:Er; [|discriminate].
      injection H as -> ->. destruct (IH (a + 1) Er) as [E1 E2]. rewrite E1. split; [reflexivity|].
      replace (a + zlen (x :: s1)) with (a + 1 + zlen s1) by (unfold zlen; cbn [length]; lia). exact E2.
  Qed.
  Lemma strlen_gen a s w (Q : Z -> wst -> Prop) : bytes_at m a (s ++ [0]) -> no_nul s -> zlen s < Z.of_nat sf ->
    Q (zlen s) w -> espec (strlen m sf a w) Q.
  Proof.
    intros Hb Hn Hl HQ. unfold strlen.
    assert (G : forall s2 k i, no_nul s2 -> bytes_at m (a + i) (s2 ++ [0]) -> (length s2 < k)%nat ->
      Q (i + zlen s2) w -> espec (strlen_from m k a i w) Q).
    { induction s2 as [|x s2 IH]; intros k i Hn2 Hb2 Hk HQ2; (destruct k as [|k]; [cbn in Hk; lia|]); cbn [strlen_from].
      - unfold bytes_at in Hb2. cbn in Hb2. destruct (m (a + i)) as [b|]; [|discriminate]. injection Hb2 as ->.
        cbn. replace (i + zlen []) with i in HQ2 by (cbn; lia). exact HQ2.
      - unfold bytes_at in Hb2. cbn [app length mread] in Hb2. destruct (m (a + i)) as [b|]; [|discriminate].
        destruct (mread m (a + i + 1) (length (s2 ++ [0]))) as [bs|] eqn:Er; [|discriminate]. injection Hb2 as -> ->.
        inversion Hn2; subst. replace (x =? 0) with false by lia.
        apply IH; [assumption|unfold bytes_at; replace (a + (i + 1)) with (a + i + 1) by lia; exact Er|cbn in Hk; lia|].
        replace (i + 1 + zlen s2) with (i + zlen (x :: s2)) by (unfold zlen; cbn [length]; lia). exact HQ2. }
    apply (G s sf 0); [exact Hn|replace (a + 0) with a by lia; exact Hb|unfold zlen in Hl; lia|exact HQ].
  Qed.
  Lemma strlen_ok a s w (Q : Z -> wst -> Prop) : bytes_at m a (s ++ [0]) -> no_nul s -> zlen s + 1 < 65536 ->
    Q (zlen s) w -> espec (strlen m sf a w) Q.
  Proof. intros. eapply strlen_gen; eauto. lia. Qed.

  Definition encodes (f t : nat) (p : Z) (w : list Z) : Prop :=
    forall ws, wok ws -> espec (marshal E T m sf f t p ws) (fun n ws' => appends w ws n ws').
  Definition encodes_fields (f t : nat) (p : Z) (w : list Z) : Prop :=
    forall ws k len, wok ws -> (length T < t + k)%nat ->
      espec (each_field T (fun t' => marshal E T m sf f t' p) k t len ws) (fun n ws' => appends w ws (n - len) ws').
  Definition encodes_elems (f t : nat) (p sz i : Z) (k : nat) (w : list Z) : Prop :=
    forall ws len, wok ws ->
      espec (each_elem (marshal E T m sf f t) p sz i k len ws) (fun n ws' => appends w ws (n - len) ws').

  Lemma num_at_range a n v : num_at m a n v -> 0 <= v < 256 ^ Z.of_nat n.
  Proof.
    intros (bs & Er & Hb & <-). replace (Z.of_nat n) with (zlen bs); [apply le_val_range, Hb|].
    clear Hb. revert a bs Er. induction n as [|n IH]; intros a bs Er; cbn [mread] in Er; [injection Er as <-; reflexivity|].
    destruct (m a); [|discriminate]. destruct (mread m (a + 1) n) as [bs'|] eqn:E2; [|discriminate]. injection Er as <-.
    apply IH in E2. unfold zlen in *. cbn [length]. lia.
  Qed.

  Lemma encodes_all :
    (forall t p v F, holds T m t p v F -> exists w, wire T (fun b => b = 1) t v w /\ exists f0, forall f, (f0 <= f)%nat -> encodes f t p w) /\
    (forall t p vs F, holds_fields T m t p vs F -> exists w, wire_fields T (fun b => b = 1) t vs w /\
        exists f0, forall f, (f0 <= f)%nat -> encodes_fields f t p w) /\
    (forall t p sz i vs F, holds_elems T m t p sz i vs F -> exists w, wire_elems T (fun b => b = 1) t vs w /\
        exists f0, forall f, (f0 <= f)%nat -> encodes_elems f t p sz i (length vs) w).
  Proof.
    apply holds_mut.
    - intros t ti p Et Eh Ei. exists []. split; [eapply W_void; eassumption|].
      exists 1%nat. intros [|f] Hf ws Hw; [lia|]. cbn [marshal]. rewrite Et, Eh, Ei. cbn. apply appends_nil, Hw.
    - intros t ti p n bs Et Eh Ei Hb Hn Hall. exists bs. split; [eapply W_plain; eassumption|].
      exists 1%nat. intros [|f] Hf ws Hw; [lia|]. cbn [marshal]. rewrite Et, Eh.
      pose proof (le_val_range bs Hall) as Hvr. pose proof (le_bytes_val bs Hall) as Hlv. rewrite Hn in Hvr.
      assert (Hraw : forall k, k = length bs -> espec (enc_raw E m k (p + ti_off ti) ws) (fun n ws' => appends bs ws n ws')).
      { intros k ->. unfold enc_raw. apply ebind. unfold rdm. rewrite Hb. cbn [espec]. apply enc_base_ok; [exact Hw| |].
        - intros ->. destruct (ti_id ti); try discriminate Ei; cbn in *; congruence.
        - rewrite Hn. destruct (ti_id ti); try discriminate Ei; cbn in *; injection Ei as <-; lia. }
      assert (Hnum : forall k fn, k = length bs -> fn (le_val bs) = le_val bs ->
                espec (enc_num E m k fn (p + ti_off ti) ws) (fun n ws' => appends bs ws n ws')).
      { intros k fn -> Hfn. unfold enc_num. apply ebind. unfold rdm. rewrite Hb. cbn [espec]. rewrite Hfn, Hlv.
        apply enc_base_ok; [exact Hw| |].
        - intros ->. destruct (ti_id ti); try discriminate Ei; cbn in *; congruence.
        - rewrite Hn. destruct (ti_id ti); try discriminate Ei; cbn in *; injection Ei as <-; lia. }
      destruct (ti_id ti) eqn:Eid; try discriminate Ei; cbn in Ei; injection Ei as <-;
        (apply Hnum || apply Hraw); try (unfold zlen in Hn; lia);
        cbn in Hvr; unfold cpu_to_le16, cpu_to_le32, cpu_to_le64, u8, u16, u32, u64; apply Z.mod_small; exact Hvr.
    - intros t ti p Et Eh Ei Hnum. exists [0]. split; [eapply W_null; eassumption|].
      exists 1%nat. intros [|f] Hf ws Hw; [lia|]. cbn [marshal]. rewrite Et, Eh.
      destruct Ei as [Ei|Ei]; rewrite Ei; apply ebind; (eapply erdv; [exact Hnum|]); cbn [Z.eqb]; apply epresence, Hw.
    - intros t ti p q v F Et Eh Ei Hnum Hq Hv (w & Hwire & f0 & IH). exists (1 :: w). split; [eapply W_pointer; eauto|].
      exists (S f0). intros [|f] Hf ws Hw; [lia|]. cbn [marshal]. rewrite Et, Eh, Ei.
      apply ebind. eapply erdv; [exact Hnum|]. replace (q =? 0) with false by lia.
      apply ebind. eapply emono; [apply epresence, Hw|]. cbn beta. intros n1 w1 Ha1.
      apply ebind. eapply emono; [apply (IH f ltac:(lia) w1), Ha1|]. cbn beta. intros n2 w2 Ha2. cbn [rret espec].
      pose proof (appends_app _ _ _ _ _ _ _ Ha1 Ha2) as H. destruct Ha1 as (-> & _). exact H.
    - intros t ti p v F Et Eh Ei Hv (w & Hwire & f0 & IH). exists w. split; [eapply W_reference; eassumption|].
      exists (S f0). intros [|f] Hf ws Hw; [lia|]. cbn [marshal]. rewrite Et, Eh, Ei. apply IH; [lia|exact Hw].
    - intros t ti p q s Et Eh Ei Hnum Hq Hb Hn Hl. exists (1 :: s ++ [0]). split; [eapply W_string; eauto|].
      exists 1%nat. intros [|f] Hf ws Hw; [lia|]. cbn [marshal]. rewrite Et, Eh, Ei.
      apply ebind. eapply erdv; [exact Hnum|]. replace (q =? 0) with false by lia.
      apply ebind. eapply emono; [apply epresence, Hw|]. cbn beta. intros n1 w1 Ha1.
      apply ebind. eapply strlen_ok; [exact Hb|exact Hn|exact Hl|]. pose proof (zlen_nonneg s).
      replace (u16 (zlen s + 1)) with (zlen (s ++ [0])).
      2:{ rewrite zlen_app. change (zlen [0]) with 1. unfold u16. lia. }
      apply ebind. eapply emono; [apply eenc_mem; [exact Hb|apply Ha1]|]. cbn beta. intros n2 w2 Ha2. cbn [rret espec].
      pose proof (appends_app _ _ _ _ _ _ _ Ha1 Ha2) as Hap. destruct Ha1 as (-> & _). exact Hap.
    - intros t ti p vs F Et Eh Ei Hv (w & Hwire & f0 & IH). exists w. split; [eapply W_struct; eassumption|].
      exists (S f0). intros [|f] Hf ws Hw; [lia|]. cbn [marshal]. rewrite Et, Eh, Ei.
      eapply emono; [apply (IH f ltac:(lia) ws (S (length T)) 0 Hw); lia|]. cbn beta. intros n w' H.
      replace (n - 0) with n in H by lia. exact H.
    - intros t ti p bs Et Eh Ei Hb Hl. exists bs. split; [eapply W_fixed_bytes; eassumption|].
      exists 1%nat. intros [|f] Hf ws Hw; [lia|]. cbn [marshal]. rewrite Et, Eh, Ei. rewrite <- Hl. apply eenc_mem; assumption.
    - intros t ti p bs Et Eh Ei Hnum Hl Hb. pose proof (num_at_range _ _ _ Hnum) as Hr. change (256 ^ Z.of_nat 2) with 65536 in Hr.
      exists (le_bytes 2 (zlen bs) ++ bs). split; [eapply W_var_bytes; try eassumption; lia|].
      exists 1%nat. intros [|f] Hf ws Hw; [lia|]. cbn [marshal]. rewrite Et, Eh, Ei.
      apply ebind. eapply erdv; [exact Hnum|].
      apply ebind. eapply emono; [apply eenc16; [exact Hw|lia]|]. cbn beta. intros n1 w1 Ha1.
      apply ebind. eapply emono; [apply eenc_mem; [exact Hb|apply Ha1]|]. cbn beta. intros n2 w2 Ha2. cbn [rret espec].
      pose proof (appends_app _ _ _ _ _ _ _ Ha1 Ha2) as H. destruct Ha1 as (-> & _). exact H.
    - intros t ti p s Et Eh Ei Hb Hn Hl Hmax. exists (s ++ [0]). split; [eapply W_bytes_nil; eassumption|].
      exists 1%nat. intros [|f] Hf ws Hw; [lia|]. cbn [marshal]. rewrite Et, Eh, Ei. pose proof (zlen_nonneg s).
      apply ebind. eapply strlen_ok; [exact Hb|exact Hn|exact Hl|].
      assert (Hu : u16 (zlen s + 1) = zlen (s ++ [0])).
      { rewrite zlen_app. change (zlen [0]) with 1. unfold u16. lia. }
      rewrite Hu. assert (Hz : zlen (s ++ [0]) = zlen s + 1) by (rewrite zlen_app; reflexivity).
      replace (ti_array_size ti <? zlen (s ++ [0])) with false by lia. apply eenc_mem; assumption.
    - intros t ti p Et Eh Ei Hnum. exists (le_bytes 2 (zlen []) ++ []). split; [eapply W_dyn_bytes; try eassumption; cbn; lia|].
      exists 1%nat. intros [|f] Hf ws Hw; [lia|]. cbn [marshal]. rewrite Et, Eh. rewrite app_nil_r.
      destruct Ei as [Ei|Ei]; rewrite Ei; apply ebind; (eapply erdv; [exact Hnum|]);
      apply ebind; (eapply emono; [apply eenc16; [exact Hw|lia]|]); cbn beta; intros n1 w1 Ha1; cbn [Z.ltb rret espec];
      destruct Ha1 as (-> & Ha1); (split; [reflexivity|exact Ha1]).
    - intros t ti p q bs Et Eh Ei Hnum Hne Hq Hb. pose proof (num_at_range _ _ _ Hnum) as Hr. change (256 ^ Z.of_nat 2) with 65536 in Hr.
      exists (le_bytes 2 (zlen bs) ++ bs). split; [eapply W_dyn_bytes; try eassumption; lia|].
      exists 1%nat. intros [|f] Hf ws Hw; [lia|]. cbn [marshal]. rewrite Et, Eh.
      assert (Hpos : 0 < zlen bs) by (unfold zlen; destruct bs; [congruence|cbn; lia]).
      destruct Ei as [Ei|Ei]; rewrite Ei; apply ebind; (eapply erdv; [exact Hnum|]);
      apply ebind; (eapply emono; [apply eenc16; [exact Hw|lia]|]); cbn beta; intros n1 w1 Ha1;
      replace (0 <? zlen bs) with true by lia;
      apply ebind; (eapply erdv; [exact Hq|]);
      apply ebind; (eapply emono; [apply eenc_mem; [exact Hb|apply Ha1]|]); cbn beta; intros n2 w2 Ha2; cbn [rret espec];
      pose proof (appends_app _ _ _ _ _ _ _ Ha1 Ha2) as H; destruct Ha1 as (-> & _); exact H.
    - intros t ti p sz vs F Et Eh Ei Esz Hv (w & Hwire & f0 & IH) Hl Hmax. exists w. split; [eapply W_fixed_array; eassumption|].
      exists (S f0). intros [|f] Hf ws Hw; [lia|]. cbn [marshal]. rewrite Et, Eh, Ei, Esz.
      replace (65535 <? ti_array_size ti) with false by lia.
      replace (Z.to_nat (ti_array_size ti)) with (length vs) by lia.
      eapply emono; [apply (IH f ltac:(lia) ws 0 Hw)|]. cbn beta. intros n w' H. replace (n - 0) with n in H by lia. exact H.
    - intros t ti p sz vs F Et Eh Ei Esz Hnum Hl Hv (w & Hwire & f0 & IH).
      pose proof (num_at_range _ _ _ Hnum) as Hr. change (256 ^ Z.of_nat 2) with 65536 in Hr.
      exists (le_bytes 2 (Z.of_nat (length vs)) ++ w). split; [eapply W_var_array; try eassumption; lia|].
      exists (S f0). intros [|f] Hf ws Hw; [lia|]. cbn [marshal]. rewrite Et, Eh, Ei, Esz.
      apply ebind. eapply erdv; [exact Hnum|].
      apply ebind. eapply emono; [apply eenc16; [exact Hw|lia]|]. cbn beta. intros n1 w1 Ha1. rewrite Nat2Z.id.
      apply ebind. eapply emono; [apply (IH f ltac:(lia) w1 0), Ha1|]. cbn beta. intros n2 w2 Ha2. cbn [rret espec].
      replace (n2 - 0) with n2 in Ha2 by lia.
      pose proof (appends_app _ _ _ _ _ _ _ Ha1 Ha2) as H. destruct Ha1 as (-> & _). exact H.
    - intros t ti p Et Eh Ei Hnum. exists (le_bytes 2 (Z.of_nat (length (@nil val))) ++ []).
      split; [eapply W_dyn_array; try eassumption; [cbn; lia|constructor]|].
      exists 1%nat. intros [|f] Hf ws Hw; [lia|]. cbn [marshal]. rewrite Et, Eh, Ei. rewrite app_nil_r.
      apply ebind. eapply erdv; [exact Hnum|].
      apply ebind. eapply emono; [apply eenc16; [exact Hw|lia]|]. cbn beta. intros n1 w1 Ha1. cbn [Z.ltb rret espec].
      destruct Ha1 as (-> & Ha1). split; [reflexivity|exact Ha1].
    - intros t ti p q sz vs F Et Eh Ei Esz Hnum Hne Hq Hv (w & Hwire & f0 & IH).
      pose proof (num_at_range _ _ _ Hnum) as Hr. change (256 ^ Z.of_nat 2) with 65536 in Hr.
      exists (le_bytes 2 (Z.of_nat (length vs)) ++ w). split; [eapply W_dyn_array; try eassumption; lia|].
      exists (S f0). intros [|f] Hf ws Hw; [lia|]. cbn [marshal]. rewrite Et, Eh, Ei, Esz.
      apply ebind. eapply erdv; [exact Hnum|].
      apply ebind. eapply emono; [apply eenc16; [exact Hw|lia]|]. cbn beta. intros n1 w1 Ha1. rewrite Nat2Z.id.
      replace (0 <? Z.of_nat (length vs)) with true by (destruct vs; [congruence|cbn [length]; lia]).
      apply ebind. eapply erdv; [exact Hq|].
      apply ebind. eapply emono; [apply (IH f ltac:(lia) w1 0), Ha1|]. cbn beta. intros n2 w2 Ha2. cbn [rret espec].
      replace (n2 - 0) with n2 in Ha2 by lia.
      pose proof (appends_app _ _ _ _ _ _ _ Ha1 Ha2) as H. destruct Ha1 as (-> & _). exact H.
    - intros t ti p Et Ei. exists []. split; [eapply WF_end; eassumption|]. exists O. intros f _ ws k len Hw Hk.
      assert (t < length T)%nat by (apply nth_error_Some; congruence). destruct k; [lia|]. cbn [each_field]. rewrite Et, Ei.
      cbn [rret espec]. rewrite Z.sub_diag. apply appends_nil, Hw.
    - intros t ti p v vs F1 F2 Et Hv _ (w1 & Hw1 & f1 & IH1) _ (w2 & Hw2 & f2 & IH2).
      exists (w1 ++ w2). split; [eapply WF_cons; eassumption|]. exists (Nat.max f1 f2). intros f Hf ws k len Hw Hk.
      assert (t < length T)%nat by (apply nth_error_Some; congruence). destruct k; [lia|]. cbn [each_field]. rewrite Et.
      assert (Hgo : espec ((get n <- marshal E T m sf f t p; each_field T (fun t' => marshal E T m sf f t' p) k (S t) (len + n)) ws)
        (fun n ws' => appends (w1 ++ w2) ws (n - len) ws')).
      { apply ebind. eapply emono; [apply (IH1 f ltac:(lia) ws Hw)|]. cbn beta. intros n1 ws1 Ha1.
        eapply emono; [apply (IH2 f ltac:(lia) ws1 k (len + n1)); [apply Ha1|lia]|]. cbn beta. intros n2 ws2 Ha2.
        pose proof (appends_app _ _ _ _ _ _ _ Ha1 Ha2) as H0. replace (n1 + (n2 - (len + n1))) with (n2 - len) in H0 by lia. exact H0. }
      destruct (ti_id ti); try exact Hgo. congruence.
    - intros t p sz i. exists []. split; [constructor|]. exists O. intros f _ ws len Hw. cbn [length each_elem rret espec].
      rewrite Z.sub_diag. apply appends_nil, Hw.
    - intros t p sz i v vs F1 F2 _ (w1 & Hw1 & f1 & IH1) _ (w2 & Hw2 & f2 & IH2).
      exists (w1 ++ w2). split; [constructor; assumption|]. exists (Nat.max f1 f2). intros f Hf ws len Hw. cbn [length each_elem].
      apply ebind. eapply emono; [apply (IH1 f ltac:(lia) ws Hw)|]. cbn beta. intros n1 ws1 Ha1.
      eapply emono; [apply (IH2 f ltac:(lia) ws1 (len + n1)), Ha1|]. cbn beta. intros n2 ws2 Ha2.
      pose proof (appends_app _ _ _ _ _ _ _ Ha1 Ha2) as H0. replace (n1 + (n2 - (len + n1))) with (n2 - len) in H0 by lia. exact H0.
  Qed.
End Encode.
