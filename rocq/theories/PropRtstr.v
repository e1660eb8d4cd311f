(** * C75: the text form of routes. *)
From Verif Require Import Base Inet Route Rtstr.

(** ** Specification *)
(** The text of one route, of a pair of routes: the full one, whatever the buffer. *)
Definition text_of (v4 : bool) (r : nrt) : list Z := (if v4 then lit_v4 else lit_v6) ++ rest_text r.
Definition full (v6 : bool) (d : ndef) : list Z :=
  (if rt_valid v6 (nr (n4 d)) then text_of true (n4 d) else []) ++
  (if rt_valid v6 (nr (n4 d)) && rt_valid v6 (nr (n6 d)) then [59; 32] else []) ++
  (if rt_valid v6 (nr (n6 d)) then text_of false (n6 d) else []).
(** What fits into a buffer of [size] bytes. *)
Definition fits (size : Z) (t : list Z) : list Z := firstn (Z.to_nat (size - 1)) t.
(** Both routes are there and the buffer is shorter than the first text, the separator and the NUL. *)
Definition tight (v6 : bool) (d : ndef) (size : Z) : Prop :=
  rt_valid v6 (nr (n4 d)) = true /\ rt_valid v6 (nr (n6 d)) = true /\ 2 <= size < Z.of_nat (length (text_of true (n4 d))) + 3.

(** ** Proofs *)
Lemma cstr_nz t : Forall (fun c => c <> 0) (cstr t).
Proof. induction t as [|c t IH]; cbn; [constructor|]. destruct (Z.eqb_spec c 0); constructor; auto. Qed.
Lemma cstr_id t r : Forall (fun c => c <> 0) t -> cstr (t ++ 0 :: r) = t.
Proof. intros H. induction H as [|c t N _ IH]; cbn; [reflexivity|]. destruct (Z.eqb_spec c 0); [congruence|]. rewrite IH. reflexivity. Qed.
Lemma pr_nz base : 2 <= base -> forall fuel n acc, 0 <= n -> Forall (fun c => c <> 0) acc -> Forall (fun c => c <> 0) (pr base fuel n acc).
Proof.
  intros B fuel. assert (DG : forall d, 0 <= d -> digit d <> 0) by (intros d H; unfold digit; destruct (d <? 10); lia).
  induction fuel as [|k IH]; intros n acc H F; cbn [pr]; [exact F|]. destruct (n <? base); [constructor; auto|].
  apply IH; [apply Z.div_pos; lia|constructor; auto]. apply DG, Z.mod_pos_bound. lia.
Qed.
Lemma sdec_nz z : Forall (fun c => c <> 0) (sdec z).
Proof. unfold sdec, dec. destruct (Z.ltb_spec z 0); [constructor; [lia|]|]; apply pr_nz; try lia; constructor. Qed.
Lemma rest_nz r : Forall (fun c => c <> 0) (rest_text r).
Proof.
  unfold rest_text. repeat (apply Forall_app; split); try apply sdec_nz; try apply cstr_nz; try (repeat constructor; lia).
  unfold gw_str. destruct (addr_str _ _ _) as [[t|]| |]; try constructor. apply cstr_nz.
Qed.
Lemma text_nz v r : Forall (fun c => c <> 0) (text_of v r).
Proof. unfold text_of. apply Forall_app. split; [destruct v; repeat constructor; lia|apply rest_nz]. Qed.
Lemma text_len v r : 9 <= Z.of_nat (length (text_of v r)).
Proof. unfold text_of, rest_text. rewrite !app_length. destruct v; cbn [length lit_v4 lit_v6 lit_cell]; lia. Qed.
Lemma firstn_nz k t : Forall (fun c => c <> 0) t -> Forall (fun c => c <> 0) (firstn k t).
Proof. intros H. revert k. induction H; intros [|k]; cbn; constructor; auto. Qed.

Lemma put0 m t : put m 0 t = M (t ++ skipn (length t) (bytes m)) (Z.max (far m) (Z.of_nat (length t))).
Proof. unfold put. cbn [Z.to_nat firstn app Nat.add]. rewrite Z.add_0_l. reflexivity. Qed.
(** snprintf to the start of a buffer of at least one byte. *)
Lemma snprintf0 m size t : 1 <= size -> Forall (fun c => c <> 0) t ->
  exists r, bytes (snprintf m 0 size t) = fits size t ++ 0 :: r /\ far (snprintf m 0 size t) = Z.max (far m) (Z.of_nat (length (fits size t)) + 1) /\ cstr (bytes (snprintf m 0 size t)) = fits size t.
Proof.
  intros S1 F. unfold snprintf. destruct (Z.eqb_spec size 0); [lia|]. rewrite put0. cbn [bytes far]. fold (fits size t). rewrite <- app_assoc. cbn [app]. eexists. split; [reflexivity|].
  split; [rewrite app_length; cbn [length]; f_equal; lia|]. apply cstr_id, firstn_nz, F.
Qed.
Lemma fits_len size t : 1 <= size -> Z.of_nat (length (fits size t)) = Z.min (size - 1) (Z.of_nat (length t)).
Proof. intros H. unfold fits. rewrite firstn_length. lia. Qed.

(** A store right behind the string in the buffer. *)
Lemma put_end a r f t : put (M (a ++ 0 :: r) f) (Z.of_nat (length a)) t = M (a ++ t ++ skipn (length t) (0 :: r)) (Z.max f (Z.of_nat (length a) + Z.of_nat (length t))).
Proof.
  unfold put. cbn [bytes far]. rewrite Nat2Z.id. f_equal. rewrite firstn_app, firstn_all, Nat.sub_diag. cbn [firstn]. rewrite app_nil_r. f_equal. f_equal.
  rewrite skipn_app. rewrite skipn_all2 by lia. cbn [app]. f_equal. lia.
Qed.

(** One route: nothing is written behind the buffer, the text is cut to it. *)
Theorem C75_rt_str : forall v6 r b size, 0 <= size ->
  let '(m, buf) := rt_str v6 r (M b 0) size in
  far m <= size /\ (buf = true <-> rt_valid v6 (nr r) = true) /\ (buf = false -> m = M b 0) /\
  (buf = true -> 1 <= size -> cstr (bytes m) = fits size (text_of (r_fam (nr r) =? AF_INET) r)).
Proof.
  intros v6 r b size Z0. unfold rt_str. destruct (rt_valid v6 (nr r)); [|cbn; intuition discriminate].
  change ((if r_fam (nr r) =? AF_INET then lit_v4 else lit_v6) ++ rest_text r) with (text_of (r_fam (nr r) =? AF_INET) r). set (t := text_of _ r).
  destruct (Z.eq_dec size 0) as [->|N].
  - unfold snprintf. cbn. split; [lia|]. split; [tauto|]. split; [discriminate|lia].
  - assert (S1 : 1 <= size) by lia. destruct (snprintf0 (M b 0) size t S1 (text_nz _ _)) as (x & B & F & C). cbn beta iota. rewrite F, C, (fits_len size t S1). cbn [far].
    split; [lia|]. split; [tauto|]. split; [discriminate|auto].
Qed.
Print Assumptions C75_rt_str.

Lemma u64_small x : 0 <= x < 18446744073709551616 -> u64 x = x.
Proof. intros H. unfold u64. apply Z.mod_small, H. Qed.
Lemma fits_app size a t : 1 <= size -> Z.of_nat (length a) < size -> fits size (a ++ t) = a ++ fits (size - Z.of_nat (length a)) t.
Proof.
  intros H L. unfold fits. rewrite firstn_app. rewrite firstn_all2 by lia. f_equal. f_equal. lia.
Qed.
Lemma fits_all size t : Z.of_nat (length t) < size -> fits size t = t.
Proof. intros H. unfold fits. apply firstn_all2. lia. Qed.

(** Both routes, buffer not tight: nothing is written behind the buffer and the text is the full one, cut to the buffer. *)
Theorem C75_text_partial : forall v6 d b size, 1 <= size < 2147483648 -> ~ tight v6 d size ->
  let '(m, buf) := def_rt_str v6 d (M b 0) size in
  far m <= size /\ cstr (bytes m) = fits size (full v6 d) /\ (buf = true <-> fits size (full v6 d) <> []).
Proof.
  intros v6 d b size SZ NT. unfold def_rt_str, full. unfold tight in NT. change (lit_v4 ++ rest_text (n4 d)) with (text_of true (n4 d)). change (lit_v6 ++ rest_text (n6 d)) with (text_of false (n6 d)).
  pose proof (text_nz true (n4 d)) as Z4. pose proof (text_nz false (n6 d)) as Z6. pose proof (text_len true (n4 d)) as L4. pose proof (text_len false (n6 d)) as L6.
  set (t4 := text_of true (n4 d)) in *. set (t6 := text_of false (n6 d)) in *.
  rewrite put0. set (m0 := M _ _). assert (F0 : far m0 = 1) by reflexivity. assert (B0 : bytes m0 = 0 :: skipn 1 b) by reflexivity.
  assert (NE : forall t : list Z, (Z.of_nat (length t) >? 0) = true <-> t <> []). { intros [|x t]; cbn [length]; split; (discriminate || congruence || lia). }
  destruct (rt_valid v6 (nr (n4 d))) eqn:V4; destruct (rt_valid v6 (nr (n6 d))) eqn:V6; cbn [andb app].
  - destruct (snprintf0 m0 size t4 ltac:(lia) Z4) as (x & B & F & C). set (m1 := snprintf m0 0 size t4) in *. rewrite F0, fits_len in F by lia.
    unfold strlen at 1 2 3. rewrite C. destruct (Z.eq_dec size 1) as [->|N1].
    + assert (E : fits 1 t4 = []) by reflexivity. rewrite E in *. cbn [length Z.of_nat Z.gtb Z.compare] in *. change (u64 (1 - 0)) with 1. destruct (snprintf0 m1 1 t6 ltac:(lia) Z6) as (y & B' & F' & C'). unfold strlen. rewrite F', C', F. cbn. split; [lia|]. split; [reflexivity|]. split; [discriminate|congruence].
    + assert (TL : Z.of_nat (length t4) + 3 <= size). { destruct (Z_le_gt_dec (Z.of_nat (length t4) + 3) size); [assumption|]. destruct NT. repeat split; try assumption; lia. }
      rewrite (fits_all size t4) in * by lia. destruct (Z.gtb_spec (Z.of_nat (length t4)) 0); [|lia]. cbn beta iota.
      destruct m1 as [b1 f1]. cbn [bytes far] in *. subst b1 f1. unfold strcat, strlen. cbn [bytes]. rewrite cstr_id by exact Z4. rewrite put_end. cbn [app length].
      set (m2 := M _ _). rewrite u64_small by lia.
      assert (E2 : exists r2, m2 = M ((t4 ++ [59; 32]) ++ 0 :: r2) (far m2) /\ far m2 <= size). { exists (skipn 2 x). unfold m2. cbn [far]. split; [f_equal; rewrite <- app_assoc; reflexivity|]. lia. }
      destruct E2 as (r2 & E2 & G2). rewrite E2. clearbody m2. unfold snprintf. destruct (Z.eqb_spec (size - (Z.of_nat (length t4) + 2)) 0); [lia|].
      assert (LL : Z.of_nat (length (t4 ++ [59; 32])) = Z.of_nat (length t4) + 2) by (rewrite app_length; cbn [length]; lia).
      rewrite <- LL, put_end. fold (fits (size - Z.of_nat (length (t4 ++ [59; 32]))) t6). cbn [bytes far].
      assert (Q : fits size (t4 ++ 59 :: 32 :: t6) = (t4 ++ [59; 32]) ++ fits (size - Z.of_nat (length (t4 ++ [59; 32]))) t6).
      { rewrite <- fits_app by lia. f_equal. rewrite <- app_assoc. reflexivity. }
      rewrite Q. split; [|split].
      * rewrite (app_length (fits _ _)), (Nat2Z.inj_add (length (fits _ _))), fits_len by lia. cbn [length]. lia.
      * set (f := fits (size - _) t6). rewrite <- (app_assoc f [0]). cbn [app]. rewrite (app_assoc (t4 ++ [59; 32]) f). apply cstr_id. apply Forall_app. split; [apply Forall_app; split; [exact Z4|repeat constructor; lia]|apply firstn_nz, Z6].
      * split; [intros _ K; destruct t4; [cbn in L4; lia|discriminate]|]. intros _. apply Z.gtb_lt. lia.
  - destruct (snprintf0 m0 size t4 ltac:(lia) Z4) as (x & B & F & C). rewrite app_nil_r. unfold strlen. rewrite F, C, F0, fits_len by lia. split; [lia|]. split; [reflexivity|]. rewrite <- fits_len by lia. apply NE.
  - cbn [Z.gtb Z.compare]. rewrite Z.sub_0_r, u64_small by lia. destruct (snprintf0 m0 size t6 ltac:(lia) Z6) as (x & B & F & C). unfold strlen. rewrite F, C, F0, fits_len, Z.add_0_l by lia. split; [lia|]. split; [reflexivity|]. rewrite <- fits_len by lia. apply NE.
  - rewrite F0, B0. cbn. unfold fits. rewrite firstn_nil. split; [lia|]. split; [reflexivity|]. split; [discriminate|congruence].
Qed.
Print Assumptions C75_text_partial.

(** A tight buffer is always overrun: by the separator or, if the first text is cut, by the separator and by the whole
    second text. *)
Theorem C75_bounds_refuted :
  (forall v6 d b size, size < 2147483648 -> Z.of_nat (length (text_of false (n6 d))) < 2147483648 -> tight v6 d size ->
     far (fst (def_rt_str v6 d (M b 0) size)) >= (if size <=? Z.of_nat (length (text_of true (n4 d))) + 1 then size + 2 + Z.of_nat (length (text_of false (n6 d))) else size + 1)) /\
  (exists d, tight true d 32 /\ length (text_of true (n4 d)) = 43%nat).
Proof.
  split.
  - intros v6 d b size S2 LB (V4 & V6 & SZ). unfold def_rt_str. rewrite V4, V6. change (lit_v4 ++ rest_text (n4 d)) with (text_of true (n4 d)). change (lit_v6 ++ rest_text (n6 d)) with (text_of false (n6 d)).
    pose proof (text_nz true (n4 d)) as Z4. pose proof (text_len true (n4 d)) as L4. set (t4 := text_of true (n4 d)) in *. set (t6 := text_of false (n6 d)) in *.
    set (m0 := put _ _ _). destruct (snprintf0 m0 size t4 ltac:(lia) Z4) as (x & B & F & C). set (m1 := snprintf m0 0 size t4) in *.
    pose proof (fits_len size t4 ltac:(lia)) as FL. assert (SL : strlen m1 = Z.of_nat (length (fits size t4))) by (unfold strlen; rewrite C; reflexivity).
    rewrite SL. set (k := Z.of_nat (length (fits size t4))) in *. destruct (Z.gtb_spec k 0); [|lia]. cbn beta iota. cbn [fst].
    assert (FS : far (strcat m1 [59; 32]) >= k + 3) by (unfold strcat, put; cbn [far]; rewrite SL, app_length; cbn [length]; lia).
    set (m2 := strcat m1 [59; 32]) in *. clearbody m2. unfold snprintf.
    destruct (Z.leb_spec size (Z.of_nat (length t4) + 1)) as [G|G].
    + assert (K : k = size - 1) by lia. assert (U : u64 (size - (k + 2)) = 18446744073709551615) by (rewrite K; replace (size - (size - 1 + 2)) with (-1) by lia; reflexivity).
      rewrite U. cbn [Z.eqb]. unfold put. cbn [far]. rewrite app_length, firstn_all2 by lia. cbn [length]. lia.
    + assert (K : k = size - 2) by lia. rewrite K. replace (size - (size - 2 + 2)) with 0 by lia. change (u64 0) with 0. cbn [Z.eqb]. lia.
  - exists (D (N {| r_idx := 2; r_type := 1; r_cell := 0; r_cnt := 1; r_fam := 2; r_addr := [192; 168; 1; 100] |} [101; 116; 104; 48; 0]) (N {| r_idx := 2; r_type := 1; r_cell := 0; r_cnt := 1; r_fam := 10; r_addr := [254; 128; 0; 0; 0; 0; 0; 0; 0; 0; 0; 0; 0; 0; 0; 1] |} [101; 116; 104; 48; 0])).
    split; [split; [reflexivity|split; [reflexivity|]]|]; [|vm_compute; reflexivity]. set (x := length _). vm_compute in x. subst x. lia.
Qed.
Print Assumptions C75_bounds_refuted.
(** A buffer of one byte: the text is empty and the routes are reported as missing. *)
Theorem C75_one_byte_refuted : forall v6 d b, snd (def_rt_str v6 d (M b 0) 1) = false.
Proof.
  intros v6 d b. assert (NT : ~ tight v6 d 1) by (intros (_ & _ & H); lia). pose proof (C75_text_partial v6 d b 1 ltac:(lia) NT) as K. destruct (def_rt_str v6 d (M b 0) 1) as [m [|]]; [|reflexivity].
  destruct K as (_ & _ & K). destruct (proj1 K eq_refl). reflexivity.
Qed.
Print Assumptions C75_one_byte_refuted.
(** The text, in characters: IPv4: [(2,eth0,1,cellnet:0)->192.168.1.100]; IPv6: [(-1,... *)
Example C75_text : let d := D (N {| r_idx := 2; r_type := -1; r_cell := 0; r_cnt := 1; r_fam := 2; r_addr := [10; 0; 0; 1] |} [101; 48; 0; 7]) (N {| r_idx := -1; r_type := 1; r_cell := 0; r_cnt := 1; r_fam := 0; r_addr := [] |} []) in
  cstr (bytes (fst (def_rt_str true d (M (repeat 7 100) 0) 64))) = lit_v4 ++ [50; 44; 101; 48; 44; 45; 49] ++ lit_cell ++ [48] ++ lit_arrow ++ [49; 48; 46; 48; 46; 48; 46; 49; 93] /\ ~ tight true d 64.
Proof. split; [vm_compute; reflexivity|]. intros (_ & H & _). discriminate. Qed.
