(** * C64, C65, C66: identification and random bytes, files, log *)
From Verif Require Import Base Arith ArithProof Util.

Lemma setb_ok (a : list Z) v c : setb (a ++ v) (Z.of_nat (length a)) c = match v with [] => UB | _ :: v => Ok (a ++ c :: v) end.
Proof.
  unfold setb. destruct (Z.ltb_spec (Z.of_nat (length a)) 0); [lia|]. rewrite app_length. destruct v as [|x v].
  - cbn [length]. destruct (Z.leb_spec (Z.of_nat (length a + 0)) (Z.of_nat (length a))); [reflexivity|lia].
  - cbn [length]. destruct (Z.leb_spec (Z.of_nat (length a + S (length v))) (Z.of_nat (length a))); [lia|]. cbn [orb]. f_equal. rewrite Nat2Z.id. induction a as [|y a IH]; cbn; [reflexivity|]. f_equal. apply IH; lia.
Qed.
(** The loop keeps at most [buf_sz - 1] characters of the wanted ones. *)
Lemma uuid_loop_spec src : forall a v buf_sz, Z.of_nat (length (a ++ v)) = buf_sz -> (length a < length (a ++ v))%nat ->
  let keep := firstn (length (a ++ v) - 1 - length a) (filter (fun c => negb (skipped c)) src) in
  exists w, uuid_loop src (a ++ v) buf_sz (Z.of_nat (length a)) = Ok ((a ++ keep) ++ w, Z.of_nat (length (a ++ keep))) /\ length ((a ++ keep) ++ w) = length (a ++ v) /\ w <> [] /\ exists u, v = u ++ w.
Proof.
  induction src as [|c src IH]; intros a v buf_sz L P keep.
  - unfold keep. cbn [filter uuid_loop]. rewrite firstn_nil, app_nil_r. exists v. split; [reflexivity|]. split; [reflexivity|]. split; [|exists []; reflexivity]. intros ->. rewrite app_nil_r in P. lia.
  - cbn [uuid_loop]. rewrite <- L. destruct (Z.leb_spec (Z.of_nat (length (a ++ v)) - 1) (Z.of_nat (length a))) as [Q|Q].
    + assert (N : (length (a ++ v) - 1 - length a = 0)%nat) by lia. unfold keep. rewrite N. cbn [firstn]. rewrite app_nil_r. exists v. split; [reflexivity|]. split; [reflexivity|]. split; [|exists []; reflexivity]. intros ->. rewrite app_nil_r in P. lia.
    + cbn [filter] in keep. destruct (skipped c); cbn [negb] in keep.
      * apply (IH a v _ eq_refl P).
      * destruct v as [|x v]; [rewrite app_nil_r in P; lia|]. rewrite setb_ok. cbn [bind].
        assert (E : a ++ c :: v = (a ++ [c]) ++ v) by (rewrite <- app_assoc; reflexivity). rewrite E.
        assert (LL : length (a ++ x :: v) = length ((a ++ [c]) ++ v)) by (rewrite !app_length; cbn; lia).
        assert (L1 : length (a ++ [c]) = S (length a)) by (rewrite app_length; cbn; lia).
        destruct (IH (a ++ [c]) v (Z.of_nat (length (a ++ x :: v))) ltac:(rewrite LL; reflexivity) ltac:(lia)) as (w & W1 & W2 & W3 & u & W4).
        replace (Z.of_nat (length a) + 1) with (Z.of_nat (length (a ++ [c]))) by lia. exists w. rewrite W1.
        assert (K : (a ++ [c]) ++ firstn (length ((a ++ [c]) ++ v) - 1 - length (a ++ [c])) (filter (fun c => negb (skipped c)) src) = a ++ keep).
        { unfold keep. rewrite <- LL, L1. replace (length (a ++ x :: v) - 1 - length a)%nat with (S (length (a ++ x :: v) - 1 - S (length a))) by lia. cbn [firstn]. rewrite <- app_assoc. reflexivity. }
        rewrite K in *. split; [reflexivity|]. split; [rewrite W2; lia|]. split; [exact W3|]. exists (x :: u). cbn. congruence.
Qed.
Lemma store_ok l : forall a v, (length l <= length v)%nat -> store (a ++ v) (Z.of_nat (length a)) l = Ok (a ++ l ++ skipn (length l) v).
Proof.
  induction l as [|c l IH]; intros a v H; cbn [store]; [reflexivity|]. destruct v as [|x v]; cbn in H; [lia|]. rewrite setb_ok. cbn [bind].
  replace (a ++ c :: v) with ((a ++ [c]) ++ v) by (rewrite <- app_assoc; reflexivity). replace (Z.of_nat (length a) + 1) with (Z.of_nat (length (a ++ [c]))) by (rewrite app_length; cbn; lia).
  rewrite IH by lia. rewrite <- app_assoc. reflexivity.
Qed.

(** ** C64 *)
(** The C string in a buffer. *)
Fixpoint cstr (b : list Z) : list Z := match b with [] => [] | c :: b => if c =? 0 then [] else c :: cstr b end.
Lemma cstr_app a b : (forall c, In c a -> c <> 0) -> cstr (a ++ 0 :: b) = a.
Proof. induction a as [|x a IH]; intros H; cbn; [reflexivity|]. destruct (Z.eqb_spec x 0); [destruct (H x (or_introl eq_refl) e)|]. f_equal. apply IH. intros c C. apply H. right. exact C. Qed.

(** aosl_get_uuid never writes outside the buffer; it yields the source without hyphens and line ends, cut to the
    buffer, as a string, or an error and the empty string; the rest of the buffer stays. *)
Theorem C64_uuid src buf : 1 < Z.of_nat (length buf) < 2147483648 -> (forall l c, src = Some l -> In c l -> c <> 0) ->
  exists b, get_uuid src buf (Z.of_nat (length buf)) = Ok (b, match src with Some _ => 0 | None => -1 end) /\ length b = length buf /\
  cstr b = match src with Some l => firstn (length buf - 1) (filter (fun c => negb ((c =? 45) || (c =? 10) || (c =? 13))) l) | None => [] end /\
  (forall i, (length (cstr b) < i)%nat -> nth_error b i = nth_error buf i).
Proof.
  intros L NZ. unfold get_uuid, hal_get_uuid. rewrite s32_id by lia. destruct (Z.leb_spec (Z.of_nat (length buf)) 1); [lia|].
  set (l := match src with Some l => l | None => [] end).
  destruct (uuid_loop_spec l [] buf (Z.of_nat (length buf)) eq_refl ltac:(cbn; lia)) as (w & W1 & W2 & W3 & u & W4). cbn [app length] in *. rewrite Nat.sub_0_r in *. change (Z.of_nat 0) with 0 in W1.
  set (keep := firstn (length buf - 1) (filter (fun c => negb (skipped c)) l)) in *. rewrite W1. cbn [bind fst snd]. rewrite setb_ok. destruct w as [|x w]; [congruence|]. cbn [bind].
  assert (CS : cstr (keep ++ 0 :: w) = keep).
  { apply cstr_app. intros c C. unfold keep in C. assert (I0 : In c (filter (fun c => negb (skipped c)) l)) by (clear -C; revert C; generalize (length buf - 1)%nat; induction (filter (fun c => negb (skipped c)) l) as [|y t IH]; intros [|n] C; cbn in *; try contradiction; destruct C; [left; assumption|right; eapply IH; eassumption]).
    apply filter_In in I0. destruct I0 as [I0 _]. unfold l in I0. destruct src as [l0|]; [|destruct I0]. eapply NZ; [reflexivity|exact I0]. }
  exists (keep ++ 0 :: w). split; [reflexivity|]. split; [rewrite <- W2, !app_length; cbn; lia|]. rewrite CS. split.
  - unfold keep, l. destruct src; [reflexivity|]. cbn. rewrite firstn_nil. reflexivity.
  - intros i I0. assert (LU : length u = length keep) by (rewrite app_length in W2; rewrite W4, app_length in W2; lia). rewrite W4. rewrite !nth_error_app2 by lia. rewrite LU. destruct (i - length keep)%nat as [|k] eqn:K; [lia|reflexivity].
Qed.
(** The same for aosl_os_version. *)
Theorem C64_os_version src buf : 1 < Z.of_nat (length buf) < 2147483648 -> (forall l c, src = Some l -> In c l -> c <> 0) ->
  exists b, os_version src buf (Z.of_nat (length buf)) = Ok (b, match src with Some _ => 0 | None => -1 end) /\ length b = length buf /\
  cstr b = match src with Some l => firstn (length buf - 1) l | None => [] end.
Proof.
  intros L NZ. unfold os_version, hal_os_version. rewrite s32_id by lia. destruct (Z.leb_spec (Z.of_nat (length buf)) 1); [lia|]. destruct src as [l|].
  - unfold sys_read. replace (Z.to_nat (Z.of_nat (length buf) - 1)) with (length buf - 1)%nat by lia. set (g := firstn (length buf - 1) l). assert (LG : (length g <= length buf - 1)%nat) by (unfold g; rewrite firstn_length; lia).
    assert (S0 := store_ok g [] buf ltac:(lia)). cbn [app length] in S0. change (Z.of_nat 0) with 0 in S0. rewrite S0. cbn [bind]. rewrite setb_ok. destruct (skipn (length g) buf) as [|x w] eqn:W; [assert (X := skipn_length (length g) buf); rewrite W in X; cbn in X; lia|]. cbn [bind].
    exists (g ++ 0 :: w). split; [reflexivity|]. split; [assert (X := skipn_length (length g) buf); rewrite W in X; cbn in X; rewrite app_length; cbn; lia|]. apply cstr_app. intros c C. apply (NZ l c eq_refl). unfold g in C. clear -C. revert C. generalize (length buf - 1)%nat. induction l as [|y t IH]; intros [|n] C; cbn in *; try contradiction. destruct C; [left; assumption|right; eapply IH; eassumption].
  - destruct buf as [|x buf]; [cbn in L; lia|]. assert (X := setb_ok [] (x :: buf) 0). cbn [app length] in X. change (Z.of_nat 0) with 0 in X. rewrite X. cbn [bind]. exists (0 :: buf). split; [reflexivity|]. split; reflexivity.
Qed.
(** A buffer of 0 or 1 bytes, or of more than 2^31 - 1, is refused untouched. *)
Theorem C64_too_small src buf n : s32 n <= 1 -> get_uuid src buf n = Ok (buf, -1) /\ os_version src buf n = Ok (buf, -1).
Proof. intros H. unfold get_uuid, os_version, hal_get_uuid, hal_os_version. destruct (Z.leb_spec (s32 n) 1); [split; reflexivity|lia]. Qed.

(** The bytes that the random device delivers in a sequence of reads. *)
Fixpoint delivered (rs : list rd) (left : nat) : list Z :=
  match rs with
  | [] => []
  | Bytes l :: rs => let g := firstn left l in g ++ delivered rs (left - length g)
  | Eintr :: rs => delivered rs left
  | Rerr :: _ => []
  end.
Lemma delivered_0 rs : delivered rs 0 = [].
Proof. induction rs as [|y t IH]; cbn; [reflexivity|]. destruct y; cbn; auto. Qed.
Lemma rand_loop_spec rs : forall a v, exists r, rand_loop rs (a ++ v) (Z.of_nat (length a)) (Z.of_nat (length (a ++ v))) = Ok r /\
  match r with Some (b, 0) => b = a ++ delivered rs (length v) /\ length b = length (a ++ v) | Some (b, e) => e = -1 /\ length b = length (a ++ v) | None => True end.
Proof.
  induction rs as [|x rs IH]; intros a v.
  - cbn [rand_loop]. destruct (Z.ltb_spec (Z.of_nat (length a)) (Z.of_nat (length (a ++ v)))) as [Q|Q]; eexists; (split; [reflexivity|]); [exact I|]. rewrite app_length in Q. assert (v = []) by (destruct v; cbn in Q; [reflexivity|lia]). subst. cbn [delivered length]. rewrite app_nil_r. split; reflexivity.
  - cbn [rand_loop]. destruct (Z.ltb_spec (Z.of_nat (length a)) (Z.of_nat (length (a ++ v)))) as [Q|Q].
    + destruct x as [l| |]; [|apply (IH a v)|exists (Some (a ++ v, -1)); split; [reflexivity|split; reflexivity]].
      assert (LV : Z.to_nat (Z.of_nat (length (a ++ v)) - Z.of_nat (length a)) = length v) by (rewrite app_length; lia).
      unfold sys_read. rewrite LV. set (g := firstn (length v) l). assert (LG : (length g <= length v)%nat) by (unfold g; rewrite firstn_length; lia). rewrite store_ok by exact LG. cbn [bind].
      assert (E : a ++ g ++ skipn (length g) v = (a ++ g) ++ skipn (length g) v) by (rewrite app_assoc; reflexivity). rewrite E.
      assert (LE : length ((a ++ g) ++ skipn (length g) v) = length (a ++ v)) by (rewrite !app_length, skipn_length; lia).
      replace (Z.of_nat (length a) + Z.of_nat (length g)) with (Z.of_nat (length (a ++ g))) by (rewrite app_length; lia). rewrite <- LE.
      destruct (IH (a ++ g) (skipn (length g) v)) as (r & R1 & R2). exists r. split; [exact R1|]. destruct r as [[b e]|]; [|exact I]. cbn [delivered]. fold g. rewrite skipn_length in R2. destruct e as [|e|e]; [destruct R2 as [R2 R3]; split; [rewrite R2, <- app_assoc; reflexivity|exact R3]|exact R2|exact R2].
    + exists (Some (a ++ v, 0)). split; [reflexivity|]. rewrite app_length in Q. assert (v = []) by (destruct v; cbn in Q; [reflexivity|lia]). subst. split; [|reflexivity]. f_equal. symmetry. apply delivered_0.
Qed.
(** aosl_rand_bytes with a size below 2^31: success means that the whole buffer holds bytes of the device, in order;
    nothing outside is written whatever the reads return. *)
Theorem C64_rand_partial opened rs buf : 0 < Z.of_nat (length buf) < 2147483648 -> exists r, rand_bytes opened rs buf (Z.of_nat (length buf)) = Ok r /\
  match r with Some (b, 0) => b = delivered rs (length buf) /\ length b = length buf /\ opened = true | Some (b, e) => e = -1 /\ length b = length buf | None => True end.
Proof.
  intros H. unfold rand_bytes, hal_rand_bytes. rewrite s32_id by lia. destruct (Z.leb_spec (Z.of_nat (length buf)) 0); [lia|]. destruct opened; [|exists (Some (buf, -1)); repeat split].
  destruct (rand_loop_spec rs [] buf) as (r & R1 & R2). cbn [app length] in *. change (Z.of_nat 0) with 0 in R1. exists r. split; [exact R1|]. destruct r as [[b [|e|e]]|]; auto. destruct R2; auto.
Qed.
(** It comes to its end if every read that is not interrupted delivers something. *)
Theorem C64_rand_returns buf rs : 0 < Z.of_nat (length buf) < 2147483648 -> (length buf <= length (filter (fun r => match r with Eintr => false | _ => true end) rs))%nat -> (forall l, In (Bytes l) rs -> l <> []) ->
  exists b e, rand_bytes true rs buf (Z.of_nat (length buf)) = Ok (Some (b, e)).
Proof.
  intros H N P. unfold rand_bytes, hal_rand_bytes. rewrite s32_id by lia. destruct (Z.leb_spec (Z.of_nat (length buf)) 0); [lia|]. clear H H0.
  assert (G : forall rs a v, (length v <= length (filter (fun r => match r with Eintr => false | _ => true end) rs))%nat -> (forall l, In (Bytes l) rs -> l <> []) -> exists b e, rand_loop rs (a ++ v) (Z.of_nat (length a)) (Z.of_nat (length (a ++ v))) = Ok (Some (b, e))).
  { clear. induction rs as [|x rs IH]; intros a v N P; cbn [rand_loop].
    - cbn in N. assert (v = []) by (destruct v; [reflexivity|cbn in N; lia]). subst. rewrite app_nil_r, Z.ltb_irrefl. eauto.
    - destruct (Z.ltb_spec (Z.of_nat (length a)) (Z.of_nat (length (a ++ v)))) as [Q|Q]; [|eauto]. destruct x as [l| |]; [|apply IH; [exact N|intros l L; apply P; right; exact L]|eauto].
      assert (LV : Z.to_nat (Z.of_nat (length (a ++ v)) - Z.of_nat (length a)) = length v) by (rewrite app_length; lia).
      unfold sys_read. rewrite LV. set (g := firstn (length v) l). assert (LG : (length g <= length v)%nat) by (unfold g; rewrite firstn_length; lia). rewrite store_ok by exact LG. cbn [bind].
      assert (GP : (0 < length g)%nat). { assert (l <> []) by (apply P; left; reflexivity). rewrite app_length in Q. unfold g. rewrite firstn_length. destruct l; [congruence|cbn]. lia. }
      assert (E : a ++ g ++ skipn (length g) v = (a ++ g) ++ skipn (length g) v) by (rewrite app_assoc; reflexivity). rewrite E.
      assert (LE : length ((a ++ g) ++ skipn (length g) v) = length (a ++ v)) by (rewrite !app_length, skipn_length; lia).
      replace (Z.of_nat (length a) + Z.of_nat (length g)) with (Z.of_nat (length (a ++ g))) by (rewrite app_length; lia). rewrite <- LE. apply IH; [rewrite skipn_length; cbn in N; lia|intros y Y; apply P; right; exact Y]. }
  destruct (G rs [] buf N P) as (b & e & R). exists b, e. exact R.
Qed.
(** A size above 2^32 is cut: 5 bytes are filled, and success is reported. *)
Theorem C64_rand_size_refuted buf rs l : length l = 5%nat -> (5 <= length buf)%nat -> rand_bytes true (Bytes l :: rs) buf (4294967296 + 5) = Ok (Some (l ++ skipn 5 buf, 0)).
Proof.
  intros L B. unfold rand_bytes. change (s32 (4294967296 + 5)) with 5. unfold hal_rand_bytes. change (5 <=? 0) with false. cbn [rand_loop]. change (0 <? 5) with true. unfold sys_read. change (Z.to_nat (5 - 0)) with 5%nat. cbv iota zeta. rewrite firstn_all2 by lia.
  assert (S0 := store_ok l [] buf ltac:(lia)). cbn [app length] in S0. change (Z.of_nat 0) with 0 in S0. rewrite S0, L. cbn [bind]. change (0 + Z.of_nat 5) with 5. destruct rs; cbn [rand_loop]; change (5 <? 5) with false; reflexivity.
Qed.
(** A device at its end makes it loop for ever. *)
Theorem C64_rand_hangs_refuted buf n : 0 < Z.of_nat (length buf) < 2147483648 -> rand_bytes true (repeat (Bytes []) n) buf (Z.of_nat (length buf)) = Ok None.
Proof.
  intros H. unfold rand_bytes, hal_rand_bytes. rewrite s32_id by lia. destruct (Z.leb_spec (Z.of_nat (length buf)) 0); [lia|]. induction n as [|n IH]; cbn [repeat rand_loop]; (destruct (Z.ltb_spec 0 (Z.of_nat (length buf))); [|lia]); [reflexivity|]. unfold sys_read. rewrite firstn_nil. cbn [store bind length]. rewrite Z.add_0_r. exact IH.
Qed.
Example C64_nonvacuous : get_uuid (Some [97; 45; 98; 99; 10]) [1; 1; 1; 1; 1] 5 = Ok ([97; 98; 99; 0; 1], 0) /\ get_uuid (Some [97; 45; 98; 99; 10]) [1; 1; 1] 3 = Ok ([97; 98; 0], 0) /\
  os_version (Some [97; 98; 99]) [1; 1; 1] 3 = Ok ([97; 98; 0], 0) /\ rand_bytes true [Bytes [7; 8]; Eintr; Bytes [9; 10; 11]] [0; 0; 0] 3 = Ok (Some ([7; 8; 9], 0)).
Proof. repeat split. Qed.

(** ** C65: files *)
(** For files of less than 2 GiB the size is right, and what aosl_fread says it has read is what it has read. *)
Theorem C65_size_partial ds f p l : f p = Some (File l) -> Z.of_nat (length l) < 2147483648 -> fsize ds f p = Z.of_nat (length l).
Proof. intros H L. unfold fsize. rewrite H. apply s32_id. lia. Qed.
Theorem C65_no_file ds f p : f p = None -> fsize ds f p = -1 /\ fexist f p = 0.
Proof. intros H. unfold fsize, fexist. rewrite H. split; reflexivity. Qed.
Theorem C65_read_partial rest size : 0 <= size < 2147483648 -> fread rest size = (firstn (Z.to_nat size) rest, Z.of_nat (Nat.min (Z.to_nat size) (length rest))).
Proof. intros H. unfold fread. rewrite firstn_length. f_equal. apply s32_id. lia. Qed.
(** After a success of aosl_mkdir there is something, and nothing else has changed; if there was nothing, it is a directory. *)
Theorem C65_mkdir_partial may f p f' r : mkdir may f p = (f', r) -> (r = 0 -> exists e, f' p = Some e /\ (f p = None -> e = Dir) /\ (forall x, f p = Some x -> e = x)) /\ (r <> 0 -> f' p = None) /\ (forall q, q <> p -> f' q = f q).
Proof.
  unfold mkdir, fexist, sys_mkdir. destruct (f p) as [e|] eqn:E; cbn [Z.eqb].
  - intros [= <- <-]. split; [|split; [congruence|auto]]. intros _. exists e. split; [exact E|]. split; congruence.
  - destruct may; intros [= <- <-].
    + split; [|split; [congruence|]]; unfold put; [|intros q Q; destruct (Z.eqb_spec q p); [contradiction|reflexivity]]. intros _. exists Dir. rewrite Z.eqb_refl. split; [reflexivity|]. split; congruence.
    + split; [discriminate|]. split; auto.
Qed.
(** After a success of aosl_file_create there is a file; a file that was there keeps its contents. *)
Theorem C65_create_partial may f p f' r : file_create may f p = (f', r) -> (r = 0 -> exists l, f' p = Some (File l) /\ (f p = None -> l = [])) /\ (forall q, q <> p -> f' q = f q) /\ (forall e, f p = Some e -> f' p = Some e).
Proof.
  unfold file_create. destruct (f p) as [[l|]|] eqn:E; [destruct may| |destruct may]; intros [= <- <-]; unfold put.
  - split; [intros _; exists l; split; congruence|]. split; [auto|congruence].
  - split; [discriminate|]. split; [auto|congruence].
  - split; [discriminate|]. split; [auto|congruence].
  - split; [intros _; exists []; rewrite Z.eqb_refl; split; congruence|]. split; [|congruence]. intros q Q. destruct (Z.eqb_spec q p); [contradiction|reflexivity].
  - split; [discriminate|]. split; [auto|congruence].
Qed.
(** Sizes are cut to 32 bits: a file of 3 GiB has a negative size (documented as failure), one of 4 GiB the size 0. *)
Theorem C65_size_refuted ds f p l : f p = Some (File l) -> (Z.of_nat (length l) = 3221225472 -> fsize ds f p = -1073741824) /\ (Z.of_nat (length l) = 4294967296 -> fsize ds f p = 0).
Proof. intros H. unfold fsize. rewrite H. split; intros ->; reflexivity. Qed.
(** Success of aosl_mkdir for a plain file; success of aosl_file_create ("new empty file") for a file with contents. *)
Theorem C65_mkdir_file_refuted may f p l : f p = Some (File l) -> mkdir may f p = (f, 0).
Proof. intros H. unfold mkdir, fexist. rewrite H. reflexivity. Qed.
Theorem C65_create_refuted f p x l : f p = Some (File (x :: l)) -> file_create true f p = (f, 0).
Proof. intros H. unfold file_create. rewrite H. reflexivity. Qed.
Example C65_nonvacuous : let f : fs := fun p => if p =? 1 then Some (File [1; 2; 3]) else None in fsize 4096 f 1 = 3 /\ snd (mkdir true f 2) = 0 /\ fst (mkdir true f 2) 2 = Some Dir /\ snd (file_create false f 2) = -1 /\ fread [1; 2; 3] 2 = ([1; 2], 2).
Proof. repeat split. Qed.

(** ** C66: log *)
(** The level and the function in force after a history (newest first). *)
Fixpoint level_after (h : list lact) : Z := match h with [] => 3 | SetLevel n :: h => if (0 <=? n) && (n <=? 7) then n else level_after h | _ :: h => level_after h end.
Fixpoint fun_after (h : list lact) : option Z := match h with [] => None | SetFun f :: _ => f | _ :: h => fun_after h end.
(** The messages that have to come out of a history, newest first. *)
Fixpoint outs (h : list lact) : list out :=
  match h with
  | [] => []
  | Log n m :: h => if n <=? level_after h then (fun_after h, n, m) :: outs h else outs h
  | Printf m :: h => (fun_after h, level_after h, m) :: outs h
  | _ :: h => outs h
  end.
(** Every message of a level up to the level in force goes, once and in order, to the function in force, and no other message does; levels outside 0..7 are not taken over. *)
Theorem C66_log h : lrun log_init (rev h) = rev (outs h).
Proof.
  assert (K : forall l h, rev (outs h) ++ lrun (mkLog (fun_after h) (level_after h)) l = rev (outs (rev l ++ h))).
  { induction l as [|a l IH]; intros h0; cbn [lrun rev]; [cbn; rewrite app_nil_r; reflexivity|]. rewrite <- app_assoc. cbn [app]. rewrite <- (IH (a :: h0)). destruct a as [f|n|n m|m]; cbn [ldo fst snd l_fun l_level fun_after level_after outs].
    - reflexivity.
    - cbn [app]. destruct ((0 <=? n) && (n <=? 7)); reflexivity.
    - destruct (n <=? level_after h0); cbn [rev app]; [rewrite <- app_assoc; reflexivity|reflexivity].
    - rewrite Z.leb_refl. cbn [rev app]. rewrite <- app_assoc. reflexivity. }
  specialize (K (rev h) []). cbn in K. rewrite rev_involutive, app_nil_r in K. exact K.
Qed.
(** The level is always one of the eight. *)
Theorem C66_level h : 0 <= level_after h <= 7.
Proof. induction h as [|a h IH]; cbn; [lia|]. destruct a; auto. destruct (Z.leb_spec 0 n), (Z.leb_spec n 7); cbn; lia. Qed.
Example C66_nonvacuous : lrun log_init [Log 4 1; SetLevel 7; Log 4 2; SetFun (Some 9); SetLevel 8; Log 7 3; Printf 4; SetFun None; Log 0 5] = [(None, 4, 2); (Some 9, 7, 3); (Some 9, 7, 4); (None, 0, 5)].
Proof. reflexivity. Qed.

Print Assumptions C64_uuid. Print Assumptions C64_os_version. Print Assumptions C64_too_small. Print Assumptions C64_rand_partial. Print Assumptions C64_rand_returns. Print Assumptions C64_rand_size_refuted. Print Assumptions C64_rand_hangs_refuted.
Print Assumptions C65_size_partial. Print Assumptions C65_no_file. Print Assumptions C65_read_partial. Print Assumptions C65_mkdir_partial. Print Assumptions C65_create_partial. Print Assumptions C65_size_refuted. Print Assumptions C65_mkdir_file_refuted. Print Assumptions C65_create_refuted.
Print Assumptions C66_log. Print Assumptions C66_level.
