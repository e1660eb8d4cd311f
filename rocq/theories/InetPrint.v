(** * Proofs about inet_ntop4 and inet_ntop6 *)
From Verif Require Import Base Inet InetSpec InetProof Inet6Proof.
Ltac Zify.zify_post_hook ::= Z.div_mod_to_equations.

Lemma num_app base ds d : num base 0 (ds ++ [d]) = num base 0 ds * base + d.
Proof. unfold num. rewrite fold_left_app. reflexivity. Qed.
(** printf's digits *)
Lemma pr_digits base : 2 <= base -> forall fuel n acc, 0 <= n < base ^ Z.of_nat fuel -> (1 <= fuel)%nat -> exists ds,
  pr base fuel n acc = map digit ds ++ acc /\ Forall (fun d => 0 <= d < base) ds /\ ds <> [] /\ (hd 1 ds = 0 -> length ds = 1%nat) /\ num base 0 ds = n
  /\ (forall m, (1 <= m)%nat -> n < base ^ Z.of_nat m -> (length ds <= m)%nat).
Proof.
  intros B. induction fuel as [|k IH]; intros n acc N F; [lia|]. cbn [pr]. destruct (Z.ltb_spec n base).
  - exists [n]. cbn [map app length hd]. repeat split; auto; [constructor; [lia|constructor]|discriminate].
  - assert (P : base ^ Z.of_nat (S k) = base ^ Z.of_nat k * base) by (rewrite Nat2Z.inj_succ, Z.pow_succ_r by lia; lia).
    assert (K : (1 <= k)%nat) by (destruct k; [cbn in N; rewrite Z.mul_1_r in N; lia|lia]).
    destruct (IH (n / base) (digit (n mod base) :: acc)) as (ds & E & R & NE & LZ & NM & LN); [|exact K|].
    { split; [apply Z.div_pos; lia|]. apply Z.div_lt_upper_bound; lia. }
    exists (ds ++ [n mod base]). rewrite E, map_app, <- app_assoc. split; [reflexivity|]. split; [apply Forall_app; split; [exact R|constructor; [|constructor]]; apply Z.mod_pos_bound; lia|]. split; [destruct ds; discriminate|]. split; [|split].
    + destruct ds as [|d ds]; [congruence|]. cbn [app hd] in *. intros Z0. specialize (LZ Z0). destruct ds; [|cbn in LZ; lia]. subst d. cbn in NM. assert (1 <= n / base) by (apply Z.div_le_lower_bound; lia). lia.
    + rewrite num_app, NM. pose proof (Z.div_mod n base ltac:(lia)). lia.
    + intros m M L. rewrite app_length. cbn [length]. destruct m as [|m]; [lia|]. assert (M1 : (1 <= m)%nat) by (destruct m; [cbn in L; rewrite Z.mul_1_r in L; lia|lia]). specialize (LN m M1). rewrite Nat2Z.inj_succ, Z.pow_succ_r in L by lia. assert (n / base < base ^ Z.of_nat m) by (apply Z.div_lt_upper_bound; lia). lia.
Qed.
Lemma dec_octet n : 0 <= n <= 255 -> octet (dec n) n /\ (1 <= length (dec n) <= 3)%nat.
Proof.
  intros N. unfold dec. destruct (pr_digits 10 ltac:(lia) 10 n []) as (ds & -> & R & NE & LZ & NM & LN); [cbn; lia|lia|]. rewrite app_nil_r. split.
  - exists ds. repeat split; auto; try lia. clear - R. induction R as [|d ds R _ IH]; cbn; constructor; [|exact IH]. unfold ddig, digit. destruct (Z.ltb_spec d 10); lia.
  - rewrite map_length. specialize (LN 3%nat ltac:(lia) ltac:(cbn; lia)). destruct ds; [congruence|cbn [length] in *; lia].
Qed.
Lemma hex_low w : 0 <= w < 65536 -> lowhex (hex w) w /\ (1 <= length (hex w) <= 4)%nat.
Proof.
  intros N. unfold hex. destruct (pr_digits 16 ltac:(lia) 8 w []) as (ds & -> & R & NE & LZ & NM & LN); [cbn; lia|lia|]. rewrite app_nil_r.
  specialize (LN 4%nat ltac:(lia) ltac:(cbn; lia)). assert (L : (1 <= length ds <= 4)%nat) by (destruct ds; [congruence|cbn [length] in *; lia]). split; [|rewrite map_length; exact L].
  exists ds. split; [|split; [revert R; apply Forall_impl; lia|auto]]. apply map_ext_in. intros d I. unfold digit, lowchar. destruct (d <? 10); [reflexivity|lia].
Qed.
Lemma low_group t w : lowhex t w -> group t w.
Proof.
  intros (ds & -> & R & L & _ & E). exists ds. split; [|auto]. clear - R. induction R as [|d ds R _ IH]; cbn; constructor; [|exact IH]. unfold xdig, lowchar. destruct (Z.ltb_spec d 10); lia.
Qed.

(** ** ntop4 *)
Definition bytes (a : list Z) : Prop := Forall (fun b => 0 <= b <= 255) a.
Definition dotted (a b c d : Z) : text := dec a ++ DOT :: dec b ++ DOT :: dec c ++ DOT :: dec d.
Lemma dotted_text a b c d : bytes [a; b; c; d] -> text4 (dotted a b c d) [a; b; c; d] /\ (7 <= length (dotted a b c d) <= 15)%nat.
Proof.
  intros B. inversion B as [|? ? Ba B1]; subst. inversion B1 as [|? ? Bb B2]; subst. inversion B2 as [|? ? Bc B3]; subst. inversion B3 as [|? ? Bd B4]; subst.
  destruct (dec_octet a Ba) as [Oa La], (dec_octet b Bb) as [Ob Lb], (dec_octet c Bc) as [Oc Lc], (dec_octet d Bd) as [Od Ld]. unfold dotted. split.
  - split; [|reflexivity]. repeat apply O_cons; auto. apply O_last, Od.
  - rewrite !app_length. cbn [length]. rewrite !app_length. cbn [length]. rewrite !app_length. cbn [length]. lia.
Qed.
Lemma ntop4_spec a b c d r size : bytes [a; b; c; d] -> ntop4 (a :: b :: c :: d :: r) size = Ok (if size <=? Z.of_nat (length (dotted a b c d)) then None else Some (dotted a b c d)).
Proof.
  intros B. destruct (dotted_text a b c d B) as [_ L]. unfold ntop4, byte. cbn [nth_error bind]. unfold sput. cbn [length app]. fold (dotted a b c d).
  destruct (Z.leb_spec (Z.of_nat (0 + length (dotted a b c d)) + 1) 16); [|lia]. cbn [bind]. destruct (_ <=? _); reflexivity.
Qed.

(** ** ntop6 *)
Lemma words_bytes n : forall a, length a = (2 * n)%nat -> bytes a -> words_of a = words a /\ length (words a) = n /\ Forall (fun w => 0 <= w < 65536) (words a).
Proof.
  induction n as [|n IH]; intros a L B; [destruct a; [repeat constructor|discriminate]|].
  destruct a as [|x [|y r]]; try (cbn in L; lia). inversion B as [|? ? Bx B1]; subst. inversion B1 as [|? ? By B2]; subst. destruct (IH r) as (E & LL & F); [cbn in L; lia|exact B2|].
  cbn [words_of words length]. rewrite E, LL. split; [|split; [reflexivity|constructor; [lia|exact F]]]. f_equal. rewrite Z.shiftl_mul_pow2 by lia. rewrite lor_add by (cbn; lia). change (2 ^ 8) with 256. lia.
Qed.
Definition best (zs : list bool) : Z * Z :=
  let '((bb, bl), (cb, cl)) := best_loop ((-1, 0), (-1, 0)) 0 zs in
  let '(bb, bl) := if negb (cb =? -1) then (if (bb =? -1) || (bl <? cl) then (cb, cl) else (bb, bl)) else (bb, bl) in
  if negb (bb =? -1) && (bl <? 2) then (-1, bl) else (bb, bl).
(** Checked for each of the 256 patterns of zero words. *)
Definition alltrue (zs : list bool) (s k : nat) : bool := (s + k <=? 8)%nat && forallb (fun b => b) (firstn k (skipn s zs)).
Definition runs_ok (zs : list bool) (s n : nat) : bool :=
  forallb (fun p => forallb (fun k => implb (alltrue zs p k) ((k <=? n)%nat && implb (p <? s)%nat (k <? n)%nat)) (seq 0 9)) (seq 0 9).
Definition best_ok (zs : list bool) : bool :=
  let '(bb, bl) := best zs in
  if bb =? -1 then forallb (fun p => forallb (fun k => implb (alltrue zs p k) (k <=? 1)%nat) (seq 0 9)) (seq 0 9)
  else (0 <=? bb) && (2 <=? bl) && (bb + bl <=? 8) && alltrue zs (Z.to_nat bb) (Z.to_nat bl) && runs_ok zs (Z.to_nat bb) (Z.to_nat bl).
Fixpoint patterns (n : nat) : list (list bool) := match n with O => [[]] | S k => map (cons true) (patterns k) ++ map (cons false) (patterns k) end.
Lemma patterns_all n : forall zs, length zs = n -> In zs (patterns n).
Proof. induction n as [|n IH]; intros [|b zs] L; cbn in *; try lia; [auto|]. apply in_or_app. destruct b; [left|right]; apply in_map, IH; lia. Qed.
Lemma best_ok_all zs : length zs = 8%nat -> best_ok zs = true.
Proof. intros L. assert (A : forallb best_ok (patterns 8) = true) by (vm_compute; reflexivity). rewrite forallb_forall in A. apply A, patterns_all, L. Qed.
Lemma run_flags p k q : map (Z.eqb 0) (p ++ repeat 0 k ++ q) = map (Z.eqb 0) p ++ repeat true k ++ map (Z.eqb 0) q.
Proof. rewrite !map_app. do 2 f_equal. induction k as [|k IH]; cbn; [reflexivity|f_equal; exact IH]. Qed.
Lemma run_true ws p k q : length ws = 8%nat -> ws = p ++ repeat 0 k ++ q -> alltrue (map (Z.eqb 0) ws) (length p) k = true /\ (length p <= 8)%nat /\ (k <= 8)%nat.
Proof.
  intros L E. assert (LL : (length p + k + length q = 8)%nat) by (rewrite E in L; rewrite !app_length, repeat_length in L; lia). split; [|lia]. unfold alltrue. apply andb_true_intro. split; [apply Nat.leb_le; lia|].
  rewrite E, run_flags. rewrite <- (map_length (Z.eqb 0) p), skipn_app, skipn_all, Nat.sub_diag. cbn [skipn app]. rewrite firstn_app, repeat_length, Nat.sub_diag, firstn_all2 by (rewrite repeat_length; lia). cbn [firstn]. rewrite app_nil_r. clear. induction k; cbn; auto.
Qed.
Lemma in_seq9 n : (n <= 8)%nat -> In n (seq 0 9). Proof. intros H. apply in_seq. lia. Qed.
(** The chosen run is the leftmost longest run of at least two zero words. *)
Lemma best_run_spec ws : length ws = 8%nat ->
  (fst (best_run ws) = -1 /\ forall p k q, ws = p ++ repeat 0 k ++ q -> (k <= 1)%nat)
  \/ exists l n m, ws = l ++ repeat 0 n ++ m /\ (2 <= n)%nat /\ best_run ws = (Z.of_nat (length l), Z.of_nat n)
     /\ forall p k q, ws = p ++ repeat 0 k ++ q -> (k <= n)%nat /\ ((length p < length l)%nat -> (k < n)%nat).
Proof.
  intros L. change (best_run ws) with (best (map (Z.eqb 0) ws)). pose proof (best_ok_all (map (Z.eqb 0) ws) ltac:(rewrite map_length; exact L)) as B. unfold best_ok in B. destruct (best (map (Z.eqb 0) ws)) as [bb bl] eqn:EB. destruct (Z.eqb_spec bb (-1)) as [->|N].
  - left. split; [reflexivity|]. intros p k q E. destruct (run_true ws p k q L E) as (T & P & K). rewrite forallb_forall in B. specialize (B _ (in_seq9 _ P)). rewrite forallb_forall in B. specialize (B _ (in_seq9 _ K)). rewrite T in B. cbn [implb] in B. apply Nat.leb_le in B. exact B.
  - right. apply andb_prop in B as [B R]. apply andb_prop in B as [B T]. apply andb_prop in B as [B B3]. apply andb_prop in B as [B1 B2]. apply Z.leb_le in B1, B2, B3. exists (firstn (Z.to_nat bb) ws), (Z.to_nat bl), (skipn (Z.to_nat bl) (skipn (Z.to_nat bb) ws)).
    assert (E : ws = firstn (Z.to_nat bb) ws ++ repeat 0 (Z.to_nat bl) ++ skipn (Z.to_nat bl) (skipn (Z.to_nat bb) ws)).
    { rewrite <- (firstn_skipn (Z.to_nat bb) ws) at 1. f_equal. rewrite <- (firstn_skipn (Z.to_nat bl) (skipn (Z.to_nat bb) ws)) at 1. f_equal.
      unfold alltrue in T. apply andb_prop in T as [_ T]. rewrite skipn_map, firstn_map in T. set (u := skipn (Z.to_nat bb) ws) in *. assert (LU : (Z.to_nat bl <= length u)%nat) by (unfold u; rewrite skipn_length; lia). clearbody u. clear - T LU. revert u T LU. generalize (Z.to_nat bl) as k. induction k as [|k IH]; intros [|x u] T LU; cbn [firstn map forallb repeat length] in *; try lia; [reflexivity|reflexivity|].
      apply andb_prop in T as [T1 T2]. apply Z.eqb_eq in T1. rewrite <- T1. f_equal. apply IH; [exact T2|lia]. }
    split; [exact E|]. split; [lia|]. rewrite firstn_length, L. split; [rewrite Z2Nat.id by lia; f_equal; lia|]. intros p k q E'. destruct (run_true ws p k q L E') as (T' & P & K). unfold runs_ok in R. rewrite forallb_forall in R. specialize (R _ (in_seq9 _ P)). rewrite forallb_forall in R. specialize (R _ (in_seq9 _ K)). rewrite T' in R. cbn [implb] in R. apply andb_prop in R as [R1 R2]. apply Nat.leb_le in R1. split; [exact R1|]. intros H. destruct (Nat.ltb_spec (length p) (Z.to_nat bb)); [|lia]. cbn [implb] in R2. apply Nat.ltb_lt in R2. exact R2.
Qed.
Fixpoint jn (ws : list Z) : text := match ws with [] => [] | w :: r => match r with [] => hex w | _ => hex w ++ COLON :: jn r end end.
Definition tails (ws : list Z) : text := flat_map (fun w => COLON :: hex w) ws.
Definition wok (ws : list Z) : Prop := Forall (fun w => 0 <= w < 65536) ws.
Lemma jn_cons w r : jn (w :: r) = hex w ++ tails r.
Proof.
  revert w. induction r as [|x r IH]; intros w; [cbn; rewrite app_nil_r; reflexivity|]. change (jn (w :: x :: r)) with (hex w ++ COLON :: jn (x :: r)). rewrite IH. reflexivity.
Qed.
Lemma tails_jn m : m <> [] -> tails m = COLON :: jn m.
Proof. destruct m as [|w r]; [congruence|]. intros _. rewrite jn_cons. reflexivity. Qed.
Lemma tails_len ws : wok ws -> (length (tails ws) <= 5 * length ws)%nat.
Proof. induction 1 as [|w r W _ IH]; [cbn; lia|]. change (tails (w :: r)) with ((COLON :: hex w) ++ tails r). rewrite app_length. cbn [length]. destruct (hex_low w W). lia. Qed.
Lemma jn_len ws : wok ws -> (length (jn ws) <= 5 * length ws)%nat.
Proof. intros W. destruct ws as [|w r]; [cbn; lia|]. pose proof (tails_len _ W) as T. rewrite jn_cons. change (tails (w :: r)) with ((COLON :: hex w) ++ tails r) in T. rewrite app_length in *. cbn [length] in *. lia. Qed.
Lemma jn_joined ws : wok ws -> joined (jn ws) ws.
Proof.
  induction 1 as [|w r W F IH]; [constructor|]. destruct r as [|x r]; [apply J_one, hex_low, W|]. change (jn (w :: x :: r)) with (hex w ++ COLON :: jn (x :: r)). apply J_cons; [apply hex_low, W|exact IH|discriminate].
Qed.
Lemma put_ok cap tmp t : Z.of_nat (length tmp + length t) <= cap -> put cap tmp t = Ok (tmp ++ t).
Proof. intros H. unfold put. destruct (Z.leb_spec (Z.of_nat (length tmp + length t)) cap); [reflexivity|lia]. Qed.
Lemma sput_ok cap tmp t : Z.of_nat (length tmp + length t) + 1 <= cap -> sput cap tmp t = Ok (tmp ++ t).
Proof. intros H. unfold sput. destruct (Z.leb_spec (Z.of_nat (length tmp + length t) + 1) cap); [reflexivity|lia]. Qed.
Definition out_of (bb bl i : Z) : Prop := bb = -1 \/ i < bb \/ bb + bl <= i.
Lemma out_of_b bb bl i : out_of bb bl i -> negb (bb =? -1) && (bb <=? i) && (i <? bb + bl) = false.
Proof. intros H. destruct (Z.eqb_spec bb (-1)), (Z.leb_spec bb i), (Z.ltb_spec i (bb + bl)); cbn; try reflexivity. unfold out_of in H. lia. Qed.
Definition isquad (w5 bb bl : Z) : bool := (bb =? 0) && ((bl =? 6) || ((bl =? 5) && (w5 =? 65535))).
Lemma loop_one src w5 bb bl i w r tmp : out_of bb bl i -> i = 6 /\ isquad w5 bb bl = false \/ i <> 6 -> 0 <= i -> 0 <= w < 65536 -> (length tmp <= 40)%nat ->
  ntop6_loop src w5 bb bl i (w :: r) tmp = ntop6_loop src w5 bb bl (i + 1) r (tmp ++ (if i =? 0 then [] else [COLON]) ++ hex w).
Proof.
  intros O Q I W L. cbn [ntop6_loop]. rewrite (out_of_b _ _ _ O). destruct (hex_low w W) as [_ HL].
  assert (Q' : (i =? 6) && (bb =? 0) && ((bl =? 6) || ((bl =? 5) && (w5 =? 65535))) = false) by (rewrite <- andb_assoc; destruct Q as [[-> Q]|Q]; [exact Q|]; destruct (Z.eqb_spec i 6); [congruence|reflexivity]).
  destruct (Z.eqb_spec i 0); cbn [negb bind].
  - rewrite Q', sput_ok by lia. cbn [bind app]. reflexivity.
  - rewrite put_ok by (cbn [length]; lia). cbn [bind]. rewrite Q', sput_ok by (rewrite app_length; cbn [length]; lia). cbn [bind]. rewrite <- app_assoc. reflexivity.
Qed.
Lemma loop_plain src w5 bb bl rest : forall ws i tmp, (forall j, i <= j < i + Z.of_nat (length ws) -> out_of bb bl j /\ (j = 6 /\ isquad w5 bb bl = false \/ j <> 6)) -> 0 < i -> wok ws -> (length tmp + 5 * length ws <= 45)%nat ->
  ntop6_loop src w5 bb bl i (ws ++ rest) tmp = ntop6_loop src w5 bb bl (i + Z.of_nat (length ws)) rest (tmp ++ tails ws).
Proof.
  induction ws as [|w ws IH]; intros i tmp O I W L; cbn [app length] in *; [change (Z.of_nat 0) with 0; rewrite Z.add_0_r; unfold tails; cbn; rewrite app_nil_r; reflexivity|]. inversion W as [|? ? Ww W']; subst. destruct (O i ltac:(lia)) as [O1 O2]. destruct (hex_low w Ww) as [_ HL].
  rewrite loop_one by (auto; lia). destruct (Z.eqb_spec i 0); [lia|]. rewrite IH; [|intros j J; apply O; lia|lia|exact W'|rewrite !app_length; cbn [length]; lia]. f_equal; [lia|]. unfold tails. cbn [flat_map app]. rewrite <- !app_assoc. reflexivity.
Qed.
Lemma loop_head src w5 bb bl rest ws : ws <> [] -> (forall j, 0 <= j < Z.of_nat (length ws) -> out_of bb bl j /\ (j = 6 /\ isquad w5 bb bl = false \/ j <> 6)) -> wok ws -> (length ws <= 8)%nat ->
  ntop6_loop src w5 bb bl 0 (ws ++ rest) [] = ntop6_loop src w5 bb bl (Z.of_nat (length ws)) rest (jn ws).
Proof.
  intros NE O W L. destruct ws as [|w ws]; [congruence|]. inversion W as [|? ? Ww W']; subst. cbn [length] in *. destruct (O 0 ltac:(lia)) as [O1 O2]. destruct (hex_low w Ww) as [_ HL]. cbn [app]. rewrite loop_one by (cbn [length]; auto; lia). change (0 =? 0) with true. cbn iota. cbn [app]. change (0 + 1) with 1. rewrite loop_plain; [|intros j J; apply O; lia|lia|exact W'|lia]. rewrite jn_cons. f_equal. lia.
Qed.
Lemma loop_run src w5 bb n m : 0 <= bb -> forall k tmp i, (length tmp <= 45)%nat -> bb <= i -> i + Z.of_nat k = bb + Z.of_nat n -> (i = bb -> (0 < k)%nat) ->
  ntop6_loop src w5 bb (Z.of_nat n) i (repeat 0 k ++ m) tmp = ntop6_loop src w5 bb (Z.of_nat n) (bb + Z.of_nat n) m (tmp ++ (if i =? bb then [COLON] else [])).
Proof.
  intros B. induction k as [|k IH]; intros tmp i L I E P; cbn [repeat app].
  - destruct (Z.eqb_spec i bb); [lia|]. rewrite app_nil_r. f_equal. lia.
  - cbn [ntop6_loop]. destruct (Z.eqb_spec bb (-1)); [lia|]. destruct (Z.leb_spec bb i); [|lia]. destruct (Z.ltb_spec i (bb + Z.of_nat n)); [|lia]. cbn [negb andb]. destruct (Z.eqb_spec i bb).
    + rewrite put_ok by (cbn [length]; lia). cbn [bind]. destruct (Nat.eq_dec k 0) as [->|].
      * cbn [repeat app]. f_equal. lia.
      * assert (E2 : forall tmp', ntop6_loop src w5 bb (Z.of_nat n) (i + 1) (repeat 0 k ++ m) tmp' = ntop6_loop src w5 bb (Z.of_nat n) (bb + Z.of_nat n) m tmp').
        { assert (H2 : forall k i tmp', bb < i -> i + Z.of_nat k = bb + Z.of_nat n -> ntop6_loop src w5 bb (Z.of_nat n) i (repeat 0 k ++ m) tmp' = ntop6_loop src w5 bb (Z.of_nat n) (bb + Z.of_nat n) m tmp').
          { clear - B. induction k as [|k IH]; intros i tmp' I E; cbn [repeat app]; [f_equal; lia|]. cbn [ntop6_loop]. destruct (Z.eqb_spec bb (-1)); [lia|]. destruct (Z.leb_spec bb i); [|lia]. destruct (Z.ltb_spec i (bb + Z.of_nat n)); [|lia]. cbn [negb andb]. destruct (Z.eqb_spec i bb); [lia|]. cbn [bind]. apply IH; lia. }
          intros tmp'. apply H2; lia. }
        apply E2.
    + cbn [bind]. rewrite IH by (try lia). destruct (Z.eqb_spec (i + 1) bb); [lia|]. reflexivity.
Qed.
Lemma last_bytes src : length src = 16%nat -> bytes src -> exists a b c d, skipn 12 src = [a; b; c; d] /\ bytes [a; b; c; d] /\ skipn 6 (words src) = [256 * a + b; 256 * c + d].
Proof.
  intros L B. rewrite <- (firstn_skipn 12 src) in B. apply Forall_app in B as [_ B]. do 16 (destruct src as [|? src]; [discriminate L|]). destruct src; [|discriminate L].
  cbn [skipn words] in *. do 4 eexists. split; [reflexivity|]. split; [exact B|reflexivity].
Qed.
(** The text the printer makes. *)
Lemma ntop6_text src : length src = 16%nat -> bytes src -> exists t, canon6 t (words src) /\ (2 <= length t <= 45)%nat /\ forall size, ntop6 src size = Ok (if size <? Z.of_nat (length t) + 1 then None else Some t).
Proof.
  intros L B. destruct (words_bytes 8 src L B) as (EW & LW & W). unfold ntop6. rewrite EW. set (ws := words src) in *.
  assert (W5 : exists w5, byte ws 5 = Ok w5 /\ nth_error ws 5 = Some w5) by (unfold byte; destruct (nth_error ws 5) eqn:E; [eauto|apply nth_error_None in E; lia]). destruct W5 as (w5 & E5 & N5). rewrite E5. cbn [bind].
  assert (DONE : forall t, (length t <= 45)%nat -> forall size, (let* nul := put 46 t [0] in if size <? Z.of_nat (length nul) then Ok None else Ok (Some t)) = Ok (if size <? Z.of_nat (length t) + 1 then None else Some t)).
  { intros t LT size. rewrite put_ok by (cbn [length]; lia). cbn [bind]. rewrite app_length. cbn [length]. replace (Z.of_nat (length t + 1)) with (Z.of_nat (length t) + 1) by lia. destruct (_ <? _); reflexivity. }
  destruct (best_run_spec ws LW) as [[B1 RUN]|(l & n & m & EL & N2 & EB & RUN)].
  - destruct (best_run ws) as [bb bl]. cbn [fst] in B1. subst bb. exists (jn ws). split; [apply K_full; [apply jn_joined, W|exact RUN]|]. assert (LJ : (2 <= length (jn ws) <= 40)%nat).
    { split; [|pose proof (jn_len ws W); lia]. destruct ws as [|w [|x r]]; try (cbn in LW; lia). rewrite jn_cons. inversion W as [|? ? Ww W']; subst. destruct (hex_low w Ww). unfold tails. cbn [flat_map]. rewrite !app_length. cbn [length]. lia. }
    split; [lia|]. intros size. rewrite <- (app_nil_r ws) at 1. rewrite loop_head; [|destruct ws; [discriminate|discriminate]| |exact W|lia].
    + cbn [ntop6_loop bind]. change (negb (-1 =? -1)) with false. cbn [andb bind]. apply DONE. lia.
    + intros j J. split; [left; reflexivity|]. unfold isquad. change (-1 =? 0) with false. cbn [andb]. lia.
  - rewrite EB. assert (LEN : (length l + n + length m = 8)%nat) by (rewrite EL in LW; rewrite !app_length, repeat_length in LW; lia).
    assert (WL : wok l /\ wok m) by (rewrite EL in W; apply Forall_app in W as [W1 W2]; apply Forall_app in W2 as [_ W2]; auto). destruct WL as [WL WM].
    destruct (Z.eqb_spec (Z.of_nat (length l)) (-1)); [lia|]. cbn [negb andb].
    pose proof (jn_len l WL) as JL. pose proof (tails_len m WM) as TM. pose proof (jn_len m WM) as JM.
    assert (PRE : ntop6_loop src w5 (Z.of_nat (length l)) (Z.of_nat n) 0 ws [] = ntop6_loop src w5 (Z.of_nat (length l)) (Z.of_nat n) (Z.of_nat (length l) + Z.of_nat n) m (jn l ++ [COLON])).
    { rewrite EL at 1. destruct l as [|x l0].
      - cbn [app length]. change (Z.of_nat 0) with 0. rewrite loop_run; [reflexivity|lia|cbn; lia|lia|lia|lia].
      - rewrite loop_head; [|discriminate| |exact WL|lia].
        + rewrite loop_run; [|lia|lia|lia|lia|lia]. rewrite Z.eqb_refl. reflexivity.
        + intros j J. split; [unfold out_of; lia|]. unfold isquad. destruct (Z.eqb_spec (Z.of_nat (length (x :: l0))) 0); [cbn [length] in *; lia|]. cbn [andb]. lia. }
    destruct (isquad w5 (Z.of_nat (length l)) (Z.of_nat n)) eqn:IQ.
    + unfold isquad in IQ. apply andb_prop in IQ as [IQ1 IQ2]. apply Z.eqb_eq in IQ1. destruct l as [|x l0]; [|cbn [length] in IQ1; lia]. cbn [length] in *. change (Z.of_nat 0) with 0 in *.
      assert (S12 : exists a b c d, skipn 12 src = [a; b; c; d] /\ bytes [a; b; c; d] /\ skipn 6 ws = [256 * a + b; 256 * c + d]).
      { destruct (last_bytes src L B) as (a & b & c & d & H). exists a, b, c, d. exact H. }
      destruct S12 as (a & b & c & d & S12 & Bd & S6). destruct (dotted_text a b c d Bd) as [TD LD]. pose proof (Forall_inv Bd) as Ba. pose proof (Forall_inv (Forall_inv_tail Bd)) as Bb. pose proof (Forall_inv (Forall_inv_tail (Forall_inv_tail Bd))) as Bc. pose proof (Forall_inv (Forall_inv_tail (Forall_inv_tail (Forall_inv_tail Bd)))) as Be.
      assert (QD : quad (dotted a b c d) (256 * a + b) (256 * c + d)).
      { cbn beta in Ba, Bb, Bc, Be. unfold quad. replace ((256 * a + b) / 256) with a by lia. replace ((256 * a + b) mod 256) with b by lia. replace ((256 * c + d) / 256) with c by lia. replace ((256 * c + d) mod 256) with d by lia. exact TD. }
      assert (QL : forall tmp w r size, (length tmp <= 10)%nat -> w5 = w5 -> isquad w5 0 (Z.of_nat n) = true -> (5 <= n <= 6)%nat ->
          (let* o := ntop6_loop src w5 0 (Z.of_nat n) 6 (w :: r) tmp in match o with None => Ok None | Some tmp => let* tmp := (if 0 + Z.of_nat n =? 8 then put 46 tmp [COLON] else Ok tmp) in let* nul := put 46 tmp [0] in if size <? Z.of_nat (length nul) then Ok None else Ok (Some tmp) end)
          = Ok (if size <? Z.of_nat (length (tmp ++ COLON :: dotted a b c d)) + 1 then None else Some (tmp ++ COLON :: dotted a b c d))).
      { intros tmp w r size LT _ Q N. cbn [ntop6_loop]. rewrite out_of_b by (unfold out_of; lia). change (negb (6 =? 0)) with true. cbn iota. rewrite put_ok by (cbn [length]; lia). cbn [bind]. unfold isquad in Q. change (6 =? 6) with true. cbn [andb]. cbn [andb] in Q. rewrite Q. rewrite S12, ntop4_spec by exact Bd. cbn [bind].
        rewrite app_length. cbn [length]. destruct (Z.leb_spec (46 - Z.of_nat (length tmp + 1)) (Z.of_nat (length (dotted a b c d)))); [lia|]. rewrite sput_ok by (rewrite app_length; cbn [length]; lia). cbn [bind]. destruct (Z.eqb_spec (0 + Z.of_nat n) 8); [lia|]. cbn [bind]. rewrite <- app_assoc. cbn [app]. apply DONE. rewrite app_length. cbn [length]. lia. }
      assert (IQ : isquad w5 0 (Z.of_nat n) = true) by (unfold isquad; exact IQ2). cbn [jn app] in PRE. rewrite Z.add_0_l in PRE. 
      apply orb_prop in IQ2 as [IQ2|IQ2].
      * apply Z.eqb_eq in IQ2. assert (n = 6%nat) by lia. subst n. assert (M2 : m = [256 * a + b; 256 * c + d]) by (rewrite EL in S6; cbn in S6; exact S6).
        exists (COLON :: COLON :: dotted a b c d). split; [|split; [cbn [length]; lia|]].
        -- change (COLON :: COLON :: dotted a b c d) with ([] ++ colon :: colon :: dotted a b c d). rewrite EL. apply K_gap; [constructor| |lia|rewrite EL in RUN; exact RUN]. rewrite M2. apply Q_2, QD.
        -- intros size. rewrite PRE, M2. change (Z.of_nat 6) with 6 in *. rewrite (QL [COLON] _ _ size); [reflexivity|cbn; lia|reflexivity|exact IQ|lia].
      * apply andb_prop in IQ2 as [IQ2 IQ3]. apply Z.eqb_eq in IQ2, IQ3. assert (n = 5%nat) by lia. subst n w5. assert (M2 : m = [65535; 256 * a + b; 256 * c + d]).
        { rewrite EL in S6, N5. destruct m as [|x m]; [discriminate|]. cbn [app repeat skipn nth_error] in S6, N5. injection N5 as ->. rewrite S6. reflexivity. }
        destruct (hex_low 65535 ltac:(lia)) as [HX LX].
        exists (COLON :: COLON :: hex 65535 ++ COLON :: dotted a b c d). split; [|split; [cbn [length]; rewrite app_length; cbn [length]; lia|]].
        -- change (COLON :: COLON :: hex 65535 ++ COLON :: dotted a b c d) with ([] ++ colon :: colon :: hex 65535 ++ colon :: dotted a b c d). rewrite EL. apply K_gap; [constructor| |lia|rewrite EL in RUN; exact RUN]. rewrite M2. apply Q_3; [exact HX|exact QD].
        -- intros size. rewrite PRE, M2. change (Z.of_nat 5) with 5 in *. rewrite loop_one; [|unfold out_of; lia|lia|lia|lia|cbn; lia]. change (5 =? 0) with false. cbn iota. change (5 + 1) with 6. rewrite (QL _ _ _ size); [|rewrite !app_length; cbn [length]; lia|reflexivity|exact IQ|lia]. rewrite <- !app_assoc. reflexivity.
    + exists (jn l ++ COLON :: COLON :: jn m). split; [|split; [rewrite app_length; cbn [length]; lia|]].
      * rewrite EL. apply K_gap; [apply jn_joined, WL| |exact N2|rewrite EL in RUN; exact RUN]. destruct l as [|x l0]; [|apply jn_joined, WM].
        cbn [length] in *. change (Z.of_nat 0) with 0 in *. unfold isquad in IQ. cbn [Z.eqb andb] in IQ. apply orb_false_elim in IQ as [I1 I2]. apply Z.eqb_neq in I1. apply Q_no; [lia| |apply jn_joined, WM]. intros x y ->. cbn [length] in LEN. assert (n = 5%nat) by lia. subst n. rewrite EL in N5. cbn in N5. injection N5 as <-. discriminate.
      * intros size. rewrite PRE. assert (PL : ntop6_loop src w5 (Z.of_nat (length l)) (Z.of_nat n) (Z.of_nat (length l) + Z.of_nat n) m (jn l ++ [COLON]) = Ok (Some ((jn l ++ [COLON]) ++ tails m))).
        { rewrite <- (app_nil_r m) at 1. rewrite loop_plain; [reflexivity| |lia|exact WM|rewrite app_length; cbn [length]; lia]. intros j J. split; [unfold out_of; lia|]. destruct (Z.eq_dec j 6); [left; auto|right; auto]. }
        rewrite PL. cbn [bind]. destruct m as [|x m0].
        -- destruct (Z.eqb_spec (Z.of_nat (length l) + Z.of_nat n) 8); [|cbn [length] in *; lia]. unfold tails. cbn [flat_map]. rewrite app_nil_r. rewrite put_ok by (rewrite app_length; cbn [length] in *; lia). cbn [bind]. rewrite <- app_assoc. cbn [app jn]. apply DONE. rewrite app_length. cbn [length] in *. lia.
        -- destruct (Z.eqb_spec (Z.of_nat (length l) + Z.of_nat n) 8); [cbn [length] in *; lia|]. cbn [bind]. rewrite tails_jn by discriminate. rewrite <- app_assoc. cbn [app]. apply DONE. rewrite app_length. cbn [length] in *. lia.
Qed.
