(** * C30: thread local keys are isolated. *)
From Verif Require Import Base Bitmap BitmapSpec BitmapProof Tls.

(** ** Specification *)
(** Every creation of a key makes a new incarnation.  [live k]: the incarnation of key [k], if it exists;
    [val t i]: what thread [t] stored under incarnation [i]; [cur t]: the call thread [t] is in, that is the key and the
    incarnation it found when it started; [arg t]: the value, if that call is a set. *)
Record sp := { live : Z -> option nat; nxt : nat; val : Z -> nat -> Z; cur : Z -> option (Z * option nat); arg : Z -> option Z }.
Definition fset {A} (f : Z -> A) (k : Z) (v : A) : Z -> A := fun x => if x =? k then v else f x.
Definition sp0 : sp := {| live := fun _ => None; nxt := 0; val := fun _ _ => 0; cur := fun _ => None; arg := fun _ => None |}.
Inductive accept (g : sp) : lab -> sp -> Prop :=
(* creation returns a key that does not exist yet; nothing is stored under it *)
| A_create t r : cur g t = None -> 0 <= r -> live g r = None ->
    accept g (LCreate t r) {| live := fset (live g) r (Some (nxt g)); nxt := S (nxt g); val := fun u i => if (i =? nxt g)%nat then 0 else val g u i; cur := cur g; arg := arg g |}
| A_create_err t r : cur g t = None -> r < 0 -> accept g (LCreate t r) g
| A_delete t k i : cur g t = None -> live g k = Some i ->
    accept g (LDelete t k 0) {| live := fset (live g) k None; nxt := nxt g; val := val g; cur := cur g; arg := arg g |}
| A_getb t k : cur g t = None -> accept g (LGetB t k) {| live := live g; nxt := nxt g; val := val g; cur := fset (cur g) t (Some (k, live g k)); arg := fset (arg g) t None |}
| A_setb t k v : cur g t = None -> accept g (LSetB t k v) {| live := live g; nxt := nxt g; val := val g; cur := fset (cur g) t (Some (k, live g k)); arg := fset (arg g) t (Some v) |}
(* a get returns what this thread stored under the incarnation, NULL if nothing or if the key did not exist *)
| A_gete t k oi : cur g t = Some (k, oi) -> arg g t = None ->
    accept g (LGetE t k (match oi with Some i => val g t i | None => 0 end)) {| live := live g; nxt := nxt g; val := val g; cur := fset (cur g) t None; arg := arg g |}
| A_sete t k v i : cur g t = Some (k, Some i) -> arg g t = Some v ->
    accept g (LSetE t k v 0) {| live := live g; nxt := nxt g; val := fun u j => if (u =? t) && (j =? i)%nat then v else val g u j; cur := fset (cur g) t None; arg := arg g |}
| A_sete_err t k v : cur g t = Some (k, None) -> arg g t = Some v ->
    accept g (LSetE t k v (- AOSL_EINVAL)) {| live := live g; nxt := nxt g; val := val g; cur := fset (cur g) t None; arg := arg g |}.
Inductive accepts : list lab -> sp -> Prop :=
| As_nil : accepts [] sp0
| As_snoc tr g l g' : accepts tr g -> accept g l g' -> accepts (tr ++ [l]) g'.

(** The program deletes only keys it has created and not deleted since. *)
Definition exists_key (tr : list lab) (k : Z) : bool :=
  fold_left (fun b l => match l with LCreate _ r => if (0 <=? r) && (r =? k) then true else b | LDelete _ k' _ => if k' =? k then false else b | _ => b end) tr false.
Definition deletes_ok (tr : list lab) : Prop := forall pre t k r post, tr = pre ++ LDelete t k r :: post -> exists_key pre k = true.

(** ** Invariant *)
Definition slot (s : tst) (k : Z) : Z := nth (Z.to_nat k) (t_slots s) 0.
(** What thread t's table holds for key k and sequence number q. *)
Definition look (s : tst) (t k q : Z) : Z :=
  match t_thr s t with
  | None => 0
  | Some tbl => match nth_error tbl (Z.to_nat k) with Some (q', v) => if q' =? q then v else 0 | None => 0 end
  end.
Definition pend_of (s : tst) (sof : nat -> Z) (t : Z) : option (Z * option nat) -> Prop := fun c =>
  match t_pend s t, c with
  | None, None => True
  | Some (PGet k q), Some (k', oi) | Some (PSet k q _), Some (k', oi) => k = k' /\ q = option_map sof oi
  | _, _ => False
  end.
Definition active (g : sp) (t : Z) (i : nat) : Prop := (exists k, live g k = Some i) \/ (exists k, cur g t = Some (k, Some i)).
Record inv (s : tst) (g : sp) (kof : nat -> Z) (sof : nat -> Z) (n : Z) : Prop := {
  v_size : exists j, t_size s = 16 * j /\ 1 <= j <= 15;
  v_bits : binv (t_bits s);
  v_cnt : bit_cnt (t_bits s) = t_size s;
  v_live : forall k, 0 <= k < t_size s -> (bitval (t_bits s) k = true <-> live g k <> None);
  v_range : forall k i, live g k = Some i -> 0 <= k < t_size s /\ (i < nxt g)%nat /\ kof i = k /\ sof i = slot s k;
  v_odd : forall k, 0 <= k < t_size s -> 0 <= slot s k <= n /\ (Z.odd (slot s k) = true <-> live g k <> None);
  v_inc : forall i, (i < nxt g)%nat -> 0 <= kof i < t_size s /\ 0 < sof i <= slot s (kof i) /\ Z.odd (sof i) = true;
  v_mono : forall i j, (i < j)%nat -> (j < nxt g)%nat -> kof i = kof j -> sof i < sof j;
  v_zero : forall t i, (nxt g <= i)%nat -> val g t i = 0;
  v_tbl : forall t tbl, t_thr s t = Some tbl -> (length tbl <= length (t_slots s))%nat /\
     forall k q v, nth_error tbl k = Some (q, v) -> v <> 0 -> exists i, (i < nxt g)%nat /\ kof i = Z.of_nat k /\ sof i = q /\ val g t i = v;
  v_look : forall t i, active g t i -> look s t (kof i) (sof i) = val g t i;
  v_pend : forall t, pend_of s sof t (cur g t);
  v_cur : forall t k i, cur g t = Some (k, Some i) -> (i < nxt g)%nat /\ kof i = k /\ forall j, (i < j)%nat -> kof j = k -> (j < nxt g)%nat -> val g t j = 0;
  v_arg : forall t, match t_pend s t with Some (PSet _ _ v) => arg g t = Some v | Some (PGet _ _) => arg g t = None | None => True end }.

Lemma live_unique s g kof sof n k i j : inv s g kof sof n -> live g k = Some i -> (j < nxt g)%nat -> kof j = k -> (j <= i)%nat.
Proof.
  intros I L Hj Kj. destruct (v_range _ _ _ _ _ I k i L) as (A & B & C & D). destruct (le_lt_dec j i) as [H|H]; [exact H|]. exfalso.
  pose proof (v_mono _ _ _ _ _ I i j H Hj ltac:(congruence)). destruct (v_inc _ _ _ _ _ I j Hj) as (_ & E & _). rewrite Kj in E. lia.
Qed.
Lemma seq_inc_ok l k : 0 <= k < Z.of_nat (length l) -> seq_inc l k = Ok (upd l (Z.to_nat k) (u64 (nth (Z.to_nat k) l 0 + 1))).
Proof. intros H. unfold seq_inc. destruct (Z.ltb_spec k 0); [lia|]. rewrite (nth_error_nth' l 0) by lia. reflexivity. Qed.
Lemma nth_upd0 (l : list Z) n m x : nth m (upd l n x) 0 = if (n =? m)%nat && (n <? length l)%nat then x else nth m l 0.
Proof.
  destruct (le_lt_dec (length l) m) as [H|H].
  - rewrite !nth_overflow by (rewrite ?upd_length; lia). destruct (Nat.eqb_spec n m), (Nat.ltb_spec n (length l)); cbn; try reflexivity; lia.
  - pose proof (nth_error_upd l n m x) as E. rewrite (nth_error_nth' _ 0) in E by (rewrite upd_length; lia). destruct ((n =? m)%nat && (n <? length l)%nat); [congruence|]. rewrite (nth_error_nth' l 0) in E by lia. congruence.
Qed.
Lemma read_slot_ok s g kof sof n k : inv s g kof sof n -> read_slot s k = Ok (option_map sof (live g k)).
Proof.
  intros I. unfold read_slot. destruct ((k <? 0) || (t_size s <=? k)) eqn:E.
  - destruct (live g k) as [i|] eqn:L; [|reflexivity]. exfalso. destruct (v_range _ _ _ _ _ I k i L) as (A & _). lia.
  - assert (H : 0 <= k < t_size s) by lia. unfold t_size in H. rewrite (nth_error_nth' _ 0) by lia. fold (slot s k). destruct (v_odd _ _ _ _ _ I k H) as [_ O].
    change 1 with (Z.ones 1). rewrite Z.land_ones by lia. change (2 ^ 1) with 2. rewrite Zmod_odd. destruct (live g k) as [i|] eqn:L.
    + rewrite (proj2 O) by discriminate. cbn. f_equal. f_equal. symmetry. apply (v_range _ _ _ _ _ I k i L).
    + destruct (Z.odd (slot s k)); [exfalso; apply (proj1 O eq_refl); reflexivity|reflexivity].
Qed.
Lemma grow_ok s g kof sof n nb : inv s g kof sof n -> t_size s <= 224 -> binv nb -> bit_cnt nb = t_size s + 16 -> (forall j, 0 <= j -> bitval nb j = bitval (t_bits s) j) ->
  inv {| t_bits := nb; t_slots := t_slots s ++ repeat 0 16; t_thr := t_thr s; t_pend := t_pend s |} g kof sof n.
Proof.
  intros I Hs Hb Hc Hv. set (s' := {| t_bits := nb; t_slots := t_slots s ++ repeat 0 16; t_thr := t_thr s; t_pend := t_pend s |}).
  assert (SZ : t_size s' = t_size s + 16) by (unfold t_size, s'; cbn [t_slots]; rewrite app_length, repeat_length; lia).
  assert (SL : forall k, 0 <= k -> slot s' k = if k <? t_size s then slot s k else 0).
  { intros k Hk. unfold slot, s', t_size. cbn [t_slots]. destruct (Z.ltb_spec k (Z.of_nat (length (t_slots s)))); [apply app_nth1; lia|]. rewrite app_nth2 by lia. apply nth_repeat. }
  destruct (v_size _ _ _ _ _ I) as (j & J1 & J2). destruct I as [I1 I2 I3 I4 I5 I6 I7 I8 I9 I10 I11 I12 I13 I14].
  assert (OUT : forall k, t_size s <= k -> live g k = None) by (intros k Hk; destruct (live g k) as [i|] eqn:L; [destruct (I5 k i L); lia|reflexivity]).
  constructor; auto.
  - exists (j + 1). rewrite SZ. lia.
  - rewrite SZ. exact Hc.
  - intros k Hk. cbn [t_bits s']. rewrite Hv by lia. rewrite SZ in Hk. destruct (Z.ltb_spec k (t_size s)); [apply I4; lia|]. rewrite (bi_tail _ I2) by lia. rewrite OUT by lia. split; [discriminate|congruence].
  - intros k i L. destruct (I5 k i L) as (A & B & C & D). rewrite SZ, SL by lia. destruct (Z.ltb_spec k (t_size s)); [|lia]. repeat split; auto; lia.
  - intros k Hk. rewrite SZ in Hk. rewrite SL by lia. destruct (Z.ltb_spec k (t_size s)); [apply I6; lia|]. rewrite OUT by lia. split; [pose proof (I6 0 ltac:(lia)); lia|]. cbn. split; [discriminate|congruence].
  - intros i Hi. destruct (I7 i Hi) as (A & B & C). rewrite SZ, SL by lia. destruct (Z.ltb_spec (kof i) (t_size s)); [|lia]. repeat split; auto; lia.
  - intros t tbl E. destruct (I10 t tbl E) as [A B]. split; [|exact B]. cbn [t_slots s']. rewrite app_length. lia.
Qed.

Lemma finish_ok s g kof sof n t r bits' : inv s g kof sof n -> n + 1 < 18446744073709551616 -> cur g t = None -> 0 <= r < t_size s -> bitval (t_bits s) r = false ->
  binv bits' -> bit_cnt bits' = t_size s -> (forall j, 0 <= j < t_size s -> bitval bits' j = if r =? j then true else bitval (t_bits s) j) ->
  let s' := {| t_bits := bits'; t_slots := upd (t_slots s) (Z.to_nat r) (u64 (slot s r + 1)); t_thr := t_thr s; t_pend := t_pend s |} in
  exists g' kof' sof', accept g (LCreate t r) g' /\ inv s' g' kof' sof' (n + 1).
Proof.
  intros I Hn Hc Hr Hz Hb Hcnt Hv s'. assert (LN : live g r = None) by (destruct (live g r) eqn:L; [|reflexivity]; rewrite (proj2 (v_live _ _ _ _ _ I r Hr)) in Hz by congruence; discriminate).
  eexists _, (fun i => if (i =? nxt g)%nat then r else kof i), (fun i => if (i =? nxt g)%nat then slot s r + 1 else sof i). split; [apply A_create; [exact Hc|lia|exact LN]|].
  destruct (v_odd _ _ _ _ _ I r Hr) as [RS RO]. assert (EV : Z.odd (slot s r) = false) by (destruct (Z.odd (slot s r)) eqn:Q; [|reflexivity]; exfalso; apply (proj1 RO eq_refl), LN).
  assert (U : u64 (slot s r + 1) = slot s r + 1) by (unfold u64; apply Z.mod_small; lia).
  assert (SZ : t_size s' = t_size s) by (unfold t_size, s'; cbn [t_slots]; rewrite upd_length; reflexivity).
  assert (SL : forall k, 0 <= k -> slot s' k = if k =? r then slot s r + 1 else slot s k).
  { intros k Hk. unfold slot, s'. cbn [t_slots]. rewrite nth_upd0. unfold t_size in Hr. fold (slot s r). rewrite U. destruct (Z.eqb_spec k r) as [->|N]; [rewrite Nat.eqb_refl; destruct (Nat.ltb_spec (Z.to_nat r) (length (t_slots s))); [reflexivity|lia]|].
    destruct (Nat.eqb_spec (Z.to_nat r) (Z.to_nat k)); [lia|reflexivity]. }
  assert (CUR : forall u k i, cur g u = Some (k, Some i) -> (i =? nxt g)%nat = false) by (intros u k i E; apply Nat.eqb_neq; destruct (v_cur _ _ _ _ _ I u k i E); lia).
  assert (LIV : forall k i, live g k = Some i -> (i =? nxt g)%nat = false) by (intros k i E; apply Nat.eqb_neq; destruct (v_range _ _ _ _ _ I k i E); lia).
  destruct I as [I1 I2 I3 I4 I5 I6 I7 I8 I9 I10 I11 I12 I13 I14]. constructor; cbn [live nxt val cur arg].
  - rewrite SZ. exact I1.
  - exact Hb.
  - rewrite SZ. exact Hcnt.
  - rewrite SZ. intros k Hk. cbn [t_bits s']. rewrite Hv by exact Hk. unfold fset. rewrite (Z.eqb_sym k r). destruct (Z.eqb_spec r k); [split; [discriminate|reflexivity]|]. apply I4, Hk.
  - intros k i. unfold fset. destruct (Z.eqb_spec k r) as [->|N].
    + intros [= <-]. rewrite SZ, SL, Z.eqb_refl, Nat.eqb_refl by lia. repeat split; auto; lia.
    + intros L. destruct (I5 k i L) as (A & B & C & D). rewrite SZ, SL, (LIV k i L) by lia. destruct (Z.eqb_spec k r); [contradiction|]. repeat split; auto; lia.
  - rewrite SZ. intros k Hk. rewrite SL by lia. unfold fset. destruct (Z.eqb_spec k r) as [->|N].
    + split; [lia|]. rewrite Z.odd_add, EV. cbn. split; [discriminate|reflexivity].
    + destruct (I6 k Hk) as [A B]. split; [lia|exact B].
  - intros i Hi. destruct (Nat.eqb_spec i (nxt g)) as [->|N].
    + rewrite SZ, SL, Z.eqb_refl by lia. split; [exact Hr|]. split; [lia|]. rewrite Z.odd_add, EV. reflexivity.
    + destruct (I7 i ltac:(lia)) as (A & B & C). rewrite SZ, SL by lia. split; [exact A|]. split; [|exact C]. destruct (Z.eqb_spec (kof i) r) as [E|E]; [rewrite E in B; lia|exact B].
  - intros i j Hij Hj. destruct (Nat.eqb_spec j (nxt g)) as [->|N].
    + destruct (Nat.eqb_spec i (nxt g)); [lia|]. intros E. destruct (I7 i Hij) as (A & B & C). rewrite E in B. lia.
    + destruct (Nat.eqb_spec i (nxt g)); [lia|]. apply I8; lia.
  - intros u i Hi. destruct (Nat.eqb_spec i (nxt g)); [reflexivity|]. apply I9. lia.
  - intros u tbl E. destruct (I10 u tbl E) as [A B]. split; [cbn [t_slots s']; rewrite upd_length; exact A|]. intros k q v Hk Hvv. destruct (B k q v Hk Hvv) as (i & B1 & B2 & B3 & B4). exists i. destruct (Nat.eqb_spec i (nxt g)); [lia|]. auto.
  - intros u i AC. assert (LK : forall k q, look s' u k q = look s u k q) by reflexivity. rewrite LK. destruct (Nat.eqb_spec i (nxt g)) as [->|N].
    + unfold look. destruct (t_thr s u) as [tbl|] eqn:E; [|reflexivity]. destruct (nth_error tbl (Z.to_nat r)) as [[q' v]|] eqn:E2; [|reflexivity]. destruct (Z.eqb_spec q' (slot s r + 1)) as [->|]; [|reflexivity].
      destruct (Z.eq_dec v 0) as [->|NV]; [reflexivity|]. exfalso. destruct (proj2 (I10 u tbl E) _ _ _ E2 NV) as (i & B1 & B2 & B3 & B4). destruct (I7 i B1) as (_ & Q & _). rewrite B2, Z2Nat.id, B3 in Q by lia. lia.
    + apply I11. destruct AC as [(k & L)|C]; [left|right; exact C]. exists k. cbn [live] in L. unfold fset in L. destruct (Z.eqb_spec k r); [congruence|exact L].
  - intros u. specialize (I12 u). unfold pend_of in *. cbn [t_pend s'] in *. destruct (t_pend s u) as [[k q|k q v]|], (cur g u) as [[k' oi]|] eqn:C; auto; destruct I12 as [A B]; split; auto; rewrite B; destruct oi as [i|]; [cbn; rewrite (CUR u k' i C); reflexivity|reflexivity|cbn; rewrite (CUR u k' i C); reflexivity|reflexivity].
  - intros u k i C. destruct (I13 u k i C) as (A & B & D). rewrite (CUR u k i C). split; [lia|]. split; [exact B|]. intros j Hij Kj Hj. destruct (Nat.eqb_spec j (nxt g)); [reflexivity|]. apply D; auto. lia.
  - exact I14.
Qed.

Lemma create_ok s g kof sof n t a1 a2 : inv s g kof sof n -> n + 1 < 18446744073709551616 -> cur g t = None ->
  exists x, key_create a1 a2 s = Ok x /\ exists g' kof' sof', accept g (LCreate t (snd x)) g' /\ inv (fst x) g' kof' sof' (n + 1).
Proof.
  intros I Hn Hc. unfold key_create. pose proof (v_bits _ _ _ _ _ I) as Hb. pose proof (v_cnt _ _ _ _ _ I) as Hcnt. destruct (v_size _ _ _ _ _ I) as (k & Hk & Hkr).
  assert (SAME : forall e, e < 0 -> exists g' kof' sof', accept g (LCreate t e) g' /\ inv s g' kof' sof' (n + 1)).
  { intros e He. exists g, kof, sof. split; [apply A_create_err; assumption|]. destruct I as [I1 I2 I3 I4 I5 I6 I7 I8 I9 I10 I11 I12 I13 I14]. constructor; auto. intros j Hj. destruct (I6 j Hj). split; [lia|assumption]. }
  destruct (find_first_zero_spec _ Hb) as [(E & Hall)|(Hr & Hz & Hall)].
  - rewrite E. change (-1 <? 0) with true. cbv iota.
    destruct (Z.leb_spec TLS_MAX (t_size s)) as [Hm|Hm]; [unfold TLS_MAX in Hm; lia|].
    destruct (bitmap_create a1 (t_size s + TLS_STEP)) as [nb0|] eqn:Ec; [|eexists; split; [reflexivity|]; apply SAME; reflexivity].
    destruct a2; cbn [negb]; [|eexists; split; [reflexivity|]; apply SAME; reflexivity].
    destruct (bitmap_create_spec _ _ _ Ec) as (Hb0 & Hc0 & Hz0). pose proof (bi_cnt _ Hb0) as Hcr. unfold TLS_STEP in *.
    assert (Hu : u8 (t_size s + 16) = t_size s + 16 /\ k <= 14). { rewrite Hc0 in Hcr. unfold u8 in *. lia. }
    destruct Hu as [Hu K14]. rewrite Hu in Hc0.
    destruct (bitmap_copy_spec nb0 (t_bits s) Hb0 Hb ltac:(lia)) as (nb & En & Hbn & Hcn & Hvn). rewrite En. cbn [bind].
    pose proof (grow_ok s g kof sof n nb I ltac:(lia) Hbn ltac:(lia) Hvn) as I2. change (Z.to_nat 16) with 16%nat. set (s2 := {| t_bits := nb; t_slots := t_slots s ++ repeat 0 16; t_thr := t_thr s; t_pend := t_pend s |}) in *.
    assert (SZ : t_size s2 = t_size s + 16) by (unfold t_size, s2; cbn [t_slots]; rewrite app_length, repeat_length; lia).
    destruct (find_first_zero_spec _ Hbn) as [(E2 & Hall2)|(Hr2 & Hz2 & Hall2)].
    { exfalso. assert (X : bitval nb (t_size s) = true) by (apply Hall2; lia). rewrite Hvn in X by lia. rewrite (bi_tail _ Hb) in X by lia. discriminate. }
    destruct (Z.ltb_spec (bitmap_find_first_zero_bit nb) 0); [lia|].
    destruct (bitmap_set_spec nb (bitmap_find_first_zero_bit nb) Hbn ltac:(lia)) as (nb' & Es & Hbn' & Hcn' & Hvs). rewrite Es. cbn [bind].
    change (t_slots s ++ repeat 0 16) with (t_slots s2). rewrite seq_inc_ok by (unfold t_size in *; lia). cbn [bind]. eexists. split; [reflexivity|]. cbn [fst snd].
    apply (finish_ok s2 g kof sof n t _ nb' I2 Hn Hc); auto; cbn [t_bits s2]; rewrite ?SZ; try lia. intros j Hj. apply Hvs. lia.
  - destruct (Z.ltb_spec (bitmap_find_first_zero_bit (t_bits s)) 0); [lia|]. pose proof (bi_cnt _ Hb).
    destruct (bitmap_set_spec (t_bits s) (bitmap_find_first_zero_bit (t_bits s)) Hb ltac:(lia)) as (nb' & Es & Hbn' & Hcn' & Hvs). rewrite Es. cbn [bind].
    rewrite seq_inc_ok by (unfold t_size in *; lia). cbn [bind]. eexists. split; [reflexivity|]. cbn [fst snd].
    apply (finish_ok s g kof sof n t _ nb' I Hn Hc); auto; try lia. intros j Hj. apply Hvs. lia.
Qed.

Lemma delete_ok s g kof sof n t k i : inv s g kof sof n -> n + 1 < 18446744073709551616 -> cur g t = None -> live g k = Some i ->
  exists x, key_delete s k = Ok x /\ exists g' kof' sof', accept g (LDelete t k (snd x)) g' /\ inv (fst x) g' kof' sof' (n + 1).
Proof.
  intros I Hn Hc L. destruct (v_range _ _ _ _ _ I k i L) as (Rk & Ri & Rk' & Rs). pose proof (v_bits _ _ _ _ _ I) as Hb. pose proof (v_cnt _ _ _ _ _ I) as Hcnt. pose proof (bi_cnt _ Hb) as Hcr.
  unfold key_delete. destruct ((k <? 0) || (t_size s <=? k)) eqn:E; [lia|].
  destruct (bitmap_clear_spec (t_bits s) k Hb ltac:(lia)) as (nb' & Es & Hbn' & Hcn' & Hvs). rewrite Es. cbn [bind]. rewrite seq_inc_ok by (unfold t_size in *; lia). cbn [bind]. eexists. split; [reflexivity|]. cbn [fst snd].
  eexists _, kof, sof. split; [apply (A_delete g t k i Hc L)|]. fold (slot s k).
  destruct (v_odd _ _ _ _ _ I k Rk) as [RS RO]. assert (OD : Z.odd (slot s k) = true) by (apply RO; congruence).
  assert (U : u64 (slot s k + 1) = slot s k + 1) by (unfold u64; apply Z.mod_small; lia). rewrite U.
  set (s' := {| t_bits := nb'; t_slots := upd (t_slots s) (Z.to_nat k) (slot s k + 1); t_thr := t_thr s; t_pend := t_pend s |}).
  assert (SZ : t_size s' = t_size s) by (unfold t_size, s'; cbn [t_slots]; rewrite upd_length; reflexivity).
  assert (SL : forall j, 0 <= j -> slot s' j = if j =? k then slot s k + 1 else slot s j).
  { intros j Hj. unfold slot, s'. cbn [t_slots]. rewrite nth_upd0. unfold t_size in Rk. fold (slot s k). destruct (Z.eqb_spec j k) as [->|N]; [rewrite Nat.eqb_refl; destruct (Nat.ltb_spec (Z.to_nat k) (length (t_slots s))); [reflexivity|lia]|].
    destruct (Nat.eqb_spec (Z.to_nat k) (Z.to_nat j)); [lia|reflexivity]. }
  destruct I as [I1 I2 I3 I4 I5 I6 I7 I8 I9 I10 I11 I12 I13 I14]. constructor; cbn [live nxt val cur arg]; auto.
  - rewrite SZ. exact I1.
  - rewrite SZ. cbn. congruence.
  - rewrite SZ. intros j Hj. cbn [t_bits s']. rewrite Hvs by lia. unfold fset. rewrite (Z.eqb_sym j k). destruct (Z.eqb_spec k j); [split; [discriminate|congruence]|]. apply I4, Hj.
  - intros j m. unfold fset. destruct (Z.eqb_spec j k) as [->|N]; [discriminate|]. intros Lj. destruct (I5 j m Lj) as (A & B & C & D). rewrite SZ, SL by lia. destruct (Z.eqb_spec j k); [contradiction|]. repeat split; auto; lia.
  - rewrite SZ. intros j Hj. rewrite SL by lia. unfold fset. destruct (Z.eqb_spec j k) as [->|N].
    + split; [lia|]. rewrite Z.odd_add, OD. cbn. split; [discriminate|congruence].
    + destruct (I6 j Hj) as [A B]. split; [lia|exact B].
  - intros m Hm. destruct (I7 m Hm) as (A & B & C). rewrite SZ, SL by lia. split; [exact A|]. split; [|exact C]. destruct (Z.eqb_spec (kof m) k) as [E2|E2]; [rewrite E2 in B; lia|exact B].
  - intros u tbl Et. destruct (I10 u tbl Et) as [A B]. split; [cbn [t_slots s']; rewrite upd_length; exact A|exact B].
  - intros u m AC. change (look s' u (kof m) (sof m)) with (look s u (kof m) (sof m)). apply I11. destruct AC as [(j & Lj)|C]; [left|right; exact C]. exists j. cbn [live] in Lj. unfold fset in Lj. destruct (Z.eqb_spec j k); [discriminate|exact Lj].
Qed.

Lemma pend_cur s g kof sof n t : inv s g kof sof n -> t_pend s t = None -> cur g t = None.
Proof. intros I E. pose proof (v_pend _ _ _ _ _ I t) as P. unfold pend_of in P. rewrite E in P. destruct (cur g t); [contradiction|reflexivity]. Qed.
Lemma pend_cur_some s g kof sof n t k q : inv s g kof sof n -> (t_pend s t = Some (PGet k q) \/ exists v, t_pend s t = Some (PSet k q v)) -> exists oi, cur g t = Some (k, oi) /\ q = option_map sof oi.
Proof. intros I E. pose proof (v_pend _ _ _ _ _ I t) as P. unfold pend_of in P. destruct E as [E|(v & E)]; rewrite E in P; destruct (cur g t) as [[k' oi]|]; try contradiction; destruct P as [-> P]; eauto. Qed.

Lemma begin_ok s g kof sof n t k p : inv s g kof sof n -> t_pend s t = None -> (p = PGet k (option_map sof (live g k)) \/ exists v, p = PSet k (option_map sof (live g k)) v) ->
  inv (put_pend s t (Some p)) {| live := live g; nxt := nxt g; val := val g; cur := fset (cur g) t (Some (k, live g k)); arg := fset (arg g) t (match p with PGet _ _ => None | PSet _ _ v => Some v end) |} kof sof (n + 1).
Proof.
  intros I E Hp. pose proof (live_unique s g kof sof n) as LU. pose proof I as I'. destruct I as [I1 I2 I3 I4 I5 I6 I7 I8 I9 I10 I11 I12 I13 I14]. constructor; cbn [live nxt val cur arg]; auto.
  - intros j Hj. destruct (I6 j Hj) as [A B]. split; [change (0 <= slot s j <= n + 1); lia|exact B].
  - intros u i AC. change (look s u (kof i) (sof i) = val g u i). apply I11. destruct AC as [L|(j & C)]; [left; exact L|]. cbn [cur] in C. unfold fset in C. destruct (Z.eqb_spec u t) as [->|]; [|right; eauto]. injection C as <- C. left. eauto.
  - intros u. unfold pend_of, put_pend. cbn [t_pend]. unfold fset. destruct (Z.eqb_spec u t) as [->|]; [|apply I12]. destruct Hp as [->|(v & ->)]; auto.
  - intros u j i. unfold fset. destruct (Z.eqb_spec u t) as [->|]; [|apply I13]. intros [= <- L]. destruct (I5 k i L) as (A & B & C & D). split; [exact B|]. split; [exact C|]. intros m Hm Km Hmx. pose proof (LU k i m I' L Hmx Km). lia.
  - intros u. unfold put_pend. cbn [t_pend]. unfold fset. destruct (Z.eqb_spec u t) as [->|]; [|apply I14]. destruct Hp as [->|(v & ->)]; reflexivity.
Qed.
Lemma end_ok s g kof sof n t : inv s g kof sof n -> inv (put_pend s t None) {| live := live g; nxt := nxt g; val := val g; cur := fset (cur g) t None; arg := arg g |} kof sof (n + 1).
Proof.
  intros [I1 I2 I3 I4 I5 I6 I7 I8 I9 I10 I11 I12 I13 I14]. constructor; cbn [live nxt val cur arg]; auto.
  - intros j Hj. destruct (I6 j Hj) as [A B]. split; [change (0 <= slot s j <= n + 1); lia|exact B].
  - intros u i AC. change (look s u (kof i) (sof i) = val g u i). apply I11. destruct AC as [L|(j & C)]; [left; exact L|right]. cbn [cur] in C. unfold fset in C. destruct (Z.eqb_spec u t); [discriminate|eauto].
  - intros u. unfold pend_of, put_pend. cbn [t_pend]. unfold fset. destruct (Z.eqb_spec u t) as [->|]; [exact Logic.I|apply I12].
  - intros u j i. unfold fset. destruct (Z.eqb_spec u t) as [->|]; [discriminate|apply I13].
  - intros u. unfold put_pend. cbn [t_pend]. destruct (Z.eqb_spec u t) as [->|]; [exact Logic.I|apply I14].
Qed.

Lemma sof_inj s g kof sof n i j : inv s g kof sof n -> (i < nxt g)%nat -> (j < nxt g)%nat -> kof i = kof j -> sof i = sof j -> i = j.
Proof.
  intros I Hi Hj K S. destruct (lt_eq_lt_dec i j) as [[H|H]|H]; [|exact H|]; exfalso; [pose proof (v_mono _ _ _ _ _ I i j H Hj K)|pose proof (v_mono _ _ _ _ _ I j i H Hi ltac:(congruence))]; lia.
Qed.
Lemma active_lt s g kof sof n t i : inv s g kof sof n -> active g t i -> (i < nxt g)%nat.
Proof. intros I [(k & L)|(k & C)]; [apply (v_range _ _ _ _ _ I k i L)|apply (v_cur _ _ _ _ _ I t k i C)]. Qed.

Lemma null_ok s g kof sof n t k i tbl q' v : inv s g kof sof n -> cur g t = Some (k, Some i) -> t_thr s t = Some tbl -> 0 <= k -> nth_error tbl (Z.to_nat k) = Some (q', v) -> v <> 0 -> q' <> sof i ->
  inv (put_thr s t (upd tbl (Z.to_nat k) (q', 0))) g kof sof n.
Proof.
  intros I C Et K0 En Nv Nq. destruct (v_cur _ _ _ _ _ I t k i C) as (Ci & Ck & Cj). destruct (proj2 (v_tbl _ _ _ _ _ I t tbl Et) _ _ _ En Nv) as (j & J1 & J2 & J3 & J4). rewrite Z2Nat.id in J2 by exact K0.
  pose proof (fun m => active_lt s g kof sof n t m I) as AL. pose proof (fun m => sof_inj s g kof sof n m j I) as SI. pose proof (fun m => live_unique s g kof sof n k m i I) as LU. pose proof I as I'.
  assert (LN : (Z.to_nat k < length tbl)%nat) by (apply nth_error_Some; congruence).
  destruct I as [I1 I2 I3 I4 I5 I6 I7 I8 I9 I10 I11 I12 I13 I14]. constructor; auto.
  - intros u tb. cbn [t_thr put_thr]. destruct (Z.eqb_spec u t) as [->|]; [|apply I10]. intros [= <-]. destruct (I10 t tbl Et) as [A B]. split; [rewrite upd_length; exact A|]. intros m q w. rewrite nth_error_upd. destruct ((Z.to_nat k =? m)%nat && (Z.to_nat k <? length tbl)%nat); [intros [= <- <-]; congruence|apply B].
  - intros u m AC. rewrite <- (I11 u m AC). unfold look, put_thr. cbn [t_thr]. destruct (Z.eqb_spec u t) as [->|]; [|reflexivity]. rewrite Et, nth_error_upd. destruct (Nat.eqb_spec (Z.to_nat k) (Z.to_nat (kof m))) as [E|E]; [|reflexivity]. destruct (Nat.ltb_spec (Z.to_nat k) (length tbl)); [|lia]. cbn [andb]. rewrite <- E, En.
    destruct (Z.eqb_spec q' (sof m)) as [E2|]; [|reflexivity]. exfalso. pose proof (AL m AC) as Lm. destruct (I7 m Lm) as (Km & _). assert (KE : kof m = k) by lia. assert (m = j) by (apply SI; auto; congruence). subst m.
    destruct AC as [(k' & L)|(k' & C')].
    + destruct (I5 k' j L) as (_ & _ & Kj & _). assert (KK : k' = k) by congruence. rewrite KK in L. pose proof (LU j L Ci Ck) as Q. destruct (Nat.eq_dec i j) as [->|NE]; [congruence|]. rewrite (Cj j ltac:(lia) J2 J1) in J4. congruence.
    + rewrite C in C'. injection C' as _ ->. congruence.
Qed.

Lemma get_end_ok s g kof sof n t k q : inv s g kof sof n -> t_pend s t = Some (PGet k q) ->
  exists x, get_end s t k q = Ok x /\ exists g', accept g (LGetE t k (snd x)) g' /\ inv (put_pend (fst x) t None) g' kof sof (n + 1).
Proof.
  intros I E. pose proof (v_arg _ _ _ _ _ I t) as AR. rewrite E in AR. destruct (pend_cur_some s g kof sof n t k q I (or_introl E)) as (oi & C & ->). destruct oi as [i|]; cbn [option_map get_end].
  - destruct (v_cur _ _ _ _ _ I t k i C) as (Ci & Ck & Cj). destruct (v_inc _ _ _ _ _ I i Ci) as (Kr & _). pose proof (v_look _ _ _ _ _ I t i (or_intror (ex_intro _ k C))) as LK. unfold look in LK. rewrite Ck in *.
    destruct (t_thr s t) as [tbl|] eqn:Et.
    + destruct (Z.leb_spec (Z.of_nat (length tbl)) k) as [H|H].
      * exists (s, 0). split; [reflexivity|]. cbn [fst snd]. rewrite (proj2 (nth_error_None tbl (Z.to_nat k))) in LK by lia. eexists. split; [rewrite LK; apply (A_gete g t k (Some i) C AR)|]. apply end_ok, I.
      * destruct (Z.ltb_spec k 0); [lia|]. destruct (nth_error tbl (Z.to_nat k)) as [[q' v]|] eqn:En; [|apply nth_error_None in En; lia]. destruct (Z.eqb_spec v 0) as [->|Nv]; cbn [negb].
        -- exists (s, 0). split; [reflexivity|]. cbn [fst snd]. assert (Q : 0 = val g t i) by (rewrite <- LK; destruct (q' =? sof i); reflexivity). eexists. split; [rewrite Q; apply (A_gete g t k (Some i) C AR)|]. apply end_ok, I.
        -- destruct (Z.eqb_spec q' (sof i)) as [Eq|Nq]; cbn [negb].
           ++ exists (s, v). split; [reflexivity|]. cbn [fst snd]. eexists. split; [rewrite LK; apply (A_gete g t k (Some i) C AR)|]. apply end_ok, I.
           ++ eexists. split; [reflexivity|]. cbn [fst snd]. eexists. split; [rewrite LK; apply (A_gete g t k (Some i) C AR)|]. apply end_ok. apply (null_ok s g kof sof n t k i tbl q' v); auto.
    + exists (s, 0). split; [reflexivity|]. cbn [fst snd]. eexists. split; [rewrite LK; apply (A_gete g t k (Some i) C AR)|]. apply end_ok, I.
  - exists (s, 0). split; [reflexivity|]. cbn [fst snd]. eexists. split; [apply (A_gete g t k None C AR)|]. apply end_ok, I.
Qed.

(** A table may be extended with empty entries. *)
Lemma extend_ok s g kof sof n t tbl m : inv s g kof sof n -> (t_thr s t = Some tbl \/ (t_thr s t = None /\ tbl = [])) -> (length tbl + m <= length (t_slots s))%nat ->
  inv (put_thr s t (tbl ++ repeat (0, 0) m)) g kof sof n.
Proof.
  intros [I1 I2 I3 I4 I5 I6 I7 I8 I9 I10 I11 I12 I13 I14] Et Hm. constructor; auto.
  - intros u tb. cbn [t_thr put_thr]. destruct (Z.eqb_spec u t) as [->|]; [|apply I10]. intros [= <-]. split; [rewrite app_length, repeat_length; exact Hm|]. intros j q v. destruct (le_lt_dec (length tbl) j) as [H|H].
    + rewrite nth_error_app2 by exact H. intros E. apply nth_error_In, repeat_spec in E. injection E as -> ->. congruence.
    + rewrite nth_error_app1 by exact H. destruct Et as [Et|[_ ->]]; [apply (I10 t tbl Et)|cbn in H; lia].
  - intros u i AC. rewrite <- (I11 u i AC). unfold look, put_thr. cbn [t_thr]. destruct (Z.eqb_spec u t) as [->|]; [|reflexivity].
    assert (Z0 : forall j, match nth_error (repeat (0, 0) m) j with Some (q', v) => if q' =? sof i then v else 0 | None => 0 end = 0).
    { intros j. destruct (nth_error (repeat (0, 0) m) j) as [[a b]|] eqn:E; [|reflexivity]. apply nth_error_In, repeat_spec in E. injection E as -> ->. destruct (0 =? sof i); reflexivity. }
    destruct (le_lt_dec (length tbl) (Z.to_nat (kof i))) as [H|H].
    + rewrite nth_error_app2, Z0 by exact H. destruct Et as [->|[-> _]]; [|reflexivity]. rewrite (proj2 (nth_error_None tbl _)) by exact H. reflexivity.
    + rewrite nth_error_app1 by exact H. destruct Et as [->|[_ ->]]; [reflexivity|cbn in H; lia].
Qed.
Lemma write_ok s g kof sof n t k i tbl v : inv s g kof sof n -> cur g t = Some (k, Some i) -> t_thr s t = Some tbl -> 0 <= k < Z.of_nat (length tbl) ->
  inv (put_pend (put_thr s t (upd tbl (Z.to_nat k) (sof i, v))) t None) {| live := live g; nxt := nxt g; val := fun u j => if (u =? t) && (j =? i)%nat then v else val g u j; cur := fset (cur g) t None; arg := arg g |} kof sof (n + 1).
Proof.
  intros I C Et Hk. destruct (v_cur _ _ _ _ _ I t k i C) as (Ci & Ck & Cj). pose proof (fun m => live_unique s g kof sof n k m i I) as LU. pose proof (fun m => sof_inj s g kof sof n m i I) as SI.
  destruct I as [I1 I2 I3 I4 I5 I6 I7 I8 I9 I10 I11 I12 I13 I14]. constructor; cbn [live nxt val cur arg]; auto.
  - intros j Hj. destruct (I6 j Hj) as [A B]. split; [change (0 <= slot s j <= n + 1); lia|exact B].
  - intros u j Hj. destruct (Nat.eqb_spec j i); [lia|]. rewrite andb_false_r. apply I9, Hj.
  - intros u tb. cbn [t_thr put_thr put_pend]. destruct (Z.eqb_spec u t) as [->|Nu].
    + intros [= <-]. destruct (I10 t tbl Et) as [A B]. split; [rewrite upd_length; exact A|]. intros m q w. rewrite nth_error_upd. destruct (Nat.eqb_spec (Z.to_nat k) m) as [<-|Nm].
      * destruct (Nat.ltb_spec (Z.to_nat k) (length tbl)); [|lia]. cbn [andb]. intros [= <- <-] _. exists i. rewrite Nat.eqb_refl. repeat split; auto. lia.
      * cbn [andb]. intros En Nw. destruct (B m q w En Nw) as (j & J1 & J2 & J3 & J4). exists j. destruct (Nat.eqb_spec j i) as [->|]; [lia|]. cbn. auto.
    + intros E. destruct (I10 u tb E) as [A B]. split; [exact A|]. cbn [andb]. exact B.
  - intros u m AC. unfold look, put_thr, put_pend. cbn [t_thr]. destruct (Z.eqb_spec u t) as [->|Nu]; cbn [andb].
    + destruct AC as [(k' & L)|(k' & C')]; [|cbn [cur] in C'; unfold fset in C'; rewrite Z.eqb_refl in C'; discriminate]. cbn [live] in L. destruct (I5 k' m L) as (Rk & Rm & Km & Sm). subst k'. rewrite nth_error_upd.
      destruct (Nat.eqb_spec (Z.to_nat k) (Z.to_nat (kof m))) as [E|E].
      * destruct (Nat.ltb_spec (Z.to_nat k) (length tbl)); [|lia]. cbn [andb]. assert (KE : kof m = k) by lia. destruct (Nat.eqb_spec m i) as [->|Nm]; [rewrite Z.eqb_refl; reflexivity|].
        destruct (Z.eqb_spec (sof i) (sof m)) as [Q|Q]; [exfalso; apply Nm, SI; auto; congruence|]. symmetry. rewrite KE in L. pose proof (LU m L Ci Ck). apply Cj; auto. lia.
      * cbn [andb]. destruct (Nat.eqb_spec m i) as [->|Nm]; [exfalso; apply E; congruence|]. pose proof (I11 t m (or_introl (ex_intro _ _ L))) as Q. unfold look in Q. rewrite Et in Q. exact Q.
    + pose proof (I11 u m) as Q. unfold look in Q. apply Q. destruct AC as [L|(k' & C')]; [left; exact L|right]. cbn [cur] in C'. unfold fset in C'. destruct (Z.eqb_spec u t); [contradiction|]. eauto.
  - intros u. unfold pend_of, put_pend. cbn [t_pend]. unfold fset. destruct (Z.eqb_spec u t) as [->|]; [exact Logic.I|apply I12].
  - intros u j m. unfold fset. destruct (Z.eqb_spec u t) as [->|Nu]; [discriminate|]. cbn [andb]. apply I13.
  - intros u. unfold put_pend. cbn [t_pend]. destruct (Z.eqb_spec u t) as [->|]; [exact Logic.I|apply I14].
Qed.

Lemma put_twice s g kof sof n t a b g' : inv (put_pend (put_thr (put_thr s t a) t b) t None) g kof sof n -> g = g' -> inv (put_pend (put_thr s t b) t None) g' kof sof n.
Proof.
  intros [I1 I2 I3 I4 I5 I6 I7 I8 I9 I10 I11 I12 I13 I14] <-.
  assert (E : forall u, t_thr (put_pend (put_thr (put_thr s t a) t b) t None) u = t_thr (put_pend (put_thr s t b) t None) u) by (intros u; cbn; destruct (u =? t); reflexivity).
  constructor; auto; [intros u tb Et; apply (I10 u tb); rewrite E; exact Et|]. intros u i AC. rewrite <- (I11 u i AC). unfold look. rewrite E. reflexivity.
Qed.

Lemma set_end_ok s g kof sof n t k q v : inv s g kof sof n -> t_pend s t = Some (PSet k q v) ->
  exists x, set_end s t k q v = Ok x /\ exists g', accept g (LSetE t k v (snd x)) g' /\ inv (put_pend (fst x) t None) g' kof sof (n + 1).
Proof.
  intros I E. pose proof (v_arg _ _ _ _ _ I t) as AR. rewrite E in AR. destruct (pend_cur_some s g kof sof n t k q I (or_intror (ex_intro _ v E))) as (oi & C & ->). destruct oi as [i|]; cbn [option_map set_end].
  - destruct (v_cur _ _ _ _ _ I t k i C) as (Ci & Ck & Cj). destruct (v_inc _ _ _ _ _ I i Ci) as (Kr & _). rewrite Ck in Kr. unfold t_size in *.
    set (tbl0 := match t_thr s t with Some tbl => tbl | None => repeat (0, 0) (length (t_slots s)) end).
    assert (L0 : (length tbl0 <= length (t_slots s))%nat) by (unfold tbl0; destruct (t_thr s t) as [tb|] eqn:Et; [apply (v_tbl _ _ _ _ _ I t tb Et)|rewrite repeat_length; lia]).
    assert (EX : exists m, let tbl := tbl0 ++ repeat (0, 0) m in (if Z.of_nat (length tbl0) <=? k then if Z.of_nat (length (t_slots s)) <? Z.of_nat (length tbl0) then Aborted else Ok (tbl0 ++ repeat (0, 0) (length (t_slots s) - length tbl0)) else Ok tbl0) = Ok tbl /\ (length tbl <= length (t_slots s))%nat /\ k < Z.of_nat (length tbl)).
    { destruct (Z.leb_spec (Z.of_nat (length tbl0)) k) as [H|H].
      - exists (length (t_slots s) - length tbl0)%nat. destruct (Z.ltb_spec (Z.of_nat (length (t_slots s))) (Z.of_nat (length tbl0))); [lia|]. cbn zeta. rewrite app_length, repeat_length. split; [reflexivity|]. lia.
      - exists 0%nat. cbn [repeat]. rewrite app_nil_r. cbn zeta. split; [reflexivity|]. lia. }
    destruct EX as (m & EQ & Lm & Lk). cbn zeta in Lm, Lk. rewrite EQ. cbn [bind]. destruct (Z.leb_spec (Z.of_nat (length (tbl0 ++ repeat (0, 0) m))) k); [lia|]. destruct (Z.ltb_spec k 0); [lia|].
    eexists. split; [reflexivity|]. cbn [fst snd]. eexists. split; [apply (A_sete g t k v i C AR)|].
    assert (IE : inv (put_thr s t (tbl0 ++ repeat (0, 0) m)) g kof sof n).
    { unfold tbl0 in *. destruct (t_thr s t) as [tb|] eqn:Et.
      - apply extend_ok; [exact I|auto|]. rewrite app_length, repeat_length in Lm. exact Lm.
      - rewrite <- repeat_app. apply (extend_ok s g kof sof n t [] _ I); [auto|]. rewrite app_length, !repeat_length in Lm. cbn. lia. }
    refine (put_twice _ _ _ _ _ _ _ _ _ (write_ok _ g kof sof n t k i _ v IE C _ _) eq_refl); [cbn [t_thr put_thr]; rewrite Z.eqb_refl; reflexivity|lia].
  - eexists. split; [reflexivity|]. cbn [fst snd]. eexists. split; [apply (A_sete_err g t k v C AR)|]. apply end_ok, I.
Qed.

Lemma init_inv : inv tls_init sp0 (fun _ => 0) (fun _ => 0) 0.
Proof.
  assert (SL : forall k, slot tls_init k = 0) by (intros k; unfold slot, tls_init; cbn [t_slots]; apply nth_repeat).
  constructor; cbn [live nxt val cur arg sp0]; try (intros; discriminate); try (intros; lia); auto.
  - exists 1. split; [reflexivity|lia].
  - constructor; cbn [t_bits tls_init bits bit_cnt]; [lia|reflexivity|repeat constructor; lia|]. intros i Hi. unfold bitval. cbn [bits t_bits tls_init]. destruct (Z.to_nat (i / 8)) as [|[|[|]]]; apply Z.bits_0.
  - intros k Hk. split; [|congruence]. unfold bitval. cbn [bits t_bits tls_init]. destruct (Z.to_nat (k / 8)) as [|[|[|]]]; cbn [nth]; rewrite Z.bits_0; discriminate.
  - intros k Hk. rewrite SL. split; [lia|]. cbn. split; [discriminate|congruence].
  - intros t. exact Logic.I.
  - intros t. exact Logic.I.
Qed.

Lemma exists_key_live tr g : accepts tr g -> forall k, exists_key tr k = true -> exists i, live g k = Some i.
Proof.
  induction 1 as [|tr g l g' H IH A]; intros k; [discriminate|]. unfold exists_key. rewrite fold_left_app. cbn [fold_left]. fold (exists_key tr k). specialize (IH k).
  destruct A as [t r C R L|t r C R|t k' i C L|t k' C|t k' v C|t k' oi C Y|t k' v i C Y|t k' v C Y]; cbn [live]; auto; unfold fset.
  - destruct (Z.leb_spec 0 r); [|lia]. cbn [andb]. destruct (Z.eqb_spec r k) as [->|N]; [rewrite Z.eqb_refl; eauto|]. destruct (Z.eqb_spec k r); [congruence|]. exact IH.
  - destruct (Z.leb_spec 0 r); [lia|]. exact IH.
  - destruct (Z.eqb_spec k' k) as [->|N]; [discriminate|]. destruct (Z.eqb_spec k k'); [congruence|]. exact IH.
Qed.

(** ** C30 *)
Lemma refine_inv tr o : texec tr o -> deletes_ok tr -> Z.of_nat (length tr) < 18446744073709551616 ->
  exists s g kof sof, o = Ok s /\ accepts tr g /\ inv s g kof sof (Z.of_nat (length tr)).
Proof.
  induction 1 as [|tr s l s' H IH ST]; intros D N.
  - exists tls_init, sp0, (fun _ => 0), (fun _ => 0). split; [reflexivity|]. split; [constructor|apply init_inv].
  - rewrite app_length in *. cbn [length] in *. destruct IH as (s0 & g & kof & sof & E & A & I); [|lia|].
    { intros pre t k r post Q. apply (D pre t k r (post ++ [l])). rewrite Q, <- app_assoc. reflexivity. }
    injection E as <-. replace (Z.of_nat (length tr + 1)) with (Z.of_nat (length tr) + 1) in * by lia. set (n := Z.of_nat (length tr)) in *.
    assert (DL : forall t k r, l = LDelete t k r -> exists i, live g k = Some i) by (intros t k r ->; apply (exists_key_live tr g A k), (D tr t k r []); reflexivity).
    destruct ST as [t a1 a2 x P Q|t a1 a2 P Q|t key x P Q|t key P Q|t key q P Q|t key v q P Q|t key P Q|t key q x P Q|t key q P Q|t key q v x P Q|t key q v P Q].
    + destruct (create_ok s g kof sof n t a1 a2 I N (pend_cur _ _ _ _ _ _ I P)) as (y & Y & g' & kof' & sof' & A' & I'). rewrite Y in Q. injection Q as ->. exists (fst x), g', kof', sof'. split; [reflexivity|]. split; [econstructor; eassumption|exact I'].
    + destruct (create_ok s g kof sof n t a1 a2 I N (pend_cur _ _ _ _ _ _ I P)) as (y & Y & _). destruct (Q y Y).
    + destruct (DL t key (snd x) eq_refl) as (i & L). destruct (delete_ok s g kof sof n t key i I N (pend_cur _ _ _ _ _ _ I P) L) as (y & Y & g' & kof' & sof' & A' & I'). rewrite Y in Q. injection Q as ->. exists (fst x), g', kof', sof'. split; [reflexivity|]. split; [econstructor; eassumption|exact I'].
    + destruct (DL t key 0 eq_refl) as (i & L). destruct (delete_ok s g kof sof n t key i I N (pend_cur _ _ _ _ _ _ I P) L) as (y & Y & _). destruct (Q y Y).
    + rewrite (read_slot_ok _ _ _ _ _ key I) in Q. injection Q as <-. eexists _, _, kof, sof. split; [reflexivity|]. split; [econstructor; [eassumption|apply A_getb, (pend_cur _ _ _ _ _ _ I P)]|]. apply begin_ok; auto.
    + rewrite (read_slot_ok _ _ _ _ _ key I) in Q. injection Q as <-. eexists _, _, kof, sof. split; [reflexivity|]. split; [econstructor; [eassumption|apply A_setb, (pend_cur _ _ _ _ _ _ I P)]|]. apply begin_ok; eauto.
    + destruct (Q _ (read_slot_ok _ _ _ _ _ key I)).
    + destruct (get_end_ok s g kof sof n t key q I P) as (y & Y & g' & A' & I'). rewrite Y in Q. injection Q as ->. eexists _, g', kof, sof. split; [reflexivity|]. split; [econstructor; eassumption|exact I'].
    + destruct (get_end_ok s g kof sof n t key q I P) as (y & Y & _). destruct (Q y Y).
    + destruct (set_end_ok s g kof sof n t key q v I P) as (y & Y & g' & A' & I'). rewrite Y in Q. injection Q as ->. eexists _, g', kof, sof. split; [reflexivity|]. split; [econstructor; eassumption|exact I'].
    + destruct (set_end_ok s g kof sof n t key q v I P) as (y & Y & _). destruct (Q y Y).
Qed.

(** Every execution that deletes only existing keys is an execution of the specification; it never aborts or has undefined behaviour. *)
Theorem C30_refines tr o : texec tr o -> deletes_ok tr -> Z.of_nat (length tr) < 2 ^ 64 -> exists s g, o = Ok s /\ accepts tr g.
Proof. intros H D N. destruct (refine_inv tr o H D N) as (s & g & _ & _ & E & A & _). eauto. Qed.

(** ** The property on traces *)
Definition by_thread (t : Z) (l : lab) : Prop :=
  match l with LCreate u _ | LDelete u _ _ | LGetB u _ | LGetE u _ _ | LSetB u _ _ | LSetE u _ _ _ => u = t end.
(** the label does not create or delete key [k] *)
Definition keeps (k : Z) (l : lab) : Prop := match l with LCreate _ r => r <> k | LDelete _ k' _ => k' <> k | _ => True end.
(** the label is not a successful set of key [k] by thread [t] *)
Definition no_set (t k : Z) (l : lab) : Prop := match l with LSetE u k' _ r => u <> t \/ k' <> k \/ r <> 0 | _ => True end.

Definition sok (g : sp) : Prop := exists kof, (forall k i, live g k = Some i -> (i < nxt g)%nat /\ kof i = k /\ 0 <= k) /\ (forall t k i, cur g t = Some (k, Some i) -> (i < nxt g)%nat /\ kof i = k /\ 0 <= k).
Lemma sok_step g l g' : accept g l g' -> sok g -> sok g'.
Proof.
  intros A (kof & B & C). destruct A as [t r X R L|t r X R|t k' i X L|t k' X|t k' v X|t k' oi X Y|t k' v i X Y|t k' v X Y]; unfold sok; cbn [live nxt cur]; unfold fset.
  - exists (fun j => if (j =? nxt g)%nat then r else kof j). split.
    + intros k i. destruct (Z.eqb_spec k r) as [->|]; [intros [= <-]; rewrite Nat.eqb_refl; split; [lia|auto]|]. intros E. destruct (B k i E) as (? & ? & ?). destruct (Nat.eqb_spec i (nxt g)); [lia|]. split; [lia|auto].
    + intros u k i E. destruct (C u k i E) as (? & ? & ?). destruct (Nat.eqb_spec i (nxt g)); [lia|]. split; [lia|auto].
  - exists kof. auto.
  - exists kof. split; [|exact C]. intros k j. destruct (k =? k'); [discriminate|apply B].
  - exists kof. split; [exact B|]. intros u k j. destruct (u =? t); [intros [= <- E]; apply B, E|apply C].
  - exists kof. split; [exact B|]. intros u k j. destruct (u =? t); [intros [= <- E]; apply B, E|apply C].
  - exists kof. split; [exact B|]. intros u k j. destruct (u =? t); [discriminate|apply C].
  - exists kof. split; [exact B|]. intros u k j. destruct (u =? t); [discriminate|apply C].
  - exists kof. split; [exact B|]. intros u k j. destruct (u =? t); [discriminate|apply C].
Qed.

(** Executions of the specification from a given state. *)
Inductive run : sp -> list lab -> sp -> Prop :=
| R_nil g : run g [] g
| R_cons g l g1 tr g2 : accept g l g1 -> run g1 tr g2 -> run g (l :: tr) g2.
Lemma run_snoc g tr g1 l g2 : run g tr g1 -> accept g1 l g2 -> run g (tr ++ [l]) g2.
Proof. induction 1 as [g|g l' g' tr g'' A R IH]; intros B; cbn [app]; [econstructor; [exact B|constructor]|econstructor; eauto]. Qed.
Lemma accepts_run tr g : accepts tr g -> run sp0 tr g.
Proof. induction 1 as [|tr g l g' H IH A]; [constructor|eapply run_snoc; eauto]. Qed.
Lemma run_app g a b g' : run g (a ++ b) g' -> exists g1, run g a g1 /\ run g1 b g'.
Proof.
  revert g. induction a as [|l a IH]; intros g H; [exists g; split; [constructor|exact H]|]. cbn [app] in H. inversion H as [|? ? g1 ? ? A R]; subst. destruct (IH g1 R) as (g2 & R1 & R2). exists g2. split; [econstructor; eauto|exact R2].
Qed.
Lemma run_cons g l b g' : run g (l :: b) g' -> exists g1, accept g l g1 /\ run g1 b g'.
Proof. inversion 1; subst; eauto. Qed.
Lemma run_sok g tr g' : run g tr g' -> sok g -> sok g'.
Proof. induction 1 as [g|g l g1 tr g' A R IH]; intros K; [exact K|apply IH; eapply sok_step; eauto]. Qed.
Lemma sok0 : sok sp0. Proof. exists (fun _ => 0); split; intros; discriminate. Qed.
(** An incarnation that is gone does not come back. *)
Lemma gone_step g l g' k i : sok g -> accept g l g' -> (i < nxt g)%nat -> live g' k = Some i -> live g k = Some i /\ keeps k l.
Proof.
  intros K A Hi. destruct A as [t r X R L|t r X R|t k' j X L|t k' X|t k' v X|t k' oi X Y|t k' v j X Y|t k' v X Y]; cbn [live]; unfold fset; cbn [keeps]; auto.
  - destruct (Z.eqb_spec k r) as [->|]; [intros [= E]; lia|]. auto.
  - intros E. split; [exact E|]. destruct K as (kof & B & C). destruct (B k i E). lia.
  - destruct (Z.eqb_spec k k') as [->|]; [discriminate|]. auto.
Qed.
Lemma nxt_step g l g' : accept g l g' -> (nxt g <= nxt g')%nat.
Proof. destruct 1; cbn [nxt]; lia. Qed.
Lemma gone g tr g' k i : run g tr g' -> sok g -> (i < nxt g)%nat -> live g' k = Some i -> live g k = Some i /\ Forall (keeps k) tr.
Proof.
  induction 1 as [g|g l g1 tr g' A R IH]; intros K Hi L; [auto|]. destruct (IH (sok_step _ _ _ A K) ltac:(pose proof (nxt_step _ _ _ A); lia) L) as [L1 F]. destruct (gone_step g l g1 k i K A Hi L1). auto.
Qed.
Lemma stay_step g l g' k i : accept g l g' -> keeps k l -> live g k = Some i -> live g' k = Some i.
Proof.
  intros A. destruct A as [t r X R L|t r X R|t k' j X L|t k' X|t k' v X|t k' oi X Y|t k' v j X Y|t k' v X Y]; cbn [live keeps]; unfold fset; auto.
  - intros N. destruct (Z.eqb_spec k r); [congruence|]. auto.
  - intros N. destruct (Z.eqb_spec k k'); [congruence|]. auto.
Qed.
Lemma stay g tr g' k i : run g tr g' -> Forall (keeps k) tr -> live g k = Some i -> live g' k = Some i.
Proof. induction 1 as [g|g l g1 tr g' A R IH]; intros F L; [exact L|]. inversion F; subst. apply IH; [assumption|]. eapply stay_step; eauto. Qed.
Lemma cur_other g l g' t : accept g l g' -> ~ by_thread t l -> cur g' t = cur g t.
Proof. intros A N. destruct A; cbn [cur by_thread] in *; unfold fset; auto; destruct (Z.eqb_spec t t0); congruence. Qed.
Lemma curs_other g tr g' t : run g tr g' -> Forall (fun l => ~ by_thread t l) tr -> cur g' t = cur g t.
Proof. induction 1 as [g|g l g1 tr g' A R IH]; intros F; [reflexivity|]. inversion F; subst. rewrite IH by assumption. eapply cur_other; eauto. Qed.


(** Thread [t]'s last completed set of [k] stored [v]; since that call began [k] was neither created nor deleted. *)
Definition src (tr : list lab) (t k v : Z) : Prop := exists a b c, tr = a ++ LSetB t k v :: b ++ LSetE t k v 0 :: c /\
  Forall (fun l => ~ by_thread t l) b /\ Forall (keeps k) (b ++ c) /\ Forall (no_set t k) c.
Lemma src_snoc tr t k v l : src tr t k v -> keeps k l -> no_set t k l -> src (tr ++ [l]) t k v.
Proof.
  intros (a & b & c & -> & B & K & N) H1 H2. exists a, b, (c ++ [l]). split; [rewrite <- app_assoc; cbn [app]; rewrite <- app_assoc; reflexivity|]. split; [exact B|]. rewrite app_assoc, !Forall_app in *. auto.
Qed.
Definition open_set (tr : list lab) (t k v : Z) : Prop := exists a b, tr = a ++ LSetB t k v :: b /\ Forall (fun l => ~ by_thread t l) b /\ Forall (keeps k) b.
Lemma open_snoc tr t k v l : open_set tr t k v -> ~ by_thread t l -> keeps k l -> open_set (tr ++ [l]) t k v.
Proof. intros (a & b & -> & B & K) H1 H2. exists a, (b ++ [l]). rewrite <- app_assoc. split; [reflexivity|]. rewrite !Forall_app. auto. Qed.
Record tinv (tr : list lab) (g : sp) (kof : nat -> Z) : Prop := {
  w_live : forall k i, live g k = Some i -> (i < nxt g)%nat /\ kof i = k /\ 0 <= k /\ forall j, (j < nxt g)%nat -> kof j = k -> (j <= i)%nat;
  w_cur : forall t k i, cur g t = Some (k, Some i) -> (i < nxt g)%nat /\ kof i = k /\ 0 <= k;
  w_new : forall t k i j, cur g t = Some (k, Some i) -> (i < j)%nat -> (j < nxt g)%nat -> kof j = k -> val g t j = 0;
  w_zero : forall t i, (nxt g <= i)%nat -> val g t i = 0;
  w_src : forall t k i, live g k = Some i -> val g t i <> 0 -> src tr t k (val g t i);
  w_pen : forall t k i v, cur g t = Some (k, Some i) -> arg g t = Some v -> live g k = Some i -> open_set tr t k v }.
Lemma tinv_step tr g kof l g' : tinv tr g kof -> accept g l g' -> exists kof', tinv (tr ++ [l]) g' kof'.
Proof.
  intros [W1 W2 W3 W4 W5 W6] A. destruct A as [u r X R L|u r X R|u k' i' X L|u k' X|u k' v' X|u k' oi X Y|u k' v' i' X Y|u k' v' X Y].
  - exists (fun j => if (j =? nxt g)%nat then r else kof j). constructor; cbn [live nxt val cur arg]; unfold fset.
    + intros k i. destruct (Z.eqb_spec k r) as [->|N].
      * intros [= <-]. rewrite Nat.eqb_refl. split; [lia|]. split; [reflexivity|]. split; [exact R|]. intros; lia.
      * intros E. destruct (W1 k i E) as (P1 & P2 & P3 & P4). destruct (Nat.eqb_spec i (nxt g)); [lia|]. split; [lia|]. split; [exact P2|]. split; [exact P3|]. intros j Hj. destruct (Nat.eqb_spec j (nxt g)); [congruence|]. apply P4. lia.
    + intros t k i E. destruct (W2 t k i E) as (P1 & P2 & P3). destruct (Nat.eqb_spec i (nxt g)); [lia|]. split; [lia|auto].
    + intros t k i j E Hij Hj. destruct (Nat.eqb_spec j (nxt g)); [reflexivity|]. apply (W3 t k i j E Hij). lia.
    + intros t i Hi. destruct (Nat.eqb_spec i (nxt g)); [reflexivity|]. apply W4. lia.
    + intros t k i. destruct (Z.eqb_spec k r) as [->|N]; [intros [= <-]; rewrite Nat.eqb_refl; congruence|]. intros E. destruct (W1 k i E) as (P1 & _). destruct (Nat.eqb_spec i (nxt g)); [lia|]. intros V. apply src_snoc; [apply (W5 t k i E V)|cbn; congruence|exact Logic.I].
    + intros t k i v E V. destruct (Z.eqb_spec k r) as [->|N]; [intros [= <-]; destruct (W2 t r _ E); lia|]. intros E'. apply open_snoc; [apply (W6 t k i v E V E')|cbn; intros ->; congruence|cbn; congruence].
  - exists kof. constructor; auto.
    + intros t k i E V. apply src_snoc; [apply (W5 t k i E V)| |exact Logic.I]. cbn. destruct (W1 k i E). lia.
    + intros t k i v E V E'. apply open_snoc; [apply (W6 t k i v E V E')|cbn; intros ->; congruence|]. cbn. destruct (W1 k i E'). lia.
  - exists kof. constructor; cbn [live nxt val cur arg]; unfold fset; auto.
    + intros k i. destruct (Z.eqb_spec k k'); [discriminate|]. apply W1.
    + intros t k i. destruct (Z.eqb_spec k k') as [->|N]; [discriminate|]. intros E V. apply src_snoc; [apply (W5 t k i E V)|cbn; congruence|exact Logic.I].
    + intros t k i v E V. destruct (Z.eqb_spec k k') as [->|N]; [discriminate|]. intros E'. apply open_snoc; [apply (W6 t k i v E V E')|cbn; intros ->; congruence|cbn; congruence].
  - exists kof. constructor; cbn [live nxt val cur arg]; unfold fset; auto.
    + intros t k i. destruct (Z.eqb_spec t u) as [->|N]; [|apply W2]. intros [= <- E]. destruct (W1 _ _ E) as (P1 & P2 & P3 & P4). auto.
    + intros t k i j. destruct (Z.eqb_spec t u) as [->|N]; [|apply W3]. intros [= <- E] Hij Hj Kj. destruct (W1 _ _ E) as (P1 & P2 & P3 & P4). specialize (P4 j Hj Kj). lia.
    + intros t k i E V. apply src_snoc; [apply (W5 t k i E V)|exact Logic.I|exact Logic.I].
    + intros t k i v. destruct (Z.eqb_spec t u) as [->|N]; [discriminate|]. intros E V E'. apply open_snoc; [apply (W6 t k i v E V E')|cbn; congruence|exact Logic.I].
  - exists kof. constructor; cbn [live nxt val cur arg]; unfold fset; auto.
    + intros t k i. destruct (Z.eqb_spec t u) as [->|N]; [|apply W2]. intros [= <- E]. destruct (W1 _ _ E) as (P1 & P2 & P3 & P4). auto.
    + intros t k i j. destruct (Z.eqb_spec t u) as [->|N]; [|apply W3]. intros [= <- E] Hij Hj Kj. destruct (W1 _ _ E) as (P1 & P2 & P3 & P4). specialize (P4 j Hj Kj). lia.
    + intros t k i E V. apply src_snoc; [apply (W5 t k i E V)|exact Logic.I|exact Logic.I].
    + intros t k i v. destruct (Z.eqb_spec t u) as [->|N].
      * intros [= <- E] [= <-] _. exists tr, []. repeat split; constructor.
      * intros E V E'. apply open_snoc; [apply (W6 t k i v E V E')|cbn; congruence|exact Logic.I].
  - exists kof. constructor; cbn [live nxt val cur arg]; unfold fset; auto.
    + intros t k i. destruct (Z.eqb_spec t u) as [->|N]; [discriminate|apply W2].
    + intros t k i j. destruct (Z.eqb_spec t u) as [->|N]; [discriminate|apply W3].
    + intros t k i E V. apply src_snoc; [apply (W5 t k i E V)|exact Logic.I|exact Logic.I].
    + intros t k i v. destruct (Z.eqb_spec t u) as [->|N]; [discriminate|]. intros E V E'. apply open_snoc; [apply (W6 t k i v E V E')|cbn; congruence|exact Logic.I].
  - destruct (W2 u k' i' X) as (Q1 & Q2 & Q3). exists kof. constructor; cbn [live nxt val cur arg]; unfold fset; auto.
    + intros t k i. destruct (Z.eqb_spec t u) as [->|N]; [discriminate|apply W2].
    + intros t k i j. destruct (Z.eqb_spec t u) as [->|N]; [discriminate|]. cbn [andb]. apply W3.
    + intros t i Hi. destruct (Nat.eqb_spec i i'); [lia|]. rewrite andb_false_r. apply W4, Hi.
    + intros t k i E. destruct (W1 k i E) as (P1 & P2 & P3 & P4). destruct (Z.eqb_spec t u) as [->|Nt]; cbn [andb].
      * destruct (Nat.eqb_spec i i') as [->|Ni].
        -- intros _. rewrite Q2, P2 in X || (assert (KK : k' = k) by congruence; rewrite KK in * ). destruct (W6 u k i' v' X Y E) as (a & b & -> & B & K). exists a, b, []. split; [rewrite <- app_assoc; reflexivity|]. rewrite app_nil_r. repeat split; auto.
        -- intros V. apply src_snoc; [apply (W5 u k i E V)|exact Logic.I|]. cbn. right. left. intros ->. apply V. specialize (P4 i' Q1 Q2). apply (W3 u k i' i X); auto. lia.
      * intros V. apply src_snoc; [apply (W5 t k i E V)|exact Logic.I|]. cbn. left. congruence.
    + intros t k i v. destruct (Z.eqb_spec t u) as [->|N]; [discriminate|]. intros E V E'. apply open_snoc; [apply (W6 t k i v E V E')|cbn; congruence|exact Logic.I].
  - exists kof. constructor; cbn [live nxt val cur arg]; unfold fset; auto.
    + intros t k i. destruct (Z.eqb_spec t u) as [->|N]; [discriminate|apply W2].
    + intros t k i j. destruct (Z.eqb_spec t u) as [->|N]; [discriminate|apply W3].
    + intros t k i E V. apply src_snoc; [apply (W5 t k i E V)|exact Logic.I|]. cbn. right. right. discriminate.
    + intros t k i v. destruct (Z.eqb_spec t u) as [->|N]; [discriminate|]. intros E V E'. apply open_snoc; [apply (W6 t k i v E V E')|cbn; congruence|exact Logic.I].
Qed.
Lemma accepts_tinv tr g : accepts tr g -> exists kof, tinv tr g kof.
Proof.
  induction 1 as [|tr g l g' H [kof IH] A]; [exists (fun _ => 0); constructor; cbn; intros; try discriminate; try congruence; lia|eapply tinv_step; eauto].
Qed.
Lemma run_accepts_aux g tr g' : run g tr g' -> forall pre, accepts pre g -> accepts (pre ++ tr) g'.
Proof.
  induction 1 as [g|g l g1 tr g' A R IH]; intros pre H; [rewrite app_nil_r; exact H|]. replace (pre ++ l :: tr) with ((pre ++ [l]) ++ tr) by (rewrite <- app_assoc; reflexivity). apply IH. econstructor; eauto.
Qed.
Lemma run_accepts tr g : run sp0 tr g -> accepts tr g.
Proof. intros H. apply (run_accepts_aux _ _ _ H []). constructor. Qed.
Lemma val_other g l g' t i : accept g l g' -> ~ by_thread t l -> (i < nxt g)%nat -> val g' t i = val g t i.
Proof.
  intros A N Hi. destruct A; cbn [val by_thread] in *; auto; [destruct (Nat.eqb_spec i (nxt g)); [lia|reflexivity]|]. destruct (Z.eqb_spec t t0); [congruence|reflexivity].
Qed.
Lemma vals_other g tr g' t i : run g tr g' -> Forall (fun l => ~ by_thread t l) tr -> (i < nxt g)%nat -> val g' t i = val g t i.
Proof.
  induction 1 as [g|g l g1 tr g' A R IH]; intros F Hi; [reflexivity|]. inversion F; subst. rewrite IH; [eapply val_other; eauto|assumption|]. pose proof (nxt_step _ _ _ A). lia.
Qed.
(** A finished get, as the specification sees it. *)
Lemma get_split g t k v mid post g' : run g (LGetB t k :: mid ++ LGetE t k v :: post) g' -> Forall (fun l => ~ by_thread t l) mid -> sok g ->
  v = match live g k with Some i => val g t i | None => 0 end.
Proof.
  intros R F K. apply run_cons in R as (g1 & A1 & R). apply run_app in R as (g2 & R2 & R). apply run_cons in R as (g3 & A3 & _).
  pose proof (curs_other _ _ _ t R2 F) as C. pose proof (fun i => vals_other _ _ _ t i R2 F) as V. inversion A1; subst. cbn [cur val nxt] in *. unfold fset in C. rewrite Z.eqb_refl in C.
  inversion A3; subst. match goal with H : cur g2 t = Some (k, ?o) |- _ => rewrite C in H; injection H as <- end. destruct (live g k) as [i|] eqn:L; [|reflexivity]. apply V. destruct K as (kof & B & _). apply (B k i L).
Qed.

(** A get that returns a value returns what the same thread last stored under the same key, since the key was last created. *)
Theorem C30_get_own tr o pre t k v mid post : texec tr o -> deletes_ok tr -> Z.of_nat (length tr) < 2 ^ 64 ->
  tr = pre ++ LGetB t k :: mid ++ LGetE t k v :: post -> Forall (fun l => ~ by_thread t l) mid -> v <> 0 -> src pre t k v.
Proof.
  intros H D N -> F V. destruct (C30_refines _ o H D N) as (s & g & _ & A). apply accepts_run, run_app in A as (g0 & R0 & R1).
  pose proof (get_split _ _ _ _ _ _ _ R1 F (run_sok _ _ _ R0 sok0)) as E. destruct (live g0 k) as [i|] eqn:L; [|congruence]. destruct (accepts_tinv _ _ (run_accepts _ _ R0)) as [kof T]. rewrite E. apply (w_src _ _ _ T t k i L). congruence.
Qed.
Lemma val_keep g l g' t k i kof : accept g l g' -> no_set t k l -> (i < nxt g)%nat -> kof i = k -> (forall u k j, cur g u = Some (k, Some j) -> kof j = k) -> val g' t i = val g t i.
Proof.
  intros A N Hi K C. destruct A; cbn [val no_set] in *; auto; [destruct (Nat.eqb_spec i (nxt g)); [lia|reflexivity]|].
  destruct (Z.eqb_spec t t0) as [->|]; [|reflexivity]. destruct (Nat.eqb_spec i i0) as [->|]; [|reflexivity]. cbn. exfalso. pose proof (C _ _ _ H). destruct N as [N|[N|N]]; congruence.
Qed.
Lemma vals_keep tr : forall pre g g' t k i, accepts pre g -> run g tr g' -> Forall (no_set t k) tr -> live g k = Some i -> Forall (keeps k) tr -> val g' t i = val g t i.
Proof.
  induction tr as [|l tr IH]; intros pre g g' t k i P R F L K; [inversion R; reflexivity|]. apply run_cons in R as (g1 & A & R). inversion F; subst. inversion K; subst.
  destruct (accepts_tinv _ _ P) as [kof T]. destruct (w_live _ _ _ T k i L) as (Hi & Ki & _). rewrite (IH (pre ++ [l]) g1 g' t k i); auto.
  - eapply val_keep; eauto. intros u j m C. apply (w_cur _ _ _ T u j m C).
  - econstructor; eauto.
  - eapply stay_step; eauto.
Qed.
(** And it does return it. *)
Theorem C30_get_last tr o pre t k v w mid post : texec tr o -> deletes_ok tr -> Z.of_nat (length tr) < 2 ^ 64 ->
  tr = pre ++ LGetB t k :: mid ++ LGetE t k w :: post -> Forall (fun l => ~ by_thread t l) mid -> src pre t k v -> w = v.
Proof.
  intros H D N -> F (a & b & c & -> & B & K & NS). destruct (C30_refines _ o H D N) as (s & g & _ & A). apply accepts_run, run_app in A as (g0 & R0 & R1). pose proof (get_split _ _ _ _ _ _ _ R1 F (run_sok _ _ _ R0 sok0)) as E. rewrite E. clear E R1.
  apply run_app in R0 as (ga & Ra & R). apply run_cons in R as (gb & A1 & R). apply run_app in R as (gc & Rb & R). apply run_cons in R as (gd & A2 & Rc). apply Forall_app in K as [Kb Kc].
  pose proof (curs_other _ _ _ t Rb B) as C. inversion A1; subst. cbn [cur] in C. unfold fset in C. rewrite Z.eqb_refl in C. inversion A2; subst. match goal with Q : cur gc t = _ |- _ => rewrite C in Q; injection Q as Li end.
  assert (Lb : live gc k = Some i) by (eapply stay; eauto). assert (Ld : live g0 k = Some i) by (eapply stay; eauto). rewrite Ld.
  rewrite (vals_keep c (a ++ LSetB t k v :: b ++ [LSetE t k v 0]) _ _ t k i) with (2 := Rc); auto; [cbn [val]; rewrite Z.eqb_refl, Nat.eqb_refl; reflexivity|].
  change (a ++ LSetB t k v :: b ++ [LSetE t k v 0]) with (a ++ (LSetB t k v :: b ++ [LSetE t k v 0])). apply run_accepts_aux with (g := ga); [|apply run_accepts, Ra]. econstructor; [exact A1|]. eapply run_snoc; eauto.
Qed.
(** Creation returns a key that does not exist. *)
Theorem C30_create_fresh tr o pre t r post : texec tr o -> deletes_ok tr -> Z.of_nat (length tr) < 2 ^ 64 -> tr = pre ++ LCreate t r :: post -> 0 <= r -> exists_key pre r = false.
Proof.
  intros H D N -> R. destruct (C30_refines _ o H D N) as (s & g & _ & A). apply accepts_run, run_app in A as (g0 & R0 & R1). apply run_cons in R1 as (g1 & A1 & _). inversion A1; subst; [|lia].
  destruct (exists_key pre r) eqn:E; [|reflexivity]. destruct (exists_key_live _ _ (run_accepts _ _ R0) r E). congruence.
Qed.
Lemma live_exists_key tr g : accepts tr g -> forall k i, live g k = Some i -> exists_key tr k = true.
Proof.
  induction 1 as [|tr g l g' H IH A]; intros k j; [discriminate|]. unfold exists_key. rewrite fold_left_app. cbn [fold_left]. fold (exists_key tr k). specialize (IH k j).
  destruct A as [t r C R L|t r C R|t k' i C L|t k' C|t k' v C|t k' oi C Y|t k' v i C Y|t k' v C Y]; cbn [live]; auto; unfold fset.
  - destruct (Z.leb_spec 0 r); [|lia]. cbn [andb]. rewrite (Z.eqb_sym k r). destruct (Z.eqb_spec r k); auto.
  - destruct (Z.leb_spec 0 r); [lia|]. exact IH.
  - rewrite (Z.eqb_sym k k'). destruct (Z.eqb_spec k' k); [discriminate|auto].
Qed.
(** A set succeeds if and only if the key existed when it began. *)
Theorem C30_set_result tr o pre t k v r mid post : texec tr o -> deletes_ok tr -> Z.of_nat (length tr) < 2 ^ 64 ->
  tr = pre ++ LSetB t k v :: mid ++ LSetE t k v r :: post -> Forall (fun l => ~ by_thread t l) mid -> r = if exists_key pre k then 0 else - AOSL_EINVAL.
Proof.
  intros H D N -> F. destruct (C30_refines _ o H D N) as (s & g & _ & A). apply accepts_run, run_app in A as (g0 & R0 & R1). apply run_cons in R1 as (g1 & A1 & R). apply run_app in R as (g2 & R2 & R). apply run_cons in R as (g3 & A3 & _).
  pose proof (curs_other _ _ _ t R2 F) as C. inversion A1; subst. cbn [cur] in C. unfold fset in C. rewrite Z.eqb_refl in C. pose proof (run_accepts _ _ R0) as P. inversion A3; subst; match goal with Q : cur g2 t = _ |- _ => rewrite C in Q; injection Q as Li end.
  - rewrite (live_exists_key _ _ P k i Li). reflexivity.
  - destruct (exists_key pre k) eqn:E; [|reflexivity]. destruct (exists_key_live _ _ P k E). congruence.
Qed.
Lemma texec_prefix a : forall b o, texec (a ++ b) o -> exists o', texec a o'.
Proof.
  intros b. induction b as [|l b IH] using rev_ind; intros o H; [rewrite app_nil_r in H; eauto|]. rewrite app_assoc in H. inversion H as [Q|tr s l' s' H' S Q]; [destruct (a ++ b); discriminate|]. apply app_inj_tail in Q as [-> ->]. eauto.
Qed.
(** At most 240 keys exist, numbered from 0: the bitmap's size is 8 bit (lib/bitmap.c), the 241st creation fails. *)
Theorem C30_capacity tr o pre t r post : texec tr o -> deletes_ok tr -> Z.of_nat (length tr) < 2 ^ 64 -> tr = pre ++ LCreate t r :: post -> r < 240.
Proof.
  intros H D N ->. replace (pre ++ LCreate t r :: post) with ((pre ++ [LCreate t r]) ++ post) in * by (rewrite <- app_assoc; reflexivity). destruct (texec_prefix _ _ _ H) as [o' H'].
  destruct (refine_inv _ o' H') as (s & g & kof & sof & _ & A & I); [intros a u k q b E; apply (D a u k q (b ++ post)); rewrite E, <- app_assoc; reflexivity|rewrite app_length in N; lia|].
  destruct (Z.lt_ge_cases r 0); [lia|]. assert (E : exists_key (pre ++ [LCreate t r]) r = true) by (unfold exists_key; rewrite fold_left_app; cbn [fold_left]; rewrite Z.eqb_refl; destruct (Z.leb_spec 0 r); [reflexivity|lia]).
  destruct (exists_key_live _ _ A r E) as [i L]. destruct (v_range _ _ _ _ _ I r i L) as (R & _). destruct (v_size _ _ _ _ _ I) as (j & J1 & J2). lia.
Qed.

(** *** Concrete executions *)
(** A way to compute executions (with memory available). *)
Definition act (s : tst) (l : lab) : option tst :=
  match l with
  | LCreate t r => match t_pend s t, key_create true true s with None, Ok x => if snd x =? r then Some (fst x) else None | _, _ => None end
  | LDelete t k r => match t_pend s t, key_delete s k with None, Ok x => if snd x =? r then Some (fst x) else None | _, _ => None end
  | LGetB t k => match t_pend s t, read_slot s k with None, Ok q => Some (put_pend s t (Some (PGet k q))) | _, _ => None end
  | LSetB t k v => match t_pend s t, read_slot s k with None, Ok q => Some (put_pend s t (Some (PSet k q v))) | _, _ => None end
  | LGetE t k v => match t_pend s t with Some (PGet k' q) => if k' =? k then match get_end s t k q with Ok x => if snd x =? v then Some (put_pend (fst x) t None) else None | _ => None end else None | _ => None end
  | LSetE t k v r => match t_pend s t with Some (PSet k' q v') => if (k' =? k) && (v' =? v) then match set_end s t k q v with Ok x => if snd x =? r then Some (put_pend (fst x) t None) else None | _ => None end else None | _ => None end
  end.
Lemma act_step s l s' : act s l = Some s' -> tstep s l (Ok s').
Proof.
  destruct l as [t r|t k r|t k|t k v|t k v|t k v r]; cbn [act]; destruct (t_pend s t) as [[k' q|k' q v']|] eqn:P; try discriminate.
  - destruct (key_create true true s) as [x| |] eqn:Q; try discriminate. destruct (Z.eqb_spec (snd x) r) as [<-|]; [|discriminate]. intros [= <-]. econstructor; eauto.
  - destruct (key_delete s k) as [x| |] eqn:Q; try discriminate. destruct (Z.eqb_spec (snd x) r) as [<-|]; [|discriminate]. intros [= <-]. econstructor; eauto.
  - destruct (read_slot s k) as [x| |] eqn:Q; try discriminate. intros [= <-]. econstructor; eauto.
  - destruct (Z.eqb_spec k' k) as [->|]; [|discriminate]. destruct (get_end s t k q) as [x| |] eqn:Q; try discriminate. destruct (Z.eqb_spec (snd x) v) as [<-|]; [|discriminate]. intros [= <-]. econstructor; eauto.
  - destruct (read_slot s k) as [x| |] eqn:Q; try discriminate. intros [= <-]. econstructor; eauto.
  - destruct (Z.eqb_spec k' k) as [->|]; [|discriminate]. destruct (Z.eqb_spec v' v) as [->|]; [|discriminate]. cbn [andb]. destruct (set_end s t k q v) as [x| |] eqn:Q; try discriminate. destruct (Z.eqb_spec (snd x) r) as [<-|]; [|discriminate]. intros [= <-]. econstructor; eauto.
Qed.
Fixpoint acts (s : tst) (l : list lab) : option tst := match l with [] => Some s | x :: r => match act s x with Some s' => acts s' r | None => None end end.
Lemma acts_exec l : forall pre s s', texec pre (Ok s) -> acts s l = Some s' -> texec (pre ++ l) (Ok s').
Proof.
  induction l as [|x l IH]; intros pre s s' H E; cbn [acts] in E; [injection E as <-; rewrite app_nil_r; exact H|]. destruct (act s x) as [s1|] eqn:A; [|discriminate].
  replace (pre ++ x :: l) with ((pre ++ [x]) ++ l) by (rewrite <- app_assoc; reflexivity). apply (IH _ s1); [|exact E]. econstructor; [exact H|apply act_step, A].
Qed.
Lemma acts_ok l : match acts tls_init l with Some _ => true | None => false end = true -> exists s, texec l (Ok s).
Proof. destruct (acts tls_init l) as [s|] eqn:E; [|discriminate]. intros _. exists s. apply (acts_exec l [] tls_init s); [constructor|exact E]. Qed.

(** Two threads, one key; the key is deleted and created again: nothing is inherited. *)
Definition ex_tr : list lab := [LCreate 1 0; LSetB 1 0 5; LSetB 2 0 7; LSetE 2 0 7 0; LSetE 1 0 5 0; LGetB 1 0; LGetE 1 0 5; LDelete 2 0 0; LCreate 2 0; LGetB 1 0; LGetE 1 0 0; LGetB 1 3; LGetE 1 3 0; LSetB 1 3 1; LSetE 1 3 1 (- AOSL_EINVAL)].
Example ex_exec : (exists s, texec ex_tr (Ok s)) /\ deletes_ok ex_tr /\ exists c, ex_tr = [LCreate 1 0; LSetB 1 0 5; LSetB 2 0 7; LSetE 2 0 7 0; LSetE 1 0 5 0] ++ LGetB 1 0 :: [] ++ LGetE 1 0 5 :: c.
Proof.
  split; [apply acts_ok; vm_compute; reflexivity|]. split; [|eexists; reflexivity]. intros pre t k r post E. unfold ex_tr in E.
  do 7 (destruct pre as [|? pre]; [discriminate|cbn [app] in E; injection E as <- E]). destruct pre as [|? pre]; [injection E as <- <- <- _; reflexivity|cbn [app] in E; injection E as <- E].
  do 7 (destruct pre as [|? pre]; [discriminate|cbn [app] in E; injection E as <- E]). destruct pre; discriminate.
Qed.
(** 240 keys can be created, the next creation fails. *)
Example ex_capacity : exists s, texec (map (fun i => LCreate 1 (Z.of_nat i)) (seq 0 240) ++ [LCreate 2 (- AOSL_ENOMEM)]) (Ok s).
Proof. apply acts_ok. vm_compute. reflexivity. Qed.
(** Deleting a key twice is accepted; the next key created is then unusable: every set of it fails. *)
Theorem C30_double_delete_makes_key_unusable : exists s, texec [LCreate 1 0; LDelete 1 0 0; LDelete 1 0 0; LCreate 1 0; LSetB 1 0 5; LSetE 1 0 5 (- AOSL_EINVAL); LGetB 1 0; LGetE 1 0 0] (Ok s).
Proof. apply acts_ok. vm_compute. reflexivity. Qed.

Print Assumptions C30_refines.
Print Assumptions C30_get_own.
Print Assumptions C30_get_last.
Print Assumptions C30_create_fresh.
Print Assumptions C30_set_result.
Print Assumptions C30_capacity.
Print Assumptions C30_double_delete_makes_key_unusable.
