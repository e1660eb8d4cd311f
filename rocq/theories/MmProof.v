(** * Invariants of the memory statistics (Mm.v). *)
From Verif Require Import Base Mm MmSpec.
From Coq Require Import Permutation.
Ltac Zify.zify_post_hook ::= Z.div_mod_to_equations.

Definition csum (z : sizes) (l : list blk) : Z := fold_right (fun b a => b_size b + z_node z + a) 0 l.
Definition pcount (k : nat) (l : list blk) : Z := Z.of_nat (length (at_pos k l)).

Lemma csum_mid z l1 n l2 : csum z (l1 ++ n :: l2) = b_size n + z_node z + csum z (l1 ++ l2).
Proof. induction l1 as [|a l IH]; cbn; [reflexivity|]. unfold csum in *. rewrite IH. lia. Qed.
Lemma csum_perm z l l' : Permutation l l' -> csum z l = csum z l'.
Proof. induction 1; unfold csum in *; cbn; lia. Qed.
Lemma total_mid l1 n l2 : total (l1 ++ n :: l2) = b_size n + total (l1 ++ l2).
Proof. induction l1 as [|a l IH]; cbn; [reflexivity|]. unfold total in *. rewrite IH. lia. Qed.
Lemma at_pos_mid k l1 n l2 : at_pos k (l1 ++ n :: l2) = at_pos k l1 ++ at_pos k [n] ++ at_pos k l2.
Proof. unfold at_pos. rewrite filter_app. cbn. destruct (match b_pos n with Some j => _ | None => _ end); reflexivity. Qed.
Lemma pcount_cons k n l : pcount k (n :: l) = (if match b_pos n with Some j => (j =? k)%nat | None => false end then 1 else 0) + pcount k l.
Proof. unfold pcount, at_pos. cbn. destruct (match b_pos n with Some j => _ | None => _ end); cbn [length]; lia. Qed.
Lemma pcount_mid k l1 n l2 : pcount k (l1 ++ n :: l2) = pcount k (n :: l1 ++ l2).
Proof. induction l1 as [|a l IH]; [reflexivity|]. cbn [app]. rewrite !pcount_cons, IH, !pcount_cons. lia. Qed.
Lemma pcount_nonneg k l : 0 <= pcount k l. Proof. unfold pcount. lia. Qed.
Definition tsum (k : nat) (l : list blk) : Z := total (at_pos k l).
Lemma tsum_cons k n l : tsum k (n :: l) = (if match b_pos n with Some j => (j =? k)%nat | None => false end then b_size n else 0) + tsum k l.
Proof. unfold tsum, at_pos. cbn [filter]. destruct (match b_pos n with Some j => _ | None => _ end); reflexivity. Qed.
Lemma tsum_mid k l1 n l2 : tsum k (l1 ++ n :: l2) = tsum k (n :: l1 ++ l2).
Proof.
  induction l1 as [|a l IH]; [reflexivity|]. cbn [app]. rewrite !tsum_cons, IH, !tsum_cons. lia.
Qed.

(** ** The counters agree with the tree of blocks *)
Record books (z : sizes) (s : state) : Prop := {
  k_off : s_inited s = false -> s_used s = 0 /\ s_nodes s = [] /\ s_keys s = [];
  k_used : s_used s = u64 (csum z (s_nodes s) + z_pos z * Z.of_nat (length (s_keys s)));
  k_nd : NoDup (s_keys s);
  k_in : forall k, In k (s_keys s) <-> 0 < pcount k (s_nodes s);
  k_cnt : forall k, In k (s_keys s) -> s_cnts s k = pcount k (s_nodes s) /\ s_psize s k = u64 (tsum k (s_nodes s)) }.

Lemma memk_spec k l : memk k l = true <-> In k l.
Proof. unfold memk. rewrite existsb_exists. split; [intros (x & A & B); apply Nat.eqb_eq in B; congruence|intros H; exists k; split; [exact H|apply Nat.eqb_refl]]. Qed.
Lemma memk_false k l : memk k l = false -> ~ In k l.
Proof. intros H X. apply memk_spec in X. congruence. Qed.
Lemma delk_in k x l : In x (delk k l) <-> In x l /\ x <> k.
Proof. unfold delk. rewrite filter_In. rewrite negb_true_iff, Nat.eqb_neq. tauto. Qed.
Lemma delk_nd k l : NoDup l -> NoDup (delk k l).
Proof. apply NoDup_filter. Qed.
Lemma delk_len k l : NoDup l -> In k l -> Z.of_nat (length (delk k l)) = Z.of_nat (length l) - 1.
Proof.
  induction l as [|a l IH]; intros N I; [destruct I|]. inversion_clear N as [|? ? Na N']. unfold delk in *. cbn [filter]. destruct (Nat.eqb_spec a k) as [->|Hn]; cbn [negb].
  - assert (E : filter (fun x => negb (x =? k)%nat) l = l). { clear IH I N'. induction l as [|b l IH]; [reflexivity|]. cbn [filter]. destruct (Nat.eqb_spec b k) as [->|]; [exfalso; apply Na; left; reflexivity|]. cbn [negb]. f_equal. apply IH. intros X. apply Na. right. exact X. }
    rewrite E. cbn [length]. lia.
  - destruct I as [X|I]; [congruence|]. cbn [length]. specialize (IH N' I). lia.
Qed.
Lemma nupd_eq f k v : nupd f k v k = v. Proof. unfold nupd. rewrite Nat.eqb_refl. reflexivity. Qed.
Lemma nupd_ne f k v x : x <> k -> nupd f k v x = f x. Proof. unfold nupd. intros H. apply Nat.eqb_neq in H. rewrite H. reflexivity. Qed.

Lemma u64_cong a b : (exists k, a = b + k * 18446744073709551616) -> u64 a = u64 b.
Proof. intros [k ->]. unfold u64. apply Z.mod_add. lia. Qed.
Ltac ucong := unfold u64; lia.

Lemma books_same z s s' : books z s -> s_inited s' = s_inited s -> s_used s' = s_used s -> s_nodes s' = s_nodes s -> s_keys s' = s_keys s -> s_cnts s' = s_cnts s -> s_psize s' = s_psize s -> books z s'.
Proof. intros [] E1 E2 E3 E4 E5 E6. split; rewrite ?E1, ?E2, ?E3, ?E4, ?E5, ?E6; assumption. Qed.

Lemma books_insert z b s : books z s -> books z (insert_ptr z b s).
Proof.
  intros K. unfold insert_ptr. destruct (negb (s_inited s) || (b_ptr b =? 0)) eqn:G; [exact K|]. apply orb_false_iff in G as [G _]. apply negb_false_iff in G.
  destruct K as [K1 K2 K3 K4 K5]. destruct (b_pos b) as [k|] eqn:Ep.
  - destruct (memk k (s_keys s)) eqn:Em; cbn [s_inited s_used s_nodes s_keys s_cnts s_psize].
    + apply memk_spec in Em. split; cbn [s_inited s_used s_nodes s_keys s_cnts s_psize].
      * congruence.
      * rewrite K2. cbn [csum fold_right]. change (fold_right (fun b a => b_size b + z_node z + a) 0 (s_nodes s)) with (csum z (s_nodes s)). ucong.
      * exact K3.
      * intros j. rewrite pcount_cons, Ep. destruct (Nat.eqb_spec k j) as [->|Hn]; [|rewrite Z.add_0_l; apply K4]. pose proof (pcount_nonneg j (s_nodes s)). split; [lia|auto].
      * intros j Hj. rewrite pcount_cons, tsum_cons, Ep. destruct (K5 j Hj) as [A B]. destruct (Nat.eqb_spec k j) as [->|Hn].
        -- rewrite !nupd_eq, A, B. split; [lia|ucong].
        -- rewrite !nupd_ne by auto. split; [lia|]. rewrite B, Z.add_0_l. reflexivity.
    + apply memk_false in Em. assert (P0 : pcount k (s_nodes s) = 0). { pose proof (pcount_nonneg k (s_nodes s)). destruct (Z.eq_dec (pcount k (s_nodes s)) 0); [assumption|]. exfalso. apply Em, K4. lia. }
      assert (T0 : tsum k (s_nodes s) = 0). { unfold tsum, pcount in *. destruct (at_pos k (s_nodes s)); [reflexivity|cbn in P0; lia]. }
      split; cbn [s_inited s_used s_nodes s_keys s_cnts s_psize].
      * congruence.
      * rewrite K2. cbn [csum fold_right length]. change (fold_right (fun b a => b_size b + z_node z + a) 0 (s_nodes s)) with (csum z (s_nodes s)).
        rewrite Nat2Z.inj_succ, <- Z.add_1_r, Z.mul_add_distr_l. set (X := z_pos z * Z.of_nat (length (s_keys s))). ucong.
      * constructor; assumption.
      * intros j. rewrite pcount_cons, Ep. cbn [In]. rewrite K4. pose proof (pcount_nonneg j (s_nodes s)). destruct (Nat.eqb_spec k j) as [->|Hn]; [split; [lia|auto]|]. split; [intros [|]; [congruence|lia]|right; lia].
      * intros j Hj. rewrite pcount_cons, tsum_cons, Ep. destruct (Nat.eqb_spec k j) as [->|Hn].
        -- rewrite !nupd_eq, P0, T0. split; [reflexivity|f_equal; lia].
        -- rewrite !nupd_ne by auto. destruct Hj as [|Hj]; [congruence|]. destruct (K5 j Hj) as [A B]. split; [lia|]. rewrite B, Z.add_0_l. reflexivity.
  - split; cbn [s_inited s_used s_nodes s_keys s_cnts s_psize].
    + congruence.
    + rewrite K2. cbn [csum fold_right]. change (fold_right (fun b a => b_size b + z_node z + a) 0 (s_nodes s)) with (csum z (s_nodes s)). set (X := z_pos z * Z.of_nat (length (s_keys s))). ucong.
    + exact K3.
    + intros j. rewrite pcount_cons, Ep, Z.add_0_l. apply K4.
    + intros j Hj. rewrite pcount_cons, tsum_cons, Ep, !Z.add_0_l. apply K5, Hj.
Qed.

Lemma books_remove z p s s' : books z s -> remove_ptr z p s s' -> books z s'.
Proof.
  intros K H. destruct H as [| |n l1 l2 Hi Hp En Ek]; try exact K. destruct K as [K1 K2 K3 K4 K5]. unfold remove_node.
  assert (PC : forall j, pcount j (s_nodes s) = pcount j (n :: l1 ++ l2)) by (intros; rewrite En; apply pcount_mid).
  assert (TC : forall j, tsum j (s_nodes s) = tsum j (n :: l1 ++ l2)) by (intros; rewrite En; apply tsum_mid).
  assert (CS : csum z (s_nodes s) = b_size n + z_node z + csum z (l1 ++ l2)) by (rewrite En; apply csum_mid).
  destruct (b_pos n) as [k|] eqn:Ep.
  - assert (Pk : 0 < pcount k (s_nodes s)). { rewrite PC, pcount_cons, Ep, Nat.eqb_refl. pose proof (pcount_nonneg k (l1 ++ l2)). lia. }
    assert (Ik : In k (s_keys s)) by (apply K4; exact Pk). rewrite (proj2 (memk_spec k (s_keys s)) Ik).
    destruct (K5 k Ik) as [A B]. rewrite A. pose proof (PC k) as Pkk. rewrite pcount_cons, Ep, Nat.eqb_refl in Pkk.
    destruct (Z.eqb_spec (pcount k (s_nodes s) - 1) 0) as [Z0|Z0]; split; cbn [s_inited s_used s_nodes s_keys s_cnts s_psize]; try congruence.
    + rewrite K2, CS, (delk_len k (s_keys s) K3 Ik). rewrite Z.mul_sub_distr_l. set (X := z_pos z * Z.of_nat (length (s_keys s))). ucong.
    + apply delk_nd, K3.
    + intros j. rewrite delk_in, K4, PC, pcount_cons, Ep. destruct (Nat.eqb_spec k j) as [->|Hn]; [split; [tauto|lia]|]. rewrite Z.add_0_l. split; [tauto|intros; split; [assumption|congruence]].
    + intros j Hj. apply delk_in in Hj as [Hj Hn]. rewrite !nupd_ne by assumption. destruct (K5 j Hj) as [C D]. rewrite C, D, PC, TC, pcount_cons, tsum_cons, Ep.
      destruct (Nat.eqb_spec k j); [congruence|]. rewrite !Z.add_0_l. auto.
    + rewrite K2, CS. set (X := z_pos z * Z.of_nat (length (s_keys s))). ucong.
    + intros j. rewrite K4, PC, pcount_cons, Ep. destruct (Nat.eqb_spec k j) as [->|Hn]; [split; [intros; lia|intros; lia]|]. rewrite Z.add_0_l. tauto.
    + intros j Hj. destruct (K5 j Hj) as [C D]. destruct (Nat.eq_dec j k) as [->|Hn].
      * rewrite !nupd_eq. split; [lia|]. rewrite B, TC, tsum_cons, Ep, Nat.eqb_refl. ucong.
      * rewrite !nupd_ne by assumption. rewrite C, D, PC, TC, pcount_cons, tsum_cons, Ep. destruct (Nat.eqb_spec k j); [congruence|]. rewrite !Z.add_0_l. auto.
  - split; cbn [s_inited s_used s_nodes s_keys s_cnts s_psize]; try congruence.
    + rewrite K2, CS. set (X := z_pos z * Z.of_nat (length (s_keys s))). ucong.
    + intros j. rewrite K4, PC, pcount_cons, Ep, Z.add_0_l. tauto.
    + intros j Hj. destruct (K5 j Hj) as [C D]. rewrite C, D, PC, TC, pcount_cons, tsum_cons, Ep, !Z.add_0_l. auto.
Qed.

Theorem books_reachable z s : reachable z s -> books z s.
Proof.
  intros R. induction R as [|s s' R K H].
  - split; cbn; intros; try tauto; try constructor; try lia; try (rewrite Z.mul_0_r; reflexivity); intros; try (cbn in *; tauto || lia).
  - destruct H; try (eapply books_same; [exact K|reflexivity..]).
    + destruct K as [K1 K2 K3 K4 K5]. destruct (K1 H) as (U & N & Y). split; cbn; try congruence; try assumption. rewrite N, Y. cbn. rewrite Z.mul_0_r. reflexivity.
    + split; cbn; auto; try constructor; try tauto; try (rewrite Z.mul_0_r; reflexivity). unfold pcount. cbn. lia.
    + assert (K' : books z (insert_ptr z b (set_fly (f1 ++ f2) s))) by (apply books_insert; eapply books_same; [exact K|reflexivity..]).
      destruct (s_inited s); eapply books_same; try exact K'; reflexivity.
    + eapply books_remove; [|eassumption]. eapply books_same; [exact K|reflexivity..].
    + eapply books_remove; [|eassumption]. eapply books_same; [exact K|reflexivity..].
Qed.

(** ** The tree of blocks agrees with what the program owns *)
Definition gone (o : op) : list blk := match o with ORem _ (Some g) _ | OFr _ (Some g) => [g] | _ => [] end.
Definition opkeys (o : op) : list Z :=
  match o with OIns b => [b_ptr b] | ORem p _ b => if p =? b_ptr b then [p] else [p; b_ptr b] | OFr p _ | OFree p => [p] end.
Definition tracked (s : state) : list blk := s_live s ++ flat_map gone (s_fly s) ++ s_lost s.
Definition names (s : state) : list Z := map b_ptr (s_live s) ++ map b_ptr (s_lost s) ++ s_old s ++ flat_map opkeys (s_fly s).
Definition op_ok (o : op) : Prop :=
  match o with ORem p (Some g) _ | OFr p (Some g) => p = b_ptr g | _ => True end.

Notation cnt p l := (count_occ Z.eq_dec l p).
Lemma fm_mid {A B} (f : A -> list B) l1 x l2 : Permutation (flat_map f (l1 ++ x :: l2)) (f x ++ flat_map f (l1 ++ l2)).
Proof. rewrite !flat_map_app. cbn. rewrite app_assoc, (Permutation_app_comm (flat_map f l1) (f x)), <- app_assoc. reflexivity. Qed.
Lemma cnt_perm p l l' : Permutation l l' -> cnt p l = cnt p l'.
Proof. intros H. apply (Permutation_count_occ Z.eq_dec). exact H. Qed.
Lemma forall_mid {A} (P : A -> Prop) l1 x l2 : Forall P (l1 ++ x :: l2) -> P x /\ Forall P (l1 ++ l2).
Proof. rewrite !Forall_app. intros [H1 H2]. inversion_clear H2. auto. Qed.
Lemma perm_pull {A} (a : A) l1 l2 r : Permutation (l1 ++ a :: l2 ++ r) (a :: l1 ++ l2 ++ r).
Proof. symmetry. apply Permutation_middle. Qed.

Definition blk_dec : forall a b : blk, {a = b} + {a <> b}.
Proof. repeat decide equality. Defined.
Notation bcnt b l := (count_occ blk_dec l b).
Lemma cnt_app p a b : cnt p (a ++ b) = (cnt p a + cnt p b)%nat. Proof. apply count_occ_app. Qed.
Lemma bcnt_app x a b : bcnt x (a ++ b) = (bcnt x a + bcnt x b)%nat. Proof. apply count_occ_app. Qed.
Lemma cnt_fm (f : op -> list Z) p l1 x l2 : cnt p (flat_map f (l1 ++ x :: l2)) = (cnt p (f x) + cnt p (flat_map f (l1 ++ l2)))%nat.
Proof. rewrite (cnt_perm p _ _ (fm_mid f l1 x l2)). apply cnt_app. Qed.
Lemma bcnt_fm (f : op -> list blk) p l1 x l2 : bcnt p (flat_map f (l1 ++ x :: l2)) = (bcnt p (f x) + bcnt p (flat_map f (l1 ++ l2)))%nat.
Proof. rewrite ((proj1 (Permutation_count_occ blk_dec _ _)) (fm_mid f l1 x l2) p). apply bcnt_app. Qed.
Lemma cnt_mfm p l1 x l2 : cnt p (map b_ptr (flat_map gone (l1 ++ x :: l2))) = (cnt p (map b_ptr (gone x)) + cnt p (map b_ptr (flat_map gone (l1 ++ l2))))%nat.
Proof. rewrite (cnt_perm p _ _ (Permutation_map b_ptr (fm_mid gone l1 x l2))), map_app. apply cnt_app. Qed.
Lemma cnt_mid p l1 x l2 : cnt p (map b_ptr (l1 ++ x :: l2)) = (cnt p [b_ptr x] + cnt p (map b_ptr (l1 ++ l2)))%nat.
Proof. rewrite !map_app, !cnt_app. cbn [map]. change (b_ptr x :: map b_ptr l2) with ([b_ptr x] ++ map b_ptr l2). rewrite cnt_app. lia. Qed.
Lemma cnt_mid0 p l1 x l2 : cnt p (l1 ++ x :: l2) = (cnt p [x] + cnt p (l1 ++ l2))%nat.
Proof. change (x :: l2) with ([x] ++ l2). rewrite !cnt_app. lia. Qed.
Lemma bcnt_mid p l1 x l2 : bcnt p (l1 ++ x :: l2) = (bcnt p [x] + bcnt p (l1 ++ l2))%nat.
Proof. change (x :: l2) with ([x] ++ l2). rewrite !bcnt_app. lia. Qed.
Lemma cnt_in p l : In p l <-> (0 < cnt p l)%nat. Proof. apply count_occ_In. Qed.
Lemma bcnt_in p l : In p l <-> (0 < bcnt p l)%nat. Proof. apply count_occ_In. Qed.
Lemma cnt_one p : cnt p [p] = 1%nat. Proof. cbn. destruct (Z.eq_dec p p); congruence. Qed.
Lemma cnt_cons p x l : cnt p (x :: l) = (cnt p [x] + cnt p l)%nat. Proof. change (x :: l) with ([x] ++ l). apply cnt_app. Qed.
Lemma bcnt_cons p x l : bcnt p (x :: l) = (bcnt p [x] + bcnt p l)%nat. Proof. change (x :: l) with ([x] ++ l). apply bcnt_app. Qed.

(** The invariant in terms of counts. *)
Definition ncnt (p : Z) (s : state) : nat := (cnt p (map b_ptr (s_live s)) + cnt p (map b_ptr (s_lost s)) + cnt p (s_old s) + cnt p (flat_map opkeys (s_fly s)))%nat.
Lemma names_cnt p s : cnt p (names s) = ncnt p s.
Proof. unfold names, ncnt. rewrite !cnt_app. lia. Qed.
Definition tcnt (p : Z) (s : state) : nat := (cnt p (map b_ptr (s_live s)) + cnt p (map b_ptr (flat_map gone (s_fly s))) + cnt p (map b_ptr (s_lost s)))%nat.
Definition tbcnt (b : blk) (s : state) : nat := (bcnt b (s_live s) + bcnt b (flat_map gone (s_fly s)) + bcnt b (s_lost s))%nat.
Record good (s : state) : Prop := {
  h_off : s_inited s = false -> s_live s = [] /\ s_lost s = [] /\ flat_map gone (s_fly s) = [] /\ s_nodes s = [];
  h_ok : Forall op_ok (s_fly s);
  h_nz : ncnt 0 s = 0%nat;
  h_le : forall p, (cnt p (map b_ptr (s_nodes s)) <= tcnt p s)%nat;
  h_eq : s_raced s = false -> forall b, bcnt b (s_nodes s) = tbcnt b s;
  h_nd : s_raced s = false -> forall p, (ncnt p s <= 1)%nat }.

Lemma gone_names p l : Forall op_ok l -> (cnt p (map b_ptr (flat_map gone l)) <= cnt p (flat_map opkeys l))%nat.
Proof.
  induction 1 as [|o l Ho Hl IH]; cbn [flat_map map]; [lia|]. rewrite map_app, !cnt_app.
  enough (cnt p (map b_ptr (gone o)) <= cnt p (opkeys o))%nat by lia.
  destruct o as [b|q [g|] b|q [g|]|q]; cbn [gone opkeys map]; try (cbn; lia); cbn in Ho; subst q; [|lia].
  destruct (_ =? _); [lia|]. rewrite (cnt_cons p (b_ptr g) [b_ptr b]). lia.
Qed.
Lemma occ_names p s : In p (occupied s) -> In p (names s).
Proof.
  unfold occupied, names. rewrite !in_app_iff. intros [H|[H|H]]; auto. right. right. right. apply in_flat_map in H as (o & Ho & Hp). apply in_flat_map. exists o. split; [exact Ho|].
  destruct o as [b|q g b|q g|q]; cbn [op_ptr opkeys In] in *; auto. destruct (Z.eqb_spec q (b_ptr b)); [left; destruct Hp as [<-|[]]; assumption|right; exact Hp].
Qed.
Lemma names_occ p s : In p (names s) -> In p (occupied s) \/ In p (stale_keys s).
Proof.
  unfold occupied, names, stale_keys. rewrite !in_app_iff. intros [H|[H|[H|H]]]; auto. apply in_flat_map in H as (o & Ho & Hp).
  rewrite !in_flat_map. destruct o as [b|q g b|q g|q]; cbn [opkeys] in Hp; try (left; right; right; eexists; split; [exact Ho|exact Hp]).
  destruct (Z.eqb_spec q (b_ptr b)) as [E|E].
  - left; right; right. eexists; split; [exact Ho|]. cbn [op_ptr]. rewrite <- E. exact Hp.
  - destruct Hp as [<-|[<-|[]]]; [right; left|left; right; right]; (eexists; split; [exact Ho|]); cbn [op_ptr stale]; [apply Z.eqb_neq in E; rewrite E|]; left; reflexivity.
Qed.
Lemma fresh_new s b : fresh s b -> race s b = false -> ncnt (b_ptr b) s = 0%nat.
Proof.
  intros (_ & F & _) R. rewrite <- names_cnt. destruct (cnt (b_ptr b) (names s)) eqn:E; [reflexivity|exfalso].
  assert (X : In (b_ptr b) (names s)) by (apply cnt_in; lia). apply names_occ in X as [X|X]; [contradiction|].
  unfold race in R. apply orb_false_iff in R as [_ R]. assert (Y : existsb (Z.eqb (b_ptr b)) (stale_keys s) = true); [|congruence].
  apply existsb_exists. exists (b_ptr b). split; [exact X|apply Z.eqb_refl].
Qed.
Lemma fresh_nz s b : fresh s b -> cnt 0 [b_ptr b] = 0%nat.
Proof. intros (F & _). cbn. destruct (Z.eq_dec (b_ptr b) 0); [contradiction|reflexivity]. Qed.
Lemma race_mono s b : race s b = false -> s_raced s = false.
Proof. unfold race. intros H. apply orb_false_iff in H. tauto. Qed.
Lemma cnt_other p q : p <> q -> cnt p [q] = 0%nat.
Proof. intros H. cbn. destruct (Z.eq_dec q p); [congruence|reflexivity]. Qed.

Ltac projs := cbn [s_inited s_used s_nodes s_keys s_cnts s_psize s_fly s_live s_old s_lost s_raced set_fly set_live set_old set_lost set_raced] in *.
Ltac cnts := unfold ncnt, tcnt, tbcnt in *; projs; repeat (rewrite ?cnt_app, ?bcnt_app, ?cnt_fm, ?bcnt_fm, ?cnt_mfm, ?cnt_mid, ?cnt_mid0, ?bcnt_mid, ?map_app in * ); cbn [flat_map gone opkeys map app] in *.

Lemma insert_other z b s : s_fly (insert_ptr z b s) = s_fly s /\ s_live (insert_ptr z b s) = s_live s /\ s_old (insert_ptr z b s) = s_old s /\ s_lost (insert_ptr z b s) = s_lost s /\
  s_raced (insert_ptr z b s) = s_raced s /\ s_inited (insert_ptr z b s) = s_inited s /\ (s_inited s = true -> b_ptr b <> 0 -> s_nodes (insert_ptr z b s) = b :: s_nodes s) /\ (s_inited s = false -> s_nodes (insert_ptr z b s) = s_nodes s).
Proof.
  unfold insert_ptr. destruct (s_inited s) eqn:Ei; cbn [negb orb]; [|repeat split; auto; discriminate].
  destruct (Z.eqb_spec (b_ptr b) 0) as [E|E]; [repeat split; auto; contradiction|]. destruct (b_pos b); cbn; repeat split; auto; try discriminate.
Qed.
Lemma remove_other z n l s : let s' := remove_node z n l s in s_fly s' = s_fly s /\ s_live s' = s_live s /\ s_old s' = s_old s /\ s_lost s' = s_lost s /\
  s_raced s' = s_raced s /\ s_inited s' = s_inited s /\ s_nodes s' = l.
Proof. unfold remove_node. destruct (b_pos n) as [k|]; [destruct (memk k (s_keys s))|]; cbn; repeat split; reflexivity. Qed.

(** The part common to realloc and free: the node of p goes. *)
Lemma good_rem z s s' f1 f2 o o' p g : good s -> s_fly s = f1 ++ o :: f2 ->
  gone o = (match g with Some b => [b] | None => [] end) -> gone o' = [] -> op_ok o' -> In p (opkeys o) -> (match g with Some b => p = b_ptr b | None => True end) ->
  (forall q, (cnt q (opkeys o') <= cnt q (opkeys o))%nat) ->
  remove_ptr z p (set_fly (f1 ++ o' :: f2) s) s' -> good s'.
Proof.
  intros [G1 G2 G3 G4 G5 G6] Ef Eg Eo' Ok' Hp Hg Hle H.
  assert (Fok : Forall op_ok (f1 ++ f2)) by (rewrite Ef in G2; apply forall_mid in G2; tauto).
  assert (Fok' : Forall op_ok (f1 ++ o' :: f2)). { rewrite Forall_app in *. destruct Fok. split; [assumption|constructor; assumption]. }
  assert (NZ : ncnt 0 (set_fly (f1 ++ o' :: f2) s) = 0%nat). { unfold ncnt in *. projs. rewrite Ef in G3. rewrite cnt_fm in *. specialize (Hle 0). lia. }
  assert (ND : s_raced s = false -> forall q, (ncnt q (set_fly (f1 ++ o' :: f2) s) <= 1)%nat).
  { intros R q. specialize (G6 R q). unfold ncnt in *. projs. rewrite Ef in G6. rewrite cnt_fm in *. specialize (Hle q). lia. }
  assert (P0 : p <> 0). { intros ->. apply cnt_in in Hp. unfold ncnt in G3. rewrite Ef, cnt_fm in G3. lia. }
  assert (OFF : s_inited s = false -> g = None). { intros X. destruct (G1 X) as (_ & _ & Y & _). rewrite Ef, flat_map_app in Y. apply app_eq_nil in Y as [_ Y]. cbn in Y. apply app_eq_nil in Y as [Y _]. rewrite Eg in Y. destruct g; [discriminate|reflexivity]. }
  assert (OFF' : s_inited s = false -> flat_map gone (f1 ++ o' :: f2) = []). { intros X. destruct (G1 X) as (_ & _ & Y & _). rewrite Ef in Y. rewrite flat_map_app in *. apply app_eq_nil in Y as [Y1 Y]. cbn in *. apply app_eq_nil in Y as [_ Y]. rewrite Y1, Eo', Y. reflexivity. }
  (* a node with key p that is not g would make p a name twice *)
  assert (UNI : s_raced s = false -> forall n, In n (s_nodes s) -> b_ptr n = p -> g = Some n).
  { intros R n Hn Ep. apply bcnt_in in Hn. rewrite (G5 R n) in Hn. unfold tbcnt in Hn. rewrite Ef, bcnt_fm, Eg in Hn.
    specialize (G6 R p). unfold ncnt in G6. rewrite Ef, cnt_fm in G6. apply cnt_in in Hp.
    assert (L1 : forall l, (0 < bcnt n l)%nat -> (0 < cnt p (map b_ptr l))%nat). { intros l X. apply cnt_in. apply bcnt_in in X. rewrite <- Ep. apply in_map. exact X. }
    assert (X1 : bcnt n (s_live s) = 0%nat). { destruct (bcnt n (s_live s)) eqn:X; [reflexivity|]. specialize (L1 (s_live s) ltac:(lia)). lia. }
    assert (X2 : bcnt n (s_lost s) = 0%nat). { destruct (bcnt n (s_lost s)) eqn:X; [reflexivity|]. specialize (L1 (s_lost s) ltac:(lia)). lia. }
    assert (X3 : bcnt n (flat_map gone (f1 ++ f2)) = 0%nat). { destruct (bcnt n (flat_map gone (f1 ++ f2))) eqn:X; [reflexivity|]. specialize (L1 _ ltac:(rewrite X; lia)). pose proof (gone_names p (f1 ++ f2) Fok). lia. }
    destruct g as [g|]; [|cbn in Hn; lia]. assert (Hn' : (0 < bcnt n [g])%nat) by lia. apply bcnt_in in Hn'. destruct Hn' as [->|[]]. reflexivity. }
  destruct H as [Hoff|Hi Hz Hn|n l1 l2 Hi Hz En Ek]; projs.
  - destruct Hoff as [Hoff|]; [|contradiction]. pose proof (OFF Hoff) as ->. destruct (G1 Hoff) as (A & B & C & D).
    split; projs; auto; try (intros; rewrite D; cbn; lia). intros X c. unfold tbcnt. projs. rewrite A, B, D, (OFF' Hoff). reflexivity.
  - split; projs; auto; try congruence.
    + intros q. specialize (G4 q). unfold tcnt in *. projs. rewrite Ef in G4. rewrite cnt_mfm in *. rewrite Eg in G4. rewrite Eo'. cbn [map] in *.
      destruct (Z.eq_dec q p) as [->|Hq]; [assert (X : cnt p (map b_ptr (s_nodes s)) = 0%nat) by (destruct (cnt p (map b_ptr (s_nodes s))) eqn:X; [reflexivity|exfalso; apply Hn, cnt_in; lia]); lia|].
      destruct g as [g|]; cbn [map] in *; [subst p; rewrite (cnt_other q (b_ptr g)) in G4 by assumption|]; cbn [count_occ] in *; lia.
    + intros R b. rewrite (G5 R b). unfold tbcnt. projs. rewrite Ef, !bcnt_fm, Eg, Eo'. destruct g as [g|]; [exfalso|reflexivity].
      apply Hn. subst p. apply in_map. apply bcnt_in. rewrite (G5 R g). unfold tbcnt. rewrite Ef, bcnt_fm, Eg. cbn. destruct (blk_dec g g); [lia|congruence].
  - destruct (remove_other z n (l1 ++ l2) (set_fly (f1 ++ o' :: f2) s)) as (R1 & R2 & R3 & R4 & R5 & R6 & R7). projs.
    split; rewrite ?R1, ?R2, ?R3, ?R4, ?R5, ?R6, ?R7; auto; try congruence.
    + unfold ncnt. rewrite R1, R2, R3, R4. exact NZ.
    + intros q. specialize (G4 q). unfold tcnt in *. rewrite R1, R2, R4. rewrite Ef in G4. rewrite cnt_mfm in *. rewrite Eg in G4. rewrite Eo'. rewrite En, cnt_mid in G4. cbn [map] in *.
      destruct (Z.eq_dec q p) as [->|Hq].
      * rewrite Ek, cnt_one in G4. destruct g as [g|]; cbn [map] in *; [rewrite <- Hg, cnt_one in G4; cbn [count_occ]; lia|]. cbn [count_occ] in *. lia.
      * rewrite Ek, cnt_other in G4 by assumption. destruct g as [g|]; cbn [map] in *; [rewrite <- Hg, (cnt_other q p) in G4 by assumption|]; cbn [count_occ] in *; lia.
    + intros R b. pose proof (UNI R n) as U. rewrite En in U. specialize (U ltac:(apply in_elt) Ek). subst g. specialize (G5 R b). unfold tbcnt in *. rewrite R1, R2, R4. rewrite Ef in G5. rewrite bcnt_fm in *. rewrite Eg in G5. rewrite Eo'. rewrite En, bcnt_mid in G5. cbn [count_occ] in *. lia.
    + intros R q. unfold ncnt. rewrite R1, R2, R3, R4. apply ND, R.
Qed.

Lemma good_reachable z s : reachable z s -> good s.
Proof.
  intros R. induction R as [|s s' R G H].
  - split; cbn; auto.
  - destruct H.
    + destruct G as [G1 G2 G3 G4 G5 G6]. destruct (G1 H) as (A & B & C & D). split; projs; auto; try congruence.
      all: unfold ncnt, tcnt, tbcnt in *; projs; rewrite H0 in *; auto.
    + destruct G as [G1 G2 G3 G4 G5 G6]. unfold ncnt in *. rewrite H0 in *. split; projs; auto; try congruence; unfold ncnt, tcnt, tbcnt in *; projs; cbn [flat_map map count_occ]; auto.
      * rewrite cnt_app. cbn in *. lia.
      * intros X p. specialize (G6 X p). rewrite cnt_app. cbn in *. lia.
    + (* malloc *) destruct G as [G1 G2 G3 G4 G5 G6]. pose proof (fresh_nz s b H) as Z0.
      split; projs; auto; try (constructor; [exact I|assumption]).
      * unfold ncnt in *. projs. cbn [flat_map opkeys]. rewrite cnt_app. lia.
      * intros X c. apply G5, (race_mono _ _ X).
      * intros X p. pose proof (fresh_new s b H X) as F. specialize (G6 (race_mono _ _ X) p). unfold ncnt in *. projs. cbn [flat_map opkeys]. rewrite cnt_app.
        destruct (Z.eq_dec p (b_ptr b)) as [->|Hn]; [rewrite cnt_one; lia|rewrite cnt_other by assumption; lia].
    + (* insert *) destruct G as [G1 G2 G3 G4 G5 G6]. destruct (insert_other z b (set_fly (f1 ++ f2) s)) as (I1 & I2 & I3 & I4 & I5 & I6 & I7 & I8). projs.
      assert (Fok : Forall op_ok (f1 ++ f2)) by (rewrite H in G2; apply forall_mid in G2; tauto).
      assert (NZ : b_ptr b <> 0). { intros E. unfold ncnt in G3. rewrite H, cnt_fm in G3. cbn [opkeys] in G3. rewrite E, cnt_one in G3. lia. }
      destruct (s_inited s) eqn:Ei; [specialize (I7 eq_refl NZ); clear I8|specialize (I8 eq_refl); clear I7; rename I8 into I7]; split; projs; rewrite ?I1, ?I2, ?I3, ?I4, ?I5, ?I6, ?I7; auto; try congruence;
        unfold ncnt, tcnt, tbcnt in *; projs; rewrite ?I1, ?I2, ?I3, ?I4 in *; rewrite H in *.
      * rewrite cnt_fm in G3. cbn [opkeys map] in *. rewrite (cnt_cons 0 (b_ptr b)). lia.
      * intros p. specialize (G4 p). rewrite cnt_mfm in G4. cbn [map gone count_occ] in *. destruct (Z.eq_dec (b_ptr b) p); lia.
      * intros X c. specialize (G5 X c). rewrite bcnt_fm in G5. cbn [gone count_occ] in *. destruct (blk_dec b c); lia.
      * intros X p. specialize (G6 X p). rewrite cnt_fm in G6. cbn [opkeys map] in *. rewrite (cnt_cons p (b_ptr b)). lia.
      * intros _. destruct (G1 eq_refl) as (A & B & C & D). repeat split; auto. rewrite flat_map_app in *. cbn in C. exact C.
      * rewrite cnt_fm in G3. cbn [opkeys] in *. rewrite (cnt_cons 0 (b_ptr b)). lia.
      * intros p. specialize (G4 p). rewrite cnt_mfm in G4. cbn [map gone count_occ] in *. lia.
      * intros X c. specialize (G5 X c). rewrite bcnt_fm in G5. cbn [gone count_occ] in *. lia.
      * intros X p. specialize (G6 X p). rewrite cnt_fm in G6. cbn [opkeys] in *. rewrite (cnt_cons p (b_ptr b)). lia.
    + (* realloc *) destruct G as [G1 G2 G3 G4 G5 G6].
      assert (KC : forall q, cnt q (opkeys (ORem (b_ptr g) (Some g) b)) = (cnt q [b_ptr g] + (if (b_ptr g =? b_ptr b)%Z then 0 else cnt q [b_ptr b]))%nat).
      { intros q. cbn [opkeys]. destruct (b_ptr g =? b_ptr b); [lia|]. rewrite cnt_cons. reflexivity. }
      split; projs.
      * intros X. exfalso. destruct (G1 X) as (A & _). rewrite A in H. destruct l1; discriminate.
      * constructor; [reflexivity|assumption].
      * unfold ncnt in *. projs. rewrite H in G3. rewrite cnt_mid in G3. cbn [flat_map]. rewrite (cnt_app _ (opkeys _)), KC. destruct (Z.eqb_spec (b_ptr g) (b_ptr b)) as [|Hn]; [lia|]. destruct H0 as [[H0 _]|H0]; [congruence|]. rewrite (fresh_nz s b H0). lia.
      * intros p. specialize (G4 p). unfold tcnt in *. projs. rewrite H in G4. rewrite cnt_mid in G4. cbn [flat_map gone app map]. rewrite cnt_cons. lia.
      * intros X c. specialize (G5 (race_mono _ _ X) c). unfold tbcnt in *. projs. rewrite H in G5. rewrite bcnt_mid in G5. cbn [flat_map gone app]. rewrite bcnt_cons. lia.
      * intros X p. specialize (G6 (race_mono _ _ X) p). unfold ncnt in *. projs. cbn [flat_map]. rewrite (cnt_app _ (opkeys _)), KC.
        destruct (Z.eqb_spec (b_ptr g) (b_ptr b)) as [|Hn]; [rewrite H in G6; rewrite cnt_mid in G6; lia|]. destruct H0 as [[H0 _]|H0]; [congruence|].
        pose proof (fresh_new s b H0 X) as F. unfold ncnt in F. destruct (Z.eq_dec p (b_ptr b)) as [->|Hp]; [|rewrite (cnt_other p (b_ptr b)) by assumption; rewrite H in G6; rewrite cnt_mid in G6; lia].
        rewrite cnt_one. rewrite H in F. rewrite cnt_mid in F. lia.
    + (* realloc of an untracked block *) destruct G as [G1 G2 G3 G4 G5 G6].
      assert (KC : forall q, cnt q (opkeys (ORem p None b)) = (cnt q [p] + (if (p =? b_ptr b)%Z then 0 else cnt q [b_ptr b]))%nat).
      { intros q. cbn [opkeys]. destruct (p =? b_ptr b); [lia|]. rewrite cnt_cons. reflexivity. }
      split; projs.
      * intros X. exact (G1 X).
      * constructor; [exact I|assumption].
      * unfold ncnt in *. projs. rewrite H in G3. rewrite cnt_mid0 in G3. cbn [flat_map]. rewrite (cnt_app _ (opkeys _)), KC. destruct (Z.eqb_spec p (b_ptr b)) as [|Hn]; [lia|]. destruct H0 as [[H0 _]|H0]; [congruence|]. rewrite (fresh_nz s b H0). lia.
      * intros q. specialize (G4 q). unfold tcnt in *. projs. exact G4.
      * intros X c. specialize (G5 (race_mono _ _ X) c). unfold tbcnt in *. projs. exact G5.
      * intros X q. specialize (G6 (race_mono _ _ X) q). unfold ncnt in *. projs. cbn [flat_map]. rewrite (cnt_app _ (opkeys _)), KC.
        destruct (Z.eqb_spec p (b_ptr b)) as [|Hn]; [rewrite H in G6; rewrite cnt_mid0 in G6; lia|]. destruct H0 as [[H0 _]|H0]; [congruence|].
        pose proof (fresh_new s b H0 X) as F. unfold ncnt in F. destruct (Z.eq_dec q (b_ptr b)) as [->|Hp]; [|rewrite (cnt_other q (b_ptr b)) by assumption; rewrite H in G6; rewrite cnt_mid0 in G6; lia].
        rewrite cnt_one. rewrite H in F. rewrite cnt_mid0 in F. lia.
    + (* realloc to size 0 *) destruct G as [G1 G2 G3 G4 G5 G6]. unfold ncnt, tcnt, tbcnt in *. rewrite H in *.
      assert (Hi : s_inited s = true). { destruct (s_inited s); [reflexivity|]. destruct (G1 eq_refl) as (A & _). destruct l1; discriminate. }
      split; projs; auto; try congruence; unfold ncnt, tcnt, tbcnt in *; projs.
      * rewrite cnt_mid in G3. cbn [map]. rewrite (cnt_cons 0 (b_ptr g)). lia.
      * intros p. specialize (G4 p). rewrite cnt_mid in G4. cbn [map]. rewrite (cnt_cons p (b_ptr g)). lia.
      * intros X c. specialize (G5 X c). rewrite bcnt_mid in G5. rewrite (bcnt_cons c g). lia.
      * intros X p. specialize (G6 X p). rewrite cnt_mid in G6. cbn [map]. rewrite (cnt_cons p (b_ptr g)). lia.
    + eapply (good_rem z s s' f1 f2 (ORem p g b) (OIns b) p g G H); [destruct g; reflexivity|reflexivity|exact I| | | |eassumption].
      * cbn [opkeys]. destruct (p =? b_ptr b); left; reflexivity.
      * pose proof (h_ok _ G) as F. rewrite H in F. apply forall_mid in F as [F _]. destruct g; [exact F|exact I].
      * intros q. cbn [opkeys]. destruct (Z.eqb_spec p (b_ptr b)) as [->|]; [lia|]. rewrite (cnt_cons q p). lia.
    + (* free *) destruct G as [G1 G2 G3 G4 G5 G6]. unfold ncnt, tcnt, tbcnt in *. rewrite H in *.
      assert (Hi : s_inited s = true). { destruct (s_inited s); [reflexivity|]. destruct (G1 eq_refl) as (A & _). destruct l1; discriminate. }
      split; projs; auto; try congruence; try (constructor; [reflexivity|assumption]); unfold ncnt, tcnt, tbcnt in *; projs; cbn [flat_map gone opkeys app map].
      * rewrite cnt_mid in G3. rewrite (cnt_cons 0 (b_ptr g)). lia.
      * intros p. specialize (G4 p). rewrite cnt_mid in G4. rewrite (cnt_cons p (b_ptr g)). lia.
      * intros X c. specialize (G5 X c). rewrite bcnt_mid in G5. rewrite (bcnt_cons c g). lia.
      * intros X p. specialize (G6 X p). rewrite cnt_mid in G6. rewrite (cnt_cons p (b_ptr g)). lia.
    + destruct G as [G1 G2 G3 G4 G5 G6]. unfold ncnt, tcnt, tbcnt in *. rewrite H in *.
      split; projs; auto; try congruence; try (constructor; [reflexivity|assumption]); unfold ncnt, tcnt, tbcnt in *; projs; cbn [flat_map gone opkeys app map]; auto.
      * rewrite cnt_mid0 in G3. rewrite (cnt_cons 0 p). lia.
      * intros X q. specialize (G6 X q). rewrite cnt_mid0 in G6. rewrite (cnt_cons q p). lia.
    + eapply (good_rem z s s' f1 f2 (OFr p g) (OFree p) p g G H); [destruct g; reflexivity|reflexivity|exact I|left; reflexivity| | |eassumption].
      * pose proof (h_ok _ G) as F. rewrite H in F. apply forall_mid in F as [F _]. destruct g; [exact F|exact I].
      * intros q. cbn [opkeys]. lia.
    + destruct G as [G1 G2 G3 G4 G5 G6]. unfold ncnt, tcnt, tbcnt in *. rewrite H in *.
      split; projs; auto; try congruence; unfold ncnt, tcnt, tbcnt in *; projs.
      * intros X. destruct (G1 X) as (A & B & C & D). repeat split; auto. rewrite flat_map_app in *. exact C.
      * apply forall_mid in G2. tauto.
      * rewrite cnt_fm in G3. lia.
      * intros q. specialize (G4 q). rewrite cnt_mfm in G4. cbn [gone map count_occ] in G4. lia.
      * intros X c. specialize (G5 X c). rewrite bcnt_fm in G5. cbn [gone count_occ] in G5. lia.
      * intros X q. specialize (G6 X q). rewrite cnt_fm in G6. lia.
Qed.
