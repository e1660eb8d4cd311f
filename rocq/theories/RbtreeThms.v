(** * Histories of the red-black tree: insertion, lookup, iteration. *)
From Verif Require Import Base Rbtree RbtreeProof RbtreeFix RbtreeErase RbtreeSpec.

(** ** Balance *)
Fixpoint size (t : tree) : nat :=
  match t with E => 0%nat | T _ _ l r => S (size l + size r) end.
Lemma size_inorder t : length (inorder t) = size t.
Proof. induction t as [|a c l IHl r IHr]; simpl; auto. rewrite app_length; simpl; lia. Qed.
Lemma rb_size t c n : rb t c n -> (2 ^ n <= size t + 1)%nat.
Proof. induction 1; simpl in *; lia. Qed.
Lemma rb_height t c n : rb t c n -> (height t <= 2 * n + (if c then 1 else 0))%nat.
Proof.
  induction 1; simpl in *; try lia. destruct cl, cr; lia.
Qed.
Lemma rb_log t m : rb t false m -> (height t <= 2 * Nat.log2 (size t + 1))%nat.
Proof.
  intros H. pose proof (rb_size _ _ _ H) as H0. pose proof (rb_height _ _ _ H) as H1.
  assert (m <= Nat.log2 (size t + 1))%nat.
  { apply Nat.log2_le_pow2; lia. }
  simpl in H1. lia.
Qed.

(** ** Reading the memory *)
Lemma rep_walk_in h par t : rep h par t -> walk_in h (tptr t) (inorder t).
Proof.
  revert par; induction t as [|a c l IHl r IHr]; simpl; intros par H; [constructor|].
  destruct H as (H1 & H2 & H3). econstructor; eauto; simpl; eauto.
Qed.
Fixpoint preorder (t : tree) : list nat :=
  match t with E => [] | T a _ l r => a :: preorder l ++ preorder r end.
Fixpoint postorder (t : tree) : list nat :=
  match t with E => [] | T a _ l r => postorder l ++ postorder r ++ [a] end.
Lemma rep_walk_pre h par t : rep h par t -> walk_pre h (tptr t) (preorder t).
Proof.
  revert par; induction t as [|a c l IHl r IHr]; simpl; intros par H; [constructor|].
  destruct H as (H1 & H2 & H3). econstructor; eauto; simpl; eauto.
Qed.
Lemma rep_walk_post h par t : rep h par t -> walk_post h (tptr t) (postorder t).
Proof.
  revert par; induction t as [|a c l IHl r IHr]; simpl; intros par H; [constructor|].
  destruct H as (H1 & H2 & H3). econstructor; eauto; simpl; eauto.
Qed.
Lemma walk_in_det h p l : walk_in h p l -> forall l', walk_in h p l' -> l = l'.
Proof.
  induction 1; intros l' H'; inversion H'; subst; auto.
  assert (n = n0) by congruence. subst. f_equal; auto. f_equal; auto.
Qed.
Lemma walk_pre_det h p l : walk_pre h p l -> forall l', walk_pre h p l' -> l = l'.
Proof.
  induction 1; intros l' H'; inversion H'; subst; auto.
  assert (n = n0) by congruence. subst. f_equal. f_equal; auto.
Qed.
Lemma walk_post_det h p l : walk_post h p l -> forall l', walk_post h p l' -> l = l'.
Proof.
  induction 1; intros l' H'; inversion H'; subst; auto.
  assert (n = n0) by congruence. subst. f_equal; auto. f_equal; auto.
Qed.

Lemma way_down_rb h par t c n cs :
  rep h par t -> rb t c n -> way_down h (tptr t) cs ->
  blacks cs = n /\ no_two_reds cs /\ (c = false -> no_two_reds (true :: cs)) /\
  (length cs <= height t)%nat.
Proof.
  intros R H; revert par cs R; induction H; intros par cs R W; simpl in *.
  - inversion W; subst; simpl; auto.
  - destruct R as (R1 & R2 & R3). inversion W as [|a' n' cs' Hh Hd|a' n' cs' Hh Hd]; subst; rewrite R1 in Hh; inversion Hh; subst; simpl in *.
    + destruct (IHrb1 _ _ R2 Hd) as (A1 & A2 & A3 & A4). repeat split; try congruence; try lia.
      apply A3; auto.
    + destruct (IHrb2 _ _ R3 Hd) as (A1 & A2 & A3 & A4). repeat split; try congruence; try lia.
      apply A3; auto.
  - destruct R as (R1 & R2 & R3). inversion W as [|a' n' cs' Hh Hd|a' n' cs' Hh Hd]; subst; rewrite R1 in Hh; inversion Hh; subst; simpl in *.
    + destruct (IHrb1 _ _ R2 Hd) as (A1 & A2 & A3 & A4). repeat split; auto; lia.
    + destruct (IHrb2 _ _ R3 Hd) as (A1 & A2 & A3 & A4). repeat split; auto; lia.
Qed.

(** ** Running: nothing is deallocated by the tree code *)
Definition mono {A} (m : M A) : Prop :=
  forall st v st', m st = Ok (v, st') -> forall x, s_heap st' x = None <-> s_heap st x = None.
Lemma mono_ret {A} (v : A) : mono (ret v).
Proof. intros st w st' [= <- <-]. tauto. Qed.
Lemma mono_ub {A} : mono (@ub A).
Proof. intros st w st' H. discriminate. Qed.
Lemma mono_bind {A B} (m : M A) (k : A -> M B) : mono m -> (forall v, mono (k v)) -> mono (bindM m k).
Proof.
  intros Hm Hk st v st' H x. unfold bindM in H. destruct (m st) as [[w st1]| |] eqn:E1; simpl in H; try discriminate.
  rewrite (Hk _ _ _ _ H x). apply (Hm _ _ _ E1).
Qed.
Lemma mono_ld p : mono (ld p).
Proof.
  intros st v st' H. unfold ld in H. destruct p as [a|]; [|discriminate].
  destruct (s_heap st a); inversion H; subst; tauto.
Qed.
Lemma mono_modify p f : mono (modify p f).
Proof.
  intros st v st' H x. unfold modify in H. destruct p as [a|]; [|discriminate].
  destruct (s_heap st a) eqn:Ha; inversion H; subst; simpl. unfold hupd.
  destruct (Nat.eqb_spec x a); [subst; rewrite Ha; split; discriminate|tauto].
Qed.
Lemma mono_get_root : mono get_root.
Proof. intros st v st' [= <- <-]. tauto. Qed.
Lemma mono_set_root p : mono (set_root p).
Proof. intros st v st' [= <- <-]. tauto. Qed.
Lemma mono_add_count d : mono (add_count d).
Proof. intros st v st' [= <- <-]. tauto. Qed.
Ltac mono_tac :=
  repeat first
    [ apply mono_ret | apply mono_ub | apply mono_ld | apply mono_modify | apply mono_get_root
    | apply mono_set_root | apply mono_add_count
    | apply mono_bind; [|intros ?]
    | assumption
    | match goal with |- mono (if ?b then _ else _) => destruct b end
    | match goal with |- mono (match ?b with _ => _ end) => destruct b end ].
Lemma mono_replace_child_l a b c : mono (replace_child_l a b c).
Proof. unfold replace_child_l, set_left, set_right. mono_tac. Qed.
Lemma mono_replace_child_r a b c : mono (replace_child_r a b c).
Proof. unfold replace_child_r, set_left, set_right. mono_tac. Qed.
Lemma mono_set_parent_opt a b : mono (set_parent_opt a b).
Proof. unfold set_parent_opt, set_parent. mono_tac. Qed.
Lemma mono_set_black_opt a : mono (set_black_opt a).
Proof. unfold set_black_opt, set_black, set_color. mono_tac. Qed.
Lemma mono_is_red_opt a : mono (is_red_opt a).
Proof. unfold is_red_opt. mono_tac. Qed.
Lemma mono_rotate_left a : mono (rotate_left a).
Proof.
  unfold rotate_left, set_left, set_right, set_parent. mono_tac.
  - apply mono_set_parent_opt. - apply mono_replace_child_l.
Qed.
Lemma mono_rotate_right a : mono (rotate_right a).
Proof.
  unfold rotate_right, set_left, set_right, set_parent. mono_tac.
  - apply mono_set_parent_opt. - apply mono_replace_child_r.
Qed.
Ltac mono_full :=
  repeat first
    [ apply mono_is_red_opt | apply mono_rotate_left | apply mono_rotate_right
    | apply mono_set_black_opt | apply mono_set_parent_opt | apply mono_replace_child_l | apply mono_replace_child_r
    | match goal with H : forall _, mono _ |- _ => apply H | H : forall _ _, mono _ |- _ => apply H end
    | progress mono_tac ].
Lemma mono_erase_color_loop fuel : forall a b, mono (erase_color_loop fuel a b).
Proof.
  induction fuel as [|fuel IH]; intros a b; cbn [erase_color_loop]; unfold set_red, set_black, set_color;
    mono_full.
Qed.
Lemma mono_erase_color fuel : forall a b, mono (erase_color fuel a b).
Proof. intros a b. unfold erase_color. mono_tac; [apply mono_erase_color_loop|apply mono_set_black_opt]. Qed.
Lemma mono_leftmost fuel : forall p, mono (leftmost fuel p).
Proof. induction fuel as [|fuel IH]; intros p; cbn [leftmost]; mono_full. Qed.
Lemma mono_rb_erase fuel p : mono (rb_erase fuel p).
Proof.
  pose proof (mono_erase_color fuel). pose proof (mono_leftmost fuel).
  unfold rb_erase, erase_simple, erase_two, set_left, set_right, set_parent. mono_full; apply mono_erase_color_loop.
Qed.

Lemma focus_empty st : focus st [] E -> s_root st = None.
Proof. intros (H & _). exact H. Qed.

(** ** Insertion *)
Definition link_of (p : path) : link :=
  match p with [] => LRoot | FL a _ _ :: _ => LLeft (Some a) | FR a _ _ :: _ => LRight (Some a) end.

Lemma read_link_of st p t (Q : ptr -> rst -> Prop) :
  focus st p t -> Q (tptr t) st -> runs (read_link (link_of p)) st Q.
Proof.
  intros F HQ. destruct p as [|[a c s|a c s] p]; simpl.
  - unfold runs, get_root. destruct F as (F & _). simpl in F. rewrite F. exact HQ.
  - apply runs_bind. eapply (runs_ld_here _ p); [fsw F|]. apply runs_ret. exact HQ.
  - apply runs_bind. eapply (runs_ld_here _ p); [fsw F|]. apply runs_ret. exact HQ.
Qed.

Lemma runs_link st p a g (Q : unit -> rst -> Prop) :
  focus st p E -> (occp a p = 0)%nat ->
  (forall st', focus st' p (T a true E E) -> s_count st' = s_count st -> Q tt st') ->
  runs (rb_link_node (Some a) (ppar p) (link_of p)) (with_cell st a (Some g)) Q.
Proof.
  intros (Fp & _ & N) Ha HQ. unfold rb_link_node. apply runs_bind.
  eapply runs_modify; [simpl; apply hupd_eq|]. cbn [s_heap s_root s_count with_cell].
  set (h1 := hupd (hupd (s_heap st) a (Some g)) a _).
  assert (Hp : repc h1 (s_root st) None p).
  { eapply repc_frame; [exact Fp|]. intros x Hx. unfold h1. rewrite !hupd_neq; auto; intros ->; lia. }
  assert (G : Q tt (mkSt (upd_hole h1 p (Some a)) (upd_root (s_root st) p (Some a)) (s_count st))).
  { apply HQ; [|reflexivity]. split; [|split]; cbn [s_heap s_root tptr].
    - apply (repc_upd_hole _ _ _ _ _ Hp). intros x; specialize (N x); lia.
    - simpl. repeat split; auto. rewrite upd_hole_other by auto. unfold h1. apply hupd_eq.
    - intros x. specialize (N x). simpl in *. unfold ind. destruct (Nat.eqb_spec x a) as [->|]; lia. }
  destruct p as [|[b c s|b c s] p]; simpl link_of; cbn [write_link].
  - exact G.
  - destruct Hp as (Hb & _). eapply runs_modify; [exact Hb|]. exact G.
  - destruct Hp as (Hb & _). eapply runs_modify; [exact Hb|]. exact G.
Qed.

Lemma insert_color_ok fuel st p x l r n cb :
  focus st p (T x true l r) -> rb l false n -> rb r false n -> ctx p cb n ->
  (length p + 1 <= fuel)%nat ->
  runs (insert_color fuel (Some x)) st (fun _ st' =>
    exists t m, focus st' [] t /\ rb t false m /\
      inorder t = inorder (plug p (T x true l r)) /\ s_count st' = u64 (s_count st + 1)).
Proof.
  intros F Hl Hr Hp Hf. unfold insert_color. apply runs_bind.
  eapply runs_conseq; [eapply insert_color_loop_ok; eauto|].
  intros _ st1 (t & c & m & F1 & R & Hne & I & C).
  apply runs_bind. unfold runs at 1, get_root.
  assert (s_root st1 = tptr t) as -> by apply F1.
  destruct t as [|a d tl tr]; [congruence|]. cbn [tptr].
  apply runs_bind. eapply (runs_set_color _ []); [exact F1|]. intros st2 F2 C2.
  destruct (rb_blacken _ _ _ R) as (m' & Hm'). simpl in Hm'.
  exists (T a false tl tr), m'. split; [exact F2|]. split; [auto|]. split; [exact I|].
  simpl. congruence.
Qed.

Section K.
  Context {K : Type} (cmp : K -> K -> Z).

  Lemma tp_le_gt (TP : total_preorder cmp) x y k : cmp x y <= 0 -> 0 < cmp x k -> 0 < cmp y k.
  Proof.
    intros H1 H2. destruct (Z.ltb_spec 0 (cmp y k)); auto.
    pose proof (tp_trans _ TP x y k H1 ltac:(lia)). lia.
  Qed.
  Lemma tp_le_le (TP : total_preorder cmp) x y k : cmp x y <= 0 -> cmp y k <= 0 -> cmp x k <= 0.
  Proof. apply (tp_trans _ TP). Qed.
  Lemma tp_gt_le (TP : total_preorder cmp) x y : 0 < cmp x y -> cmp y x <= 0.
  Proof. intros H. apply (tp_anti _ TP) in H. lia. Qed.
  Lemma tp_sym0 (TP : total_preorder cmp) x y : cmp x y = 0 -> cmp y x = 0.
  Proof.
    intros H. destruct (Z.lt_trichotomy (cmp y x) 0) as [G|[G|G]]; auto.
    - apply (tp_anti _ TP) in G. lia.
    - apply (tp_anti _ TP) in G. lia.
  Qed.
  Lemma tp_refl (TP : total_preorder cmp) x : cmp x x = 0.
  Proof.
    destruct (Z.lt_trichotomy (cmp x x) 0) as [G|[G|G]]; auto.
    - pose proof (proj2 (tp_anti _ TP x x) G). lia.
    - pose proof (proj1 (tp_anti _ TP x x) G). lia.
  Qed.

  Definition le_key (keys : nat -> K) (x y : nat) : Prop := cmp (keys x) (keys y) <= 0.

  Lemma ss_app_inv (keys : nat -> K) l1 l2 :
    StronglySorted (le_key keys) (l1 ++ l2) ->
    StronglySorted (le_key keys) l1 /\ StronglySorted (le_key keys) l2 /\
    (forall x y, In x l1 -> In y l2 -> le_key keys x y).
  Proof.
    induction l1 as [|a l1 IH]; simpl; intros H; [repeat split; auto; [constructor|simpl; tauto]|].
    inversion H; subst. destruct (IH H2) as (A & B & C).
    rewrite Forall_forall in H3. repeat split; auto.
    - constructor; auto. apply Forall_forall. intros; apply H3. apply in_app_iff; auto.
    - intros x y [->|Hx] Hy; [apply H3; apply in_app_iff; auto|auto].
  Qed.
  Lemma ss_app (keys : nat -> K) l1 l2 :
    StronglySorted (le_key keys) l1 -> StronglySorted (le_key keys) l2 ->
    (forall x y, In x l1 -> In y l2 -> le_key keys x y) ->
    StronglySorted (le_key keys) (l1 ++ l2).
  Proof.
    induction l1 as [|a l1 IH]; simpl; intros H1 H2 H; auto.
    inversion H1; subst. constructor; [apply IH; auto|].
    apply Forall_forall. intros y Hy. apply in_app_iff in Hy as [Hy|Hy]; auto.
    rewrite Forall_forall in H5. auto.
  Qed.
  Lemma ss_ext (keys keys' : nat -> K) l :
    (forall x, In x l -> keys' x = keys x) ->
    StronglySorted (le_key keys) l -> StronglySorted (le_key keys') l.
  Proof.
    induction l as [|a l IH]; intros He H; [constructor|]. inversion H; subst. constructor.
    - apply IH; auto. intros; apply He; right; auto.
    - rewrite Forall_forall in *. intros x Hx. unfold le_key. rewrite (He a), (He x) by (simpl; auto).
      apply H3; auto.
  Qed.

  Lemma cmp_node_here st keys p a c l r k (Q : Z -> rst -> Prop) :
    focus st p (T a c l r) -> Q (cmp (keys a) k) st -> runs (cmp_node K cmp keys (Some a) k) st Q.
  Proof.
    intros F HQ. unfold cmp_node. apply runs_bind. eapply runs_ld_here; [exact F|].
    apply runs_ret. exact HQ.
  Qed.

  Lemma last_error_app {A} (l : list A) x : last_error (l ++ [x]) = Some x.
  Proof. unfold last_error. rewrite rev_app_distr. reflexivity. Qed.

  Lemma find_links_loop_ok (keys : nat -> K) (TP : total_preorder cmp) k : forall fuel st p t,
    focus st p t -> StronglySorted (le_key keys) (inorder (plug p t)) ->
    (forall x, In x (lctx p) -> cmp (keys x) k <= 0) ->
    (forall x, In x (rctx p) -> 0 < cmp (keys x) k) ->
    (height t + 1 <= fuel)%nat ->
    runs (find_links_loop K cmp keys fuel (link_of p) (ppar p) (last_error (lctx p)) (hd_error (rctx p)) k) st
      (fun v st' => st' = st /\ exists q, plug q E = plug p t /\
         v = (link_of q, ppar q, last_error (lctx q), hd_error (rctx q)) /\
         (forall x, In x (lctx q) -> cmp (keys x) k <= 0) /\
         (forall x, In x (rctx q) -> 0 < cmp (keys x) k)).
  Proof.
    induction fuel as [|fuel IH]; intros st p t F S HL HR Hf; [lia|].
    cbn [find_links_loop]. apply runs_bind. eapply read_link_of; [exact F|].
    destruct t as [|a c l r]; cbn [tptr].
    - apply runs_ret. split; auto. exists p. auto.
    - apply runs_bind. eapply cmp_node_here; [exact F|].
      assert (S0 := S). rewrite inorder_plug in S0. simpl in S0.
      apply ss_app_inv in S0 as (_ & S0 & _). apply ss_app_inv in S0 as (S0 & _ & _).
      apply ss_app_inv in S0 as (_ & S1 & S2). inversion S1 as [|? ? S3 S4]; subst.
      rewrite Forall_forall in S4.
      simpl in Hf.
      destruct (Z.ltb_spec 0 (cmp (keys a) k)).
      + eapply runs_conseq.
        { assert (X := IH st (FL a c r :: p) l). cbn [link_of ppar rctx lctx hd_error] in X.
          apply X; clear X; [fsw F|exact S|exact HL| |lia].
          simpl. intros x [<-|Hx]; auto. apply in_app_iff in Hx as [Hx|Hx]; auto.
          eapply (tp_le_gt TP); [|exact H]. apply S4. auto. }
        cbn beta. intros v st' (-> & q & Hq & Hv & H1 & H2). split; auto. exists q. auto.
      + eapply runs_conseq.
        { assert (X := IH st (FR a c l :: p) r). cbn [link_of ppar rctx lctx hd_error] in X.
          rewrite app_assoc, last_error_app in X. rewrite <- app_assoc in X.
          apply X; clear X; [fsw F|exact S| |exact HR|lia].
          simpl. intros x Hx. apply in_app_iff in Hx as [Hx|Hx]; auto.
          apply in_app_iff in Hx as [Hx|[<-|[]]]; auto.
          eapply (tp_le_le TP); [|exact H]. apply S2; simpl; auto. }
        cbn beta. intros v st' (-> & q & Hq & Hv & H1 & H2). split; auto. exists q. auto.
  Qed.

  Lemma find_links_ok (keys : nat -> K) (TP : total_preorder cmp) k fuel st t :
    focus st [] t -> StronglySorted (le_key keys) (inorder t) -> (height t + 1 <= fuel)%nat ->
    runs (find_links K cmp keys fuel k) st
      (fun v st' => st' = st /\ exists q, plug q E = t /\
         v = (link_of q, ppar q, last_error (lctx q), hd_error (rctx q)) /\
         (forall x, In x (lctx q) -> cmp (keys x) k <= 0) /\
         (forall x, In x (rctx q) -> 0 < cmp (keys x) k)).
  Proof.
    intros F S Hf.
    apply (find_links_loop_ok keys TP k fuel st [] t); auto; simpl; tauto.
  Qed.

  (** find sees only [st]; it is the same with the fresh cell in place. *)
  Lemma focus_with_cell st p t a c : focus st p t -> (occ a t + occp a p = 0)%nat ->
    focus (with_cell st a c) p t.
  Proof.
    intros (F1 & F2 & N) Ha. split; [|split]; simpl; auto.
    - eapply repc_frame; eauto. intros x Hx. apply hupd_neq. intros ->. lia.
    - eapply rep_frame; eauto. intros x Hx. apply hupd_neq. intros ->. lia.
  Qed.

  Lemma insert_node_ok (keys : nat -> K) (TP : total_preorder cmp) fuel st t m a g :
    focus st [] t -> rb t false m -> StronglySorted (le_key keys) (inorder t) ->
    ~ In a (inorder t) -> (height t + 1 <= fuel)%nat ->
    runs (rb_insert_node K cmp keys fuel a) (with_cell st a (Some g)) (fun _ st' =>
      exists t' m' L R, focus st' [] t' /\ rb t' false m' /\
        inorder t = L ++ R /\ inorder t' = L ++ a :: R /\
        (forall x, In x L -> cmp (keys x) (keys a) <= 0) /\
        (forall x, In x R -> 0 < cmp (keys x) (keys a)) /\
        s_count st' = u64 (s_count st + 1)).
  Proof.
    intros F Hrb S Ha Hf.
    assert (Hocc : occ a t = 0%nat).
    { rewrite occ_count. apply count_occ_not_In. auto. }
    unfold rb_insert_node. apply runs_bind. eapply runs_conseq.
    { eapply (find_links_ok keys TP (keys a) fuel (with_cell st a (Some g)) t); auto.
      apply focus_with_cell; simpl; auto; lia. }
    intros v st0 (-> & q & Hq & -> & HL & HR).
    unfold rb_insert. apply runs_bind.
    assert (Fq : focus st q E) by (apply (proj2 (focus_plug _ _ _)); rewrite Hq; exact F).
    assert (Hoq : occp a q = 0%nat).
    { assert (Hpl : forall q t x, (occ x (plug q t) = occ x t + occp x q)%nat).
      { clear. induction q as [|[? ? ?|? ? ?] q IH]; intros t x; simpl; [lia| |]; rewrite IH; simpl; lia. }
      rewrite <- Hq, Hpl in Hocc. simpl in Hocc. auto. }
    eapply runs_link; [exact Fq|exact Hoq|]. intros st1 F1 C1.
    assert (Hrb' := Hrb). rewrite <- Hq in Hrb'.
    destruct (plug_rb_inv _ _ _ Hrb') as (cb & ct & n & Hp & HE & Hc).
    assert (n = 0%nat) by (inversion HE; auto). subst n.
    eapply runs_conseq.
    { eapply insert_color_ok; [exact F1|constructor|constructor|exact Hp|].
      pose proof (height_plug q E). rewrite Hq in H. lia. }
    intros _ st2 (t' & m' & F2 & R2 & I2 & C2).
    exists t', m', (lctx q), (rctx q). split; auto. split; auto.
    split; [rewrite <- Hq, inorder_plug; reflexivity|].
    split; [rewrite I2, inorder_plug; reflexivity|].
    split; auto. split; auto. congruence.
  Qed.

  (** ** Lookup *)
  Lemma find_node_loop_ok (keys : nat -> K) (TP : total_preorder cmp) k : forall fuel st p t,
    focus st p t -> StronglySorted (le_key keys) (inorder t) -> (height t + 1 <= fuel)%nat ->
    runs (find_node_loop K cmp keys fuel (tptr t) k) st (fun v st' => st' = st /\
      match v with
      | Some a => In a (inorder t) /\ cmp (keys a) k = 0
      | None => forall x, In x (inorder t) -> cmp (keys x) k <> 0
      end).
  Proof.
    induction fuel as [|fuel IH]; intros st p t F S Hf; [lia|].
    cbn [find_node_loop]. destruct t as [|a c l r]; cbn [tptr].
    - apply runs_ret. split; auto.
    - apply runs_bind. eapply cmp_node_here; [exact F|].
      simpl in S. apply ss_app_inv in S as (Sl & S1 & S2). inversion S1 as [|? ? S3 S4]; subst.
      rewrite Forall_forall in S4. simpl in Hf.
      destruct (Z.eqb_spec (cmp (keys a) k) 0).
      + apply runs_ret. split; auto. split; auto. simpl. apply in_app_iff. right. left. auto.
      + apply runs_bind. eapply runs_ld_here; [exact F|]. cbn [n_left n_right].
        destruct (Z.ltb_spec 0 (cmp (keys a) k)).
        * eapply runs_conseq; [eapply (IH st (FL a c r :: p) l); [fsw F|auto|lia]|].
          intros v st' (-> & Hv). split; auto. destruct v as [b|].
          -- destruct Hv. split; auto. simpl. apply in_app_iff. auto.
          -- intros x Hx. simpl in Hx. apply in_app_iff in Hx as [Hx|[<-|Hx]]; auto.
             assert (0 < cmp (keys x) k) by (eapply (tp_le_gt TP); [apply S4|]; auto). lia.
        * eapply runs_conseq; [eapply (IH st (FR a c l :: p) r); [fsw F|auto|lia]|].
          intros v st' (-> & Hv). split; auto. destruct v as [b|].
          -- destruct Hv. split; auto. simpl. apply in_app_iff. right. right. auto.
          -- intros x Hx. simpl in Hx. apply in_app_iff in Hx as [Hx|[<-|Hx]]; auto.
             intros Hz. apply (tp_sym0 TP) in Hz.
             assert (cmp k (keys a) <= 0).
             { apply (tp_trans _ TP k (keys x)); [lia|]. apply S2; simpl; auto. }
             assert (0 < cmp k (keys a)) by (apply (tp_anti _ TP); lia). lia.
  Qed.

  (** ** The invariant of histories *)
  Definition eqk (keys : nat -> K) (k : K) (a : nat) : bool := cmp (keys a) k =? 0.

  Definition Inv (st : rst) (keys : nat -> K) (live : list (nat * K)) : Prop :=
    exists t m, focus st [] t /\ rb t false m /\
      Permutation (inorder t) (map fst live) /\
      StronglySorted (le_key keys) (inorder t) /\
      (forall k, filter (eqk keys k) (inorder t) = filter (eqk keys k) (map fst live)) /\
      s_count st = u64 (Z.of_nat (length live)) /\
      (forall a k, In (a, k) live -> keys a = k).

  Lemma Inv_fuel (live : list (nat * K)) t m :
    rb t false m -> Permutation (inorder t) (map fst live) ->
    (height t + 2 <= log_steps (length live))%nat.
  Proof.
    intros R P. pose proof (rb_log _ _ R). apply Permutation_length in P.
    rewrite size_inorder, map_length in P. unfold log_steps. rewrite <- P. lia.
  Qed.

  Lemma filter_app {A} (f : A -> bool) l1 l2 : filter f (l1 ++ l2) = filter f l1 ++ filter f l2.
  Proof. induction l1; simpl; auto. destruct (f a); simpl; congruence. Qed.
  Lemma filter_none {A} (f : A -> bool) l : (forall x, In x l -> f x = false) -> filter f l = [].
  Proof. induction l; simpl; intros H; auto. rewrite H; auto. Qed.
  Lemma filter_all {A} (f : A -> bool) l : (forall x, In x l -> f x = true) -> filter f l = l.
  Proof. induction l; simpl; intros H; auto. rewrite H by auto. f_equal; auto. Qed.
  Lemma filter_ext_in' {A} (f g : A -> bool) l : (forall x, In x l -> f x = g x) -> filter f l = filter g l.
  Proof. induction l; simpl; intros H; auto. rewrite (H a) by auto. destruct (g a); [f_equal|]; auto. Qed.
  Lemma filter_comm {A} (f g : A -> bool) l : filter f (filter g l) = filter g (filter f l).
  Proof.
    induction l; simpl; auto. destruct (f a) eqn:E1, (g a) eqn:E2; simpl; rewrite ?E1, ?E2; congruence.
  Qed.
  Lemma filter_map_fst a (live : list (nat * K)) :
    map fst (filter (not_node a) live) = filter (fun x => negb (Nat.eqb x a)) (map fst live).
  Proof. induction live as [|[b k] l IH]; simpl; auto. unfold not_node at 1. simpl. destruct (Nat.eqb b a); simpl; congruence. Qed.

  Lemma u64_add x y : u64 (u64 x + y) = u64 (x + y).
  Proof. unfold u64. apply Z.add_mod_idemp_l. lia. Qed.

  Lemma Inv_init st0 keys st : rb_root_init st0 = Ok (tt, st) -> Inv st keys [].
  Proof.
    intros [= <-]. exists E, 0%nat. split; [|split; [constructor|]].
    - split; [|split]; simpl; auto.
    - simpl. repeat split; auto; try constructor. simpl; tauto.
  Qed.

  Lemma Inv_insert (TP : total_preorder cmp) st keys live a k g fuel :
    Inv st keys live -> ~ In a (map fst live) -> (log_steps (length live) <= fuel)%nat ->
    runs (rb_insert_node K cmp (kupd keys a k) fuel a) (with_cell st a (Some g))
      (fun _ st' => Inv st' (kupd keys a k) (live ++ [(a, k)])).
  Proof.
    intros (t & m & F & R & P & S & St & C & Kk) Ha Hf.
    pose proof (Inv_fuel live t m R P) as Hh.
    assert (Hat : ~ In a (inorder t)) by (intros H; apply Ha; eapply Permutation_in; eauto).
    set (keys' := kupd keys a k).
    assert (Hk' : forall x, x <> a -> keys' x = keys x).
    { intros x Hx. unfold keys', kupd. rewrite (proj2 (Nat.eqb_neq x a)); auto. }
    assert (Hka : keys' a = k) by (unfold keys', kupd; rewrite Nat.eqb_refl; auto).
    assert (S' : StronglySorted (le_key keys') (inorder t)).
    { eapply ss_ext; [|exact S]. intros x Hx. apply Hk'. intros ->. auto. }
    eapply runs_conseq; [eapply (insert_node_ok keys' TP fuel st t m a g); eauto; lia|].
    intros _ st' (t' & m' & L & R' & F' & R2 & I1 & I2 & HL & HR & C').
    exists t', m'. split; auto. split; auto.
    assert (S2 := S'). rewrite I1 in S2. apply ss_app_inv in S2 as (SL & SR & SLR).
    split; [|split; [|split; [|split]]].
    - rewrite map_app. simpl. rewrite I2. rewrite I1 in P.
      rewrite <- Permutation_middle. rewrite P. apply Permutation_cons_append.
    - rewrite I2. apply ss_app; auto.
      + constructor; auto. apply Forall_forall. intros y Hy. unfold le_key. apply (tp_gt_le TP). auto.
      + intros x y Hx [<-|Hy]; [apply HL; auto|apply SLR; auto].
    - intros k0. rewrite map_app, filter_app. simpl.
      assert (Hold : filter (eqk keys' k0) (inorder t) = filter (eqk keys' k0) (map fst live)).
      { rewrite (filter_ext_in' _ (eqk keys k0) (inorder t)).
        - rewrite St. apply filter_ext_in'. intros x Hx. unfold eqk. rewrite Hk'; auto. intros ->; auto.
        - intros x Hx. unfold eqk. rewrite Hk'; auto. intros ->; auto. }
      rewrite <- Hold, I1, I2, !filter_app. simpl.
      destruct (eqk keys' k0 a) eqn:Ea; [|rewrite app_nil_r; auto].
      rewrite (filter_none _ R'); [rewrite app_nil_r; auto|].
      intros x Hx. specialize (HR x Hx). unfold eqk in *. apply Z.eqb_eq in Ea. apply Z.eqb_neq.
      intros Hz. apply (tp_sym0 TP) in Ea.
      assert (cmp (keys' x) (keys' a) <= 0) by (apply (tp_trans _ TP _ k0); lia). lia.
    - rewrite C', C, u64_add, app_length. simpl. f_equal. lia.
    - intros b kb Hb. apply in_app_iff in Hb as [Hb|[[= <- <-]|[]]]; auto.
      rewrite Hk'; [apply Kk; auto|]. intros ->. apply Ha. apply in_map_iff. exists (a, kb). auto.
  Qed.

  Lemma Inv_erased st st' keys live a L R :
    Inv st keys live -> (exists t, focus st [] t /\ inorder t = L ++ a :: R) ->
    erase_post L R (s_count st) st' ->
    Inv (with_cell st' a None) keys (filter (not_node a) live).
  Proof.
    intros (t & m & F & Rb & P & S & St & C & Kk) (t0 & F0 & I0) (t' & m' & F' & R' & I' & C').
    assert (inorder t = L ++ a :: R) as I.
    { rewrite <- I0. eapply walk_in_det; [|]. - eapply rep_walk_in. apply F.
      - assert (tptr t = tptr t0) as ->. { destruct F as (F & _), F0 as (F0 & _). simpl in *. congruence. }
        eapply rep_walk_in. apply F0. }
    assert (NN := focus_nodup _ _ F). rewrite I in NN.
    assert (NN2 := NN). apply NoDup_remove in NN2 as (NN2 & NN3).
    assert (Hfil : inorder t' = filter (fun x => negb (Nat.eqb x a)) (inorder t)).
    { rewrite I', I, filter_app. simpl. rewrite Nat.eqb_refl. simpl.
      rewrite !filter_all; auto; intros x Hx; apply negb_true_iff, Nat.eqb_neq; intros ->;
        apply NN3; apply in_app_iff; auto. }
    assert (NDl : NoDup (map fst live)) by (eapply Permutation_NoDup; [exact P|]; rewrite I; auto).
    assert (Hlen : length live = (1 + length (filter (not_node a) live))%nat).
    { rewrite <- (map_length fst (filter _ _)), filter_map_fst.
      rewrite <- (map_length fst live).
      rewrite <- (Permutation_length P).
      assert (length (filter (fun x => negb (Nat.eqb x a)) (inorder t)) =
              length (filter (fun x => negb (Nat.eqb x a)) (map fst live))) as <-.
      { clear -P. induction P; simpl; auto; try congruence.
        - destruct (negb (Nat.eqb x a)); simpl; congruence.
        - destruct (negb (Nat.eqb x a)), (negb (Nat.eqb y a)); simpl; congruence. }
      rewrite <- Hfil, I', I, !app_length. simpl. lia. }
    exists t', m'. split; [|split; [auto|]].
    - apply focus_with_cell; auto. simpl. rewrite occ_count, I'.
      rewrite (proj1 (count_occ_not_In _ _ _)); auto.
    - split; [|split; [|split; [|split]]].
      + rewrite Hfil, filter_map_fst. apply NoDup_Permutation.
        * apply NoDup_filter. rewrite I; auto.
        * apply NoDup_filter; auto.
        * intros x. rewrite !filter_In. split; intros (H1 & H2); split; auto.
          -- eapply Permutation_in; eauto. -- eapply Permutation_in; [symmetry|]; eauto.
      + rewrite I'. rewrite I in S. apply ss_app_inv in S as (S1 & S2 & S3).
        inversion S2; subst. apply ss_app; auto. intros; apply S3; simpl; auto.
      + intros k. rewrite Hfil, filter_map_fst, !(filter_comm (eqk keys k)), St. reflexivity.
      + simpl. rewrite C', C. replace (u64 (Z.of_nat (length live)) - 1) with (u64 (Z.of_nat (length live)) + -1) by lia.
        rewrite u64_add, Hlen. f_equal. lia.
      + intros b k Hb. apply filter_In in Hb as (Hb & _). auto.
  Qed.

  Lemma free_ok a st : s_heap st a <> None -> free_node (Some a) st = Ok (tt, with_cell st a None).
  Proof. intros H. simpl. destruct (s_heap st a); [reflexivity|congruence]. Qed.

  Lemma in_split_nodup (a : nat) l : In a l -> exists L R, l = L ++ a :: R.
  Proof. apply in_split. Qed.

  Lemma Inv_erase st keys live a fuel :
    Inv st keys live -> In a (map fst live) -> (log_steps (length live) <= fuel)%nat ->
    exists st', rb_erase fuel (Some a) st = Ok (tt, st') /\
      free_node (Some a) st' = Ok (tt, with_cell st' a None) /\
      Inv (with_cell st' a None) keys (filter (not_node a) live).
  Proof.
    intros HI Ha Hf. assert (HI0 := HI).
    destruct HI as (t & m & F & R & P & S & St & C & Kk).
    pose proof (Inv_fuel live t m R P) as Hh.
    assert (In a (inorder t)) as Hat by (eapply Permutation_in; [symmetry|]; eauto).
    destruct (in_split _ _ Hat) as (L & R' & I).
    destruct (runs_ok _ _ _ (rb_erase_ok fuel st t m a L R' F R I ltac:(lia))) as ([] & st' & E1 & HP).
    exists st'. split; auto. split.
    - apply free_ok. rewrite (mono_rb_erase _ _ _ _ _ E1 a).
      destruct (focus_find st t a F Hat) as (p & c & l & r & _ & Fp). rewrite (focus_here _ _ _ _ _ _ Fp). discriminate.
    - eapply Inv_erased; eauto.
  Qed.

  Lemma Inv_find (TP : total_preorder cmp) st keys live k fuel :
    Inv st keys live -> (log_steps (length live) <= fuel)%nat ->
    exists v, find_node K cmp keys fuel k st = Ok (v, st) /\
      match v with
      | Some a => In (a, keys a) live /\ cmp (keys a) k = 0
      | None => forall b kb, In (b, kb) live -> cmp kb k <> 0
      end.
  Proof.
    intros (t & m & F & R & P & S & St & C & Kk) Hf.
    pose proof (Inv_fuel live t m R P) as Hh.
    assert (H : runs (find_node K cmp keys fuel k) st (fun v st' => st' = st /\
      match v with
      | Some a => In a (inorder t) /\ cmp (keys a) k = 0
      | None => forall x, In x (inorder t) -> cmp (keys x) k <> 0
      end)).
    { unfold find_node. apply runs_bind. unfold runs at 1, get_root.
      assert (s_root st = tptr t) as -> by apply F.
      eapply (find_node_loop_ok keys TP k fuel st [] t); auto. lia. }
    apply runs_ok in H as (v & st' & E1 & -> & Hv). exists v. split; auto.
    destruct v as [a|].
    - destruct Hv as (Hv & Hc). split; auto.
      assert (In a (map fst live)) as Hm by (eapply Permutation_in; eauto).
      apply in_map_iff in Hm as ([b kb] & Hb & Hm). simpl in Hb; subst b. rewrite (Kk _ _ Hm). auto.
    - intros b kb Hb. rewrite <- (Kk _ _ Hb). apply Hv.
      eapply Permutation_in; [symmetry; exact P|]. apply in_map_iff. exists (b, kb). auto.
  Qed.

  Lemma Inv_remove (TP : total_preorder cmp) st keys live k fuel :
    Inv st keys live -> (log_steps (length live) <= fuel)%nat ->
    (exists a st', rb_remove K cmp keys fuel k st = Ok (Some a, st') /\
        In (a, keys a) live /\ cmp (keys a) k = 0 /\
        free_node (Some a) st' = Ok (tt, with_cell st' a None) /\
        Inv (with_cell st' a None) keys (filter (not_node a) live)) \/
    (rb_remove K cmp keys fuel k st = Ok (None, st) /\ forall b kb, In (b, kb) live -> cmp kb k <> 0).
  Proof.
    intros HI Hf. destruct (Inv_find TP st keys live k fuel HI Hf) as (v & E1 & Hv).
    destruct v as [a|].
    - left. destruct Hv as (Hin & Hc).
      assert (Ha : In a (map fst live)) by (apply in_map_iff; exists (a, keys a); auto).
      destruct (Inv_erase st keys live a fuel HI Ha Hf) as (st' & E2 & E3 & HI').
      exists a, st'. split; auto. unfold rb_remove, bindM. rewrite E1. simpl. rewrite E2. reflexivity.
    - right. split; auto. unfold rb_remove, bindM. rewrite E1. reflexivity.
  Qed.

End K.
