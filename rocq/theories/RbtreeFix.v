(** * Rebalancing: red-black invariants and the two fix-up loops. *)
From Verif Require Import Base Rbtree RbtreeProof.

(** Red-black trees: root colour and black height. *)
Inductive rb : tree -> bool -> nat -> Prop :=
| rb_E : rb E false 0
| rb_R a l r n : rb l false n -> rb r false n -> rb (T a true l r) true n
| rb_B a l r cl cr n : rb l cl n -> rb r cr n -> rb (T a false l r) false (S n).

(** Contexts expecting a subtree of black height [n]; the flag says that the
    subtree must have a black root. *)
Inductive ctx : path -> bool -> nat -> Prop :=
| ctx_nil n : ctx [] true n
| ctx_BL a s cs p cp n : rb s cs n -> ctx p cp (S n) -> ctx (FL a false s :: p) false n
| ctx_BR a s cs p cp n : rb s cs n -> ctx p cp (S n) -> ctx (FR a false s :: p) false n
| ctx_RL a s p n : rb s false n -> ctx p false n -> ctx (FL a true s :: p) true n
| ctx_RR a s p n : rb s false n -> ctx p false n -> ctx (FR a true s :: p) true n.
Global Hint Constructors rb ctx : rbdb.

Ltac inv H := inversion H; subst; clear H.

Lemma plug_rb p cb n t ct :
  ctx p cb n -> rb t ct n -> (cb = true -> ct = false) -> exists m, rb (plug p t) false m.
Proof.
  intros H; revert t ct; induction H; intros t ct Ht Hc; simpl.
  - specialize (Hc eq_refl). subst. eauto.
  - eapply IHctx; [eapply rb_B; eauto|auto].
  - eapply IHctx; [eapply rb_B; eauto|auto].
  - specialize (Hc eq_refl). subst. eapply IHctx; [eapply rb_R; eauto|congruence].
  - specialize (Hc eq_refl). subst. eapply IHctx; [eapply rb_R; eauto|congruence].
Qed.

Lemma plug_rb_inv p t m :
  rb (plug p t) false m ->
  exists cb ct n, ctx p cb n /\ rb t ct n /\ (cb = true -> ct = false).
Proof.
  revert t; induction p as [|[a c s|a c s] p IH]; simpl; intros t H.
  - exists true, false, m. auto with rbdb.
  - destruct (IH _ H) as (cb & ct & n & Hp & Ht & Hc). inv Ht.
    + destruct cb; [specialize (Hc eq_refl); discriminate|].
      exists true, false, n. eauto with rbdb.
    + exists false, cl, n0. repeat split; [eapply ctx_BL; eauto|auto|congruence].
  - destruct (IH _ H) as (cb & ct & n & Hp & Ht & Hc). inv Ht.
    + destruct cb; [specialize (Hc eq_refl); discriminate|].
      exists true, false, n. eauto with rbdb.
    + exists false, cr, n0. repeat split; [eapply ctx_BR; eauto|auto|congruence].
Qed.

Definition blacken (t : tree) : tree := match t with E => E | T a _ l r => T a false l r end.
Definition isred (t : tree) : bool := match t with E => false | T _ c _ _ => c end.
Lemma rb_isred t c n : rb t c n -> isred t = c.
Proof. intros H; inv H; auto. Qed.
Lemma rb_blacken t c n : rb t c n -> exists m, rb (blacken t) false m.
Proof. intros H; inv H; simpl; eauto with rbdb. Qed.
Lemma blacken_inorder t : inorder (blacken t) = inorder t.
Proof. destruct t; auto. Qed.
Lemma blacken_ptr t : tptr (blacken t) = tptr t.
Proof. destruct t; auto. Qed.

Fixpoint lctx (p : path) : list nat :=
  match p with
  | [] => []
  | FL _ _ _ :: p' => lctx p'
  | FR a _ l :: p' => lctx p' ++ inorder l ++ [a]
  end.
Fixpoint rctx (p : path) : list nat :=
  match p with
  | [] => []
  | FL a _ r :: p' => a :: inorder r ++ rctx p'
  | FR _ _ _ :: p' => rctx p'
  end.
Lemma inorder_plug p t : inorder (plug p t) = lctx p ++ inorder t ++ rctx p.
Proof.
  revert t; induction p as [|[a c s|a c s] p IH]; intros t; simpl.
  - now rewrite app_nil_r.
  - rewrite IH. simpl. rewrite <- !app_assoc. reflexivity.
  - rewrite IH. simpl. rewrite <- !app_assoc. reflexivity.
Qed.
Lemma inorder_plug_eq p t t' : inorder t = inorder t' -> inorder (plug p t) = inorder (plug p t').
Proof. intros H. now rewrite !inorder_plug, H. Qed.

Fixpoint height (t : tree) : nat :=
  match t with E => 0%nat | T _ _ l r => S (Nat.max (height l) (height r)) end.
Lemma height_plug p t : (length p + height t <= height (plug p t))%nat.
Proof.
  revert t; induction p as [|[a c s|a c s] p IH]; intros t; simpl; auto.
  - specialize (IH (T a c t s)). simpl in IH. lia.
  - specialize (IH (T a c s t)). simpl in IH. lia.
Qed.

Ltac fsw F := eapply focus_switch; [|exact F]; reflexivity.

Lemma runs_is_red st p t (Q : bool -> rst -> Prop) :
  focus st p t -> Q (isred t) st -> runs (is_red_opt (tptr t)) st Q.
Proof.
  intros F HQ. destruct t as [|a c l r]; simpl.
  - apply runs_ret. exact HQ.
  - apply runs_bind. eapply runs_ld_here; [exact F|]. apply runs_ret. exact HQ.
Qed.
Lemma runs_set_black_opt st p t (Q : unit -> rst -> Prop) :
  focus st p t ->
  (forall st', focus st' p (blacken t) -> s_count st' = s_count st -> Q tt st') ->
  runs (set_black_opt (tptr t)) st Q.
Proof.
  intros F HQ. destruct t as [|a c l r]; simpl.
  - apply runs_ret. apply HQ; auto.
  - eapply runs_set_color; [exact F|]. intros st' F' C'. apply HQ; auto.
Qed.

Lemma focus_neq st p t a : focus st p t -> tptr t = Some a -> ppar p <> Some a.
Proof.
  intros (_ & _ & N) Ha Hp. apply tptr_occ in Ha. apply ppar_occ in Hp. specialize (N a). lia.
Qed.
Lemma focus_sib_neq st p t a b c s :
  focus st p t -> tptr t = Some a -> p = FL b c s :: tl p \/ p = FR b c s :: tl p -> tptr s <> Some a.
Proof.
  intros (_ & _ & N) Ha Hp Hs. apply tptr_occ in Ha. apply tptr_occ in Hs. specialize (N a).
  destruct Hp as [Hp|Hp]; rewrite Hp in N; simpl in N; lia.
Qed.

Ltac fixpn :=
  match goal with H : _ = _ /\ _ = T _ _ _ _ \/ _ |- _ =>
    let Hz := fresh in let Hw := fresh in
    destruct H as [[Hz Hw]|[Hz Hw]]; try discriminate Hz; injection Hz as <-; try rewrite Hw; clear Hw end.

(** aosl_rb_insert_color's loop: from a red node in an otherwise red-black
    tree (possibly with a red parent) it reaches a tree that is red-black up
    to the colour of the root, with the same in-order sequence. *)
Lemma insert_color_loop_ok : forall fuel st p x l r n cb,
  focus st p (T x true l r) -> rb l false n -> rb r false n -> ctx p cb n ->
  (length p + 1 <= fuel)%nat ->
  runs (insert_color_loop fuel (Some x)) st (fun _ st' =>
    exists t c m, focus st' [] t /\ rb t c m /\ t <> E /\
                  inorder t = inorder (plug p (T x true l r)) /\ s_count st' = s_count st).
Proof.
  induction fuel as [|fuel IH]; intros st p x l r n cb F Hl Hr Hp Hf; [lia|].
  cbn [insert_color_loop].
  apply runs_bind. eapply runs_ld_here; [exact F|]. cbn [n_par].
  destruct p as [|f p].
  { cbn [ppar]. apply runs_ret. exists (T x true l r), true, n. simpl.
    split; [exact F|]. split; [auto with rbdb|]. split; [congruence|auto]. }
  assert (exists a c, ppar (f :: p) = Some a /\
     ((exists s, f = FL a c s) \/ (exists s, f = FR a c s))) as (a & c & Ha & Hside)
    by (destruct f as [a c s|a c s]; exists a, c; split; eauto).
  rewrite Ha.
  (* parent node *)
  assert (exists pl pr, focus st p (T a c pl pr) /\
          (f = FL a c pr /\ pl = T x true l r \/ f = FR a c pl /\ pr = T x true l r))
    as (pl & pr & F1 & Hf1).
  { destruct Hside as [(s & ->)|(s & ->)].
    - exists (T x true l r), s. split; [fsw F|auto].
    - exists s, (T x true l r). split; [fsw F|auto]. }
  apply runs_bind. eapply runs_ld_here; [exact F1|]. cbn [n_red].
  destruct c; cbn [negb].
  2:{ (* black parent: done *)
    apply runs_ret.
    assert (exists m, rb (plug (f :: p) (T x true l r)) false m) as (m & Hm).
    { eapply plug_rb with (cb := cb) (ct := true); eauto with rbdb.
      intros ->. destruct Hside as [(s & ->)|(s & ->)]; inv Hp. }
    exists (plug (f :: p) (T x true l r)), false, m. repeat split; auto.
    - rewrite <- (app_nil_r (f :: p)) in F. apply focus_app in F. apply F.
    - rewrite <- (app_nil_r (f :: p)) in F. apply focus_app in F. apply F.
    - rewrite <- (app_nil_r (f :: p)) in F. apply focus_app in F. apply F.
    - intros HE. apply (f_equal inorder) in HE. rewrite inorder_plug in HE.
      apply app_eq_nil in HE as [_ HE]. apply app_eq_nil in HE as [HE _]. simpl in HE.
      destruct (inorder l); discriminate. }
  (* red parent: grandparent exists and is black *)
  assert (exists g u p', (p = FL g false u :: p' \/ p = FR g false u :: p') /\
            (exists s, rb s false n /\ (f = FL a true s \/ f = FR a true s)) /\
            (exists cu, rb u cu n) /\ exists cp, ctx p' cp (S n))
    as (g & u & p' & Hpp & (s & Hs & Hfs) & (cu & Hu) & (cp & Hp')).
  { destruct Hside as [(s & ->)|(s & ->)]; inv Hp;
      match goal with H : ctx p false n |- _ => inv H end; eauto 15. }
  clear F1 Hside Ha.
  assert (Hpar : ppar p = Some g) by (destruct Hpp as [-> | ->]; reflexivity).
  cbn [n_par]. rewrite Hpar.
  destruct Hpp as [-> | ->].
  - (* parent is the left child of g *)
    assert (exists t1, focus st (FL g false u :: p') t1 /\ tptr t1 = Some a /\
      focus st p' (T g false t1 u)) as (t1 & F1 & Ht1 & Fg).
    { destruct Hfs as [-> | ->].
      - exists (T a true (T x true l r) s). split; [fsw F|]. split; [reflexivity|].
        fsw F.
      - exists (T a true s (T x true l r)). split; [fsw F|]. split; [reflexivity|].
        fsw F. }
    apply runs_bind. eapply runs_ld_here; [exact Fg|]. cbn [n_left n_right]. rewrite Ht1.
    rewrite ptr_eqb_refl.
    apply runs_bind. eapply (runs_is_red _ (FR g false t1 :: p')).
    { fsw Fg. }
    destruct (isred u) eqn:Eu.
    + (* red uncle: recolour *)
      destruct u as [|ua uc ul ur]; [discriminate|]. simpl in Eu; subst uc. inv Hu. cbn [tptr].
      destruct Hfs as [-> | ->].
      * apply runs_bind.
        eapply (runs_set_color _ (FR g false (T a true (T x true l r) s) :: p')); [fsw F|].
        intros st1 F1' C1. apply runs_bind.
        eapply (runs_set_color _ (FL g false (T ua false ul ur) :: p')); [fsw F1'|].
        intros st2 F2 C2. apply runs_bind.
        eapply (runs_set_color _ p'); [fsw F2|].
        intros st3 F3 C3.
        eapply runs_conseq; [eapply (IH st3 p' g _ _ (S n) cp); eauto with rbdb; simpl in Hf; lia|].
        cbn beta. intros _ st4 (t & c & m & ? & ? & ? & Hi & ?). exists t, c, m. repeat split; auto; try apply H; try congruence.
        rewrite Hi. cbn [plug]. apply inorder_plug_eq. reflexivity.
      * apply runs_bind.
        eapply (runs_set_color _ (FR g false (T a true s (T x true l r)) :: p')); [fsw F|].
        intros st1 F1' C1. apply runs_bind.
        eapply (runs_set_color _ (FL g false (T ua false ul ur) :: p')); [fsw F1'|].
        intros st2 F2 C2. apply runs_bind.
        eapply (runs_set_color _ p'); [fsw F2|].
        intros st3 F3 C3.
        eapply runs_conseq; [eapply (IH st3 p' g _ _ (S n) cp); eauto with rbdb; simpl in Hf; lia|].
        cbn beta. intros _ st4 (t & c & m & ? & ? & ? & Hi & ?). exists t, c, m. repeat split; auto; try apply H; try congruence.
        rewrite Hi. cbn [plug]. apply inorder_plug_eq. reflexivity.
    + assert (Hu' : rb u false n) by (rewrite <- Eu, (rb_isred _ _ _ Hu); exact Hu). clear Hu.
      destruct Hfs as [-> | ->].
      * (* outer *)
        assert (Hns : ptr_eqb (tptr s) (Some x) = false).
        { apply ptr_eqb_false. eapply (focus_sib_neq _ _ _ x a true s F eq_refl). left; reflexivity. }
        fixpn. cbn [n_left n_right tptr]. rewrite Hns.
        apply runs_bind.
        eapply (runs_set_color _ (FL g false u :: p')); [fsw F|]. intros st1 F1' C1.
        apply runs_bind.
        eapply (runs_set_color _ p'); [fsw F1'|]. intros st2 F2 C2.
        apply runs_bind.
        eapply (runs_rotate_right _ p'); [fsw F2|]. intros st3 F3 C3.
        eapply runs_conseq; [eapply (IH st3 (FL a false (T g true s u) :: p') x l r n false);
           eauto with rbdb; [fsw F3 | simpl in Hf |- *; lia]|].
        cbn beta. intros _ st4 (t & c & m & ? & ? & ? & Hi & ?). exists t, c, m. repeat split; auto; try apply H; try congruence.
        rewrite Hi. cbn [plug]. apply inorder_plug_eq. simpl. rewrite <- !app_assoc. reflexivity.
      * (* inner *)
        fixpn. cbn [n_left n_right tptr]. rewrite ptr_eqb_refl.
        apply runs_bind.
        eapply (runs_rotate_left _ (FL g false u :: p')); [fsw F|]. intros st1 F1' C1.
        apply runs_bind.
        eapply (runs_set_color _ (FL g false u :: p')); [fsw F1'|]. intros st2 F2 C2.
        apply runs_bind.
        eapply (runs_set_color _ p'); [fsw F2|]. intros st3 F3 C3.
        apply runs_bind.
        eapply (runs_rotate_right _ p'); [fsw F3|]. intros st4 F4 C4.
        eapply runs_conseq; [eapply (IH st4 (FL x false (T g true r u) :: p') a s l n false);
           eauto with rbdb; [fsw F4 | simpl in Hf |- *; lia]|].
        cbn beta. intros _ st5 (t & c & m & ? & ? & ? & Hi & ?). exists t, c, m. repeat split; auto; try apply H; try congruence.
        rewrite Hi. cbn [plug]. apply inorder_plug_eq. simpl. repeat (rewrite <- !app_assoc; simpl). reflexivity.
  - (* parent is the right child of g *)
    assert (exists t1, focus st (FR g false u :: p') t1 /\ tptr t1 = Some a /\
      focus st p' (T g false u t1)) as (t1 & F1 & Ht1 & Fg).
    { destruct Hfs as [-> | ->].
      - exists (T a true (T x true l r) s). split; [fsw F|]. split; [reflexivity|].
        fsw F.
      - exists (T a true s (T x true l r)). split; [fsw F|]. split; [reflexivity|].
        fsw F. }
    apply runs_bind. eapply runs_ld_here; [exact Fg|]. cbn [n_left n_right].
    assert (Hnu : ptr_eqb (Some a) (tptr u) = false).
    { apply ptr_eqb_false. intros Eq. symmetry in Eq. revert Eq.
      eapply (focus_sib_neq _ _ _ a g false u F1 Ht1). right; reflexivity. }
    rewrite Hnu.
    apply runs_bind. eapply (runs_is_red _ (FL g false t1 :: p')).
    { fsw Fg. }
    destruct (isred u) eqn:Eu.
    + destruct u as [|ua uc ul ur]; [discriminate|]. simpl in Eu; subst uc. inv Hu. cbn [tptr].
      destruct Hfs as [-> | ->].
      * apply runs_bind.
        eapply (runs_set_color _ (FL g false (T a true (T x true l r) s) :: p')); [fsw F|].
        intros st1 F1' C1. apply runs_bind.
        eapply (runs_set_color _ (FR g false (T ua false ul ur) :: p')); [fsw F1'|].
        intros st2 F2 C2. apply runs_bind.
        eapply (runs_set_color _ p'); [fsw F2|].
        intros st3 F3 C3.
        eapply runs_conseq; [eapply (IH st3 p' g _ _ (S n) cp); eauto with rbdb; simpl in Hf; lia|].
        cbn beta. intros _ st4 (t & c & m & ? & ? & ? & Hi & ?). exists t, c, m. repeat split; auto; try apply H; try congruence.
        rewrite Hi. cbn [plug]. apply inorder_plug_eq. reflexivity.
      * apply runs_bind.
        eapply (runs_set_color _ (FL g false (T a true s (T x true l r)) :: p')); [fsw F|].
        intros st1 F1' C1. apply runs_bind.
        eapply (runs_set_color _ (FR g false (T ua false ul ur) :: p')); [fsw F1'|].
        intros st2 F2 C2. apply runs_bind.
        eapply (runs_set_color _ p'); [fsw F2|].
        intros st3 F3 C3.
        eapply runs_conseq; [eapply (IH st3 p' g _ _ (S n) cp); eauto with rbdb; simpl in Hf; lia|].
        cbn beta. intros _ st4 (t & c & m & ? & ? & ? & Hi & ?). exists t, c, m. repeat split; auto; try apply H; try congruence.
        rewrite Hi. cbn [plug]. apply inorder_plug_eq. reflexivity.
    + assert (Hu' : rb u false n) by (rewrite <- Eu, (rb_isred _ _ _ Hu); exact Hu). clear Hu.
      destruct Hfs as [-> | ->].
      * (* inner *)
        fixpn. cbn [n_left n_right tptr]. rewrite ptr_eqb_refl.
        apply runs_bind.
        eapply (runs_rotate_right _ (FR g false u :: p')); [fsw F|]. intros st1 F1' C1.
        apply runs_bind.
        eapply (runs_set_color _ (FR g false u :: p')); [fsw F1'|]. intros st2 F2 C2.
        apply runs_bind.
        eapply (runs_set_color _ p'); [fsw F2|]. intros st3 F3 C3.
        apply runs_bind.
        eapply (runs_rotate_left _ p'); [fsw F3|]. intros st4 F4 C4.
        eapply runs_conseq; [eapply (IH st4 (FR x false (T g true u l) :: p') a r s n false);
           eauto with rbdb; [fsw F4 | simpl in Hf |- *; lia]|].
        cbn beta. intros _ st5 (t & c & m & ? & ? & ? & Hi & ?). exists t, c, m. repeat split; auto; try apply H; try congruence.
        rewrite Hi. cbn [plug]. apply inorder_plug_eq. simpl. repeat (rewrite <- !app_assoc; simpl). reflexivity.
      * (* outer *)
        assert (Hns : ptr_eqb (tptr s) (Some x) = false).
        { apply ptr_eqb_false. eapply (focus_sib_neq _ _ _ x a true s F eq_refl). right; reflexivity. }
        fixpn. cbn [n_left n_right tptr]. rewrite Hns.
        apply runs_bind.
        eapply (runs_set_color _ (FR g false u :: p')); [fsw F|]. intros st1 F1' C1.
        apply runs_bind.
        eapply (runs_set_color _ p'); [fsw F1'|]. intros st2 F2 C2.
        apply runs_bind.
        eapply (runs_rotate_left _ p'); [fsw F2|]. intros st3 F3 C3.
        eapply runs_conseq; [eapply (IH st3 (FR a false (T g true u s) :: p') x l r n false);
           eauto with rbdb; [fsw F3 | simpl in Hf |- *; lia]|].
        cbn beta. intros _ st4 (t & c & m & ? & ? & ? & Hi & ?). exists t, c, m. repeat split; auto; try apply H; try congruence.
        rewrite Hi. cbn [plug]. apply inorder_plug_eq. simpl. repeat (rewrite <- !app_assoc; simpl). reflexivity.
Qed.
