(** * Iteration, traversals, replacement and clearing. *)
From Verif Require Import Base Rbtree RbtreeProof RbtreeFix RbtreeErase RbtreeSpec RbtreeThms.

Lemma reach_Inv {K} (cmp : K -> K -> Z) st keys live :
  total_preorder cmp -> reach cmp st keys live -> Inv cmp st keys live.
Proof.
  intros TP. induction 1.
  - eapply Inv_init; eauto.
  - pose proof (Inv_insert cmp TP st keys live a k g fuel IHreach H0 H1) as R.
    unfold runs in R. rewrite H2 in R. exact R.
  - destruct (Inv_erase cmp st keys live a fuel IHreach H0 H1) as (s1 & E1 & E2 & HI).
    rewrite E1 in H2. inversion H2; subst. rewrite E2 in H3. inversion H3; subst. exact HI.
  - destruct (Inv_remove cmp TP st keys live k fuel IHreach H0) as [(a' & s1 & E1 & _ & _ & E2 & HI)|(E1 & _)].
    + rewrite E1 in H1. inversion H1; subst. rewrite E2 in H2. inversion H2; subst. exact HI.
    + rewrite E1 in H1. discriminate.
  - destruct (Inv_remove cmp TP st keys live k fuel IHreach H0) as [(a' & s1 & E1 & _)|(E1 & _)].
    + rewrite E1 in H1. discriminate.
    + rewrite E1 in H1. inversion H1; subst. exact IHreach.
Qed.

(** ** first / last / next / prev *)
Lemma hd_error_app {A} (l1 l2 : list A) : l1 <> [] -> hd_error (l1 ++ l2) = hd_error l1.
Proof. destruct l1; simpl; congruence. Qed.
Lemma last_error_app2 {A} (l1 l2 : list A) : l2 <> [] -> last_error (l1 ++ l2) = last_error l2.
Proof.
  intros H. unfold last_error. rewrite rev_app_distr. apply hd_error_app.
  intros Hr. apply H. rewrite <- (rev_involutive l2), Hr. reflexivity.
Qed.
Lemma inorder_nonempty a c l r : inorder (T a c l r) <> [].
Proof. simpl. destruct (inorder l); discriminate. Qed.

Lemma leftmost_hd : forall fuel st p a c l r,
  focus st p (T a c l r) -> (height l + 1 <= fuel)%nat ->
  runs (leftmost fuel (Some a)) st (fun v st' => st' = st /\ v = hd_error (inorder (T a c l r))).
Proof.
  induction fuel as [|fuel IH]; intros st p a c l r F Hf; [lia|].
  cbn [leftmost]. apply runs_bind. eapply runs_ld_here; [exact F|]. cbn [n_left].
  destruct l as [|la lc ll lr]; cbn [tptr].
  - apply runs_ret. auto.
  - simpl in Hf. eapply runs_conseq; [eapply (IH st (FL a c r :: p)); [fsw F|]; lia|].
    cbn beta. intros v st' (-> & ->). split; auto.
    change (inorder (T a c (T la lc ll lr) r)) with (inorder (T la lc ll lr) ++ a :: inorder r).
    rewrite (hd_error_app (inorder (T la lc ll lr))); auto. apply inorder_nonempty.
Qed.
Lemma rightmost_last : forall fuel st p a c l r,
  focus st p (T a c l r) -> (height r + 1 <= fuel)%nat ->
  runs (rightmost fuel (Some a)) st (fun v st' => st' = st /\ v = last_error (inorder (T a c l r))).
Proof.
  induction fuel as [|fuel IH]; intros st p a c l r F Hf; [lia|].
  cbn [rightmost]. apply runs_bind. eapply runs_ld_here; [exact F|]. cbn [n_right].
  destruct r as [|la lc ll lr]; cbn [tptr].
  - apply runs_ret. split; auto. simpl. rewrite last_error_app2 by discriminate. reflexivity.
  - simpl in Hf. eapply runs_conseq; [eapply (IH st (FR a c l :: p)); [fsw F|]; lia|].
    cbn beta. intros v st' (-> & ->). split; auto.
    change (inorder (T a c l (T la lc ll lr))) with (inorder l ++ [a] ++ inorder (T la lc ll lr)).
    rewrite !last_error_app2; auto; try discriminate. apply inorder_nonempty.
Qed.

Lemma climb_right_ok : forall fuel st p t a, tptr t = Some a ->
  focus st p t -> (length p + 1 <= fuel)%nat ->
  runs (climb_right fuel (Some a)) st (fun v st' => st' = st /\ v = hd_error (rctx p)).
Proof.
  induction fuel as [|fuel IH]; intros st p t a Ht F Hf; [lia|].
  cbn [climb_right]. destruct t as [|a' c l r]; inversion Ht; subst a'.
  apply runs_bind. eapply runs_ld_here; [exact F|]. cbn [n_par].
  destruct p as [|[b d s|b d s] p]; cbn [ppar].
  - apply runs_ret. auto.
  - apply runs_bind. eapply (runs_ld_here _ p); [fsw F|]. cbn [n_right].
    rewrite ptr_eqb_false; [apply runs_ret; auto|].
    intros Eq. symmetry in Eq. revert Eq. eapply (focus_sib_neq _ _ _ a b d s F eq_refl). left; reflexivity.
  - apply runs_bind. eapply (runs_ld_here _ p); [fsw F|]. cbn [n_right tptr]. rewrite ptr_eqb_refl.
    simpl in Hf. eapply runs_conseq; [eapply (IH st p (T b d s (T a c l r)) b); [reflexivity|fsw F|lia]|].
    auto.
Qed.
Lemma climb_left_ok : forall fuel st p t a, tptr t = Some a ->
  focus st p t -> (length p + 1 <= fuel)%nat ->
  runs (climb_left fuel (Some a)) st (fun v st' => st' = st /\ v = last_error (lctx p)).
Proof.
  induction fuel as [|fuel IH]; intros st p t a Ht F Hf; [lia|].
  cbn [climb_left]. destruct t as [|a' c l r]; inversion Ht; subst a'.
  apply runs_bind. eapply runs_ld_here; [exact F|]. cbn [n_par].
  destruct p as [|[b d s|b d s] p]; cbn [ppar].
  - apply runs_ret. auto.
  - apply runs_bind. eapply (runs_ld_here _ p); [fsw F|]. cbn [n_left tptr]. rewrite ptr_eqb_refl.
    simpl in Hf. eapply runs_conseq; [eapply (IH st p (T b d (T a c l r) s) b); [reflexivity|fsw F|lia]|].
    auto.
  - apply runs_bind. eapply (runs_ld_here _ p); [fsw F|]. cbn [n_left].
    rewrite ptr_eqb_false.
    + apply runs_ret. split; auto. simpl. rewrite app_assoc, last_error_app2 by discriminate. reflexivity.
    + intros Eq. symmetry in Eq. revert Eq. eapply (focus_sib_neq _ _ _ a b d s F eq_refl). right; reflexivity.
Qed.

Lemma focus_par_neq st p a c l r : focus st p (T a c l r) -> ptr_eqb (ppar p) (Some a) = false.
Proof. intros F. apply ptr_eqb_false. eapply focus_neq; [exact F|reflexivity]. Qed.

Lemma rb_next_ok fuel st t a L R :
  focus st [] t -> inorder t = L ++ a :: R -> (height t + 1 <= fuel)%nat ->
  rb_next fuel (Some a) st = Ok (hd_error R, st).
Proof.
  intros F I Hf.
  destruct (focus_find st t a F) as (p & c & l & r & -> & Fp).
  { rewrite I. apply in_app_iff. right. left. auto. }
  assert (Hh := height_plug p (T a c l r)). cbn [height] in Hh.
  assert (L = lctx p ++ inorder l /\ R = inorder r ++ rctx p) as [-> ->].
  { apply (nodup_split a). - rewrite <- I. apply (focus_nodup _ _ F).
    - rewrite <- I, inorder_plug. simpl. rewrite <- !app_assoc. reflexivity. }
  assert (runs (rb_next fuel (Some a)) st (fun v st' => st' = st /\ v = hd_error (inorder r ++ rctx p))) as HR.
  { unfold rb_next. apply runs_bind. eapply runs_ld_here; [exact Fp|]. cbn [n_par n_right].
    rewrite (focus_par_neq _ _ _ _ _ _ Fp).
    destruct r as [|ra rc rl rr]; cbn [tptr].
    - eapply (climb_right_ok fuel st p (T a c l E) a); auto. lia.
    - eapply runs_conseq; [eapply (leftmost_hd fuel st (FR a c l :: p)); [fsw Fp|]; cbn [height] in Hh; lia|].
      intros v st' (-> & ->). split; auto. rewrite (hd_error_app (inorder (T ra rc rl rr))); auto. apply inorder_nonempty. }
  apply runs_ok in HR as (v & st' & E1 & -> & ->). exact E1.
Qed.
Lemma rb_prev_ok fuel st t a L R :
  focus st [] t -> inorder t = L ++ a :: R -> (height t + 1 <= fuel)%nat ->
  rb_prev fuel (Some a) st = Ok (last_error L, st).
Proof.
  intros F I Hf.
  destruct (focus_find st t a F) as (p & c & l & r & -> & Fp).
  { rewrite I. apply in_app_iff. right. left. auto. }
  assert (Hh := height_plug p (T a c l r)). cbn [height] in Hh.
  assert (L = lctx p ++ inorder l /\ R = inorder r ++ rctx p) as [-> ->].
  { apply (nodup_split a). - rewrite <- I. apply (focus_nodup _ _ F).
    - rewrite <- I, inorder_plug. simpl. rewrite <- !app_assoc. reflexivity. }
  assert (runs (rb_prev fuel (Some a)) st (fun v st' => st' = st /\ v = last_error (lctx p ++ inorder l))) as HR.
  { unfold rb_prev. apply runs_bind. eapply runs_ld_here; [exact Fp|]. cbn [n_par n_left].
    rewrite (focus_par_neq _ _ _ _ _ _ Fp).
    destruct l as [|ra rc rl rr]; cbn [tptr].
    - simpl inorder. rewrite app_nil_r. eapply (climb_left_ok fuel st p (T a c E r) a); auto. lia.
    - eapply runs_conseq; [eapply (rightmost_last fuel st (FL a c r :: p)); [fsw Fp|]; cbn [height] in Hh; lia|].
      intros v st' (-> & ->). split; auto. rewrite last_error_app2; auto. apply inorder_nonempty. }
  apply runs_ok in HR as (v & st' & E1 & -> & ->). exact E1.
Qed.
Lemma rb_first_ok fuel st t : focus st [] t -> (height t + 1 <= fuel)%nat ->
  rb_first fuel st = Ok (hd_error (inorder t), st).
Proof.
  intros F Hf.
  assert (runs (rb_first fuel) st (fun v st' => st' = st /\ v = hd_error (inorder t))) as HR.
  { unfold rb_first. apply runs_bind. unfold runs at 1, get_root. assert (s_root st = tptr t) as -> by apply F.
    destruct t as [|a c l r]; cbn [tptr]; [apply runs_ret; auto|]. simpl in Hf.
    eapply leftmost_hd; [exact F|lia]. }
  apply runs_ok in HR as (v & st' & E1 & -> & ->). exact E1.
Qed.
Lemma rb_last_ok fuel st t : focus st [] t -> (height t + 1 <= fuel)%nat ->
  rb_last fuel st = Ok (last_error (inorder t), st).
Proof.
  intros F Hf.
  assert (runs (rb_last fuel) st (fun v st' => st' = st /\ v = last_error (inorder t))) as HR.
  { unfold rb_last. apply runs_bind. unfold runs at 1, get_root. assert (s_root st = tptr t) as -> by apply F.
    destruct t as [|a c l r]; cbn [tptr]; [apply runs_ret; auto|]. simpl in Hf.
    eapply rightmost_last; [exact F|lia]. }
  apply runs_ok in HR as (v & st' & E1 & -> & ->). exact E1.
Qed.

(** ** Traversals *)
Section W.
  Context {S0 : Type} (f : nat -> S0 -> Z * S0).
  Fixpoint vu (l : list nat) (x : Z * S0) : Z * S0 :=
    match l with
    | [] => x
    | a :: l' => vu l' (if fst x =? 0 then f a (snd x) else x)
    end.
  Lemma vu_done l x : fst x <> 0 -> vu l x = x.
  Proof. revert x; induction l; simpl; intros x H; auto. rewrite (proj2 (Z.eqb_neq _ _) H). auto. Qed.
  Lemma vu_app l1 l2 x : vu (l1 ++ l2) x = vu l2 (vu l1 x).
  Proof. revert x; induction l1; simpl; auto. Qed.
  Lemma vu_until l s : snd (vu l (0, s)) = visit_until f l s.
  Proof.
    revert s; induction l as [|a l IH]; intros s; simpl; auto.
    destruct (f a s) as [d s'] eqn:E1. destruct (Z.eqb_spec d 0) as [->|Hd].
    - apply IH.
    - rewrite vu_done by auto. reflexivity.
  Qed.

  Lemma runs_unless st x m l :
    runs m st (fun v st' => st' = st /\ v = vu l x) ->
    runs (unless_done S0 x m) st (fun v st' => st' = st /\ v = vu l x).
  Proof.
    intros H. unfold unless_done. destruct (Z.eqb_spec (fst x) 0); auto.
    apply runs_ret. split; auto. rewrite vu_done; auto.
  Qed.
  Lemma runs_visit st a x :
    runs (visit S0 f (Some a) x) st (fun v st' => st' = st /\ v = vu [a] x).
  Proof. unfold visit. simpl. destruct (fst x =? 0); apply runs_ret; auto. Qed.

  Lemma traverse_ldr_ok : forall fuel st p t x, focus st p t -> (height t + 1 <= fuel)%nat ->
    runs (traverse_ldr S0 f fuel (tptr t) x) st (fun v st' => st' = st /\ v = vu (inorder t) x).
  Proof.
    induction fuel as [|fuel IH]; intros st p t x F Hf; [lia|].
    destruct t as [|a c l r]; cbn [traverse_ldr tptr]; [apply runs_ret; auto|]. simpl in Hf.
    apply runs_bind. eapply runs_conseq.
    { apply runs_unless with (l := inorder l). apply runs_bind. eapply runs_ld_here; [exact F|]. cbn [n_left].
      eapply (IH st (FL a c r :: p)); [fsw F|lia]. }
    cbn beta. intros x1 st1 (-> & ->).
    apply runs_bind. eapply runs_conseq; [apply runs_visit|]. cbn beta. intros x2 st2 (-> & ->).
    eapply runs_conseq.
    { apply runs_unless with (l := inorder r). apply runs_bind. eapply runs_ld_here; [exact F|]. cbn [n_right].
      eapply (IH st (FR a c l :: p)); [fsw F|lia]. }
    cbn beta. intros x3 st3 (-> & ->). split; auto.
    simpl inorder. rewrite vu_app. reflexivity.
  Qed.
  Lemma traverse_dlr_ok : forall fuel st p t x, focus st p t -> (height t + 1 <= fuel)%nat ->
    runs (traverse_dlr S0 f fuel (tptr t) x) st (fun v st' => st' = st /\ v = vu (preorder t) x).
  Proof.
    induction fuel as [|fuel IH]; intros st p t x F Hf; [lia|].
    destruct t as [|a c l r]; cbn [traverse_dlr tptr]; [apply runs_ret; auto|]. simpl in Hf.
    apply runs_bind. eapply runs_conseq; [apply runs_visit|]. cbn beta. intros x2 st2 (-> & ->).
    apply runs_bind. eapply runs_conseq.
    { apply runs_unless with (l := preorder l). apply runs_bind. eapply runs_ld_here; [exact F|]. cbn [n_left].
      eapply (IH st (FL a c r :: p)); [fsw F|lia]. }
    cbn beta. intros x1 st1 (-> & ->).
    eapply runs_conseq.
    { apply runs_unless with (l := preorder r). apply runs_bind. eapply runs_ld_here; [exact F|]. cbn [n_right].
      eapply (IH st (FR a c l :: p)); [fsw F|lia]. }
    cbn beta. intros x3 st3 (-> & ->). split; auto.
    change (preorder (T a c l r)) with ([a] ++ preorder l ++ preorder r). rewrite !vu_app. reflexivity.
  Qed.
  Lemma traverse_lrd_ok : forall fuel st p t x, focus st p t -> (height t + 1 <= fuel)%nat ->
    runs (traverse_lrd S0 f fuel (tptr t) x) st (fun v st' => st' = st /\ v = vu (postorder t) x).
  Proof.
    induction fuel as [|fuel IH]; intros st p t x F Hf; [lia|].
    destruct t as [|a c l r]; cbn [traverse_lrd tptr]; [apply runs_ret; auto|]. simpl in Hf.
    apply runs_bind. eapply runs_conseq.
    { apply runs_unless with (l := postorder l). apply runs_bind. eapply runs_ld_here; [exact F|]. cbn [n_left].
      eapply (IH st (FL a c r :: p)); [fsw F|lia]. }
    cbn beta. intros x1 st1 (-> & ->).
    apply runs_bind. eapply runs_conseq.
    { apply runs_unless with (l := postorder r). apply runs_bind. eapply runs_ld_here; [exact F|]. cbn [n_right].
      eapply (IH st (FR a c l :: p)); [fsw F|lia]. }
    cbn beta. intros x3 st3 (-> & ->).
    eapply runs_conseq; [apply runs_visit|]. cbn beta. intros x2 st2 (-> & ->). split; auto.
    simpl postorder. rewrite !vu_app. reflexivity.
  Qed.

  Lemma rb_traverse_ok fuel st t s : focus st [] t -> (height t + 1 <= fuel)%nat ->
    rb_traverse_dlr S0 f fuel s st = Ok (visit_until f (preorder t) s, st) /\
    rb_traverse_ldr S0 f fuel s st = Ok (visit_until f (inorder t) s, st) /\
    rb_traverse_lrd S0 f fuel s st = Ok (visit_until f (postorder t) s, st).
  Proof.
    intros F Hf. assert (Hr : s_root st = tptr t) by apply F.
    unfold rb_traverse_dlr, rb_traverse_ldr, rb_traverse_lrd, bindM, get_root; cbn [bind]; rewrite Hr.
    destruct (runs_ok _ _ _ (traverse_dlr_ok fuel st [] t (0, s) F Hf)) as (v1 & s1 & E1 & -> & ->).
    destruct (runs_ok _ _ _ (traverse_ldr_ok fuel st [] t (0, s) F Hf)) as (v2 & s2 & E2 & -> & ->).
    destruct (runs_ok _ _ _ (traverse_lrd_ok fuel st [] t (0, s) F Hf)) as (v3 & s3 & E3 & -> & ->).
    rewrite E1, E2, E3. cbn [bind]. unfold ret. rewrite !vu_until. auto.
  Qed.
End W.

(** ** aosl_rb_replace_node *)
Lemma rb_replace_node_ok st p a c l r s :
  focus st p (T a c l r) -> (occ s (T a c l r) + occp s p = 0)%nat -> s_heap st s <> None ->
  runs (rb_replace_node (Some a) (Some s)) st (fun _ st' =>
    focus st' p (T s c l r) /\ s_count st' = s_count st).
Proof.
  intros (Fp & (Fa & Fl & Fr) & N) Ns Hs. simpl in N, Ns.
  assert (Na := N a). rewrite ind_eq in Na.
  assert (Hsa : a <> s) by (intros ->; rewrite ind_eq in Ns; lia).
  unfold rb_replace_node.
  apply runs_bind. eapply runs_ld; [exact Fa|]. cbn [n_par n_red n_left n_right].
  apply runs_bind. eapply (runs_replace_child_l _ p a); [exact Fp|lia|].
  set (h2 := upd_hole (s_heap st) p (Some s)).
  assert (H2 : forall x, (occp x p = 0)%nat -> h2 x = s_heap st x) by (intros; apply upd_hole_other; auto).
  assert (H2a : h2 a = Some (mkN (ppar p) c (tptr l) (tptr r))) by (rewrite H2; [exact Fa|lia]).
  apply runs_bind. eapply runs_ld; [exact H2a|]. cbn [n_left].
  assert (H2l : rep h2 (Some a) l).
  { eapply rep_frame; [exact Fl|]. intros x Hx. specialize (N x). apply H2; lia. }
  assert (H2r : rep h2 (Some a) r).
  { eapply rep_frame; [exact Fr|]. intros x Hx. specialize (N x). apply H2; lia. }
  apply runs_bind. eapply runs_set_parent_opt; [exact H2l|]. cbn [s_heap s_root s_count].
  set (h3 := repar_heap h2 l (Some s)).
  assert (H3a : h3 a = Some (mkN (ppar p) c (tptr l) (tptr r))).
  { unfold h3. rewrite repar_heap_other by lia. exact H2a. }
  apply runs_bind. eapply runs_ld; [exact H3a|]. cbn [n_right].
  assert (H3r : rep h3 (Some a) r).
  { eapply rep_frame; [exact H2r|]. intros x Hx. specialize (N x). unfold h3. rewrite repar_heap_other; auto; lia. }
  apply runs_bind. eapply runs_set_parent_opt; [exact H3r|]. cbn [s_heap s_root s_count].
  set (h4 := repar_heap h3 r (Some s)).
  assert (H4a : h4 a = Some (mkN (ppar p) c (tptr l) (tptr r))).
  { unfold h4. rewrite repar_heap_other by lia. exact H3a. }
  apply runs_bind. eapply runs_ld; [exact H4a|].
  assert (H4s : exists n, h4 s = Some n).
  { unfold h4, h3. rewrite !repar_heap_other by lia. rewrite H2 by lia. destruct (s_heap st s); [eauto|congruence]. }
  destruct H4s as (ns & H4s).
  eapply runs_modify; [exact H4s|]. cbn [s_heap s_root s_count].
  split; [|reflexivity]. split; [|split]; cbn [s_heap s_root tptr].
  - eapply repc_frame; [apply (repc_upd_hole _ _ _ (Some s) _ Fp)|].
    + intros x; specialize (N x); lia.
    + intros x Hx. specialize (N x). rewrite hupd_neq by (intros ->; lia). unfold h4, h3.
      rewrite !repar_heap_other by lia. reflexivity.
  - simpl. rewrite hupd_eq. split; [reflexivity|]. split.
    + eapply rep_frame; [apply (rep_repar_heap h2 (Some a) l (Some s) H2l)|].
      * intros x; specialize (N x); lia.
      * intros x Hx. specialize (N x). rewrite hupd_neq by (intros ->; lia). unfold h4.
        rewrite repar_heap_other by lia. reflexivity.
    + eapply rep_frame; [apply (rep_repar_heap h3 (Some a) r (Some s) H3r)|].
      * intros x; specialize (N x); lia.
      * intros x Hx. specialize (N x). rewrite hupd_neq by (intros ->; lia). reflexivity.
  - intros x. specialize (N x). simpl in *. unfold ind in *.
    destruct (Nat.eqb_spec x s) as [->|]; [|lia].
    rewrite (proj2 (Nat.eqb_neq s a)) in * by auto. lia.
Qed.

(** ** aosl_rb_clear *)
Lemma log_steps_mono n m : (n <= m)%nat -> (log_steps n <= log_steps m)%nat.
Proof. intros H. unfold log_steps. pose proof (Nat.log2_le_mono (n + 1) (m + 1) ltac:(lia)). lia. Qed.
Lemma filter_length_le {A} (f : A -> bool) l : (length (filter f l) <= length l)%nat.
Proof. induction l; simpl; auto. destruct (f a); simpl; lia. Qed.

Lemma rb_clear_dead : forall loops fuel st l st' a,
  rb_clear loops fuel st = Ok (l, st') -> s_heap st a = None -> s_heap st' a = None.
Proof.
  induction loops as [|loops IH]; intros fuel st l st' a H Ha; [discriminate|].
  cbn [rb_clear] in H. unfold bindM at 1, get_root in H. cbn [bind] in H.
  destruct (s_root st) as [r|] eqn:Hr.
  - unfold bindM in H. destruct (rb_erase fuel (Some r) st) as [[[] st1]| |] eqn:E1; try discriminate.
    cbn [bind] in H. destruct (free_node (Some r) st1) as [[[] st2]| |] eqn:E2; try discriminate.
    cbn [bind] in H. destruct (rb_clear loops fuel st2) as [[l2 st3]| |] eqn:E3; try discriminate.
    cbn [bind] in H. inversion H; subst. eapply IH; [exact E3|].
    unfold free_node in E2. destruct (s_heap st1 r); inversion E2; subst. simpl. unfold hupd.
    destruct (Nat.eqb a r); auto. apply (mono_rb_erase _ _ _ _ _ E1). auto.
  - inversion H; subst. auto.
Qed.

Lemma rb_clear_ok {K} (cmp : K -> K -> Z) : forall loops fuel st keys live,
  Inv cmp st keys live -> (log_steps (length live) <= fuel)%nat -> (length live < loops)%nat ->
  exists l st', rb_clear loops fuel st = Ok (l, st') /\ Permutation l (map fst live) /\
    s_root st' = None /\ s_count st' = 0 /\ (forall a, In a l -> s_heap st' a = None).
Proof.
  induction loops as [|loops IH]; intros fuel st keys live HI Hf Hl; [lia|].
  cbn [rb_clear]. assert (HI0 := HI). destruct HI as (t & m & F & R & P & S & St & C & Kk).
  unfold bindM at 1, get_root. cbn [bind].
  assert (s_root st = tptr t) as Hroot by apply F. rewrite Hroot.
  destruct t as [|a c tl tr]; cbn [tptr].
  - simpl in P. apply Permutation_nil in P. exists [], st. rewrite P in *.
    destruct live; [|discriminate]. repeat split; auto. intros a [].
  - assert (Ha : In a (map fst live)).
    { eapply Permutation_in; [exact P|]. simpl. apply in_app_iff. right. left. auto. }
    destruct (Inv_erase cmp st keys live a fuel HI0 Ha Hf) as (st1 & E1 & E2 & HI1).
    assert (ND : NoDup (map fst live)).
    { eapply Permutation_NoDup; [exact P|]. apply (focus_nodup _ _ F). }
    assert (Hlen : (length (filter (not_node a) live) < length live)%nat).
    { clear -Ha. induction live as [|[b k] live IHl]; simpl in *; [tauto|].
      unfold not_node at 1. simpl. destruct (Nat.eqb_spec b a).
      - simpl. pose proof (filter_length_le (not_node a) live). lia.
      - destruct Ha as [Ha|Ha]; [congruence|]. simpl. specialize (IHl Ha). lia. }
    destruct (IH fuel (with_cell st1 a None) keys (filter (not_node a) live) HI1) as (l & st2 & E3 & P2 & Hr & Hc & Hfree).
    { etransitivity; [apply log_steps_mono; apply Nat.lt_le_incl; exact Hlen|auto]. }
    { lia. }
    exists (a :: l), st2. split.
    { unfold bindM. rewrite E1. cbn [bind]. rewrite E2. cbn [bind]. rewrite E3. reflexivity. }
    split; [|split; [auto|split; [auto|]]].
    + rewrite P2, filter_map_fst.
      assert (Ha' := Ha). apply in_split in Ha' as (l1 & l2 & Hs). rewrite Hs in *.
      rewrite filter_app. simpl. rewrite Nat.eqb_refl. simpl.
      apply NoDup_remove in ND as (ND1 & ND2).
      rewrite !filter_all; [apply Permutation_middle| |]; intros x Hx; apply negb_true_iff, Nat.eqb_neq;
        intros ->; apply ND2; apply in_app_iff; auto.
    + intros b [<-|Hb]; auto. eapply rb_clear_dead; [exact E3|]. simpl. apply hupd_eq.
Qed.
