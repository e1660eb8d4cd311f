(** * Heap-level proofs: the tree predicate, focusing, the pointer primitives. *)
From Verif Require Import Base Rbtree.

Inductive tree := E | T (a : nat) (red : bool) (l r : tree).
Definition tptr (t : tree) : ptr := match t with E => None | T a _ _ _ => Some a end.
Fixpoint inorder (t : tree) : list nat :=
  match t with E => [] | T a _ l r => inorder l ++ a :: inorder r end.

Inductive frame := FL (a : nat) (c : bool) (r : tree) | FR (a : nat) (c : bool) (l : tree).
Definition path := list frame.
Definition ppar (p : path) : ptr :=
  match p with [] => None | FL a _ _ :: _ => Some a | FR a _ _ :: _ => Some a end.
Fixpoint plug (p : path) (t : tree) : tree :=
  match p with
  | [] => t
  | FL a c r :: p' => plug p' (T a c t r)
  | FR a c l :: p' => plug p' (T a c l t)
  end.

Definition ind (x a : nat) : nat := if Nat.eqb x a then 1%nat else 0%nat.
Fixpoint occ (x : nat) (t : tree) : nat :=
  match t with E => 0 | T a _ l r => ind x a + occ x l + occ x r end%nat.
Fixpoint occp (x : nat) (p : path) : nat :=
  match p with
  | [] => 0
  | FL a _ s :: p' => ind x a + occ x s + occp x p'
  | FR a _ s :: p' => ind x a + occ x s + occp x p'
  end%nat.

Fixpoint rep (h : nat -> option rbn) (par : ptr) (t : tree) : Prop :=
  match t with
  | E => True
  | T a c l r => h a = Some (mkN par c (tptr l) (tptr r)) /\
                 rep h (Some a) l /\ rep h (Some a) r
  end.
Fixpoint repc (h : nat -> option rbn) (root hole : ptr) (p : path) : Prop :=
  match p with
  | [] => root = hole
  | FL a c r :: p' => h a = Some (mkN (ppar p') c hole (tptr r)) /\
                      rep h (Some a) r /\ repc h root (Some a) p'
  | FR a c l :: p' => h a = Some (mkN (ppar p') c (tptr l) hole) /\
                      rep h (Some a) l /\ repc h root (Some a) p'
  end.

(** The heap [h] with root pointer [root] is the tree [plug p t]. *)
Definition focus (st : rst) (p : path) (t : tree) : Prop :=
  repc (s_heap st) (s_root st) (tptr t) p /\ rep (s_heap st) (ppar p) t /\
  (forall x, occ x t + occp x p <= 1)%nat.

Lemma ind_eq x : ind x x = 1%nat.
Proof. unfold ind. now rewrite Nat.eqb_refl. Qed.
Lemma ind_neq x a : x <> a -> ind x a = 0%nat.
Proof. unfold ind. intros H. now rewrite (proj2 (Nat.eqb_neq _ _) H). Qed.

Lemma hupd_eq h a v : hupd h a v a = v.
Proof. unfold hupd. now rewrite Nat.eqb_refl. Qed.
Lemma hupd_neq h a v x : x <> a -> hupd h a v x = h x.
Proof. unfold hupd. intros H. now rewrite (proj2 (Nat.eqb_neq _ _) H). Qed.

Lemma ptr_eqb_refl p : ptr_eqb p p = true.
Proof. destruct p; simpl; auto using Nat.eqb_refl. Qed.
Lemma ptr_eqb_true p q : ptr_eqb p q = true <-> p = q.
Proof.
  destruct p, q; simpl; split; intros H; try congruence; auto.
  - apply Nat.eqb_eq in H. congruence.
  - injection H as ->. apply Nat.eqb_refl.
Qed.
Lemma ptr_eqb_false p q : p <> q -> ptr_eqb p q = false.
Proof. intros H. destruct (ptr_eqb p q) eqn:Eq; auto. apply ptr_eqb_true in Eq. congruence. Qed.

Lemma tptr_occ t a : tptr t = Some a -> (1 <= occ a t)%nat.
Proof. destruct t; simpl; intros H; inversion H; subst. rewrite ind_eq. lia. Qed.
Lemma ppar_occ p a : ppar p = Some a -> (1 <= occp a p)%nat.
Proof.
  destruct p as [|[b c s|b c s] p]; simpl; intros H; inversion H; subst; rewrite ind_eq; lia.
Qed.

(** Moving the focus. *)
Lemma focus_FL st p a c t s : focus st (FL a c s :: p) t <-> focus st p (T a c t s).
Proof.
  unfold focus; simpl. split; intros (H1 & H2 & H3).
  - destruct H1 as (? & ? & ?). repeat split; auto. intros x; specialize (H3 x); lia.
  - destruct H2 as (? & ? & ?). repeat split; auto. intros x; specialize (H3 x); lia.
Qed.
Lemma focus_FR st p a c t s : focus st (FR a c s :: p) t <-> focus st p (T a c s t).
Proof.
  unfold focus; simpl. split; intros (H1 & H2 & H3).
  - destruct H1 as (? & ? & ?). repeat split; auto. intros x; specialize (H3 x); lia.
  - destruct H2 as (? & ? & ?). repeat split; auto. intros x; specialize (H3 x); lia.
Qed.
Lemma plug_app p q t : plug (p ++ q) t = plug q (plug p t).
Proof. revert t; induction p as [|[? ? ?|? ? ?] p IH]; intros t; simpl; auto. Qed.
Lemma focus_app st p q t : focus st (p ++ q) t <-> focus st q (plug p t).
Proof.
  revert t; induction p as [|[? ? ?|? ? ?] p IH]; intros t; simpl; [tauto| |].
  - rewrite focus_FL. apply IH.
  - rewrite focus_FR. apply IH.
Qed.
Lemma focus_plug st p t : focus st p t <-> focus st [] (plug p t).
Proof. rewrite <- focus_app, app_nil_r. tauto. Qed.
Lemma focus_switch st p t p' t' : plug p t = plug p' t' -> focus st p t -> focus st p' t'.
Proof. intros H. rewrite (focus_plug st p t), (focus_plug st p' t'), H. auto. Qed.

(** Framing. *)
Lemma rep_frame h h' par t :
  rep h par t -> (forall x, (1 <= occ x t)%nat -> h' x = h x) -> rep h' par t.
Proof.
  revert par; induction t as [|a c l IHl r IHr]; simpl; intros par H F; auto.
  destruct H as (H1 & H2 & H3). repeat split.
  - rewrite F; auto. rewrite ind_eq; lia.
  - apply IHl; auto. intros; apply F; lia.
  - apply IHr; auto. intros; apply F; lia.
Qed.
Lemma rep_repar h h' par par' t :
  rep h par t -> (forall x, occ x t <= 1)%nat ->
  (forall x, (1 <= occ x t)%nat -> tptr t <> Some x -> h' x = h x) ->
  (forall a n, tptr t = Some a -> h a = Some n ->
     h' a = Some (mkN par' (n_red n) (n_left n) (n_right n))) ->
  rep h' par' t.
Proof.
  destruct t as [|a c l r]; simpl; intros H N F G; auto.
  destruct H as (H1 & H2 & H3). repeat split.
  - apply (G a _ eq_refl H1).
  - eapply rep_frame; eauto. intros x Hx. apply F; [lia|].
    intros [= ->]. specialize (N x). rewrite ind_eq in N. lia.
  - eapply rep_frame; eauto. intros x Hx. apply F; [lia|].
    intros [= ->]. specialize (N x). rewrite ind_eq in N. lia.
Qed.
Lemma repc_frame h h' root hole p :
  repc h root hole p -> (forall x, (1 <= occp x p)%nat -> h' x = h x) -> repc h' root hole p.
Proof.
  revert hole; induction p as [|[a c s|a c s] p IH]; simpl; intros hole H F; auto.
  - destruct H as (H1 & H2 & H3). repeat split.
    + rewrite F; auto. rewrite ind_eq; lia.
    + eapply rep_frame; eauto. intros; apply F; lia.
    + apply IH; auto. intros; apply F; lia.
  - destruct H as (H1 & H2 & H3). repeat split.
    + rewrite F; auto. rewrite ind_eq; lia.
    + eapply rep_frame; eauto. intros; apply F; lia.
    + apply IH; auto. intros; apply F; lia.
Qed.
Lemma rep_at h par t a n : rep h par t -> tptr t = Some a -> h a = Some n -> n_par n = par.
Proof. destruct t; simpl; intros H E1 E2; inversion E1; subst. destruct H as (H & _). now rewrite H in E2; inversion E2. Qed.
Lemma rep_alloc h par t x : rep h par t -> (1 <= occ x t)%nat -> exists n, h x = Some n.
Proof.
  revert par; induction t as [|a c l IHl r IHr]; simpl; intros par H O; [lia|].
  destruct H as (H1 & H2 & H3). unfold ind in O. destruct (Nat.eqb_spec x a) as [->|].
  - eauto.
  - assert (1 <= occ x l \/ 1 <= occ x r)%nat as [?|?] by lia; eauto.
Qed.

(** Weakest-precondition style execution. *)
Definition runs {A} (m : M A) (st : rst) (Q : A -> rst -> Prop) : Prop :=
  match m st with Ok (v, st') => Q v st' | _ => False end.

Lemma runs_bind {A B} (m : M A) (k : A -> M B) st Q :
  runs m st (fun v st' => runs (k v) st' Q) -> runs (bindM m k) st Q.
Proof. unfold runs, bindM. destruct (m st) as [[v st']| |]; simpl; auto. Qed.
Lemma runs_conseq {A} (m : M A) st (Q Q' : A -> rst -> Prop) :
  runs m st Q -> (forall v st', Q v st' -> Q' v st') -> runs m st Q'.
Proof. unfold runs. destruct (m st) as [[v st']| |]; auto. Qed.
Lemma runs_ret {A} (v : A) st (Q : A -> rst -> Prop) : Q v st -> runs (ret v) st Q.
Proof. auto. Qed.
Lemma runs_ok {A} (m : M A) st Q : runs m st Q -> exists v st', m st = Ok (v, st') /\ Q v st'.
Proof. unfold runs. destruct (m st) as [[v st']| |]; try tauto. eauto. Qed.
Lemma runs_ld a n st (Q : rbn -> rst -> Prop) : s_heap st a = Some n -> Q n st -> runs (ld (Some a)) st Q.
Proof. unfold runs, ld. intros ->. auto. Qed.
Lemma runs_modify a n f st (Q : unit -> rst -> Prop) :
  s_heap st a = Some n ->
  Q tt (mkSt (hupd (s_heap st) a (Some (f n))) (s_root st) (s_count st)) ->
  runs (modify (Some a) f) st Q.
Proof. unfold runs, modify. intros ->. auto. Qed.

(** Loading nodes near the focus. *)
Lemma focus_here st p a c l r :
  focus st p (T a c l r) -> s_heap st a = Some (mkN (ppar p) c (tptr l) (tptr r)).
Proof. intros (_ & (H & _) & _). exact H. Qed.
Lemma runs_ld_here st p a c l r (Q : rbn -> rst -> Prop) :
  focus st p (T a c l r) -> Q (mkN (ppar p) c (tptr l) (tptr r)) st -> runs (ld (Some a)) st Q.
Proof. intros H. apply runs_ld. eapply focus_here; eauto. Qed.

Lemma focus_par st p t a : focus st p t -> ppar p = Some a ->
  exists c s p', (p = FL a c s :: p' /\ focus st p' (T a c t s)) \/
                 (p = FR a c s :: p' /\ focus st p' (T a c s t)).
Proof.
  intros H Hp. destruct p as [|[b c s|b c s] p]; simpl in Hp; inversion Hp; subst; exists c, s, p.
  - left. split; auto. now apply focus_FL.
  - right. split; auto. now apply focus_FR.
Qed.

(** Set the colour at the focus. *)
Lemma runs_set_color st p a c c' l r (Q : unit -> rst -> Prop) :
  focus st p (T a c l r) ->
  (forall st', focus st' p (T a c' l r) -> s_count st' = s_count st -> Q tt st') ->
  runs (set_color (Some a) c') st Q.
Proof.
  intros F HQ. eapply runs_modify; [eapply focus_here; eauto|]. apply HQ; auto.
  destruct F as (F1 & (F2 & F3 & F4) & F5). simpl.
  assert (N := F5 a). simpl in N. rewrite ind_eq in N.
  split; [|split].
  - simpl. eapply repc_frame; eauto. intros x Hx. apply hupd_neq. intros ->. lia.
  - simpl. rewrite hupd_eq. repeat split.
    + eapply rep_frame; eauto. intros x Hx. apply hupd_neq. intros ->. lia.
    + eapply rep_frame; eauto. intros x Hx. apply hupd_neq. intros ->. lia.
  - exact F5.
Qed.

(** Re-aiming the link that leads to the focus. *)
Definition upd_hole (h : nat -> option rbn) (p : path) (new : ptr) : nat -> option rbn :=
  match p with
  | [] => h
  | FL b c s :: p' => hupd h b (Some (mkN (ppar p') c new (tptr s)))
  | FR b c s :: p' => hupd h b (Some (mkN (ppar p') c (tptr s) new))
  end.
Definition upd_root (root : ptr) (p : path) (new : ptr) : ptr :=
  match p with [] => new | _ => root end.

Lemma repc_upd_hole h root hole new p :
  repc h root hole p -> (forall x, occp x p <= 1)%nat ->
  repc (upd_hole h p new) (upd_root root p new) new p.
Proof.
  destruct p as [|[b c s|b c s] p]; simpl; auto; intros (H1 & H2 & H3) N;
    rewrite hupd_eq; assert (Nb := N b); rewrite ind_eq in Nb; repeat split.
  - eapply rep_frame; eauto. intros x Hx. apply hupd_neq. intros ->. lia.
  - eapply repc_frame; eauto. intros x Hx. apply hupd_neq. intros ->. lia.
  - eapply rep_frame; eauto. intros x Hx. apply hupd_neq. intros ->. lia.
  - eapply repc_frame; eauto. intros x Hx. apply hupd_neq. intros ->. lia.
Qed.
Lemma upd_hole_other h p new x : (occp x p = 0)%nat -> upd_hole h p new x = h x.
Proof.
  destruct p as [|[b c s|b c s] p]; simpl; auto; intros H; apply hupd_neq; intros ->;
    rewrite ind_eq in H; lia.
Qed.

Lemma runs_replace_child_l st p a new (Q : unit -> rst -> Prop) :
  repc (s_heap st) (s_root st) (Some a) p -> (occp a p = 0)%nat ->
  Q tt (mkSt (upd_hole (s_heap st) p new) (upd_root (s_root st) p new) (s_count st)) ->
  runs (replace_child_l (ppar p) (Some a) new) st Q.
Proof.
  destruct p as [|[b c s|b c s] p]; cbn [repc occp ppar upd_hole upd_root replace_child_l replace_child_r]; intros H N HQ; auto.
  - destruct H as (H1 & H2 & H3). apply runs_bind. eapply runs_ld; [exact H1|]. cbn [n_left n_right].
    rewrite ptr_eqb_refl. eapply runs_modify; [exact H1|]. exact HQ.
  - destruct H as (H1 & H2 & H3). apply runs_bind. eapply runs_ld; [exact H1|]. cbn [n_left].
    rewrite ptr_eqb_false.
    + eapply runs_modify; [exact H1|]. exact HQ.
    + intros Eq. symmetry in Eq. apply tptr_occ in Eq. lia.
Qed.
Lemma runs_replace_child_r st p a new (Q : unit -> rst -> Prop) :
  repc (s_heap st) (s_root st) (Some a) p -> (occp a p = 0)%nat ->
  Q tt (mkSt (upd_hole (s_heap st) p new) (upd_root (s_root st) p new) (s_count st)) ->
  runs (replace_child_r (ppar p) (Some a) new) st Q.
Proof.
  destruct p as [|[b c s|b c s] p]; cbn [repc occp ppar upd_hole upd_root replace_child_l replace_child_r]; intros H N HQ; auto.
  - destruct H as (H1 & H2 & H3). apply runs_bind. eapply runs_ld; [exact H1|]. cbn [n_right].
    rewrite ptr_eqb_false.
    + eapply runs_modify; [exact H1|]. exact HQ.
    + intros Eq. symmetry in Eq. apply tptr_occ in Eq. lia.
  - destruct H as (H1 & H2 & H3). apply runs_bind. eapply runs_ld; [exact H1|]. cbn [n_left n_right].
    rewrite ptr_eqb_refl. eapply runs_modify; [exact H1|]. exact HQ.
Qed.

Definition repar_heap (h : nat -> option rbn) (t : tree) (q : ptr) : nat -> option rbn :=
  match t with
  | E => h
  | T a c l r => hupd h a (Some (mkN q c (tptr l) (tptr r)))
  end.
Lemma runs_set_parent_opt st par t q (Q : unit -> rst -> Prop) :
  rep (s_heap st) par t ->
  Q tt (mkSt (repar_heap (s_heap st) t q) (s_root st) (s_count st)) ->
  runs (set_parent_opt (tptr t) q) st Q.
Proof.
  destruct t as [|a c l r]; simpl; intros H HQ.
  - apply runs_ret. destruct st; exact HQ.
  - destruct H as (H1 & _). eapply runs_modify; [exact H1|]. exact HQ.
Qed.
Lemma rep_repar_heap h par t q :
  rep h par t -> (forall x, occ x t <= 1)%nat -> rep (repar_heap h t q) q t.
Proof.
  intros H N. eapply rep_repar; eauto.
  - intros x Hx Hne. destruct t as [|a c l r]; simpl in *; auto. apply hupd_neq. congruence.
  - intros a n E1 E2. destruct t as [|b c l r]; simpl in *; inversion E1; subst.
    rewrite hupd_eq. destruct H as (H & _). rewrite H in E2. inversion E2; subst. reflexivity.
Qed.
Lemma repar_heap_other h t q x : (occ x t = 0)%nat -> repar_heap h t q x = h x.
Proof.
  destruct t as [|a c l r]; simpl; auto. intros H. apply hupd_neq. intros ->.
  rewrite ind_eq in H. lia.
Qed.

(** Rotations at the focus. *)
Lemma runs_rotate_left st p a c l b d m r (Q : unit -> rst -> Prop) :
  focus st p (T a c l (T b d m r)) ->
  (forall st', focus st' p (T b d (T a c l m) r) -> s_count st' = s_count st -> Q tt st') ->
  runs (rotate_left (Some a)) st Q.
Proof.
  intros F HQ. destruct F as (Fp & Ft & N). simpl in Ft. destruct Ft as (Fa & Fl & Fb & Fm & Fr).
  simpl in N.
  assert (Na := N a). assert (Nb := N b). rewrite ind_eq in Na. rewrite ind_eq in Nb.
  assert (Hab : a <> b) by (intros ->; rewrite ind_eq in Na; lia).
  rewrite (ind_neq a b) in Na by auto. rewrite (ind_neq b a) in Nb by auto.
  unfold rotate_left.
  apply runs_bind. eapply runs_ld; [exact Fa|]. cbn [n_right n_par tptr].
  apply runs_bind. eapply runs_ld; [exact Fb|]. cbn [n_left].
  apply runs_bind. eapply runs_modify; [exact Fa|]. cbn [n_par n_red n_left s_heap s_root s_count].
  apply runs_bind.
  eapply (runs_set_parent_opt _ (Some b)).
  { cbn [s_heap]. eapply rep_frame; [exact Fm|]. intros x Hx. apply hupd_neq. intros ->. lia. }
  cbn [s_heap s_root s_count].
  set (h2 := repar_heap _ m _).
  assert (H2b : h2 b = Some (mkN (Some a) d (tptr m) (tptr r))).
  { unfold h2. rewrite repar_heap_other by lia. rewrite hupd_neq by auto. exact Fb. }
  apply runs_bind. eapply runs_modify; [exact H2b|]. cbn [n_par n_red n_right s_heap s_root s_count].
  apply runs_bind. eapply runs_modify; [cbn [s_heap]; rewrite hupd_eq; reflexivity|].
  cbn [n_par n_red n_left n_right s_heap s_root s_count].
  set (h4 := hupd (hupd h2 b _) b _).
  assert (H4 : forall x, (occ x m = 0)%nat -> x <> a -> x <> b -> h4 x = s_heap st x).
  { intros x ? ? ?. unfold h4, h2. rewrite !hupd_neq by auto. rewrite repar_heap_other by auto.
    apply hupd_neq; auto. }
  assert (Hp4 : repc h4 (s_root st) (Some a) p).
  { eapply repc_frame; [exact Fp|]. intros x Hx. specialize (N x). apply H4.
    - lia. - intros ->. lia. - intros ->. lia. }
  apply runs_bind. eapply (runs_replace_child_l _ p a); [exact Hp4|lia|]. cbn [s_heap s_root s_count].
  set (h5 := upd_hole h4 p (Some b)).
  assert (H5a : h5 a = Some (mkN (ppar p) c (tptr l) (tptr m))).
  { unfold h5. rewrite upd_hole_other by lia. unfold h4, h2. rewrite !hupd_neq by auto.
    rewrite repar_heap_other by lia. rewrite hupd_eq. reflexivity. }
  eapply runs_modify; [exact H5a|]. cbn [n_par n_red n_left n_right s_heap s_root s_count].
  assert (Np : forall x, (occp x p <= 1)%nat) by (intros x; specialize (N x); lia).
  apply HQ; [|reflexivity].
  split; [|split]; cbn [s_heap s_root tptr].
  - eapply repc_frame; [apply (repc_upd_hole _ _ _ (Some b) _ Hp4 Np)|].
    intros x Hx. apply hupd_neq. intros ->. lia.
  - simpl. repeat split.
    + rewrite hupd_neq by auto. unfold h5. rewrite upd_hole_other by lia. unfold h4.
      rewrite hupd_eq. reflexivity.
    + rewrite hupd_eq. reflexivity.
    + eapply rep_frame; [exact Fl|]. intros x Hx. specialize (N x).
      assert (x <> a) by (intros ->; lia). assert (x <> b) by (intros ->; lia).
      rewrite hupd_neq by auto. unfold h5. rewrite upd_hole_other by lia. apply H4; auto; lia.
    + eapply rep_frame; [apply (rep_repar_heap (hupd (s_heap st) a
        (Some (mkN (ppar p) c (tptr l) (tptr m)))) (Some b) m (Some a))|].
      * eapply rep_frame; [exact Fm|]. intros x Hx. apply hupd_neq. intros ->; lia.
      * intros x; specialize (N x); lia.
      * intros x Hx. specialize (N x).
        assert (x <> a) by (intros ->; lia). assert (x <> b) by (intros ->; lia).
        rewrite hupd_neq by auto. unfold h5. rewrite upd_hole_other by lia. unfold h4.
        rewrite !hupd_neq by auto. reflexivity.
    + eapply rep_frame; [exact Fr|]. intros x Hx. specialize (N x).
      assert (x <> a) by (intros ->; lia). assert (x <> b) by (intros ->; lia).
      rewrite hupd_neq by auto. unfold h5. rewrite upd_hole_other by lia. apply H4; auto; lia.
  - intros x. specialize (N x). simpl. lia.
Qed.

Lemma runs_rotate_right st p a c l b d m r (Q : unit -> rst -> Prop) :
  focus st p (T a c (T b d l m) r) ->
  (forall st', focus st' p (T b d l (T a c m r)) -> s_count st' = s_count st -> Q tt st') ->
  runs (rotate_right (Some a)) st Q.
Proof.
  intros F HQ. destruct F as (Fp & Ft & N). simpl in Ft. destruct Ft as (Fa & (Fb & Fl & Fm) & Fr).
  simpl in N.
  assert (Na := N a). assert (Nb := N b). rewrite ind_eq in Na. rewrite ind_eq in Nb.
  assert (Hab : a <> b) by (intros ->; rewrite ind_eq in Na; lia).
  rewrite (ind_neq a b) in Na by auto. rewrite (ind_neq b a) in Nb by auto.
  unfold rotate_right.
  apply runs_bind. eapply runs_ld; [exact Fa|]. cbn [n_left n_par tptr].
  apply runs_bind. eapply runs_ld; [exact Fb|]. cbn [n_right].
  apply runs_bind. eapply runs_modify; [exact Fa|]. cbn [n_par n_red n_right s_heap s_root s_count].
  apply runs_bind.
  eapply (runs_set_parent_opt _ (Some b)).
  { cbn [s_heap]. eapply rep_frame; [exact Fm|]. intros x Hx. apply hupd_neq. intros ->. lia. }
  cbn [s_heap s_root s_count].
  set (h2 := repar_heap _ m _).
  assert (H2b : h2 b = Some (mkN (Some a) d (tptr l) (tptr m))).
  { unfold h2. rewrite repar_heap_other by lia. rewrite hupd_neq by auto. exact Fb. }
  apply runs_bind. eapply runs_modify; [exact H2b|]. cbn [n_par n_red n_left s_heap s_root s_count].
  apply runs_bind. eapply runs_modify; [cbn [s_heap]; rewrite hupd_eq; reflexivity|].
  cbn [n_par n_red n_left n_right s_heap s_root s_count].
  set (h4 := hupd (hupd h2 b _) b _).
  assert (H4 : forall x, (occ x m = 0)%nat -> x <> a -> x <> b -> h4 x = s_heap st x).
  { intros x ? ? ?. unfold h4, h2. rewrite !hupd_neq by auto. rewrite repar_heap_other by auto.
    apply hupd_neq; auto. }
  assert (Hp4 : repc h4 (s_root st) (Some a) p).
  { eapply repc_frame; [exact Fp|]. intros x Hx. specialize (N x). apply H4.
    - lia. - intros ->. lia. - intros ->. lia. }
  apply runs_bind. eapply (runs_replace_child_r _ p a); [exact Hp4|lia|]. cbn [s_heap s_root s_count].
  set (h5 := upd_hole h4 p (Some b)).
  assert (H5a : h5 a = Some (mkN (ppar p) c (tptr m) (tptr r))).
  { unfold h5. rewrite upd_hole_other by lia. unfold h4, h2. rewrite !hupd_neq by auto.
    rewrite repar_heap_other by lia. rewrite hupd_eq. reflexivity. }
  eapply runs_modify; [exact H5a|]. cbn [n_par n_red n_left n_right s_heap s_root s_count].
  assert (Np : forall x, (occp x p <= 1)%nat) by (intros x; specialize (N x); lia).
  apply HQ; [|reflexivity].
  split; [|split]; cbn [s_heap s_root tptr].
  - eapply repc_frame; [apply (repc_upd_hole _ _ _ (Some b) _ Hp4 Np)|].
    intros x Hx. apply hupd_neq. intros ->. lia.
  - simpl. repeat split.
    + rewrite hupd_neq by auto. unfold h5. rewrite upd_hole_other by lia. unfold h4.
      rewrite hupd_eq. reflexivity.
    + eapply rep_frame; [exact Fl|]. intros x Hx. specialize (N x).
      assert (x <> a) by (intros ->; lia). assert (x <> b) by (intros ->; lia).
      rewrite hupd_neq by auto. unfold h5. rewrite upd_hole_other by lia. apply H4; auto; lia.
    + rewrite hupd_eq. reflexivity.
    + eapply rep_frame; [apply (rep_repar_heap (hupd (s_heap st) a
        (Some (mkN (ppar p) c (tptr m) (tptr r)))) (Some b) m (Some a))|].
      * eapply rep_frame; [exact Fm|]. intros x Hx. apply hupd_neq. intros ->; lia.
      * intros x; specialize (N x); lia.
      * intros x Hx. specialize (N x).
        assert (x <> a) by (intros ->; lia). assert (x <> b) by (intros ->; lia).
        rewrite hupd_neq by auto. unfold h5. rewrite upd_hole_other by lia. unfold h4.
        rewrite !hupd_neq by auto. reflexivity.
    + eapply rep_frame; [exact Fr|]. intros x Hx. specialize (N x).
      assert (x <> a) by (intros ->; lia). assert (x <> b) by (intros ->; lia).
      rewrite hupd_neq by auto. unfold h5. rewrite upd_hole_other by lia. apply H4; auto; lia.
  - intros x. specialize (N x). simpl. lia.
Qed.

(** Replacing the subtree at the focus by its child (erase, <= 1 child);
    [m] is the statement that re-aims the link. *)
Lemma runs_splice st p a c l r child (m : M unit) (Q : unit -> rst -> Prop) :
  focus st p (T a c l r) -> (child = l \/ child = r) ->
  (forall st (Q : unit -> rst -> Prop),
     repc (s_heap st) (s_root st) (Some a) p -> (occp a p = 0)%nat ->
     Q tt (mkSt (upd_hole (s_heap st) p (tptr child)) (upd_root (s_root st) p (tptr child)) (s_count st)) ->
     runs m st Q) ->
  (forall st', focus st' p child -> s_count st' = s_count st ->
     s_heap st' a = Some (mkN (ppar p) c (tptr l) (tptr r)) -> Q tt st') ->
  runs (set_parent_opt (tptr child) (ppar p) ;;; m) st Q.
Proof.
  intros (Fp & (Fa & Fl & Fr) & N) Hc Hm HQ. simpl in N.
  assert (Hch : rep (s_heap st) (Some a) child) by (destruct Hc as [->| ->]; auto).
  assert (Noc : forall x, (occ x child <= occ x l + occ x r)%nat)
    by (intros x; destruct Hc as [->| ->]; lia).
  assert (Na := N a). rewrite ind_eq in Na.
  assert (Noca := Noc a).
  apply runs_bind. eapply runs_set_parent_opt; [exact Hch|]. cbn [s_heap s_root s_count].
  set (h1 := repar_heap _ child _).
  assert (Hp1 : repc h1 (s_root st) (Some a) p).
  { eapply repc_frame; [exact Fp|]. intros x Hx. unfold h1. apply repar_heap_other.
    specialize (N x). specialize (Noc x). lia. }
  apply Hm; [exact Hp1|lia|]. cbn [s_heap s_root s_count].
  apply HQ; [|reflexivity|]. split; [|split]; cbn [s_heap s_root].
  - apply (repc_upd_hole _ _ _ _ _ Hp1). intros x; specialize (N x); lia.
  - eapply rep_frame; [apply (rep_repar_heap _ _ child (ppar p) Hch)|].
    + intros x; specialize (N x); specialize (Noc x); lia.
    + intros x Hx. rewrite upd_hole_other; [reflexivity|]. specialize (N x); specialize (Noc x); lia.
  - intros x; specialize (N x); specialize (Noc x); lia.
  - cbn [s_heap]. rewrite upd_hole_other by lia. unfold h1. rewrite repar_heap_other by lia. exact Fa.
Qed.

Lemma hupd_twice h a v w : forall x, hupd (hupd h a v) a w x = hupd h a w x.
Proof. intros x. unfold hupd. destruct (Nat.eqb x a); auto. Qed.

(** Substituting another node [s] for [a]: erase with two children 250-264. *)
Lemma runs_subst st p a c l r s (Q : unit -> rst -> Prop) :
  focus st p (T a c l r) -> l <> E -> (occ s (T a c l r) + occp s p = 0)%nat ->
  s_heap st s <> None ->
  (forall st', focus st' p (T s c l r) -> s_count st' = s_count st -> Q tt st') ->
  runs (on <- ld (Some a) ;;
        modify (Some s) (fun _ => mkN (n_par on) (n_red on) (n_left on) (n_right on)) ;;;
        replace_child_l (n_par on) (Some a) (Some s) ;;;
        on1 <- ld (Some a) ;;
        set_parent (n_left on1) (Some s) ;;;
        on2 <- ld (Some a) ;;
        set_parent_opt (n_right on2) (Some s)) st Q.
Proof.
  intros (Fp & (Fa & Fl & Fr) & N) Hl Ns Hs HQ. simpl in N, Ns.
  assert (Na := N a). rewrite ind_eq in Na.
  assert (Hsa : a <> s) by (intros ->; rewrite ind_eq in Ns; lia).
  apply runs_bind. eapply runs_ld; [exact Fa|]. cbn [n_par n_red n_left n_right].
  destruct (s_heap st s) as [ns|] eqn:Hns; [|congruence].
  apply runs_bind. eapply runs_modify; [exact Hns|]. cbn [s_heap s_root s_count].
  set (h1 := hupd _ s _).
  assert (Hp1 : repc h1 (s_root st) (Some a) p).
  { eapply repc_frame; [exact Fp|]. intros x Hx. apply hupd_neq. intros ->. lia. }
  apply runs_bind. eapply (runs_replace_child_l _ p a); [exact Hp1|lia|]. cbn [s_heap s_root s_count].
  set (h2 := upd_hole h1 p (Some s)).
  assert (H2 : forall x, (occp x p = 0)%nat -> x <> s -> h2 x = s_heap st x).
  { intros x ? ?. unfold h2. rewrite upd_hole_other by auto. apply hupd_neq; auto. }
  assert (H2a : h2 a = Some (mkN (ppar p) c (tptr l) (tptr r))) by (rewrite H2; [exact Fa|lia|auto]).
  apply runs_bind. eapply runs_ld; [exact H2a|]. cbn [n_left].
  destruct l as [|la lc ll lr]; [congruence|]. cbn [tptr].
  assert (H2l : rep h2 (Some a) (T la lc ll lr)).
  { eapply rep_frame; [exact Fl|]. intros x Hx. specialize (N x). apply H2; [lia|].
    intros ->. lia. }
  assert (H2r : rep h2 (Some a) r).
  { eapply rep_frame; [exact Fr|]. intros x Hx. specialize (N x). apply H2; [lia|]. intros ->. lia. }
  apply runs_bind. eapply runs_modify; [exact (proj1 H2l)|]. cbn [s_heap s_root s_count n_red n_left n_right].
  set (h3 := hupd h2 la _).
  assert (Hla : (1 <= occ la (T la lc ll lr))%nat) by (simpl; rewrite ind_eq; lia).
  assert (Hala : a <> la) by (intros ->; lia).
  assert (Hlas : s <> la) by (intros ->; lia).
  apply runs_bind. eapply runs_ld; [cbn [s_heap]; unfold h3; rewrite hupd_neq by auto; exact H2a|].
  cbn [n_right].
  assert (H3r : rep h3 (Some a) r).
  { eapply rep_frame; [exact H2r|]. intros x Hx. apply hupd_neq. intros ->. specialize (N la). lia. }
  eapply runs_set_parent_opt; [exact H3r|]. cbn [s_heap s_root s_count].
  set (h4 := repar_heap h3 r (Some s)).
  assert (H4p : forall x, (1 <= occp x p)%nat -> h4 x = h2 x).
  { intros x Hx. specialize (N x). unfold h4. rewrite repar_heap_other by lia. apply hupd_neq.
    intros ->. lia. }
  apply HQ; [|reflexivity]. split; [|split]; cbn [s_heap s_root tptr].
  - eapply repc_frame; [apply (repc_upd_hole _ _ _ (Some s) _ Hp1)|].
    + intros x; specialize (N x); lia.
    + intros x Hx. rewrite H4p by auto. reflexivity.
  - change (h4 s = Some (mkN (ppar p) c (Some la) (tptr r)) /\ rep h4 (Some s) (T la lc ll lr) /\ rep h4 (Some s) r).
    split; [|split].
    + unfold h4. rewrite repar_heap_other by lia. unfold h3. rewrite hupd_neq by auto.
      unfold h2. rewrite upd_hole_other by lia. unfold h1. apply hupd_eq.
    + eapply rep_frame; [apply (rep_repar_heap h2 (Some a) (T la lc ll lr) (Some s) H2l)|].
      * intros x; specialize (N x); lia.
      * intros x Hx. unfold h4. rewrite repar_heap_other; [reflexivity|]. specialize (N x). lia.
    + apply (rep_repar_heap _ (Some a)); auto. intros x; specialize (N x); lia.
  - intros x. specialize (N x). simpl in *. unfold ind in *. 
    destruct (Nat.eqb_spec x s) as [->|]; [|lia].
    rewrite (proj2 (Nat.eqb_neq s a)) in * by auto. lia.
Qed.
