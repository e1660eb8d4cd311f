(** * Invariants of the model of lib/errno.c *)
From Verif Require Import Base Errno.

Lemma setn_eq {B} (f : nat -> B) a b : setn f a b a = b. Proof. unfold setn, set. rewrite Nat.eqb_refl. reflexivity. Qed.
Lemma setn_ne {B} (f : nat -> B) a b x : x <> a -> setn f a b x = f x. Proof. intros H. unfold setn, set. destruct (Nat.eqb_spec x a); [contradiction|reflexivity]. Qed.
Lemma peqb_spec p q : reflect (p = q) (peqb p q).
Proof. destruct p as [a|], q as [b|]; cbn; try (constructor; congruence). destruct (Nat.eqb_spec a b); constructor; congruence. Qed.
Lemma setp_eq f a b : setp f a b a = b. Proof. unfold setp, set. destruct (peqb_spec a a); congruence. Qed.
Lemma setp_ne f a b x : x <> a -> setp f a b x = f x. Proof. intros H. unfold setp, set. destruct (peqb_spec x a); [contradiction|reflexivity]. Qed.

(** The cell and node a thread works on, and the [next] it has read. *)
Definition cell_of (p : pc) : option nat :=
  match p with Idle => None | A_read c _ | A_prev c _ _ | A_next c _ _ | A_nprev c _ _ | A_head c _ _ | A_tls c _ | A_zero c _ | Use c _ => Some c end.
Definition adds (p : pc) : option (nat * ptr) :=
  match p with A_prev c n _ | A_next c n _ | A_nprev c n _ | A_head c n _ => Some (c, n) | _ => None end.
(** The node is not in the list yet. *)
Definition unpub (p : pc) : option nat := match p with A_read c _ => Some c | _ => match adds p with Some (c, _) => Some c | None => None end end.

(** The errno of thread [t] after a history: what [t] assigned last since the last init, else 0. *)
Fixpoint expected (t : thread) (l : list ev) : Z :=
  match l with
  | [] => 0
  | EPut u v :: l => if Nat.eqb u t then v else expected t l
  | EInit :: _ => 0
  | _ :: l => expected t l
  end.

(** Cells belong to one thread each. *)
Definition owns (s : state) (t : thread) (c : nat) : Prop := tls s t = Some c \/ cell_of (th s t) = Some c.
Definition uses (p : pc) : option nat := match p with A_zero c _ | Use c _ => Some c | _ => None end.
Record PI (s : state) : Prop := {
  p_uniq : forall t u c, owns s t c -> owns s u c -> t = u;
  p_old : forall t c, owns s t c -> (c < fresh s)%nat;
  p_live : forall t c, owns s t c -> clive s c = true;
  p_val : forall t c, tls s t = Some c -> (forall u, th s t <> A_zero c u) -> val s c = Some (expected t (log s));
  p_zero : forall t c u, th s t = A_zero c u -> expected t (log s) = 0;
  p_none : forall t, tls s t = None -> expected t (log s) = 0;
  p_use : forall t c, uses (th s t) = Some c -> tls s t = Some c;
  p_nouse : forall t, tls s t <> None -> th s t = Idle \/ exists c, uses (th s t) = Some c }.

(** The list, [pub] being the nodes in the order of their insertion, newest first. *)
Record LI (pub : list nat) (s : state) : Prop := {
  l_nd : NoDup pub;
  l_live : forall n, In n pub -> nlive s n = true /\ clive s n = true /\ (n < fresh s)%nat;
  l_head : nx s None = hd_error pub;
  l_next : forall l1 n l2, pub = l1 ++ n :: l2 -> nx s (Some n) = None \/ exists m, nx s (Some n) = Some m /\ In m l2;
  l_prev : forall l1 n l2, pub = l1 ++ n :: l2 -> pv s (Some n) = None \/ exists m, pv s (Some n) = Some m /\ (In m l1 \/ exists t, adds (th s t) = Some (m, Some n));
  l_new : forall t c, unpub (th s t) = Some c -> ~ In c pub /\ nlive s c = true;
  l_adds : forall t c n, adds (th s t) = Some (c, n) -> match n with None => True | Some m => In m pub end;
  l_nx : forall t c n u, th s t = A_nprev c n u \/ th s t = A_head c n u -> nx s (Some c) = n;
  l_pv : forall t c n u, th s t = A_head c n u -> pv s (Some c) = None }.
(** The list while it is being emptied; [l]: the nodes that may still be in it. *)
Record CI (l : list nat) (s : state) : Prop := {
  c_nd : NoDup l;
  c_live : forall n, In n l -> nlive s n = true /\ clive s n = true;
  c_head : nx s None = None \/ exists m, nx s None = Some m /\ In m l /\ pv s (Some m) = None;
  c_next : forall l1 n l2, l = l1 ++ n :: l2 -> nx s (Some n) = None \/ exists m, nx s (Some n) = Some m /\ In m l2 }.

Definition INV (s : state) : Prop :=
  bad s = false /\ (forall t v, In (EGet t v) (log s) -> v <> None) /\
  (forall l2 l1 t v, log s = l1 ++ EGet t v :: l2 -> v = Some (expected t l2)) /\
  match ph s with
  | Up => PI s /\ exists pub, LI pub s
  | Closing => quiet s /\ (forall t, tls s t = None) /\ exists l, CI l s
  | Down => quiet s /\ (forall t, tls s t = None)
  end.

Ltac sn := repeat match goal with
  | H : context [setn ?f ?a ?b ?x] |- _ => destruct (Nat.eq_dec x a) as [?|?]; [subst; rewrite ?setn_eq in *|rewrite ?setn_ne in * by assumption]
  | |- context [setn ?f ?a ?b ?x] => destruct (Nat.eq_dec x a) as [?|?]; [subst; rewrite ?setn_eq in *|rewrite ?setn_ne in * by assumption]
  end.
Ltac prj := cbn [ph nx pv nlive clive val fresh tls th log ab bad with_th with_nx with_pv with_tls with_val with_log crash abort] in *.

(** ** Privacy *)
Definition owns' (tl : thread -> option nat) (h : thread -> pc) (t : thread) (c : nat) : Prop := tl t = Some c \/ cell_of (h t) = Some c.

Lemma PI_begin_tls s t u c : PI s -> th s t = Idle -> tls s t = Some c -> PI (with_th s t (Use c u)).
Proof.
  intros P H T. destruct P. constructor; unfold owns in *; prj.
  - intros a b c0 A B. apply (p_uniq0 a b c0); [revert A; clear B|revert B; clear A]; (intros [A|A]; [left; exact A|]); sn; auto; cbn in *; left; congruence.
  - intros a c0 A. apply (p_old0 a c0). destruct A as [A|A]; [auto|]. sn; auto; cbn in *; left; congruence.
  - intros a c0 A. apply (p_live0 a c0). destruct A as [A|A]; [auto|]. sn; auto; cbn in *; left; congruence.
  - intros a c0 A B. apply p_val0; auto. intros u0 E. destruct (Nat.eq_dec a t) as [->|N]; [congruence|]. apply (B u0). rewrite setn_ne by exact N. exact E.
  - intros a c0 u0 A. sn; [discriminate|]. eauto.
  - auto.
  - intros a c0 A. sn; [cbn in A; congruence|]. eauto.
  - intros a A. sn; [right; cbn; eauto|]. eauto.
Qed.
Lemma PI_begin_new s t u : PI s -> th s t = Idle -> tls s t = None ->
  PI (with_th (mk (ph s) (nx s) (pv s) (setn (nlive s) (fresh s) true) (setn (clive s) (fresh s) true) (setn (val s) (fresh s) None) (S (fresh s)) (tls s) (th s) (log s) (ab s) (bad s)) t (A_read (fresh s) u)).
Proof.
  intros P H T. destruct P. unfold owns in *.
  assert (OLD : forall a c, tls s a = Some c \/ cell_of (setn (th s) t (A_read (fresh s) u) a) = Some c -> (owns s a c /\ (c < fresh s)%nat) \/ (a = t /\ c = fresh s)).
  { intros a c [A|A]; [left; split; [left; exact A|apply (p_old0 a c); auto]|]. sn; [right; split; [reflexivity|cbn in A; congruence]|left; split; [right; exact A|apply (p_old0 a c); auto]]. }
  constructor; unfold owns in *; prj.
  - intros a b c A B. destruct (OLD a c A) as [[A1 A2]|[A1 A2]], (OLD b c B) as [[B1 B2]|[B1 B2]]; try lia; eapply p_uniq0; eauto.
  - intros a c A. destruct (OLD a c A) as [[A1 A2]|[A1 A2]]; lia.
  - intros a c A. destruct (OLD a c A) as [[A1 A2]|[A1 A2]]; [rewrite setn_ne by lia; eauto|subst; apply setn_eq].
  - intros a c A B. assert (c < fresh s)%nat by (eapply p_old0; eauto). rewrite setn_ne by lia. apply p_val0; auto. intros u0 E. destruct (Nat.eq_dec a t) as [->|N]; [congruence|]. apply (B u0). rewrite setn_ne by exact N. exact E.
  - intros a c u0 A. sn; [discriminate|]. eauto.
  - auto.
  - intros a c A. sn; [discriminate|]. eauto.
  - intros a A. sn; [congruence|]. eauto.
Qed.
(** Steps that change only the list and keep the thread's cell. *)
Lemma PI_list s s' t p : PI s -> tls s t = None -> unpub (th s t) <> None -> cell_of p = cell_of (th s t) -> uses p = None ->
  fresh s' = fresh s -> clive s' = clive s -> val s' = val s -> tls s' = tls s -> log s' = log s -> th s' = setn (th s) t p -> PI s'.
Proof.
  intros P T U C Us E1 E2 E3 E4 E5 E6. destruct P. unfold owns in *. constructor; unfold owns; rewrite ?E1, ?E2, ?E3, ?E4, ?E5, ?E6.
  - intros a b c A B. apply (p_uniq0 a b c); [destruct A as [A|A]; clear B|destruct B as [B|B]; clear A]; auto; right; sn; congruence.
  - intros a c A. apply (p_old0 a c). destruct A as [A|A]; auto; right; sn; congruence.
  - intros a c A. apply (p_live0 a c). destruct A as [A|A]; auto; right; sn; congruence.
  - intros a c A B. apply p_val0; auto. intros u0 E. destruct (Nat.eq_dec a t) as [->|N]; [congruence|]. apply (B u0). rewrite setn_ne by exact N. exact E.
  - intros a c u0 A. sn; [destruct p; try discriminate; cbn in Us; discriminate|]. eauto.
  - auto.
  - intros a c A. sn; [congruence|]. eauto.
  - intros a A. sn; [congruence|]. eauto.
Qed.
Lemma PI_tls s t c u : PI s -> th s t = A_tls c u -> PI (with_th (with_tls s t c) t (A_zero c u)).
Proof.
  intros P H. destruct P. unfold owns in *.
  assert (OW : forall a x, setn (tls s) t (Some c) a = Some x \/ cell_of (setn (th s) t (A_zero c u) a) = Some x -> tls s a = Some x \/ cell_of (th s a) = Some x).
  { intros a x [A|A]; destruct (Nat.eq_dec a t) as [->|N]; rewrite ?setn_eq in A; rewrite ?setn_ne in A by exact N; auto; right; rewrite H; exact A. }
  constructor; unfold owns; prj.
  - intros a b x A B. apply (p_uniq0 a b x); auto.
  - intros a x A. apply (p_old0 a x); auto.
  - intros a x A. apply (p_live0 a x); auto.
  - intros a x A B. destruct (Nat.eq_dec a t) as [->|N]; [rewrite setn_eq in A; rewrite setn_eq in B; exfalso; apply (B u); congruence|].
    rewrite setn_ne in A by exact N. rewrite setn_ne in B by exact N. auto.
  - intros a x u0 A. destruct (Nat.eq_dec a t) as [->|N]; [|rewrite setn_ne in A by exact N; eauto].
    apply p_none0. destruct (tls s t) as [y|] eqn:T; [|reflexivity]. destruct (p_nouse0 t ltac:(congruence)) as [Q|[z Q]]; rewrite H in Q; discriminate.
  - intros a A. destruct (Nat.eq_dec a t) as [->|N]; [rewrite setn_eq in A; discriminate|]. rewrite setn_ne in A by exact N. auto.
  - intros a x A. destruct (Nat.eq_dec a t) as [->|N]; [rewrite ?setn_eq in *; exact A|]. rewrite setn_ne in A by exact N. rewrite setn_ne by exact N. auto.
  - intros a A. destruct (Nat.eq_dec a t) as [->|N]; [right; rewrite setn_eq; cbn; eauto|]. rewrite setn_ne in A by exact N. rewrite setn_ne by exact N. auto.
Qed.
Lemma PI_zero s t c u : PI s -> th s t = A_zero c u -> PI (with_th (with_val s c (Some 0)) t (Use c u)).
Proof.
  intros P H. destruct P. unfold owns in *.
  assert (OW : forall a x, tls s a = Some x \/ cell_of (setn (th s) t (Use c u) a) = Some x -> tls s a = Some x \/ cell_of (th s a) = Some x).
  { intros a x [A|A]; auto. right. sn; auto. rewrite H. exact A. }
  constructor; unfold owns; prj.
  - intros a b x A B. apply (p_uniq0 a b x); auto.
  - intros a x A. apply (p_old0 a x); auto.
  - intros a x A. apply (p_live0 a x); auto.
  - intros a x A B. destruct (Nat.eq_dec x c) as [->|N].
    + rewrite setn_eq. assert (a = t) by (apply (p_uniq0 a t c); [auto|right; rewrite H; reflexivity]). subst. f_equal. symmetry. eauto.
    + rewrite setn_ne by exact N. apply p_val0; auto. intros u0 E. destruct (Nat.eq_dec a t) as [->|M]; [congruence|]. apply (B u0). rewrite setn_ne by exact M. exact E.
  - intros a x u0 A. sn; [discriminate|]. eauto.
  - auto.
  - intros a x A. sn; [cbn in A; assert (x = c) by congruence; subst; apply p_use0; rewrite H; reflexivity|]. eauto.
  - intros a A. sn; [right; cbn; eauto|]. eauto.
Qed.
Lemma PI_use s s' t c u e : PI s -> th s t = Use c u -> ph s = Up ->
  match u with Get => e = EGet t (val s c) /\ val s' = val s | Put v => e = EPut t v /\ val s' = setn (val s) c (Some v) end ->
  fresh s' = fresh s -> clive s' = clive s -> tls s' = tls s -> log s' = e :: log s -> th s' = setn (th s) t Idle -> PI s'.
Proof.
  intros P H _ V E1 E2 E3 E4 E5. destruct P. unfold owns in *.
  assert (OW : forall a x, tls s a = Some x \/ cell_of (setn (th s) t Idle a) = Some x -> tls s a = Some x \/ cell_of (th s a) = Some x).
  { intros a x [A|A]; auto. right. sn; auto. discriminate. }
  assert (TC : tls s t = Some c) by (apply p_use0; rewrite H; reflexivity).
  assert (EXP : forall a, expected a (log s') = match u with Put v => if Nat.eqb a t then v else expected a (log s) | Get => expected a (log s) end).
  { intros a. rewrite E4. destruct u as [|v]; destruct V as [-> _]; cbn; [reflexivity|]. rewrite Nat.eqb_sym. reflexivity. }
  constructor; unfold owns; rewrite ?E1, ?E2, ?E3, ?E5.
  - intros a b x A B. apply (p_uniq0 a b x); auto.
  - intros a x A. apply (p_old0 a x); auto.
  - intros a x A. apply (p_live0 a x); auto.
  - intros a x A B. rewrite EXP.
    assert (OLD : val s x = Some (expected a (log s))) by (apply p_val0; auto; intros u0 E; destruct (Nat.eq_dec a t) as [->|M]; [congruence|]; apply (B u0); rewrite setn_ne by exact M; exact E).
    destruct u as [|v]; destruct V as [_ ->]; [exact OLD|]. destruct (Nat.eqb_spec a t) as [->|N].
    + assert (x = c) by congruence. subst. apply setn_eq.
    + rewrite setn_ne; [exact OLD|]. intros ->. apply N. eapply p_uniq0; left; eassumption.
  - intros a x u0 A. sn; [discriminate|]. rewrite EXP. destruct u as [|v]; [eauto|]. destruct (Nat.eqb_spec a t); [contradiction|eauto].
  - intros a A. rewrite EXP. destruct u as [|v]; [auto|]. destruct (Nat.eqb_spec a t); [congruence|auto].
  - intros a x A. sn; [discriminate|]. eauto.
  - intros a A. sn; [left; reflexivity|]. eauto.
Qed.
Lemma PI_log s e : PI s -> match e with EExit _ => True | _ => False end -> PI (with_log s e).
Proof.
  intros P E. destruct e; try contradiction. destruct P. constructor; unfold owns in *; prj; cbn [expected]; eauto.
Qed.

(** ** The list *)
Lemma adds_set h t p u : adds (setn h t p u) = if Nat.eq_dec u t then adds p else adds (h u).
Proof. destruct (Nat.eq_dec u t) as [->|N]; [rewrite setn_eq|rewrite setn_ne by exact N]; reflexivity. Qed.

(** A step of a thread that leaves the list alone. *)
Lemma LI_th pub s s' t p : LI pub s -> (adds (th s t) = None) -> unpub p = None ->
  nx s' = nx s -> pv s' = pv s -> nlive s' = nlive s -> clive s' = clive s -> fresh s' = fresh s -> th s' = setn (th s) t p -> LI pub s'.
Proof.
  intros L A U E1 E2 E3 E4 E5 E6. destruct L. assert (AP : adds p = None) by (destruct p; cbn in *; congruence).
  constructor; rewrite ?E1, ?E2, ?E3, ?E4, ?E5, ?E6; auto.
  - intros l1 n l2 E. destruct (l_prev0 l1 n l2 E) as [Q|(m & Q & W)]; [auto|right]. exists m. split; [exact Q|]. destruct W as [W|[u W]]; [auto|right]. exists u. rewrite setn_ne; [exact W|]. intros ->. congruence.
  - intros u c Q. sn; [congruence|]. eauto.
  - intros u c n Q. sn; [congruence|]. eapply l_adds0; eauto.
  - intros u c n x Q. sn; [destruct Q as [-> | ->]; discriminate AP|]. eauto.
  - intros u c n x Q. sn; [rewrite Q in AP; discriminate AP|]. eauto.
Qed.
Lemma LI_new pub s t u : LI pub s -> th s t = Idle ->
  LI pub (with_th (mk (ph s) (nx s) (pv s) (setn (nlive s) (fresh s) true) (setn (clive s) (fresh s) true) (setn (val s) (fresh s) None) (S (fresh s)) (tls s) (th s) (log s) (ab s) (bad s)) t (A_read (fresh s) u)).
Proof.
  intros L H. destruct L. constructor; prj; auto.
  - intros n N. destruct (l_live0 n N) as (A & B & C). rewrite !setn_ne by lia. split; [auto|split; [auto|lia]].
  - intros l1 n l2 E. destruct (l_prev0 l1 n l2 E) as [Q|(m & Q & W)]; [auto|right]. exists m. split; [exact Q|]. destruct W as [W|[v W]]; [auto|right]. exists v. rewrite setn_ne; [exact W|]. intros ->. rewrite H in W. discriminate.
  - intros a c Q. destruct (Nat.eq_dec a t) as [->|N]; [rewrite setn_eq in Q|rewrite setn_ne in Q by exact N].
    + cbn in Q. assert (c = fresh s) by congruence. subst. split; [|apply setn_eq]. intros W. apply l_live0 in W. lia.
    + destruct (l_new0 a c Q). split; [auto|]. unfold setn, set. destruct (Nat.eqb c (fresh s)); auto.
  - intros a c n Q. sn; [discriminate|]. eapply l_adds0; eauto.
  - intros a c n x Q. sn; [destruct Q; discriminate|]. eauto.
  - intros a c n x Q. sn; [discriminate|]. eauto.
Qed.
Lemma LI_read pub s t c u : LI pub s -> th s t = A_read c u -> LI pub (with_th s t (A_prev c (nx s None) u)).
Proof.
  intros L H. destruct L. constructor; prj; auto.
  - intros l1 n l2 E. destruct (l_prev0 l1 n l2 E) as [Q|(m & Q & W)]; [auto|right]. exists m. split; [exact Q|]. destruct W as [W|[v W]]; [auto|right]. exists v. rewrite setn_ne; [exact W|]. intros ->. rewrite H in W. discriminate.
  - intros a x Q. sn; [|eauto]. apply (l_new0 t x). rewrite H. exact Q.
  - intros a x n Q. sn; [|eapply l_adds0; eauto]. cbn in Q. assert (n = nx s None) by congruence. subst. rewrite l_head0. destruct pub; cbn; auto.
  - intros a x n y Q. sn; [destruct Q; discriminate|]. eauto.
  - intros a x n y Q. sn; [discriminate|]. eauto.
Qed.
Lemma app_mid {A} (l1 l2 l3 l4 : list A) (n : A) : NoDup (l1 ++ n :: l2) -> l1 ++ n :: l2 = l3 ++ n :: l4 -> l1 = l3 /\ l2 = l4.
Proof.
  revert l3. induction l1 as [|a l1 IH]; intros l3 D E; destruct l3 as [|b l3]; cbn in *.
  - split; congruence.
  - assert (a : n = b) by congruence. subst. inversion D; subst. exfalso. apply H1. assert (l2 = l3 ++ b :: l4) by congruence. subst. apply in_or_app. right. left. reflexivity.
  - assert (a = n) by congruence. subst. inversion D; subst. exfalso. apply H1. apply in_or_app. right. left. reflexivity.
  - inversion D; subst. assert (a = b) by congruence. subst. destruct (IH l3 H2 ltac:(congruence)). split; congruence.
Qed.
(** The unpublished nodes of different threads differ. *)
Definition distinct (s : state) : Prop := forall t u c, unpub (th s t) = Some c -> unpub (th s u) = Some c -> t = u.
Lemma PI_distinct s : PI s -> distinct s.
Proof. intros P t u c A B. apply (p_uniq s P t u c); right; [destruct (th s t)|destruct (th s u)]; cbn in *; congruence. Qed.

Lemma LI_prev pub s t c n u : LI pub s -> th s t = A_prev c n u -> LI pub (with_th (with_pv s n (Some c)) t (A_next c n u)).
Proof.
  intros L H. destruct L.
  assert (CN : forall x, unpub (th s x) = Some c -> n <> Some c).
  { intros x Q ->. assert (In c pub) by (apply (l_adds0 t c (Some c)); rewrite H; reflexivity). destruct (l_new0 x c Q). contradiction. }
  constructor; prj; auto.
  - intros l1 m l2 E. unfold setp, set. destruct (peqb_spec (Some m) n) as [<-|N].
    + right. exists c. split; [reflexivity|]. right. exists t. rewrite setn_eq. reflexivity.
    + destruct (l_prev0 l1 m l2 E) as [Q|(y & Q & W)]; [auto|right]. exists y. split; [exact Q|]. destruct W as [W|[v W]]; [auto|right]. exists v. destruct (Nat.eq_dec v t) as [->|M]; [rewrite setn_eq; rewrite H in W; exact W|rewrite setn_ne by exact M; exact W].
  - intros a x Q. sn; [|eauto]. apply (l_new0 t x). rewrite H. exact Q.
  - intros a x m Q. sn; [|eapply l_adds0; eauto]. apply (l_adds0 t x m). rewrite H. exact Q.
  - intros a x m y Q. sn; [destruct Q; discriminate|]. eauto.
  - intros a x m y Q. sn; [discriminate|]. rewrite setp_ne; [eauto|]. intros <-. assert (In x pub) by (apply (l_adds0 t c (Some x)); rewrite H; reflexivity). destruct (l_new0 a x); [rewrite Q; reflexivity|contradiction].
Qed.
Lemma LI_next pub s t c n u : distinct s -> LI pub s -> th s t = A_next c n u -> LI pub (with_th (with_nx s (Some c) n) t (A_nprev c n u)).
Proof.
  intros D L H. destruct L.
  assert (NP : ~ In c pub) by (apply (l_new0 t c); rewrite H; reflexivity).
  constructor; prj; auto.
  - intros l1 m l2 E. rewrite setp_ne; [eauto|]. intros Q. assert (m = c) by congruence. subst. apply NP. apply in_or_app. right. left. reflexivity.
  - intros l1 m l2 E. destruct (l_prev0 l1 m l2 E) as [Q|(y & Q & W)]; [auto|right]. exists y. split; [exact Q|]. destruct W as [W|[v W]]; [auto|right]. exists v. destruct (Nat.eq_dec v t) as [->|M]; [rewrite setn_eq; rewrite H in W; exact W|rewrite setn_ne by exact M; exact W].
  - intros a x Q. sn; [|eauto]. apply (l_new0 t x). rewrite H. exact Q.
  - intros a x m Q. sn; [|eapply l_adds0; eauto]. apply (l_adds0 t x m). rewrite H. exact Q.
  - intros a x m y Q. destruct (Nat.eq_dec a t) as [->|N]; [rewrite setn_eq in Q|rewrite setn_ne in Q by exact N].
    + destruct Q as [Q|Q]; [|discriminate]. assert (x = c /\ m = n) as [-> ->] by (split; congruence). apply setp_eq.
    + rewrite setp_ne; [eauto|]. intros W. assert (x = c) by congruence. subst. apply N. apply (D a t c); [destruct Q as [-> | ->]; reflexivity|rewrite H; reflexivity].
  - intros a x m y Q. sn; [discriminate|]. eauto.
Qed.
Lemma LI_nprev pub s t c n u : distinct s -> LI pub s -> th s t = A_nprev c n u -> LI pub (with_th (with_pv s (Some c) None) t (A_head c n u)).
Proof.
  intros D L H. destruct L.
  assert (NP : ~ In c pub) by (apply (l_new0 t c); rewrite H; reflexivity).
  constructor; prj; auto.
  - intros l1 m l2 E. rewrite setp_ne.
    2: { intros Q. assert (m = c) by congruence. subst. apply NP. apply in_or_app. right. left. reflexivity. }
    destruct (l_prev0 l1 m l2 E) as [Q|(y & Q & W)]; [auto|right]. exists y. split; [exact Q|]. destruct W as [W|[v W]]; [auto|right]. exists v. destruct (Nat.eq_dec v t) as [->|M]; [rewrite setn_eq; rewrite H in W; exact W|rewrite setn_ne by exact M; exact W].
  - intros a x Q. sn; [|eauto]. apply (l_new0 t x). rewrite H. exact Q.
  - intros a x m Q. sn; [|eapply l_adds0; eauto]. apply (l_adds0 t x m). rewrite H. exact Q.
  - intros a x m y Q. destruct (Nat.eq_dec a t) as [->|N]; [rewrite setn_eq in Q|rewrite setn_ne in Q by exact N; eauto].
    destruct Q as [Q|Q]; [discriminate|]. assert (x = c /\ m = n) as [-> ->] by (split; congruence). eauto.
  - intros a x m y Q. destruct (Nat.eq_dec a t) as [->|N]; [rewrite setn_eq in Q|rewrite setn_ne in Q by exact N].
    + assert (x = c) by congruence. subst. apply setp_eq.
    + rewrite setp_ne; [eauto|]. intros W. assert (x = c) by congruence. subst. apply N. apply (D a t c); [rewrite Q; reflexivity|rewrite H; reflexivity].
Qed.
Lemma LI_head pub s t c n u : distinct s -> LI pub s -> clive s c = true -> (c < fresh s)%nat -> th s t = A_head c n u ->
  LI (c :: pub) (with_th (with_nx s None (Some c)) t (A_tls c u)).
Proof.
  intros D L CL CF H. destruct L.
  destruct (l_new0 t c ltac:(rewrite H; reflexivity)) as [NP NL].
  constructor; prj; auto.
  - constructor; auto.
  - intros m [<-|I0]; auto.
  - intros l1 m l2 E. rewrite setp_ne by discriminate. destruct l1 as [|a l1]; cbn in E.
    + assert (m = c /\ l2 = pub) as [-> ->] by (split; congruence). rewrite (l_nx0 t c n u) by auto. destruct n as [x|]; [right|auto]. exists x. split; [reflexivity|]. apply (l_adds0 t c (Some x)). rewrite H. reflexivity.
    + apply (l_next0 l1 m l2). congruence.
  - intros l1 m l2 E. destruct l1 as [|a l1]; cbn in E.
    + assert (m = c /\ l2 = pub) as [-> ->] by (split; congruence). left. eauto.
    + assert (a = c /\ pub = l1 ++ m :: l2) as [-> E'] by (split; congruence). destruct (l_prev0 l1 m l2 E') as [Q|(y & Q & W)]; [auto|right]. exists y. split; [exact Q|]. destruct W as [W|[v W]]; [left; right; exact W|].
      destruct (Nat.eq_dec v t) as [->|M]; [left; left; rewrite H in W; cbn in W; congruence|right]. exists v. rewrite setn_ne by exact M. exact W.
  - intros a x Q. sn; [discriminate|]. destruct (l_new0 a x Q) as [A B]. split; [|exact B]. intros [<-|I0]; [|auto]. apply n0. apply (D a t c); [exact Q|rewrite H; reflexivity].
  - intros a x m Q. sn; [discriminate|]. assert (W := l_adds0 a x m Q). destruct m; [right; exact W|exact W].
  - intros a x m y Q. sn; [destruct Q; discriminate|]. rewrite setp_ne by discriminate. eauto.
  - intros a x m y Q. sn; [discriminate|]. eauto.
Qed.
Lemma LI_log pub s e : LI pub s -> LI pub (with_log s e).
Proof. intros L. destruct L. constructor; prj; auto. Qed.

(** ** The closing *)
Lemma LI_CI pub s : LI pub s -> quiet s -> CI pub s.
Proof.
  intros L Q. destruct L. constructor; auto.
  - intros n N. destruct (l_live0 n N) as (A & B & _). auto.
  - rewrite l_head0. destruct pub as [|m pub]; cbn; [auto|right]. exists m. split; [reflexivity|]. split; [left; reflexivity|].
    destruct (l_prev0 [] m pub eq_refl) as [W|(y & _ & [W|[v W]])]; [exact W|destruct W|rewrite Q in W; discriminate].
Qed.
Lemma CI_round l s p : CI l s -> nx s None = Some p ->
  exists l1 l2, l = l1 ++ p :: l2 /\ nlive s p = true /\ clive s p = true /\ live s (nx s (Some p)) = true /\ pv s (Some p) = None /\
  let s1 := with_nx (with_pv s (nx s (Some p)) None) None (nx s (Some p)) in
  CI l2 (mk (ph s1) (nx s1) (pv s1) (setn (nlive s1) p false) (setn (clive s1) p false) (val s1) (fresh s1) (tls s1) (th s1) (log s1) (ab s1) (bad s1)).
Proof.
  intros C H. destruct C. destruct c_head0 as [E|(m & E & I0 & PV)]; [congruence|]. assert (m = p) by congruence. subst m.
  apply in_split in I0. destruct I0 as (l1 & l2 & E2). exists l1, l2. split; [exact E2|].
  destruct (c_live0 p) as [A B]; [rewrite E2; apply in_or_app; right; left; reflexivity|]. split; [exact A|]. split; [exact B|].
  assert (IN2 : forall x, In x l2 -> In x l) by (intros x X; rewrite E2; apply in_or_app; right; right; exact X).
  assert (NDP : ~ In p l2 /\ NoDup l2). { rewrite E2 in c_nd0. apply NoDup_remove in c_nd0. destruct c_nd0 as [U V]. split; [intros X; apply V; apply in_or_app; auto|]. clear -U. induction l1; cbn in U; [exact U|]. inversion U; auto. }
  destruct NDP as [NP ND2].
  assert (NXT := c_next0 l1 p l2 E2).
  split; [destruct NXT as [-> |(m & -> & I0)]; [reflexivity|cbn; apply c_live0; auto]|]. split; [exact PV|].
  cbn zeta. constructor; prj; auto.
  - intros n N. rewrite !setn_ne by (intros ->; auto). apply c_live0. auto.
  - rewrite setp_eq. destruct NXT as [-> |(m & -> & I0)]; [auto|right]. exists m. split; [reflexivity|]. split; [exact I0|]. apply setp_eq.
  - intros l3 n l4 E3. rewrite setp_ne by discriminate. apply (c_next0 (l1 ++ p :: l3) n l4). rewrite <- app_assoc. cbn. rewrite <- E3. exact E2.
Qed.

(** ** All executions *)
Lemma log_ok (t : thread) (v : option Z) (L : list ev) (s : state) : (v = Some (expected t L)) ->
  (forall l2 l1 t v, L = l1 ++ EGet t v :: l2 -> v = Some (expected t l2)) -> forall l2 l1 a x, EGet t v :: L = l1 ++ EGet a x :: l2 -> x = Some (expected a l2).
Proof. intros V H l2 l1 a x E. destruct l1 as [|e l1]; cbn in E; [congruence|]. apply (H l2 l1). congruence. Qed.
Lemma log_ok2 (e : ev) (L : list ev) : match e with EGet _ _ => False | _ => True end ->
  (forall l2 l1 t v, L = l1 ++ EGet t v :: l2 -> v = Some (expected t l2)) -> forall l2 l1 a x, e :: L = l1 ++ EGet a x :: l2 -> x = Some (expected a l2).
Proof. intros V H l2 l1 a x E. destruct l1 as [|e' l1]; cbn in E; [destruct e; try contradiction; discriminate|]. apply (H l2 l1). congruence. Qed.

Lemma INV_do s a s' : INV s -> (a = Fini -> quiet s) -> do a s = Some s' -> INV s'.
Proof.
  intros (B & G & X & V) Q. unfold do. destruct (ab s || bad s) eqn:AB; [discriminate|].
  destruct a as [t u|t|t| | |].
  - destruct (th s t) eqn:H; try discriminate. intros [= <-]. unfold do_begin. destruct (ph s) eqn:P.
    + destruct V as (PV & pub & LV). destruct (tls s t) as [c|] eqn:T.
      * split; [exact B|]. split; [exact G|]. split; [exact X|]. prj. rewrite P. split; [apply PI_begin_tls; auto|]. exists pub. apply (LI_th pub s _ t (Use c u)); auto. rewrite H. reflexivity.
      * split; [exact B|]. split; [exact G|]. split; [exact X|]. split; [rewrite <- P; apply PI_begin_new; auto|]. exists pub. rewrite <- P. apply LI_new; auto.
    + split; [exact B|]. split; [exact G|]. split; [exact X|]. prj. rewrite P. destruct V as (V1 & V2 & l & V3). split; [exact V1|]. split; [exact V2|]. exists l. destruct V3; constructor; prj; auto.
    + split; [exact B|]. split; [exact G|]. split; [exact X|]. prj. rewrite P. exact V.
  - assert (UP : th s t <> Idle -> ph s = Up).
    { intros N. destruct (ph s); [reflexivity| |]; exfalso; apply N; apply V. }
    unfold do_step. destruct (th s t) as [|c u|c n u|c n u|c n u|c n u|c u|c u|c u] eqn:H; [discriminate| | | | | | | |].
    all: assert (PH : ph s = Up) by (apply UP; discriminate); rewrite PH in V; destruct V as (PV & pub & LV).
    all: assert (OWN : owns s t c) by (right; rewrite H; reflexivity).
    all: assert (CL := p_live s PV t c OWN); assert (CF := p_old s PV t c OWN); assert (DI := PI_distinct s PV).
    all: try (assert (NL : nlive s c = true) by (apply (l_new pub s LV t c); rewrite H; reflexivity)).
    all: try (assert (TN : tls s t = None) by (destruct (tls s t) eqn:TT; [|reflexivity]; exfalso; destruct (p_nouse s PV t) as [W|[z W]]; [congruence|rewrite H in W; discriminate|rewrite H in W; discriminate])).
    + intros [= <-]. split; [exact B|]. split; [exact G|]. split; [exact X|]. prj. rewrite PH. split; [|exists pub; eapply LI_read; eauto].
      apply (PI_list s _ t (A_prev c (nx s None) u)); auto; rewrite H; cbn; congruence.
    + assert (LN : live s n = true). { assert (W := l_adds pub s LV t c n ltac:(rewrite H; reflexivity)). destruct n as [m|]; [|reflexivity]. apply (l_live pub s LV m W). }
      rewrite LN. intros [= <-]. split; [exact B|]. split; [exact G|]. split; [exact X|]. prj. rewrite PH. split; [|exists pub; eapply LI_prev; eauto].
      apply (PI_list s _ t (A_next c n u)); auto; rewrite H; cbn; congruence.
    + rewrite NL. intros [= <-]. split; [exact B|]. split; [exact G|]. split; [exact X|]. prj. rewrite PH. split; [|exists pub; eapply LI_next; eauto].
      apply (PI_list s _ t (A_nprev c n u)); auto; rewrite H; cbn; congruence.
    + rewrite NL. intros [= <-]. split; [exact B|]. split; [exact G|]. split; [exact X|]. prj. rewrite PH. split; [|exists pub; eapply LI_nprev; eauto].
      apply (PI_list s _ t (A_head c n u)); auto; rewrite H; cbn; congruence.
    + intros [= <-]. split; [exact B|]. split; [exact G|]. split; [exact X|]. prj. rewrite PH. split; [|exists (c :: pub); eapply LI_head; eauto].
      apply (PI_list s _ t (A_tls c u)); auto; rewrite H; cbn; congruence.
    + intros [= <-]. split; [exact B|]. split; [exact G|]. split; [exact X|]. prj. rewrite PH. split; [apply PI_tls; auto|]. exists pub.
      apply (LI_th pub s _ t (A_zero c u)); auto. rewrite H. reflexivity.
    + rewrite CL. intros [= <-]. split; [exact B|]. split; [exact G|]. split; [exact X|]. prj. rewrite PH. split; [apply PI_zero; auto|]. exists pub.
      apply (LI_th pub s _ t (Use c u)); auto. rewrite H. reflexivity.
    + rewrite CL. assert (TC : tls s t = Some c) by (apply (p_use s PV); rewrite H; reflexivity).
      assert (VC : val s c = Some (expected t (log s))) by (apply (p_val s PV); [exact TC|]; intros u0 E; rewrite H in E; discriminate).
      destruct u as [|v]; intros [= <-].
      * split; [exact B|]. split; [intros a x [E|I0]; [injection E as <- <-; congruence|eauto]|]. split; [intros l2 l1 a x; apply (log_ok t (val s c) (log s) s VC X)|]. prj. rewrite PH.
        split; [eapply (PI_use s _ t c Get); try reflexivity; eauto|]. exists pub. apply LI_log. apply (LI_th pub s _ t Idle); auto. rewrite H. reflexivity.
      * split; [exact B|]. split; [intros a x [E|I0]; [discriminate|eauto]|]. split; [intros l2 l1 a x; apply (log_ok2 (EPut t v) (log s)); [exact I|exact X]|]. prj. rewrite PH.
        split; [eapply (PI_use s _ t c (Put v)); try reflexivity; eauto|]. exists pub. apply LI_log. apply (LI_th pub s _ t Idle); auto. rewrite H. reflexivity.
  - destruct (th s t) eqn:H; try discriminate. intros [= <-]. split; [exact B|]. split; [intros a x [E|I0]; [discriminate|eauto]|]. split; [intros l2 l1 a x; apply (log_ok2 (EExit t) (log s)); [exact I|exact X]|].
    prj. destruct (ph s); [destruct V as (PV & pub & LV)| |].
    + split; [apply PI_log; auto; exact I|]. exists pub. apply LI_log. exact LV.
    + destruct V as (V1 & V2 & l & V3). split; [exact V1|]. split; [exact V2|]. exists l. destruct V3; constructor; prj; auto.
    + exact V.
  - unfold do_init. destruct (ph s); try discriminate. intros [= <-]. destruct V as (V1 & V2). split; [exact B|]. split; [intros a x [E|I0]; [discriminate|eauto]|]. split; [intros l2 l1 a x; apply (log_ok2 EInit (log s)); [exact I|exact X]|].
    prj. split.
    + assert (NO : forall t c, None = Some c \/ cell_of (th s t) = Some c -> False) by (intros t c [A|A]; [discriminate|]; rewrite V1 in A; discriminate).
      constructor; unfold owns; prj; cbn [expected].
      * intros t u c A. destruct (NO t c A).
      * intros t c A. destruct (NO t c A).
      * intros t c A. destruct (NO t c A).
      * intros t c A. discriminate.
      * reflexivity.
      * reflexivity.
      * intros t c A. rewrite V1 in A. discriminate.
      * intros t A. congruence.
    + exists []. constructor; prj; try (intros; contradiction).
      * constructor.
      * apply setp_eq.
      * intros l1 n l2 E. destruct l1; discriminate.
      * intros l1 n l2 E. destruct l1; discriminate.
      * intros t c W. rewrite V1 in W. discriminate.
      * intros t c n W. rewrite V1 in W. discriminate.
      * intros t c n u [W|W]; rewrite V1 in W; discriminate.
      * intros t c n u W. rewrite V1 in W. discriminate.
  - unfold do_fini. destruct (ph s); try discriminate. intros [= <-]. destruct V as (PV & pub & LV). split; [exact B|]. split; [exact G|]. split; [exact X|]. prj.
    split; [exact (Q eq_refl)|]. split; [reflexivity|]. exists pub. destruct (LI_CI pub s LV (Q eq_refl)); constructor; prj; auto.
  - unfold do_round. destruct (ph s) eqn:P; try discriminate. destruct V as (V1 & V2 & l & V3). destruct (nx s None) as [p|] eqn:N.
    + destruct (CI_round l s p V3 N) as (l1 & l2 & E & NL & CL & LN & PV & CC). rewrite NL, CL, LN, PV. cbn [live andb]. intros [= <-]. split; [exact B|]. split; [exact G|]. split; [exact X|]. prj. rewrite P. split; [exact V1|]. split; [exact V2|]. exists l2. rewrite <- P. exact CC.
    + intros [= <-]. split; [exact B|]. split; [exact G|]. split; [exact X|]. split; auto.
Qed.
Lemma INV_reach s : reach s -> INV s.
Proof.
  induction 1 as [|s a s' R IH Q D]; [|eapply INV_do; eauto]. split; [reflexivity|]. split; [intros t v []|]. split; [intros l2 l1 t v E; destruct l1; discriminate|]. split; [intros t; reflexivity|reflexivity].
Qed.
