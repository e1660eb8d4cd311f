(** * C42: doubly linked lists are sequences. *)
From Verif Require Import Base Dlist.

(** ** Specification *)
Definition nx (h : heap) (p : Z) : option Z := option_map fst (h p).
Definition pv (h : heap) (p : Z) : option Z := option_map snd (h p).
(** b follows a, seen from both sides. *)
Definition edge (h : heap) (a b : Z) : Prop := nx h a = Some b /\ pv h b = Some a.
Fixpoint path (h : heap) (xs : list Z) : Prop :=
  match xs with a :: ((b :: _) as r) => edge h a b /\ path h r | _ => True end.
(** The list with head [head] has the elements [l]: following next from the head
    visits them in this order and comes back, and so does prev in the opposite order. *)
Definition islist (h : heap) (head : Z) (l : list Z) : Prop := NoDup (head :: l) /\ path h (head :: l ++ [head]).
(** h and h' agree except at the given addresses. *)
Definition same_but (xs : list Z) (h h' : heap) : Prop := forall p, ~ In p xs -> h' p = h p.
(** Mapped addresses. *)
Definition mapped (h : heap) (p : Z) : Prop := h p <> None.

(** ** Proofs *)
Lemma nx_eq h p v : nx h p = Some v -> exists q, h p = Some (v, q).
Proof. unfold nx. destruct (h p) as [[a b]|]; cbn; [intros [= ->]; eauto|discriminate]. Qed.
Lemma pv_eq h p v : pv h p = Some v -> exists q, h p = Some (q, v).
Proof. unfold pv. destruct (h p) as [[a b]|]; cbn; [intros [= ->]; eauto|discriminate]. Qed.
Lemma ld_next_nx h p v : nx h p = Some v -> ld_next h p = Ok v.
Proof. intros H. apply nx_eq in H as [q H]. unfold ld_next. rewrite H. reflexivity. Qed.
Lemma ld_prev_pv h p v : pv h p = Some v -> ld_prev h p = Ok v.
Proof. intros H. apply pv_eq in H as [q H]. unfold ld_prev. rewrite H. reflexivity. Qed.
Lemma cell_eq h h' p : nx h' p = nx h p -> pv h' p = pv h p -> h' p = h p.
Proof. unfold nx, pv. destruct (h p) as [[a b]|], (h' p) as [[c d]|]; cbn; congruence. Qed.

(** What a store does. *)
Definition stored_nx (p v : Z) (h h' : heap) : Prop := (forall a, nx h' a = if a =? p then Some v else nx h a) /\ (forall a, pv h' a = pv h a).
Definition stored_pv (p v : Z) (h h' : heap) : Prop := (forall a, pv h' a = if a =? p then Some v else pv h a) /\ (forall a, nx h' a = nx h a).
Lemma st_next_ok h p v : mapped h p -> exists h', st_next h p v = Ok h' /\ stored_nx p v h h'.
Proof.
  unfold mapped, st_next. destruct (h p) as [[n q]|] eqn:E; [|congruence]. intros _. eexists. split; [reflexivity|]. split; intros a; unfold nx, pv, upd; destruct (Z.eqb_spec a p); subst; cbn; rewrite ?E; reflexivity.
Qed.
Lemma st_prev_ok h p v : mapped h p -> exists h', st_prev h p v = Ok h' /\ stored_pv p v h h'.
Proof.
  unfold mapped, st_prev. destruct (h p) as [[n q]|] eqn:E; [|congruence]. intros _. eexists. split; [reflexivity|]. split; intros a; unfold nx, pv, upd; destruct (Z.eqb_spec a p); subst; cbn; rewrite ?E; reflexivity.
Qed.
Lemma mapped_nx h p : mapped h p <-> nx h p <> None.
Proof. unfold mapped, nx. destruct (h p) as [[]|]; cbn; split; congruence. Qed.
Lemma mapped_pv h p : mapped h p <-> pv h p <> None.
Proof. unfold mapped, pv. destruct (h p) as [[]|]; cbn; split; congruence. Qed.
Lemma stored_nx_mapped p v h h' a : stored_nx p v h h' -> mapped h a -> mapped h' a.
Proof. intros [_ A] M. apply mapped_pv. rewrite A. apply mapped_pv, M. Qed.
Lemma stored_pv_mapped p v h h' a : stored_pv p v h h' -> mapped h a -> mapped h' a.
Proof. intros [_ A] M. apply mapped_nx. rewrite A. apply mapped_nx, M. Qed.

Lemma path_app h xs m ys : path h (xs ++ m :: ys) <-> path h (xs ++ [m]) /\ path h (m :: ys).
Proof.
  induction xs as [|a xs IH]; [cbn; tauto|]. destruct xs as [|b xs]; [cbn; tauto|]. cbn [app path] in *. rewrite IH. tauto.
Qed.
Lemma path_join h xs p n ys : path h ((xs ++ [p]) ++ n :: ys) <-> path h (xs ++ [p]) /\ edge h p n /\ path h (n :: ys).
Proof. rewrite <- app_assoc. cbn [app]. rewrite path_app. cbn [path]. destruct ys; tauto. Qed.
Lemma path_frame h h' xs : path h xs -> (forall a, In a (removelast xs) -> nx h' a = nx h a) -> (forall b, In b (tl xs) -> pv h' b = pv h b) -> path h' xs.
Proof.
  induction xs as [|a [|b xs] IH]; cbn [path]; auto. intros [[E1 E2] P] HN HP. split.
  - split; [rewrite HN; [exact E1|left; reflexivity]|rewrite HP; [exact E2|left; reflexivity]].
  - apply IH; [exact P| |]; intros c Hc; [apply HN|apply HP]; cbn; right; [exact Hc|]. destruct xs; [contradiction|exact Hc].
Qed.
Lemma islist_mapped h head l p : islist h head l -> In p (head :: l) -> mapped h p.
Proof.
  intros [_ P] H. apply mapped_nx. assert (G : forall xs z, path h (xs ++ [z]) -> In p xs -> nx h p <> None).
  { induction xs as [|a xs IH]; intros z; [contradiction|]. intros Q [->|I].
    - destruct xs; cbn in Q; destruct Q as [[Q _] _]; congruence.
    - apply (IH z); [|exact I]. destruct xs; [contradiction|]. cbn in Q |- *. apply Q. }
  apply (G (head :: l) head); [exact P|exact H].
Qed.
(** Splitting the cycle of a list after l1. *)
Lemma cut h head l1 l2 : islist h head (l1 ++ l2) -> exists P p n N, head :: l1 = P ++ [p] /\ l2 ++ [head] = n :: N /\
  path h (P ++ [p]) /\ edge h p n /\ path h (n :: N) /\ ~ In p P /\ ~ In n l1 /\ ~ In p l2 /\ ~ In n N /\ (p = head \/ In p l1) /\ (n = head \/ In n l2) /\
  NoDup (head :: l1 ++ l2) /\ removelast (n :: N) = l2 /\ tl (P ++ [p]) = l1 /\ removelast (P ++ [p]) = P.
Proof.
  intros [ND Pa]. destruct (exists_last (l := head :: l1) ltac:(discriminate)) as (P & p & E). destruct (l2 ++ [head]) as [|n N] eqn:E2; [destruct l2; discriminate|].
  exists P, p, n, N. split; [exact E|]. split; [reflexivity|].
  rewrite <- app_assoc, E2, app_comm_cons, E in Pa. apply path_join in Pa as (A & B & C).
  assert (Hp : p = head \/ In p l1). { assert (In p (head :: l1)) by (rewrite E; apply in_or_app; right; left; reflexivity). cbn in H; intuition. }
  assert (Hn : n = head \/ In n l2). { assert (In n (l2 ++ [head])) by (rewrite E2; left; reflexivity). apply in_app_or in H as [H|[H|[]]]; auto. }
  assert (ND' : NoDup (P ++ p :: l2)). { replace (P ++ p :: l2) with ((P ++ [p]) ++ l2) by (rewrite <- app_assoc; reflexivity). rewrite <- E. exact ND. }
  pose proof (NoDup_remove_2 _ _ _ ND') as Np. rewrite in_app_iff in Np.
  assert (Nn : ~ In n l1).
  { cbn in ND. apply NoDup_cons_iff in ND as [N1 N2]. destruct Hn as [->|Hn]; [intros X; apply N1, in_or_app; left; exact X|]. intros X.
    apply in_split in X as (u & v & ->). rewrite <- app_assoc in N2. cbn in N2. apply NoDup_remove_2 in N2. apply N2. rewrite !in_app_iff. tauto. }
  assert (Nn2 : ~ In n N).
  { destruct l2 as [|b l2]; cbn in E2; injection E2 as <- <-; [tauto|]. intros X. apply in_app_or in X as [X|[<-|[]]].
    - cbn in ND. apply NoDup_cons_iff in ND as [_ N2]. apply NoDup_remove_2 in N2. apply N2, in_or_app. right. exact X.
    - cbn in ND. apply NoDup_cons_iff in ND as [N2 _]. apply N2, in_or_app. right. left. reflexivity. }
  repeat match goal with |- _ /\ _ => split end; auto; try tauto.
  - rewrite <- E2, removelast_last. reflexivity.
  - rewrite <- E. reflexivity.
  - apply removelast_last.
Qed.

Lemma add_at h head l1 l2 x p n : islist h head (l1 ++ l2) -> mapped h x -> ~ In x (head :: l1 ++ l2) -> nx h p = Some n ->
  p = last (head :: l1) 0 -> n = hd 0 (l2 ++ [head]) ->
  exists h', __list_add h x p n = Ok h' /\ islist h' head (l1 ++ x :: l2) /\ same_but (x :: head :: l1 ++ l2) h h' /\ (forall a, mapped h a -> mapped h' a).
Proof.
  intros I Mx Nx _ Ep En. destruct (cut h head l1 l2 I) as (P & p' & n' & N & E1 & E2 & A & B & C & D1 & D2 & D3 & D4 & D5 & D6 & ND & R1 & R2 & R3).
  rewrite E1, last_last in Ep. rewrite E2 in En. cbn in En. subst p' n'. clear D5 D6.
  assert (Hp : In p (head :: l1)) by (rewrite E1; apply in_or_app; right; left; reflexivity).
  assert (Hn : In n (head :: l2)) by (assert (X : In n (l2 ++ [head])) by (rewrite E2; left; reflexivity); apply in_app_or in X as [X|[X|[]]]; cbn; auto).
  assert (Hn' : In n (head :: l1 ++ l2)) by (cbn in *; rewrite in_app_iff; tauto). assert (Hp' : In p (head :: l1 ++ l2)) by (cbn in *; rewrite in_app_iff; tauto).
  pose proof (islist_mapped h head _ p I Hp') as Mp. pose proof (islist_mapped h head _ n I Hn') as Mn. unfold __list_add.
  destruct (st_prev_ok h n x Mn) as (h1 & -> & S1). cbn [bind].
  destruct (st_next_ok h1 x n (stored_pv_mapped _ _ _ _ _ S1 Mx)) as (h2 & -> & S2). cbn [bind].
  destruct (st_prev_ok h2 x p (stored_nx_mapped _ _ _ _ _ S2 (stored_pv_mapped _ _ _ _ _ S1 Mx))) as (h3 & -> & S3). cbn [bind].
  destruct (st_next_ok h3 p x (stored_pv_mapped _ _ _ _ _ S3 (stored_nx_mapped _ _ _ _ _ S2 (stored_pv_mapped _ _ _ _ _ S1 Mp)))) as (h4 & -> & S4).
  exists h4. split; [reflexivity|].
  assert (FN : forall a, nx h4 a = if a =? p then Some x else if a =? x then Some n else nx h a).
  { intros a. rewrite (proj1 S4), (proj2 S3), (proj1 S2), (proj2 S1). reflexivity. }
  assert (FP : forall a, pv h4 a = if a =? x then Some p else if a =? n then Some x else pv h a).
  { intros a. rewrite (proj2 S4), (proj1 S3), (proj2 S2), (proj1 S1). reflexivity. }
  assert (NEp : p <> x) by (intros ->; contradiction). assert (NEn : n <> x) by (intros ->; contradiction).
  assert (FN' : forall a, a <> p -> a <> x -> nx h4 a = nx h a) by (intros a Q1 Q2; rewrite FN; destruct (Z.eqb_spec a p); [contradiction|]; destruct (Z.eqb_spec a x); [contradiction|reflexivity]).
  assert (FP' : forall a, a <> n -> a <> x -> pv h4 a = pv h a) by (intros a Q1 Q2; rewrite FP; destruct (Z.eqb_spec a x); [contradiction|]; destruct (Z.eqb_spec a n); [contradiction|reflexivity]).
  split; [|split].
  - split.
    + cbn [app]. apply NoDup_cons_iff in ND as [N1 N2]. constructor.
      * rewrite in_app_iff in *. cbn. intros [Q|[Q|Q]]; [apply N1; tauto|subst; apply Nx; left; reflexivity|apply N1; tauto].
      * apply NoDup_Add with (a := x) (l := l1 ++ l2); [apply Add_app|]. split; [exact N2|]. intros Q. apply Nx. right. exact Q.
    + rewrite <- app_assoc. cbn [app]. rewrite app_comm_cons, E1. rewrite E2. apply path_join. split; [|split].
      * apply (path_frame h); [exact A| |]; [rewrite R3|rewrite R2]; intros a Ha.
        -- apply FN'; intros ->; [contradiction|]. apply Nx. rewrite app_comm_cons, E1, in_app_iff. left. apply in_or_app. left. exact Ha.
        -- apply FP'; intros ->; [contradiction|]. apply Nx. right. apply in_or_app. left. exact Ha.
      * split; [rewrite FN, Z.eqb_refl; reflexivity|rewrite FP, Z.eqb_refl; reflexivity].
      * change (path h4 (x :: n :: N)) with (edge h4 x n /\ path h4 (n :: N)). split; [split; [rewrite FN; destruct (Z.eqb_spec x p); [congruence|]; rewrite Z.eqb_refl; reflexivity|rewrite FP; destruct (Z.eqb_spec n x); [contradiction|]; rewrite Z.eqb_refl; reflexivity]|].
        apply (path_frame h); [exact C| |]; [rewrite R1|cbn [tl]]; intros a Ha.
        -- apply FN'; intros ->; [contradiction|]. apply Nx. right. apply in_or_app. right. exact Ha.
        -- apply FP'; intros ->; [contradiction|]. assert (Q : In x (l2 ++ [head])) by (rewrite E2; right; exact Ha). apply Nx. apply in_app_or in Q as [Q|[->|[]]]; [right; apply in_or_app; right; exact Q|left; reflexivity].
  - intros a Ha. cbn [In] in Ha. apply cell_eq; [apply FN'|apply FP']; intros ->; apply Ha; auto; right; cbn in Hp', Hn'; tauto.
  - intros a Ma. apply (stored_nx_mapped _ _ _ _ _ S4), (stored_pv_mapped _ _ _ _ _ S3), (stored_nx_mapped _ _ _ _ _ S2), (stored_pv_mapped _ _ _ _ _ S1), Ma.
Qed.
Lemma del_at h head l1 l2 x : islist h head (l1 ++ x :: l2) ->
  exists h', __list_del_entry h x = Ok h' /\ islist h' head (l1 ++ l2) /\ same_but (head :: l1 ++ l2) h h' /\ (forall a, mapped h a -> mapped h' a) /\ h' x = h x.
Proof.
  intros I. destruct (cut h head l1 (x :: l2) I) as (P & p & x' & N & E1 & E2 & A & B & C & D1 & D2 & D3 & D4 & D5 & _ & ND & _ & R2 & R3).
  cbn in E2. injection E2 as <- <-.
  assert (I2 : islist h head ((l1 ++ [x]) ++ l2)) by (rewrite <- app_assoc; exact I).
  destruct (cut h head (l1 ++ [x]) l2 I2) as (P2 & p2 & n & N & E1' & E2 & A' & B' & C' & F1 & F2 & F3 & F4 & _ & F6 & ND' & R1 & R2' & R3').
  assert (p2 = x) by (rewrite app_comm_cons in E1'; apply app_inj_tail in E1' as [_ E]; auto). subst p2.
  assert (Hn : In n (head :: l1 ++ l2)) by (cbn; rewrite in_app_iff; intuition).
  assert (Hp : In p (head :: l1 ++ l2)) by (cbn; rewrite in_app_iff; intuition).
  assert (Nx : ~ In x (head :: l1 ++ l2)). { apply NoDup_cons_iff in ND as [N1 N2]. cbn. intros [->|Q]; [apply N1, in_or_app; right; left; reflexivity|]. apply NoDup_remove_2 in N2. contradiction. }
  assert (NEp : p <> x) by (intros ->; contradiction). assert (NEn : n <> x) by (intros ->; contradiction).
  unfold __list_del_entry. rewrite (ld_prev_pv h x p (proj2 B)). cbn [bind]. rewrite (ld_next_nx h x n (proj1 B')). cbn [bind]. unfold __list_del.
  assert (Mp : mapped h p) by (apply mapped_nx; rewrite (proj1 B); discriminate). assert (Mn : mapped h n) by (apply mapped_pv; rewrite (proj2 B'); discriminate).
  destruct (st_prev_ok h n p Mn) as (h1 & -> & S1). cbn [bind]. destruct (st_next_ok h1 p n (stored_pv_mapped _ _ _ _ _ S1 Mp)) as (h2 & -> & S2).
  exists h2. split; [reflexivity|].
  assert (FN : forall a, nx h2 a = if a =? p then Some n else nx h a) by (intros a; rewrite (proj1 S2), (proj2 S1); reflexivity).
  assert (FP : forall a, pv h2 a = if a =? n then Some p else pv h a) by (intros a; rewrite (proj2 S2), (proj1 S1); reflexivity).
  assert (FN' : forall a, a <> p -> nx h2 a = nx h a) by (intros a Q1; rewrite FN; destruct (Z.eqb_spec a p); [contradiction|reflexivity]).
  assert (FP' : forall a, a <> n -> pv h2 a = pv h a) by (intros a Q1; rewrite FP; destruct (Z.eqb_spec a n); [contradiction|reflexivity]).
  split; [|split; [|split]].
  - split.
    + apply NoDup_cons_iff in ND as [N1 N2]. constructor; [rewrite in_app_iff in *; cbn in N1; tauto|]. apply NoDup_remove_1 in N2. exact N2.
    + cbn [app]. rewrite <- app_assoc, app_comm_cons, E1, E2. apply path_join. split; [|split].
      * apply (path_frame h); [exact A| |]; [rewrite R3|rewrite R2]; intros a Ha; [apply FN'|apply FP']; intros ->; [contradiction|]. apply F2, in_or_app. left. exact Ha.
      * split; [rewrite FN, Z.eqb_refl; reflexivity|rewrite FP, Z.eqb_refl; reflexivity].
      * apply (path_frame h); [exact C'| |]; [rewrite R1|cbn [tl]]; intros a Ha; [apply FN'|apply FP']; intros ->; [|contradiction]. apply D3. right. exact Ha.
  - intros a Ha. apply cell_eq; [apply FN'|apply FP']; intros ->; contradiction.
  - intros a Ma. apply (stored_nx_mapped _ _ _ _ _ S2), (stored_pv_mapped _ _ _ _ _ S1), Ma.
  - apply cell_eq; [apply FN'|apply FP']; congruence.
Qed.
(** Lists that share no node with the changed addresses are as before. *)
Lemma islist_frame h h' xs head l : same_but xs h h' -> islist h head l -> (forall p, In p (head :: l) -> ~ In p xs) -> islist h' head l.
Proof.
  intros S [ND P] D. split; [exact ND|]. apply (path_frame h); [exact P| |]; intros a Ha.
  - unfold nx. rewrite S; [reflexivity|]. apply D. rewrite app_comm_cons, removelast_last in Ha. exact Ha.
  - unfold pv. rewrite S; [reflexivity|]. apply D. cbn [tl] in Ha. apply in_app_or in Ha as [Ha|[->|[]]]; [right; exact Ha|left; reflexivity].
Qed.

(** ** Theorems *)
Lemma hd_app_nonempty (l : list Z) z d : hd d (l ++ [z]) = hd z l. Proof. destruct l; reflexivity. Qed.
Lemma last_app_one (l : list Z) x d : last (l ++ [x]) d = x. Proof. apply last_last. Qed.
Lemma last_head (l : list Z) head d : last (head :: l) d = last l head.
Proof. revert head. induction l as [|a l IH]; intros head; [reflexivity|]. change (last (head :: a :: l) d) with (last (a :: l) d). rewrite IH. destruct l; [reflexivity|]. change (last (a :: z :: l) head) with (last (z :: l) head). clear. revert z. induction l as [|b l IH]; intros z; [reflexivity|]. change (last (z :: b :: l) a) with (last (b :: l) a). change (last (z :: b :: l) head) with (last (b :: l) head). apply IH. Qed.
Lemma first_next h head l : islist h head l -> nx h head = Some (hd head l).
Proof. intros [_ P]. destruct l as [|a l]; cbn in P; apply P. Qed.
Lemma last_prev h head l : islist h head l -> pv h head = Some (last l head).
Proof.
  intros I. assert (I2 : islist h head (l ++ [])) by (rewrite app_nil_r; exact I). destruct (cut h head l [] I2) as (P & p & n & N & E1 & E2 & A & B & _). cbn in E2. injection E2 as <- <-.
  rewrite (proj2 B). f_equal. rewrite <- (last_head l head 0), E1, last_last. reflexivity.
Qed.

(** C42: initialising a head makes an empty list and changes nothing else. *)
Theorem C42_init : forall h head, mapped h head -> exists h', list_head_init h head = Ok h' /\ islist h' head [] /\ same_but [head] h h'.
Proof.
  intros h head M. unfold list_head_init. destruct (st_next_ok h head head M) as (h1 & -> & S1). cbn [bind]. destruct (st_prev_ok h1 head head (stored_nx_mapped _ _ _ _ _ S1 M)) as (h2 & -> & S2).
  exists h2. split; [reflexivity|]. split.
  - split; [constructor; [intros []|constructor]|]. cbn. split; [|exact Logic.I]. split; [rewrite (proj2 S2), (proj1 S1), Z.eqb_refl|rewrite (proj1 S2), Z.eqb_refl]; reflexivity.
  - intros p N. assert (E : (p =? head) = false) by (apply Z.eqb_neq; intros ->; apply N; left; reflexivity). apply cell_eq; [rewrite (proj2 S2), (proj1 S1), E|rewrite (proj1 S2), (proj2 S1), E]; reflexivity.
Qed.
Print Assumptions C42_init.
(** C42: adding at the head. *)
Theorem C42_add : forall h head l x, islist h head l -> mapped h x -> ~ In x (head :: l) ->
  exists h', list_add h x head = Ok h' /\ islist h' head (x :: l) /\ same_but (x :: head :: l) h h'.
Proof.
  intros h head l x I M N. unfold list_add. pose proof (first_next h head l I) as F. rewrite (ld_next_nx h head _ F). cbn [bind].
  destruct (add_at h head [] l x head (hd head l) I M N F eq_refl ltac:(rewrite hd_app_nonempty; reflexivity)) as (h' & A & B & C & _). exists h'. auto.
Qed.
Print Assumptions C42_add.
(** C42: adding at the tail. *)
Theorem C42_add_tail : forall h head l x, islist h head l -> mapped h x -> ~ In x (head :: l) ->
  exists h', list_add_tail h x head = Ok h' /\ islist h' head (l ++ [x]) /\ same_but (x :: head :: l) h h'.
Proof.
  intros h head l x I M N. unfold list_add_tail. pose proof (last_prev h head l I) as F. rewrite (ld_prev_pv h head _ F). cbn [bind].
  assert (I2 : islist h head (l ++ [])) by (rewrite app_nil_r; exact I). destruct (cut h head l [] I2) as (P & p & n & Nn & E1 & E2 & A & B & _). cbn in E2. injection E2 as <- <-.
  assert (Ep : p = last l head) by (rewrite <- (last_head l head 0), E1, last_last; reflexivity). rewrite <- Ep.
  destruct (add_at h head l [] x p head I2 M ltac:(rewrite app_nil_r; exact N) (proj1 B) ltac:(rewrite last_head; exact Ep) eq_refl) as (h' & Q & Q2 & Q3 & _). rewrite app_nil_r in Q3. exists h'. auto.
Qed.
Print Assumptions C42_add_tail.
Lemma poison_ok h x : mapped h x -> exists h', list_head_poison h x = Ok h' /\ same_but [x] h h' /\ h' x = Some (POISON1, POISON2).
Proof.
  intros M. unfold list_head_poison. destruct (st_next_ok h x POISON1 M) as (h1 & -> & S1). cbn [bind]. destruct (st_prev_ok h1 x POISON2 (stored_nx_mapped _ _ _ _ _ S1 M)) as (h2 & -> & S2). exists h2. split; [reflexivity|]. split.
  - intros p N. assert (E : (p =? x) = false) by (apply Z.eqb_neq; intros ->; apply N; left; reflexivity). apply cell_eq; [rewrite (proj2 S2), (proj1 S1), E|rewrite (proj1 S2), (proj2 S1), E]; reflexivity.
  - assert (A : nx h2 x = Some POISON1) by (rewrite (proj2 S2), (proj1 S1), Z.eqb_refl; reflexivity). assert (B : pv h2 x = Some POISON2) by (rewrite (proj1 S2), Z.eqb_refl; reflexivity).
    unfold nx, pv in *. destruct (h2 x) as [[]|]; cbn in *; congruence.
Qed.
Lemma not_in_rest h head l1 x l2 : islist h head (l1 ++ x :: l2) -> ~ In x (head :: l1 ++ l2).
Proof. intros [ND _]. apply NoDup_cons_iff in ND as [N1 N2]. cbn. intros [->|Q]; [apply N1, in_or_app; right; left; reflexivity|]. apply NoDup_remove_2 in N2. contradiction. Qed.
(** C42: deleting an entry, wherever it is, removes exactly it. *)
Theorem C42_del : forall h head l1 x l2, islist h head (l1 ++ x :: l2) ->
  exists h', list_del h x = Ok h' /\ islist h' head (l1 ++ l2) /\ same_but (x :: head :: l1 ++ l2) h h' /\ h' x = Some (POISON1, POISON2).
Proof.
  intros h head l1 x l2 I. pose proof (not_in_rest h head l1 x l2 I) as N. destruct (del_at h head l1 l2 x I) as (h1 & A & B & C & D & E). unfold list_del. rewrite A. cbn [bind].
  assert (M : mapped h x) by (apply (islist_mapped h head _ x I); right; apply in_or_app; right; left; reflexivity).
  destruct (poison_ok h1 x (D x M)) as (h2 & -> & F & G). exists h2. split; [reflexivity|]. split; [|split; [|exact G]].
  - apply (islist_frame h1 h2 [x]); [exact F|exact B|]. intros p Hp [<-|[]]. contradiction.
  - intros p Hp. rewrite F, C; [reflexivity| |]; cbn in Hp |- *; tauto.
Qed.
Print Assumptions C42_del.
(** C42: deleting and initialising. *)
Theorem C42_del_init : forall h head l1 x l2, islist h head (l1 ++ x :: l2) ->
  exists h', list_del_init h x = Ok h' /\ islist h' head (l1 ++ l2) /\ islist h' x [] /\ same_but (x :: head :: l1 ++ l2) h h'.
Proof.
  intros h head l1 x l2 I. pose proof (not_in_rest h head l1 x l2 I) as N. destruct (del_at h head l1 l2 x I) as (h1 & A & B & C & D & E). unfold list_del_init. rewrite A. cbn [bind].
  assert (M : mapped h x) by (apply (islist_mapped h head _ x I); right; apply in_or_app; right; left; reflexivity).
  destruct (C42_init h1 x (D x M)) as (h2 & -> & G & F). exists h2. split; [reflexivity|]. split; [|split; [exact G|]].
  - apply (islist_frame h1 h2 [x]); [exact F|exact B|]. intros p Hp [<-|[]]. contradiction.
  - intros p Hp. rewrite F, C; [reflexivity| |]; cbn in Hp |- *; tauto.
Qed.
Print Assumptions C42_del_init.
(** C42: moving an entry within a list. *)
Theorem C42_move_same : forall h head l1 x l2, islist h head (l1 ++ x :: l2) ->
  (exists h', list_move h x head = Ok h' /\ islist h' head (x :: l1 ++ l2) /\ same_but (x :: head :: l1 ++ l2) h h') /\
  (exists h', list_move_tail h x head = Ok h' /\ islist h' head ((l1 ++ l2) ++ [x]) /\ same_but (x :: head :: l1 ++ l2) h h').
Proof.
  intros h head l1 x l2 I. pose proof (not_in_rest h head l1 x l2 I) as N. destruct (del_at h head l1 l2 x I) as (h1 & A & B & C & D & E).
  assert (M : mapped h x) by (apply (islist_mapped h head _ x I); right; apply in_or_app; right; left; reflexivity). unfold list_move, list_move_tail. rewrite A. cbn [bind]. split.
  - destruct (C42_add h1 head (l1 ++ l2) x B (D x M) N) as (h2 & F & G & K). exists h2. split; [exact F|]. split; [exact G|]. intros p Hp. rewrite K, C; [reflexivity| |]; cbn in Hp |- *; tauto.
  - destruct (C42_add_tail h1 head (l1 ++ l2) x B (D x M) N) as (h2 & F & G & K). exists h2. split; [exact F|]. split; [exact G|]. intros p Hp. rewrite K, C; [reflexivity| |]; cbn in Hp |- *; tauto.
Qed.
Print Assumptions C42_move_same.
(** C42: moving an entry to another list. *)
Theorem C42_move_other : forall h head l1 x l2 head2 m, islist h head (l1 ++ x :: l2) -> islist h head2 m -> (forall p, In p (head :: l1 ++ x :: l2) -> ~ In p (head2 :: m)) ->
  (exists h', list_move h x head2 = Ok h' /\ islist h' head (l1 ++ l2) /\ islist h' head2 (x :: m) /\ same_but (x :: (head :: l1 ++ l2) ++ head2 :: m) h h') /\
  (exists h', list_move_tail h x head2 = Ok h' /\ islist h' head (l1 ++ l2) /\ islist h' head2 (m ++ [x]) /\ same_but (x :: (head :: l1 ++ l2) ++ head2 :: m) h h').
Proof.
  intros h head l1 x l2 head2 m I I2 Dj. pose proof (not_in_rest h head l1 x l2 I) as N. destruct (del_at h head l1 l2 x I) as (h1 & A & B & C & D & E).
  assert (M : mapped h x) by (apply (islist_mapped h head _ x I); right; apply in_or_app; right; left; reflexivity).
  assert (Dj' : forall p, In p (head2 :: m) -> ~ In p (head :: l1 ++ l2)). { intros p Hp Q. apply (Dj p); [|exact Hp]. cbn in Q |- *. rewrite in_app_iff in *. cbn. tauto. }
  assert (Nx : ~ In x (head2 :: m)) by (apply Dj; right; apply in_or_app; right; left; reflexivity).
  pose proof (islist_frame h h1 _ head2 m C I2 Dj') as I2'. unfold list_move, list_move_tail. rewrite A. cbn [bind].
  assert (FR : forall h2, same_but (x :: head2 :: m) h1 h2 -> islist h2 head (l1 ++ l2) /\ same_but (x :: (head :: l1 ++ l2) ++ head2 :: m) h h2).
  { intros h2 K. split.
    - apply (islist_frame h1 h2 (x :: head2 :: m)); [exact K|exact B|]. intros p Hp [<-|Q]; [contradiction|]. exact (Dj' p Q Hp).
    - intros p Hp. rewrite K, C; [reflexivity| |]; intros Q; apply Hp; cbn [In] in *; rewrite in_app_iff; cbn [In]; tauto. }
  split.
  - destruct (C42_add h1 head2 m x I2' (D x M) Nx) as (h2 & F & G & K). exists h2. split; [exact F|]. destruct (FR h2 K). auto.
  - destruct (C42_add_tail h1 head2 m x I2' (D x M) Nx) as (h2 & F & G & K). exists h2. split; [exact F|]. destruct (FR h2 K). auto.
Qed.
Print Assumptions C42_move_other.

(** C42: the questions about a list are answered as for the sequence. *)
Theorem C42_queries : forall h head l, islist h head l -> ~ In 0 (head :: l) ->
  list_empty h head = Ok (match l with [] => true | _ => false end) /\
  list_empty_careful h head = Ok (match l with [] => true | _ => false end) /\
  list_is_singular h head = Ok (match l with [_] => true | _ => false end) /\
  list_head h head = Ok (hd 0 l) /\ list_tail h head = Ok (last l 0).
Proof.
  intros h head l I Z0. pose proof (first_next h head l I) as F. pose proof (last_prev h head l I) as G. destruct I as [ND _].
  assert (E : list_empty h head = Ok (match l with [] => true | _ => false end)).
  { unfold list_empty. rewrite (ld_next_nx _ _ _ F). cbn [bind]. destruct l as [|a l]; cbn; [rewrite Z.eqb_refl; reflexivity|]. destruct (Z.eqb_spec a head) as [->|]; [|reflexivity]. apply NoDup_cons_iff in ND as [ND _]. exfalso. apply ND. left. reflexivity. }
  split; [exact E|]. split; [|split; [|split]].
  - unfold list_empty_careful. rewrite (ld_next_nx _ _ _ F), (ld_prev_pv _ _ _ G). cbn [bind]. destruct l as [|a l]; cbn [hd last]; [rewrite Z.eqb_refl; reflexivity|]. destruct (Z.eqb_spec a head) as [->|]; [|reflexivity]. apply NoDup_cons_iff in ND as [ND _]. exfalso. apply ND. left. reflexivity.
  - unfold list_is_singular. rewrite E, (ld_next_nx _ _ _ F), (ld_prev_pv _ _ _ G). cbn [bind]. destruct l as [|a [|b l]]; cbn [hd bind]; [reflexivity|cbn; rewrite Z.eqb_refl; reflexivity|].
    f_equal. apply Z.eqb_neq. intros Q. apply NoDup_cons_iff in ND as [_ ND]. apply NoDup_cons_iff in ND as [ND _]. apply ND.
    change (last (a :: b :: l) head) with (last (b :: l) head) in Q. rewrite Q. destruct (exists_last (l := b :: l) ltac:(discriminate)) as (u & v & ->). rewrite last_last. apply in_or_app. right. left. reflexivity.
  - unfold list_head. rewrite E. cbn [bind]. destruct l as [|a l]; [reflexivity|]. rewrite (ld_next_nx _ _ _ F). reflexivity.
  - unfold list_tail. rewrite E. cbn [bind]. destruct l as [|a l]; [reflexivity|]. rewrite (ld_prev_pv _ _ _ G). f_equal. destruct (exists_last (l := a :: l) ltac:(discriminate)) as (u & v & ->). rewrite !last_last. reflexivity.
Qed.
Print Assumptions C42_queries.
(** C42: the neighbours of an entry. *)
Theorem C42_next_prev : forall h head l1 x l2, islist h head (l1 ++ x :: l2) ->
  list_next h head x = Ok (hd 0 l2) /\ list_prev h head x = Ok (last l1 0).
Proof.
  intros h head l1 x l2 I. destruct (cut h head l1 (x :: l2) I) as (P & p & x' & N & E1 & E2 & _ & B & _ & _ & _ & _ & _ & _ & _ & ND & _). cbn in E2. injection E2 as <- <-.
  assert (I2 : islist h head ((l1 ++ [x]) ++ l2)) by (rewrite <- app_assoc; exact I). destruct (cut h head (l1 ++ [x]) l2 I2) as (P2 & p2 & n & N & E1' & E2 & _ & B' & _).
  assert (p2 = x) by (rewrite app_comm_cons in E1'; apply app_inj_tail in E1' as [_ E]; auto). subst p2. apply NoDup_cons_iff in ND as [N1 _].
  unfold list_next, list_prev. rewrite (ld_next_nx _ _ _ (proj1 B')), (ld_prev_pv _ _ _ (proj2 B)). cbn [bind]. split.
  - destruct l2 as [|b l2]; cbn in E2; injection E2 as <- <-; [rewrite Z.eqb_refl; reflexivity|]. destruct (Z.eqb_spec b head) as [->|]; [|reflexivity]. exfalso. apply N1, in_or_app. right. right. left. reflexivity.
  - assert (Ep : p = last l1 head) by (rewrite <- (last_head l1 head 0), E1, last_last; reflexivity). subst p. destruct l1 as [|a l1]; [cbn; rewrite Z.eqb_refl; reflexivity|].
    destruct (exists_last (l := a :: l1) ltac:(discriminate)) as (u & v & E). rewrite E, !last_last in *. destruct (Z.eqb_spec v head) as [->|]; [|reflexivity]. exfalso. apply N1. rewrite !in_app_iff. left. right. left. reflexivity.
Qed.
Print Assumptions C42_next_prev.

(** C42: removing the first and the last entry. *)
Theorem C42_remove_head : forall h head l, islist h head l -> ~ In 0 (head :: l) ->
  match l with
  | [] => list_remove_head h head = Ok (0, h) /\ list_remove_head_init h head = Ok (0, h)
  | x :: l' => (exists h', list_remove_head h head = Ok (x, h') /\ islist h' head l' /\ same_but (x :: head :: l') h h') /\
               (exists h', list_remove_head_init h head = Ok (x, h') /\ islist h' head l' /\ islist h' x [] /\ same_but (x :: head :: l') h h')
  end.
Proof.
  intros h head l I Z0. destruct (C42_queries h head l I Z0) as (E & _). pose proof (first_next h head l I) as F. unfold list_remove_head, list_remove_head_init. rewrite E. cbn [bind]. destruct l as [|x l]; [auto|]. rewrite (ld_next_nx _ _ _ F). cbn [bind hd]. split.
  - destruct (C42_del h head [] x l I) as (h' & -> & A & B & _). cbn [bind]. exists h'. auto.
  - destruct (C42_del_init h head [] x l I) as (h' & -> & A & B & C). cbn [bind]. exists h'. auto.
Qed.
Print Assumptions C42_remove_head.
Theorem C42_remove_tail : forall h head l x, islist h head (l ++ [x]) -> ~ In 0 (head :: l ++ [x]) ->
  (exists h', list_remove_tail h head = Ok (x, h') /\ islist h' head l /\ same_but (x :: head :: l) h h') /\
  (exists h', list_remove_tail_init h head = Ok (x, h') /\ islist h' head l /\ islist h' x [] /\ same_but (x :: head :: l) h h').
Proof.
  intros h head l x I Z0. destruct (C42_queries h head _ I Z0) as (E & _). pose proof (last_prev h head _ I) as F. rewrite last_last in F. unfold list_remove_tail, list_remove_tail_init. rewrite E.
  replace (match l ++ [x] with [] => true | _ :: _ => false end) with false by (destruct l; reflexivity). cbn [bind]. rewrite (ld_prev_pv _ _ _ F). cbn [bind]. split.
  - destruct (C42_del h head l x [] I) as (h' & -> & A & B & _). rewrite app_nil_r in *. cbn [bind]. exists h'. auto.
  - destruct (C42_del_init h head l x [] I) as (h' & -> & A & B & C). rewrite app_nil_r in *. cbn [bind]. exists h'. auto.
Qed.
Print Assumptions C42_remove_tail.

(** C42: splicing appends the whole sequence and leaves the source empty. *)
Theorem C42_splice_tail_init : forall h src k head l, islist h src k -> islist h head l -> (forall p, In p (src :: k) -> ~ In p (head :: l)) ->
  exists h', list_splice_tail_init h src head = Ok h' /\ islist h' head (l ++ k) /\ islist h' src [] /\ same_but (src :: k ++ head :: l) h h'.
Proof.
  intros h src k head l IS IH Dj. unfold list_splice_tail_init. pose proof (first_next h src k IS) as FS. pose proof (last_prev h src k IS) as LS. pose proof (last_prev h head l IH) as LH.
  unfold list_empty. rewrite (ld_next_nx _ _ _ FS). cbn [bind]. destruct k as [|f k'] eqn:Ek.
  { cbn [hd]. rewrite Z.eqb_refl. exists h. rewrite app_nil_r. split; [reflexivity|]. split; [exact IH|]. split; [exact IS|]. intros p _. reflexivity. }
  rewrite <- Ek in *. assert (Hf : hd src k = f) by (rewrite Ek; reflexivity). rewrite Hf in *.
  assert (NDS := proj1 IS). destruct (Z.eqb_spec f src) as [->|Nf]; [exfalso; apply NoDup_cons_iff in NDS as [N1 _]; apply N1; rewrite Ek; left; reflexivity|].
  rewrite (ld_prev_pv _ _ _ LH). cbn [bind]. set (p := last l head) in *. unfold __list_splice. rewrite (ld_next_nx _ _ _ FS), (ld_prev_pv _ _ _ LS). cbn [bind].
  destruct (exists_last (l := k) ltac:(rewrite Ek; discriminate)) as (ks & z & Ez). assert (Hz : last k src = z) by (rewrite Ez; apply last_last). rewrite Hz in *.
  assert (Inf : In f k) by (rewrite Ek; left; reflexivity). assert (Inz : In z k) by (rewrite Ez; apply in_or_app; right; left; reflexivity).
  assert (Hp : In p (head :: l)). { unfold p. rewrite <- (last_head l head 0). destruct (exists_last (l := head :: l) ltac:(discriminate)) as (u & v & ->). rewrite last_last. apply in_or_app. right. left. reflexivity. }
  assert (Mf : mapped h f) by (apply (islist_mapped h src k); [exact IS|right; exact Inf]). assert (Mz : mapped h z) by (apply (islist_mapped h src k); [exact IS|right; exact Inz]).
  assert (Mp : mapped h p) by (apply (islist_mapped h head l); [exact IH|exact Hp]). assert (Mh : mapped h head) by (apply (islist_mapped h head l); [exact IH|left; reflexivity]).
  assert (Ms : mapped h src) by (apply (islist_mapped h src k); [exact IS|left; reflexivity]).
  destruct (st_prev_ok h f p Mf) as (h1 & -> & S1). cbn [bind].
  destruct (st_next_ok h1 p f (stored_pv_mapped _ _ _ _ _ S1 Mp)) as (h2 & -> & S2). cbn [bind].
  destruct (st_next_ok h2 z head (stored_nx_mapped _ _ _ _ _ S2 (stored_pv_mapped _ _ _ _ _ S1 Mz))) as (h3 & -> & S3). cbn [bind].
  destruct (st_prev_ok h3 head z (stored_nx_mapped _ _ _ _ _ S3 (stored_nx_mapped _ _ _ _ _ S2 (stored_pv_mapped _ _ _ _ _ S1 Mh)))) as (h4 & -> & S4). cbn [bind].
  destruct (C42_init h4 src (stored_pv_mapped _ _ _ _ _ S4 (stored_nx_mapped _ _ _ _ _ S3 (stored_nx_mapped _ _ _ _ _ S2 (stored_pv_mapped _ _ _ _ _ S1 Ms))))) as (h5 & -> & I5 & S5).
  exists h5. split; [reflexivity|].
  assert (FN : forall a, nx h4 a = if a =? z then Some head else if a =? p then Some f else nx h a) by (intros a; rewrite (proj2 S4), (proj1 S3), (proj1 S2), (proj2 S1); reflexivity).
  assert (FP : forall a, pv h4 a = if a =? head then Some z else if a =? f then Some p else pv h a) by (intros a; rewrite (proj1 S4), (proj2 S3), (proj2 S2), (proj1 S1); reflexivity).
  assert (FN' : forall a, a <> z -> a <> p -> nx h4 a = nx h a) by (intros a Q1 Q2; rewrite FN; destruct (Z.eqb_spec a z); [contradiction|]; destruct (Z.eqb_spec a p); [contradiction|reflexivity]).
  assert (FP' : forall a, a <> head -> a <> f -> pv h4 a = pv h a) by (intros a Q1 Q2; rewrite FP; destruct (Z.eqb_spec a head); [contradiction|]; destruct (Z.eqb_spec a f); [contradiction|reflexivity]).
  assert (NDH := proj1 IH).
  assert (NDJ : NoDup (head :: l ++ k)).
  { rewrite app_comm_cons. apply NoDup_cons_iff in NDS as [_ NDk]. clear - NDH NDk Dj. induction (head :: l) as [|a m IHm]; [exact NDk|]. apply NoDup_cons_iff in NDH as [A B]. cbn. constructor; [|apply IHm; [intros q Q1 Q2; apply (Dj q Q1); right; exact Q2|exact B]].
    intros Q. apply in_app_or in Q as [Q|Q]; [contradiction|]. apply (Dj a); [right; exact Q|left; reflexivity]. }
  assert (DK : forall q, In q k -> ~ In q (head :: l)) by (intros q Q; apply Dj; right; exact Q).
  assert (I4 : islist h4 head (l ++ k)).
  { split; [exact NDJ|]. rewrite <- app_assoc.
    assert (IH2 : islist h head (l ++ [])) by (rewrite app_nil_r; exact IH). destruct (cut h head l [] IH2) as (P & p' & n & N & E1 & E2 & A & B & _ & D1 & D2 & _ & _ & _ & _ & _ & _ & R2 & R3). cbn in E2. injection E2 as <- <-.
    assert (p' = p) by (unfold p; rewrite <- (last_head l head 0), E1, last_last; reflexivity). subst p'.
    destruct IS as [_ PS]. rewrite app_comm_cons, E1. rewrite Ek. cbn [app]. apply path_join. split; [|split].
    - apply (path_frame h); [exact A| |]; [rewrite R3|rewrite R2]; intros a Ha.
      + assert (Ia : In a (head :: l)) by (rewrite E1; apply in_or_app; left; exact Ha). apply FN'; intros ->; [exact (DK z Inz Ia)|contradiction].
      + apply FP'; intros ->; [apply NoDup_cons_iff in NDH as [Q _]; contradiction|]. apply (DK f Inf). right. exact Ha.
    - split; [rewrite FN; destruct (Z.eqb_spec p z) as [Q|]; [exfalso; rewrite Q in Hp; exact (DK z Inz Hp)|]; rewrite Z.eqb_refl; reflexivity|].
      rewrite FP. destruct (Z.eqb_spec f head) as [Q|]; [exfalso; apply (DK f Inf); left; auto|]. rewrite Z.eqb_refl. reflexivity.
    - rewrite app_comm_cons, <- Ek, Ez, <- app_assoc. cbn [app]. apply path_app. split.
      + rewrite Ez in PS. cbn [app] in PS. rewrite <- app_assoc in PS. cbn [app] in PS. rewrite (path_app h (src :: ks) z [src]) in PS. destruct PS as [PS _].
        assert (PS2 : path h (ks ++ [z])) by (destruct (ks ++ [z]) eqn:Q; [exact Logic.I|]; cbn [app] in PS; rewrite Q in PS; apply PS).
        apply (path_frame h); [exact PS2| |].
        * rewrite removelast_last. intros a Ha. apply FN'; [intros ->|intros ->].
          -- apply NoDup_cons_iff in NDS as [_ Q]. rewrite Ez in Q. apply NoDup_remove_2 in Q. rewrite app_nil_r in Q. contradiction.
          -- apply (DK p); [rewrite Ez; apply in_or_app; left; exact Ha|exact Hp].
        * rewrite <- Ez, Ek. cbn [tl]. intros a Ha. apply FP'; [intros ->|intros ->].
          -- apply (DK head); [rewrite Ek; right; exact Ha|left; reflexivity].
          -- apply NoDup_cons_iff in NDS as [_ Q]. rewrite Ek in Q. apply NoDup_cons_iff in Q as [Q _]. contradiction.
      + cbn. split; [|exact Logic.I]. split; [rewrite FN, Z.eqb_refl; reflexivity|rewrite FP, Z.eqb_refl; reflexivity]. }
  split; [|split; [exact I5|]].
  - apply (islist_frame h4 h5 [src]); [exact S5|exact I4|]. intros q Q [<-|[]]. cbn in Q. destruct Q as [Q|Q]; [apply (Dj src); [left; reflexivity|left; exact Q]|]. apply in_app_or in Q as [Q|Q]; [apply (Dj src); [left; reflexivity|right; exact Q]|]. apply NoDup_cons_iff in NDS as [N1 _]. contradiction.
  - intros a Ha. cbn [In] in Ha. rewrite in_app_iff in Ha. rewrite S5 by (cbn; tauto). apply cell_eq; [apply FN'|apply FP']; intros ->; tauto || (apply Ha; right; right; cbn in Hp |- *; tauto).
Qed.
Print Assumptions C42_splice_tail_init.

(** C42: the loops visit the sequence, forwards and backwards. *)
Theorem C42_for_each : forall h head l fuel, islist h head l -> (length l <= fuel)%nat ->
  for_each fuel h head = Ok (Some l) /\ for_each_prev fuel h head = Ok (Some (rev l)).
Proof.
  intros h head l fuel I L. split.
  - unfold for_each. rewrite (ld_next_nx _ _ _ (first_next h head l I)). cbn [bind].
    assert (G : forall l2 l1 fuel, islist h head (l1 ++ l2) -> (length l2 <= fuel)%nat -> each_from fuel h (hd head l2) head = Ok (Some l2)).
    { induction l2 as [|x l2 IH]; intros l1 f I1 Lf; [cbn [hd]; destruct f; cbn; rewrite Z.eqb_refl; reflexivity|]. destruct f as [|f]; [cbn in Lf; lia|]. cbn [hd each_from].
      destruct (Z.eqb_spec x head) as [->|_]; [exfalso; destruct I1 as [ND _]; apply NoDup_cons_iff in ND as [N1 _]; apply N1, in_or_app; right; left; reflexivity|].
      assert (I2 : islist h head ((l1 ++ [x]) ++ l2)) by (rewrite <- app_assoc; exact I1). destruct (cut h head (l1 ++ [x]) l2 I2) as (P2 & p2 & n & N & E1' & E2 & _ & B' & _).
      assert (p2 = x) by (rewrite app_comm_cons in E1'; apply app_inj_tail in E1' as [_ E]; auto). subst p2. rewrite (ld_next_nx _ _ _ (proj1 B')). cbn [bind].
      replace n with (hd head l2) by (destruct l2; cbn in E2; injection E2 as <- _; reflexivity). rewrite (IH (l1 ++ [x]) f I2) by (cbn in Lf; lia). reflexivity. }
    apply (G l [] fuel I L).
  - unfold for_each_prev. rewrite (ld_prev_pv _ _ _ (last_prev h head l I)). cbn [bind].
    assert (G : forall l1 l2 fuel, islist h head (rev l1 ++ l2) -> (length l1 <= fuel)%nat -> each_prev_from fuel h (hd head l1) head = Ok (Some l1)).
    { induction l1 as [|x l1 IH]; intros l2 f I1 Lf; [cbn [hd]; destruct f; cbn; rewrite Z.eqb_refl; reflexivity|]. destruct f as [|f]; [cbn in Lf; lia|]. cbn [hd each_prev_from].
      destruct (Z.eqb_spec x head) as [->|_]; [exfalso; destruct I1 as [ND _]; apply NoDup_cons_iff in ND as [N1 _]; apply N1; cbn; rewrite !in_app_iff; left; right; left; reflexivity|].
      assert (I2 : islist h head (rev l1 ++ x :: l2)) by (cbn in I1; rewrite <- app_assoc in I1; exact I1). destruct (cut h head (rev l1) (x :: l2) I2) as (P2 & p2 & n & N & E1 & E2 & _ & B & _). cbn in E2. injection E2 as <- _.
      rewrite (ld_prev_pv _ _ _ (proj2 B)). cbn [bind].
      replace p2 with (hd head l1) by (assert (Q : last (head :: rev l1) 0 = p2) by (rewrite E1; apply last_last); rewrite last_head in Q; destruct l1 as [|y l1]; [exact Q|]; cbn in Q; rewrite last_last in Q; exact Q).
      rewrite (IH (x :: l2) f I2) by (cbn in Lf; lia). reflexivity. }
    replace (last l head) with (hd head (rev l)) by (destruct l as [|a l] using rev_ind; [reflexivity|]; rewrite rev_app_distr, last_last; reflexivity).
    apply (G (rev l) [] fuel); [rewrite rev_involutive, app_nil_r; exact I|rewrite rev_length; exact L].
Qed.
Print Assumptions C42_for_each.
(** C42: the safe loop visits every entry although its body deletes some of them. *)
Theorem C42_for_each_safe : forall f h head l fuel, islist h head l -> (length l <= fuel)%nat ->
  exists h', for_each_safe f fuel h head = Ok (Some (l, h')) /\ islist h' head (filter (fun x => negb (f x)) l).
Proof.
  intros f h head l fuel I L. unfold for_each_safe. rewrite (ld_next_nx _ _ _ (first_next h head l I)). cbn [bind].
  assert (G : forall l2 h l1 fuel, islist h head (l1 ++ l2) -> (length l2 <= fuel)%nat ->
     exists n h', ld_next h (hd head l2) = Ok n /\ each_safe_from f fuel h (hd head l2) n head = Ok (Some (l2, h')) /\ islist h' head (l1 ++ filter (fun x => negb (f x)) l2)).
  { clear. induction l2 as [|x l2 IH]; intros h l1 fl I1 Lf.
    - cbn [hd]. rewrite app_nil_r in I1. pose proof (first_next h head l1 I1) as F. exists (hd head l1), h. split; [apply ld_next_nx, F|]. split; [destruct fl; cbn; rewrite Z.eqb_refl; reflexivity|]. cbn. rewrite app_nil_r. exact I1.
    - destruct fl as [|fl]; [cbn in Lf; lia|]. cbn [hd].
      assert (I2 : islist h head ((l1 ++ [x]) ++ l2)) by (rewrite <- app_assoc; exact I1). destruct (cut h head (l1 ++ [x]) l2 I2) as (P2 & p2 & n & N & E1' & E2 & _ & B' & _).
      assert (p2 = x) by (rewrite app_comm_cons in E1'; apply app_inj_tail in E1' as [_ E]; auto). subst p2.
      assert (En : n = hd head l2) by (destruct l2; cbn in E2; injection E2 as <- _; reflexivity). exists n.
      cbn [each_safe_from]. destruct (Z.eqb_spec x head) as [->|_]; [exfalso; destruct I1 as [ND _]; apply NoDup_cons_iff in ND as [N1 _]; apply N1, in_or_app; right; left; reflexivity|].
      cbn [filter]. destruct (f x) eqn:Fx; cbn [negb].
      + destruct (C42_del h head l1 x l2 I1) as (h1 & Dl & A & _). destruct (IH h1 l1 fl A ltac:(cbn in Lf; lia)) as (n2 & h' & Q1 & Q2 & Q3). exists h'. split; [apply ld_next_nx, B'|]. rewrite Dl. cbn [bind]. rewrite En, Q1. cbn [bind]. rewrite Q2. auto.
      + destruct (IH h (l1 ++ [x]) fl I2 ltac:(cbn in Lf; lia)) as (n2 & h' & Q1 & Q2 & Q3). exists h'. split; [apply ld_next_nx, B'|]. cbn [bind]. rewrite En, Q1. cbn [bind]. rewrite Q2. rewrite <- app_assoc in Q3. auto. }
  destruct (G l h [] fuel I L) as (n & h' & Q1 & Q2 & Q3). exists h'. rewrite Q1. cbn [bind]. auto.
Qed.
Print Assumptions C42_for_each_safe.
(** C42: a list that has no node in common with the changed addresses keeps its sequence. *)
Theorem C42_other_lists : forall h h' xs head l, same_but xs h h' -> islist h head l -> (forall p, In p (head :: l) -> ~ In p xs) -> islist h' head l.
Proof. exact islist_frame. Qed.
Print Assumptions C42_other_lists.

(** ** Example: two lists, adds, a move between them and a splice. *)
Definition h0 : heap := fun p => if (1 <=? p) && (p <=? 9) then Some (0, 0) else None.
Example dlist_run : (let* h := list_head_init h0 1 in let* h := list_head_init h 2 in let* h := list_add_tail h 3 1 in let* h := list_add h 4 1 in let* h := list_add_tail h 5 2 in
  let* h := list_move_tail h 4 2 in let* h := list_splice_tail_init h 2 1 in let* a := for_each 9 h 1 in let* b := for_each 9 h 2 in Ok (a, b)) = Ok (Some [3; 5; 4], Some []).
Proof. vm_compute. reflexivity. Qed.
Example dlist_islist : islist (fun p => if p =? 1 then Some (3, 4) else if p =? 3 then Some (4, 1) else if p =? 4 then Some (1, 3) else None) 1 [3; 4].
Proof. split; [repeat constructor; cbn; intuition lia|]. cbn. repeat split. Qed.
