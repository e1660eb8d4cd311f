(** * C35: constructor and destructor calls are counted. *)
From Verif Require Import Base Ctor.

(** ** Specification *)
(** Outstanding constructor calls after a history (latest event first). *)
Fixpoint owners (h : list event) : Z :=
  match h with
  | [] => 0
  | ECtor _ :: h' => owners h' + 1
  | EDtor _ :: h' => Z.max 0 (owners h' - 1)
  | _ :: h' => owners h'
  end.
(** Is part p initialised after a history? *)
Fixpoint is_up (p : part) (h : list event) : bool :=
  match h with
  | [] => false
  | EInit x :: h' => if part_eqb x p then true else is_up p h'
  | EFini x :: h' => if part_eqb x p then false else is_up p h'
  | _ :: h' => is_up p h'
  end.

(** ** Proofs *)
Lemma peq a b : part_eqb a b = true <-> a = b.
Proof. destruct a, b; cbn; split; congruence. Qed.
Lemma peqr a : part_eqb a a = true. Proof. apply peq. reflexivity. Qed.

Definition crit (p : place) : bool := match p with Idle | CSpin | DSpin => false | _ => true end.
(** count, ownership and parts as they must be for the owner of the lock at p. *)
Definition local (p : place) (c o : Z) (u : list part) : Prop :=
  match p with
  | CRead | DRead => c = o /\ 0 <= o /\ (0 < o -> u = fini_order) /\ (o = 0 -> u = [])
  | CInc => c = o /\ 0 < o /\ u = fini_order
  | CInit l => c = 0 /\ o = 0 /\ rev init_order = rev l ++ u
  | CUnl => c = o + 1 /\ 0 <= o /\ u = fini_order
  | DUnl => c = Z.max 0 (o - 1) /\ 0 <= o /\ (0 < c -> u = fini_order) /\ (c = 0 -> u = [])
  | DDec => c = o /\ 0 < o /\ u = fini_order
  | DLast => c = 0 /\ o = 1 /\ u = fini_order
  | DFini l => c = 0 /\ o = 1 /\ u = l /\ NoDup l
  | _ => True
  end.
Record inv (s : state) : Prop := {
  i_lock : forall t, s_lock s = Some t <-> crit (s_pc s t) = true;
  i_free : s_lock s = None -> s_cnt s = owners (s_tr s) /\ 0 <= s_cnt s /\ (0 < s_cnt s -> s_up s = fini_order) /\ (s_cnt s = 0 -> s_up s = []);
  i_loc : forall t, local (s_pc s t) (s_cnt s) (owners (s_tr s)) (s_up s);
  i_up : forall p, is_up p (s_tr s) = existsb (part_eqb p) (s_up s) }.

Lemma fupd_eq f k v : fupd f k v k = v. Proof. unfold fupd. rewrite Nat.eqb_refl. reflexivity. Qed.
Lemma fupd_ne f k v x : x <> k -> fupd f k v x = f x. Proof. unfold fupd. intros H. apply Nat.eqb_neq in H. rewrite H. reflexivity. Qed.
Lemma local_out p c o u : crit p = false -> local p c o u. Proof. destruct p; cbn; auto; discriminate. Qed.
Lemma owners_nonneg h : 0 <= owners h. Proof. induction h as [|[]]; cbn; lia. Qed.
Lemma part_eqb_sym a b : part_eqb a b = part_eqb b a. Proof. destruct a, b; reflexivity. Qed.
Lemma del_up p q l : existsb (part_eqb p) (del q l) = if part_eqb q p then false else existsb (part_eqb p) l.
Proof.
  induction l as [|a l IH]; cbn [del filter existsb]; [destruct (part_eqb q p); reflexivity|]. destruct (part_eqb a q) eqn:E; cbn [negb existsb]; fold (del q l); rewrite IH.
  - apply peq in E. subst a. rewrite (part_eqb_sym p q). destruct (part_eqb q p); reflexivity.
  - destruct (part_eqb q p) eqn:F; [|reflexivity]. apply peq in F. subst q. rewrite (part_eqb_sym p a), E. reflexivity.
Qed.

Section Kinds.
  Variables (s : state) (t : nat).
  Hypothesis I : inv s.
  Lemma inv_outside p : crit (s_pc s t) = false -> crit p = false -> inv (go t p (s_cnt s) (s_lock s) (s_up s) [] s).
  Proof.
    intros A B. destruct I as [IL IF IC IU]. split; cbn [go s_cnt s_lock s_up s_pc s_dead s_tr app]; auto; intros v; (destruct (Nat.eq_dec v t) as [->|Hn]; [rewrite fupd_eq|rewrite fupd_ne by assumption]); auto.
    - rewrite IL, A, B. tauto.
    - apply local_out, B.
  Qed.
  Lemma inv_acquire p : s_lock s = None -> crit p = true -> local p (s_cnt s) (owners (s_tr s)) (s_up s) -> inv (go t p (s_cnt s) (Some t) (s_up s) [] s).
  Proof.
    intros A B L. destruct I as [IL IF IC IU]. split; cbn [go s_cnt s_lock s_up s_pc s_dead s_tr app]; auto; try discriminate; intros v; (destruct (Nat.eq_dec v t) as [->|Hn]; [rewrite fupd_eq|rewrite fupd_ne by assumption]); auto.
    - rewrite B. tauto.
    - rewrite <- IL, A. split; congruence.
  Qed.
  Lemma inv_inside p c u e : crit (s_pc s t) = true -> crit p = true -> local p c (owners (e ++ s_tr s)) u -> (forall x, is_up x (e ++ s_tr s) = existsb (part_eqb x) u) ->
    inv (go t p c (s_lock s) u e s).
  Proof.
    intros A B L U. destruct I as [IL IF IC IU]. assert (E : s_lock s = Some t) by (apply IL, A). split; cbn [go s_cnt s_lock s_up s_pc s_dead s_tr]; auto; try congruence;
      intros v; (destruct (Nat.eq_dec v t) as [->|Hn]; [rewrite fupd_eq|rewrite fupd_ne by assumption]); auto.
    - rewrite B, E. tauto.
    - apply local_out. destruct (crit (s_pc s v)) eqn:X; [|reflexivity]. apply IL in X. congruence.
  Qed.
  Lemma inv_release p e : crit (s_pc s t) = true -> crit p = false ->
    (s_cnt s = owners (e ++ s_tr s) /\ 0 <= s_cnt s /\ (0 < s_cnt s -> s_up s = fini_order) /\ (s_cnt s = 0 -> s_up s = [])) ->
    (forall x, is_up x (e ++ s_tr s) = existsb (part_eqb x) (s_up s)) -> inv (go t p (s_cnt s) None (s_up s) e s).
  Proof.
    intros A B L U. destruct I as [IL IF IC IU]. assert (E : s_lock s = Some t) by (apply IL, A). split; cbn [go s_cnt s_lock s_up s_pc s_dead s_tr]; auto;
      intros v; (destruct (Nat.eq_dec v t) as [->|Hn]; [rewrite fupd_eq|rewrite fupd_ne by assumption]).
    - rewrite B. split; discriminate.
    - rewrite <- IL, E. split; congruence.
    - apply local_out, B.
    - apply local_out. destruct (crit (s_pc s v)) eqn:X; [|reflexivity]. apply IL in X. congruence.
  Qed.
End Kinds.

Lemma inv_step q s s' : inv s -> step q s s' -> inv s'.
Proof.
  intros I H. pose proof I as [IL IF IC IU]. pose proof (owners_nonneg (s_tr s)) as NN.
  destruct H as [t Hd H|t Hd H H0|t Hd H|t Hd H|t p l Hd H|t Hd H|t Hd H|t Hd H|t Hd H H0|t Hd H|t Hd H|t Hd H Hq|t Hd H Hq|t p l Hd H|t Hd H|t Hd H];
    pose proof (IC t) as L; rewrite H in L; cbn [local] in L.
  - apply inv_outside; rewrite ?H; auto.
  - apply inv_acquire; auto. destruct (IF H0) as (A & B & C & D). cbn. rewrite <- A. auto.
  - apply inv_inside; rewrite ?H; auto; destruct (Z.ltb_spec 0 (s_cnt s)); auto; cbn; destruct L as (A & B & C & D); repeat split; try lia; [apply C; lia|]. rewrite D by lia. reflexivity.
  - apply inv_inside; rewrite ?H; auto. cbn. destruct L as (A & B & C). repeat split; try lia. exact C.
  - apply inv_inside; rewrite ?H; auto.
    + cbn [app owners local]. destruct L as (A & B & C). repeat split; auto. rewrite C. cbn [rev]. rewrite <- app_assoc. reflexivity.
    + intros x. cbn [app is_up existsb]. rewrite IU, (part_eqb_sym x p). destruct (part_eqb p x); reflexivity.
  - apply inv_inside; rewrite ?H; auto. cbn [app owners local]. destruct L as (A & B & C). repeat split; try lia. symmetry. exact C.
  - apply inv_release; rewrite ?H; auto. cbn [app owners]. destruct L as (A & B & C). repeat split; auto; lia.
  - apply inv_outside; rewrite ?H; auto.
  - apply inv_acquire; auto. destruct (IF H0) as (A & B & C & D). cbn. rewrite <- A. auto.
  - apply inv_inside; rewrite ?H; auto; destruct (Z.eqb_spec (s_cnt s) 0); auto; cbn [app owners local]; destruct L as (A & B & C & D); repeat split; auto; try lia; [intros; apply D; lia|apply C; lia].
  - apply inv_inside; rewrite ?H; auto; destruct (Z.ltb_spec 0 (s_cnt s - 1)); auto; cbn [app owners local]; destruct L as (A & B & C); repeat split; auto; lia.
  - split; cbn; auto.
  - apply inv_inside; rewrite ?H; auto. cbn [app owners local]. destruct L as (A & B & C). repeat split; auto. unfold fini_order. repeat constructor; cbn; intuition discriminate.
  - apply inv_inside; rewrite ?H; auto.
    + cbn [app owners local]. destruct L as (A & B & C & D). inversion_clear D as [|? ? D1 D2]. repeat split; auto. rewrite C. unfold del. cbn [filter]. rewrite peqr. cbn [negb].
      clear - D1. induction l as [|a l IH]; [reflexivity|]. cbn [filter]. destruct (part_eqb a p) eqn:E; [apply peq in E; subst; exfalso; apply D1; left; reflexivity|]. cbn. f_equal. apply IH. intros X. apply D1. right. exact X.
    + intros x. cbn [app is_up]. rewrite IU, del_up. reflexivity.
  - apply inv_inside; rewrite ?H; auto. cbn [app owners local]. destruct L as (A & B & C & D). repeat split; auto; lia.
  - apply inv_release; rewrite ?H; auto. cbn [app owners]. destruct L as (A & B & C & D). repeat split; auto; lia.
Qed.
Lemma inv_reachable q s : reachable q s -> inv s.
Proof.
  induction 1 as [|s s' R IH H]; [|eapply inv_step; eassumption]. split; cbn; auto; try (intros; split; discriminate). intros _. repeat split; auto; lia.
Qed.

(** ** Theorems *)

(** C35: whenever no call is inside, the parts are all initialised if there is
    an outstanding constructor call, none of them otherwise. *)
Theorem C35_initialised_iff_owned : forall q s p, reachable q s -> s_lock s = None ->
  (is_up p (s_tr s) = true <-> 0 < owners (s_tr s)).
Proof.
  intros q s p R L. destruct (inv_reachable q s R) as [_ IF _ IU]. destruct (IF L) as (A & B & C & D). rewrite IU, <- A.
  destruct (Z.eq_dec (s_cnt s) 0) as [E|E]; [rewrite (D E); cbn; split; [discriminate|lia]|]. rewrite C by lia. split; [lia|]. destruct p; reflexivity.
Qed.
Print Assumptions C35_initialised_iff_owned.

(** C35: at every moment, also while calls are in progress, the library is
    completely initialised if there are more owners than destructor calls in
    progress: an owner that has not called the destructor can use the library. *)
Definition in_dtor (p : place) : bool := match p with DSpin | DRead | DDec | DLast | DFini _ | DUnl => true | _ => false end.
Theorem C35_up_while_owned : forall q s p ts, reachable q s -> (forall t, in_dtor (s_pc s t) = true -> In t ts) ->
  Z.of_nat (length ts) < owners (s_tr s) -> is_up p (s_tr s) = true.
Proof.
  intros q s p ts R HT O. destruct (inv_reachable q s R) as [IL IF IC IU]. rewrite IU. enough (E : s_up s = fini_order) by (rewrite E; destruct p; reflexivity).
  destruct (s_lock s) as [t|] eqn:L; [|destruct (IF eq_refl) as (A & B & C & D); apply C; lia].
  assert (X : crit (s_pc s t) = true) by (apply IL; reflexivity). pose proof (IC t) as Y. specialize (HT t).
  assert (Z1 : in_dtor (s_pc s t) = true -> 1 <= Z.of_nat (length ts)) by (intros W; specialize (HT W); destruct ts; [contradiction|cbn; lia]).
  destruct (s_pc s t); try discriminate X; cbn [local in_dtor] in Y, Z1; try specialize (Z1 eq_refl); intuition; try lia; try congruence.
Qed.
Print Assumptions C35_up_while_owned.

(** C35: initialisation and finalisation of a part alternate, parts are
    finalised only for the last owner and initialised only when there is none. *)
Theorem C35_alternate : forall q s h1 h2 e, reachable q s -> s_tr s = h2 ++ e :: h1 ->
  match e with
  | EInit p => is_up p h1 = false /\ owners h1 = 0
  | EFini p => is_up p h1 = true /\ owners h1 = 1
  | EAbort t => q t = true /\ owners h1 = 1
  | _ => True
  end.
Proof.
  intros q s h1 h2 e R. revert h2. induction R as [|s s' R IH H]; intros h2 E; [destruct h2; discriminate|].
  pose proof (inv_reachable q s R) as [IL IF IC IU].
  assert (K : forall es, s_tr s' = es ++ s_tr s -> (length es = 0%nat \/ exists x, es = [x] /\ match x with EInit p => is_up p (s_tr s) = false /\ owners (s_tr s) = 0 | EFini p => is_up p (s_tr s) = true /\ owners (s_tr s) = 1 | EAbort t => q t = true /\ owners (s_tr s) = 1 | _ => True end) ->
     match e with EInit p => is_up p h1 = false /\ owners h1 = 0 | EFini p => is_up p h1 = true /\ owners h1 = 1 | EAbort t => q t = true /\ owners h1 = 1 | _ => True end).
  { intros es Es [L|(x & -> & Hx)]; [destruct es; [|discriminate]; rewrite Es in E; eapply IH; exact E|]. rewrite Es in E. cbn in E. destruct h2 as [|y h2]; cbn in E; injection E as E1 E2; [subst; exact Hx|]. eapply IH. exact E2. }
  destruct H as [t Hd H|t Hd H H0|t Hd H|t Hd H|t p l Hd H|t Hd H|t Hd H|t Hd H|t Hd H H0|t Hd H|t Hd H|t Hd H Hq|t Hd H Hq|t p l Hd H|t Hd H|t Hd H];
    pose proof (IC t) as L; rewrite H in L; cbn [local] in L; cbn [go s_tr] in K;
    try (apply (K []); [reflexivity|left; reflexivity]); try (eapply (K [_]); [reflexivity|right; eexists; split; [reflexivity|]; cbn; auto]).
  - destruct L as (A & B & C). split; [|exact B]. rewrite IU. assert (X : ~ In p (s_up s)).
    { assert (N : NoDup (rev (p :: l) ++ s_up s)) by (rewrite <- C; repeat constructor; cbn; intuition discriminate). cbn [rev] in N. rewrite <- app_assoc in N. cbn in N. apply NoDup_remove_2 in N. intros X. apply N. apply in_or_app. right. exact X. }
    destruct (existsb (part_eqb p) (s_up s)) eqn:Y; [|reflexivity]. apply existsb_exists in Y as (x & Y1 & Y2). apply peq in Y2. subst. contradiction.
  - destruct L as (A & B & C). auto.
  - destruct L as (A & B & C & D). split; [|exact B]. rewrite IU, C. cbn. rewrite peqr. reflexivity.
Qed.
Print Assumptions C35_alternate.

(** C35: a destructor call without an outstanding constructor call changes nothing:
    between the moment it gets the lifecycle lock and its return no part is touched. *)
Theorem C35_unmatched_dtor_harmless : forall q s t, reachable q s -> s_pc s t = DRead -> owners (s_tr s) = 0 -> s_dead s = false ->
  exists s1 s2, step q s s1 /\ step q s1 s2 /\ s_tr s2 = EDtor t :: s_tr s /\ s_up s2 = s_up s /\ s_cnt s2 = s_cnt s /\
  (forall s', step q s s' -> s_pc s' t <> s_pc s t -> s_pc s' t = DUnl).
Proof.
  intros q s t R H O D. pose proof (i_loc _ (inv_reachable q s R) t) as L. rewrite H in L. cbn in L. destruct L as (A & _). rewrite O in A.
  eexists. eexists. split; [eapply S_dread; eassumption|]. rewrite A. cbn [Z.eqb]. split; [eapply S_dunl; [exact D|cbn; apply fupd_eq]|].
  split; [reflexivity|]. split; [reflexivity|]. split; [reflexivity|].
  intros s' S N. destruct S; cbn [go s_pc] in *; try (destruct (Nat.eq_dec t t0) as [<-|Hn]; [|rewrite fupd_ne in N by assumption; congruence]); try congruence.
  rewrite fupd_eq, A. reflexivity.
Qed.
Print Assumptions C35_unmatched_dtor_harmless.

(** ** An execution: two threads call the constructor at the same time, three destructor calls follow. *)
Tactic Notation "st" uconstr(c) := match goal with R : reachable ?q ?s |- _ =>
  let R' := fresh in eassert (R' : reachable q _) by (eapply (R_step q s _ R); eapply c; reflexivity); clear R; rename R' into R; cbn in R end.
Example ctor_execution : exists s, reachable (fun _ => false) s /\ s_lock s = None /\ owners (s_tr s) = 0 /\ is_up Mpq (s_tr s) = false /\
  filter (fun e => match e with EInit Mpq | EFini Mpq | ECtor _ | EDtor _ => true | _ => false end) (s_tr s) =
    [EDtor 0; EDtor 0; EFini Mpq; EDtor 1; ECtor 0; ECtor 1; EInit Mpq]%nat.
Proof.
  pose proof (R_init (fun _ => false)) as R.
  st (S_ctor _ _ 0%nat). st (S_ctor _ _ 1%nat). st (S_clock _ _ 1%nat). st (S_cread _ _ 1%nat).
  do 10 st (S_cinit _ _ 1%nat). st (S_cset _ _ 1%nat). st (S_cunl _ _ 1%nat).
  st (S_clock _ _ 0%nat). st (S_cread _ _ 0%nat). st (S_cinc _ _ 0%nat). st (S_cunl _ _ 0%nat).
  st (S_dtor _ _ 1%nat). st (S_dlock _ _ 1%nat). st (S_dread _ _ 1%nat). st (S_ddec _ _ 1%nat). st (S_dunl _ _ 1%nat).
  st (S_dtor _ _ 0%nat). st (S_dlock _ _ 0%nat). st (S_dread _ _ 0%nat). st (S_ddec _ _ 0%nat). st (S_dlast _ _ 0%nat).
  do 10 st (S_dfini _ _ 0%nat). st (S_ddone _ _ 0%nat). st (S_dunl _ _ 0%nat).
  st (S_dtor _ _ 0%nat). st (S_dlock _ _ 0%nat). st (S_dread _ _ 0%nat). st (S_dunl _ _ 0%nat).
  eexists. split; [exact R|]. cbn. repeat split; reflexivity.
Qed.
