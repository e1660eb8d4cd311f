(** * C69: thread handles and identities of the ac791n port. *)
From Verif Require Import Base Threadac.

(** ** Specification, over histories (latest event first) *)
Definition remove (t : nat) (l : list nat) : list nat := filter (fun x => negb (x =? t)%nat) l.
(** The threads that were created and whose handle was not destroyed. *)
Fixpoint handles (h : list event) : list nat :=
  match h with
  | [] => []
  | ENew c :: h' => c :: handles h'
  | EFail c :: h' | EUnreg c :: h' => remove c (handles h')
  | _ :: h' => handles h'
  end.
Definition about (e : event) : nat :=
  match e with ENew c | EFail c | EStart c | EFun c _ | EJoin c _ | EUnreg c | EDrop c | EDone c | EFree c => c end.
Definition is_free (e : event) : bool := match e with EFree _ => true | _ => false end.
Definition is_join (e : event) : bool := match e with EJoin _ _ => true | _ => false end.
(** The part of the history about c. *)
Definition evs (c : nat) (h : list event) : list event := filter (fun e => (about e =? c)%nat) h.
Definition count (p : event -> bool) (h : list event) : nat := length (filter p h).

(** ** Invariant *)
Definition inreg (x : ctx) : bool := match x_h x with HNew | HOpen => true | _ => false end.
Definition late (x : ctx) : bool := match x_th x with TPosted | TEnd => true | _ => false end.
Definition returned (x : ctx) : bool := match x_th x with TRet | TPosted | TEnd => true | _ => false end.
Record okc (c : nat) (x : ctx) (E : list event) : Prop := {
  o_ref : match x_th x with
          | TNone => x_h x = HGone /\ x_free x = true
          | p => x_ref x = (match p with TEnd => 0 | _ => 1 end) + (match x_h x with HGone => 0 | _ => 1 end) /\
                 (x_free x = true <-> x_ref x = 0)
          end;
  o_new : x_th x = TNew <-> x_h x = HNew;
  o_done : In (EDone c) E <-> x_th x = TEnd;
  o_drop : In (EDrop c) E <-> x_h x = HGone /\ x_th x <> TNone;
  o_fail : In (EFail c) E <-> x_th x = TNone;
  o_free : count is_free E = if x_free x then 1%nat else 0%nat;
  o_sem : (x_sem x + count is_join E <= if late x then 1 else 0)%nat;
  o_val : if returned x then exists v, x_val x = Some v /\ In (EFun c v) E else True }.
Record inv (s : state) : Prop := {
  i_len : length (s_slots s) = MAX;
  i_bad : s_bad s = false;
  i_ctx : forall c x, nth_error (s_ctx s) c = Some x -> okc c x (evs c (s_tr s));
  i_none : forall c, (length (s_ctx s) <= c)%nat -> evs c (s_tr s) = [];
  i_slot : forall i c, nth_error (s_slots s) i = Some (Some c) -> exists x, nth_error (s_ctx s) c = Some x /\ x_idx x = i /\ inreg x = true;
  i_hin : forall c, In c (handles (s_tr s)) <-> exists x, nth_error (s_ctx s) c = Some x /\ inreg x = true;
  i_hnd : NoDup (handles (s_tr s)) }.

Lemma nth_set {A} i (v : A) l j : nth_error (set_nth i v l) j = if (j =? i)%nat then match nth_error l j with Some _ => Some v | None => None end else nth_error l j.
Proof.
  revert i j. induction l as [|x l IH]; intros [|i] [|j]; cbn; try reflexivity; try (destruct (_ =? _)%nat; reflexivity). apply IH.
Qed.
Lemma len_set {A} i (v : A) l : length (set_nth i v l) = length l.
Proof. revert i. induction l as [|x l IH]; intros [|i]; cbn; auto. Qed.
Lemma first_free_some l i : first_free l = Some i -> nth_error l i = Some None.
Proof. revert i. induction l as [|[c|] l IH]; cbn; intros i H; try discriminate. - destruct (first_free l); cbn in H; [|discriminate]. injection H as <-. cbn. auto. - injection H as <-. reflexivity. Qed.
Lemma first_free_none l : first_free l = None -> forall i o, nth_error l i = Some o -> exists c, o = Some c.
Proof. induction l as [|[c|] l IH]; cbn; intros H [|i] o E; try discriminate. - injection E as <-. eauto. - cbn in E. destruct (first_free l); [discriminate|]. eapply IH; eauto. Qed.
Lemma len_unreg c l : length (unregister c l) = length l.
Proof. induction l as [|o l IH]; cbn; [reflexivity|]. destruct (match o with Some d => (d =? c)%nat | None => false end); cbn; auto. Qed.
Lemma unreg_other c l i d : d <> c -> nth_error l i = Some (Some d) -> nth_error (unregister c l) i = Some (Some d).
Proof.
  intros N. revert i. induction l as [|o l IH]; intros [|i] H; cbn in *; try discriminate.
  - injection H as ->. apply Nat.eqb_neq in N. rewrite N. reflexivity.
  - destruct (match o with Some d => (d =? c)%nat | None => false end); cbn; auto.
Qed.
Lemma unreg_from c l i d : nth_error (unregister c l) i = Some (Some d) -> nth_error l i = Some (Some d).
Proof.
  revert i. induction l as [|o l IH]; intros [|i] H; cbn in *; try discriminate; destruct (match o with Some d => (d =? c)%nat | None => false end) eqn:E; cbn in H; auto; try discriminate.
Qed.
Lemma unreg_gone c l i : (forall a b, nth_error l a = Some (Some c) -> nth_error l b = Some (Some c) -> a = b) -> nth_error (unregister c l) i <> Some (Some c).
Proof.
  revert i. induction l as [|o l IH]; intros i H E; [destruct i; discriminate|]. cbn in E. destruct (match o with Some d => (d =? c)%nat | None => false end) eqn:Q.
  - destruct o as [d|]; [|discriminate]. apply Nat.eqb_eq in Q. subst d. destruct i as [|i]; [discriminate|]. cbn in E. specialize (H 0%nat (S i) eq_refl E). discriminate.
  - destruct i as [|i]; cbn in E.
    + injection E as ->. rewrite Nat.eqb_refl in Q. discriminate.
    + eapply IH; [|exact E]. intros a b Ha Hb. assert (S a = S b) by (apply H; assumption). lia.
Qed.
Lemma in_remove x t l : In x (remove t l) <-> In x l /\ x <> t.
Proof. unfold remove. rewrite filter_In. destruct (Nat.eqb_spec x t); cbn; intuition congruence. Qed.
Lemma evs_app c a b : evs c (a ++ b) = evs c a ++ evs c b. Proof. apply filter_app. Qed.
Lemma evs_all c e : (forall x, In x e -> about x = c) -> evs c e = e.
Proof. intros H. induction e as [|x e IH]; [reflexivity|]. cbn. rewrite (H x) by (left; reflexivity). rewrite Nat.eqb_refl. f_equal. apply IH. intros y Hy. apply H. right. exact Hy. Qed.
Lemma evs_no d c e : (forall x, In x e -> about x = c) -> d <> c -> evs d e = [].
Proof. intros H N. induction e as [|x e IH]; [reflexivity|]. cbn. rewrite (H x) by (left; reflexivity). destruct (Nat.eqb_spec c d); [congruence|]. apply IH. intros y Hy. apply H. right. exact Hy. Qed.
Lemma some_lt {A} (l : list A) c x : nth_error l c = Some x -> (c < length l)%nat.
Proof. intros H. apply nth_error_Some. rewrite H. discriminate. Qed.

(** One access to the context of c. *)
Lemma inv_upd s c x x' slots e : inv s -> nth_error (s_ctx s) c = Some x -> x_free x = false -> x_idx x' = x_idx x ->
  (forall y, In y e -> about y = c) -> okc c x' (e ++ evs c (s_tr s)) ->
  (inreg x' = inreg x /\ slots = s_slots s /\ handles (e ++ s_tr s) = handles (s_tr s) \/
   inreg x' = false /\ slots = unregister c (s_slots s) /\ handles (e ++ s_tr s) = remove c (handles (s_tr s))) ->
  inv (upd c x x' slots e s).
Proof.
  intros I H F HI HE HO HK. destruct I as [IL IB IC INn IS IH IN].
  assert (U : forall a b, nth_error (s_slots s) a = Some (Some c) -> nth_error (s_slots s) b = Some (Some c) -> a = b).
  { intros a b A B. destruct (IS _ _ A) as (y & Y1 & Y2 & _). destruct (IS _ _ B) as (z & Z1 & Z2 & _). congruence. }
  split; cbn [upd s_slots s_ctx s_bad s_tr].
  - destruct HK as [(_ & -> & _)|(_ & -> & _)]; [exact IL|rewrite len_unreg; exact IL].
  - rewrite IB, F. reflexivity.
  - intros d y Hy. rewrite nth_set in Hy. rewrite evs_app. destruct (Nat.eqb_spec d c) as [->|N].
    + rewrite H in Hy. injection Hy as <-. rewrite (evs_all c e HE). exact HO.
    + rewrite (evs_no d c e HE N). apply IC, Hy.
  - intros d Hd. rewrite len_set in Hd. rewrite evs_app, (INn d Hd), (evs_no d c e HE); [reflexivity|]. apply some_lt in H. lia.
  - assert (G : forall i d, d <> c -> nth_error (s_slots s) i = Some (Some d) -> exists y, nth_error (set_nth c x' (s_ctx s)) d = Some y /\ x_idx y = i /\ inreg y = true).
    { intros i d N Hd. destruct (IS _ _ Hd) as (y & Y). exists y. rewrite nth_set. apply Nat.eqb_neq in N. rewrite N. exact Y. }
    intros i d Hd. destruct HK as [(K & -> & _)|(K & -> & _)].
    + destruct (Nat.eq_dec d c) as [->|N]; [|apply G; assumption]. destruct (IS _ _ Hd) as (y & Y1 & Y2 & Y3). assert (y = x) by congruence. subst y.
      exists x'. rewrite nth_set, Nat.eqb_refl, H. split; [reflexivity|]. split; congruence.
    + destruct (Nat.eq_dec d c) as [->|N]; [exfalso; eapply unreg_gone; eassumption|]. apply G; [exact N|]. eapply unreg_from, Hd.
  - intros d. destruct HK as [(K & _ & ->)|(K & _ & ->)]; rewrite ?in_remove, IH, nth_set; destruct (Nat.eqb_spec d c) as [->|N].
    + rewrite H. split; intros (y & Y1 & Y2); [exists x'; split; [reflexivity|]; congruence|exists x; split; [reflexivity|]; congruence].
    + reflexivity.
    + rewrite H. split; [tauto|]. intros (y & Y1 & Y2). assert (y = x') by congruence. subst. congruence.
    + tauto.
  - destruct HK as [(_ & _ & ->)|(_ & _ & ->)]; [exact IN|apply NoDup_filter, IN].
Qed.

Lemma inv_init : inv init_state.
Proof.
  split; cbn [init_state s_slots s_ctx s_bad s_tr handles evs filter].
  - apply repeat_length. - reflexivity. - intros [|c] x; discriminate. - reflexivity.
  - intros i c H. apply nth_error_In, repeat_spec in H. discriminate.
  - intros c. split; [intros []|intros (x & H & _); destruct c; discriminate]. - constructor.
Qed.
Lemma inv_new s i slots : inv s -> (slots = s_slots s \/ nth_error (s_slots s) i = Some None /\ slots = set_nth i (Some (length (s_ctx s))) (s_slots s)) ->
  inv (mkS slots (s_ctx s ++ [mkC i false 2 0 None false TNew HNew]) (s_bad s) (ENew (length (s_ctx s)) :: s_tr s)).
Proof.
  intros I HS. destruct I as [IL IB IC INn IS IH IN]. set (c := length (s_ctx s)) in *. set (x := mkC i false 2 0 None false TNew HNew).
  assert (NC : nth_error (s_ctx s ++ [x]) c = Some x) by (rewrite nth_error_app2, Nat.sub_diag by (unfold c; lia); reflexivity).
  assert (OLD : forall d, d <> c -> nth_error (s_ctx s ++ [x]) d = nth_error (s_ctx s) d).
  { intros d N. destruct (Nat.lt_ge_cases d c) as [L|L]; [apply nth_error_app1, L|]. rewrite nth_error_app2 by (unfold c in L; lia). assert (d - length (s_ctx s) <> 0)%nat by (unfold c in *; lia).
    destruct (d - length (s_ctx s))%nat as [|k] eqn:K; [contradiction|]. cbn. destruct k; cbn; symmetry; apply nth_error_None; unfold c in *; lia. }
  assert (CN : nth_error (s_ctx s) c = None) by (apply nth_error_None; unfold c; lia).
  split; cbn [s_slots s_ctx s_bad s_tr handles].
  - destruct HS as [->|(_ & ->)]; rewrite ?len_set; exact IL.
  - exact IB.
  - intros d y Hy. cbn [evs filter about]. fold (evs d (s_tr s)). destruct (Nat.eqb_spec c d) as [<-|N].
    + assert (y = x) by congruence. subst y. rewrite (INn c) by (unfold c; lia). split; cbn; try tauto; try (intuition congruence); try lia.

    + rewrite OLD in Hy by congruence. apply IC, Hy.
  - intros d Hd. rewrite app_length in Hd. cbn in Hd. cbn [evs filter about]. fold (evs d (s_tr s)). destruct (Nat.eqb_spec c d) as [E|N]; [unfold c in E; lia|]. apply INn. lia.
  - assert (G : forall j d, nth_error (s_slots s) j = Some (Some d) -> exists y, nth_error (s_ctx s ++ [x]) d = Some y /\ x_idx y = j /\ inreg y = true).
    { intros j d Hd. destruct (IS _ _ Hd) as (y & Y). exists y. rewrite OLD; [exact Y|]. intros ->. rewrite CN in Y. destruct Y. discriminate. }
    intros j d Hd. destruct HS as [->|(HN & ->)]; [apply G, Hd|]. rewrite nth_set in Hd. destruct (Nat.eqb_spec j i) as [->|N]; [|apply G, Hd].
    rewrite HN in Hd. assert (d = c) by congruence. subst d. exists x. repeat split. exact NC.
  - intros d. cbn [In]. rewrite IH. destruct (Nat.eq_dec d c) as [->|N].
    + split; [intros _; exists x; split; [exact NC|reflexivity]|intros _; left; reflexivity].
    + rewrite OLD by assumption. split; [intros [A|A]; [congruence|exact A]|intros A; right; exact A].
  - constructor; [|exact IN]. rewrite IH. intros (y & Y & _). congruence.
Qed.
Lemma freed_about c x : forall y, In y (freed_ev c x ++ [EDone c]) \/ In y (freed_ev c x ++ [EDrop c]) -> about y = c.
Proof. unfold freed_ev. intros y. destruct (_ =? 0); cbn; intuition; subst; reflexivity. Qed.
Lemma live c x E : okc c x E -> (x_th x <> TEnd /\ x_th x <> TNone \/ x_h x <> HGone) -> x_free x = false /\ x_th x <> TNone /\ (x_free x = true <-> x_ref x = 0).
Proof.
  intros [o1 _ _ _ _ _ _ _] L. destruct (x_free x) eqn:F.
  - exfalso. destruct (x_th x), (x_h x); destruct o1 as [q1 q2]; try (destruct q2 as [q2 _]; specialize (q2 eq_refl); lia); try discriminate; intuition congruence.
  - split; [reflexivity|]. destruct (x_th x); destruct o1 as [q1 q2]; (split; [try discriminate|try exact q2]); discriminate.
Qed.
Ltac ok := match goal with O : okc ?c ?x ?E |- _ =>
  let e := fresh "E" in set (e := E) in *; clearbody e; destruct O as [o1 o2 o3 o4 o5 o6 o7 o8];
  destruct x as [xi xd xr xs xv xf xt xh]; cbn [x_idx x_det x_ref x_sem x_val x_free x_th x_h] in *; subst;
  unfold late, returned, unref, th, hd, freed_ev, count in *; cbn [x_idx x_det x_ref x_sem x_val x_free x_th x_h] in * end.
Ltac fin := cbn in *; intuition (try discriminate; try congruence; try lia; eauto).
Lemma inv_step s s' : inv s -> step s s' -> inv s'.
Proof.
  intros I H. inversion H; subst; clear H;
  [ destruct (first_free (s_slots s)) as [i|] eqn:E;
    [apply inv_new; [exact I|]; right; split; [apply first_free_some, E|reflexivity]|apply inv_new; [exact I|]; left; reflexivity] | ..];
  pose proof (i_ctx s I c x H0) as O;
  (destruct (live c x _ O ltac:(rewrite H1; (left; split; discriminate) || (right; discriminate))) as (F & NN & FR));
  (apply (inv_upd s c x _ _ _ I H0 F); [reflexivity| | |]).
  all: try (cbn [In]; intros y Hy; intuition; subst; reflexivity).
  all: try (match goal with |- forall _, In _ (_ ++ _) -> _ => intros y Hy; eapply freed_about; eauto end; fail).
  all: try match goal with |- _ \/ _ => unfold inreg, unref, th, hd, freed_ev; cbn; rewrite ?H1; try (destruct (x_ref x - 1 =? 0)); tauto end.
  all: ok.
  all: try match goal with v : hphase |- _ => destruct v; try (exfalso; clear - o2; destruct o2 as [p1 p2]; first [discriminate (p1 eq_refl)|discriminate (p2 eq_refl)]) end.
  all: try match goal with v : tphase |- _ => destruct v; try (exfalso; clear - o2; destruct o2 as [p1 p2]; first [discriminate (p1 eq_refl)|discriminate (p2 eq_refl)]); try (exfalso; apply NN; reflexivity) end.
  all: try (left; repeat split; reflexivity).
  all: destruct o1 as [q1 q2]; cbn in q1; subst.
  all: try destruct xd.
  all: split; fin.
  all: destruct o8 as (v & V1 & V2); exists v; tauto.
Qed.
Lemma inv_reachable s : reachable s -> inv s.
Proof. induction 1; [apply inv_init|eapply inv_step; eassumption]. Qed.

(** ** Theorems *)
Lemma evs_in c h e : about e = c -> (In e (evs c h) <-> In e h).
Proof. intros H. unfold evs. rewrite filter_In, H, Nat.eqb_refl. tauto. Qed.
Lemma evs_count c h p : count p (evs c h) = count (fun e => p e && (about e =? c)%nat) h.
Proof. unfold count, evs. induction h as [|e h IH]; [reflexivity|]. cbn. destruct (about e =? c)%nat; cbn; destruct (p e); cbn; auto. Qed.

(** No context is used after it was given back, none is given back twice, and it
    is given back exactly when the thread has ended and its handle is destroyed,
    or at once when the thread could not be started. *)
Theorem C69_freed_exactly : forall s c, reachable s -> s_bad s = false /\
  (count (fun e => is_free e && (about e =? c)%nat) (s_tr s) <= 1)%nat /\
  (In (EFree c) (s_tr s) <-> In (EDone c) (s_tr s) /\ In (EDrop c) (s_tr s) \/ In (EFail c) (s_tr s)).
Proof.
  intros s c R. pose proof (inv_reachable s R) as I. split; [apply (i_bad s I)|]. rewrite <- evs_count.
  rewrite <- (evs_in c (s_tr s) (EFree c)), <- (evs_in c (s_tr s) (EDone c)), <- (evs_in c (s_tr s) (EDrop c)), <- (evs_in c (s_tr s) (EFail c)) by reflexivity.
  assert (FC : In (EFree c) (evs c (s_tr s)) <-> (0 < count is_free (evs c (s_tr s)))%nat).
  { unfold count. split.
    - intros H. assert (In (EFree c) (filter is_free (evs c (s_tr s)))) by (apply filter_In; auto). destruct (filter _ _); [contradiction|cbn; lia].
    - intros H. destruct (filter is_free (evs c (s_tr s))) as [|e l] eqn:E; [cbn in H; lia|]. assert (In e (e :: l)) as J by (left; reflexivity). rewrite <- E in J. apply filter_In in J. destruct J as [J1 J2].
      destruct e; try discriminate. unfold evs in J1. pose proof J1 as J3. apply filter_In in J3. destruct J3 as [_ J3]. apply Nat.eqb_eq in J3. cbn in J3. subst. exact J1. }
  rewrite FC. destruct (nth_error (s_ctx s) c) as [x|] eqn:N.
  - destruct (i_ctx s I c x N) as [o1 o2 o3 o4 o5 o6 o7 o8]. rewrite o3, o4, o5, o6. split; [destruct (x_free x); lia|].
    destruct (x_th x), (x_h x), (x_free x); destruct o1 as [q1 q2]; try discriminate; try (destruct q2 as [q2 q3]); split; intros Z0; intuition (try discriminate; try congruence; try lia).
  - rewrite (i_none s I c) by (apply nth_error_None, N). cbn. intuition; lia.
Qed.
Print Assumptions C69_freed_exactly.

(** A join returns only after the thread's function has returned, with its value,
    and only one join per thread does. *)
Theorem C69_join_after_return : forall s h2 h1 c v, reachable s -> s_tr s = h2 ++ EJoin c v :: h1 ->
  (exists w, v = Some w /\ In (EFun c w) h1) /\ (forall v', ~ In (EJoin c v') h1).
Proof.
  intros s h2 h1 c v R. revert h2 h1 c v. induction R as [|s s' R IH St]; intros h2 h1 c v E; [destruct h2; discriminate|].
  pose proof (inv_reachable s R) as I.
  assert (C : forall e, s_tr s' = e ++ s_tr s -> (forall d w, ~ In (EJoin d w) e) -> (exists w, v = Some w /\ In (EFun c w) h1) /\ (forall v', ~ In (EJoin c v') h1)).
  { intros e E' NJ. rewrite E' in E. clear - IH NJ E. revert h2 E. induction e as [|y e IHe]; intros h2 E; [eapply IH; exact E|].
    destruct h2 as [|z h2]; cbn in E; injection E as E1 E2; [exfalso; eapply (NJ c v); left; exact E1|]. eapply IHe; [intros d w Hd; eapply NJ; right; exact Hd|exact E2]. }
  assert (FJ : forall d x p q, (p = EDone d \/ p = EDrop d) -> ~ In (EJoin c q) (freed_ev d x ++ [p])) by (intros d x p q Hp; unfold freed_ev; destruct (_ =? 0); cbn; intuition; subst; discriminate).
  inversion St; subst; clear St.
  - apply (C [ENew (length (s_ctx s))]); [destruct (first_free _); reflexivity|cbn; intuition discriminate].
  - apply (C [EStart c0]); [reflexivity|cbn; intuition discriminate].
  - apply (C [EFree c0; EFail c0]); [reflexivity|cbn; intuition discriminate].
  - apply (C [EFun c0 v0]); [reflexivity|cbn; intuition discriminate].
  - apply (C []); [reflexivity|cbn; intuition discriminate].
  - eapply C; [reflexivity|]. intros d w. unfold freed_ev. destruct (_ =? 0); cbn; intuition discriminate.
  - cbn [upd s_tr app] in E. destruct h2 as [|z h2]; cbn in E; injection E as E1 E2; [|eapply IH; exact E2].
    subst. rename c into d. destruct (i_ctx s I _ x H) as [o1 o2 o3 o4 o5 o6 o7 o8]. rewrite H1 in o7. assert (L : late x = true) by (destruct (late x); [reflexivity|lia]). rewrite L in o7.
    assert (RT : returned x = true) by (unfold late in L; unfold returned; destruct (x_th x); try discriminate; reflexivity). rewrite RT in o8. destruct o8 as (w & W1 & W2).
    split; [exists w; split; [congruence|eapply evs_in; [|exact W2]; reflexivity]|].
    intros v' Hv. assert (Hc : In (EJoin d v') (evs d (s_tr s))) by (apply evs_in; [reflexivity|exact Hv]). assert (In (EJoin d v') (filter is_join (evs d (s_tr s)))) by (apply filter_In; auto).
    unfold count in o7. destruct (filter is_join (evs d (s_tr s))); [contradiction|cbn in o7; lia].
  - apply (C []); [reflexivity|cbn; intuition discriminate].
  - apply (C [EUnreg c0]); [reflexivity|cbn; intuition discriminate].
  - eapply C; [reflexivity|]. intros d w. unfold freed_ev. destruct (_ =? 0); cbn; intuition discriminate.
Qed.
Print Assumptions C69_join_after_return.

Lemma free_slot s : inv s -> (length (handles (s_tr s)) < MAX)%nat -> exists i, first_free (s_slots s) = Some i.
Proof.
  intros I L. destruct (first_free (s_slots s)) as [i|] eqn:E; [eauto|]. exfalso.
  pose proof (first_free_none _ E) as A.
  assert (N : NoDup (s_slots s)).
  { apply NoDup_nth_error. intros i j Hi Hj. destruct (nth_error (s_slots s) i) as [o|] eqn:Ei; [|apply nth_error_None in Ei; lia].
    destruct (A _ _ Ei) as [c ->]. destruct (i_slot s I _ _ Ei) as (x & X1 & X2 & _). destruct (i_slot s I _ _ (eq_sym Hj)) as (y & Y1 & Y2 & _). congruence. }
  assert (IN : incl (s_slots s) (map Some (handles (s_tr s)))).
  { intros o Ho. apply In_nth_error in Ho. destruct Ho as [i Hi]. destruct (A _ _ Hi) as [c ->]. apply in_map. apply (i_hin s I). destruct (i_slot s I _ _ Hi) as (x & X1 & _ & X3). eauto. }
  pose proof (NoDup_incl_length N IN) as Le. rewrite map_length, (i_len s I) in Le. lia.
Qed.
Lemma slot_kept s : reachable s -> forall h2 c h1 x, s_tr s = h2 ++ ENew c :: h1 -> (length (handles h1) < MAX)%nat ->
  nth_error (s_ctx s) c = Some x -> inreg x = true -> nth_error (s_slots s) (x_idx x) = Some (Some c).
Proof.
  induction 1 as [|s s' R IH St]; intros h2 c h1 x E L N IR; [destruct h2; discriminate|].
  pose proof (inv_reachable s R) as I.
  assert (C : forall e d y y' slots, s' = upd d y y' slots e s -> nth_error (s_ctx s) d = Some y -> x_idx y' = x_idx y -> (inreg y' = true -> inreg y = true) -> (forall k, ~ In (ENew k) e) ->
              (slots = s_slots s \/ slots = unregister d (s_slots s) /\ inreg y' = false) -> nth_error (s_slots s') (x_idx x) = Some (Some c)).
  { intros e d y y' slots -> Hd Hi Hr Hn Hs. cbn [upd s_slots s_ctx s_tr] in *.
    assert (exists h, s_tr s = h ++ ENew c :: h1) as [h Eh].
    { clear - E Hn. revert h2 E. induction e as [|z e IHe]; intros h2 E; [eauto|]. destruct h2 as [|z2 h2]; cbn in E; injection E as E1 E2; [exfalso; eapply Hn; left; exact E1|]. eapply IHe; [intros k Hk; eapply Hn; right; exact Hk|exact E2]. }
    rewrite nth_set in N. destruct (Nat.eqb_spec c d) as [->|Nd].
    - rewrite Hd in N. assert (x = y') by congruence. subst x. destruct Hs as [->|(_ & Hs)]; [|congruence]. rewrite Hi. eapply IH; eauto.
    - pose proof (IH h c h1 x Eh L N IR) as Q. destruct Hs as [->|(-> & _)]; [exact Q|]. apply unreg_other; assumption. }
  inversion St; subst; clear St.
  - destruct (first_free (s_slots s)) as [i|] eqn:F; cbn [s_slots s_ctx s_tr] in *.
    + destruct h2 as [|z h2]; cbn in E; injection E as E1 E2.
      * subst. rewrite nth_error_app2, Nat.sub_diag in N by lia. cbn in N. assert (x = mkC i false 2 0 None false TNew HNew) by congruence. subst x. cbn [x_idx].
        rewrite nth_set, Nat.eqb_refl, (first_free_some _ _ F). reflexivity.
      * assert (Lc : (c < length (s_ctx s))%nat).
        { destruct (Nat.lt_ge_cases c (length (s_ctx s))) as [A|A]; [exact A|]. exfalso. pose proof (i_none s I c A) as B. assert (In (ENew c) (evs c (s_tr s))) as D by (apply evs_in; [reflexivity|rewrite E2; apply in_or_app; right; left; reflexivity]). rewrite B in D. exact D. }
        rewrite nth_error_app1 in N by exact Lc. pose proof (IH h2 c h1 x E2 L N IR) as Q. rewrite nth_set. destruct (Nat.eqb_spec (x_idx x) i) as [<-|Ni]; [|exact Q].
        rewrite (first_free_some _ _ F) in Q. discriminate.
    + destruct h2 as [|z h2]; cbn in E; injection E as E1 E2.
      * subst. destruct (free_slot s I L) as [i Hi]. congruence.
      * assert (Lc : (c < length (s_ctx s))%nat).
        { destruct (Nat.lt_ge_cases c (length (s_ctx s))) as [A|A]; [exact A|]. exfalso. pose proof (i_none s I c A) as B. assert (In (ENew c) (evs c (s_tr s))) as D by (apply evs_in; [reflexivity|rewrite E2; apply in_or_app; right; left; reflexivity]). rewrite B in D. exact D. }
        rewrite nth_error_app1 in N by exact Lc. exact (IH h2 c h1 x E2 L N IR).
  - eapply C; [reflexivity|eassumption|reflexivity| |cbn; intuition discriminate|left; reflexivity].
    destruct (i_ctx s I _ _ H) as [_ o2 _ _ _ _ _ _]. apply o2 in H0. intros _. unfold inreg. rewrite H0. reflexivity.
  - eapply C; [reflexivity|eassumption|reflexivity|discriminate|cbn; intuition discriminate|right; split; reflexivity].
  - eapply C; [reflexivity|eassumption|reflexivity|intros A; exact A|cbn; intuition discriminate|left; reflexivity].
  - eapply C; [reflexivity|eassumption|reflexivity|intros A; exact A|cbn; intuition discriminate|left; reflexivity].
  - eapply C; [reflexivity|eassumption|reflexivity|intros A; exact A|unfold freed_ev; destruct (_ =? 0); cbn; intuition discriminate|left; reflexivity].
  - eapply C; [reflexivity|eassumption|reflexivity|intros A; exact A|cbn; intuition discriminate|left; reflexivity].
  - eapply C; [reflexivity|eassumption|reflexivity|intros A; exact A|cbn; intuition discriminate|left; reflexivity].
  - eapply C; [reflexivity|eassumption|reflexivity|discriminate|cbn; intuition discriminate|right; split; reflexivity].
  - eapply C; [reflexivity|eassumption|reflexivity|discriminate|unfold freed_ev; destruct (_ =? 0); cbn; intuition discriminate|left; reflexivity].
Qed.

(** A running thread created while fewer than 16 handles were open, and whose own
    handle is open, is told its own handle. *)
Theorem C69_self_partial : forall s h2 c h1 x, reachable s -> s_tr s = h2 ++ ENew c :: h1 -> (length (handles h1) < 16)%nat ->
  nth_error (s_ctx s) c = Some x -> In c (handles (s_tr s)) -> self s x = Ctx c.
Proof.
  intros s h2 c h1 x R E L N Hc. pose proof (inv_reachable s R) as I. apply (i_hin s I) in Hc. destruct Hc as (y & Y1 & Y2). assert (y = x) by congruence. subst y.
  unfold self. rewrite (slot_kept s R h2 c h1 x E L N Y2). reflexivity.
Qed.
Print Assumptions C69_self_partial.
(** Whoever asks, a context that is returned is that of a thread whose handle is
    open; it has not been given back. *)
Theorem C69_self_live : forall s c x d, reachable s -> nth_error (s_ctx s) c = Some x -> self s x = Ctx d ->
  In d (handles (s_tr s)) /\ ~ In (EFree d) (s_tr s).
Proof.
  intros s c x d R N Hs. pose proof (inv_reachable s R) as I. unfold self in Hs. destruct (nth_error (s_slots s) (x_idx x)) as [[e|]|] eqn:E; try discriminate. assert (e = d) by congruence. subst e.
  destruct (i_slot s I _ _ E) as (y & Y1 & _ & Y3). split; [apply (i_hin s I); eauto|].
  rewrite (proj2 (proj2 (C69_freed_exactly s d R))). rewrite <- (evs_in d (s_tr s) (EDone d)), <- (evs_in d (s_tr s) (EDrop d)), <- (evs_in d (s_tr s) (EFail d)) by reflexivity.
  destruct (i_ctx s I d y Y1) as [o1 o2 o3 o4 o5 o6 o7 o8]. rewrite o4, o5. unfold inreg in Y3. destruct (x_h y); try discriminate; (intros [(_ & A & _)|A]; [discriminate|]); rewrite A in o1; destruct o1; discriminate.
Qed.
Print Assumptions C69_self_live.

(** ** Refutations *)
Tactic Notation "st" uconstr(c) := match goal with R : reachable ?s |- _ =>
  let R' := fresh in eassert (R' : reachable _) by (eapply (R_step s _ R); eapply c; reflexivity); clear R; rename R' into R; vm_compute in R end.
Ltac mk := match goal with R : reachable ?s |- _ => pose proof (R_step s _ R (S_new s)) as R'; clear R; rename R' into R; vm_compute in R end.
Ltac life n := mk; st (S_fork _ n); st (S_detach _ n); st (S_fun _ n _ 0); st (S_post _ n); st (S_end _ n).
Local Open Scope nat_scope.
(** Threads that are created, detached and end, as k_thread_create does it, keep
    their place for ever; after sixteen of them every further thread is told that
    it is the first one: two threads that run at the same time get the same answer. *)
Theorem C69_identity_refuted : exists s x y, reachable s /\ nth_error (s_ctx s) 16 = Some x /\ nth_error (s_ctx s) 17 = Some y /\
  x_th x = TRun /\ x_th y = TRun /\ self s x = Ctx 0 /\ self s y = Ctx 0 /\
  (forall c, c < 16 -> In (EDone c) (s_tr s)) /\ (forall c, ~ In (EFree c) (s_tr s)).
Proof.
  pose proof R_init as R. vm_compute in R.
  life 0. life 1. life 2. life 3. life 4. life 5. life 6. life 7. life 8. life 9. life 10. life 11. life 12. life 13. life 14. life 15.
  mk. st (S_fork _ 16). mk. st (S_fork _ 17).
  match type of R with reachable ?x => exists x end. eexists. eexists. split; [exact R|]. split; [reflexivity|]. split; [reflexivity|].
  split; [reflexivity|]. split; [reflexivity|]. split; [reflexivity|]. split; [reflexivity|]. split.
  - intros c L. do 16 (destruct c as [|c]; [cbn; tauto|]). lia.
  - intros c H. cbn in H. repeat (destruct H as [H|H]; [discriminate|]). exact H.
Qed.
Print Assumptions C69_identity_refuted.
(** A thread whose handle is destroyed while it runs is told the handle of another thread. *)
Theorem C69_destroyed_handle_refuted : exists s x, reachable s /\ nth_error (s_ctx s) 0 = Some x /\ x_th x = TRun /\ self s x = Ctx 1.
Proof.
  pose proof R_init as R. vm_compute in R. mk. st (S_fork _ 0). st (S_unreg _ 0). st (S_drop _ 0). mk. st (S_fork _ 1).
  match type of R with reachable ?x => exists x end. eexists. split; [exact R|]. repeat split; reflexivity.
Qed.
Print Assumptions C69_destroyed_handle_refuted.

(** ** Executions *)
Example threadac_life : exists s, reachable s /\ In (EJoin 1 (Some 7%Z)) (s_tr s) /\ In (EFree 1) (s_tr s) /\ In (EFree 2) (s_tr s) /\ ~ In (EFree 0) (s_tr s) /\
  handles (s_tr s) = [0] /\ (exists x, nth_error (s_ctx s) 0 = Some x /\ self s x = Ctx 0).
Proof.
  pose proof R_init as R. vm_compute in R. mk. st (S_fork _ 0). mk. st (S_fork _ 1). mk. st (S_forkfail _ 2).
  st (S_fun _ 1 _ 7%Z). st (S_post _ 1). st (S_join _ 1). st (S_unreg _ 1). st (S_drop _ 1). st (S_end _ 1).
  match type of R with reachable ?x => exists x end. split; [exact R|]. cbn. split; [tauto|]. split; [tauto|]. split; [tauto|]. split; [intuition discriminate|]. split; [reflexivity|]. eexists. split; reflexivity.
Qed.
