(** * The reference count invariant holds in every reachable state. *)
From Verif Require Import Base Fd FdInv.

Lemma ths_touch o s : ths (touch o s) = ths s. Proof. unfold touch. destruct (o_freed _); reflexivity. Qed.
Lemma objs_touch o s : objs (touch o s) = objs s. Proof. unfold touch. destruct (o_freed _); reflexivity. Qed.
Lemma tab_touch o s : tab (touch o s) = tab s. Proof. unfold touch. destruct (o_freed _); reflexivity. Qed.
Lemma bts_touch o s : bts (touch o s) = bts s. Proof. unfold touch. destruct (o_freed _); reflexivity. Qed.
Lemma ths_getref o s : ths (getref o s) = ths s. Proof. unfold getref. cbn [seto ths]. apply ths_touch. Qed.
Lemma tab_getref o s : tab (getref o s) = tab s. Proof. unfold getref. cbn [seto tab]. apply tab_touch. Qed.
Lemma bts_getref o s : bts (getref o s) = bts s. Proof. unfold getref. cbn [seto bts]. apply bts_touch. Qed.
Lemma len_getref o s : length (objs (getref o s)) = length (objs s). Proof. unfold getref. rewrite len_seto, objs_touch. reflexivity. Qed.
Lemma ths_putref o s : ths (putref o s) = ths s. Proof. unfold putref. destruct (_ =? _); cbn [note seto ths]; apply ths_touch. Qed.
Lemma tab_putref o s : tab (putref o s) = tab s. Proof. unfold putref. destruct (_ =? _); cbn [note seto tab]; apply tab_touch. Qed.
Lemma bts_putref o s : bts (putref o s) = bts s. Proof. unfold putref. destruct (_ =? _); cbn [note seto bts]; apply bts_touch. Qed.
Lemma len_putref o s : length (objs (putref o s)) = length (objs s). Proof. unfold putref. destruct (_ =? _); [change (length (objs (seto o (mkO (o_num (ob (touch o s) o)) (o_fd (ob (touch o s) o)) (o_q (ob (touch o s) o)) 0 (o_linked (ob (touch o s) o)) true) (touch o s))) = length (objs s))|]; rewrite len_seto, objs_touch; reflexivity. Qed.

(** What getting and giving back references leaves of the objects. *)
Definition core (x : obj) : Z * Z * nat * bool := (o_num x, o_fd x, o_q x, o_linked x).
Lemma core_touch o s o' : ob (touch o s) o' = ob s o'. Proof. unfold ob. rewrite objs_touch. reflexivity. Qed.
Lemma core_getref o s o' : core (ob (getref o s) o') = core (ob s o').
Proof. unfold getref. rewrite ob_seto, core_touch. destruct (_ && _) eqn:E; [|rewrite core_touch; reflexivity]. apply andb_prop in E. destruct E as [E _]. apply Nat.eqb_eq in E. subst. reflexivity. Qed.
Lemma core_putref o s o' : core (ob (putref o s) o') = core (ob s o').
Proof.
  unfold putref. rewrite core_touch. destruct (_ =? _).
  - change (ob (note (EFree o) ?a) o') with (ob a o'). rewrite ob_seto. destruct (_ && _) eqn:E; [|rewrite core_touch; reflexivity]. apply andb_prop in E. destruct E as [E _]. apply Nat.eqb_eq in E. subst. reflexivity.
  - rewrite ob_seto. destruct (_ && _) eqn:E; [|rewrite core_touch; reflexivity]. apply andb_prop in E. destruct E as [E _]. apply Nat.eqb_eq in E. subst. reflexivity.
Qed.

Lemma tabnone_ok ex s n : Inv ex s -> Inv ex (tabset n None s).
Proof.
  intros H. pose proof (i_tab _ _ H) as X. destruct H. constructor; auto. intros n' o Ht. cbn [tabset tab] in Ht. destruct (n' =? n); [discriminate|]. exact (X n' o Ht).
Qed.
Lemma total_seto o o' x s : total o (seto o' x s) = total o s. Proof. reflexivity. Qed.

Lemma del_ok ex s w o s' ok : Inv ex s -> (o < length (objs s))%nat -> 1 <= total o s + ex o -> (forall a, ~ In (FAdd a) (stk s w)) ->
  q_del_f w o s = (s', ok) -> Inv ex s' /\ length (objs s') = length (objs s) /\ ths s' = ths s /\ bts s' = bts s /\ (ok = true -> (forall n, tab s' n <> Some o) /\ o_q (ob s' o) = w).
Proof.
  intros H L T A E. assert (U : 1 <= o_use (ob s o)) by (rewrite (i_cnt _ _ H _ L); destruct (o_linked _); cbn [b2z]; lia).
  unfold q_del_f in E. rewrite (touch_ok _ _ _ H L U) in E. destruct (o_q (ob s o) =? w)%nat eqn:Q; cbn [negb] in E; [|assert (s' = s /\ ok = false) as [-> ->] by (split; congruence); split; [exact H|]; repeat split; auto; intros; discriminate].
  apply Nat.eqb_eq in Q. unfold remove_fd in E. set (n := o_fd (ob s o)) in *. destruct (match tab s n with Some o' => (o' =? o)%nat | None => false end) eqn:M.
  2:{ assert (s' = tabset n None s /\ ok = false) as [-> ->] by (split; congruence). split; [apply tabnone_ok; exact H|]. repeat split; auto; intros; discriminate. }
  destruct (tab s n) as [o'|] eqn:Tn; [|discriminate]. apply Nat.eqb_eq in M. subst o'. destruct (i_tab _ _ H _ _ Tn) as (N0 & _ & _ & Lk).
  assert (Lk' : o_linked (ob s o) = true) by (destruct Lk as [Lk|Lk]; [exact Lk|rewrite Q in Lk; destruct (A o Lk)]).
  set (s1 := tabset n None s) in *. assert (H1 : Inv ex s1) by (apply tabnone_ok; exact H).
  assert (No : forall n', tab s1 n' <> Some o). { intros n' C. unfold s1 in C. cbn [tabset tab] in C. destruct (n' =? n) eqn:B; [discriminate|]. destruct (i_tab _ _ H _ _ C) as (_ & _ & F & _). fold n in F. lia. }
  change (ob s1 o) with (ob s o) in E. set (x := mkO _ _ _ _ _ _) in E. assert (s' = putref o (seto o x s1) /\ ok = true) as [-> ->] by (split; congruence).
  assert (H2 : Inv (exu ex o 1) (seto o x s1)).
  { apply (seto_ok ex); auto; cbn [x o_num o_fd o_q o_use o_linked o_freed]; auto.
    - change (total o s1) with (total o s). rewrite (i_cnt _ _ H _ L), Lk'. unfold exu. rewrite Nat.eqb_refl. cbn [b2z]. lia.
    - apply (i_frz _ _ H _ L).
    - symmetry. apply (frees_of _ _ _ H1 L).
    - intros o' D. unfold exu. rewrite (proj2 (Nat.eqb_neq _ _) D). reflexivity.
    - unfold exu. rewrite Nat.eqb_refl. pose proof (proj1 (i_ex _ _ H o)). lia. }
  split; [|split; [rewrite len_putref, len_seto; reflexivity|split; [rewrite ths_putref; reflexivity|split; [rewrite bts_putref; reflexivity|]]]].
  - apply (Inv_ext (exu (exu ex o 1) o (-1))); [intros o'; unfold exu; destruct (o' =? o)%nat; lia|]. apply putref_ok; [exact H2|]. unfold exu. rewrite Nat.eqb_refl. pose proof (proj1 (i_ex _ _ H o)). lia.
  - intros _. split; [intros n'; rewrite tab_putref; apply No|]. pose proof (core_putref o (seto o x s1) o) as C. unfold core in C. rewrite ob_seto in C.
    apply Nat.ltb_lt in L. change (length (objs s1)) with (length (objs s)) in C. rewrite L, Nat.eqb_refl in C. cbn [andb x o_q] in C. congruence.
Qed.
Lemma close_ok ex s w o : Inv ex s -> (o < length (objs s))%nat -> 1 <= o_use (ob s o) -> (forall a, ~ In (FAdd a) (stk s w)) ->
  Inv ex (close_f w o s) /\ length (objs (close_f w o s)) = length (objs s) /\ ths (close_f w o s) = ths s /\ bts (close_f w o s) = bts s.
Proof.
  intros H L U A. unfold close_f. pose proof (getref_ok _ _ _ H L U) as H1. assert (E1 : 1 <= exu ex o 1 o) by (unfold exu; rewrite Nat.eqb_refl; pose proof (proj1 (i_ex _ _ H o)); lia).
  assert (B1 : forall a, ~ In (FAdd a) (stk (getref o s) w)) by (intros a; unfold stk; rewrite ths_getref; apply A).
  assert (Back : forall s2, Inv (exu ex o 1) s2 -> Inv ex (putref o s2)).
  { intros s2 H2. apply (Inv_ext (exu (exu ex o 1) o (-1))); [intros o'; unfold exu; destruct (o' =? o)%nat; lia|]. apply putref_ok; assumption. }
  destruct (q_del_f w o (getref o s)) as [s2 ok] eqn:D. assert (L1 : (o < length (objs (getref o s)))%nat) by (rewrite len_getref; exact L).
  destruct (del_ok _ _ _ _ _ _ H1 L1 ltac:(pose proof (total_nn (getref o s) o); lia) B1 D) as (H2 & L2 & T2 & T3 & Ok2). rewrite len_getref in L2. rewrite ths_getref in T2. rewrite bts_getref in T3.
  destruct ok.
  - destruct (Ok2 eq_refl) as [No Q]. set (x := mkO _ _ _ _ _ _). split; [|rewrite len_putref, ths_putref, bts_putref; cbn [note objs ths bts]; rewrite len_seto; auto].
    apply Back. apply note_ok; [|discriminate|discriminate]. assert (L3 : (o < length (objs s2))%nat) by (rewrite L2; exact L). apply (seto_ok (exu ex o 1)); cbn [x o_num o_fd o_q o_use o_linked o_freed]; auto.
    + apply (i_cnt _ _ H2 _ L3).
    + apply (i_frz _ _ H2 _ L3).
    + symmetry. apply (frees_of _ _ _ H2 L3).
    + lia.
  - split; [apply Back; exact H2|]. rewrite len_putref, ths_putref, bts_putref. auto.
Qed.
Lemma exec_ok ex s w o c : Inv ex s -> (o < length (objs s))%nat -> 1 <= total o s -> (forall a, ~ In (FAdd a) (stk s w)) ->
  Inv ex (exec c w o s) /\ length (objs (exec c w o s)) = length (objs s) /\ ths (exec c w o s) = ths s /\ bts (exec c w o s) = bts s.
Proof.
  intros H L T A. pose proof (proj1 (i_ex _ _ H o)) as E0. assert (U : 1 <= o_use (ob s o)) by (rewrite (i_cnt _ _ H _ L); destruct (o_linked _); cbn [b2z]; lia).
  destruct c; unfold exec.
  - apply close_ok; assumption.
  - destruct (q_del_f w o s) as [s' ok] eqn:D. destruct (del_ok _ _ _ _ _ _ H L ltac:(lia) A D) as (H2 & L2 & T2 & T3 & _). destruct ok; [|auto].
    split; [apply note_ok; [exact H2|discriminate|discriminate]|]. auto.
  - rewrite (touch_ok _ _ _ H L U). auto.
Qed.

Definition z0 : nat -> Z := fun _ => 0.
Lemma z0_ok s : forall o, 0 <= z0 o /\ ((length (objs s) <= o)%nat -> z0 o = 0). Proof. intros o. unfold z0. auto with zarith. Qed.
Lemma hd_noadd ex s t : Inv ex s -> match stk s t with FAdd _ :: _ => False | _ => True end -> forall a, ~ In (FAdd a) (stk s t).
Proof.
  intros H E a Hi. pose proof (i_hd _ _ H t) as Hd. destruct (stk s t) as [|f l]; [destruct Hi|]. destruct Hi as [->|Hi]; [exact E|]. specialize (Hd _ Hi). discriminate.
Qed.
Lemma user_noadd ex s t : Inv ex s -> user s t = true -> forall a, ~ In (FAdd a) (stk s t).
Proof. intros H U. apply (hd_noadd ex); [exact H|]. unfold user in U. destruct (stk s t) as [|[] l]; auto; discriminate. Qed.
Lemma tl_noadd ex s t f r : Inv ex s -> stk s t = f :: r -> forall a, ~ In (FAdd a) r.
Proof. intros H E a Hi. pose proof (i_hd _ _ H t (FAdd a)) as X. rewrite E in X. cbn [tl] in X. specialize (X Hi). discriminate. Qed.
Lemma inv_init nt : Inv z0 (init nt).
Proof.
  assert (S0 : forall t, stk (init nt) t = []). { intros t. unfold stk, init. cbn [ths]. revert t. induction nt as [|k IH]; intros [|t]; cbn; auto. }
  constructor; try (intros o L; cbn in L; lia); try (cbn; tauto); try (intros; rewrite S0 in *; cbn in *; tauto); try (intros; discriminate).
  all: intros o; first [reflexivity | unfold z0; auto with zarith].
Qed.
(** Changing the top frame, keeping the object. *)
Lemma swap_ok s t f f' r : Inv z0 s -> stk s t = f :: r -> (t < length (ths s))%nat -> fobj f' = fobj f -> refs f' = refs f -> isadd f = false -> isadd f' = false -> Inv z0 (sett t (f' :: r) s).
Proof.
  intros H E Lt Fo Re A A'. apply (sett_ok z0); auto.
  - intros o. rewrite E. cbn [holds]. unfold hold. rewrite Fo, Re. reflexivity.
  - intros g [<-|Hi]; [rewrite Fo|]; apply (i_frm _ _ H t); rewrite E; [left; reflexivity|right; assumption].
  - intros o. rewrite E. split; intros [X|X]; try (subst; discriminate); right; exact X.
  - intros g Hi. apply (i_hd _ _ H t). rewrite E. exact Hi.
  - apply z0_ok.
Qed.
Lemma pop_ok s t f r : Inv z0 s -> stk s t = f :: r -> (t < length (ths s))%nat -> refs f = true -> isadd f = false -> Inv z0 (sett t r (putref (fobj f) s)).
Proof.
  intros H E Lt Re A. assert (Hi : In f (stk s t)) by (rewrite E; left; reflexivity). pose proof (i_frm _ _ H _ _ Hi) as L.
  (* first drop the frame, then the reference *)
  assert (H1 : Inv (exu z0 (fobj f) 1) (sett t r s)).
  { apply (sett_ok z0); auto.
    - intros o. rewrite E. cbn [holds]. unfold hold, exu, z0. rewrite Re. cbn [andb]. rewrite (Nat.eqb_sym o). destruct (fobj f =? o)%nat; lia.
    - intros g Hg. apply (i_frm _ _ H t). rewrite E. right. exact Hg.
    - intros o. rewrite E. split; [right; assumption|]. intros [X|X]; [subst; discriminate|exact X].
    - intros g Hg. apply (i_hd _ _ H t). rewrite E. cbn [tl]. destruct r; [destruct Hg|right; exact Hg].
    - intros o. unfold exu, z0. destruct (Nat.eqb_spec o (fobj f)); [subst; split; intros; lia|split; intros; lia]. }
  assert (H2 : Inv z0 (putref (fobj f) (sett t r s))).
  { apply (Inv_ext (exu (exu z0 (fobj f) 1) (fobj f) (-1))); [intros o'; unfold exu; destruct (o' =? fobj f)%nat; lia|]. apply putref_ok; [exact H1|]. unfold exu. rewrite Nat.eqb_refl. unfold z0. lia. }
  assert (Eq : sett t r (putref (fobj f) s) = putref (fobj f) (sett t r s)).
  { unfold putref, touch. change (ob (sett t r s)) with (ob s). destruct (o_freed (ob s (fobj f))).
    - change (ob (note (EBad (fobj f)) (sett t r s))) with (ob s). change (ob (note (EBad (fobj f)) s)) with (ob s). destruct (_ =? _); reflexivity.
    - change (ob (sett t r s)) with (ob s). destruct (_ =? _); reflexivity. }
  rewrite Eq. exact H2.
Qed.
Lemma push_ok s t f : Inv z0 s -> (t < length (ths s))%nat -> refs f = true -> isadd f = false -> (forall a, ~ In (FAdd a) (stk s t)) -> (fobj f < length (objs s))%nat -> 1 <= o_use (ob s (fobj f)) ->
  Inv z0 (sett t (f :: stk s t) (getref (fobj f) s)).
Proof.
  intros H Lt Re A Na L U. pose proof (getref_ok _ _ _ H L U) as H1. assert (Es : stk (getref (fobj f) s) t = stk s t) by (unfold stk; rewrite ths_getref; reflexivity).
  apply (sett_ok (exu z0 (fobj f) 1)); auto.
  - rewrite ths_getref. exact Lt.
  - intros o. rewrite Es. cbn [holds]. unfold hold, exu, z0. rewrite Re. cbn [andb]. rewrite (Nat.eqb_sym o). destruct (fobj f =? o)%nat; lia.
  - intros g. rewrite len_getref. intros [<-|Hg]; [exact L|apply (i_frm _ _ H _ _ Hg)].
  - intros o. rewrite Es. split; [intros [X|X]; [subst; discriminate|exact X]|right; assumption].
  - cbn [tl]. intros g Hg. destruct g; auto. destruct (Na _ Hg).
  - apply z0_ok.
Qed.

Definition nofail (l : label) : Prop := forall t, l <> LAddFail t.
Lemma step_ok s l s' : Inv z0 s -> nofail l -> step s l = Some s' -> Inv z0 s'.
Proof.
  intros H Nf E. unfold step in E. destruct (who l <? length (ths s))%nat eqn:W; [|discriminate]. apply Nat.ltb_lt in W. cbn [negb] in E.
  destruct l as [t n|t|t|t c n|t w|t|t|t b|t p|t o|t k|t|t p'|t|t]; cbn [who] in W.
  - (* LAdd *)
    destruct (user s t) eqn:Us; [|discriminate]. destruct (0 <=? n) eqn:N0; [|discriminate]. cbn [andb] in E. destruct (tab s n) as [o|] eqn:Tn; injection E as <-; [apply note_ok; [exact H|discriminate|discriminate]|].
    pose proof (user_noadd _ _ _ H Us) as Na. set (o := length (objs s)). set (x := mkO n n t 1 false false).
    set (s1 := mkS (objs s ++ [x]) (fun y => if y =? n then Some o else tab s y) (upd (ths s) t (FAdd o :: stk s t)) (bts s) (log s)). change (Inv z0 s1).
    assert (Ob : forall a, ob s1 a = if (a =? o)%nat then x else ob s a).
    { intros a. unfold ob, s1. cbn [objs]. destruct (Nat.eqb_spec a o) as [->|D]; [rewrite app_nth2 by (unfold o; lia); unfold o; rewrite Nat.sub_diag; reflexivity|].
      destruct (Nat.lt_ge_cases a o) as [D2|D2]; [rewrite app_nth1 by exact D2; reflexivity|]. rewrite !nth_overflow; [reflexivity|fold o; lia|rewrite app_length; cbn; fold o; lia]. }
    assert (Len : length (objs s1) = S o) by (unfold s1; cbn [objs]; rewrite app_length; cbn [length]; unfold o; lia).
    assert (Sk : forall t', stk s1 t' = if (t' =? t)%nat then FAdd o :: stk s t else stk s t'). { intros t'. unfold stk at 1, s1. cbn [ths]. rewrite nth_upd. apply Nat.ltb_lt in W. rewrite W, andb_true_r. reflexivity. }
    assert (Tot : forall a, total a s1 = total a s + (if (a =? o)%nat then 1 else 0)). { intros a. unfold total at 1, s1. cbn [ths]. rewrite totl_upd by exact W. cbn [holds]. unfold hold. cbn [refs fobj andb]. rewrite (Nat.eqb_sym o a). unfold total, stk. lia. }
    assert (To : total o s = 0).
    { unfold total. assert (G : forall ts, (forall l f, In l ts -> In f l -> (fobj f < o)%nat) -> totl o ts = 0).
      { assert (G1 : forall l, (forall f, In f l -> (fobj f < o)%nat) -> holds o l = 0). { induction l as [|f l IH]; intros Hl; [reflexivity|]. cbn [holds]. rewrite IH by (intros; apply Hl; right; assumption). unfold hold. pose proof (Hl f (or_introl eq_refl)). replace (fobj f =? o)%nat with false by (symmetry; apply Nat.eqb_neq; lia). rewrite andb_false_r. lia. }
        induction ts as [|l ts IH]; intros Ht; [reflexivity|]. cbn [totl]. rewrite IH, G1; [lia| |]; intros; [|eapply Ht; [right; eassumption|eassumption]]. eapply Ht; [left; reflexivity|assumption]. }
      apply G. intros l f Hl Hf. apply In_nth with (d := []) in Hl. destruct Hl as (t' & _ & El). apply (i_frm _ _ H t'). unfold stk. rewrite El. exact Hf. }
    constructor.
    + exact (i_bad _ _ H).
    + intros a L. rewrite Len in L. rewrite Ob, Tot. destruct (Nat.eqb_spec a o) as [->|D]; [unfold z0; cbn [x o_use o_linked b2z]; lia|]. rewrite (i_cnt _ _ H a) by (fold o; lia). lia.
    + intros a L. rewrite Len in L. rewrite Ob. destruct (Nat.eqb_spec a o) as [->|D]; [reflexivity|]. apply (i_frz _ _ H a). fold o. lia.
    + intros n' a Ht. rewrite Len, Ob. unfold s1 in Ht. cbn [tab] in Ht. destruct (n' =? n) eqn:B.
      * assert (a = o) by congruence. subst a. rewrite Nat.eqb_refl. split; [lia|]. split; [lia|]. split; [cbn [x o_fd]; lia|]. right. cbn [x o_q]. rewrite Sk, Nat.eqb_refl. left. reflexivity.
      * destruct (i_tab _ _ H _ _ Ht) as (A1 & A2 & A3 & A4). replace (a =? o)%nat with false by (symmetry; apply Nat.eqb_neq; fold o in A2; lia). split; [exact A1|]. split; [fold o in A2; lia|]. split; [exact A3|].
        destruct A4 as [A4|A4]; [auto|right]. rewrite Sk. destruct (Nat.eqb_spec (o_q (ob s a)) t) as [Q|Q]; [right; rewrite <- Q; exact A4|exact A4].
    + intros t' f. rewrite Sk, Len. destruct (t' =? t)%nat; [intros [<-|Hf]; [cbn; lia|]|intros Hf]; pose proof (i_frm _ _ H _ _ Hf) as X; fold o in X; lia.
    + intros t' a. rewrite Sk, Ob. assert (G : In (FAdd a) (stk s t') -> t' = o_q (if (a =? o)%nat then x else ob s a) /\ o_linked (if (a =? o)%nat then x else ob s a) = false).
      { intros Hf. pose proof (i_frm _ _ H _ _ Hf) as X. cbn [fobj] in X. replace (a =? o)%nat with false by (symmetry; apply Nat.eqb_neq; fold o in X; lia). apply (i_add _ _ H _ _ Hf). }
      destruct (Nat.eqb_spec t' t) as [->|D]; [|exact G]. intros [X|Hf]; [|exact (G Hf)]. assert (a = o) by congruence. subst a. rewrite Nat.eqb_refl. auto.
    + intros t' f. rewrite Sk. destruct (t' =? t)%nat; [|apply (i_hd _ _ H)]. cbn [tl]. intros Hf. destruct f; auto. destruct (Na _ Hf).
    + intros a L. rewrite Len in L. rewrite Ob. destruct (Nat.eqb_spec a o) as [->|D]; [cbn [x o_num o_fd]; split; [lia|auto]|]. apply (i_num _ _ H a). fold o. lia.
    + apply z0_ok.
    + intros a. rewrite Len, Ob. change (log s1) with (log s). rewrite (i_free _ _ H a). fold o. destruct (Nat.eqb_spec a o) as [->|D]; [rewrite (proj2 (Nat.ltb_ge o o)) by lia; replace (o <? S o)%nat with true by (symmetry; apply Nat.ltb_lt; lia); reflexivity|].
      destruct (Nat.ltb_spec a o); [replace (a <? S o)%nat with true by (symmetry; apply Nat.ltb_lt; lia)|replace (a <? S o)%nat with false by (symmetry; apply Nat.ltb_ge; lia)]; reflexivity.
  - (* LAddOk *)
    destruct (stk s t) as [|[o| | |] r] eqn:Sk; try discriminate. assert (Hi : In (FAdd o) (stk s t)) by (rewrite Sk; left; reflexivity). pose proof (held_touch _ _ _ _ H Hi eq_refl) as Tc. cbn [fobj] in Tc. rewrite Tc in E. injection E as <-.
    apply note_ok; [|discriminate|discriminate]. pose proof (i_frm _ _ H _ _ Hi) as L. cbn [fobj] in L. destruct (i_add _ _ H _ _ Hi) as [Q Lk].
    set (x := mkO _ _ _ _ _ _). set (s1 := sett t r (seto o x s)).
    assert (Ob : forall a, ob s1 a = if (a =? o)%nat then x else ob s a). { intros a. unfold s1. change (ob (sett t r (seto o x s)) a) with (ob (seto o x s) a). rewrite ob_seto. apply Nat.ltb_lt in L. rewrite L, andb_true_r. reflexivity. }
    assert (Len : length (objs s1) = length (objs s)) by (unfold s1; cbn [sett objs]; apply upd_length).
    assert (Sk1 : forall t', stk s1 t' = if (t' =? t)%nat then r else stk s t'). { intros t'. unfold s1. rewrite stk_sett. change (ths (seto o x s)) with (ths s). apply Nat.ltb_lt in W. rewrite W, andb_true_r. reflexivity. }
    assert (Tot : forall a, total a s1 = total a s - (if (a =? o)%nat then 1 else 0)). { intros a. unfold s1. rewrite total_sett by exact W. change (stk (seto o x s) t) with (stk s t). rewrite Sk. cbn [holds]. unfold hold. cbn [refs fobj andb]. rewrite (Nat.eqb_sym o a). rewrite total_seto. lia. }
    constructor.
    + exact (i_bad _ _ H).
    + intros a La. rewrite Len in La. rewrite Ob, Tot. destruct (Nat.eqb_spec a o) as [->|D]; [cbn [x o_use o_linked b2z]; rewrite (i_cnt _ _ H _ L), Lk; cbn [b2z]; lia|]. rewrite (i_cnt _ _ H a La). lia.
    + intros a La. rewrite Len in La. rewrite Ob. destruct (Nat.eqb_spec a o) as [->|D]; apply (i_frz _ _ H _ La).
    + intros n a Ht. rewrite Len, Ob. change (tab s1 n) with (tab s n) in Ht. destruct (i_tab _ _ H _ _ Ht) as (A1 & A2 & A3 & A4). destruct (Nat.eqb_spec a o) as [->|D]; [repeat split; auto|]. repeat split; auto.
      destruct A4 as [A4|A4]; [auto|right]. rewrite Sk1. destruct (Nat.eqb_spec (o_q (ob s a)) t) as [Q2|Q2]; [|exact A4]. rewrite Q2, Sk in A4. destruct A4 as [A4|A4]; [congruence|exact A4].
    + intros t' f. rewrite Sk1, Len. destruct (Nat.eqb_spec t' t) as [->|D]; [|apply (i_frm _ _ H)]. intros Hf. apply (i_frm _ _ H t). rewrite Sk. right. exact Hf.
    + intros t' a. rewrite Sk1, Ob. destruct (Nat.eqb_spec t' t) as [->|D]; [intros Hf; destruct (tl_noadd _ _ _ _ _ H Sk a Hf)|]. intros Hf. destruct (i_add _ _ H _ _ Hf) as [B1 B2]. destruct (Nat.eqb_spec a o) as [->|D2]; [congruence|auto].
    + intros t' f. rewrite Sk1. destruct (Nat.eqb_spec t' t) as [->|D]; [|apply (i_hd _ _ H)]. intros Hf. apply (i_hd _ _ H t). rewrite Sk. cbn [tl]. destruct r; [destruct Hf|right; exact Hf].
    + intros a La. rewrite Len in La. rewrite Ob. destruct (Nat.eqb_spec a o) as [->|D]; apply (i_num _ _ H _ La).
    + apply z0_ok.
    + intros a. rewrite Len, Ob. change (log s1) with (log s). rewrite (i_free _ _ H a). destruct (Nat.eqb_spec a o) as [->|D]; reflexivity.
  - destruct (Nf t eq_refl).
  - (* LCall *)
    destruct (user s t) eqn:Us; [|discriminate]. destruct (tab s n) as [o|] eqn:Tn; injection E as <-; [|exact H].
    apply (push_ok s t (FOp c o false)); auto; [eapply user_noadd; eassumption|apply (i_tab _ _ H _ _ Tn)|eapply tab_use; eassumption].
  - (* LExec *)
    destruct (stk s t) as [|[| | |c o []] r] eqn:Sk; try discriminate. assert (Hi : In (FOp c o false) (stk s t)) by (rewrite Sk; left; reflexivity). pose proof (held_touch _ _ _ _ H Hi eq_refl) as Tc. cbn [fobj] in Tc. rewrite Tc in E.
    destruct (o_q (ob s o) =? w)%nat eqn:Q; [|discriminate]. cbn [andb] in E. destruct ((w =? t)%nat || (w <? length (ths s))%nat && user s w) eqn:Ow; [|discriminate]. injection E as <-.
    assert (Na : forall a, ~ In (FAdd a) (stk s w)).
    { destruct (Nat.eqb_spec w t) as [->|D]; [apply (hd_noadd z0); [exact H|rewrite Sk; auto]|]. cbn [orb] in Ow. apply andb_prop in Ow. destruct Ow as [_ Ow]. eapply user_noadd; eassumption. }
    pose proof (i_frm _ _ H _ _ Hi) as L. cbn [fobj] in L. pose proof (holds_in o _ _ Hi eq_refl eq_refl). pose proof (hold_total s t o).
    destruct (exec_ok z0 s w o c H L ltac:(lia) Na) as (H2 & L2 & T2 & _). apply (swap_ok _ t (FOp c o false)); auto; [unfold stk; rewrite T2; exact Sk|rewrite T2; exact W].
  - (* LSkip *)
    destruct (stk s t) as [|[| | |c o []] r] eqn:Sk; try discriminate. assert (Hi : In (FOp c o false) (stk s t)) by (rewrite Sk; left; reflexivity). pose proof (held_touch _ _ _ _ H Hi eq_refl) as Tc. cbn [fobj] in Tc. rewrite Tc in E. injection E as <-.
    apply (swap_ok _ t (FOp c o false)); auto.
  - (* LRetOp *)
    destruct (stk s t) as [|[| | |c o []] r] eqn:Sk; try discriminate. injection E as <-. apply (pop_ok s t (FOp c o true) r); auto.
  - (* LPoll *)
    destruct (stk s t); [|discriminate]. destruct (bts s t); [|discriminate]. destruct (forallb _ b); [|discriminate]. injection E as <-. apply setb_ok. exact H.
  - (* LDisp *)
    destruct (stk s t) eqn:Sk; [|discriminate]. destruct (bts s t) as [|n b]; [discriminate|]. destruct (tab s n) as [o|] eqn:Tn; [|injection E as <-; apply setb_ok; exact H].
    assert (G : forall p, Inv z0 (sett t [FDisp o p] (getref o (setb t b s)))).
    { intros q. pose proof (push_ok (setb t b s) t (FDisp o q)) as G. change (stk (setb t b s) t) with (stk s t) in G. rewrite Sk in G. apply G; auto; [apply setb_ok; exact H|apply (i_tab _ _ H _ _ Tn)|]. exact (tab_use _ _ _ _ H Tn). }
    destruct p; try discriminate; injection E as <-; apply G.
  - (* LTmo *)
    destruct (stk s t) eqn:Sk; [|discriminate]. destruct (bts s t); [|discriminate]. destruct ((o <? length (objs s))%nat && o_linked (ob s o) && (o_q (ob s o) =? t)%nat) eqn:C; [|discriminate]. injection E as <-.
    apply andb_prop in C. destruct C as [C _]. apply andb_prop in C. destruct C as [C1 C2]. apply Nat.ltb_lt in C1. pose proof (push_ok s t (FDisp o PE)) as G. rewrite Sk in G. apply G; auto.
    cbn [fobj]. rewrite (i_cnt _ _ H _ C1), C2. cbn [b2z]. pose proof (total_nn s o). unfold z0. lia.
  - (* LCb *)
    destruct (stk s t) as [|[|o p| |] r] eqn:Sk; try discriminate. assert (Hi : In (FDisp o p) (stk s t)) by (rewrite Sk; left; reflexivity). pose proof (held_touch _ _ _ _ H Hi eq_refl) as Tc. cbn [fobj] in Tc. rewrite Tc in E.
    destruct (may p k (valid s o)); [|discriminate]. injection E as <-. apply note_ok; [|discriminate|discriminate]. apply (sett_ok z0); auto.
    + intros a. rewrite Sk. cbn [holds]. unfold hold at 1. cbn [refs andb]. lia.
    + intros g [<-|Hg]; [exact (i_frm _ _ H _ _ Hi)|]. apply (i_frm _ _ H t). rewrite Sk. exact Hg.
    + intros a. rewrite Sk. split; [intros [X|X]; [discriminate|exact X]|right; assumption].
    + cbn [tl]. intros g [<-|Hg]; [reflexivity|]. apply (i_hd _ _ H t). rewrite Sk. exact Hg.
    + apply z0_ok.
  - (* LRet *)
    destruct (stk s t) as [|[| |o' k|] [|[|o p| |] r]] eqn:Sk; try discriminate. assert (Hi : In (FDisp o p) (stk s t)) by (rewrite Sk; right; left; reflexivity). pose proof (held_touch _ _ _ _ H Hi eq_refl) as Tc. cbn [fobj] in Tc. rewrite Tc in E. injection E as <-.
    apply (sett_ok z0); auto.
    + intros a. rewrite Sk. cbn [holds]. unfold hold. cbn [refs fobj andb]. lia.
    + intros g [<-|Hg]; [exact (i_frm _ _ H _ _ Hi)|]. apply (i_frm _ _ H t). rewrite Sk. right. right. exact Hg.
    + intros a. rewrite Sk. split; [intros [X|X]; [discriminate|right; right; exact X]|]. intros [X|[X|X]]; try discriminate. right. exact X.
    + cbn [tl]. intros g Hg. apply (i_hd _ _ H t). rewrite Sk. right. exact Hg.
    + apply z0_ok.
  - (* LMove *)
    destruct (stk s t) as [|[|o p| |] r] eqn:Sk; try discriminate. assert (Hi : In (FDisp o p) (stk s t)) by (rewrite Sk; left; reflexivity). pose proof (held_touch _ _ _ _ H Hi eq_refl) as Tc. cbn [fobj] in Tc. rewrite Tc in E.
    destruct (moves p p' (valid s o)); [|discriminate]. injection E as <-. apply (swap_ok _ t (FDisp o p)); auto.
  - (* LClose *)
    destruct (stk s t) as [|[|o []| |] r] eqn:Sk; try discriminate. assert (Hi : In (FDisp o PC) (stk s t)) by (rewrite Sk; left; reflexivity). pose proof (held_touch _ _ _ _ H Hi eq_refl) as Tc. cbn [fobj] in Tc. rewrite Tc in E. injection E as <-.
    destruct (valid s o); [|apply (swap_ok _ t (FDisp o PC)); auto]. pose proof (i_frm _ _ H _ _ Hi) as L. pose proof (held_use _ _ _ _ H Hi eq_refl) as U. cbn [fobj] in L, U.
    destruct (close_ok z0 s t o H L U) as (H2 & L2 & T2 & _); [apply (hd_noadd z0); [exact H|rewrite Sk; auto]|]. apply (swap_ok _ t (FDisp o PC)); auto; [unfold stk; rewrite T2; exact Sk|rewrite T2; exact W].
  - (* LPut *)
    destruct (stk s t) as [|[|o []| |] r] eqn:Sk; try discriminate. injection E as <-. apply (pop_ok s t (FDisp o PX) r); auto.
Qed.
Lemma run_app s a b : run s (a ++ b) = match run s a with Some s1 => run s1 b | None => None end.
Proof. revert s. induction a as [|l a IH]; intros s; cbn [run app]; [reflexivity|]. destruct (step s l); [apply IH|reflexivity]. Qed.
Lemma run_inv ls : forall s s', Inv z0 s -> Forall nofail ls -> run s ls = Some s' -> Inv z0 s'.
Proof.
  induction ls as [|l ls IH]; intros s s' H F E; cbn [run] in E; [assert (s' = s) by congruence; subst; exact H|]. apply Forall_inv in F as F1. apply Forall_inv_tail in F.
  destruct (step s l) as [s1|] eqn:St; [|discriminate]. exact (IH _ _ (step_ok _ _ _ H F1 St) F E).
Qed.
Lemma reach_inv nt ls s : reach nt ls s -> Forall nofail ls -> Inv z0 s.
Proof. intros R F. exact (run_inv ls _ _ (inv_init nt) F R). Qed.
