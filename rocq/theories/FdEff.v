(** * What one step changes. *)
From Verif Require Import Base Fd FdInv FdStep.

Fixpoint ends (o : nat) (h : list event) : nat :=
  match h with
  | [] => 0%nat
  | EClose o' :: h' | EDel o' :: h' => ((if (o' =? o)%nat then 1 else 0) + ends o h')%nat
  | _ :: h' => ends o h'
  end.
Definition quietev (e : event) : bool := match e with EClose _ | EDel _ | EAdd _ _ _ => false | _ => true end.
Definition cb_of (e : event) : bool := match e with ECb _ _ _ => true | _ => false end.
Definition same (s s' : st) : Prop := length (objs s') = length (objs s) /\ (forall o, core (ob s' o) = core (ob s o)) /\ (forall n, tab s' n = tab s n).
(** Changes of the table and of the objects. *)
Inductive keff (s s' : st) (l : label) : Prop :=
| k_same : same s s' -> (exists e, log s' = e ++ log s /\ forallb quietev e = true) -> keff s s' l
| k_add t n : l = LAdd t n -> tab s n = None -> 0 <= n -> length (objs s') = S (length (objs s)) ->
    core (ob s' (length (objs s))) = (n, n, t, false) -> (forall o, (o < length (objs s))%nat -> core (ob s' o) = core (ob s o)) ->
    (forall x, tab s' x = if x =? n then Some (length (objs s)) else tab s x) -> log s' = log s -> keff s s' l
| k_link t o r : stk s t = FAdd o :: r -> l = LAddOk t -> length (objs s') = length (objs s) ->
    (forall a, core (ob s' a) = if (a =? o)%nat then (o_num (ob s o), o_fd (ob s o), o_q (ob s o), true) else core (ob s a)) ->
    (forall n, tab s' n = tab s n) -> log s' = EAdd o t (o_num (ob s o)) :: log s -> keff s s' l
| k_end o b : (o < length (objs s))%nat -> tab s (o_fd (ob s o)) = Some o -> o_linked (ob s o) = true -> length (objs s') = length (objs s) ->
    (forall a, core (ob s' a) = if (a =? o)%nat then (o_num (ob s o), if b : bool then INVALID else o_fd (ob s o), o_q (ob s o), false) else core (ob s a)) ->
    (forall n, tab s' n = if n =? o_fd (ob s o) then None else tab s n) ->
    (exists e1 e2, log s' = e1 ++ (if b then EClose o else EDel o) :: e2 ++ log s /\ forallb quietev e1 = true /\ forallb quietev e2 = true /\ forallb cb_of (filter cb_of (e1 ++ e2)) = true /\ filter cb_of (e1 ++ e2) = []) ->
    (b = false -> exists t r, stk s t = FOp ODel o false :: r) -> keff s s' l
| k_miss o : (o < length (objs s))%nat -> tab s (o_fd (ob s o)) <> Some o -> length (objs s') = length (objs s) -> (forall a, core (ob s' a) = core (ob s a)) ->
    (forall n, tab s' n = if n =? o_fd (ob s o) then None else tab s n) -> (exists e, log s' = e ++ log s /\ forallb quietev e = true) -> keff s s' l.
(** Changes of the stacks and batches. *)
Inductive seff (s s' : st) (l : label) (t : nat) : Prop :=
| s_id : stk s' t = stk s t -> filter cb_of (log s') = filter cb_of (log s) -> (bts s' t = bts s t \/ (exists b, bts s' t = b /\ l = LPoll t b /\ forallb (watched s t) b = true) \/ (exists n, bts s t = n :: bts s' t)) -> seff s s' l t
| s_add : stk s' t = FAdd (length (objs s)) :: stk s t -> filter cb_of (log s') = filter cb_of (log s) -> bts s' t = bts s t -> seff s s' l t
| s_pop f : stk s t = f :: stk s' t -> refs f = true -> filter cb_of (log s') = filter cb_of (log s) -> bts s' t = bts s t -> seff s s' l t
| s_op c o n : l = LCall t c n -> stk s' t = FOp c o false :: stk s t -> tab s n = Some o -> filter cb_of (log s') = filter cb_of (log s) -> bts s' t = bts s t -> seff s s' l t
| s_done c o r : stk s t = FOp c o false :: r -> stk s' t = FOp c o true :: r -> filter cb_of (log s') = filter cb_of (log s) -> bts s' t = bts s t -> seff s s' l t
| s_disp o p n : stk s t = [] -> stk s' t = [FDisp o p] -> bts s t = n :: bts s' t -> tab s n = Some o -> filter cb_of (log s') = filter cb_of (log s) -> seff s s' l t
| s_tmo o : stk s t = [] -> stk s' t = [FDisp o PE] -> o_linked (ob s o) = true -> o_q (ob s o) = t -> filter cb_of (log s') = filter cb_of (log s) -> bts s' t = bts s t -> seff s s' l t
| s_cb o p k r : stk s t = FDisp o p :: r -> stk s' t = FCb o k :: FDisp o p :: r -> may p k (valid s o) = true -> filter cb_of (log s') = ECb t o k :: filter cb_of (log s) -> bts s' t = bts s t -> seff s s' l t
| s_ret o' o p k r : stk s t = FCb o' k :: FDisp o p :: r -> stk s' t = FDisp o (after p k (valid s o)) :: r -> filter cb_of (log s') = filter cb_of (log s) -> bts s' t = bts s t -> seff s s' l t
| s_mv o p p' r : stk s t = FDisp o p :: r -> stk s' t = FDisp o p' :: r -> moves p p' (valid s o) = true \/ (p = PC /\ p' = PX) -> filter cb_of (log s') = filter cb_of (log s) -> bts s' t = bts s t -> seff s s' l t.

(** ** The pieces *)
Lemma log_getref ex s o : Inv ex s -> (o < length (objs s))%nat -> 1 <= o_use (ob s o) -> log (getref o s) = log s.
Proof. intros H L U. rewrite (getref_eq _ _ _ H L U). reflexivity. Qed.
Lemma log_putref o s : exists e, log (putref o s) = e ++ log s /\ forallb quietev e = true /\ filter cb_of e = [].
Proof.
  unfold putref, touch. destruct (o_freed (ob s o)); destruct (_ =? _); cbn [note seto log].
  - exists [EFree o; EBad o]. auto.
  - exists [EBad o]. auto.
  - exists [EFree o]. auto.
  - exists []. auto.
Qed.
Lemma same_put s o : same s (putref o s).
Proof. split; [apply len_putref|]. split; [intros; apply core_putref|]. intros. rewrite tab_putref. reflexivity. Qed.
Lemma same_get s o : same s (getref o s).
Proof. split; [apply len_getref|]. split; [intros; apply core_getref|]. intros. rewrite tab_getref. reflexivity. Qed.
Lemma same_trans a b c : same a b -> same b c -> same a c.
Proof. intros (A1 & A2 & A3) (B1 & B2 & B3). split; [congruence|]. split; intros; [rewrite B2|rewrite B3]; auto. Qed.
Lemma same_refl s : same s s. Proof. split; [reflexivity|]. split; reflexivity. Qed.
Lemma core_q x y : core x = core y -> o_q x = o_q y. Proof. unfold core. congruence. Qed.
Lemma core_fd x y : core x = core y -> o_fd x = o_fd y. Proof. unfold core. congruence. Qed.
Lemma core_num x y : core x = core y -> o_num x = o_num y. Proof. unfold core. congruence. Qed.
Lemma core_lk x y : core x = core y -> o_linked x = o_linked y. Proof. unfold core. congruence. Qed.

Lemma del_eff ex s w o s' ok : Inv ex s -> (o < length (objs s))%nat -> 1 <= total o s + ex o -> (forall a, ~ In (FAdd a) (stk s w)) -> q_del_f w o s = (s', ok) ->
  (ok = false /\ s' = s) \/
  (ok = false /\ tab s (o_fd (ob s o)) <> Some o /\ s' = tabset (o_fd (ob s o)) None s) \/
  (ok = true /\ tab s (o_fd (ob s o)) = Some o /\ o_linked (ob s o) = true /\ length (objs s') = length (objs s) /\
   (forall a, core (ob s' a) = if (a =? o)%nat then (o_num (ob s o), o_fd (ob s o), o_q (ob s o), false) else core (ob s a)) /\
   (forall n, tab s' n = if n =? o_fd (ob s o) then None else tab s n) /\
   exists e, log s' = e ++ log s /\ forallb quietev e = true /\ filter cb_of e = []).
Proof.
  intros H L T A E. assert (U : 1 <= o_use (ob s o)) by (rewrite (i_cnt _ _ H _ L); destruct (o_linked _); cbn [b2z]; lia).
  unfold q_del_f in E. rewrite (touch_ok _ _ _ H L U) in E. destruct (o_q (ob s o) =? w)%nat eqn:Q; cbn [negb] in E; [|left; split; congruence]. right.
  apply Nat.eqb_eq in Q. unfold remove_fd in E. set (n := o_fd (ob s o)) in *. destruct (match tab s n with Some o' => (o' =? o)%nat | None => false end) eqn:M.
  2:{ left. split; [congruence|]. split; [|congruence]. intros C. rewrite C, Nat.eqb_refl in M. discriminate. }
  right. destruct (tab s n) as [o'|] eqn:Tn; [|discriminate]. apply Nat.eqb_eq in M. subst o'. destruct (i_tab _ _ H _ _ Tn) as (N0 & _ & _ & Lk).
  assert (Lk' : o_linked (ob s o) = true) by (destruct Lk as [Lk|Lk]; [exact Lk|rewrite Q in Lk; destruct (A o Lk)]).
  set (s1 := tabset n None s) in *. change (ob s1 o) with (ob s o) in E. set (x := mkO _ _ _ _ _ _) in E. assert (s' = putref o (seto o x s1) /\ ok = true) as [-> ->] by (split; congruence).
  split; [reflexivity|]. split; [reflexivity|]. split; [exact Lk'|]. split; [rewrite len_putref, len_seto; reflexivity|]. split; [|split].
  - intros a. rewrite core_putref, ob_seto. change (length (objs s1)) with (length (objs s)). apply Nat.ltb_lt in L. rewrite L, andb_true_r. destruct (a =? o)%nat; reflexivity.
  - intros m. rewrite tab_putref. reflexivity.
  - apply (log_putref o (seto o x s1)).
Qed.
Lemma close_eff ex s w o : Inv ex s -> (o < length (objs s))%nat -> 1 <= o_use (ob s o) -> (forall a, ~ In (FAdd a) (stk s w)) ->
  let s' := close_f w o s in
  (same s s' /\ exists e, log s' = e ++ log s /\ forallb quietev e = true /\ filter cb_of e = []) \/
  (tab s (o_fd (ob s o)) <> Some o /\ length (objs s') = length (objs s) /\ (forall a, core (ob s' a) = core (ob s a)) /\ (forall n, tab s' n = if n =? o_fd (ob s o) then None else tab s n) /\ exists e, log s' = e ++ log s /\ forallb quietev e = true /\ filter cb_of e = []) \/
  (tab s (o_fd (ob s o)) = Some o /\ o_linked (ob s o) = true /\ length (objs s') = length (objs s) /\
   (forall a, core (ob s' a) = if (a =? o)%nat then (o_num (ob s o), INVALID, o_q (ob s o), false) else core (ob s a)) /\
   (forall n, tab s' n = if n =? o_fd (ob s o) then None else tab s n) /\
   exists e1 e2, log s' = e1 ++ EClose o :: e2 ++ log s /\ forallb quietev e1 = true /\ forallb quietev e2 = true /\ filter cb_of (e1 ++ e2) = []).
Proof.
  intros H L U A s'. pose proof (getref_ok _ _ _ H L U) as H1. assert (E1 : 1 <= exu ex o 1 o) by (unfold exu; rewrite Nat.eqb_refl; pose proof (proj1 (i_ex _ _ H o)); lia).
  assert (B1 : forall a, ~ In (FAdd a) (stk (getref o s) w)) by (intros a; unfold stk; rewrite ths_getref; apply A).
  unfold s', close_f. destruct (q_del_f w o (getref o s)) as [s2 ok] eqn:D. assert (L1 : (o < length (objs (getref o s)))%nat) by (rewrite len_getref; exact L).
  pose proof (log_getref _ _ _ H L U) as Lg. pose proof (core_getref o s) as Cg. pose proof (core_fd _ _ (Cg o)) as Fg. pose proof (tab_getref o s) as Tg.
  destruct (del_eff _ _ _ _ _ _ H1 L1 ltac:(pose proof (total_nn (getref o s) o); lia) B1 D) as [[-> ->]|[(-> & Ms & ->)|(-> & Ms & Lk & Ln & Co & Tb & e & Le & Qe & Ce)]].
  - left. split; [eapply same_trans; [apply same_get|apply same_put]|]. destruct (log_putref o (getref o s)) as (e & X & Y). exists e. rewrite Lg in X. auto.
  - right. left. rewrite Fg, Tg in *. split; [exact Ms|]. split; [rewrite len_putref; exact (len_getref o s)|]. split; [intros a; rewrite core_putref; apply (Cg a)|].
    split; [intros n; rewrite tab_putref; cbn [tabset tab]; rewrite Tg; reflexivity|]. destruct (log_putref o (tabset (o_fd (ob s o)) None (getref o s))) as (e & X & Y). exists e. cbn [tabset log] in X. rewrite Lg in X. auto.
  - right. right. pose proof (core_num _ _ (Cg o)) as Ng. pose proof (core_q _ _ (Cg o)) as Qg. pose proof (core_lk _ _ (Cg o)) as Kg. rewrite Fg, Ng, Qg in *. rewrite Tg in Ms. rewrite Kg in Lk.
    split; [exact Ms|]. split; [exact Lk|]. set (x := mkO _ _ _ _ _ _). rewrite len_getref in Ln. split; [rewrite len_putref; cbn [note objs]; rewrite len_seto; exact Ln|]. split; [|split].
    + intros a. rewrite core_putref. change (ob (note (EClose o) (seto o x s2)) a) with (ob (seto o x s2) a). rewrite ob_seto. rewrite Ln. apply Nat.ltb_lt in L. rewrite L, andb_true_r. specialize (Co o) as Coo. rewrite Nat.eqb_refl in Coo.
      destruct (a =? o)%nat eqn:B; [|rewrite Co, B; apply Cg]. unfold x, core in *. cbn [o_num o_fd o_q o_linked]. congruence.
    + intros n. rewrite tab_putref. cbn [note tab seto]. rewrite Tb, Tg. reflexivity.
    + destruct (log_putref o (note (EClose o) (seto o x s2))) as (e1 & X & Y1 & Y2). cbn [note log seto] in X. rewrite Le, Lg in X. exists e1, e. split; [exact X|]. rewrite filter_app, Y2, Ce. auto.
Qed.
Lemma cb_nil e h : filter cb_of e = [] -> filter cb_of (e ++ h) = filter cb_of h. Proof. intros E. rewrite filter_app, E. reflexivity. Qed.
Lemma stk_ne s s1 t l t' : ths s1 = ths s -> t' <> t -> stk (sett t l s1) t' = stk s t'.
Proof. intros E D. rewrite stk_sett, (proj2 (Nat.eqb_neq _ _) D). cbn [andb]. unfold stk. rewrite E. reflexivity. Qed.
Lemma stk_eq s1 t l : (t < length (ths s1))%nat -> stk (sett t l s1) t = l.
Proof. intros H. rewrite stk_sett, Nat.eqb_refl. apply Nat.ltb_lt in H. rewrite H. reflexivity. Qed.
Lemma same_sett s1 s2 t l : same s1 s2 -> same s1 (sett t l s2). Proof. intros H. exact H. Qed.
Lemma same_note s1 s2 e : same s1 s2 -> same s1 (note e s2). Proof. intros H. exact H. Qed.
Lemma same_setb s1 s2 t b : same s1 s2 -> same s1 (setb t b s2). Proof. intros H. exact H. Qed.
Lemma setb_ne s t b t' : t' <> t -> bts (setb t b s) t' = bts s t'. Proof. intros D. cbn [setb bts]. rewrite (proj2 (Nat.eqb_neq _ _) D). reflexivity. Qed.
Lemma setb_eq s t b : bts (setb t b s) t = b. Proof. cbn [setb bts]. rewrite Nat.eqb_refl. reflexivity. Qed.

Lemma step_eff s l s' : Inv z0 s -> nofail l -> step s l = Some s' ->
  keff s s' l /\ (forall t, t <> who l -> stk s' t = stk s t /\ bts s' t = bts s t) /\ seff s s' l (who l).
Proof.
  intros H Nf E. unfold step in E. destruct (who l <? length (ths s))%nat eqn:W; [|discriminate]. apply Nat.ltb_lt in W. cbn [negb] in E.
  destruct l as [t n|t|t|t c n|t w|t|t|t b|t p|t o|t k|t|t p'|t|t]; cbn [who] in *.
  - destruct (user s t) eqn:Us; [|discriminate]. destruct (0 <=? n) eqn:N0; [|discriminate]. cbn [andb] in E. destruct (tab s n) as [o|] eqn:Tn; injection E as <-.
    { split; [apply k_same; [apply same_note, same_refl|exists [EBusy n]; auto]|]. split; [auto|]. apply s_id; auto. }
    set (o := length (objs s)). set (x := mkO n n t 1 false false).
    set (s1 := tabset n (Some o) (mkS (objs s ++ [x]) (tab s) (ths s) (bts s) (log s))).
    split; [|split].
    + eapply (k_add _ _ _ t n); auto; [lia|cbn [sett objs s1 tabset]; rewrite app_length; cbn [length]; lia| |].
      * unfold ob. cbn [sett objs s1 tabset]. rewrite app_nth2, Nat.sub_diag by lia. reflexivity.
      * intros a La. unfold ob. cbn [sett objs s1 tabset]. rewrite app_nth1 by exact La. reflexivity.
    + intros t' D. split; [apply stk_ne; auto|reflexivity].
    + apply s_add; auto. apply stk_eq. exact W.
  - destruct (stk s t) as [|[o| | |] r] eqn:Sk; try discriminate. assert (Hi : In (FAdd o) (stk s t)) by (rewrite Sk; left; reflexivity). pose proof (held_touch _ _ _ _ H Hi eq_refl) as Tc. cbn [fobj] in Tc. rewrite Tc in E. injection E as <-.
    pose proof (i_frm _ _ H _ _ Hi) as L. cbn [fobj] in L. set (x := mkO _ _ _ _ _ _). split; [|split].
    + eapply (k_link _ _ _ t o r); auto; [cbn [note sett objs seto]; apply upd_length|]. intros a. change (core (ob (seto o x s) a) = if (a =? o)%nat then (o_num (ob s o), o_fd (ob s o), o_q (ob s o), true) else core (ob s a)). rewrite ob_seto. apply Nat.ltb_lt in L. rewrite L, andb_true_r. destruct (a =? o)%nat; reflexivity.
    + intros t' D. split; [exact (stk_ne s (seto o x s) t r t' eq_refl D)|reflexivity].
    + eapply (s_pop _ _ _ _ (FAdd o)); auto. change (stk s t = FAdd o :: stk (sett t r (seto o x s)) t). rewrite stk_eq by exact W. exact Sk.
  - destruct (Nf t eq_refl).
  - destruct (user s t) eqn:Us; [|discriminate]. destruct (tab s n) as [o|] eqn:Tn; injection E as <-.
    2:{ split; [apply k_same; [apply same_refl|exists []; auto]|]. split; [auto|]. apply s_id; auto. }
    destruct (i_tab _ _ H _ _ Tn) as (_ & L & _). pose proof (tab_use _ _ _ _ H Tn) as U. pose proof (log_getref _ _ _ H L U) as Lg. split; [|split].
    + apply k_same; [apply same_sett, same_get|]. exists []. cbn [sett log]. auto.
    + intros t' D. split; [apply stk_ne; [apply ths_getref|exact D]|]. cbn [sett bts]. rewrite bts_getref. reflexivity.
    + eapply (s_op _ _ _ _ c o n); auto; [apply stk_eq; rewrite ths_getref; exact W|cbn [sett log]; rewrite Lg; reflexivity|cbn [sett bts]; rewrite bts_getref; reflexivity].
  - destruct (stk s t) as [|[| | |c o []] r] eqn:Sk; try discriminate. assert (Hi : In (FOp c o false) (stk s t)) by (rewrite Sk; left; reflexivity). pose proof (held_touch _ _ _ _ H Hi eq_refl) as Tc. cbn [fobj] in Tc. rewrite Tc in E.
    destruct (o_q (ob s o) =? w)%nat eqn:Q; [|discriminate]. cbn [andb] in E. destruct ((w =? t)%nat || (w <? length (ths s))%nat && user s w) eqn:Ow; [|discriminate]. injection E as <-.
    assert (Na : forall a, ~ In (FAdd a) (stk s w)).
    { destruct (Nat.eqb_spec w t) as [->|D]; [apply (hd_noadd z0); [exact H|rewrite Sk; auto]|]. cbn [orb] in Ow. apply andb_prop in Ow. destruct Ow as [_ Ow]. eapply user_noadd; eassumption. }
    pose proof (i_frm _ _ H _ _ Hi) as L. cbn [fobj] in L. pose proof (holds_in o _ _ Hi eq_refl eq_refl). pose proof (hold_total s t o). pose proof (held_use _ _ _ _ H Hi eq_refl) as U. cbn [fobj] in U.
    destruct (exec_ok z0 s w o c H L ltac:(lia) Na) as (H2 & L2 & T2 & B2).
    assert (Sides : filter cb_of (log (exec c w o s)) = filter cb_of (log s) -> (forall t', t' <> t -> stk (sett t (FOp c o true :: r) (exec c w o s)) t' = stk s t' /\ bts (sett t (FOp c o true :: r) (exec c w o s)) t' = bts s t') /\ seff s (sett t (FOp c o true :: r) (exec c w o s)) (LExec t w) t).
    { intros Cb. split; [intros t' D; split; [apply stk_ne; assumption|cbn [sett bts]; rewrite B2; reflexivity]|]. eapply (s_done _ _ _ _ c o r); auto; [apply stk_eq; rewrite T2; exact W|cbn [sett bts]; rewrite B2; reflexivity]. }
    destruct c; unfold exec in *.
    + destruct (close_eff z0 s w o H L U Na) as [(Sm & e & Le & Qe & Ce)|[(Ms & Ln & Co & Tb & e & Le & Qe & Ce)|(Ms & Lk & Ln & Co & Tb & e1 & e2 & Le & Q1 & Q2 & Ce)]].
      * split; [apply k_same; [apply same_sett, Sm|exists e; auto]|]. apply Sides. rewrite Le. apply cb_nil, Ce.
      * split; [apply (k_miss _ _ _ o); auto; exists e; auto|]. apply Sides. rewrite Le. apply cb_nil, Ce.
      * split; [apply (k_end _ _ _ o true); auto; [exists e1, e2; rewrite Ce; auto|discriminate]|]. apply Sides. rewrite Le, filter_app. cbn [filter cb_of]. rewrite filter_app, app_assoc, <- filter_app, Ce. reflexivity.
    + destruct (q_del_f w o s) as [s2 ok] eqn:D. destruct (del_eff _ _ _ _ _ _ H L ltac:(unfold z0; lia) Na D) as [[-> ->]|[(-> & Ms & ->)|(-> & Ms & Lk & Ln & Co & Tb & e & Le & Qe & Ce)]].
      * split; [apply k_same; [apply same_sett, same_refl|exists []; auto]|]. apply Sides. reflexivity.
      * split; [apply (k_miss _ _ _ o); auto; exists []; auto|]. apply Sides. reflexivity.
      * split; [apply (k_end _ _ _ o false); auto; [|intros _; exists t, r; exact Sk]|].
        -- exists [], e. cbn [app]. rewrite Ce. cbn [sett note log]. rewrite Le. auto.
        -- apply Sides. cbn [note log filter cb_of]. rewrite Le. apply cb_nil, Ce.
    + rewrite Tc in *. split; [apply k_same; [apply same_sett, same_refl|exists []; auto]|]. apply Sides. reflexivity.
  - destruct (stk s t) as [|[| | |c o []] r] eqn:Sk; try discriminate. assert (Hi : In (FOp c o false) (stk s t)) by (rewrite Sk; left; reflexivity). pose proof (held_touch _ _ _ _ H Hi eq_refl) as Tc. cbn [fobj] in Tc. rewrite Tc in E. injection E as <-.
    split; [apply k_same; [apply same_sett, same_refl|exists []; auto]|]. split; [intros t' D; split; [apply stk_ne; auto|reflexivity]|]. eapply (s_done _ _ _ _ c o r); auto. apply stk_eq. exact W.
  - destruct (stk s t) as [|[| | |c o []] r] eqn:Sk; try discriminate. injection E as <-. destruct (log_putref o s) as (e & Le & Qe & Ce).
    split; [apply k_same; [apply same_sett, same_put|exists e; auto]|]. split; [intros t' D; split; [apply stk_ne; [apply ths_putref|exact D]|cbn [sett bts]; rewrite bts_putref; reflexivity]|].
    eapply (s_pop _ _ _ _ (FOp c o true)); auto; [rewrite stk_eq by (rewrite ths_putref; exact W); exact Sk|cbn [sett log]; rewrite Le; apply cb_nil, Ce|cbn [sett bts]; rewrite bts_putref; reflexivity].
  - destruct (stk s t) eqn:Sk; [|discriminate]. destruct (bts s t) eqn:Bt; [|discriminate]. destruct (forallb _ b) eqn:Fb; [|discriminate]. injection E as <-.
    split; [apply k_same; [apply same_setb, same_refl|exists []; auto]|]. split; [intros t' D; split; [reflexivity|apply setb_ne; exact D]|]. apply s_id; auto. right. left. exists b. rewrite setb_eq. auto.
  - destruct (stk s t) eqn:Sk; [|discriminate]. destruct (bts s t) as [|n b] eqn:Bt; [discriminate|]. destruct (tab s n) as [o|] eqn:Tn.
    2:{ injection E as <-. split; [apply k_same; [apply same_setb, same_refl|exists []; auto]|]. split; [intros t' D; split; [reflexivity|apply setb_ne; exact D]|]. apply s_id; auto. right. right. exists n. rewrite setb_eq. exact Bt. }
    destruct (i_tab _ _ H _ _ Tn) as (_ & L & _). pose proof (tab_use _ _ _ _ H Tn) as U. pose proof (log_getref _ (setb t b s) _ (setb_ok _ _ t b H) L U) as Lg. change (log (setb t b s)) with (log s) in Lg.
    assert (G : forall q, keff s (sett t [FDisp o q] (getref o (setb t b s))) (LDisp t p) /\ (forall t', t' <> t -> stk (sett t [FDisp o q] (getref o (setb t b s))) t' = stk s t' /\ bts (sett t [FDisp o q] (getref o (setb t b s))) t' = bts s t') /\ seff s (sett t [FDisp o q] (getref o (setb t b s))) (LDisp t p) t).
    { intros q. split; [apply k_same; [apply same_sett; exact (same_get (setb t b s) o)|exists []; auto]|]. split; [intros t' D; split; [apply (stk_ne s); [exact (ths_getref o (setb t b s))|exact D]|cbn [sett bts]; rewrite bts_getref; apply setb_ne; exact D]|].
      eapply (s_disp _ _ _ _ o q n); auto; [apply stk_eq; rewrite ths_getref; exact W|cbn [sett bts]; rewrite bts_getref, setb_eq; exact Bt|cbn [sett log]; rewrite Lg; reflexivity]. }
    destruct p; try discriminate; injection E as <-; apply G.
  - destruct (stk s t) eqn:Sk; [|discriminate]. destruct (bts s t) eqn:Bt; [|discriminate]. destruct ((o <? length (objs s))%nat && o_linked (ob s o) && (o_q (ob s o) =? t)%nat) eqn:C; [|discriminate]. injection E as <-.
    apply andb_prop in C. destruct C as [C C3]. apply andb_prop in C. destruct C as [C1 C2]. apply Nat.ltb_lt in C1. apply Nat.eqb_eq in C3.
    assert (U : 1 <= o_use (ob s o)). { rewrite (i_cnt _ _ H _ C1), C2. cbn [b2z]. pose proof (total_nn s o). unfold z0. lia. } pose proof (log_getref _ _ _ H C1 U) as Lg.
    split; [apply k_same; [apply same_sett, same_get|exists []; auto]|]. split; [intros t' D; split; [apply stk_ne; [apply ths_getref|exact D]|cbn [sett bts]; rewrite bts_getref; reflexivity]|].
    eapply (s_tmo _ _ _ _ o); auto; [apply stk_eq; rewrite ths_getref; exact W|cbn [sett log]; rewrite Lg; reflexivity|cbn [sett bts]; rewrite bts_getref; reflexivity].
  - destruct (stk s t) as [|[|o p| |] r] eqn:Sk; try discriminate. assert (Hi : In (FDisp o p) (stk s t)) by (rewrite Sk; left; reflexivity). pose proof (held_touch _ _ _ _ H Hi eq_refl) as Tc. cbn [fobj] in Tc. rewrite Tc in E.
    destruct (may p k (valid s o)) eqn:My; [|discriminate]. injection E as <-. split; [apply k_same; [apply same_note, same_sett, same_refl|exists [ECb t o k]; auto]|]. split; [intros t' D; split; [exact (stk_ne s s t _ t' eq_refl D)|reflexivity]|].
    eapply (s_cb _ _ _ _ o p k r); auto. exact (stk_eq s t _ W).
  - destruct (stk s t) as [|[| |o' k|] [|[|o p| |] r]] eqn:Sk; try discriminate. assert (Hi : In (FDisp o p) (stk s t)) by (rewrite Sk; right; left; reflexivity). pose proof (held_touch _ _ _ _ H Hi eq_refl) as Tc. cbn [fobj] in Tc. rewrite Tc in E. injection E as <-.
    split; [apply k_same; [apply same_sett, same_refl|exists []; auto]|]. split; [intros t' D; split; [apply stk_ne; auto|reflexivity]|]. eapply (s_ret _ _ _ _ o' o p k r); auto. apply stk_eq. exact W.
  - destruct (stk s t) as [|[|o p| |] r] eqn:Sk; try discriminate. assert (Hi : In (FDisp o p) (stk s t)) by (rewrite Sk; left; reflexivity). pose proof (held_touch _ _ _ _ H Hi eq_refl) as Tc. cbn [fobj] in Tc. rewrite Tc in E.
    destruct (moves p p' (valid s o)) eqn:Mv; [|discriminate]. injection E as <-. split; [apply k_same; [apply same_sett, same_refl|exists []; auto]|]. split; [intros t' D; split; [apply stk_ne; auto|reflexivity]|]. eapply (s_mv _ _ _ _ o p p' r); auto. apply stk_eq. exact W.
  - destruct (stk s t) as [|[|o []| |] r] eqn:Sk; try discriminate. assert (Hi : In (FDisp o PC) (stk s t)) by (rewrite Sk; left; reflexivity). pose proof (held_touch _ _ _ _ H Hi eq_refl) as Tc. cbn [fobj] in Tc. rewrite Tc in E. injection E as <-.
    destruct (valid s o).
    2:{ split; [apply k_same; [apply same_sett, same_refl|exists []; auto]|]. split; [intros t' D; split; [apply stk_ne; auto|reflexivity]|]. eapply (s_mv _ _ _ _ o PC PX r); auto. apply stk_eq. exact W. }
    pose proof (i_frm _ _ H _ _ Hi) as L. pose proof (held_use _ _ _ _ H Hi eq_refl) as U. cbn [fobj] in L, U. assert (Na : forall a, ~ In (FAdd a) (stk s t)) by (apply (hd_noadd z0); [exact H|rewrite Sk; auto]).
    destruct (close_ok z0 s t o H L U Na) as (H2 & L2 & T2 & B2).
    assert (Sides : filter cb_of (log (close_f t o s)) = filter cb_of (log s) -> (forall t', t' <> t -> stk (sett t (FDisp o PX :: r) (close_f t o s)) t' = stk s t' /\ bts (sett t (FDisp o PX :: r) (close_f t o s)) t' = bts s t') /\ seff s (sett t (FDisp o PX :: r) (close_f t o s)) (LClose t) t).
    { intros Cb. split; [intros t' D; split; [apply stk_ne; assumption|cbn [sett bts]; rewrite B2; reflexivity]|]. eapply (s_mv _ _ _ _ o PC PX r); auto; [apply stk_eq; rewrite T2; exact W|cbn [sett bts]; rewrite B2; reflexivity]. }
    destruct (close_eff z0 s t o H L U Na) as [(Sm & e & Le & Qe & Ce)|[(Ms & Ln & Co & Tb & e & Le & Qe & Ce)|(Ms & Lk & Ln & Co & Tb & e1 & e2 & Le & Q1 & Q2 & Ce)]].
    + split; [apply k_same; [apply same_sett, Sm|exists e; auto]|]. apply Sides. rewrite Le. apply cb_nil, Ce.
    + split; [apply (k_miss _ _ _ o); auto; exists e; auto|]. apply Sides. rewrite Le. apply cb_nil, Ce.
    + split; [apply (k_end _ _ _ o true); auto; [exists e1, e2; rewrite Ce; auto|discriminate]|]. apply Sides. rewrite Le, filter_app. cbn [filter cb_of]. rewrite filter_app, app_assoc, <- filter_app, Ce. reflexivity.
  - destruct (stk s t) as [|[|o []| |] r] eqn:Sk; try discriminate. injection E as <-. destruct (log_putref o s) as (e & Le & Qe & Ce).
    split; [apply k_same; [apply same_sett, same_put|exists e; auto]|]. split; [intros t' D; split; [apply stk_ne; [apply ths_putref|exact D]|cbn [sett bts]; rewrite bts_putref; reflexivity]|].
    eapply (s_pop _ _ _ _ (FDisp o PX)); auto; [rewrite stk_eq by (rewrite ths_putref; exact W); exact Sk|cbn [sett log]; rewrite Le; apply cb_nil, Ce|cbn [sett bts]; rewrite bts_putref; reflexivity].
Qed.
