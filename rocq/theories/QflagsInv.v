(** * Invariants of the model of queue flags (Qflags.v). *)
From Verif Require Import Base Qflags QflagsSpec.

Definition good (fl : Z) (e : event) (l : list event) : Prop :=
  match e with
  | ERet p op b r => r = 0 /\ changed p op b l
  | EGot p v => seen fl p v l
  | EKick h | EWait h => h = use (made fl) (value fl l)
  | EAdd ok => ok = negb (Z.testbit (value fl l) 1)
  | EDestroy _ ok => ok = negb (Z.testbit (value fl l) 31)
  | _ => True
  end.
Fixpoint allok (fl : Z) (l : list event) : Prop := match l with [] => True | e :: l => good fl e l /\ allok fl l end.
Lemma allok_at fl l1 e l2 : allok fl (l1 ++ e :: l2) -> good fl e l2.
Proof. induction l1 as [|x l1 IH]; cbn; intuition. Qed.
Definition called (p : nat) (op : bitop) (b : Z) (l : list event) : Prop := exists y n, l = y ++ ECall p op b :: n /\ quiet p y.
Definition asked (p : nat) (l : list event) : Prop := exists y n, l = y ++ EAsk p :: n /\ quiet p y.
Definition holds (x : tpc) : bool := match x with TIn _ _ | TGot _ _ _ | TDone _ _ | TRIn | TRGot _ => true | _ => false end.
Definition pcok (fl : Z) (s : st) (p : nat) : Prop :=
  match pc s p with
  | TIdle => True
  | TCall op b | TIn op b => called p op b (log s)
  | TGot op b v => called p op b (log s) /\ v = flags s
  | TDone op b | TRet op b => changed p op b (log s)
  | TRCall | TRIn => asked p (log s)
  | TRGot v | TRRet v => seen fl p v (log s)
  end.
Record Inv (fl : Z) (s : st) : Prop := {
  i_val : flags s = value fl (log s);
  i_sigp : sigp s = made fl;
  i_lock : forall p, holds (pc s p) = true <-> lock s = Some p;
  i_pc : forall p, pcok fl s p;
  i_ok : allok fl (log s) }.

Lemma upd_eq {A} (f : nat -> A) k v : upd f k v k = v.
Proof. unfold upd. rewrite Nat.eqb_refl. reflexivity. Qed.
Lemma upd_neq {A} (f : nat -> A) k v x : x <> k -> upd f k v x = f x.
Proof. unfold upd. intros H. apply Nat.eqb_neq in H. rewrite H. reflexivity. Qed.
Lemma quiet_app p a b : quiet p a -> quiet p b -> quiet p (a ++ b).
Proof. intros A B op c. rewrite !in_app_iff. specialize (A op c). specialize (B op c). tauto. Qed.
Lemma quiet_nil p : quiet p [].
Proof. intros op c. cbn. tauto. Qed.
Lemma pcok_ext fl s s' p e : pcok fl s p -> pc s' p = pc s p -> log s' = e ++ log s -> quiet p e -> (holds (pc s p) = true -> flags s' = flags s) -> pcok fl s' p.
Proof.
  unfold pcok. intros K E L Q V. rewrite E, L. 
  assert (C1 : forall op b, called p op b (log s) -> called p op b (e ++ log s)).
  { intros op b (y & n & -> & Y). exists (e ++ y), n. split; [apply app_assoc|apply quiet_app; assumption]. }
  assert (C2 : asked p (log s) -> asked p (e ++ log s)).
  { intros (y & n & -> & Y). exists (e ++ y), n. split; [apply app_assoc|apply quiet_app; assumption]. }
  assert (C3 : forall op b, changed p op b (log s) -> changed p op b (e ++ log s)).
  { intros op b (x & y & n & -> & X & Y). exists (e ++ x), y, n. split; [apply app_assoc|]. split; [apply quiet_app|]; assumption. }
  assert (C4 : forall v, seen fl p v (log s) -> seen fl p v (e ++ log s)).
  { intros v (x & y & n & -> & X & Y & V'). exists (e ++ x), y, n. split; [apply app_assoc|]. split; [apply quiet_app; assumption|]. split; assumption. }
  destruct (pc s p); cbn [holds] in V; auto. destruct K as [K1 K2]. split; [auto|]. rewrite V by reflexivity. exact K2.
Qed.
Lemma inv_goto fl s p x lk v e : Inv fl s -> (forall p', p' <> p -> quiet p' e) -> v = value fl (e ++ log s) -> allok fl (e ++ log s) ->
  (holds (pc s p) = true -> holds x = true -> lk = lock s) -> (holds (pc s p) = false -> holds x = false -> lk = lock s) ->
  (holds (pc s p) = false -> holds x = true -> lock s = None /\ lk = Some p) -> (holds (pc s p) = true -> holds x = false -> lk = None) ->
  (v = flags s \/ holds (pc s p) = true) -> pcok fl (goto s p x lk v e) p -> Inv fl (goto s p x lk v e).
Proof.
  intros I Q V A L1 L2 L3 L4 F P. destruct I. split; cbn [goto flags sigp lock pc log]; auto.
  - intros p'. destruct (Nat.eq_dec p' p) as [-> |D].
    + rewrite upd_eq. pose proof (i_lock0 p) as K. destruct (holds (pc s p)) eqn:H1, (holds x) eqn:H2.
      * rewrite L1 by reflexivity. tauto.
      * rewrite L4 by reflexivity. split; discriminate.
      * destruct L3 as [_ ->]; auto. tauto.
      * rewrite L2 by reflexivity. tauto.
    + rewrite upd_neq by exact D. pose proof (i_lock0 p) as K. pose proof (i_lock0 p') as K'. destruct (holds (pc s p)) eqn:H1, (holds x) eqn:H2.
      * rewrite L1 by reflexivity. tauto.
      * rewrite L4 by reflexivity. assert (X : lock s = Some p) by (apply K; reflexivity). rewrite X in K'. split; [intros Y; apply K' in Y; congruence|discriminate].
      * destruct L3 as [X ->]; auto. rewrite X in K'. split; [intros Y; apply K' in Y; discriminate|congruence].
      * rewrite L2 by reflexivity. tauto.
  - intros p'. destruct (Nat.eq_dec p' p) as [-> |D]; [exact P|]. eapply pcok_ext; [apply (i_pc0 p')|cbn [goto pc]; apply upd_neq, D|reflexivity|apply Q, D|].
    intros H. cbn [goto flags]. destruct F as [F|F]; [exact F|]. apply i_lock0 in H. apply i_lock0 in F. congruence.
Qed.
Lemma inv_note fl s e : Inv fl s -> match e with EKick _ | EWait _ | EAdd _ | EDestroy _ _ => True | _ => False end -> good fl e (log s) -> forall t, Inv fl (mkS (flags s) (sigp s) (lock s) (pc s) t (e :: log s)).
Proof.
  intros I T G t. destruct I. split; cbn [flags sigp lock pc log]; auto.
  - rewrite i_val0. destruct e; try contradiction; reflexivity.
  - intros p. eapply (pcok_ext fl s _ p [e]); auto. intros op b. cbn. destruct e; try contradiction; intuition discriminate.
  - cbn. auto.
Qed.
Lemma inv_init fl : Inv fl (init fl).
Proof. split; cbn; auto; intros p; try exact Logic.I; split; discriminate. Qed.

Lemma inv_step fl s l s' : Inv fl s -> step s l = Some s' -> Inv fl s'.
Proof.
  intros I H. pose proof (i_val _ _ I) as V. pose proof (i_ok _ _ I) as A. destruct l as [p op b|p|p|p|p|p|p| | | |p]; cbn [step] in H.
  - destruct (pc s p) eqn:PC; try discriminate. injection H as <-. apply inv_goto; auto; rewrite ?PC; cbn [holds]; try discriminate.
    + intros p' D op' b'. cbn. intuition congruence.
    + split; [exact Logic.I|exact A].
    + unfold pcok. cbn [goto pc log app]. rewrite upd_eq. exists [], (log s). split; [reflexivity|apply quiet_nil].
  - destruct (pc s p) eqn:PC; try discriminate. injection H as <-. apply inv_goto; auto; rewrite ?PC; cbn [holds]; try discriminate.
    + intros p' D op' b'. cbn. intuition congruence.
    + split; [exact Logic.I|exact A].
    + unfold pcok. cbn [goto pc log app]. rewrite upd_eq. exists [], (log s). split; [reflexivity|apply quiet_nil].
  - pose proof (i_pc _ _ I p) as K. unfold pcok in K. destruct (pc s p) eqn:PC; try discriminate; (destruct (lock s) eqn:LK; [discriminate|]); injection H as <-; (apply inv_goto; auto; rewrite ?PC; cbn [holds]; try discriminate; auto);
      try (intros; apply quiet_nil); unfold pcok; cbn [goto pc log app]; rewrite upd_eq; exact K.
  - pose proof (i_pc _ _ I p) as K. unfold pcok in K. destruct (pc s p) eqn:PC; try discriminate; injection H as <-; (apply inv_goto; auto; rewrite ?PC; cbn [holds]; try discriminate; auto);
      try (intros; apply quiet_nil); unfold pcok; cbn [goto pc log app flags]; rewrite upd_eq; [split; [exact K|reflexivity]|].
    destruct K as (y & n & E & Q). exists [], y, n. split; [exact E|]. split; [apply quiet_nil|]. split; [exact Q|]. rewrite <- E. exact V.
  - pose proof (i_pc _ _ I p) as K. unfold pcok in K. destruct (pc s p) as [|op b|op b|op b v|op b|op b| | |v|v] eqn:PC; try discriminate. injection H as <-. destruct K as [K ->]. apply inv_goto; auto; rewrite ?PC; cbn [holds]; try discriminate; auto.
    + intros p' D op' b'. cbn. intuition congruence.
    + rewrite V. destruct op; reflexivity.
    + split; [exact Logic.I|exact A].
    + unfold pcok. cbn [goto pc log app]. rewrite upd_eq. destruct K as (y & n & E & Q). exists [], y, n. split; [rewrite E; reflexivity|]. split; [apply quiet_nil|exact Q].
  - pose proof (i_pc _ _ I p) as K. unfold pcok in K. destruct (pc s p) eqn:PC; try discriminate; injection H as <-; (apply inv_goto; auto; rewrite ?PC; cbn [holds]; try discriminate; auto);
      try (intros; apply quiet_nil); unfold pcok; cbn [goto pc log app flags]; rewrite upd_eq; exact K.
  - pose proof (i_pc _ _ I p) as K. unfold pcok in K. destruct (pc s p) eqn:PC; try discriminate; injection H as <-; (apply inv_goto; auto; rewrite ?PC; cbn [holds]; try discriminate; auto);
      try (intros p' D op' b'; cbn; intuition congruence); try (unfold pcok; cbn [goto pc]; rewrite upd_eq; exact Logic.I); cbn; auto.
  - injection H as <-. apply inv_note; auto. cbn. rewrite (i_sigp _ _ I), V. reflexivity.
  - injection H as <-. apply inv_note; auto. cbn. rewrite (i_sigp _ _ I), V. reflexivity.
  - injection H as <-. apply inv_note; auto. cbn. rewrite <- V. reflexivity.
  - unfold keep_bit in H. destruct (Z.testbit (flags s) 31) eqn:B; injection H as <-; apply inv_note; auto; cbn [good]; rewrite <- V, B; reflexivity.
Qed.
Lemma inv_run fl ls : forall s s', Inv fl s -> run s ls = Some s' -> Inv fl s'.
Proof. induction ls as [|l ls IH]; intros s s' V; cbn [run]; [intros [= <-]; exact V|]. destruct (step s l) as [s1|] eqn:E; [|discriminate]. apply IH. eapply inv_step; eauto. Qed.
Theorem inv_reach fl s : reach fl s -> Inv fl s.
Proof. intros [ls R]. eapply inv_run; [apply inv_init|exact R]. Qed.
