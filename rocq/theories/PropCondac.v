(** * C68: the condition variable of the ac791n port. *)
From Verif Require Import Base Condac.

(** ** Specification, over histories (latest event first) *)
Definition remove (t : nat) (l : list nat) : list nat := filter (fun x => negb (x =? t)%nat) l.
(** Tokens put in by signals and broadcasts, tokens taken by waits, signals, new waits. *)
Definition is_post (e : event) : bool := match e with EPost _ => true | _ => false end.
Definition is_take (e : event) : bool := match e with ETake _ => true | _ => false end.
Definition is_sig (e : event) : bool := match e with ESig _ => true | _ => false end.
Definition is_reg (e : event) : bool := match e with EReg _ _ => true | _ => false end.
Definition count (p : event -> bool) (h : list event) : nat := length (filter p h).
(** The threads that have begun to wait and are still counted. *)
Fixpoint waiting (h : list event) : list nat :=
  match h with
  | [] => []
  | EReg t _ :: h' => t :: waiting h'
  | EDec t :: h' => remove t (waiting h')
  | _ :: h' => waiting h'
  end.
(** The threads that have begun to wait and have neither taken a token nor found none. *)
Fixpoint pending (h : list event) : list nat :=
  match h with
  | [] => []
  | EReg t _ :: h' => t :: pending h'
  | ETake t :: h' | EMiss t :: h' => remove t (pending h')
  | _ :: h' => pending h'
  end.
(** What t did in its current (or latest) wait. *)
Definition doer (e : event) : option nat :=
  match e with EReg t _ | ETake t | ETmo t | EDec t | EMiss t => Some t | _ => None end.
Definition is (t : nat) (e : event) : bool := match doer e with Some v => (v =? t)%nat | None => false end.
Fixpoint mine (t : nat) (h : list event) : list event :=
  match h with
  | [] => []
  | e :: h' => if is t e then match e with EReg _ _ => [e] | _ => e :: mine t h' end else mine t h'
  end.

(** ** Invariant *)
Definition crit (p : place) : bool :=
  match p with WInc _ | WUnl _ | WDec _ | WAcc | WUnl2 _ | SChk | SUnl | BRead | BPost _ _ | BUnl => true | _ => false end.
Definition hasmu (p : place) : bool := match p with WLk _ | WInc _ | WUnl _ | WRel _ => true | _ => false end.
Definition reg (p : place) : bool := match p with WUnl _ | WRel _ | WPend _ | WLk2 _ | WDec _ => true | _ => false end.
Definition act (p : place) : bool := match p with WUnl _ | WRel _ | WPend _ | WLk2 false | WDec false | WAcc => true | _ => false end.
Definition local (t : nat) (p : place) (sem w : nat) (h : list event) : Prop :=
  match p with
  | WUnl tm | WRel tm | WPend tm => mine t h = [EReg t tm]
  | WLk2 true | WDec true => exists tm, mine t h = [ETake t; EReg t tm]
  | WLk2 false | WDec false => mine t h = [ETmo t; EReg t true]
  | WAcc => mine t h = [EDec t; ETmo t; EReg t true]
  | WUnl2 true | WMu true => mine t h = [ETake t; EDec t; ETmo t; EReg t true] \/ exists tm, mine t h = [EDec t; ETake t; EReg t tm]
  | WUnl2 false | WMu false => mine t h = [EMiss t; EDec t; ETmo t; EReg t true]
  | BPost m a => (length (pending h) <= sem + m)%nat /\ a = w
  | _ => True
  end.
Record inv (s : state) : Prop := {
  i_lk : forall t, s_lk s = Some t <-> crit (s_pc s t) = true;
  i_mu : forall t, hasmu (s_pc s t) = true -> s_mu s = Some t;
  i_tok : count is_post (s_tr s) = (count is_take (s_tr s) + s_sem s)%nat;
  i_w : s_w s = length (waiting (s_tr s));
  i_wnd : NoDup (waiting (s_tr s));
  i_win : forall t, In t (waiting (s_tr s)) <-> reg (s_pc s t) = true;
  i_pnd : NoDup (pending (s_tr s));
  i_pin : forall t, In t (pending (s_tr s)) <-> act (s_pc s t) = true;
  i_loc : forall t, local t (s_pc s t) (s_sem s) (s_w s) (s_tr s) }.

Lemma fupd_eq {A} (f : nat -> A) k v : fupd f k v k = v. Proof. unfold fupd. rewrite Nat.eqb_refl. reflexivity. Qed.
Lemma fupd_ne {A} (f : nat -> A) k v x : x <> k -> fupd f k v x = f x. Proof. unfold fupd. intros H. apply Nat.eqb_neq in H. rewrite H. reflexivity. Qed.
Lemma in_remove x t l : In x (remove t l) <-> In x l /\ x <> t.
Proof. unfold remove. rewrite filter_In. destruct (Nat.eqb_spec x t); cbn; intuition congruence. Qed.
Lemma nd_remove t l : NoDup l -> NoDup (remove t l). Proof. apply NoDup_filter. Qed.
Lemma remove_id t l : ~ In t l -> remove t l = l.
Proof. induction l as [|x l IH]; cbn; [reflexivity|]. intros H. destruct (Nat.eqb_spec x t) as [->|N]; [tauto|]. cbn. f_equal. apply IH. tauto. Qed.
Lemma len_remove t l : NoDup l -> In t l -> length l = S (length (remove t l)).
Proof.
  induction 1 as [|x l N D IH]; cbn; [tauto|]. intros [->|H].
  - rewrite Nat.eqb_refl. cbn. change (filter _ l) with (remove t l). rewrite remove_id by exact N. reflexivity.
  - destruct (Nat.eqb_spec x t) as [->|M]; [contradiction|]. cbn. f_equal. apply IH, H.
Qed.
Lemma len_remove_le t l : (length (remove t l) <= length l)%nat. Proof. unfold remove. induction l as [|x l IH]; cbn; [lia|]. destruct (negb _); cbn; lia. Qed.
Lemma count_app p a b : count p (a ++ b) = (count p a + count p b)%nat.
Proof. unfold count. rewrite filter_app, app_length. reflexivity. Qed.

Section Frame.
  Variables (s : state) (t : nat).
  Hypothesis I : inv s.
  (** How a list of threads changes with t's step: not at all, t comes, t goes. *)
  Definition moves (f : place -> bool) (p : place) (l l' : list nat) : Prop :=
    f p = f (s_pc s t) /\ l' = l \/ f (s_pc s t) = false /\ f p = true /\ l' = t :: l \/
    f (s_pc s t) = true /\ f p = false /\ l' = remove t l.
  Lemma moves_ok f p l l' : moves f p l l' -> NoDup l -> (forall v, In v l <-> f (s_pc s v) = true) ->
    NoDup l' /\ (forall v, In v l' <-> f (fupd (s_pc s) t p v) = true).
  Proof.
    intros M ND H. destruct M as [(A & ->)|[(A & B & ->)|(A & B & ->)]].
    - split; [exact ND|]. intros v. destruct (Nat.eq_dec v t) as [->|N]; [rewrite fupd_eq, A|rewrite fupd_ne by assumption]; apply H.
    - split; [constructor; [rewrite H, A; discriminate|exact ND]|].
      intros v. cbn [In]. destruct (Nat.eq_dec v t) as [->|N]; [rewrite fupd_eq, B; tauto|rewrite fupd_ne by assumption]. rewrite H. intuition congruence.
    - split; [apply nd_remove, ND|]. intros v. rewrite in_remove. destruct (Nat.eq_dec v t) as [->|N]; [rewrite fupd_eq, B|rewrite fupd_ne by assumption; rewrite H; tauto].
      split; [tauto|discriminate].
  Qed.
  Lemma frame p mu' lk' sem' w' e :
    (lk' = s_lk s /\ crit p = crit (s_pc s t) \/ s_lk s = None /\ lk' = Some t /\ crit p = true \/ crit (s_pc s t) = true /\ lk' = None /\ crit p = false) ->
    (forall v, v <> t -> hasmu (s_pc s v) = true -> mu' = Some v) -> (hasmu p = true -> mu' = Some t) ->
    (count is_post e + s_sem s = count is_take e + sem')%nat ->
    moves reg p (waiting (s_tr s)) (waiting (e ++ s_tr s)) -> w' = length (waiting (e ++ s_tr s)) ->
    moves act p (pending (s_tr s)) (pending (e ++ s_tr s)) ->
    (forall v, v <> t -> mine v (e ++ s_tr s) = mine v (s_tr s)) ->
    (s_lk s = None \/ s_lk s = Some t \/ w' = s_w s /\ (length (pending (e ++ s_tr s)) + s_sem s <= length (pending (s_tr s)) + sem')%nat) ->
    local t p sem' w' (e ++ s_tr s) -> inv (go t p mu' lk' sem' w' e s).
  Proof.
    intros HL HM1 HM2 HT HW HW' HP Hm HB HLoc. destruct I as [IL IM IT Iw IWN IWI IPN IPI IC].
    destruct (moves_ok _ _ _ _ HW IWN IWI) as [W1 W2]. destruct (moves_ok _ _ _ _ HP IPN IPI) as [P1 P2].
    split; cbn [go s_mu s_lk s_sem s_w s_pc s_tr]; auto.
    - intros v. destruct (Nat.eq_dec v t) as [->|N]; [rewrite fupd_eq|rewrite fupd_ne by assumption]; destruct HL as [(-> & A)|[(A & -> & B)|(A & -> & B)]].
      + rewrite A. apply IL. + rewrite B. tauto. + rewrite B. split; discriminate.
      + apply IL. + rewrite <- IL, A. split; congruence. + apply IL in A. rewrite <- IL, A. split; congruence.
    - intros v. destruct (Nat.eq_dec v t) as [->|N]; [rewrite fupd_eq; exact HM2|rewrite fupd_ne by assumption; apply HM1, N].
    - rewrite !count_app. lia.
    - intros v. destruct (Nat.eq_dec v t) as [->|N]; [rewrite fupd_eq; exact HLoc|rewrite fupd_ne by assumption].
      pose proof (IC v) as L. specialize (Hm v N). pose proof (IL v) as LK.
      destruct (s_pc s v) as [| | | | | |[]|[]| |[]|[]| | | | | | |]; cbn [local] in *; rewrite ?Hm; auto.
      destruct HB as [HB|[HB|[HB1 HB2]]]; [destruct LK as [_ LK]; specialize (LK eq_refl); congruence..|]. lia.
  Qed.
End Frame.

Lemma mine_other v t e h : (forall x, In x e -> doer x = Some t \/ doer x = None) -> v <> t -> mine v (e ++ h) = mine v h.
Proof.
  intros H N. induction e as [|x e IH]; [reflexivity|]. cbn [app mine]. assert (is v x = false) as ->.
  { unfold is. destruct (H x (or_introl eq_refl)) as [-> | ->]; [apply Nat.eqb_neq; congruence|reflexivity]. }
  apply IH. intros y Hy. apply H. right. exact Hy.
Qed.
Lemma is_me t e : doer e = Some t -> is t e = true. Proof. unfold is. intros ->. apply Nat.eqb_refl. Qed.
Lemma is_none t e : doer e = None -> is t e = false. Proof. unfold is. intros ->. reflexivity. Qed.

Ltac fr I t E :=
  let L := fresh "L" in let W := fresh "W" in pose proof (i_loc _ I t) as L; pose proof (i_w _ I) as W; rewrite E in L; cbn [local] in L;
  apply (frame _ _ I); rewrite ?E; cbn [app waiting pending crit hasmu];
  [ try tauto
  | try (intros v _ Hv; apply (i_mu _ I); exact Hv)
  | try discriminate; try (intros _; apply (i_mu _ I); rewrite E; reflexivity)
  | cbn; try lia
  | try (left; rewrite E; split; reflexivity)
  | try exact W
  | try (left; rewrite E; split; reflexivity)
  | intros v Hv; first [reflexivity | apply (mine_other v t [_] _); [cbn [In doer]; intros x [<-|[]]; cbn; tauto|exact Hv] | apply (mine_other v t [_;_] _); [cbn [In doer]; intros x [<-|[<-|[]]]; cbn; tauto|exact Hv]]
  | try (left; assumption); try (right; right; split; [reflexivity|lia]); try (right; left; apply (i_lk _ I); rewrite E; reflexivity)
  | cbn [local]; cbn [mine]; rewrite ?is_me by reflexivity; try exact L; try exact Logic.I ].

Lemma inv_init : inv init_state.
Proof. split; cbn; try constructor; try discriminate; try tauto; try (intros; discriminate). Qed.
Lemma lk_free_or_mine s t v : inv s -> crit (s_pc s t) = true -> crit (s_pc s v) = true -> v = t.
Proof. intros I A B. apply (i_lk s I) in A. apply (i_lk s I) in B. congruence. Qed.
(** While t has the inner lock and is not itself between 278 and 282, who lacks a token is counted. *)
Lemma pending_counted s t : inv s -> crit (s_pc s t) = true -> s_pc s t <> WAcc -> incl (pending (s_tr s)) (waiting (s_tr s)).
Proof.
  intros I C N v Hv. apply (i_pin s I) in Hv. apply (i_win s I). destruct (s_pc s v) as [| | | | | |[]|[]| |[]|[]| | | | | | |] eqn:E; cbn in *; try discriminate; try reflexivity.
  assert (v = t) by (eapply lk_free_or_mine; [exact I|exact C|rewrite E; reflexivity]). subst. contradiction.
Qed.
Lemma pending_le s t : inv s -> crit (s_pc s t) = true -> s_pc s t <> WAcc -> (length (pending (s_tr s)) <= s_w s)%nat.
Proof. intros I C N. rewrite (i_w s I). apply NoDup_incl_length; [apply (i_pnd s I)|eapply pending_counted; eassumption]. Qed.

Lemma inv_step s s' : inv s -> step s s' -> inv s'.
Proof.
  intros I H. inversion H; subst; clear H;
    try match goal with E : s_pc s ?t = _ |- _ => fr I t E end.
  1: { intros v _ Hv. apply (i_mu s I) in Hv. congruence. }
  1: { intros v N Hv. apply (i_mu s I) in Hv. congruence. }
  1: { intros _. assumption. }
  1: { right; left. rewrite H0. repeat split. }
  1: { cbn. rewrite W. reflexivity. }
  1: { right; left. rewrite H0. repeat split. }
  1: { reflexivity. }
  1: { intros v N Hv. apply (i_mu s I) in Hv. assert (s_mu s = Some t) by (apply (i_mu s I); rewrite H0; reflexivity). congruence. }
  1: { right; right. rewrite H0. repeat split. }
  1: { right; right. split; [reflexivity|]. rewrite (len_remove t (pending (s_tr s))) by (apply (i_pnd s I) || (apply (i_pin s I); rewrite H0; reflexivity)). lia. }
  1: { exists tm. rewrite L. reflexivity. }
  1: { rewrite L. reflexivity. }
  1: { destruct ok; cbn; tauto. }
  1: { destruct ok; discriminate. }
  1: { right; right. rewrite H0. destruct ok; repeat split. }
  1: { rewrite W. rewrite (len_remove t (waiting (s_tr s))) by (apply (i_wnd s I) || (apply (i_win s I); rewrite H0; reflexivity)). reflexivity. }
  1: { left. rewrite H0. destruct ok; split; reflexivity. }
  1: { destruct ok; cbn [local mine]; rewrite is_me by reflexivity. - right. destruct L as [tm ->]. exists tm. reflexivity. - rewrite L. reflexivity. }
  - destruct (s_sem s) as [|n] eqn:Es; fr I t H0.
    + right; right. rewrite H0. repeat split.
    + rewrite L. reflexivity.
    + right; right. rewrite H0. repeat split.
    + left. rewrite L. reflexivity.
  - intros v _ Hv. apply (i_mu s I) in Hv. congruence.
  - destruct (0 <? s_w s)%nat; fr I t H0.
  - split; [|reflexivity]. cbn [pending]. assert (length (pending (s_tr s)) <= s_w s)%nat by (apply (pending_le s t I); rewrite H0; [reflexivity|discriminate]). lia.
  - cbn [pending]. destruct L as [L1 L2]. split; [lia|exact L2].
Qed.
Lemma inv_reachable s : reachable s -> inv s.
Proof. induction 1; [apply inv_init|eapply inv_step; eassumption]. Qed.

(** ** Facts along a history *)
(** What a step adds to the history. *)
Inductive news (s : state) : list event -> Prop :=
| N_nil : news s []
| N_reg t tm : news s [EReg t tm]
| N_take t : In t (pending (s_tr s)) -> (0 < s_sem s)%nat -> news s [ETake t]
| N_tmo t : news s [ETmo t]
| N_dec t : news s [EDec t]
| N_miss t : s_lk s = Some t -> s_pc s t = WAcc -> In t (pending (s_tr s)) -> s_sem s = 0%nat -> news s [EMiss t]
| N_ret t ok : s_pc s t = WMu ok -> news s [ERet t ok]
| N_sig t : s_pc s t = SChk -> waiting (s_tr s) <> [] -> news s [EPost t; ESig t]
| N_sig0 t : s_pc s t = SChk -> waiting (s_tr s) = [] -> news s [ESig t]
| N_bc t : s_pc s t = BRead -> news s [EBc t]
| N_post t n a : s_pc s t = BPost (S n) a -> news s [EPost t]
| N_bend t a : s_pc s t = BPost 0 a -> news s [EBEnd t a].
Lemma step_news s s' : inv s -> step s s' -> exists e, s_tr s' = e ++ s_tr s /\ news s e.
Proof.
  intros I H.
  assert (A : forall t p, s_pc s t = p -> act p = true -> In t (pending (s_tr s))) by (intros t p E F; apply (i_pin s I); rewrite E; exact F).
  inversion H; subst; clear H; cbn [go s_tr]; try (eexists; split; [reflexivity|]; econstructor; eassumption).
  - eexists; split; [reflexivity|]. apply N_take; [eapply A; [eassumption|reflexivity]|lia].
  - destruct (s_sem s) as [|n] eqn:Es; cbn [go s_tr]; eexists; (split; [reflexivity|]).
    + apply N_miss; auto; [apply (i_lk s I); rewrite H0; reflexivity|eapply A; [eassumption|reflexivity]].
    + apply N_take; [eapply A; [eassumption|reflexivity]|lia].
  - pose proof (i_w s I) as W. destruct (Nat.ltb_spec 0 (s_w s)); cbn [go s_tr]; eexists; (split; [reflexivity|]).
    + apply N_sig; [assumption|]. intros E. rewrite E in W. cbn in W. lia.
    + apply N_sig0; [assumption|]. destruct (waiting (s_tr s)); [reflexivity|cbn in W; lia].
Qed.
Lemma app_cases {A} (a b c d : list A) : a ++ b = c ++ d -> (exists m, a = c ++ m /\ d = m ++ b) \/ (exists m, c = a ++ m /\ b = m ++ d).
Proof. revert c. induction a as [|x a IH]; intros [|y c] E; cbn in *; [left; exists []; auto|right; exists (y :: c); auto|left; exists (x :: a); auto|].
  injection E as -> E. destruct (IH c E) as [(m & -> & ->)|(m & -> & ->)]; [left|right]; exists m; auto. Qed.

Definition no_reg (h : list event) : Prop := forall x, In x h -> is_reg x = false.
Lemma no_reg_app a b : no_reg (a ++ b) -> no_reg a /\ no_reg b.
Proof. intros H. split; intros x Hx; apply H, in_or_app; auto. Qed.
(** Without new waits, who lacks a token now lacked one before. *)
Lemma pending_shrinks h3 h1 : no_reg h3 -> incl (pending (h3 ++ h1)) (pending h1).
Proof.
  induction h3 as [|x h3 IH]; intros N v Hv; [exact Hv|]. assert (N' : no_reg h3) by (intros y Hy; apply N; right; exact Hy).
  specialize (N x (or_introl eq_refl)). specialize (IH N' v).
  destruct x; cbn [app pending] in Hv; try discriminate; auto; apply in_remove in Hv; apply IH; tauto.
Qed.
(** Who does not lack one any more has taken it, or found none. *)
Lemma pending_leaves h3 h1 v : In v (pending h1) -> In v (pending (h3 ++ h1)) \/ In (ETake v) h3 \/ In (EMiss v) h3.
Proof.
  intros H. induction h3 as [|x h3 IH]; [left; exact H|]. destruct x; cbn [app pending In]; try (intuition; fail); rewrite in_remove;
    destruct (Nat.eq_dec v t) as [->|N]; intuition.
Qed.
(** Who takes a token lacked one. *)
Fixpoint takers (h : list event) : list nat :=
  match h with [] => [] | ETake t :: h' => t :: takers h' | _ :: h' => takers h' end.
Lemma takers_count h : length (takers h) = count is_take h.
Proof. induction h as [|[] h IH]; cbn; auto. Qed.
Lemma takers_in h t : In t (takers h) <-> In (ETake t) h.
Proof. induction h as [|x h IH]; [tauto|]. destruct x; cbn [takers In]; rewrite IH; intuition congruence. Qed.
Lemma takes_fact s : reachable s -> forall h3 t h1, s_tr s = h3 ++ ETake t :: h1 -> In t (pending h1).
Proof.
  induction 1 as [|s s' R IH St]; intros h3 t h1 E; [destruct h3; discriminate|].
  destruct (step_news s s' (inv_reachable s R) St) as (e & E' & Nw). rewrite E' in E.
  destruct (app_cases _ _ _ _ E) as [(m & -> & M)|(m & -> & M)].
  - destruct m as [|y m]; cbn in M; [eapply (IH []); symmetry; exact M|]. assert (y = ETake t) by congruence. assert (h1 = m ++ s_tr s) by congruence. subst y h1.
    assert (In (ETake t) (h3 ++ ETake t :: m)) as IT by (apply in_or_app; right; left; reflexivity).
    inversion Nw; match goal with Q : _ = h3 ++ _ |- _ => rewrite <- Q in IT; cbn in IT end; try (intuition discriminate).
    destruct IT as [IT|[]]. destruct h3 as [|? h3]; [|destruct h3; discriminate]. cbn in *. assert (t0 = t) by congruence. assert (m = []) by congruence. subst. assumption.
  - eapply IH. exact M.
Qed.
Lemma takers_ok s : reachable s -> forall h3 h1, s_tr s = h3 ++ h1 -> no_reg h3 ->
  NoDup (takers h3) /\ incl (takers h3) (pending h1) /\ (forall v, In v (takers h3) -> ~ In v (pending (h3 ++ h1))).
Proof.
  intros R h3. remember (s_tr s) as tr eqn:T. intros h1 E. rewrite E in T. clear E tr.
  assert (P : forall h0 h4, s_tr s = h0 ++ h4 ++ h1 -> no_reg h4 -> NoDup (takers h4) /\ incl (takers h4) (pending h1) /\ (forall v, In v (takers h4) -> ~ In v (pending (h4 ++ h1)))).
  { intros h0 h4. revert h0. induction h4 as [|x h4 IH]; intros h0 E N.
    - split; [constructor|]. split; [intros v []|intros v []].
    - assert (N' : no_reg h4) by (intros y Hy; apply N; right; exact Hy).
      destruct (IH (h0 ++ [x]) ltac:(rewrite <- app_assoc; exact E) N') as (A & B & C). specialize (N x (or_introl eq_refl)).
      destruct x; cbn [takers app pending]; try discriminate; auto.
      + pose proof (takes_fact s R h0 t (h4 ++ h1) E) as F. split; [constructor; [intros D; exact (C _ D F)|exact A]|].
        split; [intros v [<-|Hv]; [apply (pending_shrinks h4 h1 N'), F|apply B, Hv]|].
        intros v [<-|Hv]; rewrite in_remove; [tauto|]. intros [D _]. exact (C _ Hv D).
      + split; [exact A|]. split; [exact B|]. intros v Hv. rewrite in_remove. intros [D _]. exact (C _ Hv D). }
  intros N. apply (P [] h3); [exact (eq_sym T)|exact N].
Qed.
Lemma takes_le_posts s : reachable s -> forall h3 h1, s_tr s = h3 ++ h1 -> (count is_take h1 <= count is_post h1)%nat.
Proof.
  induction 1 as [|s s' R IH St]; intros h3 h1 E; [destruct h3, h1; try discriminate; cbn; lia|].
  pose proof (inv_step _ _ (inv_reachable s R) St) as I'. pose proof (i_tok _ I') as T'.
  pose proof (i_tok _ (inv_reachable s R)) as T.
  destruct (step_news s s' (inv_reachable s R) St) as (e & E' & Nw). rewrite E' in E.
  destruct (app_cases _ _ _ _ E) as [(m & -> & M)|(m & -> & M)]; [|eapply IH; exact M].
  destruct h3 as [|x h3]; [cbn [app] in *; subst h1; rewrite <- E'; lia|].
  subst h1. rewrite !count_app. assert (count is_take m = 0)%nat; [|lia].
  inversion Nw; clear Nw; destruct h3 as [|x2 [|x3 h3]]; cbn in *; try discriminate;
    match goal with H : ?l = x :: ?r |- _ => assert (r = tl l) as Hr by (rewrite H; reflexivity); cbn in Hr; try discriminate Hr; subst m || (assert (m = []) by congruence; subst m) end; reflexivity.
Qed.

Lemma signals_post s : reachable s -> forall h3 h1, s_tr s = h3 ++ h1 -> no_reg h3 -> pending (s_tr s) <> [] -> (count is_sig h3 <= count is_post h3)%nat.
Proof.
  induction 1 as [|s s' R IH St]; intros h3 h1 E N P; [destruct h3; [cbn; lia|discriminate]|].
  pose proof (inv_reachable s R) as I.
  destruct (step_news s s' I St) as (e & E' & Nw). rewrite E' in E.
  assert (G : no_reg e -> waiting (s_tr s) = [] -> (exists t, s_pc s t = SChk) -> False).
  { intros Ne Hw [t Hs]. apply P. rewrite E'. apply incl_l_nil. intros v Hv. apply (pending_shrinks _ _ Ne) in Hv. rewrite <- Hw.
    apply (pending_counted s t I); [rewrite Hs; reflexivity|rewrite Hs; discriminate|exact Hv]. }
  destruct (app_cases _ _ _ _ E) as [(m & M & ->)|(m & -> & M)].
  - destruct m as [|y m].
    + rewrite app_nil_r in M. subst e. destruct Nw; try (cbn; lia). exfalso. eapply G; eauto.
    + subst e. inversion Nw; clear Nw; destruct h3 as [|x [|x2 h3]]; cbn in *; try lia; try discriminate;
        try (exfalso; match goal with H : _ = _ :: _ :: ?l ++ _ :: _ |- _ => injection H; intros; destruct l; discriminate end).
      assert (x = EPost t) by congruence. subst. cbn. lia.
  - apply no_reg_app in N. destruct N as [N1 N2]. rewrite !count_app.
    assert (P' : pending (s_tr s) <> []).
    { intros Z0. apply P. rewrite E'. apply incl_l_nil. rewrite <- Z0. apply pending_shrinks, N1. }
    specialize (IH m h1 M N2 P'). destruct Nw; cbn; try lia. exfalso. eapply G; eauto.
Qed.

(** ** Theorems *)

(** Tokens are neither lost nor invented, and the counter is the number of waiters. *)
Theorem C68_tokens_exact : forall s, reachable s ->
  count is_post (s_tr s) = (count is_take (s_tr s) + s_sem s)%nat /\
  s_w s = length (waiting (s_tr s)) /\ NoDup (waiting (s_tr s)).
Proof. intros s R. pose proof (inv_reachable s R) as I. split; [apply (i_tok s I)|]. split; [apply (i_w s I)|apply (i_wnd s I)]. Qed.
Print Assumptions C68_tokens_exact.

(** A wait that returns 0 has taken exactly one token since it began; one that
    returns the timeout had one, took none, and looked once more when its time had
    run out. In both cases the caller holds the mutex again. *)
Lemma ret_fact s : reachable s -> forall h3 t ok h1, s_tr s = h3 ++ ERet t ok :: h1 ->
  if ok then mine t h1 = [ETake t; EDec t; ETmo t; EReg t true] \/ exists tm, mine t h1 = [EDec t; ETake t; EReg t tm]
  else mine t h1 = [EMiss t; EDec t; ETmo t; EReg t true].
Proof.
  induction 1 as [|s s' R IH St]; intros h3 t ok h1 E; [destruct h3; discriminate|].
  pose proof (inv_reachable s R) as I. destruct (step_news s s' I St) as (e & E' & Nw). rewrite E' in E.
  destruct (app_cases _ _ _ _ E) as [(m & -> & M)|(m & -> & M)]; [|eapply IH; exact M].
  destruct m as [|y m]; cbn in M; [eapply (IH []); symmetry; exact M|]. assert (y = ERet t ok) by congruence. assert (h1 = m ++ s_tr s) by congruence. subst y h1.
  assert (In (ERet t ok) (h3 ++ ERet t ok :: m)) as IT by (apply in_or_app; right; left; reflexivity).
  inversion Nw; match goal with Q : _ = h3 ++ _ |- _ => rewrite <- Q in IT; cbn in IT end; try (intuition discriminate).
  destruct IT as [IT|[]]. destruct h3 as [|? h3]; [|destruct h3; discriminate]. cbn in *. assert (t0 = t) by congruence. assert (ok0 = ok) by congruence. assert (m = []) by congruence. subst. cbn.
  match goal with Q : s_pc s t = WMu ok |- _ => pose proof (i_loc s I t) as L; rewrite Q in L; cbn in L; destruct ok; exact L end.
Qed.
Theorem C68_wait_result : forall s h2 h1 t ok, reachable s -> s_tr s = h2 ++ ERet t ok :: h1 ->
  if ok then mine t h1 = [ETake t; EDec t; ETmo t; EReg t true] \/ exists tm, mine t h1 = [EDec t; ETake t; EReg t tm]
  else mine t h1 = [EMiss t; EDec t; ETmo t; EReg t true].
Proof. intros. eapply ret_fact; eassumption. Qed.
Print Assumptions C68_wait_result.
Theorem C68_returns_locked : forall s s' t ok, reachable s -> step s s' -> s_tr s' = ERet t ok :: s_tr s -> s_mu s' = Some t.
Proof.
  intros s s' t ok R H E. assert (L : forall (x : event) l, l = x :: l -> False) by (intros x l Q; apply (f_equal (@length _)) in Q; cbn in Q; lia).
  inversion H; subst; clear H; cbn [go s_tr s_mu app] in *; try (exfalso; eapply L; eassumption); try discriminate; try (injection E as -> ->; reflexivity); try congruence.
  - destruct (s_sem s); discriminate.
  - destruct (0 <? s_w s)%nat; cbn in E; [|discriminate]. discriminate.
Qed.
Print Assumptions C68_returns_locked.

(** The timeout is reported only if every token given up to that moment was taken. *)
Theorem C68_timeout_means_no_token : forall s h2 h1 t, reachable s -> s_tr s = h2 ++ EMiss t :: h1 -> count is_post h1 = count is_take h1.
Proof.
  intros s h2 h1 t R. revert h2 h1 t. induction R as [|s s' R IH St]; intros h3 h1 t E; [destruct h3; discriminate|].
  pose proof (inv_reachable s R) as I. destruct (step_news s s' I St) as (e & E' & Nw). rewrite E' in E.
  destruct (app_cases _ _ _ _ E) as [(m & -> & M)|(m & -> & M)]; [|eapply IH; exact M].
  destruct m as [|y m]; cbn in M; [eapply (IH []); symmetry; exact M|]. assert (y = EMiss t) by congruence. assert (h1 = m ++ s_tr s) by congruence. subst y h1.
  assert (In (EMiss t) (h3 ++ EMiss t :: m)) as IT by (apply in_or_app; right; left; reflexivity).
  inversion Nw; match goal with Q : _ = h3 ++ _ |- _ => rewrite <- Q in IT; cbn in IT end; try (intuition discriminate).
  destruct h3 as [|? h3]; [|destruct h3; discriminate]. cbn [app] in *. assert (m = []) by congruence. subst. cbn [app]. pose proof (i_tok s I). lia.
Qed.
Print Assumptions C68_timeout_means_no_token.

(** k signals, with nobody beginning to wait meanwhile: k of the threads that
    waited have taken a token or can do so at once, or nobody is left without. *)
Theorem C68_signals_wake_partial : forall s h3 h1, reachable s -> s_tr s = h3 ++ h1 -> no_reg h3 ->
  pending (s_tr s) = [] \/
  exists ts, NoDup ts /\ (forall v, In v ts -> In v (pending h1) /\ In (ETake v) h3) /\ (count is_sig h3 <= length ts + s_sem s)%nat.
Proof.
  intros s h3 h1 R E N. destruct (pending (s_tr s)) as [|v l] eqn:P; [left; reflexivity|right].
  destruct (takers_ok s R h3 h1 E N) as (A & B & _). exists (takers h3). split; [exact A|].
  split; [intros w Hw; split; [apply B, Hw|apply takers_in, Hw]|].
  assert (count is_sig h3 <= count is_post h3)%nat as Sg by (eapply signals_post; eauto; rewrite P; discriminate).
  pose proof (i_tok s (inv_reachable s R)) as T. rewrite E, !count_app in T. pose proof (takes_le_posts s R h3 h1 E). rewrite takers_count. lia.
Qed.
Print Assumptions C68_signals_wake_partial.

(** A finished broadcast, with nobody beginning to wait since it looked: each
    thread without a token at that time has taken one, or there is one for it and
    for all the others still without; and nobody reported a timeout meanwhile. *)
Lemma cut {A} (e tr h3 h1 : list A) x : e ++ tr = h3 ++ x :: h1 -> (exists m, h3 = e ++ m /\ tr = m ++ x :: h1) \/ (exists m, e = h3 ++ x :: m /\ h1 = m ++ tr).
Proof.
  intros E. destruct (app_cases _ _ _ _ E) as [(m & -> & M)|(m & -> & M)]; [|left; eauto].
  destruct m as [|y m]; cbn in M; [left; exists []; rewrite !app_nil_r; split; [reflexivity|symmetry; exact M]|right]. exists m. split; congruence.
Qed.
Lemma bpost_step s s' b m a : inv s -> step s s' -> s_pc s b = BPost m a ->
  s_pc s' b = BPost m a /\ (forall n, s_tr s' <> EBEnd b n :: s_tr s) \/
  (exists n, m = S n /\ s_pc s' b = BPost n a /\ s_tr s' = EPost b :: s_tr s) \/ m = 0%nat /\ s_tr s' = EBEnd b a :: s_tr s.
Proof.
  intros I H E. assert (L : forall (x : event) l, l = x :: l -> False) by (intros x l Q; apply (f_equal (@length _)) in Q; cbn in Q; lia).
  inversion H; subst; clear H; cbn [go s_pc s_tr app];
    try match goal with E0 : s_pc s ?t = _ |- _ => destruct (Nat.eq_dec b t) as [->|N]; [rewrite E0 in E; try discriminate E|] end;
    try (rewrite fupd_ne by assumption; left; split; [exact E|intros ? Q; try discriminate; try (eapply L; exact Q); try congruence]).
  - left. destruct (s_sem s); cbn [go s_pc s_tr app]; rewrite fupd_ne by assumption; (split; [exact E|discriminate]).
  - left. destruct (0 <? s_w s)%nat; cbn [go s_pc s_tr app]; rewrite fupd_ne by assumption; (split; [exact E|discriminate]).
  - right; left. exists n. rewrite fupd_eq. assert (m = S n) by congruence. assert (a0 = a) by congruence. subst. auto.
  - right; right. assert (m = 0%nat) by congruence. assert (a0 = a) by congruence. subst. auto.
Qed.
Lemma bc_step s s' b : step s s' -> s_tr s' = [EBc b] ++ s_tr s -> s_pc s' b = BPost (s_w s) (s_w s) /\ s_sem s' = s_sem s.
Proof.
  intros H E. assert (L : forall (x : event) l, l = x :: l -> False) by (intros x l Q; apply (f_equal (@length _)) in Q; cbn in Q; lia).
  inversion H; subst; clear H; cbn [go s_tr s_pc s_sem app] in *; try (exfalso; eapply L; eassumption); try discriminate; try congruence.
  - destruct (s_sem s); discriminate.
  - destruct (0 <? s_w s)%nat; discriminate.
  - assert (t = b) by congruence. subst. rewrite fupd_eq. split; reflexivity.
Qed.
Lemma broadcast_covers s : reachable s -> forall h3 b h1, s_tr s = h3 ++ EBc b :: h1 -> no_reg h3 ->
  (forall t, ~ In (EMiss t) h3) /\
  ((length (pending (s_tr s)) <= s_sem s)%nat \/
   exists m a, s_pc s b = BPost m a /\ (length (pending (s_tr s)) <= s_sem s + m)%nat /\ forall n, ~ In (EBEnd b n) h3).
Proof.
  induction 1 as [|s s' R IH St]; intros h3 b h1 E N; [destruct h3; discriminate|].
  pose proof (inv_reachable s R) as I. pose proof (inv_step _ _ I St) as I'. pose proof (i_pnd _ I) as ND.
  pose proof (i_tok _ I) as T. pose proof (i_tok _ I') as T'.
  destruct (step_news s s' I St) as (e & E' & Nw). rewrite E' in E.
  destruct (cut _ _ _ _ _ E) as [(m & -> & M)|(m & Em & M)].
  - apply no_reg_app in N. destruct N as [N1 N2]. destruct (IH m b h1 M N2) as [HM HB]. rewrite E', count_app, count_app in T'. rewrite E'.
    assert (TK : forall t, In t (pending (s_tr s)) -> length (pending (s_tr s)) = S (length (remove t (pending (s_tr s))))) by (intros; apply len_remove; assumption).
    destruct HB as [HB|(k & a & Hp & Hl & Hn)].
    + split.
      * intros t Ht. apply in_app_or in Ht. destruct Ht as [Ht|Ht]; [|exact (HM t Ht)].
        destruct Nw; cbn in Ht; intuition; try discriminate. match goal with Q : In ?v (pending (s_tr s)), Z0 : s_sem s = 0%nat |- _ => specialize (TK v Q); lia end.
      * left. destruct Nw; cbn [app pending] in *; cbn in T'; try lia.
        -- specialize (N1 _ (or_introl eq_refl)). discriminate.
        -- match goal with Q : In ?v (pending (s_tr s)) |- _ => specialize (TK v Q); lia end.
        -- match goal with Q : In ?v (pending (s_tr s)) |- _ => specialize (TK v Q); lia end.
    + assert (LK : s_lk s = Some b) by (apply (i_lk s I); rewrite Hp; reflexivity).
      assert (NM : forall t, ~ In (EMiss t) (e ++ m)).
      { intros t Ht. apply in_app_or in Ht. destruct Ht as [Ht|Ht]; [|exact (HM t Ht)].
        destruct Nw; cbn in Ht; intuition; try discriminate. congruence. }
      split; [exact NM|]. destruct (bpost_step s s' b k a I St Hp) as [[P1 P2]|[(n & -> & P1 & P2)|(-> & P2)]].
      * right. exists k, a. split; [exact P1|]. split.
        -- destruct Nw; cbn [app pending] in *; cbn in T'; try lia.
           ++ specialize (N1 _ (or_introl eq_refl)). discriminate.
           ++ match goal with Q : In ?v (pending (s_tr s)) |- _ => specialize (TK v Q); lia end.
           ++ exfalso. eapply NM. left. reflexivity.
        -- intros n Ht. apply in_app_or in Ht. destruct Ht as [Ht|Ht]; [|exact (Hn n Ht)].
           destruct Nw; cbn in Ht; intuition; try discriminate. assert (t = b) by congruence. subst. eapply P2. rewrite E'. reflexivity.
      * right. exists n, a. split; [exact P1|]. rewrite E' in P2. apply (app_inv_tail (s_tr s) e [EPost b]) in P2. subst e. cbn [app pending]. cbn in T'. split; [lia|].
        intros q [Ht|Ht]; [discriminate|exact (Hn q Ht)].
      * left. rewrite E' in P2. apply (app_inv_tail (s_tr s) e [EBEnd b a]) in P2. subst e. cbn [app pending]. cbn in T'. lia.
  - subst e. inversion Nw; subst; destruct h3 as [|x [|x2 h3]]; try discriminate; cbn in *; try (injection H as ? ? ?; subst; try discriminate);
      try (destruct h3; discriminate).
    assert (t = b) by congruence. assert (m = []) by congruence. subst. split; [intros ? []|].
    right. exists (s_w s), (s_w s). destruct (bc_step s s' b St E') as [P1 P2]. split; [exact P1|]. split; [|intros n []].
    match goal with Q : s_pc s b = BRead |- _ => pose proof (pending_le s b I ltac:(rewrite Q; reflexivity) ltac:(rewrite Q; discriminate)) as PL end.
    rewrite E', P2. cbn [app pending]. lia.
Qed.
Theorem C68_broadcast_wakes_all_partial : forall s h3 b n h1, reachable s -> s_tr s = h3 ++ EBc b :: h1 -> In (EBEnd b n) h3 -> no_reg h3 ->
  (length (pending (s_tr s)) <= s_sem s)%nat /\
  (forall t, In t (pending h1) -> In (ETake t) h3 \/ In t (pending (s_tr s)) /\ (0 < s_sem s)%nat) /\
  (forall t, ~ In (EMiss t) h3).
Proof.
  intros s h3 b n h1 R E Hn N. destruct (broadcast_covers s R h3 b h1 E N) as [HM [HB|(m & a & _ & _ & HB)]]; [|exfalso; eapply HB, Hn].
  split; [exact HB|]. split; [|exact HM]. intros t Ht. destruct (pending_leaves (h3 ++ [EBc b]) h1 t Ht) as [P|[P|P]].
  - right. rewrite <- app_assoc in P. cbn [app] in P. rewrite <- E in P. split; [exact P|]. destruct (pending (s_tr s)); [destruct P|cbn in HB; lia].
  - left. apply in_app_or in P. destruct P as [P|[P|[]]]; [exact P|discriminate].
  - exfalso. apply in_app_or in P. destruct P as [P|[P|[]]]; [exact (HM t P)|discriminate].
Qed.
Print Assumptions C68_broadcast_wakes_all_partial.

(** A wait without a timeout goes on exactly when there is a token. *)
Theorem C68_blocked_iff_no_token : forall s t, reachable s -> s_pc s t = WPend false ->
  ((exists s', step s s' /\ s_pc s' t <> s_pc s t) <-> (0 < s_sem s)%nat).
Proof.
  intros s t R E. split.
  - intros (s' & St & N). inversion St; subst; clear St; cbn [go s_pc] in N;
      try (match goal with E0 : s_pc s ?v = _ |- _ => destruct (Nat.eq_dec t v) as [->|M]; [rewrite E0 in E; try discriminate E; try lia|exfalso; apply N; apply fupd_ne; exact M] end).
    + exfalso. apply N. destruct (s_sem s); cbn [go s_pc]; apply fupd_ne; congruence.
    + exfalso. apply N. destruct (0 <? s_w s)%nat; cbn [go s_pc]; apply fupd_ne; congruence.
  - intros H. destruct (s_sem s) as [|n] eqn:Es; [lia|]. eexists. split; [eapply T_take; eassumption|]. cbn [go s_pc]. rewrite fupd_eq, E. discriminate.
Qed.
Print Assumptions C68_blocked_iff_no_token.

(** The number of ticks: none (for ever) for a timeout that is not positive,
    otherwise the whole tens of the timeout, but at least one. *)
Theorem C68_ticks_partial : forall timeo, (timeo <= 0 -> ticks timeo = 0 /\ timed timeo = false) /\
  (0 < timeo -> timed timeo = true /\ 1 <= ticks timeo /\ 10 * ticks timeo <= Z.max 10 timeo /\ timeo < 10 * ticks timeo + 10).
Proof.
  intros timeo. unfold timed, ticks. destruct (Z.ltb_spec 0 timeo) as [H|H]; [split; [lia|intros _]|split; [split; reflexivity|lia]].
  cbv zeta. rewrite Z.quot_div_nonneg by lia. pose proof (Z.div_mod timeo 10 ltac:(lia)). pose proof (Z.mod_pos_bound timeo 10 ltac:(lia)).
  destruct (Z.eqb_spec (timeo / 10) 0) as [E|E]; [split; [reflexivity|lia]|]. assert (timeo / 10 =? 0 = false) as -> by (apply Z.eqb_neq; exact E). split; [reflexivity|]. lia.
Qed.
Print Assumptions C68_ticks_partial.

(** ** Refutations *)
Tactic Notation "st" uconstr(c) := match goal with R : reachable ?s |- _ =>
  let R' := fresh in eassert (R' : reachable _) by (eapply (R_step s _ R); eapply c; reflexivity); clear R; rename R' into R; cbn in R end.
Local Open Scope nat_scope.
(** A thread that begins to wait after a broadcast takes the token of one that
    waited before; that one stays blocked though nobody else is doing anything. *)
Theorem C68_broadcast_refuted : exists s h3 h1, reachable s /\ s_tr s = h3 ++ EBEnd 3 1 :: h1 /\ pending h1 = [1] /\
  In (ERet 2 true) h3 /\ s_pc s 1 = WPend false /\ (forall t, t <> 1 -> s_pc s t = Idle) /\ ~ (exists s', step s s' /\ s_pc s' 1 <> s_pc s 1).
Proof.
  pose proof R_init as R.
  st (T_lock _ 1). st (T_wait _ 1 0%Z). st (T_wlk _ 1). st (T_winc _ 1). st (T_wunl _ 1). st (T_wrel _ 1).
  st (T_bc _ 3). st (T_blk _ 3). st (T_bread _ 3). st (T_bpost _ 3). st (T_bend _ 3). st (T_bunl _ 3).
  st (T_lock _ 2). st (T_wait _ 2 0%Z). st (T_wlk _ 2). st (T_winc _ 2). st (T_wunl _ 2). st (T_wrel _ 2). st (T_take _ 2).
  st (T_wlk2 _ 2). st (T_wdec _ 2). st (T_wunl2 _ 2). st (T_wmu _ 2). st (T_unlock _ 2).
  match type of R with reachable ?x => exists x end. exists [ERet 2 true; EDec 2; ETake 2; EReg 2 false], [EPost 3; EBc 3; EReg 1 false].
  split; [exact R|]. split; [reflexivity|]. split; [reflexivity|]. split; [left; reflexivity|]. split; [reflexivity|]. split.
  - intros t N. cbn. unfold fupd. repeat (match goal with |- context [(t =? ?k)%nat] => destruct (Nat.eqb_spec t k); [subst; try reflexivity; contradiction|] end). reflexivity.
  - rewrite C68_blocked_iff_no_token; [cbn; lia|exact R|reflexivity].
Qed.
Print Assumptions C68_broadcast_refuted.
(** A second signal for the one waiter is kept: a later wait returns 0 at once,
    although nothing was signalled since it began. *)
Theorem C68_no_spurious_refuted : exists s h3 h1, reachable s /\ s_tr s = ERet 2 true :: h3 ++ EReg 2 false :: h1 /\
  waiting h1 = [] /\ count is_sig h3 = 0 /\ count is_post h3 = 0 /\ (forall b, ~ In (EBc b) h3).
Proof.
  pose proof R_init as R.
  st (T_lock _ 1). st (T_wait _ 1 0%Z). st (T_wlk _ 1). st (T_winc _ 1). st (T_wunl _ 1). st (T_wrel _ 1).
  st (T_sig _ 3). st (T_slk _ 3). st (T_schk _ 3). st (T_sunl _ 3).
  st (T_sig _ 3). st (T_slk _ 3). st (T_schk _ 3). st (T_sunl _ 3).
  st (T_take _ 1). st (T_wlk2 _ 1). st (T_wdec _ 1). st (T_wunl2 _ 1). st (T_wmu _ 1). st (T_unlock _ 1).
  st (T_lock _ 2). st (T_wait _ 2 0%Z). st (T_wlk _ 2). st (T_winc _ 2). st (T_wunl _ 2). st (T_wrel _ 2). st (T_take _ 2).
  st (T_wlk2 _ 2). st (T_wdec _ 2). st (T_wunl2 _ 2). st (T_wmu _ 2).
  match type of R with reachable ?x => exists x end. eexists [EDec 2; ETake 2], _.
  split; [exact R|]. split; [reflexivity|]. repeat split; cbn; intuition discriminate.
Qed.
Print Assumptions C68_no_spurious_refuted.
(** A timeout of 0 is a wait for ever, not a look; one of 19 ms is one of 10 ms. *)
Theorem C68_timeouts_refuted : timed (event_timeo 0) = false /\ (10 * ticks (event_timeo 19) < 19)%Z /\ sem_ticks 0 = 0%Z /\
  exists s, reachable s /\ s_pc s 1 = WPend (timed 0) /\ ~ (exists s', step s s' /\ s_pc s' 1 <> s_pc s 1).
Proof.
  split; [reflexivity|]. split; [reflexivity|]. split; [reflexivity|]. pose proof R_init as R.
  st (T_lock _ 1). st (T_wait _ 1 0%Z). st (T_wlk _ 1). st (T_winc _ 1). st (T_wunl _ 1). st (T_wrel _ 1).
  match type of R with reachable ?x => exists x end. split; [exact R|]. split; [reflexivity|]. rewrite C68_blocked_iff_no_token; [cbn; lia|exact R|reflexivity].
Qed.
Print Assumptions C68_timeouts_refuted.

(** ** Executions: two signals wake two waiters; a timeout meets a late signal. *)
Example condac_two_signals : exists s h3 h1, reachable s /\ s_tr s = h3 ++ h1 /\ no_reg h3 /\ pending h1 = [2; 1] /\
  count is_sig h3 = 2 /\ takers h3 = [1; 2] /\ In (ERet 1 true) h3 /\ In (ERet 2 true) h3.
Proof.
  pose proof R_init as R.
  st (T_lock _ 1). st (T_wait _ 1 0%Z). st (T_wlk _ 1). st (T_winc _ 1). st (T_wunl _ 1). st (T_wrel _ 1).
  st (T_lock _ 2). st (T_wait _ 2 50%Z). st (T_wlk _ 2). st (T_winc _ 2). st (T_wunl _ 2). st (T_wrel _ 2). st (T_tmo _ 2).
  st (T_sig _ 3). st (T_slk _ 3). st (T_schk _ 3). st (T_sunl _ 3).
  st (T_sig _ 3). st (T_slk _ 3). st (T_schk _ 3). st (T_sunl _ 3).
  st (T_wlk2 _ 2). st (T_wdec _ 2). st (T_acc _ 2). st (T_wunl2 _ 2). st (T_wmu _ 2). st (T_unlock _ 2).
  st (T_take _ 1). st (T_wlk2 _ 1). st (T_wdec _ 1). st (T_wunl2 _ 1). st (T_wmu _ 1).
  match type of R with reachable ?x => exists x end.
  exists [ERet 1 true; EDec 1; ETake 1; ERet 2 true; ETake 2; EDec 2; EPost 3; ESig 3; EPost 3; ESig 3; ETmo 2], [EReg 2 true; EReg 1 false].
  split; [exact R|]. split; [reflexivity|]. split; [intros x Hx; cbn in Hx; intuition; subst; reflexivity|]. cbn. intuition.
Qed.
(** A broadcast for two waiters, one of which has not woken yet. *)
Example condac_broadcast : exists s h3 h1, reachable s /\ s_tr s = h3 ++ EBc 3 :: h1 /\ In (EBEnd 3 2) h3 /\ no_reg h3 /\ pending h1 = [2; 1] /\ pending (s_tr s) = [2] /\ s_sem s = 1.
Proof.
  pose proof R_init as R.
  st (T_lock _ 1). st (T_wait _ 1 0%Z). st (T_wlk _ 1). st (T_winc _ 1). st (T_wunl _ 1). st (T_wrel _ 1).
  st (T_lock _ 2). st (T_wait _ 2 50%Z). st (T_wlk _ 2). st (T_winc _ 2). st (T_wunl _ 2). st (T_wrel _ 2).
  st (T_bc _ 3). st (T_blk _ 3). st (T_bread _ 3). st (T_bpost _ 3). st (T_take _ 1). st (T_bpost _ 3). st (T_bend _ 3). st (T_bunl _ 3).
  match type of R with reachable ?x => exists x end.
  exists [EBEnd 3 2; EPost 3; ETake 1; EPost 3], [EReg 2 true; EReg 1 false].
  split; [exact R|]. split; [reflexivity|]. split; [left; reflexivity|]. split; [intros x Hx; cbn in Hx; intuition; subst; reflexivity|]. cbn. auto.
Qed.
(** A timeout with nothing signalled. *)
Example condac_timeout : exists s, reachable s /\ s_tr s = [ERet 1 false; EMiss 1; EDec 1; ETmo 1; EReg 1 true] /\ s_mu s = Some 1.
Proof.
  pose proof R_init as R.
  st (T_lock _ 1). st (T_wait _ 1 7%Z). st (T_wlk _ 1). st (T_winc _ 1). st (T_wunl _ 1). st (T_wrel _ 1). st (T_tmo _ 1).
  st (T_wlk2 _ 1). st (T_wdec _ 1). st (T_acc _ 1). st (T_wunl2 _ 1). st (T_wmu _ 1).
  match type of R with reachable ?x => exists x end. split; [exact R|]. split; reflexivity.
Qed.
