(** * Further invariants: life cycle and history, limits, wake-ups, waiters *)
From Verif Require Import Base Mpq MpqInv MpqLife MpqSpec MpqTrace.

(** *** The life cycle in the history *)
Definition past_fini (pc : cpc) : bool := match pc with XClear | XFree | XRelease _ | XDead => true | _ => false end.
Record marks_ok (q : qid) (Q : queue) (h : list event) : Prop := {
  mk_made : forall t m, (exists nb, In (ECreate q t m nb) h) <-> q_made Q = true /\ q_thread Q = t /\ q_max Q = m;
  mk_gone : In (EGone q) h <-> before_exit (q_pc Q) = false;
  mk_fini : In (EFini q) h <-> past_fini (q_pc Q) = true;
  mk_dest : In (EDestroyed q) h <-> released (q_pc Q) = true;
  mk_start : forall t r k, In (EStart t q r k) h -> q_made Q = true /\ t = q_thread Q }.
Lemma in_snoc {A} (x y : A) l : In x (l ++ [y]) <-> In x l \/ y = x.
Proof. rewrite in_app_iff. cbn. tauto. Qed.
Lemma created_snoc q t m h e : (exists nb, In (ECreate q t m nb) (h ++ [e])) <-> (exists nb, In (ECreate q t m nb) h) \/ (exists nb, e = ECreate q t m nb).
Proof.
  split.
  - intros [nb H]. apply in_snoc in H. destruct H as [H|H]; eauto.
  - intros [[nb H]|[nb H]]; exists nb; apply in_snoc; auto.
Qed.
Lemma marks_step s s' : base_ok s -> traces marks_ok s -> step s s' -> traces marks_ok s'.
Proof.
  intros B R H. traces_step.
  all: intros; match goal with |- marks_ok ?q _ _ => pose proof (R q) as HR end; cbn [rev app]; rewrite ?app_nil_r.
  all: try (ifs; exact HR).
  all: destruct HR as [L1 L2 L3 L4 L5]; ifs; constructor; proj; intros; try rewrite in_snoc; try rewrite created_snoc; try rewrite HP in *; cbn [before_exit past_fini released] in *.
  all: try (rewrite ?L1, ?L2, ?L3, ?L4; intuition congruence).
  all: try (rewrite L1; split; [intros [X|[nb0 X]]; [tauto|congruence]|tauto]; fail).
  all: try (rewrite (bs_new _ B q) in L1 by assumption; rewrite L1; cbn [q_made blank]; split;
     [intros [[X _]|[nb0 X]]; [discriminate|injection X as <- <-; auto]|intros (_ & <- & <-); right; eauto]).
  all: try (eapply L5; eassumption).
  all: try match goal with H : In (EStart _ _ _ _) _ |- _ => rewrite in_snoc in H; destruct H as [H|H];
     [apply L5 in H; try (split; [congruence|tauto]); try exact H|try discriminate H; try (injection H; intros; congruence)] end.
  all: try (exfalso; destruct H3; congruence).
  all: try (rewrite (bs_new _ B q) in * by assumption; cbn in *; rewrite ?L2, ?L3, ?L4; intuition congruence).
  all: try (injection H1 as <- <- <- <-; destruct (bs_drv _ B _ _ HD) as (? & ? & ?); split; congruence).
  all: try (try destruct ph; try destruct did; cbn in *; rewrite ?L2, ?L3, ?L4; tauto).
  destruct (bs_drv _ B _ _ HD) as (? & ? & ?). match goal with H : EStart _ _ _ _ = _ |- _ => injection H; intros end; split; congruence.
Qed.

(** *** Requests made of the queue by its own thread in fini *)
Definition quiet_ok (q : qid) (Q : queue) : Prop := q_pc Q = XFini -> q_pend Q = [].
(** Who may add to a queue at a given moment. *)
Lemma adder s t rest q r treat held code pc : inv s -> s_stack s t = FQueue q r treat held code pc :: rest ->
  pc = AAdd \/ pc = AWait -> In t (q_refs (s_q s q)) \/
    (s_drv s t = Some q /\ live (q_pc (s_q s q)) = true /\ s_stack s t <> []).
Proof.
  intros I Hs Hp. pose proof (iv_frames _ I t q) as [F _]. rewrite Hs in F. apply Forall_inv in F.
  assert (Hh : held = true \/ mine (s_drv s t) q (s_q s q)) by (destruct Hp; subst pc; cbn in F; tauto).
  destruct Hh as [->|[H1 H2]]; [left; eapply put_in; [apply (iv_refs _ I)|exact Hs|reflexivity]|].
  right. repeat split; auto. rewrite Hs. discriminate.
Qed.
Lemma adder_final s t rest q r treat held code pc : inv s -> s_stack s t = FQueue q r treat held code pc :: rest ->
  pc = AAdd \/ pc = AWait -> final (q_pc (s_q s q)) = true ->
  s_drv s t = Some q /\ ((exists ph r k, q_pc (s_q s q) = PRun ph r k) \/ (exists ph r, q_pc (s_q s q) = PDec ph r) \/ q_pc (s_q s q) = XClear).
Proof.
  intros I Hs Hp Hf. destruct (adder _ _ _ _ _ _ _ _ _ I Hs Hp) as [H|(H1 & H2 & H3)].
  - rewrite (lf_final _ _ (iv_life _ I q) Hf) in H. destruct H.
  - split; [exact H1|]. pose proof (iv_idle _ I t q H1) as H. destruct (q_pc (s_q s q)); try contradiction; try discriminate; eauto.
Qed.
Lemma quiet_step s s' : inv s -> queues quiet_ok s -> step s s' -> queues quiet_ok s'.
Proof.
  intros I R H. queues_step.
  all: match goal with |- quiet_ok ?q _ => pose proof (R q) as HR end; try (ifs; exact HR).
  all: unfold quiet_ok in *; ifs; proj; auto; try discriminate.
  all: try (intros E1; exfalso; eapply adder_final in I; [|eassumption|auto|rewrite E1; reflexivity];
    destruct I as [_ [(? & ? & ? & Hx)|[(? & ? & Hx)|Hx]]]; congruence).
  destruct ph, did; cbn; try discriminate. intros _.
  pose proof (lf_did _ _ (iv_life _ I q) _ _ HP). discriminate.
Qed.

(** *** Synchronous calls: the flag is set only for finished requests *)
Definition syncing (q : qid) (Q : queue) (h : list event) : Prop := forall ph r, q_pc Q = PSync ph r -> In r (dones q h).
Record sync_ok (s : state) : Prop := {
  sy_pc : traces syncing s;
  sy_flag : forall n, In n (s_sync s) -> exists q r, In r (dones q (hist s)) /\ r_id r = n }.
Lemma sync_pc_step s s' : traces syncing s -> step s s' -> traces syncing s'.
Proof.
  intros R H. traces_step.
  all: intros; match goal with |- syncing ?q _ _ => pose proof (R q) as HR end; unfold syncing in *; proj.
  all: try (ifs; proj; intros; rewrite dones_app; apply in_or_app; left; eapply HR; eassumption).
  all: try (ifs; intros; discriminate).
  all: try (destruct ph; try destruct did; ifs; intros; discriminate).
  intros ph0 r0 E. injection E as <- <-. rewrite dones_app. apply in_or_app. right. cbn. rewrite Nat.eqb_refl. left. reflexivity.
Qed.
Lemma step_hist s s' : step s s' -> exists es, hist s' = hist s ++ es.
Proof. intros H. destruct (step_event _ _ H) as [E|[e E]]; [exists []; rewrite app_nil_r; exact E|exists [e]; exact E]. Qed.
Lemma sync_step s s' : sync_ok s -> step s s' -> sync_ok s'.
Proof.
  intros [A B] H. constructor; [eapply sync_pc_step; eassumption|].
  intros n Hn. destruct (step_hist _ _ H) as [es E]. rewrite E.
  assert (Hm : (exists q r, In r (dones q (hist s)) /\ r_id r = n) -> exists q r, In r (dones q (hist s ++ es)) /\ r_id r = n).
  { intros (q & r & H1 & H2). exists q, r. split; [rewrite dones_app; apply in_or_app; auto|exact H2]. }
  apply Hm. clear Hm E es. 
  destruct H; at_pcs; unfold add_section in Hn; try (revert Hn; ifs; proj; auto; fail).
  proj in Hn. destruct Hn as [<-|Hn]; [|auto]. exists q, r. split; [|reflexivity]. exact (A q _ _ HP).
Qed.

(** *** The limit *)
Definition in_queue (Q : queue) : list req := finished (q_pc Q) ++ running (q_pc Q) ++ q_batch Q ++ q_pend Q.
Definition bound_ok (q : qid) (Q : queue) : Prop :=
  q_made Q = true -> Z.of_nat (length (filter ordinary (in_queue Q))) <= q_max Q.
Lemma in_queue_cnt q Q : cnt_ok q Q -> q_cnt Q = Z.of_nat (length (in_queue Q)).
Proof.
  intros [C _ _ _]. unfold in_queue. rewrite C, !app_length.
  destruct (q_pc Q); cbn [finished running in_hand length]; lia.
Qed.
Lemma filter_length_le {A} (f : A -> bool) l : (length (filter f l) <= length l)%nat.
Proof. induction l as [|a l IH]; [auto|]. cbn. destruct (f a); cbn; lia. Qed.
Lemma bound_less Q Q' : q_made Q' = q_made Q -> q_max Q' = q_max Q ->
  (length (filter ordinary (in_queue Q')) <= length (filter ordinary (in_queue Q)))%nat -> forall q, bound_ok q Q -> bound_ok q Q'.
Proof. unfold bound_ok. intros -> -> H q B Hm. specialize (B Hm). lia. Qed.
Lemma bound_add q Q Q' r : cnt_ok q Q -> bound_ok q Q -> r_nofail r || (q_cnt Q <? q_max Q) = true ->
  q_made Q' = q_made Q -> q_max Q' = q_max Q -> q_pc Q' = q_pc Q -> q_batch Q' = q_batch Q -> q_pend Q' = q_pend Q ++ [r] ->
  bound_ok q Q'.
Proof.
  intros C B E E1 E2 E3 E4 E5 Hm. rewrite E1 in Hm. specialize (B Hm). pose proof (in_queue_cnt _ _ C) as HC.
  unfold in_queue in *. rewrite E2, E3, E4, E5. rewrite !app_assoc in *. rewrite filter_app, app_length. cbn [filter].
  unfold ordinary at 2. destruct (r_nofail r); cbn [negb length orb] in *; [lia|].
  apply Z.ltb_lt in E. match type of HC with _ = Z.of_nat (length ?l) => pose proof (filter_length_le ordinary l) end. lia.
Qed.
Lemma bound_step s s' : inv s -> queues bound_ok s -> step s s' -> queues bound_ok s'.
Proof.
  intros I R H. queues_step.
  all: match goal with |- bound_ok ?q _ => pose proof (R q) as HR; pose proof (iv_cnt _ I q) as HC end; try (ifs; exact HR).
  all: try match goal with |- context [match q_pend ?Q with _ => _ end] => destruct (q_pend Q) eqn:EP end.
  all: ifs; try (eapply bound_less; [| | |exact HR]; [reflexivity|reflexivity|]; unfold in_queue; proj; try rewrite HP; try destruct ph; try destruct did;
     cbn [finished running app after_funcs]; try rewrite EP; rewrite ?filter_app, ?app_length; cbn [length]; lia).
  all: try (eapply bound_add; [exact HC|exact HR|eassumption|reflexivity..]).
  - intros _. cbn. lia.
  - eapply bound_less; [| | |exact HR]; [reflexivity|reflexivity|]. unfold in_queue. proj. rewrite HP, (ct_batch _ _ HC) by (rewrite HP; reflexivity).
    cbn [finished running app]. rewrite app_nil_r. lia.
  - eapply bound_less; [| | |exact HR]; [reflexivity|reflexivity|]. unfold in_queue. proj. rewrite HP, H0. 
    cbn [finished running app]. lia.
  - eapply bound_less; [| | |exact HR]; [reflexivity|reflexivity|]. unfold in_queue. proj. rewrite HP.
    cbn [finished running app filter]. destruct (ordinary r); cbn [length]; lia.
Qed.

(** *** Waking the thread of the queue *)
Definition kicker (q : qid) (r : req) (st : list frame) : Prop :=
  match st with FQueue q' r' _ _ _ pc :: _ => q' = q /\ r' = r /\ (pc = AKick \/ pc = AKickW) | _ => False end.
Definition dkicker (q : qid) (st : list frame) : Prop :=
  match st with FDestroy q' _ _ _ _ _ pc :: _ => q' = q /\ (pc = DKick \/ pc = DKickW) | _ => False end.
Definition lv (pc : cpc) : nat :=
  match pc with PReT _ _ => 1 | PCount _ _ => 2 | PWaitSet true | PPoll true => 3 | _ => 0 end%nat.
Record wake_q (s : state) (q : qid) : Prop := {
  wk_need : (1 <= lv (q_pc (s_q s q)))%nat -> q_need (s_q s q) = true;
  wk_term : (2 <= lv (q_pc (s_q s q)))%nat -> q_term (s_q s q) = true ->
     (0 < q_pipe (s_q s q))%nat \/ exists t, dkicker q (s_stack s t);
  wk_pend : (3 <= lv (q_pc (s_q s q)))%nat -> forall r, In r (q_pend (s_q s q)) ->
     (0 < q_pipe (s_q s q))%nat \/ exists t, kicker q r (s_stack s t) }.
Definition wake_ok (s : state) : Prop := forall q, wake_q s q.

Lemma wake_act s t st q Q es :
  wake_ok s ->
  (* the queue itself *)
  ((1 <= lv (q_pc Q))%nat -> q_need Q = true) ->
  ((2 <= lv (q_pc Q))%nat -> q_term Q = true -> (0 < q_pipe Q)%nat \/ dkicker q st \/ exists t', t' <> t /\ dkicker q (s_stack s t')) ->
  ((3 <= lv (q_pc Q))%nat -> forall r, In r (q_pend Q) -> (0 < q_pipe Q)%nat \/ kicker q r st \/ exists t', t' <> t /\ kicker q r (s_stack s t')) ->
  (* other queues *)
  (forall q', q' <> q -> (dkicker q' (s_stack s t) -> dkicker q' st) /\ (forall r, kicker q' r (s_stack s t) -> kicker q' r st)) ->
  wake_ok (act t st q Q es s).
Proof.
  intros W H1 H2 H3 H4 q0. constructor; proj; unfold upd at 1 2; destruct (Nat.eqb_spec q0 q) as [->|Hq].
  - exact H1.
  - apply (wk_need _ _ (W q0)).
  - rewrite !upd_same. intros L T. destruct (H2 L T) as [X|[X|(t' & N & X)]]; [auto| |].
    + right. exists t. rewrite upd_same. exact X.
    + right. exists t'. rewrite upd_other by exact N. exact X.
  - rewrite !upd_other by exact Hq. intros L T. destruct (wk_term _ _ (W q0) L T) as [X|[t' X]]; [auto|]. right.
    destruct (Nat.eq_dec t' t) as [->|N]; [exists t; rewrite upd_same; apply (H4 q0 Hq), X|exists t'; rewrite upd_other by exact N; exact X].
  - rewrite !upd_same. intros L r Hr. destruct (H3 L r Hr) as [X|[X|(t' & N & X)]]; [auto| |].
    + right. exists t. rewrite upd_same. exact X.
    + right. exists t'. rewrite upd_other by exact N. exact X.
  - rewrite !upd_other by exact Hq. intros L r Hr. destruct (wk_pend _ _ (W q0) L r Hr) as [X|[t' X]]; [auto|]. right.
    destruct (Nat.eq_dec t' t) as [->|N]; [exists t; rewrite upd_same; apply (H4 q0 Hq), X|exists t'; rewrite upd_other by exact N; exact X].
Qed.
Lemma wake_drv t d s : wake_ok s -> wake_ok (set_drv t d s). Proof. intros W q. destruct (W q). constructor; assumption. Qed.
Lemma wake_next s : wake_ok s -> wake_ok (next s). Proof. intros W q. destruct (W q). constructor; assumption. Qed.
Lemma wake_sync n s : wake_ok s -> wake_ok (set_sync n s). Proof. intros W q. destruct (W q). constructor; assumption. Qed.
Lemma wake_rel n s : wake_ok s -> wake_ok (set_rel n s). Proof. intros W q. destruct (W q). constructor; assumption. Qed.

Lemma wk_term_split s q t : wake_ok s -> (2 <= lv (q_pc (s_q s q)))%nat -> q_term (s_q s q) = true ->
  (0 < q_pipe (s_q s q))%nat \/ dkicker q (s_stack s t) \/ exists t', t' <> t /\ dkicker q (s_stack s t').
Proof. intros W L T. destruct (wk_term _ _ (W q) L T) as [X|[t' X]]; [auto|]. right. destruct (Nat.eq_dec t' t) as [->|]; eauto. Qed.
Lemma wk_pend_split s q t r : wake_ok s -> (3 <= lv (q_pc (s_q s q)))%nat -> In r (q_pend (s_q s q)) ->
  (0 < q_pipe (s_q s q))%nat \/ kicker q r (s_stack s t) \/ exists t', t' <> t /\ kicker q r (s_stack s t').
Proof. intros W L T. destruct (wk_pend _ _ (W q) L r T) as [X|[t' X]]; [auto|]. right. destruct (Nat.eq_dec t' t) as [->|]; eauto. Qed.
Lemma lv_idle s t q : inv s -> (1 <= lv (q_pc (s_q s q)))%nat -> is_this s t q = true -> s_stack s t = [].
Proof.
  intros I L H. apply is_this_mine in H. destruct H as [H _]. pose proof (iv_idle _ I t q H) as HI.
  destruct (q_pc (s_q s q)); cbn in L; try lia; exact HI.
Qed.

Lemma wake_step s s' : inv s -> wake_ok s -> step s s' -> wake_ok s'.
Proof.
  intros I W H.
  destruct H; at_pcs; addsec; try apply wake_drv; try apply wake_next; try apply wake_sync; try apply wake_rel; apply wake_act; try assumption.
  (* other queues *)
  all: try (match goal with H : s_stack _ _ = _ |- forall q', q' <> _ -> _ => rewrite H; cbn [kicker dkicker]; intros q' Hq'; split; intros; ifs; cbn [kicker dkicker]; try tauto; intuition congruence end).
  all: try (match goal with H : user _ _ |- forall q', q' <> _ -> _ => destruct H as [[_ H]|[rr H]]; rewrite H; cbn [kicker dkicker]; tauto end).
  all: try (intros; split; [tauto|intros; assumption]).
  (* need *)
  all: try match goal with |- (1 <= lv (q_pc ?X))%nat -> q_need ?X = true => 
     match X with context [s_q ?s0 ?q] => pose proof (wk_need _ _ (W q)) as WN end; ifs; proj; try exact WN; try rewrite HP in *; cbn [lv];
     unfold after_funcs; try destruct ph; try destruct did; ifs; cbn [lv]; try (intros; lia); auto end.
  all: try (cbn; intros; lia).
  (* the thread of the queue *)
  all: try (match goal with HP : q_pc (s_q ?s0 ?q) = _ |- (_ <= lv _)%nat -> _ =>
      pose proof (wk_term_split s0 q t W) as OT; pose proof (fun r => wk_pend_split s0 q t r W) as OP; rewrite HP in OT, OP; cbn [lv] in OT, OP;
      rewrite HS in OT, OP;
      proj; unfold after_funcs; try destruct ph; try destruct did; ifs; cbn [lv]; intros L; try (exfalso; cbn [lv] in L; lia); auto; fail end).
  (* other threads *)
  all: try (match goal with |- (2 <= lv (q_pc ?X))%nat -> _ => match X with context [s_q ?s0 ?q] =>
      pose proof (wk_term_split s0 q t W) as OT; proj; intros L T; pose proof (wk_need _ _ (W q) ltac:(lia)) as WN;
      try specialize (OT L T) end end).
  all: try (match goal with |- (3 <= lv (q_pc ?X))%nat -> _ => match X with context [s_q ?s0 ?q] =>
      pose proof (fun r => wk_pend_split s0 q t r W) as OP; proj; intros L r9 Hr; pose proof (wk_need _ _ (W q) ltac:(lia)) as WN;
      try specialize (OP r9 L Hr) end end).
  all: try (match goal with U : user _ _ |- _ => destruct U as [[_ U]|[rr U]]; rewrite U in * end).
  all: try (match goal with H : s_stack _ _ = _ |- _ => rewrite H in * end).
  all: cbn [kicker dkicker] in *.
  all: try tauto.
  all: try (intuition (try congruence; try lia); fail).
  all: try (match goal with |- context [is_this ?s0 ?t0 ?q0] => destruct (is_this s0 t0 q0) eqn:ET; 
      [exfalso; rewrite (lv_idle s0 t0 q0 I ltac:(lia) ET) in *; discriminate|]; cbn [kicker dkicker]; tauto end).
  all: try (destruct (is_this s t q) eqn:ET; [exfalso; pose proof (lv_idle s t q I ltac:(lia) ET); congruence|];
    rewrite in_snoc in Hr; destruct Hr as [Hr| ->]; [specialize (OP _ L Hr); intuition congruence|tauto]).
  - pose proof (wk_term_split s q0 t W) as OT. rewrite H in OT. cbn [dkicker] in OT. ifs; proj; intros L T; specialize (OT L T); intuition congruence.
  - pose proof (fun r => wk_pend_split s q0 t r W) as OP. rewrite H in OP. cbn [kicker] in OP. ifs; proj; intros L r9 Hr; specialize (OP r9 L Hr); intuition congruence.
  - proj. destruct (q_term (s_q s q)) eqn:ET; cbn [lv]; [lia|congruence].
  - proj. destruct (0 <? q_cnt (s_q s q)) eqn:EC; cbn [lv]; [lia|]. intros _ r9 Hr. exfalso.
    apply Z.ltb_ge in EC. rewrite (ct_cnt _ _ (iv_cnt _ I q)) in EC. destruct (q_pend (s_q s q)); [destruct Hr|].
    cbn [length] in EC. rewrite HP in EC. cbn [in_hand] in EC. lia.
Qed.

(** *** Waiters *)
Definition waits (q : qid) (h : list event) : list nat :=
  flat_map (fun e => match e with EAddWait _ q' w => if (q' =? q)%nat then [w] else [] | _ => [] end) h.
Lemma waits_app q h h' : waits q (h ++ h') = waits q h ++ waits q h'. Proof. apply flat_map_app. Qed.
Definition waiters_ok (q : qid) (Q : queue) (h : list event) : Prop := q_waiters Q = waits q h.
Lemma waiters_step s s' : base_ok s -> traces waiters_ok s -> step s s' -> traces waiters_ok s'.
Proof.
  intros B R H. traces_step.
  all: intros; match goal with |- waiters_ok ?q _ _ => pose proof (R q) as HR end; unfold waiters_ok in *; cbn [rev app]; rewrite ?app_nil_r, ?waits_app;
   cbn [waits flat_map]; rewrite ?app_nil_r.
  all: try (ifs; exact HR).
  all: try (rewrite (bs_new _ B q) in HR by assumption; exact HR).
  all: try match goal with |- context [(?x =? ?y)%nat] => destruct (Nat.eqb_spec x y); try congruence end; rewrite ?app_nil_r; auto.
  proj. rewrite HR. reflexivity.
Qed.
Record rel_q (s : state) (q : qid) : Prop := {
  rl_in : forall ws, q_pc (s_q s q) = XRelease ws -> forall w, In w ws -> In w (q_waiters (s_q s q));
  rl_out : forall ws, q_pc (s_q s q) = XRelease ws -> forall w, In w (q_waiters (s_q s q)) -> In w ws \/ In w (s_rel s);
  rl_dead : q_pc (s_q s q) = XDead -> forall w, In w (q_waiters (s_q s q)) -> In w (s_rel s) }.
Record rel_ok (s : state) : Prop := {
  rl_q : forall q, rel_q s q;
  rl_rel : forall w, In w (s_rel s) -> exists q, In w (q_waiters (s_q s q)) /\ released (q_pc (s_q s q)) = true }.
Lemma rel_act s t st q Q es : rel_ok s ->
  (forall ws, q_pc Q = XRelease ws -> forall w, In w ws -> In w (q_waiters Q)) ->
  (forall ws, q_pc Q = XRelease ws -> forall w, In w (q_waiters Q) -> In w ws \/ In w (s_rel s)) ->
  (q_pc Q = XDead -> forall w, In w (q_waiters Q) -> In w (s_rel s)) ->
  (forall w, In w (q_waiters (s_q s q)) -> released (q_pc (s_q s q)) = true -> In w (q_waiters Q) /\ released (q_pc Q) = true) ->
  rel_ok (act t st q Q es s).
Proof.
  intros [A B] H1 H2 H3 H4. constructor.
  - intros q0. constructor; proj; unfold upd; destruct (Nat.eqb_spec q0 q) as [->|]; try assumption; apply (A q0).
  - intros w Hw. proj in Hw. destruct (B w Hw) as (q0 & X & Y). exists q0. proj. unfold upd.
    destruct (Nat.eqb_spec q0 q) as [->|]; auto.
Qed.
Lemma rel_drv t d s : rel_ok s -> rel_ok (set_drv t d s).
Proof. intros [A B]. constructor; [intros q; destruct (A q); constructor|]; assumption. Qed.
Lemma rel_next s : rel_ok s -> rel_ok (next s).
Proof. intros [A B]. constructor; [intros q; destruct (A q); constructor|]; assumption. Qed.
Lemma rel_sync n s : rel_ok s -> rel_ok (set_sync n s).
Proof. intros [A B]. constructor; [intros q; destruct (A q); constructor|]; assumption. Qed.
Lemma rel_step s s' : inv s -> rel_ok s -> step s s' -> rel_ok s'.
Proof.
  intros I R H.
  destruct H; at_pcs; addsec; try apply rel_drv; try apply rel_next; try apply rel_sync.
  all: try (match goal with |- rel_ok (act _ _ ?q _ _ ?s) => destruct (rl_q _ R q) as [R1 R2 R3] end; apply rel_act;
    [exact R|..]; ifs; proj; try rewrite HP; auto; fail).
  all: try (match goal with |- rel_ok (act _ _ ?q _ _ ?s) => destruct (rl_q _ R q) as [R1 R2 R3] end; apply rel_act;
    [exact R|..]; proj; try rewrite HP; unfold after_funcs; try destruct ph; try destruct did; ifs; cbn [released]; intros; discriminate).
  - apply rel_act; [exact R|discriminate..|]. rewrite (bs_new _ (iv_base _ I) q) by assumption. intros w [].
  - assert (Hf : final (q_pc (s_q s q)) = false).
    { destruct (final (q_pc (s_q s q))) eqn:E; [|reflexivity]. exfalso.
      pose proof (put_in _ _ _ _ _ (iv_refs _ I) H eq_refl) as X.
      rewrite (lf_final _ _ (iv_life _ I q) E) in X. destruct X. }
    apply rel_act; [exact R|..]; proj; try (intros ws E; rewrite E in Hf; discriminate).
    + intros E; rewrite E in Hf; discriminate.
    + intros w0 _ E. destruct (q_pc (s_q s q)); discriminate.
  - apply rel_act; [exact R|..]; proj; try discriminate.
    + intros ws E w. injection E as <-. auto.
    + intros ws E w. injection E as <-. auto.
    + intros w Hw _. auto.
  - destruct (rl_q _ R q) as [R1 R2 R3]. destruct R as [A B]. constructor.
    + intros q0. constructor; proj; unfold upd; destruct (Nat.eqb_spec q0 q) as [->|]; proj.
      * intros ws0 E w0. injection E as <-. intros Hin. apply (R1 _ HP). right. exact Hin.
      * intros ws0 E. apply (rl_in _ _ (A q0) _ E).
      * intros ws0 E w0 Hw. injection E as <-. destruct (R2 _ HP w0 Hw) as [[->|X]|X]; auto; right; [left|right]; auto.
      * intros ws0 E w0 Hw. destruct (rl_out _ _ (A q0) _ E w0 Hw); auto. right. right. assumption.
      * discriminate.
      * intros E w0 Hw. right. apply (rl_dead _ _ (A q0) E w0 Hw).
    + proj. intros w0 [<-|Hw].
      * exists q. rewrite upd_same. proj. split; [|reflexivity]. apply (R1 _ HP). left. reflexivity.
      * destruct (B w0 Hw) as (q0 & X & Y). exists q0. unfold upd. destruct (Nat.eqb_spec q0 q) as [->|]; proj; auto.
  - destruct (rl_q _ R q) as [R1 R2 R3]. apply rel_act; [exact R|..]; proj; try discriminate.
    + intros _ w Hw. destruct (R2 _ HP w Hw) as [[]|X]; exact X.
    + auto.
Qed.
