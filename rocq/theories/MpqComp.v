(** * Invariants about calls and completions *)
From Verif Require Import Base Mpq MpqInv MpqLife MpqSpec MpqTrace MpqMore.

(** *** Frames of completions *)
Definition forig (f : frame) : Prop :=
  match f with
  | FQueue _ r _ _ _ pc =>
      match pc with
      | AGet | ACheck | AWait | AInline | ASync => r_orig r = None
      | ACGet => r_orig r <> None /\ r_nofail r = true /\ r_sync r = false
      | _ => r_orig r <> None -> r_nofail r = true /\ r_sync r = false
      end
  | _ => True
  end.
Definition forigs (s : state) : Prop := forall t f, In f (s_stack s t) -> forig f.
Lemma forig_act s t st q Q es : forigs s -> (forall f, In f st -> forig f) -> forigs (act t st q Q es s).
Proof. intros H H1 t0 f. proj. unfold upd. destruct (t0 =? t)%nat; eauto. Qed.
Lemma forig_step s s' : forigs s -> step s s' -> forigs s'.
Proof.
  intros R H.
  destruct H; at_pcs; addsec;
   try match goal with |- forigs (set_drv _ _ ?x) => change (forigs x) | |- forigs (next ?x) => change (forigs x) | |- forigs (set_sync _ ?x) => change (forigs x) | |- forigs (set_rel _ ?x) => change (forigs x) end;
   apply forig_act; try assumption.
  all: try match goal with H : s_stack _ ?t = ?f :: _ |- _ => pose proof (R t f ltac:(rewrite H; left; reflexivity)) as HT; cbn [forig] in HT end.
  all: try (intros f Hf; cbn [In] in Hf; repeat match type of Hf with
         | _ \/ _ => destruct Hf as [<-|Hf]
         | False => destruct Hf end;
       try (apply (R t); match goal with H : s_stack _ _ = _ |- _ => rewrite H; right; exact Hf end);
       try (apply (R t); exact Hf)).
  all: unfold after_kick; ifs; cbn [forig]; try exact HT; try congruence; try tauto.
  all: try (intros HO; specialize (HT HO); destruct HT; congruence).
  all: try (intros; subst; repeat split; auto; discriminate).
  all: rewrite ?Bool.orb_false_iff in *; destruct (r_orig r) eqn:EO; [exfalso; destruct HT as [? ?]; [congruence|]; try intuition congruence|reflexivity].
Qed.

(** *** Every decision is about a request that was made *)
Definition ev_ok (h : list event) (e : event) : Prop :=
  match e with
  | EAccept t q r => In (ECall t q r) h
  | ERefuse t q r _ | EInline t q r _ => In (ECall t q r) h /\ r_orig r = None
  | EFreeRun t q0 r => (exists d, In (ECall t d r) h) /\ r_orig r <> None
  | _ => True
  end.
Definition evs_ok (s : state) : Prop := forall e, In e (hist s) -> ev_ok (hist s) e.
Lemma ev_mono h h' e : ev_ok h e -> ev_ok (h ++ h') e.
Proof.
  destruct e; cbn; auto; rewrite ?in_app_iff; try tauto.
  intros [[d H] H']. split; [exists d; rewrite in_app_iff; auto|exact H'].
Qed.
Lemma evs_snoc h e : (forall e', In e' h -> ev_ok h e') -> ev_ok h e -> forall e', In e' (h ++ [e]) -> ev_ok (h ++ [e]) e'.
Proof. intros H H0 e' Hin. apply in_snoc in Hin. destruct Hin as [Hin| <-]; apply ev_mono; auto. Qed.
Lemma evs_step s s' : inv s -> forigs s -> evs_ok s -> step s s' -> evs_ok s'.
Proof.
  intros I F R H. unfold evs_ok in *.
  destruct H; at_pcs; addsec; rewrite ?hist_next, ?hist_sync, ?hist_rel, ?hist_drv, hist_act; cbn [rev app]; rewrite ?app_nil_r; try exact R;
   apply evs_snoc; try exact R; cbn [ev_ok]; try exact Logic.I.
  all: match goal with H : s_stack _ ?t = ?f :: _ |- _ => pose proof (F t f ltac:(rewrite H; left; reflexivity)) as HT; cbn [forig] in HT;
     pose proof (dc_frame _ (iv_decided _ I) t f ltac:(rewrite H; left; reflexivity)) as HD; cbn [frame_tr] in HD end.
  all: try tauto.
  all: try (rewrite ?Bool.orb_false_iff in *; destruct E as [E _]; split; [tauto|]; destruct (r_orig r) eqn:EO; [destruct HT; congruence|reflexivity]).
  split; [exists q; apply HD|apply HT].
Qed.

(** *** Every call is decided or under way *)
Definition callids (h : list event) : list nat := flat_map (fun e => match e with ECall _ _ r => [r_id r] | _ => [] end) h.
Definition undecided (pc : apc) : bool := match pc with AGet | ACheck | AAdd | AWait | ACGet => true | _ => false end.
Record calls_ok (s : state) : Prop := {
  ca_lt : forall i, In i (callids (hist s)) -> (i < s_next s)%nat;
  ca_nodup : NoDup (callids (hist s));
  ca_open : forall t q r, In (ECall t q r) (hist s) -> In (r_id r) (decided (hist s)) \/
     exists treat held code pc, In (FQueue q r treat held code pc) (s_stack s t) /\ undecided pc = true }.
Lemma callids_app h h' : callids (h ++ h') = callids h ++ callids h'. Proof. apply flat_map_app. Qed.
Lemma calls_keep s t st q Q es :
  calls_ok s -> callids (rev es) = [] ->
  (forall q0 r0 tr he co pc, In (FQueue q0 r0 tr he co pc) (s_stack s t) -> undecided pc = true ->
     In (r_id r0) (decided (rev es)) \/ exists tr' he' co' pc', In (FQueue q0 r0 tr' he' co' pc') st /\ undecided pc' = true) ->
  calls_ok (act t st q Q es s).
Proof.
  intros [A B C] H1 H2. constructor; rewrite hist_act, ?callids_app, ?H1, ?app_nil_r; auto.
  intros t0 q0 r0 Hin. rewrite decided_app, in_app_iff.
  apply in_app_or in Hin. destruct Hin as [Hin|Hin].
  2:{ exfalso. assert (X : In (r_id r0) (callids (rev es))) by (apply in_flat_map; eexists; split; [exact Hin|left; reflexivity]). rewrite H1 in X. destruct X. }
  destruct (C _ _ _ Hin) as [X|(tr & he & co & pc & X & Y)]; [auto|].
  proj. unfold upd. destruct (Nat.eqb_spec t0 t) as [->|]; [|right; eauto 8].
  destruct (H2 _ _ _ _ _ _ X Y); auto.
Qed.
Lemma calls_new s t f st q Q r d treat : calls_ok s -> r_id r = s_next s -> f = FQueue d r treat false 0 AGet \/ f = FQueue d r treat false 0 ACGet ->
  (forall f, In f (s_stack s t) -> In f st) ->
  calls_ok (next (act t (f :: st) q Q [ECall t d r] s)).
Proof.
  intros [A B C] Hi Hf Hs. constructor; rewrite ?hist_next, hist_act, ?callids_app; cbn [rev app callids flat_map].
  - intros i. rewrite in_app_iff. proj. intros [H|[<-|[]]]; [apply A in H; lia|lia].
  - apply NoDup_app_iff_local; auto; [repeat constructor; auto|]. intros i H [<-|[]]. apply A in H. lia.
  - intros t0 q0 r0 Hin. proj. apply in_snoc in Hin. destruct Hin as [Hin|E].
    + rewrite decided_app, in_app_iff. destruct (C _ _ _ Hin) as [X|(tr & he & co & pc & X & Y)]; [auto|].
      right. unfold upd. destruct (Nat.eqb_spec t0 t) as [->|]; [|eauto 8].
      exists tr, he, co, pc. split; [right; auto|exact Y].
    + injection E as <- <- <-. right. rewrite upd_same. destruct Hf as [-> | ->]; repeat eexists; try (left; reflexivity); reflexivity.
Qed.
Lemma calls_drv t d s : calls_ok s -> calls_ok (set_drv t d s). Proof. intros [A B C]; constructor; auto. Qed.
Lemma calls_sync n s : calls_ok s -> calls_ok (set_sync n s). Proof. intros [A B C]; constructor; auto. Qed.
Lemma calls_rel n s : calls_ok s -> calls_ok (set_rel n s). Proof. intros [A B C]; constructor; auto. Qed.
Lemma calls_next s : calls_ok s -> calls_ok (next s).
Proof. intros [A B C]; constructor; auto. intros i H. apply A in H. cbn. lia. Qed.
Lemma calls_step s s' : calls_ok s -> step s s' -> calls_ok s'.
Proof.
  intros R H.
  destruct H; at_pcs; addsec; try apply calls_drv; try apply calls_sync; try apply calls_rel.
  all: try (eapply calls_new; [exact R|auto|auto|auto]; fail).
  all: try (subst r'; eapply calls_new; [exact R|reflexivity|auto|rewrite HS; intros f []]; fail).
  all: try apply calls_next; apply calls_keep; try exact R; try reflexivity.
  all: try (match goal with H : s_stack _ _ = _ |- _ => rewrite H end).
  all: intros q9 r9 tr9 he9 co9 pc9 Hin Hu; cbn [In] in Hin;
    repeat match type of Hin with _ \/ _ => destruct Hin as [Hin|Hin] | False => destruct Hin end;
    try discriminate Hin;
    try (injection Hin; clear Hin; intros; subst); try discriminate Hu.
  all: try (left; cbn; tauto).
  all: try (right; repeat eexists; [left; reflexivity|reflexivity]).
  all: try (right; do 4 eexists; split; [|exact Hu]; cbn [In]; solve [eauto]).
Qed.

(** *** Waits and requests have different names *)
Definition wframe (f : frame) : list nat := match f with FDestroy _ _ _ _ _ n _ => [n] | _ => [] end.
Definition wnames (h : list event) : list nat := flat_map (fun e => match e with EAddWait _ _ w => [w] | _ => [] end) h.
Record wn_ok (s : state) : Prop := {
  wn_frame : forall t f n, In f (s_stack s t) -> In n (wframe f) -> ~ In n (callids (hist s));
  wn_hist : forall n, In n (wnames (hist s)) -> ~ In n (callids (hist s)) }.
Lemma wnames_app h h' : wnames (h ++ h') = wnames h ++ wnames h'. Proof. apply flat_map_app. Qed.
Lemma wn_act s t st q Q es : wn_ok s -> callids (rev es) = [] ->
  (forall n, In n (flat_map wframe st) -> In n (flat_map wframe (s_stack s t))) ->
  (forall n, In n (wnames (rev es)) -> In n (flat_map wframe (s_stack s t))) -> wn_ok (act t st q Q es s).
Proof.
  intros [A B] H1 H2 H3.
  assert (A' : forall t0 n, In n (flat_map wframe (s_stack s t0)) -> ~ In n (callids (hist s))).
  { intros t0 n Hn. apply in_flat_map in Hn. destruct Hn as (f & Hf & Hn). eauto. }
  constructor; rewrite hist_act, callids_app, H1, app_nil_r.
  - intros t0 f n. proj. unfold upd. destruct (t0 =? t)%nat; [|eauto]. intros Hf Hn. apply (A' t), H2, in_flat_map. eauto.
  - intros n. rewrite wnames_app, in_app_iff. intros [Hn|Hn]; [auto|]. apply (A' t), H3, Hn.
Qed.
Lemma wn_next s : wn_ok s -> wn_ok (next s). Proof. intros [A B]; constructor; auto. Qed.
Lemma wn_drv t d s : wn_ok s -> wn_ok (set_drv t d s). Proof. intros [A B]; constructor; auto. Qed.
Lemma wn_sync n s : wn_ok s -> wn_ok (set_sync n s). Proof. intros [A B]; constructor; auto. Qed.
Lemma wn_rel n s : wn_ok s -> wn_ok (set_rel n s). Proof. intros [A B]; constructor; auto. Qed.
Lemma wn_new s t st q Q d r : names_ok s -> wn_ok s -> r_id r = s_next s ->
  (forall f n, In f st -> In n (wframe f) -> In f (s_stack s t)) -> wn_ok (act t st q Q [ECall t d r] s).
Proof.
  intros N [A B] Hi H1.
  constructor; rewrite hist_act, callids_app; cbn [rev app callids flat_map]; change (flat_map _ [ECall t d r]) with [r_id r].
  - intros t0 f n. proj. intros Hf Hn. assert (Hf' : In f (s_stack s t0)).
    { revert Hf. unfold upd. destruct (Nat.eqb_spec t0 t) as [->|]; eauto. }
    rewrite in_app_iff. intros [X|[X|[]]]; [exact (A _ _ _ Hf' Hn X)|].
    assert (L : (n < s_next s)%nat); [|lia]. apply (nm_lt _ N t0). apply in_flat_map. exists f. split; [exact Hf'|].
    destruct f; cbn in Hn |- *; tauto.
  - intros n. rewrite wnames_app. cbn [wnames flat_map]. rewrite app_nil_r. intros Hn. rewrite in_app_iff. intros [X|[X|[]]]; [exact (B _ Hn X)|].
    assert (L : (n < s_next s)%nat); [|lia]. apply (nm_dec _ N). unfold wnames in Hn. apply in_flat_map in Hn. destruct Hn as (e & He & Hn).
    apply in_flat_map. exists e. split; [exact He|]. destruct e; try (destruct Hn; fail). exact Hn.
Qed.
Lemma wn_step s s' : inv s -> calls_ok s -> wn_ok s -> step s s' -> wn_ok s'.
Proof.
  intros I C R H.
  destruct H; at_pcs; addsec; try apply wn_drv; try apply wn_sync; try apply wn_rel.
  all: try (apply wn_next, wn_new; [exact (iv_names _ I)|exact R|auto|]; intros f n [<-|Hf] Hn; [destruct Hn|try exact Hf]; fail).
  all: try (subst r'; apply wn_next, wn_new; [exact (iv_names _ I)|exact R|reflexivity|]; intros f n [<-|[]] Hn; destruct Hn).
  all: try (apply wn_act; [exact R|reflexivity|..]; try match goal with H : s_stack _ _ = _ |- _ => rewrite H end; intros n9; cbn; ifs; cbn; tauto).
  (* a wait gets a fresh name *)
  apply wn_next. destruct R as [A B]. constructor; rewrite hist_act; cbn [rev]; rewrite app_nil_r; [|exact B].
  intros t0 f n. proj. unfold upd. destruct (Nat.eqb_spec t0 t) as [->|]; [|eauto]. intros [<-|Hf]; [|eauto].
  intros [<-|[]] Hn. apply (ca_lt _ C) in Hn. lia.
Qed.

(** *** Uniqueness *)
Lemma flat_map_unique {A B} (f : A -> list B) l e1 e2 i : NoDup (flat_map f l) -> In e1 l -> In e2 l -> In i (f e1) -> In i (f e2) -> e1 = e2.
Proof.
  induction l as [|a l IH]; [intros _ []|]. cbn [flat_map]. intros ND H1 H2 I1 I2.
  assert (Hd : forall x, In x (f a) -> ~ In x (flat_map f l)).
  { intros x Hx. clear -ND Hx. induction (f a) as [|b m IHm]; [destruct Hx|]. cbn in ND. inversion_clear ND as [|? ? X Y].
    destruct Hx as [->|Hx]; [intros X'; apply X, in_or_app; auto|auto]. }
  assert (ND' : NoDup (flat_map f l)) by (clear -ND; induction (f a); [exact ND|cbn in ND; inversion_clear ND; auto]).
  destruct H1 as [->|H1], H2 as [->|H2]; auto.
  - exfalso. apply (Hd i I1). apply in_flat_map. eauto.
  - exfalso. apply (Hd i I2). apply in_flat_map. eauto.
Qed.
Lemma in_accepts q r h : In r (accepts q h) <-> exists t, In (EAccept t q r) h.
Proof.
  unfold accepts. rewrite in_flat_map. split.
  - intros (e & H & Hr). destruct e; try (destruct Hr; fail). destruct (Nat.eqb_spec q0 q) as [->|]; [|destruct Hr].
    destruct Hr as [->|[]]. eauto.
  - intros [t H]. eexists. split; [exact H|]. cbn. rewrite Nat.eqb_refl. left. reflexivity.
Qed.
Lemma in_starts q r h : In r (starts q h) <-> exists t k, In (EStart t q r k) h.
Proof.
  unfold starts. rewrite in_flat_map. split.
  - intros (e & H & Hr). destruct e; try (destruct Hr; fail). destruct (Nat.eqb_spec q0 q) as [->|]; [|destruct Hr].
    destruct Hr as [->|[]]. eauto.
  - intros (t & k & H). eexists. split; [exact H|]. cbn. rewrite Nat.eqb_refl. left. reflexivity.
Qed.
Lemma in_ends q r h : In r (ends q h) <-> exists t, In (EEnd t q r) h.
Proof.
  unfold ends. rewrite in_flat_map. split.
  - intros (e & H & Hr). destruct e; try (destruct Hr; fail). destruct (Nat.eqb_spec q0 q) as [->|]; [|destruct Hr].
    destruct Hr as [->|[]]. eauto.
  - intros (t & H). eexists. split; [exact H|]. cbn. rewrite Nat.eqb_refl. left. reflexivity.
Qed.
Lemma in_dones q r h : In r (dones q h) <-> In (EDone q r) h.
Proof.
  unfold dones. rewrite in_flat_map. split.
  - intros (e & H & Hr). destruct e; try (destruct Hr; fail). destruct (Nat.eqb_spec q0 q) as [->|]; [|destruct Hr].
    destruct Hr as [->|[]]. eauto.
  - intros H. eexists. split; [exact H|]. cbn. rewrite Nat.eqb_refl. left. reflexivity.
Qed.
Lemma accept_unique s q1 q2 r1 r2 : inv s -> In r1 (accepts q1 (hist s)) -> In r2 (accepts q2 (hist s)) -> r_id r1 = r_id r2 -> q1 = q2 /\ r1 = r2.
Proof.
  intros I H1 H2 E. apply in_accepts in H1, H2. destruct H1 as [t1 H1], H2 as [t2 H2].
  pose proof (flat_map_unique decides (hist s) _ _ (r_id r1) (dc_nodup _ (iv_decided _ I)) H1 H2) as U.
  cbn in U. specialize (U (or_introl eq_refl)). rewrite E in U. specialize (U (or_introl eq_refl)). injection U as _ -> ->. auto.
Qed.
Lemma accepts_ids_nodup q h : NoDup (decided h) -> NoDup (map r_id (accepts q h)).
Proof.
  induction h as [|e h IH]; [constructor|]. change (decided (e :: h)) with (decides e ++ decided h).
  change (accepts q (e :: h)) with ((match e with EAccept _ q' r => if (q' =? q)%nat then [r] else [] | _ => [] end) ++ accepts q h).
  intros ND. assert (ND' : NoDup (decided h)).
  { clear -ND. induction (decides e); [exact ND|cbn in ND; inversion_clear ND; auto]. }
  destruct e; try (cbn [app]; auto; fail). destruct (q0 =? q)%nat; cbn [app map]; auto.
  constructor; [|auto]. cbn in ND. inversion_clear ND as [|? ? X _]. intros Hin. apply X.
  apply in_map_iff in Hin. destruct Hin as (r' & E & Hr). apply in_accepts in Hr. destruct Hr as [t' Hr].
  unfold decided. apply in_flat_map. eexists. split; [exact Hr|]. cbn. auto.
Qed.
Lemma accepts_nodup s q : inv s -> NoDup (map r_id (accepts q (hist s))).
Proof. intros I. apply accepts_ids_nodup, (dc_nodup _ (iv_decided _ I)). Qed.

(** *** Completions *)
Definition run_ok (q : qid) (Q : queue) (h : list event) : Prop :=
  forall ph r k, q_pc Q = PRun ph r k \/ q_pc Q = PDone ph r k -> exists t, In (EStart t q r k) h.
Lemma run_step s s' : traces run_ok s -> step s s' -> traces run_ok s'.
Proof.
  intros R H. traces_step.
  all: intros; match goal with |- run_ok ?q _ _ => pose proof (R q) as HR end; unfold run_ok in *; intros ph9 r9 k9; ifs; proj; try rewrite HP in *; intros Hp.
  all: try (destruct (HR _ _ _ Hp) as [t9 X]; exists t9; apply in_or_app; auto; fail).
  all: try (destruct Hp; discriminate).
  all: try (exfalso; revert Hp; unfold after_funcs; try destruct ph; try destruct did; try destruct (q_pend _); ifs; intros [Hp|Hp]; discriminate).
  - destruct Hp as [Hp|Hp]; [|discriminate]. injection Hp as <- <- <-. exists t. apply in_or_app. right. left. reflexivity.
  - destruct Hp as [Hp|Hp]; [discriminate|]. injection Hp as <- <- <-. destruct (HR ph r k ltac:(auto)) as [t9 X]. exists t9. apply in_or_app. auto.
Qed.
Definition decing (pc : cpc) : list req := match pc with PDec _ r => [r] | _ => [] end.
Definition past (s : state) (q : qid) : list req := dones q (hist s) ++ decing (q_pc (s_q s q)).
Record comp_ok (s : state) : Prop := {
  co_from : forall t d r', In (ECall t d r') (hist s) -> forall i, r_orig r' = Some i ->
     exists q r, r_id r = i /\ In r (past s q);
  co_to : forall q r, In r (past s q) -> exists t k, In (EStart t q r k) (hist s) /\
     match r_done r with
     | Some d => if match k with KFree => true | _ => false end then completions (r_id r) (hist s) = []
                 else exists r', completions (r_id r) (hist s) = [(d, r')] /\ r_nofail r' = true /\ r_sync r' = false /\ In (ECall t d r') (hist s)
     | None => completions (r_id r) (hist s) = []
     end }.
Lemma completions_app i h h' : completions i (h ++ h') = completions i h ++ completions i h'. Proof. apply flat_map_app. Qed.
Lemma in_completions i h d r' : In (d, r') (completions i h) <-> exists t, In (ECall t d r') h /\ r_orig r' = Some i.
Proof.
  unfold completions. rewrite in_flat_map. split.
  - intros (e & H & Hr). destruct e; try (destruct Hr; fail). destruct (r_orig r) eqn:E; [|destruct Hr].
    destruct (Nat.eqb_spec n i) as [->|]; [|destruct Hr]. destruct Hr as [Hr|[]]. injection Hr as <- <-. eauto.
  - intros (t & H & E). eexists. split; [exact H|]. cbn. rewrite E, Nat.eqb_refl. left. reflexivity.
Qed.
Lemma past_acc s q r : inv s -> In r (past s q) -> In r (accepts q (hist s)).
Proof.
  intros I H. destruct (iv_content _ I q) as [A B C]. rewrite A, B, C. unfold past in H. rewrite !in_app_iff in *.
  destruct H as [H|H]; [auto|]. destruct (q_pc (s_q s q)); try contradiction. cbn in *. auto.
Qed.
Lemma running_fresh s q ph r k : inv s -> q_pc (s_q s q) = PRun ph r k \/ q_pc (s_q s q) = PDone ph r k ->
  In r (accepts q (hist s)) /\ forall q' r', In r' (past s q') -> r_id r' <> r_id r.
Proof.
  intros I Hp. destruct (iv_content _ I q) as [A B C]. pose proof (accepts_nodup _ q I) as ND.
  assert (Hr : accepts q (hist s) = dones q (hist s) ++ [r] ++ q_batch (s_q s q) ++ q_pend (s_q s q)).
  { rewrite A, B, C. destruct Hp as [-> | ->]; cbn [finished running]; rewrite ?app_nil_r, <- ?app_assoc; reflexivity. }
  assert (Hin : In r (accepts q (hist s))) by (rewrite Hr; apply in_or_app; right; left; reflexivity).
  split; [exact Hin|]. intros q' r' H' E.
  destruct (accept_unique s q' q r' r I (past_acc _ _ _ I H') Hin E) as [-> ->].
  unfold past in H'. apply in_app_or in H'. destruct H' as [H'|H'].
  2:{ destruct Hp as [Hp|Hp]; rewrite Hp in H'; destruct H'. }
  rewrite Hr, map_app in ND. cbn [app map] in ND.
  apply NoDup_remove_2 in ND. apply ND, in_or_app. left. apply in_map. exact H'.
Qed.
Lemma fresh_comp s q ph r k : inv s -> comp_ok s -> q_pc (s_q s q) = PRun ph r k \/ q_pc (s_q s q) = PDone ph r k ->
  completions (r_id r) (hist s) = [].
Proof.
  intros I C Hp. destruct (running_fresh _ _ _ _ _ I Hp) as [_ Hf].
  destruct (completions (r_id r) (hist s)) as [|[d r'] l] eqn:E; [reflexivity|exfalso].
  assert (Hin : In (d, r') (completions (r_id r) (hist s))) by (rewrite E; left; reflexivity).
  apply in_completions in Hin. destruct Hin as (t & H & Ho).
  destruct (co_from _ C _ _ _ H _ Ho) as (q' & r0 & E0 & Hr0). exact (Hf _ _ Hr0 E0).
Qed.

(** Steps that do not finish a request. *)
Definition dull (s s' : state) : Prop :=
  (forall q, past s' q = past s q) /\ (forall i, completions i (hist s') = completions i (hist s)) /\
  (forall e, In e (hist s) -> In e (hist s')).
Lemma dull_comp s s' : comp_ok s -> dull s s' -> 
  (forall t d r', In (ECall t d r') (hist s') -> r_orig r' <> None -> In (ECall t d r') (hist s)) ->
  comp_ok s'.
Proof.
  intros [A B] (D1 & D2 & D3) D4. constructor.
  - intros t d r' H i E. destruct (A t d r' (D4 _ _ _ H ltac:(congruence)) i E) as (q & r & X & Y). exists q, r. rewrite D1. auto.
  - intros q r. rewrite D1. intros H. destruct (B q r H) as (t & k & X & Y). exists t, k. split; [auto|]. rewrite D2.
    destruct (r_done r) as [d|]; [|exact Y]. destruct (match k with KFree => true | _ => false end); [exact Y|].
    destruct Y as (r' & Y1 & Y2 & Y3 & Y4). exists r'. repeat split; auto.
Qed.
Lemma comp_step s s' : inv s -> traces marks_ok s -> traces run_ok s -> comp_ok s -> step s s' -> comp_ok s'.
Proof.
  intros I M RN R H. pose proof H as H'.
  destruct H; at_pcs; addsec.
  all: try (apply (dull_comp s); [exact R| |];
    [ split; [|split];
      [intros q9; unfold past; rewrite ?hist_next, ?hist_sync, ?hist_rel, ?hist_drv, hist_act, dones_app; proj; unfold upd;
       match goal with |- context [(?x =? ?y)%nat] => destruct (Nat.eqb_spec x y) as [->|] end; cbn [rev app dones flat_map];
       rewrite ?app_nil_r; try reflexivity; ifs; proj; try reflexivity; try rewrite HP; 
       unfold after_funcs; try destruct ph; try destruct did; try destruct (q_pend (s_q s q)); cbn [decing]; ifs; rewrite ?app_nil_r; reflexivity
      |intros i9; rewrite ?hist_next, ?hist_sync, ?hist_rel, ?hist_drv, hist_act, completions_app; cbn [rev app completions flat_map];
       rewrite ?app_nil_r; try reflexivity; match goal with H : r_orig _ = None |- _ => rewrite H; apply app_nil_r end
      |intros e9 He; rewrite ?hist_next, ?hist_sync, ?hist_rel, ?hist_drv, hist_act; apply in_or_app; auto]
    |intros t9 d9 r9; rewrite ?hist_next, ?hist_sync, ?hist_rel, ?hist_drv, hist_act; cbn [rev app]; rewrite ?app_nil_r, ?in_snoc; 
     try tauto; (intros [X|X] Y; [exact X|try discriminate X; injection X; intros; congruence])]).
  - apply (dull_comp s); [exact R| |].
    + split; [|split].
      * intros q9. unfold past. rewrite hist_drv, hist_act, dones_app. proj. unfold upd. destruct (Nat.eqb_spec q9 q) as [->|];
          cbn [rev app dones flat_map]; rewrite ?app_nil_r; [|reflexivity]. rewrite (bs_new _ (iv_base _ I) q) by assumption. symmetry. apply app_nil_r.
      * intros i9. rewrite hist_drv, hist_act, completions_app. apply app_nil_r.
      * intros e He. rewrite hist_drv, hist_act. apply in_or_app. auto.
    + intros t9 d9 r9. rewrite hist_drv, hist_act. cbn [rev app]. rewrite in_snoc. intros [X|X]; [auto|discriminate].
  - (* nothing to complete *)
    assert (HH : forall q' r', In r' (past (act t [] q (w_pc (PDec ph r) (s_q s q)) [] s) q') <-> In r' (past s q') \/ (q' = q /\ r' = r)).
    { intros q' r9. unfold past. rewrite hist_act. cbn [rev]. rewrite app_nil_r. proj. unfold upd.
      destruct (Nat.eqb_spec q' q) as [->|]; [|tauto]. rewrite HP. cbn [decing q_pc w_pc]. rewrite !in_app_iff. cbn [In].
      intuition congruence. }
    constructor; rewrite hist_act; cbn [rev]; rewrite app_nil_r.
    + intros t9 d r9 Hin i9 Hi. destruct (co_from _ R _ _ _ Hin _ Hi) as (q' & r0 & X & Y). exists q', r0. split; [exact X|].
      apply HH. auto.
    + intros q' r9 Hp. apply HH in Hp. destruct Hp as [Hp|[-> ->]]; [apply (co_to _ R _ _ Hp)|].
      destruct (RN q ph r k) as [t9 HE]; [auto|]. exists t9, k. split; [exact HE|].
      rewrite (fresh_comp s q ph r k I R) by auto. destruct (r_done r); [|reflexivity].
      match goal with H : _ \/ _ |- _ => destruct H as [X|X] end; [discriminate|rewrite X; reflexivity].
  - (* a completion *)
    assert (HH : forall q9 r9, In r9 (past (next (act t [FQueue d r' false false 0 ACGet] q (w_pc (PDec ph r) (s_q s q)) [ECall t d r'] s)) q9)
              <-> In r9 (past s q9) \/ (q9 = q /\ r9 = r)).
    { intros q9 r9. unfold past. rewrite hist_next, hist_act, dones_app. cbn [rev app dones flat_map]. rewrite app_nil_r. proj. unfold upd.
      destruct (Nat.eqb_spec q9 q) as [->|]; [|tauto]. rewrite HP. cbn [decing q_pc w_pc]. rewrite !in_app_iff. cbn [In].
      intuition congruence. }
    destruct (running_fresh s q ph r k I ltac:(auto)) as [HA HF].
    constructor; rewrite hist_next, hist_act; cbn [rev app].
    + intros t9 d9 r9 Hin i9 Hi. apply in_snoc in Hin. destruct Hin as [Hin|E].
      * destruct (co_from _ R _ _ _ Hin _ Hi) as (q9 & r0 & X & Y). exists q9, r0. split; [exact X|]. apply HH. auto.
      * injection E as <- <- <-. exists q, r. split; [|apply HH; auto]. subst r'. cbn in Hi. congruence.
    + assert (HC : completions (r_id r) [ECall t d r'] = [(d, r')]) by (subst r'; cbn; rewrite Nat.eqb_refl; reflexivity).
      intros q9 r9 Hp. apply HH in Hp. destruct Hp as [Hp|[-> ->]].
      * destruct (co_to _ R _ _ Hp) as (t9 & k9 & X & Y). exists t9, k9. split; [apply in_or_app; auto|].
        assert (HC9 : completions (r_id r9) [ECall t d r'] = []).
        { subst r'. cbn. specialize (HF _ _ Hp). destruct (Nat.eqb_spec (r_id r) (r_id r9)); [congruence|reflexivity]. }
        rewrite completions_app, HC9, app_nil_r. destruct (r_done r9); [|exact Y].
        destruct (match k9 with KFree => true | _ => false end); [exact Y|].
        destruct Y as (r0 & Y1 & Y2 & Y3 & Y4). exists r0. repeat split; auto. apply in_or_app; auto.
      * destruct (RN q ph r k) as [t9 HE]; [auto|]. exists t9, k. split; [apply in_or_app; auto|].
        destruct (mk_start _ _ _ (M q) _ _ _ HE) as [_ Ht]. destruct (bs_drv _ (iv_base _ I) _ _ HD) as (_ & Ht' & _).
        rewrite completions_app, HC, (fresh_comp s q ph r k I R) by auto. 
        match goal with H : r_done r = _ |- _ => rewrite H end. destruct k; try congruence; exists r'; subst r'; repeat split; apply in_or_app; right; left; congruence.
  - apply (dull_comp s); [exact R| |].
    + split; [|split].
      * intros q9. unfold past. rewrite hist_act, dones_app. proj. unfold upd.
        destruct (Nat.eqb_spec q9 q) as [->|Hn]; cbn [rev app dones flat_map]; rewrite ?app_nil_r.
        -- rewrite Nat.eqb_refl, HP. cbn [q_pc w_pc w_cnt decing]. rewrite ?app_nil_r. reflexivity.
        -- destruct (Nat.eqb_spec q q9); [congruence|]. cbn [app]. rewrite app_nil_r. reflexivity.
      * intros i9. rewrite hist_act, completions_app. apply app_nil_r.
      * intros e He. rewrite hist_act. apply in_or_app. auto.
    + intros t9 d9 r9. rewrite hist_act. cbn [rev app]. rewrite in_snoc. intros [X|X]; [auto|discriminate].
Qed.

(** *** The non-blocking flag *)
Definition flag_ok (q : qid) (Q : queue) (h : list event) : Prop := q_nonblock Q = nonblocking q h.
Lemma nonblocking_snoc q h e : nonblocking q (h ++ [e]) = match e with
    | ECreate q' _ _ nb | EFlag q' nb => if (q' =? q)%nat then nb else nonblocking q h
    | _ => nonblocking q h end.
Proof. unfold nonblocking. rewrite fold_left_app. destruct e; reflexivity. Qed.
Lemma flag_step s s' : traces flag_ok s -> step s s' -> traces flag_ok s'.
Proof.
  intros R H. traces_step.
  all: intros; match goal with |- flag_ok ?q _ _ => pose proof (R q) as HR end; unfold flag_ok in *; cbn [rev app]; rewrite ?app_nil_r, ?nonblocking_snoc.
  all: try (ifs; exact HR).
  all: proj; rewrite ?Nat.eqb_refl; try reflexivity.
  all: match goal with |- context [(?x =? ?y)%nat] => destruct (Nat.eqb_spec x y); [congruence|exact HR] end.
Qed.

(** *** Synchronous calls on the own queue never get into the queue *)
Definition own_ok (t : tid) (q : qid) (d : option qid) (Q : queue) (st : list frame) : Prop :=
  forall r treat held code pc, In (FQueue q r treat held code pc) st -> r_sync r = true -> 
   match pc with AAdd | AWait | AKick | AKickW | ASync => d <> Some q | _ => True end.
Lemma this_live s t q f rest : pairs idle_ok s -> s_stack s t = f :: rest -> s_drv s t = Some q -> this s t = Some q.
Proof.
  intros I H D. unfold this. rewrite D. specialize (I t q D). rewrite H in I. destruct (q_pc (s_q s q)); auto; discriminate.
Qed.
Lemma own_step s s' : base_ok s -> pairs idle_ok s -> forigs s -> pairs own_ok s -> step s s' -> pairs own_ok s'.
Proof.
  intros B I F R H. pairs_step.
  all: intros; match goal with |- own_ok ?t ?q _ _ _ => pose proof (R t q) as HR end; use_stack HR; try exact HR.
  all: try (intros r9 tr9 he9 co9 pc9 Hin Hs; cbn [In] in Hin;
    repeat match type of Hin with _ \/ _ => destruct Hin as [Hin|Hin] | False => destruct Hin end;
    try discriminate Hin; try solve [eapply HR; [cbn [In]; eauto|exact Hs]]; 
    try (injection Hin; clear Hin; intros; subst); try exact Logic.I; try discriminate Hs).
  all: unfold after_kick in *; ifs; try exact Logic.I; try (pose proof (HR _ _ _ _ _ (or_introl eq_refl) Hs) as HT; cbn in HT; try exact HT).
  1-2: intros HD; exact (H0 Hs (this_live _ _ _ _ _ I H HD)).
  all: try (revert Hin; ifs; discriminate).
  all: try match goal with H : r_sync ?r = true, Hx : true = true |- _ => exact (HR _ _ _ _ _ (or_introl eq_refl) H) end.
  all: match goal with H : s_stack _ ?t = ?f :: _ |- _ => pose proof (F t f ltac:(rewrite H; left; reflexivity)) as HF; cbn [forig] in HF; destruct HF as (_ & _ & HF); congruence end.
Qed.

(** ** All the invariants *)
Record inv2 (s : state) : Prop := {
  i2_inv : inv s; i2_marks : traces marks_ok s; i2_quiet : queues quiet_ok s; i2_sync : sync_ok s; i2_bound : queues bound_ok s;
  i2_wake : wake_ok s; i2_waiters : traces waiters_ok s; i2_rel : rel_ok s; i2_forig : forigs s; i2_evs : evs_ok s;
  i2_calls : calls_ok s; i2_flag : traces flag_ok s; i2_own : pairs own_ok s; i2_wn : wn_ok s; i2_run : traces run_ok s; i2_comp : comp_ok s }.
Lemma inv2_reachable s : reachable s -> inv2 s.
Proof.
  intros R. pose proof (inv_reachable _ R) as I. constructor; [exact I|..]; clear I; induction R as [|s s' R IH H];
   try pose proof (inv_reachable _ R) as I.
  - intros q. constructor; cbn; intros; try (split; [intros [? []]|intros [E _]; discriminate]); intuition discriminate.
  - eapply marks_step; [exact (iv_base _ I)|eassumption..].
  - intros q E. discriminate.
  - eapply quiet_step; eassumption.
  - constructor; [intros q ph r E; discriminate|intros n []].
  - eapply sync_step; eassumption.
  - intros q E. discriminate.
  - eapply bound_step; eassumption.
  - intros q. constructor; cbn; intros; lia.
  - eapply wake_step; eassumption.
  - intros q. reflexivity.
  - eapply waiters_step; [exact (iv_base _ I)|eassumption..].
  - constructor; [intros q; constructor; cbn; discriminate|intros w []].
  - eapply rel_step; eassumption.
  - intros t f [].
  - eapply forig_step; eassumption.
  - intros e [].
  - eapply evs_step; [exact I| |eassumption..]. clear - R. induction R as [|s s' R IH H]; [intros t f []|eapply forig_step; eassumption].
  - constructor; [intros i []|constructor|intros t q r []].
  - eapply calls_step; eassumption.
  - intros q. reflexivity.
  - eapply flag_step; eassumption.
  - intros t q r tr he co pc [].
  - eapply own_step; [exact (iv_base _ I)|exact (iv_idle _ I)| |eassumption..]. clear - R. induction R as [|s s' R IH H]; [intros t f []|eapply forig_step; eassumption].
  - constructor; [intros t f n []|intros n []].
  - eapply wn_step; [exact I| |eassumption..]. clear - R. induction R as [|s s' R IH H]; [|eapply calls_step; eassumption].
    constructor; [intros i []|constructor|intros t q r []].
  - intros q ph r k [E|E]; discriminate.
  - eapply run_step; eassumption.
  - constructor; [intros t d r' []|intros q r []].
  - eapply comp_step; [exact I| | |eassumption..]; clear -R; induction R as [|s s' R IH H];
     try pose proof (inv_reachable _ R) as I.
    + intros q. constructor; cbn; intros; try (split; [intros [? []]|intros [E _]; discriminate]); intuition discriminate.
    + eapply marks_step; [exact (iv_base _ I)|eassumption..].
    + intros q ph r k [E|E]; discriminate.
    + eapply run_step; eassumption.
Qed.
