(** * Invariants that tie the state to the history *)
From Verif Require Import Base Mpq MpqInv MpqLife MpqSpec.

Lemma hist_act t st q Q es s : hist (act t st q Q es s) = hist s ++ rev es.
Proof. unfold hist. proj. apply rev_app_distr. Qed.
Lemma hist_next s : hist (next s) = hist s. Proof. reflexivity. Qed.
Lemma hist_sync n s : hist (set_sync n s) = hist s. Proof. reflexivity. Qed.
Lemma hist_rel n s : hist (set_rel n s) = hist s. Proof. reflexivity. Qed.
Lemma hist_drv t d s : hist (set_drv t d s) = hist s. Proof. reflexivity. Qed.

Definition traces (P : qid -> queue -> list event -> Prop) (s : state) : Prop := forall q, P q (s_q s q) (hist s).
Lemma traces_act P s t st q Q es :
  traces P s -> P q Q (hist s ++ rev es) ->
  (forall q', q' <> q -> P q' (s_q s q') (hist s ++ rev es)) -> traces P (act t st q Q es s).
Proof.
  intros H H1 H2 q0. rewrite hist_act. proj. unfold upd. destruct (Nat.eqb_spec q0 q) as [->|]; auto.
Qed.
Lemma traces_drv P s t d : traces P s -> traces P (set_drv t d s). Proof. intros H; exact H. Qed.
Lemma traces_next P s : traces P s -> traces P (next s). Proof. intros H; exact H. Qed.
Lemma traces_sync P n s : traces P s -> traces P (set_sync n s). Proof. intros H; exact H. Qed.
Lemma traces_rel P n s : traces P s -> traces P (set_rel n s). Proof. intros H; exact H. Qed.
Ltac traces_step := 
  match goal with H : step ?s _ |- traces _ _ => destruct H end;
  at_pcs; addsec; try apply traces_drv; try apply traces_next; try apply traces_sync; try apply traces_rel;
  apply traces_act; try assumption.

Lemma accepts_app q h h' : accepts q (h ++ h') = accepts q h ++ accepts q h'. Proof. apply flat_map_app. Qed.
Lemma starts_app q h h' : starts q (h ++ h') = starts q h ++ starts q h'. Proof. apply flat_map_app. Qed.
Lemma ends_app q h h' : ends q (h ++ h') = ends q h ++ ends q h'. Proof. apply flat_map_app. Qed.
Lemma dones_app q h h' : dones q (h ++ h') = dones q h ++ dones q h'. Proof. apply flat_map_app. Qed.
(** What became of a request: put into a queue, refused, run in place by the
    caller, or released in place; and for a wait, being entered. *)
Definition decides (e : event) : list nat :=
  match e with
  | EAccept _ _ r | ERefuse _ _ r _ | EInline _ _ r _ | EFreeRun _ _ r => [r_id r]
  | EAddWait _ _ w => [w]
  | _ => []
  end.
Definition decided (h : list event) : list nat := flat_map decides h.
Lemma decided_app h h' : decided (h ++ h') = decided h ++ decided h'. Proof. apply flat_map_app. Qed.

(** *** Content of the queue *)
Definition running (pc : cpc) : list req := match pc with PRun _ r _ => [r] | _ => [] end.
Definition finished (pc : cpc) : list req := match pc with PDone _ r _ | PDec _ r => [r] | _ => [] end.
Record content_ok (q : qid) (Q : queue) (h : list event) : Prop := {
  cn_acc : accepts q h = starts q h ++ q_batch Q ++ q_pend Q;
  cn_start : starts q h = ends q h ++ running (q_pc Q);
  cn_end : ends q h = dones q h ++ finished (q_pc Q) }.

Lemma after_funcs_none ph did : running (after_funcs ph did) = [] /\ finished (after_funcs ph did) = [].
Proof. destruct ph, did; split; reflexivity. Qed.
Lemma content_step s s' : base_ok s -> queues cnt_ok s -> traces content_ok s -> step s s' -> traces content_ok s'.
Proof.
  intros B C R H. traces_step.
  all: intros; match goal with |- content_ok ?q _ _ => pose proof (R q) as HR; pose proof (ct_batch _ _ (C q)) as HC end;
     cbn [rev app] in *; rewrite ?app_nil_r.
  all: try (ifs; exact HR).
  all: try (destruct (after_funcs_none ph false) as (AF1 & AF2)).
  all: try (destruct (after_funcs_none ph did) as (AF4 & AF5)).
  all: try (match goal with |- context [match q_pend ?Q with _ => _ end] => destruct (q_pend Q) eqn:EP end).
  all: destruct HR as [L1 L2 L3]; ifs; constructor; proj; try rewrite HP in *.
  all: rewrite ?accepts_app, ?starts_app, ?ends_app, ?dones_app;
    cbn [accepts starts ends dones flat_map app running finished busy] in *; rewrite ?Nat.eqb_refl, ?app_nil_r in *.
  all: try match goal with |- context [(?x =? ?y)%nat] => destruct (Nat.eqb_spec x y); [congruence|] end; rewrite ?app_nil_r.
  all: rewrite ?AF1, ?AF2, ?AF4, ?AF5, ?app_nil_r in *.
  all: try assumption; try congruence.
  all: try (rewrite L1, <- ?app_assoc; try rewrite H0; reflexivity).
  all: try (rewrite (bs_new _ B q) in * by assumption; cbn [q_batch q_pend q_pc blank running finished] in *; rewrite ?app_nil_r in *; assumption).
  rewrite (HC eq_refl) in L1. exact L1.
Qed.

(** ** Every action adds at most one event *)
Lemma step_event s s' : step s s' -> hist s' = hist s \/ exists e, hist s' = hist s ++ [e].
Proof.
  intros H. destruct H; at_pcs; addsec; rewrite ?hist_next, ?hist_sync, ?hist_rel, ?hist_drv, hist_act; cbn [rev app];
   rewrite ?app_nil_r; eauto.
Qed.
(** An event of a history happened in some action of the execution. *)
Lemma hist_split s h1 e h2 : reachable s -> hist s = h1 ++ e :: h2 ->
  exists s1 s2, reachable s1 /\ step s1 s2 /\ hist s1 = h1 /\ hist s2 = h1 ++ [e].
Proof.
  intros R. revert h2. induction R as [|s s' R IH H]; intros h2 E.
  - symmetry in E. apply app_eq_nil in E. destruct E as [_ E]. discriminate.
  - destruct (step_event _ _ H) as [E'|[e' E']].
    + apply (IH h2). congruence.
    + rewrite E' in E. destruct h2 as [|x h2'].
      * apply app_inj_tail in E. destruct E as [E <-]. exists s, s'. repeat split; auto. congruence.
      * destruct (exists_last (l := x :: h2') ltac:(discriminate)) as (h3 & y & E3). rewrite E3 in E.
        rewrite app_comm_cons, app_assoc in E. apply app_inj_tail in E. destruct E as [E _]. exact (IH h3 E).
Qed.

Lemma NoDup_app_iff_local {A} (l l' : list A) : NoDup l -> NoDup l' -> (forall x, In x l -> ~ In x l') -> NoDup (l ++ l').
Proof.
  intros H1 H2 H. induction H1 as [|a l Ha H1 IH]; [exact H2|]. cbn. constructor.
  - rewrite in_app_iff. intros [X|X]; [auto|]. exact (H a (or_introl eq_refl) X).
  - apply IH. intros x Hx. apply H. right. exact Hx.
Qed.
(** ** Names of requests *)
Definition fid (f : frame) : list nat := match f with FQueue _ r _ _ _ _ => [r_id r] | FDestroy _ _ _ _ _ n _ => [n] | FUser => [] end.
Definition fids (st : list frame) : list nat := flat_map fid st.
Definition ev_id (e : event) : list nat :=
  match e with
  | ECall _ _ r | EAccept _ _ r | ERefuse _ _ r _ | EReturn _ _ r _ | EStart _ _ r _ | EEnd _ _ r
  | EFreeRun _ _ r | EDone _ r | EInline _ _ r _ | EInlineEnd _ _ r => [r_id r]
  | _ => []
  end.
Record names_ok (s : state) : Prop := {
  nm_lt : forall t i, In i (fids (s_stack s t)) -> (i < s_next s)%nat;
  nm_nodup : forall t, NoDup (fids (s_stack s t));
  nm_disj : forall t t' i, t <> t' -> In i (fids (s_stack s t)) -> ~ In i (fids (s_stack s t'));
  nm_dec : forall i, In i (decided (hist s)) -> (i < s_next s)%nat }.

Lemma names_act s t st q Q es :
  names_ok s -> (forall i, In i (fids st) -> In i (fids (s_stack s t))) -> NoDup (fids st) ->
  (forall i, In i (decided (rev es)) -> (i < s_next s)%nat) ->
  names_ok (act t st q Q es s).
Proof.
  intros [A B C D] H1 H2 H3. constructor; proj.
  - intros t0 i. unfold upd. destruct (t0 =? t)%nat; [intros H; apply H1 in H|]; eauto.
  - intros t0. unfold upd. destruct (t0 =? t)%nat; auto.
  - intros t1 t2 i Hn. unfold upd. destruct (Nat.eqb_spec t1 t) as [->|], (Nat.eqb_spec t2 t) as [->|]; try congruence; intros X Y.
    + apply H1 in X. exact (C _ _ _ Hn X Y).
    + apply H1 in Y. exact (C _ _ _ Hn X Y).
    + exact (C _ _ _ Hn X Y).
  - intros i. rewrite hist_act, decided_app, in_app_iff. intros [H|H]; auto.
Qed.
Lemma names_call s t f st q Q es :
  names_ok s -> fid f = [s_next s] -> (forall i, In i (fids st) -> In i (fids (s_stack s t))) -> NoDup (fids st) -> decided (rev es) = [] ->
  names_ok (next (act t (f :: st) q Q es s)).
Proof.
  intros [A B C D] Hf H1 H2 H3. constructor; proj.
  - intros t0 i. unfold upd. destruct (t0 =? t)%nat; [cbn [fids flat_map]; rewrite Hf, in_app_iff; intros [[<-|[]]|H]; [lia|apply H1 in H]|intros H]; apply A in H; lia.
  - intros t0. unfold upd. destruct (t0 =? t)%nat; auto. cbn [fids flat_map]. rewrite Hf. constructor; [|exact H2].
    intros H. apply H1, A in H. lia.
  - intros t1 t2 i Hn. unfold upd. destruct (Nat.eqb_spec t1 t) as [->|], (Nat.eqb_spec t2 t) as [->|]; try congruence; intros X Y;
     cbn [fids flat_map] in X, Y; rewrite ?Hf, ?in_app_iff in *.
    + destruct X as [[<-|[]]|X]; [apply A in Y; lia|]. apply H1 in X. exact (C _ _ _ Hn X Y).
    + destruct Y as [[<-|[]]|Y]; [apply A in X; lia|]. apply H1 in Y. exact (C _ _ _ Hn X Y).
    + exact (C _ _ _ Hn X Y).
  - intros i. rewrite hist_next, hist_act, decided_app, in_app_iff. rewrite H3.
    intros [H|[]]. apply D in H. lia.
Qed.
Lemma names_drv t d s : names_ok s -> names_ok (set_drv t d s). Proof. intros [A B C D]; constructor; auto. Qed.
Lemma names_sync n s : names_ok s -> names_ok (set_sync n s). Proof. intros [A B C D]; constructor; auto. Qed.
Lemma names_rel n s : names_ok s -> names_ok (set_rel n s). Proof. intros [A B C D]; constructor; auto. Qed.
Lemma names_next s : names_ok s -> names_ok (next s).
Proof. intros [A B C D]; constructor; eauto. - intros t i H. apply A in H. cbn. lia. - intros i H. apply D in H. cbn. lia. Qed.

Lemma names_step s s' : names_ok s -> step s s' -> names_ok s'.
Proof.
  intros N H.
  destruct H; at_pcs; addsec; try apply names_drv; try apply names_sync; try apply names_rel.
  all: try (apply names_call; try assumption; try reflexivity; [cbn; congruence| | ]; [auto|apply (nm_nodup _ N)]; fail).
  all: try (apply names_call; [assumption|reflexivity|auto|apply (nm_nodup _ N)|reflexivity]; fail).
  all: try (apply names_call; try assumption; [subst; reflexivity|intros i []|constructor|reflexivity]; fail).
  all: try apply names_next; apply names_act; try assumption.
  all: pose proof (nm_nodup _ N t) as ND; pose proof (nm_lt _ N t) as NL.
  all: try match goal with H : s_stack _ _ = _ |- _ => rewrite H in ND, NL; try rewrite H end.
  all: ifs; cbn [fids flat_map fid app rev decided decides] in *; rewrite ?NoDup_cons_iff in *.
  all: try (intros; cbn [In] in *; solve [auto | tauto | intuition (subst; auto)]).
  all: try (repeat constructor; cbn [In]; tauto).
Qed.

(** ** Every request is decided at most once *)
Definition frame_tr (t : tid) (f : frame) (h : list event) (sy : list nat) : Prop :=
  match f with
  | FQueue q r treat held code pc =>
      In (ECall t q r) h /\
      match pc with
      | AGet | ACheck | AAdd | AWait | ACGet => ~ In (r_id r) (decided h)
      | AKick | AKickW | ASync => In (EAccept t q r) h
      | AInline => exists k, In (EInline t q r k) h
      | APut => (code = 0 /\ In (EAccept t q r) h /\ (r_sync r = true -> In (r_id r) sy)) \/
                (code = 0 /\ r_sync r = true /\ (exists k, In (EInline t q r k) h) /\ In (EInlineEnd t q r) h) \/
                (code <> 0 /\ In (ERefuse t q r code) h)
      end
  | FDestroy q i w c code n pc =>
      match pc with
      | DGet | DCheck | DAddWait => ~ In n (decided h)
      | DTerm | DKick | DKickW | DBcast | DWait => if w then In (EAddWait t q n) h else ~ In n (decided h)
      | DPut => if w && (code =? 0) then In (EAddWait t q n) h else ~ In n (decided h)
      end
  | FUser => True
  end.
Lemma frame_tr_mono t f h es sy sy' : frame_tr t f h sy -> (forall i, In i (fid f) -> ~ In i (decided es)) ->
  (forall i, In i sy -> In i sy') -> frame_tr t f (h ++ es) sy'.
Proof.
  destruct f as [|q r treat held code pc|q i w c code n pc]; [intros; exact I| |]; cbn [frame_tr fid].
  2:{ intros H Hi _. specialize (Hi n (or_introl eq_refl)). destruct pc; try destruct (w && (code =? 0)); try destruct w; rewrite ?decided_app, ?in_app_iff in *; tauto. }
  intros [H0 H] Hi Hs.
  split; [apply in_or_app; auto|]. specialize (Hi (r_id r) (or_introl eq_refl)).
  destruct pc; try (apply in_or_app; auto; fail); try (rewrite decided_app, in_app_iff; tauto).
  - destruct H as [k H]. exists k. apply in_or_app; auto.
  - destruct H as [(E & H1 & H2)|[(E & H1 & (k & H2) & H3)|(E & H1)]]; [left|right; left|right; right];
     repeat split; auto; try (apply in_or_app; auto). exists k. apply in_or_app; auto.
Qed.
Record decided_ok (s : state) : Prop := {
  dc_nodup : NoDup (decided (hist s));
  dc_frame : forall t f, In f (s_stack s t) -> frame_tr t f (hist s) (s_sync s) }.

Lemma fids_in f st : In f st -> forall i, In i (fid f) -> In i (fids st).
Proof. intros H i Hi. unfold fids. apply in_flat_map. eauto. Qed.
Lemma decided_act s t st q Q es :
  names_ok s -> decided_ok s ->
  (forall f, In f st -> frame_tr t f (hist s ++ rev es) (s_sync s)) ->
  NoDup (decided (rev es)) ->
  (forall i, In i (decided (rev es)) -> In i (fids (s_stack s t)) /\ ~ In i (decided (hist s))) ->
  decided_ok (act t st q Q es s).
Proof.
  intros N [A B] F ND D. constructor; rewrite hist_act.
  - rewrite decided_app. apply NoDup_app_iff_local; auto. intros i Hi Hi'. apply D in Hi'. tauto.
  - intros t0 f. proj. unfold upd. destruct (Nat.eqb_spec t0 t) as [->|Hn]; [auto|].
    intros Hin. eapply frame_tr_mono; [eauto| |auto]. intros i Hi Hd. apply D in Hd.
    exact (nm_disj _ N t0 t i Hn (fids_in _ _ Hin _ Hi) (proj1 Hd)).
Qed.
Lemma decided_drv t d s : decided_ok s -> decided_ok (set_drv t d s). Proof. intros [A B]; constructor; auto. Qed.
Lemma decided_next s : decided_ok s -> decided_ok (next s). Proof. intros [A B]; constructor; auto. Qed.
Lemma decided_rel n s : decided_ok s -> decided_ok (set_rel n s). Proof. intros [A B]; constructor; auto. Qed.
Lemma decided_sync n s : decided_ok s -> decided_ok (set_sync n s).
Proof.
  intros [A B]; constructor; auto. intros t f Hin. apply B in Hin. rewrite <- (app_nil_r (hist _)).
  eapply frame_tr_mono; [exact Hin|intros i _ []|cbn; auto].
Qed.

Lemma rest_tr s t f0 rest es : s_stack s t = f0 :: rest -> names_ok s -> decided_ok s ->
  (forall i, In i (decided (rev es)) -> In i (fid f0)) ->
  forall f, In f rest -> frame_tr t f (hist s ++ rev es) (s_sync s).
Proof.
  intros Hs N D Hd f Hf. eapply frame_tr_mono; [apply (dc_frame _ D); rewrite Hs; right; exact Hf| |auto].
  intros i Hi Hi'. apply Hd in Hi'. pose proof (nm_nodup _ N t) as ND. rewrite Hs in ND. cbn [fids flat_map] in ND.
  destruct f0 as [|q r treat held code pc|]; cbn [fid] in *; try contradiction; destruct Hi' as [<-|[]];
  inversion_clear ND as [|? ? Hn _]; apply Hn; eapply fids_in; eassumption.
Qed.
Lemma user_tr s t es : decided_ok s -> decided (rev es) = [] ->
  forall f, In f (s_stack s t) -> frame_tr t f (hist s ++ rev es) (s_sync s).
Proof. intros D E f Hf. eapply frame_tr_mono; [apply (dc_frame _ D), Hf| |auto]. rewrite E. intros i _ []. Qed.

Lemma decided_step s s' : names_ok s -> pairs frames_ok s -> decided_ok s -> step s s' -> decided_ok s'.
Proof.
  intros N F D H.
  destruct H; at_pcs; addsec; try apply decided_drv; try apply decided_sync; try apply decided_rel; try apply decided_next;
   apply decided_act; try assumption.
  all: try (constructor; fail).
  all: try (intros i []; fail).
  all: try (match goal with |- forall i, In i (decided _) -> _ => cbn; tauto end).
  all: try (repeat constructor; cbn [In]; tauto).
  all: try match goal with H : s_stack _ ?t = ?f :: _ |- _ => pose proof (dc_frame _ D t f ltac:(rewrite H; left; reflexivity)) as HT; cbn [frame_tr] in HT; try match type of HT with _ /\ _ => destruct HT as [HT0 HT] end end.
  all: try (match goal with H : s_stack _ _ = ?f :: _ |- _ => rewrite H; intros ? [<-|[]]; split; [left; reflexivity|exact HT] end).
  (* the frames below *)
  all: try (intros f Hf; cbn [In] in Hf; repeat match type of Hf with
         | _ \/ _ => destruct Hf as [<-|Hf]
         | False => destruct Hf end;
       try (eapply rest_tr; [eassumption|exact N|exact D|cbn; tauto|exact Hf]);
       try (eapply user_tr; [exact D|reflexivity|exact Hf])).
  all: try exact I.
  all: unfold after_kick; ifs; cbn [rev app]; try exact I.
  all: try (split; [apply in_or_app; auto|]).
  all: rewrite ?app_nil_r; try assumption.
  all: try (apply in_or_app; right; left; reflexivity).
  all: try (right; right; split; [discriminate|apply in_or_app; right; left; reflexivity]).
  all: try (left; repeat split; [apply in_or_app; right; left; reflexivity|congruence]).
  all: try (right; left; reflexivity).
  all: try (rewrite decided_app, app_nil_r; intros Hd; apply (nm_dec _ N) in Hd; subst; cbn [r_id] in *; lia).
  all: try (left; repeat split; auto; congruence).
  all: try (eexists; apply in_or_app; right; left; reflexivity).
  all: try (right; left; repeat split; [|destruct HT as [k HT]; exists k; apply in_or_app; auto|apply in_or_app; right; left; reflexivity];
        pose proof (F t q) as [HF _]; rewrite H in HF; apply Forall_inv in HF; cbn in HF; tauto).
  all: try (cbn [frame_tr]; destruct w; exact HT).
  all: try (cbn [frame_tr]; match goal with |- context [?ww && (?x =? 0)] => change (x =? 0) with false end; rewrite Bool.andb_false_r; exact HT).
  all: try (pose proof (F t q) as [HF _]; rewrite H in HF; apply Forall_inv in HF; cbn in HF; destruct HF as (_ & _ & -> & _); apply in_or_app; right; left; reflexivity).
  all: try (cbn; intros Hd; apply (nm_dec _ N) in Hd; lia).
Qed.

(** ** The invariants together *)
Record inv (s : state) : Prop := {
  iv_base : base_ok s; iv_refs : pairs refs_ok s; iv_frames : pairs frames_ok s; iv_sleep : pairs sleep_ok s;
  iv_idle : pairs idle_ok s; iv_life : queues life_ok s; iv_cnt : queues cnt_ok s;
  iv_content : traces content_ok s; iv_names : names_ok s; iv_decided : decided_ok s }.
Lemma inv_reachable s : reachable s -> inv s.
Proof.
  induction 1 as [|s s' R IH H].
  - constructor.
    + apply base_reachable. constructor.
    + intros t q. reflexivity.
    + intros t q. split; constructor.
    + intros t q. reflexivity.
    + intros t q E. discriminate.
    + intros q. constructor; cbn; try discriminate; auto.
    + intros q. constructor; cbn; auto; congruence.
    + intros q. constructor; reflexivity.
    + constructor; cbn; try (intros; contradiction). intros; constructor.
    + constructor; cbn; [constructor|intros; contradiction].
  - destruct IH. constructor.
    + eapply base_step; eassumption.
    + eapply refs_step; eassumption.
    + eapply frames_step; eassumption.
    + eapply sleep_step; [exact iv_base0|exact iv_frames0|eassumption|eassumption].
    + eapply idle_step; eassumption.
    + eapply life_step; [exact iv_base0|exact iv_refs0|eassumption|eassumption].
    + eapply cnt_step; eassumption.
    + eapply content_step; [exact iv_base0|exact iv_cnt0|eassumption|eassumption].
    + eapply names_step; eassumption.
    + eapply decided_step; [exact iv_names0|exact iv_frames0|eassumption|eassumption].
Qed.
