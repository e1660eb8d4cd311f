(** * Invariants about one queue: references and life cycle, the counter, the
    condition variable. *)
From Verif Require Import Base Mpq MpqInv.

Definition queues (P : qid -> queue -> Prop) (s : state) : Prop := forall q, P q (s_q s q).
Lemma queues_act P s t st q Q es : queues P s -> P q Q -> queues P (act t st q Q es s).
Proof. intros H H1 q0. proj. unfold upd. destruct (Nat.eqb_spec q0 q) as [->|]; auto. Qed.
Lemma queues_drv P s t d : queues P s -> queues P (set_drv t d s). Proof. intros H; exact H. Qed.
Lemma queues_next P s : queues P s -> queues P (next s). Proof. intros H; exact H. Qed.
Lemma queues_sync P n s : queues P s -> queues P (set_sync n s). Proof. intros H; exact H. Qed.
Lemma queues_rel P n s : queues P s -> queues P (set_rel n s). Proof. intros H; exact H. Qed.
Ltac queues_step := 
  match goal with H : step ?s _ |- queues _ _ => destruct H end;
  at_pcs; addsec; try apply queues_drv; try apply queues_next; try apply queues_sync; try apply queues_rel;
  apply queues_act; try assumption.

(** *** Where the thread of a queue is while user code runs on it *)
Definition idle_ok (t : tid) (q : qid) (d : option qid) (Q : queue) (st : list frame) : Prop :=
  d = Some q -> match q_pc Q with PInit | PRun _ _ _ | PDec _ _ | PTimers | PIofd | XClear => True | _ => st = [] end.
Lemma idle_step s s' : base_ok s -> pairs idle_ok s -> step s s' -> pairs idle_ok s'.
Proof.
  intros B R H. pairs_step.
  all: intros; match goal with |- idle_ok ?t ?q _ _ _ => pose proof (R t q) as HR end; use_stack HR; try exact HR.
  all: try (match goal with HD : s_drv _ ?t = Some ?q |- idle_ok ?t ?q' _ _ _ => intros HD'; congruence end).
  all: try (unfold idle_ok in *; proj; try rewrite HP in *; intros HD'; specialize (HR HD'); auto;
            match goal with |- match ?p with _ => _ end => destruct p; auto; discriminate end; fail).
  all: try (unfold idle_ok in *; proj; auto; fail).
  all: try (match goal with HD : s_drv ?s0 ?t = Some ?q, Hn : ?t' <> ?t |- idle_ok ?t' ?q _ _ _ =>
      intros HD'; exfalso; apply Hn; eapply drv_inj; eassumption end).
  all: try (match goal with U : user _ ?t |- _ => intros HD; specialize (HR HD);
      destruct U as [[U _]|[rr U]]; [congruence|rewrite U in HR]; destruct (q_pc _); try exact I; discriminate HR end).
  - intros E. congruence.
  - intros HD. specialize (HR HD). ifs; proj; destruct (q_pc _); try exact I; discriminate HR.
  - ifs; exact HR.
Qed.

(** *** Life cycle *)
(* the id is still valid *)
Definition before_exit (pc : cpc) : bool :=
  match pc with
  | PCheck PhUsage | PDetach PhUsage | PNext PhUsage _ | PRun PhUsage _ _ | PDone PhUsage _ _ | PDec PhUsage _ | PSync PhUsage _ | PSignal PhUsage
  | PCheck PhFinal | PDetach PhFinal | PNext PhFinal _ | PRun PhFinal _ _ | PDone PhFinal _ _ | PDec PhFinal _ | PSync PhFinal _ | PSignal PhFinal
  | XUsage | XFini | XClear | XFree | XRelease _ | XDead => false
  | _ => true
  end.
(* no references are left *)
Definition final (pc : cpc) : bool :=
  match pc with
  | PCheck PhFinal | PDetach PhFinal | PNext PhFinal _ | PRun PhFinal _ _ | PDone PhFinal _ _ | PDec PhFinal _ | PSync PhFinal _ | PSignal PhFinal
  | XFini | XClear | XFree | XRelease _ | XDead => true
  | _ => false
  end.
Definition busy (pc : cpc) : bool :=
  match pc with PNext _ _ | PRun _ _ _ | PDone _ _ _ | PDec _ _ | PSync _ _ | PSignal _ => true | _ => false end.
Definition released (pc : cpc) : bool := match pc with XRelease _ | XDead => true | _ => false end.
Definition in_hand (pc : cpc) : Z := match pc with PRun _ _ _ | PDone _ _ _ | PDec _ _ => 1 | _ => 0 end.
Definition to_signal (pc : cpc) : Z := match pc with PSync _ _ | PSignal _ => 1 | _ => 0 end.

Record life_ok (q : qid) (Q : queue) : Prop := {
  lf_usage : q_made Q = true -> q_usage Q = 1 + Z.of_nat (length (q_refs Q));
  lf_inst : q_made Q = true -> q_inst Q = before_exit (q_pc Q);
  lf_exiting : q_exiting Q = (negb (before_exit (q_pc Q)) || match q_pc Q with XUninst => true | _ => false end);
  lf_term : q_exiting Q = true -> q_term Q = true;
  lf_final : final (q_pc Q) = true -> q_refs Q = [];
  lf_freed : q_freed Q = released (q_pc Q);
  lf_did : forall ph did, q_pc Q = PNext ph did -> did = true;
  lf_max : q_made Q = true -> 1 <= q_max Q <= MPQ_MAX_SIZE }.

Lemma remove1_length x l : In x l -> S (length (remove1 x l)) = length l.
Proof.
  induction l as [|a l IH]; [intros []|]. intros Hin. cbn [remove1 length].
  destruct (Nat.eqb_spec x a) as [->|Hn]; [reflexivity|]. cbn [length]. rewrite IH; [reflexivity|].
  destruct Hin; [congruence|assumption].
Qed.
Lemma put_in s t q f rest : pairs refs_ok s -> s_stack s t = f :: rest -> frame_ref f = Some q -> In t (q_refs (s_q s q)).
Proof.
  intros R H Hf. eapply nrefs_in; [apply (R t q)|]. rewrite H. cbn. unfold ref_on. rewrite Hf, Nat.eqb_refl. lia.
Qed.

Lemma before_final pc : final pc = true -> before_exit pc = false.
Proof. destruct pc; repeat match goal with p : phase |- _ => destruct p end; cbn; congruence. Qed.
Lemma life_step s s' : base_ok s -> pairs refs_ok s -> queues life_ok s -> step s s' -> queues life_ok s'.
Proof.
  intros B F R H. queues_step.
  all: match goal with |- life_ok ?q _ => pose proof (R q) as HR end; try (ifs; exact HR).
  all: try match goal with |- context [put_ref ?t ?Q] =>
         assert (Hput : In t (q_refs Q)) by (eapply put_in; [exact F|eassumption|reflexivity]);
         pose proof (remove1_length _ _ Hput) as Hlen end.
  all: destruct HR as [L1 L2 L3 L4 L5 L6 L7 L8]; ifs; constructor; proj; try assumption.
  all: try rewrite HP in *; cbn [before_exit final released negb orb] in *.
  all: try (intros; first [reflexivity | discriminate | congruence | lia | tauto]; fail).
  all: try (unfold after_funcs; try destruct (q_pend _); try destruct ph; try destruct did; cbn [before_exit final released negb orb] in *; intros;
       first [reflexivity | discriminate | congruence | lia | tauto | exfalso; specialize (L7 _ _ eq_refl); discriminate]; fail).
  all: try (unfold tid in *; intros Hm; specialize (L1 Hm); cbn [length]; lia).
  all: try (intros Hfin; exfalso; rewrite (L5 Hfin) in Hput; exact Hput).
  all: try (intros Hfin; exfalso; pose proof (before_final _ Hfin) as Hb; rewrite <- L2 in Hb by (eapply inst_made; eassumption); congruence).
  intros _. assert (Hm : q_made (s_q s q) = true) by made. specialize (L1 Hm).
  destruct (q_refs (s_q s q)); [reflexivity|]. cbn [length] in L1. lia.
Qed.

(** *** The counter and the condition variable *)
Record cnt_ok (q : qid) (Q : queue) : Prop := {
  ct_cnt : q_cnt Q = Z.of_nat (length (q_pend Q)) + Z.of_nat (length (q_batch Q)) + in_hand (q_pc Q);
  ct_batch : busy (q_pc Q) = false -> q_batch Q = [];
  ct_waitc : q_waitc Q = Z.of_nat (length (q_blocked Q)) + Z.of_nat (length (q_signalled Q));
  ct_wake : q_blocked Q <> [] -> q_max Q <= q_cnt Q + Z.of_nat (length (q_signalled Q)) + to_signal (q_pc Q) }.

Lemma after_funcs_hand ph did : in_hand (after_funcs ph did) = 0 /\ to_signal (after_funcs ph did) = 0 /\ busy (after_funcs ph did) = false.
Proof. destruct ph, did; repeat split. Qed.
Lemma to_signal_nonneg pc : 0 <= to_signal pc.
Proof. destruct pc; cbn; lia. Qed.
Lemma in_ne {A} (x : A) l : In x l -> l <> [].
Proof. destruct l; [intros []|discriminate]. Qed.

Lemma cnt_step s s' : base_ok s -> queues cnt_ok s -> step s s' -> queues cnt_ok s'.
Proof.
  intros B R H. queues_step.
  all: match goal with |- cnt_ok ?q _ => pose proof (R q) as HR end; try (ifs; exact HR).
  all: try match goal with H : In ?t ?l |- _ => pose proof (remove1_length _ _ H) as Hlen; pose proof (in_ne _ _ H) as Hne0 end.
  all: try (destruct (after_funcs_hand ph false) as (AF1 & AF2 & AF3)).
  all: try (destruct (after_funcs_hand ph did) as (AF4 & AF5 & AF6)).
  all: destruct HR as [L1 L2 L3 L4]; ifs; constructor; proj; try assumption.
  all: try rewrite HP in *; try (destruct (q_pend _) eqn:EP); rewrite ?AF1, ?AF2, ?AF4, ?AF5 in *; cbn [busy in_hand to_signal length] in *; rewrite ?app_length; cbn [length].
  all: unfold tid in *; rewrite ?Bool.orb_false_iff, ?Bool.orb_true_iff, ?Z.ltb_lt, ?Z.ltb_ge in *.
  all: try (intros; first [reflexivity | lia | congruence | tauto]; fail).
  all: try (specialize (L2 eq_refl); rewrite L2 in *; cbn [length] in *; lia).
  all: try (match goal with H : q_batch _ = _ |- _ => rewrite H in *; cbn [length] in *; lia end).
  all: try (pose proof (to_signal_nonneg (q_pc (s_q s q))); intros Hne; first [specialize (L4 Hne)|specialize (L4 Hne0)|clear L4]; cbn [length] in *; lia).
  all: try (intros Hne; specialize (L4 Hne)).
  all: try (intros; match goal with E : _ /\ _ <= _ |- _ => proj in E end;
       pose proof (to_signal_nonneg (q_pc (s_q s q))); lia).
  all: exfalso; destruct (q_blocked (s_q s q)); [apply Hne; reflexivity|]; cbn [length] in *;
    match goal with H : _ \/ _ |- _ => destruct H as [H|H]; [lia|discriminate H] end.
Qed.
