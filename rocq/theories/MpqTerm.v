(** * A request to terminate a queue is not forgotten. *)
From Verif Require Import Base Mpq MpqInv.

Lemma term_sticky s s' q : base_ok s -> step s s' -> q_term (s_q s q) = true -> q_term (s_q s' q) = true.
Proof.
  intros B H E. destruct H; at_pcs; addsec; proj; try exact E;
   try (apply (upd_cases _ _ _ _ (fun X => q_term X = true)); [let X := fresh in intros X; subst|intros; exact E]; unfold get_ref, put_ref, wake, wake_all; ifs; proj; try exact E; try reflexivity).
  all: try (exfalso; match goal with M : q_made _ = false |- _ => rewrite (bs_new _ B _ M) in E; discriminate E end).
  all: congruence.
Qed.
(** The places of a destroy call after it has asked the queue to terminate. *)
Definition asked (pc : dpc) : Prop := match pc with DKick | DKickW | DBcast | DPut | DWait => True | _ => False end.
Definition term_ok (s : state) : Prop := forall t q w c n pc, In (FDestroy q true w c 0 n pc) (s_stack s t) -> asked pc -> q_term (s_q s q) = true.
Lemma term_step s s' : base_ok s -> term_ok s -> step s s' -> term_ok s'.
Proof.
  intros B TO H. assert (OLD : forall t q w c n pc, In (FDestroy q true w c 0 n pc) (s_stack s t) -> asked pc -> q_term (s_q s' q) = true).
  { intros. eapply term_sticky; eauto. }
  intros u q' w' c' n' pc' I A. 
  destruct H; at_pcs; revert OLD I; addsec; intros OLD; proj; intros I; try (exact (OLD _ _ _ _ _ _ I A));
  unfold upd in I; destruct (Nat.eqb_spec u t); try (exact (OLD _ _ _ _ _ _ I A)); subst u.
  all: try (match goal with E : s_stack _ _ = _ :: _ |- _ => rewrite E in OLD end).
  all: cbn [In] in I; repeat (destruct I as [I|I]; [try discriminate I; try (exfalso; revert I; ifs; intros I; try discriminate I; injection I; intros; subst; exact A)|]); try contradiction.
  all: try (apply (OLD t _ w' c' n' pc'); [|exact A]; rewrite ?H; cbn [In]; tauto).
  all: try (match goal with E : _ = FDestroy _ _ _ _ _ _ _ |- _ => injection E; intros; subst; try (match goal with H : s_stack ?s0 ?t0 = _ |- _ => eapply (OLD t0); [rewrite H; left; reflexivity|exact Logic.I] end) end).
  unfold upd. rewrite Nat.eqb_refl. reflexivity.
Qed.
Inductive steps : state -> state -> Prop := St_refl s : steps s s | St_step s s1 s2 : steps s s1 -> step s1 s2 -> steps s s2.
Lemma term_reachable s : reachable s -> term_ok s.
Proof. induction 1 as [|s s' R IH H]; [intros t q w c n pc []|]. eapply term_step; eauto. apply base_reachable, R. Qed.
Lemma steps_reachable s s' : reachable s -> steps s s' -> reachable s'.
Proof. intros R H. induction H as [|s s1 s2 H1 IH H2]; [exact R|]. eapply R_step; [apply IH, R|exact H2]. Qed.
Lemma steps_term s s' q : reachable s -> steps s s' -> q_term (s_q s q) = true -> q_term (s_q s' q) = true.
Proof. intros R H E. induction H as [|s s1 s2 H1 IH H2]; [exact E|]. apply (term_sticky s1 s2 q (base_reachable _ (steps_reachable _ _ R H1)) H2 (IH R E)). Qed.
