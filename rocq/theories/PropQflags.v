(** * C77: the flags of a queue. *)
From Verif Require Import Base Qflags QflagsSpec QflagsInv.

(** ** Changing and reading them *)
(** A change that returned was made exactly once, at a moment during its call, and it returned 0: none is lost, whatever other threads change. *)
Theorem C77_change : forall fl s l1 p op b r l2, reach fl s -> log s = l1 ++ ERet p op b r :: l2 -> r = 0 /\ changed p op b l2.
Proof. intros fl s l1 p op b r l2 R E. pose proof (i_ok _ _ (inv_reach _ _ R)) as K. rewrite E in K. apply allok_at in K. exact K. Qed.
Print Assumptions C77_change.
(** What a reading returns are the flags at a moment during its call: those of the creation with the changes made up to then. *)
Theorem C77_read : forall fl s l1 p v l2, reach fl s -> log s = l1 ++ EGot p v :: l2 -> seen fl p v l2.
Proof. intros fl s l1 p v l2 R E. pose proof (i_ok _ _ (inv_reach _ _ R)) as K. rewrite E in K. apply allok_at in K. exact K. Qed.
Print Assumptions C77_read.
(** An operation that is none of the three changes nothing. *)
Theorem C77_other : forall fl p b l, value fl (EApply p Other b :: l) = value fl l.
Proof. reflexivity. Qed.
Print Assumptions C77_other.
(** aosl_mpq_destroy is refused exactly if AOSL_MPQ_FLAG_DESTROY_NOT_ALLOWED is set. *)
Theorem C77_destroy : forall fl s l1 p ok l2, reach fl s -> log s = l1 ++ EDestroy p ok :: l2 -> (ok = false <-> Z.testbit (value fl l2) 31 = true).
Proof. intros fl s l1 p ok l2 R E. pose proof (i_ok _ _ (inv_reach _ _ R)) as K. rewrite E in K. apply allok_at in K. cbn [good] in K. subst ok. destruct (Z.testbit (value fl l2) 31); cbn; split; intros; congruence. Qed.
Print Assumptions C77_destroy.

(** ** Waking the queue *)
(** A kick, or a wait, goes to the object made at creation exactly if AOSL_MPQ_FLAG_SIGP_EVENT is now as it was then. *)
Theorem C77_wake : forall fl s l1 e h l2, reach fl s -> log s = l1 ++ e :: l2 -> e = EKick h \/ e = EWait h -> (h = Reach <-> Z.testbit (value fl l2) 1 = Z.testbit fl 1).
Proof.
  intros fl s l1 e h l2 R E [-> | ->]; pose proof (i_ok _ _ (inv_reach _ _ R)) as K; rewrite E in K; apply allok_at in K; cbn [good] in K; subst h; unfold use, made, sigp_bit;
    destruct (Z.testbit fl 1), (Z.testbit (value fl l2) 1); split; intros; congruence.
Qed.
Print Assumptions C77_wake.
(** So as long as no change touches that flag no wake-up is lost in this way, and descriptors can be added exactly to the queues created without it. *)
Theorem C77_kept_partial : forall fl s, reach fl s -> (forall p op b, In (EApply p op b) (log s) -> leaves op b) ->
  (forall h, In (EKick h) (log s) \/ In (EWait h) (log s) -> h = Reach) /\ (forall ok, In (EAdd ok) (log s) -> ok = negb (Z.testbit fl 1)).
Proof.
  intros fl s R L.
  assert (X : forall l1 l2, log s = l1 ++ l2 -> Z.testbit (value fl l2) 1 = Z.testbit fl 1).
  { intros l1 l2 E. assert (L' : forall p op b, In (EApply p op b) l2 -> leaves op b) by (intros p op b H; apply (L p op b); rewrite E; apply in_or_app; auto). clear - L'.
    induction l2 as [|e l2 IH]; [reflexivity|]. assert (IH' := IH (fun p op b H => L' p op b (or_intror H))). destruct e as [p op b|p op b|p op b r|p|p v|h|h|ok|p ok]; cbn [value]; auto.
    specialize (L' p op b (or_introl eq_refl)). destruct op; cbn [leaves] in L'; [rewrite Z.lor_spec, L', orb_false_r|rewrite Z.land_spec, L', andb_true_r|rewrite Z.lxor_spec, L', xorb_false_r|]; exact IH'. }
  split.
  - intros h [H|H]; apply in_split in H; destruct H as (l1 & l2 & E); (eapply (C77_wake fl s l1 _ h l2 R E); [auto|]).
    + apply (X (l1 ++ [EKick h])). rewrite <- app_assoc. exact E.
    + apply (X (l1 ++ [EWait h])). rewrite <- app_assoc. exact E.
  - intros ok H. apply in_split in H. destruct H as (l1 & l2 & E). pose proof (i_ok _ _ (inv_reach _ _ R)) as K. rewrite E in K. apply allok_at in K. cbn [good] in K. rewrite K. f_equal. apply (X (l1 ++ [EAdd ok])). rewrite <- app_assoc. exact E.
Qed.
Print Assumptions C77_kept_partial.

(** ** What is wrong *)
Definition do (fl : Z) (ls : list label) : st := match run (init fl) ls with Some s => s | None => init fl end.
Lemma do_reach fl ls : (if run (init fl) ls then true else false) = true -> reach fl (do fl ls).
Proof. unfold do. intros H. exists ls. destruct (run (init fl) ls); [reflexivity|discriminate]. Qed.
Definition change (p : nat) (op : bitop) (b : Z) : list label := [LChange p op b; LLock p; LRead p; LStore p; LUnlock p; LRet p].
Definition get (p : nat) : list label := [LGet p; LLock p; LRead p; LUnlock p; LRet p].
(** aosl_mpq_change_flags changes AOSL_MPQ_FLAG_SIGP_EVENT of a living queue: without it, a queue made with it loses every kick; with it, a queue made without it crashes whoever kicks it. *)
Theorem C77_sigp_refuted : (exists s, reach 2 s /\ log s = [EKick Lost; ERet 0 And (-3) 0; EApply 0 And (-3); ECall 0 And (-3)]) /\
  (exists s, reach 0 s /\ log s = [EKick Null; ERet 0 Or 2 0; EApply 0 Or 2; ECall 0 Or 2]).
Proof.
  split; [exists (do 2 (change 0 And (-3) ++ [LKick]))|exists (do 0 (change 0 Or 2 ++ [LKick]))]; (split; [apply do_reach|]; vm_compute; reflexivity).
Qed.
Print Assumptions C77_sigp_refuted.
(** It changes the internal flag too: a queue that must not be destroyed (of a pool, or the main one) is destroyed. *)
Theorem C77_internal_refuted : exists s, reach (-2147483648) s /\ term s = true /\ log s = [EDestroy 0 true; ERet 0 And 1 0; EApply 0 And 1; ECall 0 And 1; EDestroy 0 false].
Proof. exists (do (-2147483648) (LDestroy 0 :: change 0 And 1 ++ [LDestroy 0])). split; [apply do_reach; vm_compute; reflexivity|]. split; vm_compute; reflexivity. Qed.
Print Assumptions C77_internal_refuted.
(** A reading returns -1, as for a queue that does not exist, when all bits are set; other values of queues that must not be destroyed are negative as well. *)
Theorem C77_minus_refuted : exists s, reach 0 s /\ In (EGot 1 (-1)) (log s).
Proof. exists (do 0 (change 0 Or (-1) ++ get 1)). split; [apply do_reach; vm_compute; reflexivity|]. vm_compute. tauto. Qed.
Print Assumptions C77_minus_refuted.

(** ** Cases *)
(** Two threads change the flags at the same time, a third reads before and after; both changes are there. *)
Definition example : list label :=
  [LChange 0 Or 1; LChange 1 Or 4; LGet 2; LLock 1; LRead 1; LStore 1; LUnlock 1; LLock 2; LRead 2; LUnlock 2; LRet 2; LLock 0; LRead 0; LStore 0; LUnlock 0; LRet 0; LRet 1; LKick; LWait; LAdd] ++ get 2 ++ change 2 Xor 5 ++ get 0.
Example example_run : reach 8 (do 8 example) /\ rev (log (do 8 example)) =
  [ECall 0 Or 1; ECall 1 Or 4; EAsk 2; EApply 1 Or 4; EGot 2 12; EApply 0 Or 1; ERet 0 Or 1 0; ERet 1 Or 4 0; EKick Reach; EWait Reach; EAdd true; EAsk 2; EGot 2 13; ECall 2 Xor 5; EApply 2 Xor 5; ERet 2 Xor 5 0; EAsk 0; EGot 0 8].
Proof. split; [apply do_reach|]; vm_compute; reflexivity. Qed.
(** C77_kept_partial's hypotheses. *)
Example example_kept : forall p op b, In (EApply p op b) (log (do 8 example)) -> leaves op b.
Proof. 
  intros p op b. pose proof (proj2 example_run) as E. revert E. generalize (log (do 8 example)) as l. intros l E H. apply (proj1 (in_rev l _)) in H. rewrite E in H. cbn [In] in H. assert (X : (op, b) = (Or, 4) \/ (op, b) = (Or, 1) \/ (op, b) = (Xor, 5)) by (intuition congruence).
  destruct X as [X|[X|X]]; injection X as -> ->; reflexivity.
Qed.
(** While one changes the flags no other does. *)
Example example_lock : run (init 0) [LChange 0 Or 1; LLock 0; LRead 0; LChange 1 Or 2; LLock 1] = None.
Proof. reflexivity. Qed.
