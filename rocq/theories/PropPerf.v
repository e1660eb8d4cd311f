(** * C76: the performance callback. *)
From Verif Require Import Base Perf PerfSpec PerfInv.

(** ** Setting it *)
(** No callback is ever stored while a queue exists. *)
Theorem C76_set : forall s l1 p c l2, reach s -> log s = l1 ++ ESet p c :: l2 -> forall q, lives l2 q = false.
Proof. intros s l1 p c l2 R E. pose proof (i_ok _ (inv_reach _ R)) as K. rewrite E in K. apply allok_at in K. exact K. Qed.
Print Assumptions C76_set.
(** A call returns 0 exactly if it stored its callback; it is refused only if, at a moment during the call, a queue existed, and then it changed nothing. *)
Theorem C76_answer : forall s l1 p c ok l2, reach s -> log s = l1 ++ ERet p c ok :: l2 -> if ok then stored p c l2 else refused p c l2.
Proof. intros s l1 p c ok l2 R E. pose proof (i_ok _ (inv_reach _ R)) as K. rewrite E in K. apply allok_at in K. destruct ok; exact K. Qed.
Print Assumptions C76_answer.
(** Once every queue has ended and none is created during the call, it succeeds. *)
Theorem C76_granted : forall s l1 p c ok a n, reach s -> log s = l1 ++ ERet p c ok :: a ++ ECall p c :: n -> (forall d, ~ In (ECall p d) a) ->
  (forall q, lives n q = false) -> (forall q, ~ In (ECreate q) a) -> ok = true.
Proof.
  intros s l1 p c ok a n R E Q NL NC. pose proof (C76_answer _ _ _ _ _ _ R E) as K. destruct ok; [reflexivity|]. exfalso.
  destruct K as (x & y & m & E1 & Q1 & Q2 & q & L).
  assert (QX : forall d, ~ In (ECall p d) (x ++ y)) by (intros d; rewrite in_app_iff; destruct (Q1 d); destruct (Q2 d); tauto).
  assert (X : a = x ++ y /\ n = m).
  { rewrite app_assoc in E1. clear - E1 Q QX. revert E1 QX. generalize (x ++ y) as z. induction a as [|e a IH]; intros [|f z] E1 QX; cbn [app] in E1.
    - injection E1 as ->. auto.
    - injection E1 as <- E1. exfalso. apply (QX c). left. reflexivity.
    - injection E1 as -> E1. exfalso. apply (Q c). left. reflexivity.
    - injection E1 as <- E1. destruct (IH (fun d H => Q d (or_intror H)) z E1 (fun d H => QX d (or_intror H))) as [-> ->]. auto. }
  destruct X as [-> <-]. assert (NY : forall q, ~ In (ECreate q) y) by (intros z H; apply (NC z), in_or_app; auto).
  clear - L NL NY. induction y as [|e y IH]; cbn [app] in L.
  - cbn [lives] in L. rewrite NL in L. discriminate.
  - assert (L' : lives (y ++ ECall p c :: n) q = true -> False) by (intros H; apply IH; [exact H|intros z Y; apply (NY z); right; exact Y]).
    destruct e; cbn [lives] in L; try (apply L', L).
    + eapply NY. left. reflexivity.
    + apply andb_prop in L. apply L', L.
Qed.
Print Assumptions C76_granted.
(** While a queue exists the callback in force stays the same. *)
Theorem C76_stable : forall s l1 a b q, reach s -> log s = l1 ++ a ++ b -> lives b q = true -> ~ In (EDestroy q) a -> installed (a ++ b) = installed b /\ lives (a ++ b) q = true.
Proof.
  intros s l1 a b q R E L D. pose proof (i_ok _ (inv_reach _ R)) as K. rewrite E in K. clear - K L D. revert l1 K. induction a as [|e a IH]; intros l1 K; [auto|]. destruct (IH (fun H => D (or_intror H)) (l1 ++ [e])) as [I1 I2]; [rewrite <- app_assoc; exact K|].
  change ((e :: a) ++ b) with (e :: (a ++ b)) in *. pose proof (allok_at _ _ _ K) as G. destruct e; cbn [installed lives]; auto.
  - rewrite I2, orb_true_r. auto.
  - destruct (Nat.eqb_spec q0 q) as [-> |]; [exfalso; apply D; left; reflexivity|]. rewrite I2. auto.
  - cbn in G. rewrite G in I2. discriminate.
Qed.
Print Assumptions C76_stable.

(** ** What it is told *)
(** NULL is never called, whatever threads set and unset the callback meanwhile. *)
Theorem C76_no_null : forall s, reach s -> crashed s = false.
Proof. intros s R. exact (i_crash _ (inv_reach _ R)). Qed.
Print Assumptions C76_no_null.
(** Every call of a callback is the first for its execution, comes after the function returned, on its queue, with its name and its free_only flag, and is to the callback in force. *)
Theorem C76_told : forall s l1 q n c nm fo w e l2, reach s -> log s = l1 ++ EReport q n c nm fo w e :: l2 ->
  c = installed l2 /\ c <> 0%nat /\ reports l2 n = [] /\ exists i t0 t1, num i = n /\ name i = nm /\ fonly i = fo /\ In (EBegin q i t0) l2 /\ In (ERan q n t1) l2.
Proof.
  intros s l1 q n c nm fo w e l2 R E. pose proof (i_ok _ (inv_reach _ R)) as K. rewrite E in K. apply allok_at in K. destruct K as (K1 & K2 & _ & K3 & i & t0 & t1 & K4 & K5 & K6 & K7 & K8 & _).
  repeat (split; [assumption|]). exists i, t0, t1. auto.
Qed.
Print Assumptions C76_told.
(** Every execution that ended was reported exactly once, to the callback in force when its queue was created; not at all if there was none. *)
Theorem C76_once : forall s l1 q n a b, reach s -> log s = l1 ++ EEnd q n :: a ++ ECreate q :: b -> ~ In (EDestroy q) a ->
  reports (a ++ ECreate q :: b) n = if Nat.eqb (installed b) 0 then [] else [installed b].
Proof.
  intros s l1 q n a b R E D. pose proof (i_ok _ (inv_reach _ R)) as K. rewrite E in K. apply allok_at in K. destruct K as (_ & K & _).
  assert (L : lives (ECreate q :: b) q = true) by (cbn; rewrite Nat.eqb_refl; reflexivity).
  destruct (C76_stable s (l1 ++ [EEnd q n]) a (ECreate q :: b) q R) as [S1 _]; [rewrite <- app_assoc; exact E|exact L|exact D|].
  rewrite S1 in K. exact K.
Qed.
Print Assumptions C76_once.
(** A queue only runs functions after it was created, and numbers name executions: the hypothesis of the last theorem is met at every end of an execution. *)
Theorem C76_ended : forall s l1 q n l2, reach s -> log s = l1 ++ EEnd q n :: l2 -> exists a b, l2 = a ++ ECreate q :: b /\ ~ In (EDestroy q) a.
Proof.
  intros s l1 q n l2 R E. pose proof (i_ok _ (inv_reach _ R)) as K. rewrite E in K. apply allok_at in K. destruct K as (L & _). clear - L. induction l2 as [|e l2 IH]; [discriminate|].
  assert (G : lives l2 q = true -> e <> EDestroy q -> exists a b, e :: l2 = a ++ ECreate q :: b /\ ~ In (EDestroy q) a).
  { intros H N. destruct (IH H) as (a & b & -> & D). exists (e :: a), b. split; [reflexivity|]. intros [X|X]; [congruence|contradiction]. }
  destruct e; cbn [lives] in L; try (apply G; [exact L|discriminate]).
  - destruct (Nat.eqb_spec q0 q) as [-> |D]; [exists [], l2; split; [reflexivity|intros []]|]. apply G; [exact L|discriminate].
  - apply andb_prop in L. destruct L as [L1 L2]. apply G; [exact L2|]. intros [= ->]. rewrite Nat.eqb_refl in L1. discriminate.
Qed.
Print Assumptions C76_ended.

(** ** The times *)
(** The times it is told are not those of the execution: exec_us is always 0, wait_us depends on nothing but the moment of queueing ... *)
Theorem C76_times_fixed : forall s l1 q n c nm fo w e l2, reach s -> log s = l1 ++ EReport q n c nm fo w e :: l2 ->
  exists i t0, num i = n /\ In (EBegin q i t0) l2 /\ e = 0 /\ w = u32 (- (1000 * qts i)).
Proof.
  intros s l1 q n c nm fo w e l2 R E. pose proof (i_ok _ (inv_reach _ R)) as K. rewrite E in K. apply allok_at in K. destruct K as (_ & _ & _ & _ & i & t0 & t1 & K4 & _ & _ & K7 & _ & _ & K9 & K10).
  exists i, t0. auto.
Qed.
Print Assumptions C76_times_fixed.
(** ... so every function that takes two milliseconds or more is told wrongly. *)
Theorem C76_exec_refuted : forall s l1 q n c nm fo w e l2 i t0 t1, reach s -> log s = l1 ++ EReport q n c nm fo w e :: l2 -> num i = n -> In (EBegin q i t0) l2 -> In (ERan q n t1) l2 -> t0 + 2 <= t1 ->
  ~ right_times (qts i) t0 t1 w e.
Proof.
  intros s l1 q n c nm fo w e l2 i t0 t1 R E N B1 B2 T. destruct (C76_times_fixed _ _ _ _ _ _ _ _ _ _ R E) as (i' & t' & _ & _ & -> & _). unfold right_times. lia.
Qed.
Print Assumptions C76_exec_refuted.

(** ** Cases *)
Definition do (ls : list label) : st := match run init ls with Some s => s | None => init end.
Lemma do_reach ls : (if run init ls then true else false) = true -> reach (do ls).
Proof. unfold do. intros H. exists ls. destruct (run init ls); [reflexivity|discriminate]. Qed.
Definition set (p c : nat) : list label := [LCall p c; LLock p; LCheck p; LStore p; LUnlock p; LRet p].
Definition try (p c : nat) : list label := [LCall p c; LLock p; LCheck p; LUnlock p; LRet p].
(** A callback is set; queue 0 runs a function queued at 1 ms from 3 ms to 6 ms; the function tries to unset the callback, and runs another within itself; both are reported; after the queue's end the callback is unset and a second queue runs unreported. *)
Definition example : list label :=
  set 0 7 ++ [LTick; LCreate; LTick; LTick; LBegin 0 40 false 1] ++ try 9 0 ++ [LBegin 0 41 true 2; LTick; LTick; LTick; LFret 0; LTest 0; LPerf 0; LCbret 0; LEnd 0; LFret 0; LTest 0; LPerf 0; LCbret 0; LEnd 0; LDestroy 0]
  ++ set 1 0 ++ [LCreate; LBegin 1 42 false 6; LFret 1; LTest 1; LEnd 1].
Example example_run : rev (log (do example)) =
  [ECall 0 7; ESet 0 7; ERet 0 7 true; ECreate 0; EBegin 0 (mkI 0 40 false 1) 3; ECall 9 0; ERet 9 0 false; EBegin 0 (mkI 1 41 true 2) 3; ERan 0 1 6; EReport 0 1 7 41 true 4294965296 0; EEnd 0 1;
   ERan 0 0 6; EReport 0 0 7 40 false 4294966296 0; EEnd 0 0; EDestroy 0; ECall 1 0; ESet 1 0; ERet 1 0 true; ECreate 1; EBegin 1 (mkI 2 42 false 6) 6; ERan 1 2 6; EEnd 1 2].
Proof. vm_compute. reflexivity. Qed.
Example example_reach : reach (do example).
Proof. apply do_reach. vm_compute. reflexivity. Qed.
(** Two threads are inside the lock at once and both succeed; the last to store wins. *)
Definition race : list label := [LCall 0 7; LCall 1 8; LLock 0; LLock 1; LCheck 1; LCheck 0; LStore 1; LStore 0; LUnlock 0; LUnlock 1; LRet 1; LRet 0; LCreate].
Example race_run : installed (log (do race)) = 7%nat /\ In (ERet 1 8 true) (log (do race)) /\ In (ERet 0 7 true) (log (do race)) /\ reach (do race).
Proof. split; [vm_compute; reflexivity|]. split; [vm_compute; tauto|]. split; [vm_compute; tauto|]. apply do_reach. vm_compute. reflexivity. Qed.
(** While a thread is inside, no queue can be created. *)
Example creation_waits : run init [LCall 0 7; LLock 0; LCheck 0; LCreate] = None.
Proof. reflexivity. Qed.
(** C76_exec_refuted's hypotheses: the report of function 0 above, in the history up to then. *)
Example example_times : ~ right_times 1 3 6 4294966296 0.
Proof.
  assert (R : reach (do example)) by exact example_reach.
  eapply (C76_exec_refuted (do example) (firstn 9 (log (do example))) 0 0 7 40 false 4294966296 0 (skipn 10 (log (do example))) (mkI 0 40 false 1) 3 6 R); [vm_compute; reflexivity|reflexivity|vm_compute; tauto|vm_compute; tauto|lia].
Qed.
