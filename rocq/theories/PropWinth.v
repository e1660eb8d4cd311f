(** * C71: threads of the windows port. *)
From Verif Require Import Base Winth WinthSpec WinthInv.

Lemma step_tr1 s s' : step s s' -> s_tr s' = s_tr s \/ (exists e, s_tr s' = e :: s_tr s) \/ exists k v, s_tr s' = EEnd k :: EExit k v :: s_tr s.
Proof.
  intros ST. destruct ST; cbn [s_tr do_act set_thr emit set_call flag]; eauto.
  - unfold wrapper. cbn zeta. destruct (n_det (node s k)); cbn [s_tr]; eauto.
  - left. unfold section1. cbn zeta. destruct (c_op c); destruct (find_node _ _ _); repeat match goal with |- context [if ?b then _ else _] => destruct b end; reflexivity.
  - left. unfold section2. cbn zeta. destruct (find_node _ _ _); reflexivity.
Qed.
(** The state just after an event. *)
Lemma reach_at s h1 e h2 : reachable s -> proper (s_tr s) -> s_tr s = h1 ++ e :: h2 -> exists s1, reachable s1 /\ s_tr s1 = e :: h2.
Proof.
  intros R. revert h1. induction R as [|s s' R IH ST]; intros h1 P E; [destruct h1; discriminate|].
  destruct (step_tr1 _ _ ST) as [T|[(y & T)|(k & v & T)]].
  - rewrite T in *. eapply IH; eauto.
  - destruct h1 as [|z h1]; [exists s'; split; [eapply R_step; eassumption|exact E]|]. rewrite T in *. injection E as _ E. destruct P as (P & _). eapply IH; eauto.
  - rewrite T in P. destruct P as ((_ & P) & _). destruct P.
Qed.
Lemma ok_at s k x : reachable s -> proper (s_tr s) -> nth_error (s_thr s) k = Some x -> okt k x (callof k (s_calls s)) (inb k (s_list s)) (evs k (s_tr s)).
Proof. intros R P H. apply (i_thr s (reach_inv s R P)), H. Qed.
Lemma thr_of s e : reachable s -> proper (s_tr s) -> In e (s_tr s) -> exists x, nth_error (s_thr s) (about e) = Some x.
Proof.
  intros R P H. destruct (nth_error (s_thr s) (about e)) as [x|] eqn:E; [eauto|]. apply nth_error_None in E. destruct (i_none s (reach_inv s R P) _ E) as (A & _).
  apply in_evs in H. rewrite A in H. destruct H.
Qed.

(** A join returns success, with the value that this thread's function returned, and
    after the thread has ended; and there is only one such value. *)
Theorem C71_join_gets_the_value s h1 h2 k r : reachable s -> proper (s_tr s) -> s_tr s = h1 ++ EResult k Join r :: h2 ->
  exists v, r = RVal (Some v) /\ In (EFun k v) h2 /\ In (EEnd k) h2 /\ forall v', In (EFun k v') (s_tr s) -> v' = v.
Proof.
  intros R P E. destruct (reach_at s h1 _ h2 R P E) as (s1 & R1 & T1). assert (P1 : proper (s_tr s1)) by (rewrite T1; rewrite E in P; eapply proper_suffix, P).
  assert (IN : In (EResult k Join r) (s_tr s1)) by (rewrite T1; left; reflexivity).
  destruct (thr_of s1 _ R1 P1 IN) as (x & H). cbn [about] in H. assert (O := ok_at s1 k x R1 P1 H).
  assert (IN' := proj2 (in_evs (EResult k Join r) (s_tr s1)) IN). cbn [about] in IN'. destruct (o_res _ _ _ _ _ O _ _ IN') as (c & C1 & C2 & C3 & C4). specialize (C4 eq_refl).
  assert (OC := o_call _ _ _ _ _ O c C1). destruct OC as (_ & _ & _ & OC). rewrite C3, C2 in OC. destruct OC as ((_ & PH) & _).
  assert (F : n_fin x = true) by (rewrite (o_fin _ _ _ _ _ O); unfold running; rewrite PH; reflexivity).
  destruct (o_val _ _ _ _ _ O F) as (v & V & FV). exists v. rewrite V in C4. split; [exact C4|].
  assert (B : forall e, about e = k -> In e (evs k (s_tr s1)) -> e <> EResult k Join r -> In e h2).
  { intros e A Q N. rewrite <- A in Q. apply (proj1 (in_evs e (s_tr s1))) in Q. rewrite T1 in Q. destruct Q as [Q|Q]; [congruence|exact Q]. }
  split; [apply B; [reflexivity|exact FV|discriminate]|]. split; [apply B; [reflexivity|apply (o_end _ _ _ _ _ O), PH|discriminate]|].
  intros v' Q. assert (IN2 : In (EFun k v) (s_tr s)). { rewrite E. apply in_or_app. right. right. apply B; [reflexivity|exact FV|discriminate]. }
  destruct (thr_of s _ R P IN2) as (y & Hy). cbn [about] in Hy. assert (O2 := ok_at s k y R P Hy).
  apply (proj2 (in_evs (EFun k v') (s_tr s))) in Q. apply (proj2 (in_evs (EFun k v) (s_tr s))) in IN2. apply (o_fun _ _ _ _ _ O2) in Q. apply (o_fun _ _ _ _ _ O2) in IN2. destruct Q, IN2. congruence.
Qed.

(** Memory and handles are never used after they were given back, and no thread's
    handle, node or start block is given back twice. *)
Theorem C71_released_at_most_once s k : reachable s -> proper (s_tr s) ->
  s_bad s = false /\ (count is_close (evs k (s_tr s)) <= 1)%nat /\ (count is_free (evs k (s_tr s)) <= 1)%nat /\ (count is_fstart (evs k (s_tr s)) <= 1)%nat.
Proof.
  intros R P. assert (I := reach_inv s R P). split; [apply (i_bad s I)|]. destruct (nth_error (s_thr s) k) as [x|] eqn:H.
  - assert (O := i_thr s I _ _ H). rewrite (o_nclose _ _ _ _ _ O), (o_nfree _ _ _ _ _ O), (o_nfstart _ _ _ _ _ O). destruct (w_open x), (n_free x), (w_sfree x); cbn; lia.
  - apply nth_error_None in H. destruct (i_none s I _ H) as (A & _). rewrite A. cbn. lia.
Qed.

Lemma count_in p (e : event) h : (forall y, p y = true -> y = e) -> count p h = 1%nat -> In e h.
Proof.
  unfold count. intros HP H. destruct (filter p h) as [|y l] eqn:E; [discriminate|]. assert (Y : In y (filter p h)) by (rewrite E; left; reflexivity). apply filter_In in Y. destruct Y as (Y1 & Y2). rewrite <- (HP y Y2). exact Y1.
Qed.
Lemma count_evs p k e h : about e = k -> (forall y, p y = true -> about y = k -> y = e) -> count p (evs k h) = 1%nat -> In e h.
Proof.
  intros A HP H. unfold count, evs in H. destruct (filter p (filter _ h)) as [|y l] eqn:E; [discriminate|]. assert (Y : In y (filter p (filter (fun e0 => (about e0 =? k)%nat) h))) by (rewrite E; left; reflexivity).
  apply filter_In in Y. destruct Y as (Y1 & Y2). apply filter_In in Y1. destruct Y1 as (Y1 & Y3). apply Nat.eqb_eq in Y3. rewrite <- (HP y Y2 Y3). exact Y1.
Qed.
Lemma rel_of s k x : reachable s -> proper (s_tr s) -> nth_error (s_thr s) k = Some x -> w_open x = false -> n_free x = true -> w_sfree x = true -> released k (s_tr s).
Proof.
  intros R P H A B C. assert (O := ok_at s k x R P H). assert (A' := o_nclose _ _ _ _ _ O). assert (B' := o_nfree _ _ _ _ _ O). assert (C' := o_nfstart _ _ _ _ _ O). rewrite A in A'. rewrite B in B'. rewrite C in C'.
  split; [|split].
  - apply (count_evs is_close k (EClose k)); [reflexivity| |exact A']. intros []; cbn; intros; congruence.
  - apply (count_evs is_free k (EFree k)); [reflexivity| |exact B']. intros []; cbn; intros; congruence.
  - apply (count_evs is_fstart k (EFreeStart k)); [reflexivity| |exact C']. intros []; cbn; intros; congruence.
Qed.
(** Once the thread has ended and the join or the detach (or a destroy called after the
    function had returned) has returned, everything has been given back. *)
Theorem C71_released s k o r : reachable s -> proper (s_tr s) -> In (EEnd k) (s_tr s) -> In (EResult k o r) (s_tr s) ->
  (o = Destroy -> exists h1 h2 v, s_tr s = h1 ++ ECall k Destroy :: h2 /\ In (EFun k v) h2) -> released k (s_tr s).
Proof.
  intros R P HE HR HD. destruct (thr_of s _ R P HR) as (x & H). cbn [about] in H. assert (O := ok_at s k x R P H).
  assert (PH : w_ph x = TEnd) by (apply (o_end _ _ _ _ _ O), (in_evs (EEnd k)), HE).
  apply (in_evs (EResult k o r)) in HR. cbn [about] in HR. destruct (o_res _ _ _ _ _ O _ _ HR) as (c & C1 & C2 & C3 & _).
  assert (OC := o_call _ _ _ _ _ O c C1). destruct OC as (_ & _ & PB & OC). rewrite C3 in OC. destruct OC as (OC & _).
  assert (F : n_fin x = true) by (rewrite (o_fin _ _ _ _ _ O); unfold running; rewrite PH; reflexivity).
  assert (IL : inb k (s_list s) = false).
  { destruct (inb k (s_list s)) eqn:IL; [|reflexivity]. exfalso. destruct (o_inl _ _ _ _ _ O eq_refl) as (_ & _ & _ & D). rewrite C2 in OC. destruct o.
    - destruct OC; discriminate.
    - rewrite (D OC) in F. discriminate.
    - destruct OC as (_ & OC). destruct (OC eq_refl) as (_ & FB). destruct (HD eq_refl) as (h1 & h2 & v & E & IN). clear - FB E IN P. rewrite E in *. rewrite evs_app in FB.
      assert (N : forall o, ~ In (ECall k o) h1). { clear - P. induction h1 as [|e h1 IH]; [intros o []|]. destruct P as (P & Q). intros o [A|A]; [|eapply IH; eassumption]. subst e. destruct Q as (_ & Q). apply (Q Destroy). apply in_or_app. right. left. reflexivity. }
      assert (G : fin_before (evs k h1 ++ evs k (ECall k Destroy :: h2)) = fin_before (evs k (ECall k Destroy :: h2))).
      { clear - N. generalize (evs k (ECall k Destroy :: h2)). intros T. induction h1 as [|e h1 IH]; [reflexivity|]. cbn [evs filter]. destruct (Nat.eqb_spec (about e) k) as [A|A]; cbn [app]; fold (evs k h1); [|apply IH; intros o B; apply (N o); right; exact B].
        destruct e as [| | | | |j []| | | |]; cbn [fin_before]; try (apply IH; intros o' B; apply (N o'); right; exact B).
        exfalso. cbn in A. subst j. apply (N Destroy). left. reflexivity. }
      rewrite G in FB. cbn [evs filter about] in FB. rewrite Nat.eqb_refl in FB. cbn [fin_before] in FB. fold (evs k h2) in FB. rewrite (fin_not (evs k h2) v k) in FB; [discriminate|]. apply (in_evs (EFun k v)), IN. }
  destruct (o_out _ _ _ _ _ O IL PB) as (HH & _).
  assert (AC : cacts (callof k (s_calls s)) = []) by (rewrite C1; destruct c as [o' k' t' p']; cbn in C3; subst p'; reflexivity).
  assert (TC : tacts x = []) by (unfold tacts; rewrite PH; reflexivity).
  assert (O1 := o_open _ _ _ _ _ O). assert (O2 := o_node _ _ _ _ _ O). assert (O3 := o_start _ _ _ _ _ O). unfold pend, running in *. rewrite AC, TC, ?PB, ?HH, ?IL, ?PH in *. cbn in O1, O2, O3.
  apply (rel_of s k x R P H); [destruct (w_open x)|destruct (n_free x)|destruct (w_sfree x)]; try reflexivity; discriminate.
Qed.

(** Nothing is taken from under a user: the handle is closed only after join, detach or
    destroy was called for this thread, the node freed only after that and after the
    function returned. *)
Theorem C71_kept s k : reachable s -> proper (s_tr s) ->
  (In (EClose k) (s_tr s) -> exists o, In (ECall k o) (s_tr s)) /\
  (In (EFree k) (s_tr s) -> (exists o, In (ECall k o) (s_tr s)) /\ exists v, In (EFun k v) (s_tr s)) /\
  (In (EFreeStart k) (s_tr s) -> exists v, In (EFun k v) (s_tr s)).
Proof.
  intros R P.
  assert (CI : forall p (e : event), p e = true -> In e (s_tr s) -> (1 <= count p (evs (about e) (s_tr s)))%nat).
  { intros p e HP HI. apply in_evs in HI. unfold count. assert (F : In e (filter p (evs (about e) (s_tr s)))) by (apply filter_In; auto). destruct (filter p _); [destruct F|cbn; lia]. }
  assert (G : forall e x, about e = k -> nth_error (s_thr s) k = Some x -> n_fin x = true -> exists v, In (EFun k v) (s_tr s)).
  { intros e x _ H F. destruct (o_val _ _ _ _ _ (ok_at s k x R P H) F) as (v & _ & B). exists v. apply (proj1 (in_evs (EFun k v) (s_tr s))), B. }
  assert (GC : forall x, nth_error (s_thr s) k = Some x -> callof k (s_calls s) <> None -> exists o, In (ECall k o) (s_tr s)).
  { intros x H F. destruct (callof k (s_calls s)) as [c|] eqn:C; [|congruence]. exists (c_op c). apply (in_evs (ECall k (c_op c))). cbn [about]. apply (o_called _ _ _ _ _ (ok_at s k x R P H)). exists c. auto. }
  split; [|split]; intros HI; destruct (thr_of s _ R P HI) as (x & H); cbn [about] in H; assert (O := ok_at s k x R P H).
  - apply (GC x H). intros C. destruct (o_nocall _ _ _ _ _ O C) as (D & IL). assert (Q := CI is_close (EClose k) eq_refl HI). cbn [about] in Q. rewrite (o_nclose _ _ _ _ _ O) in Q. assert (O1 := o_open _ _ _ _ _ O).
    destruct (w_open x); [cbn in Q; lia|]. destruct (w_pub x) eqn:PB; [|rewrite orb_true_r in O1; cbn in O1; discriminate]. destruct (o_inl _ _ _ _ _ O (IL eq_refl)) as (_ & HH & _). rewrite HH, D in O1. discriminate.
  - assert (Q := CI is_free (EFree k) eq_refl HI). cbn [about] in Q. rewrite (o_nfree _ _ _ _ _ O) in Q. assert (O2 := o_node _ _ _ _ _ O). destruct (n_free x) eqn:NF; [|cbn in Q; lia].
    destruct (inb k (s_list s)) eqn:IL; [discriminate|]. destruct (w_pub x) eqn:PB; [|discriminate]. destruct (o_out _ _ _ _ _ O eq_refl PB) as (_ & F). split; [|eapply (G (EFree k)); eauto].
    apply (GC x H). intros C. destruct (o_nocall _ _ _ _ _ O C) as (_ & Z'). specialize (Z' PB). discriminate.
  - assert (Q := CI is_fstart (EFreeStart k) eq_refl HI). cbn [about] in Q. rewrite (o_nfstart _ _ _ _ _ O) in Q. assert (O3 := o_start _ _ _ _ _ O). destruct (w_sfree x) eqn:NF; [|cbn in Q; lia].
    apply (G (EFreeStart k) x eq_refl H). rewrite (o_fin _ _ _ _ _ O). destruct (running x); [discriminate|reflexivity].
Qed.

(** No call waits for anything but, in a join, for the end of its own thread. *)
Theorem C71_only_join_waits s i c : reachable s -> proper (s_tr s) -> nth_error (s_calls s) i = Some c -> c_pc c <> CRet ->
  c_op c = Join /\ ~ In (EEnd (c_about c)) (s_tr s) \/ exists s', step s s' /\ nth_error (s_calls s') i <> Some c.
Proof.
  intros R P HC NR. assert (I := reach_inv s R P). destruct (call_thr s i c I HC) as (x & H & _ & O).
  assert (ST : forall p, nth_error (set_nth i (mkK (c_op c) (c_about c) (c_id c) p) (s_calls s)) i = Some (mkK (c_op c) (c_about c) (c_id c) p)) by (intros; rewrite nth_set, Nat.eqb_refl, HC; reflexivity).
  assert (NE : forall p, p <> c_pc c -> Some (mkK (c_op c) (c_about c) (c_id c) p) <> Some c) by (intros p N Q; apply N; destruct c; cbn in *; congruence).
  destruct (c_pc c) as [|h|h|[|a l] r|] eqn:PC; [right|destruct (w_ph (node s h)) eqn:E|right|right|right|congruence].
  - exists (section1 i c s). split; [apply S_sec1; assumption|]. unfold section1. cbn zeta. case (c_op c); destruct (find_node _ _ _); repeat match goal with |- context [if ?b then _ else _] => destruct b end; cbn [set_call drop set_thr s_calls flag]; rewrite ST; apply NE; discriminate.
  - assert (OC := o_call _ _ _ _ _ O c eq_refl). destruct OC as (_ & _ & _ & OC). rewrite PC in OC. destruct OC as (EO & -> & _). left. split; [exact EO|]. intros IE. apply (in_evs (EEnd (c_about c))), (o_end _ _ _ _ _ O) in IE. rewrite (node_nth _ _ _ H) in E. congruence.
  - assert (OC := o_call _ _ _ _ _ O c eq_refl). destruct OC as (_ & _ & _ & OC). rewrite PC in OC. destruct OC as (EO & -> & _). left. split; [exact EO|]. intros IE. apply (in_evs (EEnd (c_about c))), (o_end _ _ _ _ _ O) in IE. rewrite (node_nth _ _ _ H) in E. congruence.
  - right. eexists. split; [eapply S_wait; [exact HC|exact PC|eapply no_waitbad; eassumption|exact E]|]. cbn [set_call s_calls]. rewrite ST. apply NE. discriminate.
  - exists (section2 i c h s). split; [eapply S_sec2; eassumption|]. unfold section2. cbn zeta. destruct (find_node _ _ _); cbn [set_call drop set_thr s_calls flag]; rewrite ST; apply NE; discriminate.
  - eexists. split; [eapply S_ret; eassumption|]. cbn [emit set_call s_calls]. rewrite ST. apply NE. discriminate.
  - eexists. split; [eapply S_act; eassumption|]. unfold do_act. cbn [set_call s_calls]. rewrite ST. apply NE. intros Q. injection Q as Q. assert (L : length l = length (a :: l)) by congruence. cbn in L. lia.
Qed.

(** ** Schedules *)
Inductive todo := XBegin (t : nat) | XPublish (k : nat) | XFun (k : nat) (v : Z) | XT (k : nat) | XExit (k : nat) (v : Z) | XCall (k : nat) (o : op) | XC (i : nat).
Definition exec (a : todo) (s : state) : option state :=
  match a with
  | XBegin t => if forallb (fun x => negb (w_tid x =? t)%nat || (match w_ph x with TEnd => true | _ => false end && negb (w_open x))) (s_thr s)
      then Some (mkS (s_list s) (s_thr s ++ [mkT t false TRun true false 0 false None false false false]) (s_calls s) (s_bad s) (EBegin (length (s_thr s)) :: s_tr s)) else None
  | XPublish k => match nth_error (s_thr s) k with
      | Some x => if w_pub x then None else Some (mkS (k :: s_list s)
                (set_nth k (mkT (w_tid x) true (w_ph x) (w_open x) (w_sfree x) (w_tid x) true (n_val x) (n_det x) (n_fin x) (n_free x)) (s_thr s))
                (s_calls s) (s_bad s || n_free x) (ECreated k :: s_tr s))
      | None => None end
  | XFun k v => match nth_error (s_thr s) k with Some x => match w_ph x with TRun => Some (wrapper k v s) | _ => None end | None => None end
  | XExit k v => match nth_error (s_thr s) k with Some x => match w_ph x with TRun => Some (emit (EEnd k) (emit (EExit k v) (set_thr k (set_ph TEnd x) s))) | _ => None end | None => None end
  | XT k => match nth_error (s_thr s) k with
      | Some x => match w_ph x with
          | TClean (a :: l) => Some (do_act a (set_thr k (set_ph (TClean l) x) s))
          | TClean [] => Some (emit (EEnd k) (set_thr k (set_ph TEnd x) s))
          | _ => None end
      | None => None end
  | XCall k o => match nth_error (s_thr s) k with
      | Some x => Some (mkS (s_list s) (s_thr s) (s_calls s ++ [mkK o k (w_tid x) CStart]) (s_bad s) (ECall k o :: s_tr s)) | None => None end
  | XC i => match nth_error (s_calls s) i with
      | Some c => match c_pc c with
          | CStart => Some (section1 i c s)
          | CWait h => if w_open (node s h) then match w_ph (node s h) with TEnd => Some (set_call i c (CReady h) s) | _ => None end
                       else Some (flag true (set_call i c (CClean [] RFail) s))
          | CReady h => Some (section2 i c h s)
          | CClean (a :: l) r => Some (do_act a (set_call i c (CClean l r) s))
          | CClean [] r => Some (emit (EResult (c_about c) (c_op c) r) (set_call i c CRet s))
          | CRet => None end
      | None => None end
  end.
Fixpoint execs (l : list todo) (s : state) : option state :=
  match l with [] => Some s | a :: l' => match exec a s with Some s' => execs l' s' | None => None end end.
Lemma exec_step a s s' : exec a s = Some s' -> step s s'.
Proof.
  destruct a; cbn [exec]; intros H.
  - destruct (forallb _ _) eqn:E; [|discriminate]. injection H as <-. apply S_begin. intros k x Hx T. apply nth_error_In in Hx. rewrite forallb_forall in E. specialize (E x Hx). rewrite T, Nat.eqb_refl in E. cbn in E. apply andb_true_iff in E. destruct E as (E1 & E2). split; [destruct (w_ph x); try discriminate; reflexivity|destruct (w_open x); [discriminate|reflexivity]].
  - destruct (nth_error (s_thr s) k) as [x|] eqn:E; [|discriminate]. destruct (w_pub x) eqn:P; [discriminate|]. injection H as <-. apply S_publish; assumption.
  - destruct (nth_error (s_thr s) k) as [x|] eqn:E; [|discriminate]. destruct (w_ph x) eqn:P; try discriminate. injection H as <-. eapply S_fun; eassumption.
  - destruct (nth_error (s_thr s) k) as [x|] eqn:E; [|discriminate]. destruct (w_ph x) as [|[|a l]|] eqn:P; try discriminate; injection H as <-; [apply S_tend; assumption|eapply S_tact; eassumption].
  - destruct (nth_error (s_thr s) k) as [x|] eqn:E; [|discriminate]. destruct (w_ph x) eqn:P; try discriminate. injection H as <-. eapply S_exit; eassumption.
  - destruct (nth_error (s_thr s) k) as [x|] eqn:E; [|discriminate]. injection H as <-. apply S_call. exact E.
  - destruct (nth_error (s_calls s) i) as [c|] eqn:E; [|discriminate]. destruct (c_pc c) as [|h|h|[|a l] r|] eqn:P; try discriminate.
    + injection H as <-. apply S_sec1; assumption.
    + destruct (w_open (node s h)) eqn:W.
      * destruct (w_ph (node s h)) eqn:Q; try discriminate. injection H as <-. apply S_wait; assumption.
      * injection H as <-. eapply S_waitbad; eassumption.
    + injection H as <-. apply S_sec2; assumption.
    + injection H as <-. apply S_ret; assumption.
    + injection H as <-. apply S_act; assumption.
Qed.
Lemma execs_reach l s s' : reachable s -> execs l s = Some s' -> reachable s'.
Proof. revert s. induction l as [|a l IH]; cbn; intros s R H; [congruence|]. destruct (exec a s) as [s1|] eqn:E; [|discriminate]. eapply IH; [|exact H]. eapply R_step; [exact R|]. apply exec_step in E. exact E. Qed.
Definition run (l : list todo) : state := match execs l init_state with Some s => s | None => mkS [] [] [] true [] end.
Lemma run_reach l : execs l init_state <> None -> reachable (run l).
Proof. unfold run. destruct (execs l init_state) as [s|] eqn:E; [|congruence]. intros _. eapply execs_reach; [apply R_init|exact E]. Qed.
(** Nothing more happens by itself: every thread has ended and every call has returned. *)
Definition quiet (s : state) : Prop := (forall x, In x (s_thr s) -> w_ph x = TEnd /\ w_pub x = true) /\ (forall c, In c (s_calls s) -> c_pc c = CRet).
Ltac sched l := exists (run l); split; [apply run_reach; vm_compute; discriminate|].
Ltac inres := vm_compute; repeat (first [left; reflexivity|right]).
Ltac notin := let H := fresh in vm_compute; intros H; repeat (destruct H as [H|H]; [discriminate H|]); exact H.
Ltac isproper := vm_compute; repeat match goal with |- _ /\ _ => split | |- True => exact Logic.I | |- forall _, _ => let o := fresh in let H := fresh in intros o H; repeat (destruct H as [H|H]; [discriminate H|]); exact H | |- _ => first [left; reflexivity|right] end.
Definition quietb (s : state) : bool := forallb (fun x => match w_ph x with TEnd => w_pub x | _ => false end) (s_thr s) && forallb (fun c => match c_pc c with CRet => true | _ => false end) (s_calls s).
Lemma quietb_ok s : quietb s = true -> quiet s.
Proof.
  unfold quietb. intros H. apply andb_true_iff in H. destruct H as (A & B). rewrite forallb_forall in A, B. split.
  - intros x Hx. specialize (A x Hx). destruct (w_ph x); try discriminate. auto.
  - intros c Hc. specialize (B c Hc). destruct (c_pc c); try discriminate. reflexivity.
Qed.
Ltac isquiet := apply quietb_ok; vm_compute; reflexivity.

(** A thread that calls aosl_hal_thread_exit: its join succeeds but stores NULL, not the
    value it exited with; and if it was detached its node and start block stay for ever. *)
Theorem C71_exit_value_refuted : exists s, reachable s /\ quiet s /\ s_tr s = [EResult 0 Join (RVal None); EFree 0; EClose 0; ECall 0 Join; EEnd 0; EExit 0 7; ECreated 0; EBegin 0].
Proof. sched [XBegin 5; XPublish 0; XExit 0 7; XCall 0 Join; XC 0; XC 0; XC 0; XC 0; XC 0; XC 0]. split; [isquiet|]. vm_compute. reflexivity. Qed.
Theorem C71_exit_detached_leaks_refuted : exists s, reachable s /\ quiet s /\ In (EEnd 0) (s_tr s) /\ In (EResult 0 Detach RVoid) (s_tr s) /\ ~ In (EFree 0) (s_tr s) /\ ~ In (EFreeStart 0) (s_tr s) /\ s_list s = [0%nat].
Proof.
  sched [XBegin 5; XPublish 0; XCall 0 Detach; XC 0; XC 0; XC 0; XExit 0 7]. split; [isquiet|]. split; [inres|]. split; [inres|]. split; [|split; [|vm_compute; reflexivity]].
  all: notin.
Qed.
(** A thread detaches itself (with the identifier of aosl_hal_thread_self) before its
    create has put it in the list: the detach is lost and nothing is ever released. *)
Theorem C71_early_detach_refuted : exists s, reachable s /\ quiet s /\ In (EResult 0 Detach RVoid) (s_tr s) /\ In (EFun 0 7) (s_tr s) /\ ~ In (EClose 0) (s_tr s) /\ ~ In (EFree 0) (s_tr s).
Proof.
  sched [XBegin 5; XCall 0 Detach; XC 0; XC 0; XPublish 0; XFun 0 7; XT 0; XT 0]. split; [isquiet|]. split; [inres|]. split; [inres|]. split; notin.
Qed.
(** A destroy before the thread has finished does nothing: the handle and the node stay for ever. *)
Theorem C71_early_destroy_refuted : exists s, reachable s /\ proper (s_tr s) /\ quiet s /\ In (EResult 0 Destroy RVoid) (s_tr s) /\ ~ In (EClose 0) (s_tr s) /\ ~ In (EFree 0) (s_tr s).
Proof.
  sched [XBegin 5; XPublish 0; XCall 0 Destroy; XC 0; XC 0; XFun 0 7; XT 0; XT 0]. split; [isproper|]. split; [isquiet|]. split; [inres|]. split; notin.
Qed.
(** Destroy after join, as the project's own tests do: when the identifier was given to a
    new thread in between, its node is destroyed and its join fails, though nobody else
    joined, detached or destroyed it. *)
Theorem C71_destroy_after_join_refuted : exists s, reachable s /\ quiet s /\
  s_tr s = [EResult 1 Join RFail; ECall 1 Join; EResult 0 Destroy RVoid; EFree 1; EClose 1; EEnd 1; EFreeStart 1; EFun 1 8; ECall 0 Destroy; ECreated 1; EBegin 1;
            EResult 0 Join (RVal (Some 7)); EFree 0; EClose 0; ECall 0 Join; EEnd 0; EFreeStart 0; EFun 0 7; ECreated 0; EBegin 0].
Proof.
  sched [XBegin 5; XPublish 0; XFun 0 7; XT 0; XT 0; XCall 0 Join; XC 0; XC 0; XC 0; XC 0; XC 0; XC 0; XBegin 5; XPublish 1; XCall 0 Destroy; XFun 1 8; XT 1; XT 1; XC 1; XC 1; XC 1; XC 1; XCall 1 Join; XC 2; XC 2].
  split; [isquiet|]. vm_compute. reflexivity.
Qed.
(** Two joins of one thread: the second takes the node of a new thread with the same
    identifier, while that one runs; its node is used after it was freed and a handle is
    closed twice. *)
Theorem C71_two_joins_refuted : exists s, reachable s /\ s_bad s = true /\ In (EFree 1) (s_tr s) /\ ~ In (EFun 1 8) (tl (s_tr s)) /\ hd (EBegin 9) (s_tr s) = EFun 1 8.
Proof.
  sched [XBegin 5; XPublish 0; XFun 0 7; XT 0; XT 0; XCall 0 Join; XCall 0 Join; XC 0; XC 0; XC 1; XC 1; XC 0; XC 0; XC 0; XC 0; XBegin 5; XPublish 1; XC 1; XC 1; XC 1; XC 1; XFun 1 8].
  split; [vm_compute; reflexivity|]. split; [inres|]. split; [notin|]. vm_compute. reflexivity.
Qed.

(** *** The theorems apply *)
Example C71_nonvacuous : exists s, reachable s /\ proper (s_tr s) /\ quiet s /\
  In (EResult 0 Join (RVal (Some 7))) (s_tr s) /\ In (EResult 1 Detach RVoid) (s_tr s) /\ In (EResult 2 Destroy RVoid) (s_tr s) /\
  released 0 (s_tr s) /\ released 1 (s_tr s) /\ released 2 (s_tr s).
Proof.
  sched [XBegin 5; XPublish 0; XBegin 6; XPublish 1; XCall 1 Detach; XCall 0 Join; XC 1; XC 0; XFun 0 7; XFun 1 8; XT 1; XT 1; XT 1; XC 0; XC 0; XBegin 6; XPublish 2; XT 0; XT 0; XC 1; XC 1; XC 1; XC 1; XC 1; XFun 2 9; XCall 2 Destroy; XC 2; XC 2; XC 2; XC 2; XT 2; XT 2].
  split; [isproper|]. split; [isquiet|]. unfold released. repeat match goal with |- _ /\ _ => split end; inres.
Qed.
Example C71_join_nonvacuous : exists s c, reachable s /\ proper (s_tr s) /\ nth_error (s_calls s) 0 = Some c /\ c_pc c <> CRet /\ c_op c = Join /\ ~ In (EEnd (c_about c)) (s_tr s).
Proof.
  exists (run [XBegin 5; XPublish 0; XCall 0 Join; XC 0; XFun 0 7]). exists (mkK Join 0 5 (CWait 0)). split; [apply run_reach; vm_compute; discriminate|]. split; [isproper|]. split; [vm_compute; reflexivity|]. split; [discriminate|]. split; [reflexivity|]. notin.
Qed.

Print Assumptions C71_join_gets_the_value. Print Assumptions C71_released_at_most_once. Print Assumptions C71_released. Print Assumptions C71_kept. Print Assumptions C71_only_join_waits.
Print Assumptions C71_exit_value_refuted. Print Assumptions C71_exit_detached_leaks_refuted. Print Assumptions C71_early_detach_refuted. Print Assumptions C71_early_destroy_refuted. Print Assumptions C71_destroy_after_join_refuted. Print Assumptions C71_two_joins_refuted.
