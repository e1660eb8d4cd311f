(** * C67: the context of the running function. *)
From Verif Require Import Base Fctx FctxInv.

(** ** Specification (with [running] of FctxInv.v: the functions begun and not ended) *)
(** A completion is owed when function k has run: there is a done queue, and k was not the clean-up call. *)
Definition owed (k : call) : Prop := 0 <= s16 (k_done k) /\ k_obj k <> RFree.
(** The same object: this id, or none. *)
Definition same_obj (r r' : Z) : Prop := r = r' \/ (s16 r < 0 /\ s16 r' < 0).
(** The items of a running function, as they are now. *)
Definition items_now (s : state) (k : call) (items : list Z) : Prop := get (s_mem s) (k_buf k) (k_len k) = Some items /\ length items = k_len k.
(** What must follow the end of a function: its completion with the items it has left, or the clean-up call with them. *)
Definition follows (k : call) (items : list Z) (e : event) : Prop :=
  (exists r, e = EDone (k_done k) r (k_data k) items /\ same_obj r (k_ref k)) \/
  (exists k', e = EBegin k' RFree (Z.of_nat (k_len k)) (k_buf k) items /\ k_rerun k' = true /\ k_obj k' = RFree /\ k_done k' = -1 /\ k_data k' = k_data k).

(** ** Invariant on histories *)
Definition begins_ok (k : call) (o : robj) (ac : Z) (av : ptr) (it : list Z) : Prop :=
  o = k_obj k /\ ac = Z.of_nat (k_len k) /\ av = k_buf k /\ length it = k_len k /\ (k_own k = true -> k_rerun k = false -> it = k_words k).
Definition ev_ok (e : event) (h : list event) : Prop :=
  match e with
  | EBegin k o ac av it => begins_ok k o ac av it /\ (k_rerun k = true -> exists k0 h', h = EEnd k0 it :: h' /\ owed k0 /\ follows k0 it e)
  | EDone dq r d it => exists k0 h', h = EEnd k0 it :: h' /\ owed k0 /\ follows k0 it e
  | EEnd _ _ => True
  end /\ match h with EEnd k0 it :: _ => owed k0 -> follows k0 it e | _ => True end.
Fixpoint ok_tr (h : list event) : Prop := match h with [] => True | e :: h' => ev_ok e h' /\ ok_tr h' end.
(** Nothing is owed now. *)
Definition settled (h : list event) : Prop := match h with EEnd k _ :: _ => ~ owed k | _ => True end.

Lemma settled_ev e h : settled h -> match h with EEnd k0 it :: _ => owed k0 -> follows k0 it e | _ => True end.
Proof. destruct h as [|[|k0 it|] h]; cbn; tauto. Qed.
Lemma owed_iff l k : l = locof k -> negb (id_invalid (l_done l)) && negb (is_free (l_obj l)) = true <-> owed k.
Proof.
  intros ->. unfold owed, id_invalid. cbn [locof l_done l_obj]. rewrite andb_true_iff, !negb_true_iff, Z.ltb_ge. destruct (k_obj k); cbn [is_free]; intuition congruence.
Qed.
Lemma tr_enter s kd l k it : l = locof k -> small k -> settled (s_tr s) -> length it = k_len k ->
  (k_own k = true -> k_rerun k = false -> it = k_words k) -> k_rerun k = false -> ok_tr (s_tr s) ->
  ok_tr (s_tr (enter kd l k it s)) /\ settled (s_tr (enter kd l k it s)).
Proof.
  intros -> Sm St L W R O. split; [|exact I]. cbn [enter s_tr ok_tr]. split; [|exact O]. split; [|apply settled_ev, St]. split; [|congruence].
  unfold begins_ok. cbn [locof l_obj l_argc l_argv]. destruct (dec_enc _ _ Sm) as [-> _]. auto.
Qed.
Lemma free_tr o s : s_tr (free o s) = s_tr s. Proof. destruct o; reflexivity. Qed.
Lemma leave_tr s a rest dal it : inv s -> s_acts s = a :: rest -> length it = k_len (a_call a) -> settled (s_tr s) -> ok_tr (s_tr s) ->
  ok_tr (s_tr (leave dal it a rest s)) /\ settled (s_tr (leave dal it a rest s)).
Proof.
  intros V Ha L St O. pose proof (i_wf _ V) as W. rewrite Ha in W. cbn [wf] in W. destruct W as (_ & C2 & C3 & C4 & _ & _ & _ & C8 & _).
  pose proof (owed_iff _ _ C2) as Ow. set (k := a_call a) in *.
  assert (O1 : ok_tr (EEnd k it :: s_tr s)) by (cbn; split; [split; [exact I|apply settled_ev, St]|exact O]).
  assert (Nd : ~ owed k -> settled (EEnd k it :: s_tr s)) by (intros X; exact X).
  assert (Cr : follows k it (EDone (k_done k) (k_ref k) (k_data k) it)) by (left; exists (k_ref k); split; [reflexivity|left; reflexivity]).
  assert (Rr : follows k it (EBegin (rerun_of k) RFree (dec (enc (k_data k) (k_len k))) (k_buf k) it)).
  { right. exists (rerun_of k). destruct (dec_enc _ _ C3) as [-> _]. repeat split. }
  assert (Re : owed k -> ok_tr (EBegin (rerun_of k) RFree (dec (enc (k_data k) (k_len k))) (k_buf k) it :: EEnd k it :: s_tr s)).
  { intros X. cbn [ok_tr]. split; [|exact O1]. split; [|intros _; exact Rr]. split.
    - unfold begins_ok, rerun_of. cbn. destruct (dec_enc _ _ C3) as [-> _]. repeat split; auto. discriminate.
    - intros _. exists k, (s_tr s). repeat split; auto; apply X. }
  assert (De : owed k -> forall r, same_obj r (k_ref k) -> ok_tr (EDone (k_done k) r (k_data k) it :: EEnd k it :: s_tr s)).
  { intros X r Sr. cbn [ok_tr]. assert (Fo : follows k it (EDone (k_done k) r (k_data k) it)) by (left; exists r; auto). split; [|exact O1]. split; [|intros _; exact Fo].
    exists k, (s_tr s). repeat split; auto; apply X. }
  unfold leave. cbv zeta.
  destruct (a_kind a) as [o|o|] eqn:Ek.
  - destruct (negb (id_invalid (l_done (a_loc a))) && negb (is_free (l_obj (a_loc a)))) eqn:E; [destruct dal|].
    + rewrite free_tr. cbn [emit s_tr]. split; [|exact I]. rewrite C2. cbn [locof l_done l_ref l_argc]. destruct (dec_enc _ _ C3) as [_ ->]. apply De; [apply Ow; reflexivity|left; reflexivity].
    + cbn [enter s_tr l_obj l_argc l_argv]. split; [|exact I]. rewrite C2. cbn [locof l_argc l_argv]. apply Re, Ow. reflexivity.
    + rewrite free_tr. cbn [s_tr]. split; [exact O1|]. apply Nd. intros X. apply Ow in X. congruence.
  - rewrite free_tr. cbn [s_tr]. split; [exact O1|]. apply Nd. intros [X _]. cbn in C8. rewrite C8 in X. change (s16 MPQ_INVALID) with (-1) in X. lia.
  - destruct (negb (id_invalid (l_done (a_loc a))) && negb (is_free (l_obj (a_loc a)))) eqn:E; [destruct dal|].
    + cbn [emit s_tr]. split; [|exact I]. rewrite C2. cbn [locof l_done l_obj]. cbn in C8. fold k. rewrite <- C8. apply De; [apply Ow; reflexivity|].
      unfold refok in C4. unfold ref_of. destruct (proj1 Ow eq_refl) as [_ E2]. destruct (k_obj k); [right; apply Z.ltb_lt in C4; split; [reflexivity|exact C4]|congruence|left; exact C4].
    + cbn [enter s_tr l_obj l_argc l_argv]. split; [|exact I]. rewrite C2. cbn [locof l_argc l_argv]. apply Re, Ow. reflexivity.
    + cbn [s_tr]. split; [exact O1|]. apply Nd. intros X. apply Ow in X. congruence.
Qed.
Lemma tr_reach s : reach s -> ok_tr (s_tr s) /\ settled (s_tr s).
Proof.
  induction 1 as [|s s' R [IH1 IH2] H]; [split; exact I|]. pose proof (inv_reach _ R) as V. pose proof (inv_reach _ (R_step _ _ R H)) as V'.
  destruct H as [s l|s b l l' H1 H2 H3|s dq ref data p n items H1 H2|s dq ref p n items cnt name f H0 H1 H2|s ref data p n items H1 H2 H3
    |s f q' alive items H1 H2 H3|s ref data p n alive items H1 H2 H3 H4|s a rest d b o w items x1 x2 x3 x4 tr' H1 H0 H2 H3 H4 H5|s a rest b o i v H1 H2 H3 H4|s a rest dal items H1 H2];
    try (cbv zeta; cbn [s_tr]; split; assumption).
  - pose proof (i_q _ V) as D. rewrite H2 in D. inversion D as [|f0 q0 Df Dq]; subst f0 q0. unfold fok in Df. destruct Df as (D1 & D2 & D3 & D4 & D5 & D6 & D7).
    apply tr_enter; auto.
    + rewrite D1, D2, D3, D4. reflexivity.
    + cbn. apply (get_len _ _ _ _ H3).
    + cbn. intros X _. rewrite D4 in H3. destruct (f_own f) as [b|]; [|destruct D7; congruence]. destruct D7 as (_ & B & _ & _ & M & L & _).
      rewrite B, (get_whole _ _ _ _ M L) in H3. congruence.
  - pose proof (fits_small _ _ H1) as Sm. apply tr_enter; auto; [unfold small; cbn; destruct data; lia|cbn; apply (get_len _ _ _ _ H2)].
  - pose proof (i_wf _ V) as W. rewrite H1 in W. cbn [wf] in W. destruct W as (_ & C2 & C3 & C4 & C5 & C6 & C7 & _ & _).
    unfold tailok in C7. rewrite H2 in C7. destruct C7 as (T1 & T2 & T3 & T4 & b' & w' & T5 & T6 & T7 & T8). rewrite T5 in C6. destruct C6 as (-> & X & L1 & L2).
    pose proof (i_wf _ V') as W'. cbn [enter s_acts wf a_loc a_call] in W'. destruct W' as (_ & C2' & C3' & _).
    apply tr_enter; auto.
    + apply (get_len _ _ _ _ H5).
    + cbn [k_own k_rerun k_words]. intros _ _. rewrite C2 in H3. cbn [locof l_argv] in H3. rewrite X in H3. inversion H3; subst b' o. assert (w' = w) by congruence. subst w'.
      pose proof (i_fresh _ V) as Fr. unfold fresh in Fr. rewrite H1, H0 in Fr. pose proof (Fr eq_refl d b H2 T5) as Fm. assert (w = k_words (a_call a)) by congruence. subst w.
      destruct (Nat.eq_dec (k_len (a_call a)) 4) as [E4|E4].
      * rewrite E4 in H5. unfold get in H5. cbn in H5. inversion H5. symmetry. apply length_zero_iff_nil. rewrite skipn_length. lia.
      * apply get_some_len in H5; [|lia]. destruct H5 as (w & Hw & Lw & ->). assert (w = k_words (a_call a)) by congruence. subst w. cbn [Nat.add]. apply firstn_all2. rewrite skipn_length. lia.
  - apply leave_tr; auto. apply (get_len _ _ _ _ H2).
Qed.

(** ** Theorems *)
Lemma now_ok s k ks : reach s -> running (s_tr s) = k :: ks -> exists items, items_now s k items.
Proof.
  intros R E. pose proof (inv_reach _ R) as V. pose proof (i_run _ V) as Er. rewrite E in Er. destruct (s_acts s) as [|a r] eqn:Ea; [discriminate|]. cbn [map] in Er.
  injection Er as Ek Eks. subst k. pose proof (i_wf _ V) as W. rewrite Ea in W. cbn [wf] in W. destruct W as (_ & _ & _ & _ & C5 & _).
  destruct (get (s_mem s) (k_buf (a_call a)) (k_len (a_call a))) as [it|] eqn:Eg; [|congruence]. exists it. split; [exact Eg|apply (get_len _ _ _ _ Eg)].
Qed.
Lemma ctx_run s : reach s -> s_ctx s = ctxof (running (s_tr s)).
Proof. intros R. pose proof (inv_reach _ R) as V. rewrite (i_run _ V). apply (i_ctx _ V). Qed.
Lemma small_run s k ks : reach s -> running (s_tr s) = k :: ks -> small k.
Proof.
  intros R E. pose proof (inv_reach _ R) as V. pose proof (i_run _ V) as Er. rewrite E in Er. destruct (s_acts s) as [|a r] eqn:Ea; [discriminate|]. cbn [map] in Er.
  assert (k = a_call a) by congruence. subst k. pose proof (i_wf _ V) as W. rewrite Ea in W. cbn [wf] in W. tauto.
Qed.

(** aosl_mpq_run_func_arg answers for the innermost running function, from its items as they are now; the accesses are to live memory.
    Partial: a function called with no argument vector (k_buf k = None) is answered as if no function ran. *)
Theorem C67_arg_partial : forall s n, reach s -> 0 <= n ->
  match running (s_tr s) with
  | [] => run_func_arg s n = Ok (-1, AOSL_EPERM, None)
  | k :: _ => exists items, items_now s k items /\
      (k_buf k <> None ->
       run_func_arg s n = Ok (if k_data k then (-1, AOSL_EINVAL, None) else match nth_error items (Z.to_nat n) with Some v => (0, 0, Some v) | None => (-1, AOSL_ENOENT, None) end))
  end.
Proof.
  intros s n R Hn. pose proof (ctx_run _ R) as C. destruct (running (s_tr s)) as [|k ks] eqn:E.
  - unfold run_func_arg. rewrite C. reflexivity.
  - destruct (now_ok s k ks R E) as (it & Hi). exists it. split; [exact Hi|]. intros Hb. destruct Hi as [Hg Hl]. pose proof (small_run _ _ _ R E) as Sm.
    unfold run_func_arg. rewrite C. cbn [ctxof x_argv x_argc]. destruct (k_buf k) as [[b o]|]; [|congruence]. destruct (dec_enc _ _ Sm) as [_ ->].
    destruct (k_data k); [reflexivity|]. rewrite enc_argv. destruct (Z.leb_spec (Z.of_nat (k_len k)) n) as [H|H].
    + assert (X : nth_error it (Z.to_nat n) = None) by (apply nth_error_None; lia). rewrite X. reflexivity.
    + apply get_some_len in Hg; [|lia]. destruct Hg as (w & Hw & Lw & ->). rewrite Hw. rewrite nth_error_firstn_lt by lia. rewrite nth_error_skip.
      destruct (nth_error w (o + Z.to_nat n)) eqn:X; [reflexivity|]. apply nth_error_None in X. lia.
Qed.
(** aosl_mpq_run_func_data likewise. *)
Theorem C67_data_partial : forall s, reach s ->
  match running (s_tr s) with
  | [] => run_func_data s = (-1, AOSL_EPERM, None)
  | k :: _ => k_buf k <> None -> run_func_data s = if k_data k then (0, 0, Some (Z.of_nat (k_len k), k_buf k)) else (-1, AOSL_EINVAL, None)
  end.
Proof.
  intros s R. pose proof (ctx_run _ R) as C. destruct (running (s_tr s)) as [|k ks] eqn:E.
  - unfold run_func_data. rewrite C. reflexivity.
  - intros Hb. pose proof (small_run _ _ _ R E) as Sm. unfold run_func_data. rewrite C. cbn [ctxof x_argv x_argc]. destruct (k_buf k) as [p|]; [|congruence].
    destruct (dec_enc _ _ Sm) as [-> ->]. destruct (k_data k); reflexivity.
Qed.
(** aosl_mpq_run_func_done_qid. *)
Theorem C67_done_qid : forall s, reach s -> run_func_done_qid s = match running (s_tr s) with [] => -1 | k :: _ => k_done k end.
Proof. intros s R. unfold run_func_done_qid. rewrite (ctx_run _ R). destruct (running (s_tr s)); reflexivity. Qed.
(** aosl_mpq_running_refobj: exactly the objects of the functions running on this queue. *)
Theorem C67_running_refobj : forall s o, reach s -> (running_refobj s o <> 0 <-> exists i k, o = RObj i /\ In k (running (s_tr s)) /\ k_obj k = RObj i).
Proof.
  intros s o R. unfold running_refobj. assert (X : x_refs (s_ctx s) = map k_obj (running (s_tr s))) by (rewrite (ctx_run _ R); destruct (running (s_tr s)); reflexivity).
  rewrite X. generalize (running (s_tr s)). intros l. destruct o as [| |i]; [split; [congruence|intros (i & k & Y & _); discriminate]..|].
  induction l as [|k l IH]; cbn [map on_stack].
  - split; [congruence|intros (i' & k & _ & [] & _)].
  - destruct (k_obj k) as [| |j] eqn:Ek; cbn [on_stack].
    1, 2: (rewrite IH; split; intros (i' & k' & Y & I' & Z'); exists i', k'; (split; [exact Y|split; [|exact Z']]); [right; exact I'|destruct I' as [<-|I']; [congruence|exact I']]).
    destruct (Z.eqb_spec j i) as [->|N].
    + split; [|discriminate]. intros _. exists i, k. cbn. auto.
    + rewrite IH. split; intros (i' & k' & Y & I' & Z'); exists i', k'; (split; [exact Y|split; [|exact Z']]); [right; exact I'|destruct I' as [<-|I']; [congruence|exact I']].
Qed.
(** What a function receives: the object, the number of items and their address of its request; and the items of an asynchronous request are those at the time of the
    request, whatever the caller has done with its memory since. *)
Theorem C67_received : forall s k o argc argv items, reach s -> In (EBegin k o argc argv items) (s_tr s) ->
  o = k_obj k /\ argc = Z.of_nat (k_len k) /\ argv = k_buf k /\ length items = k_len k /\ (k_own k = true -> k_rerun k = false -> items = k_words k).
Proof.
  intros s k o ac av it R. destruct (tr_reach _ R) as [O _]. induction (s_tr s) as [|e h IH]; [intros []|]. destruct O as [O1 O2]. intros [->|H]; [|apply IH; assumption].
  destruct O1 as [[X _] _]. exact X.
Qed.
(** After a function with a done queue its completion is queued there with the items the function has left, or, the done queue being gone, it is called for clean-up. *)
Theorem C67_completion : forall s h1 k items h2, reach s -> s_tr s = h1 ++ EEnd k items :: h2 -> owed k ->
  exists e h1', h1 = h1' ++ [e] /\ follows k items e.
Proof.
  intros s h1 k it h2 R E Ow. destruct (tr_reach _ R) as [O S]. rewrite E in *. clear E R. destruct h1 as [|x h1 _] using rev_ind; [cbn in S; tauto|].
  exists x, h1. split; [reflexivity|]. clear S. rewrite <- app_assoc in O. induction h1 as [|y h1 IH]; [|apply IH, O]. cbn in O. destruct O as [[_ O] _]. auto.
Qed.
(** And never otherwise. *)
Theorem C67_completion_only : forall s h1 e h2, reach s -> s_tr s = h1 ++ e :: h2 ->
  match e with EDone _ _ _ _ => True | EBegin k _ _ _ _ => k_rerun k = true | EEnd _ _ => False end ->
  exists k items h2', h2 = EEnd k items :: h2' /\ owed k /\ follows k items e.
Proof.
  intros s h1 e h2 R E H. destruct (tr_reach _ R) as [O _]. rewrite E in O. clear E R. induction h1 as [|y h1 IH]; [|apply IH, O]. cbn [app ok_tr] in O. destruct O as [[O _] _].
  destruct e as [k o ac av it|k it|dq r d it]; [|destruct H|].
  - destruct O as [_ O]. destruct (O H) as (k0 & h' & X & Y). exists k0, it, h'. split; [exact X|exact Y].
  - destruct O as (k0 & h' & X & Y). exists k0, it, h'. split; [exact X|exact Y].
Qed.

(** ** Refutation of the full statement *)
(** A function called on its own queue without arguments, or with empty data, is told that no function is running. *)
Theorem C67_no_vector_refuted :
  (exists s k, reach s /\ running (s_tr s) = [k] /\ k_data k = false /\ k_len k = 0%nat /\ run_func_arg s 0 = Ok (-1, AOSL_EPERM, None)) /\
  (exists s k, reach s /\ running (s_tr s) = [k] /\ k_data k = true /\ k_len k = 0%nat /\ run_func_data s = (-1, AOSL_EPERM, None)).
Proof.
  split.
  - pose proof (R_step _ _ R_init (S_own init (-1) false None 0 false [] eq_refl eq_refl (or_introl I) I)) as r. eexists. eexists. split; [exact r|]. repeat split; reflexivity.
  - pose proof (R_step _ _ R_init (S_own init (-1) true None 0 false [] eq_refl eq_refl (or_introl I) I)) as r. eexists. eexists. split; [exact r|]. repeat split; reflexivity.
Qed.

(** ** Examples *)
Ltac nxt r c := let r' := fresh "r" in pose proof (R_step _ _ r c) as r'; clear r; rename r' into r; cbv -[upd Nat.eqb] in r.
(** A request with two arguments, done queue 5 and object 7; the caller reuses its memory; the function calls another one with three bytes of data and no object. *)
Lemma ex_nested : exists s k1 k2, reach s /\ running (s_tr s) = [k2; k1] /\ run_func_data s = (0, 0, Some (3%Z, Some (1, 0)%nat)) /\
  k_done k1 = 5 /\ k_obj k1 = RObj 7 /\ running_refobj s (RObj 7) = 1 /\ run_func_done_qid s = -1.
Proof.
  pose proof (R_step _ _ R_init (S_ubuf init [10; 20])) as r.
  match type of r with reach ?s => nxt r (S_ubuf s [1; 2; 3]) end.
  match type of r with reach ?s => nxt r (S_post s 5 7 false (Some (0, 0)%nat) 2 [10; 20] eq_refl eq_refl) end.
  match type of r with reach ?s => nxt r (S_uwrite s 0%nat [10; 20] [0; 0] eq_refl eq_refl eq_refl) end.
  match type of r with reach ?s => nxt r (S_start s _ _ true [10; 20] eq_refl eq_refl eq_refl) end.
  match type of r with reach ?s => nxt r (S_own s (-1) true (Some (1, 0)%nat) 3 false [1; 2; 3] eq_refl eq_refl (or_introl (conj eq_refl (le_S 2 2 (le_n 2)))) eq_refl) end.
  eexists. eexists. eexists. split; [exact r|]. repeat split; reflexivity.
Qed.
(** When the inner one has returned the outer one is asked about; it changes its second argument and ends: the completion has the new value. *)
Lemma ex_back : exists s k, reach s /\ running (s_tr s) = [k] /\ run_func_arg s 1 = Ok (0, 0, Some 20) /\ run_func_arg s 2 = Ok (-1, AOSL_ENOENT, None) /\
  exists s' it, reach s' /\ running (s_tr s') = [] /\ s_tr s' = EDone 5 7 false [10; 99] :: EEnd k it :: s_tr s.
Proof.
  pose proof (R_step _ _ R_init (S_ubuf init [10; 20])) as r.
  match type of r with reach ?s => nxt r (S_ubuf s [1; 2; 3]) end.
  match type of r with reach ?s => nxt r (S_post s 5 7 false (Some (0, 0)%nat) 2 [10; 20] eq_refl eq_refl) end.
  match type of r with reach ?s => nxt r (S_uwrite s 0%nat [10; 20] [0; 0] eq_refl eq_refl eq_refl) end.
  match type of r with reach ?s => nxt r (S_start s _ _ true [10; 20] eq_refl eq_refl eq_refl) end.
  match type of r with reach ?s => nxt r (S_own s (-1) true (Some (1, 0)%nat) 3 false [1; 2; 3] eq_refl eq_refl (or_introl (conj eq_refl (le_S 2 2 (le_n 2)))) eq_refl) end.
  match type of r with reach ?s => nxt r (S_end s _ _ true [1; 2; 3] eq_refl eq_refl) end.
  pose proof r as r0.
  match type of r with reach ?s => nxt r (S_write s _ _ 2%nat 0%nat 1%nat 99 eq_refl eq_refl eq_refl (le_n 2)) end.
  match type of r with reach ?s => nxt r (S_end s _ _ true [10; 99] eq_refl eq_refl) end.
  eexists. eexists. split; [exact r0|]. split; [reflexivity|]. split; [reflexivity|]. split; [reflexivity|]. eexists. eexists. split; [exact r|]. split; reflexivity.
Qed.
(** A tail request with one argument whose done queue is gone: the function runs, then once more for clean-up. *)
Lemma ex_tail : exists s k1 k2 it h, reach s /\ s_tr s = EBegin k2 RFree 1 (Some (1, 4)%nat) [42] :: EEnd k1 it :: h /\ k_rerun k2 = true /\ owed k1.
Proof.
  pose proof (R_step _ _ R_init (S_ubuf init [42])) as r.
  match type of r with reach ?s => nxt r (S_tail s 6 (-1) (Some (0, 0)%nat) 1 [42] 111 222 333 eq_refl eq_refl eq_refl) end.
  match type of r with reach ?s => nxt r (S_start s _ _ true [111; 6; 222; 333; 42] eq_refl eq_refl eq_refl) end.
  match type of r with reach ?s => nxt r (S_promise s _ _ 6 1%nat 0%nat _ [42] _ _ _ _ _ eq_refl eq_refl eq_refl eq_refl eq_refl eq_refl) end.
  match type of r with reach ?s => nxt r (S_end s _ _ false [42] eq_refl eq_refl) end.
  eexists. eexists. eexists. eexists. eexists. split; [exact r|]. split; [reflexivity|]. split; [reflexivity|]. split; [cbn; unfold s16, wrap_signed; cbn; lia|discriminate].
Qed.

Print Assumptions C67_arg_partial.
Print Assumptions C67_data_partial.
Print Assumptions C67_done_qid.
Print Assumptions C67_running_refobj.
Print Assumptions C67_received.
Print Assumptions C67_completion.
Print Assumptions C67_completion_only.
Print Assumptions C67_no_vector_refuted.
