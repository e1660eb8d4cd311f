(** * Invariant of the threads of the windows port (C71). *)
From Verif Require Import Base Winth WinthSpec.

Definition b2n (b : bool) : nat := if b then 1%nat else 0%nat.
Definition callof (k : nat) (l : list call) : option call := find (fun c => (c_about c =? k)%nat) l.
Definition inb (k : nat) (l : list nat) : bool := existsb (fun d => (d =? k)%nat) l.
Definition cacts (co : option call) : list act := match co with Some (mkK _ _ _ (CClean l _)) => l | _ => [] end.
Definition tacts (x : thr) : list act := match w_ph x with TClean l => l | _ => [] end.
Definition a_close (a : act) : bool := match a with AClose _ => true | _ => false end.
Definition a_free (a : act) : bool := match a with AFree _ => true | _ => false end.
Definition a_fstart (a : act) : bool := match a with AFreeStart _ => true | _ => false end.
Definition acount (p : act -> bool) (l : list act) : nat := length (filter p l).
Definition pend (p : act -> bool) (x : thr) (co : option call) : nat := (acount p (cacts co) + acount p (tacts x))%nat.
Definition running (x : thr) : bool := match w_ph x with TRun => true | _ => false end.
Definition live (x : thr) : Prop := w_ph x <> TEnd \/ w_open x = true.
Definition is_fun (e : event) : bool := match e with EFun _ _ => true | _ => false end.
(** The function had returned when destroy was called. *)
Fixpoint fin_before (E : list event) : bool :=
  match E with [] => false | ECall _ Destroy :: b => existsb is_fun b | _ :: b => fin_before b end.

Definition okcall (k : nat) (x : thr) (inl : bool) (E : list event) (c : call) : Prop :=
  c_about c = k /\ c_id c = w_tid x /\ w_pub x = true /\
  match c_pc c with
  | CStart => inl = true /\ n_det x = false
  | CWait h => c_op c = Join /\ h = k /\ inl = true /\ n_det x = false
  | CReady h => c_op c = Join /\ h = k /\ inl = true /\ n_det x = false /\ w_ph x = TEnd
  | CClean _ _ | CRet =>
      match c_op c with
      | Join => inl = false /\ w_ph x = TEnd
      | Detach => n_det x = true
      | Destroy => n_det x = false /\ (inl = true -> cacts (Some c) = [] /\ fin_before E = false)
      end /\
      match c_pc c with CClean _ r => (c_op c = Join -> r = RVal (n_val x)) | _ => True end
  end.
Record okt (k : nat) (x : thr) (co : option call) (inl : bool) (E : list event) : Prop := {
  o_open : b2n (w_open x) = (b2n (n_handle x || negb (w_pub x)) + pend a_close x co)%nat;
  o_node : b2n (negb (n_free x)) = (b2n (inl || negb (w_pub x)) + pend a_free x co)%nat;
  o_start : b2n (negb (w_sfree x)) = (b2n (running x) + pend a_fstart x co)%nat;
  o_acts : forall a, In a (cacts co ++ tacts x) -> act_on a = k;
  o_inl : inl = true -> w_pub x = true /\ n_handle x = negb (n_det x) /\ n_tid x = w_tid x /\ (n_det x = true -> n_fin x = false);
  o_out : inl = false -> w_pub x = true -> n_handle x = false /\ n_fin x = true;
  o_unpub : w_pub x = false -> inl = false /\ n_det x = false /\ n_handle x = false /\ co = None;
  o_fin : n_fin x = negb (running x);
  o_val : n_fin x = true -> exists v, n_val x = Some v /\ In (EFun k v) E;
  o_fun : forall v, In (EFun k v) E -> n_fin x = true /\ n_val x = Some v;
  o_end : In (EEnd k) E <-> w_ph x = TEnd;
  o_created : In (ECreated k) E <-> w_pub x = true;
  o_called : forall o, In (ECall k o) E <-> exists c, co = Some c /\ c_op c = o;
  o_nocall : co = None -> n_det x = false /\ (w_pub x = true -> inl = true);
  o_call : forall c, co = Some c -> okcall k x inl E c;
  o_res : forall o r, In (EResult k o r) E -> exists c, co = Some c /\ c_op c = o /\ c_pc c = CRet /\ (o = Join -> r = RVal (n_val x));
  o_nclose : count is_close E = b2n (negb (w_open x));
  o_nfree : count is_free E = b2n (n_free x);
  o_nfstart : count is_fstart E = b2n (w_sfree x) }.
Record inv (s : state) : Prop := {
  i_bad : s_bad s = false;
  i_nd : NoDup (s_list s);
  i_lt : forall k, In k (s_list s) -> (k < length (s_thr s))%nat;
  i_thr : forall k x, nth_error (s_thr s) k = Some x -> okt k x (callof k (s_calls s)) (inb k (s_list s)) (evs k (s_tr s));
  i_none : forall k, (length (s_thr s) <= k)%nat -> evs k (s_tr s) = [] /\ callof k (s_calls s) = None;
  i_calls : NoDup (map c_about (s_calls s));
  i_uniq : forall j k x y, nth_error (s_thr s) j = Some x -> nth_error (s_thr s) k = Some y -> live x -> live y -> w_tid x = w_tid y -> j = k }.

Lemma nth_set {A} i (v : A) l j : nth_error (set_nth i v l) j = if (j =? i)%nat then match nth_error l j with Some _ => Some v | None => None end else nth_error l j.
Proof.
  revert i j. induction l as [|x l IH]; intros [|i] [|j]; cbn; try reflexivity; try (destruct (_ =? _)%nat; reflexivity). apply IH.
Qed.
Lemma len_set {A} i (v : A) l : length (set_nth i v l) = length l.
Proof. revert i. induction l as [|x l IH]; intros [|i]; cbn; auto. Qed.
Lemma some_lt {A} (l : list A) c x : nth_error l c = Some x -> (c < length l)%nat.
Proof. intros H. apply nth_error_Some. rewrite H. discriminate. Qed.
Lemma evs_app c a b : evs c (a ++ b) = evs c a ++ evs c b. Proof. apply filter_app. Qed.
Lemma evs_all c e : (forall x, In x e -> about x = c) -> evs c e = e.
Proof. intros H. induction e as [|x e IH]; [reflexivity|]. cbn. rewrite (H x) by (left; reflexivity). rewrite Nat.eqb_refl. f_equal. apply IH. intros y Hy. apply H. right. exact Hy. Qed.
Lemma evs_no d c e : (forall x, In x e -> about x = c) -> d <> c -> evs d e = [].
Proof. intros H N. induction e as [|x e IH]; [reflexivity|]. cbn. rewrite (H x) by (left; reflexivity). destruct (Nat.eqb_spec c d); [congruence|]. apply IH. intros y Hy. apply H. right. exact Hy. Qed.
Lemma in_evs e h : In e (evs (about e) h) <-> In e h.
Proof. unfold evs. rewrite filter_In, Nat.eqb_refl. tauto. Qed.
Lemma inb_in k l : inb k l = true <-> In k l.
Proof. unfold inb. rewrite existsb_exists. split; [intros (d & A & B); apply Nat.eqb_eq in B; congruence|intros A; exists k; split; [exact A|apply Nat.eqb_refl]]. Qed.
Lemma unlink_in k l j : NoDup l -> (In j (unlink k l) <-> In j l /\ j <> k).
Proof.
  intros N. induction N as [|d l ND N IH]; cbn; [tauto|]. destruct (Nat.eqb_spec d k) as [->|NE].
  - split; [intros A; split; [right; exact A|intros ->; contradiction]|intros ([->|A] & B); [contradiction|exact A]].
  - cbn. rewrite IH. intuition congruence.
Qed.
Lemma unlink_nd k l : NoDup l -> NoDup (unlink k l).
Proof.
  intros N. induction N as [|d l ND N IH]; cbn; [constructor|]. destruct (Nat.eqb_spec d k); [exact N|]. constructor; [|exact IH]. rewrite unlink_in by exact N. tauto.
Qed.
Lemma callof_none k l : callof k l = None <-> ~ In k (map c_about l).
Proof.
  unfold callof. induction l as [|c l IH]; cbn; [tauto|]. destruct (Nat.eqb_spec (c_about c) k); [split; [discriminate|intros H; exfalso; tauto]|]. rewrite IH. tauto.
Qed.
Lemma callof_nth l i c : NoDup (map c_about l) -> nth_error l i = Some c -> callof (c_about c) l = Some c.
Proof.
  revert i. induction l as [|d l IH]; intros [|i] N H; cbn in *; try discriminate; unfold callof; cbn.
  - injection H as ->. rewrite Nat.eqb_refl. reflexivity.
  - inversion N; subst. destruct (Nat.eqb_spec (c_about d) (c_about c)) as [E|E]; [|eapply IH; eassumption]. exfalso. apply H2. rewrite E. apply in_map_iff. exists c. split; [reflexivity|]. eapply nth_error_In, H.
Qed.
Lemma about_set l i c c' : nth_error l i = Some c -> c_about c' = c_about c -> map c_about (set_nth i c' l) = map c_about l.
Proof. revert i. induction l as [|d l IH]; intros [|i] H E; cbn in *; try discriminate; [injection H as ->; congruence|]. f_equal. eapply IH; eassumption. Qed.
Lemma callof_set l i c c' k : NoDup (map c_about l) -> nth_error l i = Some c -> c_about c' = c_about c ->
  callof k (set_nth i c' l) = if (k =? c_about c)%nat then Some c' else callof k l.
Proof.
  intros N H E. destruct (Nat.eqb_spec k (c_about c)) as [->|NE].
  - rewrite <- E. eapply callof_nth; [rewrite (about_set _ _ _ _ H E); exact N|]. rewrite nth_set, Nat.eqb_refl, H. reflexivity.
  - clear N. revert i H. induction l as [|d l IH]; intros [|i] H; cbn in *; try discriminate; unfold callof; cbn.
    + injection H as ->. rewrite E. destruct (Nat.eqb_spec (c_about c) k); [congruence|]. reflexivity.
    + destruct (c_about d =? k)%nat; [reflexivity|]. apply (IH _ H).
Qed.
Lemma node_nth s k x : nth_error (s_thr s) k = Some x -> node s k = x.
Proof. intros H. unfold node. apply nth_error_nth. exact H. Qed.

(** One step of thread k or of the call about it. *)
Lemma inv_upd s s' k x x' co' e : inv s -> nth_error (s_thr s) k = Some x ->
  s_thr s' = set_nth k x' (s_thr s) -> s_bad s' = false -> s_tr s' = e ++ s_tr s ->
  w_tid x' = w_tid x -> (live x' -> live x) ->
  NoDup (s_list s') -> (forall j, j <> k -> (In j (s_list s') <-> In j (s_list s))) ->
  NoDup (map c_about (s_calls s')) -> callof k (s_calls s') = co' -> (forall j, j <> k -> callof j (s_calls s') = callof j (s_calls s)) ->
  (forall y, In y e -> about y = k) ->
  okt k x' co' (inb k (s_list s')) (e ++ evs k (s_tr s)) -> inv s'.
Proof.
  intros I H HT HB HR HI HL ND LI NC CK CJ HE OK. destruct I as [IB IN IL IT I0 IC IU].
  split; rewrite ?HT, ?HR, ?len_set; try assumption.
  - intros j Hj. destruct (Nat.eq_dec j k) as [->|N]; [eapply some_lt, H|]. apply IL, LI; assumption.
  - intros j y Hy. rewrite nth_set in Hy. rewrite evs_app. destruct (Nat.eqb_spec j k) as [->|N].
    + rewrite H in Hy. assert (y = x') by congruence. subst y. rewrite CK, (evs_all k e HE). exact OK.
    + rewrite (evs_no j k e HE N), CJ by exact N. replace (inb j (s_list s')) with (inb j (s_list s)); [apply IT, Hy|].
      apply eq_true_iff_eq. rewrite !inb_in. symmetry. apply LI, N.
  - intros j Hj. destruct (I0 j Hj) as (A & B). assert (N : j <> k) by (apply some_lt in H; lia). rewrite evs_app, A, (evs_no j k e HE N), CJ by exact N. auto.
  - intros i j a b Ha Hb La Lb Et. rewrite nth_set in Ha, Hb.
    assert (Xa : exists a0, nth_error (s_thr s) i = Some a0 /\ live a0 /\ w_tid a0 = w_tid a).
    { destruct (Nat.eqb_spec i k) as [->|N]; [|eauto]. rewrite H in Ha. assert (a = x') by congruence. subst a. exists x. auto. }
    assert (Xb : exists b0, nth_error (s_thr s) j = Some b0 /\ live b0 /\ w_tid b0 = w_tid b).
    { destruct (Nat.eqb_spec j k) as [->|N]; [|eauto]. rewrite H in Hb. assert (b = x') by congruence. subst b. exists x. auto. }
    destruct Xa as (a0 & A1 & A2 & A3). destruct Xb as (b0 & B1 & B2 & B3). eapply IU; eauto. congruence.
Qed.

Lemma okt_live k x co inl E : okt k x co inl E -> inl = true -> live x.
Proof.
  intros O HI. destruct (o_inl _ _ _ _ _ O HI) as (A & B & C & D). destruct (n_det x) eqn:ED.
  - left. intros P. assert (F := o_fin _ _ _ _ _ O). unfold running in F. rewrite P, (D eq_refl) in F. discriminate.
  - right. assert (F := o_open _ _ _ _ _ O). rewrite B in F. cbn in F. destruct (w_open x); [reflexivity|discriminate].
Qed.
Lemma okt_nofree k x co inl E : okt k x co inl E -> inl = true -> n_free x = false.
Proof. intros O HI. assert (F := o_node _ _ _ _ _ O). rewrite HI in F. cbn in F. destruct (n_free x); [discriminate|reflexivity]. Qed.
Lemma find_bad_false s t l : inv s -> incl l (s_list s) -> find_bad s t l = false.
Proof.
  intros I H. induction l as [|k l IH]; [reflexivity|]. cbn. assert (K : In k (s_list s)) by (apply H; left; reflexivity).
  destruct (nth_error (s_thr s) k) as [x|] eqn:E; [|apply nth_error_None in E; apply (i_lt s I) in K; lia].
  rewrite (node_nth _ _ _ E). rewrite (okt_nofree _ _ _ _ _ (i_thr s I _ _ E)) by (apply inb_in, K). cbn. destruct (_ =? _)%nat; [reflexivity|]. apply IH. intros j Hj. apply H. right. exact Hj.
Qed.
Lemma find_node_self s k x l : inv s -> nth_error (s_thr s) k = Some x -> In k l -> incl l (s_list s) -> find_node s (w_tid x) l = Some k.
Proof.
  intros I H. induction l as [|j l IH]; intros K HI; [destruct K|]. cbn.
  assert (J : In j (s_list s)) by (apply HI; left; reflexivity).
  destruct (nth_error (s_thr s) j) as [y|] eqn:E; [|apply nth_error_None in E; apply (i_lt s I) in J; lia]. rewrite (node_nth _ _ _ E).
  assert (OJ := i_thr s I _ _ E). assert (IJ : inb j (s_list s) = true) by (apply inb_in, J).
  destruct (Nat.eqb_spec (n_tid y) (w_tid x)) as [T|T].
  - f_equal. destruct K as [K|K]; [exact K|]. assert (KL : inb k (s_list s) = true) by (apply inb_in, HI; right; exact K).
    destruct (o_inl _ _ _ _ _ OJ IJ) as (_ & _ & TJ & _). eapply (i_uniq s I j k y x E H); [eapply okt_live; eassumption|eapply okt_live; [apply (i_thr s I _ _ H)|exact KL]|congruence].
  - destruct K as [->|K].
    + exfalso. assert (y = x) by congruence. subst y. apply T. destruct (o_inl _ _ _ _ _ OJ IJ) as (_ & _ & TJ & _). exact TJ.
    + apply IH; [exact K|]. intros i Hi. apply HI. right. exact Hi.
Qed.

Lemma inv_init : inv init_state.
Proof.
  split; cbn [init_state s_list s_thr s_calls s_bad s_tr evs filter callof find map].
  - reflexivity. - apply NoDup_nil. - intros k []. - intros [|k] x; discriminate. - auto. - apply NoDup_nil. - intros [|j] k x y; discriminate.
Qed.
Lemma inv_begin s t : inv s -> (forall k x, nth_error (s_thr s) k = Some x -> w_tid x = t -> w_ph x = TEnd /\ w_open x = false) ->
  inv (mkS (s_list s) (s_thr s ++ [mkT t false TRun true false 0 false None false false false]) (s_calls s) (s_bad s) (EBegin (length (s_thr s)) :: s_tr s)).
Proof.
  intros I HT. destruct I as [IB IN IL IT I0 IC IU]. set (n := length (s_thr s)) in *. set (x := mkT t false TRun true false 0 false None false false false).
  assert (NC : nth_error (s_thr s ++ [x]) n = Some x) by (rewrite nth_error_app2, Nat.sub_diag by (unfold n; lia); reflexivity).
  assert (OLD : forall d y, nth_error (s_thr s ++ [x]) d = Some y -> d = n /\ y = x \/ d <> n /\ nth_error (s_thr s) d = Some y).
  { intros d y Hd. destruct (Nat.lt_ge_cases d n) as [L|L]; [rewrite nth_error_app1 in Hd by exact L; right; split; [lia|exact Hd]|].
    assert (d < length (s_thr s ++ [x]))%nat by (eapply some_lt, Hd). rewrite app_length in *. cbn in *. left. assert (d = n) by (unfold n in *; lia). subst d. split; congruence. }
  destruct (I0 n) as (N1 & N2); [unfold n; lia|].
  split; cbn [s_list s_thr s_calls s_bad s_tr]; auto.
  - intros k Hk. rewrite app_length. apply IL in Hk. fold n. lia.
  - intros d y Hd. cbn [evs filter about]. fold (evs d (s_tr s)). destruct (OLD d y Hd) as [(-> & ->)|(N & Hy)].
    + rewrite Nat.eqb_refl, N1, N2. assert (NL : inb n (s_list s) = false).
      { destruct (inb n (s_list s)) eqn:E; [|reflexivity]. apply inb_in, IL in E. unfold n in E. lia. }
      rewrite NL. split; cbn; try tauto; try reflexivity; try (intuition congruence).
      * intros o. split; [intuition congruence|]. intros (c & C & _). discriminate.
    + destruct (Nat.eqb_spec n d); [congruence|]. apply IT, Hy.
  - intros k Hk. rewrite app_length in Hk. cbn in Hk. cbn [evs filter about]. fold (evs k (s_tr s)). destruct (Nat.eqb_spec n k); [unfold n in *; lia|]. apply I0. unfold n in *. lia.
  - intros j k a b Ha Hb La Lb Et. destruct (OLD _ _ Ha) as [(-> & ->)|(Na & Ha')]; destruct (OLD _ _ Hb) as [(-> & ->)|(Nb & Hb')]; auto.
    + exfalso. destruct (HT _ _ Hb' (eq_sym Et)) as (A & B). destruct Lb; congruence.
    + exfalso. destruct (HT _ _ Ha' Et) as (A & B). destruct La; congruence.
    + eapply IU; eassumption.
Qed.
(* what okt says after the events e, for the fields that only speak of the history *)
Ltac evsplit := cbn [In app]; intuition (try congruence).
Lemma inv_publish s k x : inv s -> nth_error (s_thr s) k = Some x -> w_pub x = false ->
  inv (mkS (k :: s_list s)
           (set_nth k (mkT (w_tid x) true (w_ph x) (w_open x) (w_sfree x) (w_tid x) true (n_val x) (n_det x) (n_fin x) (n_free x)) (s_thr s))
           (s_calls s) (s_bad s || n_free x) (ECreated k :: s_tr s)).
Proof.
  intros I H P. assert (O := i_thr s I _ _ H). destruct (o_unpub _ _ _ _ _ O P) as (U1 & U2 & U3 & U4).
  assert (NI : ~ In k (s_list s)) by (rewrite <- inb_in; congruence).
  assert (NF : n_free x = false). { assert (F := o_node _ _ _ _ _ O). rewrite P, U1 in F. cbn in F. destruct (n_free x); [discriminate|reflexivity]. }
  eapply (inv_upd s _ k x _ _ [ECreated k] I H); [reflexivity| |reflexivity|reflexivity|intros L; exact L| | | |reflexivity|reflexivity| |]; cbn [s_list s_thr s_calls s_bad s_tr].
  - rewrite (i_bad s I), NF. reflexivity.
  - constructor; [exact NI|apply (i_nd s I)].
  - intros j N. cbn. intuition congruence.
  - apply (i_calls s I).
  - intros y [<-|[]]. reflexivity.
  - rewrite U4 in *. rewrite U1 in O.
    assert (IK : inb k (k :: s_list s) = true) by (apply inb_in; left; reflexivity). rewrite IK.
    destruct O. split; cbn [w_tid w_pub w_ph w_open w_sfree n_tid n_handle n_val n_det n_fin n_free orb negb b2n pend cacts tacts running] in *; try assumption.
    + rewrite P in *. rewrite o_open0. destruct (n_handle x); reflexivity.
    + rewrite P in *. rewrite o_node0. reflexivity.
    + intros _. rewrite U2. repeat split. discriminate.
    + discriminate.
    + discriminate.
    + intros F. destruct (o_val0 F) as (v & A & B). exists v. split; [exact A|right; exact B].
    + intros v [A|A]; [discriminate|auto].
    + evsplit.
    + evsplit.
    + intros o. rewrite <- o_called0. evsplit.
    + auto.
    + intros c C. discriminate.
    + intros o r [A|A]; [discriminate|auto].
Qed.
Lemma set_set {A} k (a b : A) l : set_nth k a (set_nth k b l) = set_nth k a l.
Proof. revert k. induction l as [|x l IH]; intros [|k]; cbn; try reflexivity. f_equal. apply IH. Qed.
Lemma set_same {A} k (a : A) l : nth_error l k = Some a -> set_nth k a l = l.
Proof. revert k. induction l as [|x l IH]; intros [|k] H; cbn in *; try discriminate; try reflexivity. - congruence. - f_equal. apply IH, H. Qed.
Ltac proj := cbn [w_tid w_pub w_ph w_open w_sfree n_tid n_handle n_val n_det n_fin n_free act_thr act_bad act_ev act_on set_ph no_handle] in *.
Lemma fin_not E v k : In (EFun k v) E -> existsb is_fun E = true.
Proof. intros H. apply existsb_exists. exists (EFun k v). auto. Qed.
Lemma fin_before_fun k E : fin_before (evs k E) = true -> exists v, In (EFun k v) (evs k E).
Proof.
  assert (G : forall b, incl b (evs k E) -> existsb is_fun b = true -> exists v, In (EFun k v) (evs k E)).
  { intros b B H. apply existsb_exists in H. destruct H as (e & H1 & H2). destruct e; try discriminate. apply B in H1. assert (H3 := H1). unfold evs in H3. apply filter_In in H3. destruct H3 as (_ & H3). cbn in H3. apply Nat.eqb_eq in H3. subst. eauto. }
  assert (GG : forall b, incl b (evs k E) -> fin_before b = true -> exists v, In (EFun k v) (evs k E)).
  { induction b as [|e b IH]; intros B H; [discriminate|]. assert (B' : incl b (evs k E)) by (intros y Hy; apply B; right; exact Hy).
    destruct e as [| | | | |? []| | | |]; cbn in H; try (apply IH; assumption). eapply G; eassumption. }
  apply GG. intros y Hy. exact Hy.
Qed.
(** A step that only makes the history longer leaves what okcall says. *)
Lemma okcall_more k x inl E c e : (forall y, In y e -> match y with ECall _ _ => False | _ => True end) -> okcall k x inl E c -> okcall k x inl (e ++ E) c.
Proof.
  intros HE (A & B & C & D). split; [exact A|]. split; [exact B|]. split; [exact C|].
  assert (F : fin_before (e ++ E) = fin_before E).
  { induction e as [|y e IH]; [reflexivity|]. cbn [app fin_before]. assert (Y := HE y (or_introl eq_refl)). destruct y as [| | | | |? []| | | |]; try contradiction; apply IH; intros z Hz; apply HE; right; exact Hz. }
  destruct (c_pc c); auto; destruct (c_op c); rewrite ?F; exact D.
Qed.

(** *** The thread *)
Lemma inv_fun s k x v : inv s -> nth_error (s_thr s) k = Some x -> w_ph x = TRun -> inv (wrapper k v s).
Proof.
  intros I H P. assert (O := i_thr s I _ _ H). unfold wrapper. rewrite (node_nth _ _ _ H).
  assert (R : running x = true) by (unfold running; rewrite P; reflexivity).
  assert (NF : n_fin x = false) by (rewrite (o_fin _ _ _ _ _ O), R; reflexivity).
  assert (NFr : n_free x = false).
  { assert (F := o_node _ _ _ _ _ O). destruct (n_free x); [|reflexivity]. exfalso. cbn in F. destruct (inb k (s_list s)) eqn:EI; [discriminate|]. destruct (w_pub x) eqn:EP; [|discriminate].
    destruct (o_out _ _ _ _ _ O eq_refl EP). congruence. }
  assert (NFun : forall v', ~ In (EFun k v') (evs k (s_tr s))). { intros v' A. apply (o_fun _ _ _ _ _ O) in A. destruct A. congruence. }
  assert (FB : fin_before (evs k (s_tr s)) = false). { destruct (fin_before _) eqn:E; [|reflexivity]. apply fin_before_fun in E. destruct E as (v' & A). exfalso. eapply NFun, A. }
  destruct (n_det x) eqn:D.
  - (* detached: the node is in the list *)
    assert (EP : w_pub x = true) by (destruct (w_pub x) eqn:EP; [reflexivity|]; destruct (o_unpub _ _ _ _ _ O EP) as (_ & ? & _); congruence).
    assert (EI : inb k (s_list s) = true) by (destruct (inb k (s_list s)) eqn:EI; [reflexivity|]; destruct (o_out _ _ _ _ _ O eq_refl EP); congruence).
    destruct (o_inl _ _ _ _ _ O EI) as (_ & HH & HT & _). rewrite D in HH. cbn in HH.
    rewrite HT, (find_node_self s k x _ I H) by (try (apply inb_in, EI); intros j Hj; exact Hj). unfold close_of. rewrite HH. cbn [app].
    assert (NI : inb k (unlink k (s_list s)) = false). { destruct (inb k (unlink k (s_list s))) eqn:E; [|reflexivity]. apply inb_in, unlink_in in E; [destruct E; congruence|apply (i_nd s I)]. }
    eapply (inv_upd s _ k x _ _ [EFun k v] I H); [reflexivity| |reflexivity|reflexivity| | | | |reflexivity|reflexivity| |]; cbn [s_list s_thr s_calls s_bad s_tr].
    + rewrite (i_bad s I), NFr, find_bad_false by (auto; intros j Hj; exact Hj). reflexivity.
    + intros _. left. rewrite P. discriminate.
    + apply unlink_nd, (i_nd s I).
    + intros j N. rewrite unlink_in by apply (i_nd s I). tauto.
    + apply (i_calls s I).
    + intros y [<-|[]]. reflexivity.
    + rewrite NI. rewrite EI in O. destruct O. unfold pend in *. split; proj; unfold pend, tacts, running in *; proj; rewrite P in *; rewrite EP, HH, NFr in *; cbn [orb negb b2n app acount filter a_close a_free a_fstart length In] in *; try assumption.
      * lia.
      * destruct (w_sfree x); cbn in *; lia.
      * intros a Ha. apply in_app_or in Ha. destruct Ha as [Ha|Ha]; [apply o_acts0; rewrite app_nil_r; exact Ha|]. destruct Ha as [<-|[<-|[]]]; reflexivity.
      * discriminate.
      * auto.
      * discriminate.
      * intros _. exists v. auto.
      * intros v' [A|A]; [split; congruence|exfalso; eapply NFun, A].
      * rewrite o_end0. intuition congruence.
      * rewrite <- o_created0. evsplit.
      * intros o. rewrite <- o_called0. evsplit.
      * intros C. destruct (o_nocall0 C). congruence.
      * intros c C. specialize (o_call0 c C). apply (okcall_more _ _ _ _ _ [EFun k v]) in o_call0; [|intros y [<-|[]]; exact Logic.I]. destruct o_call0 as (A1 & A2 & A3 & A4). split; [exact A1|]. split; [exact A2|]. split; [proj; congruence|]. proj. rewrite D in *.
        destruct (c_pc c); proj; try (exfalso; intuition congruence); destruct (c_op c); try (exfalso; intuition congruence).
        all: destruct A4 as (A4 & A5); split; [reflexivity|]; try exact Logic.I; intros; discriminate.
      * intros o r [A|A]; [discriminate|]. destruct (o_res0 o r A) as (c & C1 & C2 & C3 & C4). exists c. repeat split; auto. intros E. exfalso. destruct (o_call0 c C1) as (_ & _ & _ & K). rewrite C3, C2, E in K. destruct K as ((K & _) & _). congruence.
  - rewrite (i_bad s I), NFr. cbn [orb].
    eapply (inv_upd s _ k x _ _ [EFun k v] I H); [reflexivity|reflexivity|reflexivity|reflexivity| | | | |reflexivity|reflexivity| |]; cbn [s_list s_thr s_calls s_bad s_tr].
    + intros _. left. rewrite P. discriminate.
    + apply (i_nd s I).
    + reflexivity.
    + apply (i_calls s I).
    + intros y [<-|[]]. reflexivity.
    + destruct O. split; proj; unfold pend, tacts, running in *; proj; rewrite P in *; rewrite ?NFr in *; cbn [orb negb b2n app acount filter a_close a_free a_fstart length In] in *; try assumption.
      * destruct (w_sfree x); cbn in *; lia.
      * intros a Ha. apply in_app_or in Ha. destruct Ha as [Ha|Ha]; [apply o_acts0; rewrite app_nil_r; exact Ha|]. destruct Ha as [<-|[]]; reflexivity.
      * intros E. destruct (o_inl0 E) as (A1 & A2 & A3 & A4). rewrite D in *. auto.
      * intros E1 E2. destruct (o_out0 E1 E2). congruence.
      * intros E1. destruct (o_unpub0 E1) as (A1 & A2 & A3 & A4). auto.
      * intros _. exists v. auto.
      * intros v' [A|A]; [split; congruence|exfalso; eapply NFun, A].
      * rewrite o_end0. intuition congruence.
      * rewrite <- o_created0. evsplit.
      * intros o. rewrite <- o_called0. evsplit.
      * rewrite D in *. auto.
      * intros c C. assert (OC := o_call0 c C). specialize (o_call0 c C). apply (okcall_more _ _ _ _ _ [EFun k v]) in o_call0; [|intros y [<-|[]]; exact Logic.I]. destruct o_call0 as (A1 & A2 & A3 & A4). split; [exact A1|]. split; [exact A2|]. split; [proj; congruence|]. proj. rewrite D in *.
        destruct (c_pc c); proj; auto.
        -- destruct A4 as (_ & _ & _ & _ & A4). congruence.
        -- destruct (c_op c); destruct A4 as (A4 & A5); [destruct A4; congruence|congruence|]. split; [exact A4|]. intros; discriminate.
        -- destruct (c_op c); destruct A4 as (A4 & A5); [destruct A4; congruence|congruence|]. auto.
      * intros o r [A|A]; [discriminate|]. destruct (o_res0 o r A) as (c & C1 & C2 & C3 & C4). exists c. repeat split; auto. intros E. exfalso. destruct (o_call0 c C1) as (_ & _ & _ & K). rewrite C3, C2, E in K. destruct K as ((_ & K) & _). congruence.
Qed.
(** One action, pending for thread x or for the call co about it. *)
Lemma okt_act k x x' co co' inl E a :
  okt k x co inl E -> (forall p, pend p x co = (acount p [a] + pend p x' co')%nat) ->
  (forall b, In b (cacts co' ++ tacts x') -> In b (cacts co ++ tacts x)) -> act_on a = k ->
  running x' = running x -> (w_ph x' = TEnd <-> w_ph x = TEnd) ->
  w_tid x' = w_tid x -> w_pub x' = w_pub x -> w_open x' = w_open x -> w_sfree x' = w_sfree x -> n_tid x' = n_tid x ->
  n_handle x' = n_handle x -> n_val x' = n_val x -> n_det x' = n_det x -> n_fin x' = n_fin x -> n_free x' = n_free x ->
  (co' = co \/ exists c c', co = Some c /\ co' = Some c' /\ c_op c' = c_op c /\ c_pc c <> CRet /\ forall E0, okcall k x inl E0 c -> okcall k x inl E0 c') ->
  act_bad a x = false /\ okt k (act_thr a x') co' inl (act_ev a :: E).
Proof.
  intros O PE PI AK R PH T1 T2 T3 T4 T5 T6 T7 T8 T9 T10 CO.
  assert (ACT : In a (cacts co ++ tacts x)).
  { assert (Z := PE (fun b => match a, b with AClose _, AClose _ | AFree _, AFree _ | AFreeStart _, AFreeStart _ => true | _, _ => false end)).
    unfold pend, acount in Z. rewrite <- app_length, <- filter_app in Z. destruct (filter _ (cacts co ++ tacts x)) as [|b l] eqn:EQF.
    - clear - Z; exfalso; destruct a; cbn in Z; discriminate.
    - assert (B : In b (b :: l)) by (left; reflexivity). rewrite <- EQF in B. apply filter_In in B. destruct B as (B1 & B2). assert (Q := o_acts _ _ _ _ _ O b B1). replace a with b; [exact B1|]. clear - Q B2 AK; destruct a, b; cbn in *; congruence. }
  assert (PC := PE a_close). assert (PF := PE a_free). assert (PS := PE a_fstart).
  assert (NCo : forall y, co = Some y -> exists y', co' = Some y' /\ c_op y' = c_op y).
  { intros y Y. destruct CO as [->|(c & c' & C1 & C2 & C3 & _)]; [eauto|]. assert (y = c) by congruence. subst. eauto. }
  assert (NCo2 : forall y', co' = Some y' -> exists y, co = Some y /\ c_op y' = c_op y /\ forall E0, okcall k x inl E0 y -> okcall k x inl E0 y').
  { intros y' Y. destruct CO as [->|(c & c' & C1 & C2 & C3 & C4 & C6)]; [eauto|]. assert (y' = c') by congruence. subst. eauto. }
  assert (RC : forall c, co = Some c -> c_pc c = CRet -> co' = co).
  { intros c C P. destruct CO as [->|(d & d' & C1 & C2 & C3 & C4 & _)]; [reflexivity|]. congruence. }
  split.
  { assert (O1 := o_open _ _ _ _ _ O). assert (O2 := o_node _ _ _ _ _ O). assert (O3 := o_start _ _ _ _ _ O). clear - O1 O2 O3 PC PF PS. rewrite PC in O1. rewrite PF in O2. rewrite PS in O3.
    destruct a; cbn [act_bad].
    - destruct (w_open x); [reflexivity|]. cbn in O1. exfalso. revert O1. generalize (pend a_close x' co') (b2n (n_handle x || negb (w_pub x))). intros. lia.
    - destruct (n_free x); [|reflexivity]. cbn in O2. exfalso. revert O2. generalize (pend a_free x' co') (b2n (inl || negb (w_pub x))). intros. lia.
    - destruct (w_sfree x); [|reflexivity]. cbn in O3. exfalso. revert O3. generalize (pend a_fstart x' co') (b2n (running x)). intros. lia. }
  assert (EV : act_ev a = match a with AClose _ => EClose k | AFree _ => EFree k | AFreeStart _ => EFreeStart k end) by (destruct a; cbn in AK; subst; reflexivity).
  assert (FBE : forall E0, fin_before (act_ev a :: E0) = fin_before E0) by (intros; rewrite EV; destruct a; reflexivity).
  assert (INE : forall e, match e with EClose _ | EFree _ | EFreeStart _ => False | _ => True end -> (In e (act_ev a :: E) <-> In e E)).
  { intros e HE. rewrite EV. cbn [In]. split; [intros [A|A]; [destruct a; subst e; contradiction|exact A]|auto]. }
  destruct O.
  assert (OC : forall c, co' = Some c -> okcall k (act_thr a x') inl (act_ev a :: E) c).
  { intros c C. destruct (NCo2 c C) as (y & Y1 & Y2 & Y3). specialize (Y3 _ (o_call0 y Y1)). destruct Y3 as (B1 & B2 & B3 & B4).
    assert (W : w_tid (act_thr a x') = w_tid x /\ w_pub (act_thr a x') = w_pub x /\ n_det (act_thr a x') = n_det x /\ n_val (act_thr a x') = n_val x /\ (w_ph (act_thr a x') = TEnd <-> w_ph x = TEnd)) by (destruct a; proj; auto).
    destruct W as (W1 & W2 & W3 & W4 & W5). split; [exact B1|]. split; [congruence|]. split; [congruence|]. rewrite W3, W4, FBE.
    destruct (c_pc c); [exact B4|exact B4|destruct B4 as (b1 & b2 & b3 & b4 & b5); repeat (split; [assumption|]); apply W5, b5|destruct B4 as (B4 & B5); split; [|exact B5]|destruct B4 as (B4 & B5); split; [|exact B5]].
    all: destruct (c_op c); [|exact B4|exact B4]; destruct B4; split; [assumption|apply W5; assumption]. }
  assert (NC : co' = None -> co = None). { intros C. destruct co as [c|]; [|reflexivity]. destruct (NCo c eq_refl) as (y & Y & _). congruence. }
  assert (CN : co = None -> co' = None). { intros C. destruct CO as [->|(c & c' & C1 & _)]; congruence. }
  assert (CALL : forall o, In (ECall k o) (act_ev a :: E) <-> exists c, co' = Some c /\ c_op c = o).
  { intros o. rewrite (INE (ECall k o) Logic.I), o_called0. split; intros (c & C1 & C2).
    - destruct (NCo c C1) as (y & Y1 & Y2). exists y. split; congruence.
    - destruct (NCo2 c C1) as (y & Y1 & Y2 & _). exists y. split; congruence. }
  assert (RES : forall o r, In (EResult k o r) (act_ev a :: E) -> exists c, co' = Some c /\ c_op c = o /\ c_pc c = CRet /\ (o = Join -> r = RVal (n_val x))).
  { intros o r A. rewrite (INE (EResult k o r) Logic.I) in A. destruct (o_res0 o r A) as (c & C1 & C2 & C3 & C4). exists c. rewrite (RC c C1 C3). auto. }
  clear CO PE.
  assert (X : w_tid (act_thr a x') = w_tid x /\ w_pub (act_thr a x') = w_pub x /\ n_tid (act_thr a x') = n_tid x /\ n_handle (act_thr a x') = n_handle x /\
    n_val (act_thr a x') = n_val x /\ n_det (act_thr a x') = n_det x /\ n_fin (act_thr a x') = n_fin x /\ w_ph (act_thr a x') = w_ph x') by (destruct a; proj; repeat split; assumption).
  destruct X as (X1 & X2 & X3 & X4 & X5 & X6 & X7 & X8).
  assert (XR : running (act_thr a x') = running x) by (unfold running in *; rewrite X8; exact R).
  assert (XT : tacts (act_thr a x') = tacts x') by (unfold tacts; rewrite X8; reflexivity).
  assert (XP : forall p, pend p (act_thr a x') co' = pend p x' co') by (intros; unfold pend; rewrite XT; reflexivity).
  split; rewrite ?XP, ?XR, ?XT, ?X1, ?X2, ?X3, ?X4, ?X5, ?X6, ?X7, ?X8.
  - rewrite PC in o_open0. clear - o_open0 T3. revert o_open0. generalize (pend a_close x' co') (b2n (n_handle x || negb (w_pub x))). intros m n Q. destruct a; cbn [act_thr w_open acount filter a_close length] in *; rewrite ?T3; try (rewrite Q; reflexivity). cbn. destruct (w_open x); cbn in Q; lia.
  - rewrite PF in o_node0. clear - o_node0 T10. revert o_node0. generalize (pend a_free x' co') (b2n (inl || negb (w_pub x))). intros m n Q. destruct a; cbn [act_thr n_free acount filter a_free length] in *; rewrite ?T10; try (rewrite Q; reflexivity). cbn. destruct (n_free x); cbn in Q; lia.
  - rewrite PS in o_start0. clear - o_start0 T4. revert o_start0. generalize (pend a_fstart x' co') (b2n (running x)). intros m n Q. destruct a; cbn [act_thr w_sfree acount filter a_fstart length] in *; rewrite ?T4; try (rewrite Q; reflexivity). cbn. destruct (w_sfree x); cbn in Q; lia.
  - intros b B. apply o_acts0, PI, B.
  - exact o_inl0.
  - exact o_out0.
  - intros U. destruct (o_unpub0 U) as (A1 & A2 & A3 & A4). auto.
  - exact o_fin0.
  - intros F. destruct (o_val0 F) as (v & A & B). exists v. split; [exact A|right; exact B].
  - intros v A. rewrite (INE (EFun k v) Logic.I) in A. apply o_fun0, A.
  - rewrite (INE (EEnd k) Logic.I), PH. exact o_end0.
  - rewrite (INE (ECreated k) Logic.I). exact o_created0.
  - exact CALL.
  - intros C. apply o_nocall0, NC, C.
  - exact OC.
  - exact RES.
  - assert (A : (acount a_close [a] <= b2n (w_open x))%nat) by (rewrite o_open0, PC; clear; lia). rewrite EV. clear - A T3 o_nclose0 AK. destruct a; unfold count in *; cbn [filter is_close length act_thr w_open] in *; rewrite ?T3, ?o_nclose0; try reflexivity. cbn in A. destruct (w_open x); [reflexivity|]. cbn in A. lia.
  - assert (A : (acount a_free [a] <= b2n (negb (n_free x)))%nat) by (rewrite o_node0, PF; clear; lia). rewrite EV. clear - A T10 o_nfree0 AK. destruct a; unfold count in *; cbn [filter is_free length act_thr n_free] in *; rewrite ?T10, ?o_nfree0; try reflexivity. cbn in A. destruct (n_free x); [|reflexivity]. cbn in A. lia.
  - assert (A : (acount a_fstart [a] <= b2n (negb (w_sfree x)))%nat) by (rewrite o_start0, PS; clear; lia). rewrite EV. clear - A T4 o_nfstart0 AK. destruct a; unfold count in *; cbn [filter is_fstart length act_thr w_sfree] in *; rewrite ?T4, ?o_nfstart0; try reflexivity. cbn in A. destruct (w_sfree x); [|reflexivity]. cbn in A. lia.
Qed.
Lemma node_set s k x : (k < length (s_thr s))%nat -> node (set_thr k x s) k = x.
Proof. intros H. apply node_nth. cbn [set_thr s_thr]. rewrite nth_set, Nat.eqb_refl. destruct (nth_error (s_thr s) k) eqn:E; [reflexivity|]. apply nth_error_None in E. lia. Qed.
Lemma act_live a x : live (act_thr a x) -> live x.
Proof. unfold live. destruct a; proj; intuition congruence. Qed.
Lemma inv_tact s k x a l : inv s -> nth_error (s_thr s) k = Some x -> w_ph x = TClean (a :: l) ->
  inv (do_act a (set_thr k (set_ph (TClean l) x) s)).
Proof.
  intros I H P. assert (O := i_thr s I _ _ H).
  assert (AK : act_on a = k) by (apply (o_acts _ _ _ _ _ O), in_or_app; right; unfold tacts; rewrite P; left; reflexivity).
  destruct (okt_act k x (set_ph (TClean l) x) _ (callof k (s_calls s)) _ _ a O) as (B & OK); auto; proj; try reflexivity.
  - intros p. unfold pend, tacts. proj. rewrite P. unfold acount. cbn [filter]. destruct (p a); cbn [length]; lia.
  - intros b Hb. apply in_app_or in Hb. apply in_or_app. destruct Hb as [Hb|Hb]; [left; exact Hb|right]. unfold tacts in *. proj. rewrite P. right. exact Hb.
  - unfold running. proj. rewrite P. reflexivity.
  - rewrite P. split; discriminate.
  - unfold do_act. rewrite AK, node_set by (eapply some_lt, H).
    eapply (inv_upd s _ k x _ _ [act_ev a] I H); [cbn [s_thr set_thr]; apply set_set| |reflexivity|destruct a; reflexivity| | | | |reflexivity|reflexivity| |]; cbn [s_list s_thr s_calls s_bad s_tr set_thr].
    + rewrite (i_bad s I). destruct a; exact B.
    + intros _. left. rewrite P. discriminate.
    + apply (i_nd s I).
    + reflexivity.
    + apply (i_calls s I).
    + intros y [<-|[]]. destruct a; exact AK.
    + exact OK.
Qed.
Lemma inv_tend s k x : inv s -> nth_error (s_thr s) k = Some x -> w_ph x = TClean [] -> inv (emit (EEnd k) (set_thr k (set_ph TEnd x) s)).
Proof.
  intros I H P. assert (O := i_thr s I _ _ H).
  eapply (inv_upd s _ k x _ _ [EEnd k] I H); [reflexivity|exact (i_bad s I)|reflexivity|reflexivity| | | | |reflexivity|reflexivity| |]; cbn [emit set_thr s_list s_thr s_calls s_bad s_tr].
  - intros _. left. rewrite P. discriminate.
  - apply (i_nd s I).
  - reflexivity.
  - apply (i_calls s I).
  - intros y [<-|[]]. reflexivity.
  - destruct O. unfold pend in *. split; unfold pend, tacts, running in *; proj; rewrite P in *; try assumption.
    + intros F. destruct (o_val0 F) as (v & A & B). exists v. split; [exact A|right; exact B].
    + intros v [A|A]; [discriminate|apply o_fun0, A].
    + cbn. intuition congruence.
    + rewrite <- o_created0. evsplit.
    + intros o. rewrite <- o_called0. evsplit.
    + intros c C. specialize (o_call0 c C). apply (okcall_more _ _ _ _ _ [EEnd k]) in o_call0; [|intros y [<-|[]]; exact Logic.I].
      destruct o_call0 as (A1 & A2 & A3 & A4). split; [exact A1|]. split; [exact A2|]. split; [exact A3|]. proj.
      destruct (c_pc c); [exact A4|exact A4| |destruct A4 as (A4 & A5); split; [|exact A5]|destruct A4 as (A4 & A5); split; [|exact A5]].
      * destruct A4 as (? & ? & ? & ? & ?). auto.
      * destruct (c_op c); [destruct A4; auto|exact A4|exact A4].
      * destruct (c_op c); [destruct A4; auto|exact A4|exact A4].
    + intros o r [A|A]; [discriminate|apply o_res0, A].
Qed.
(** *** A call *)
Lemma inv_call s k x o : inv s -> nth_error (s_thr s) k = Some x -> w_pub x = true -> (forall o', ~ In (ECall k o') (s_tr s)) ->
  inv (mkS (s_list s) (s_thr s) (s_calls s ++ [mkK o k (w_tid x) CStart]) (s_bad s) (ECall k o :: s_tr s)).
Proof.
  intros I H P NC. assert (O := i_thr s I _ _ H).
  assert (CN : callof k (s_calls s) = None).
  { destruct (callof k (s_calls s)) as [c|] eqn:C; [|reflexivity]. exfalso. apply (NC (c_op c)). apply (in_evs (ECall k (c_op c))). apply (o_called _ _ _ _ _ O). eauto. }
  assert (CA : forall j, callof j (s_calls s ++ [mkK o k (w_tid x) CStart]) = if (j =? k)%nat then Some (mkK o k (w_tid x) CStart) else callof j (s_calls s)).
  { intros j. unfold callof in *. clear - CN. induction (s_calls s) as [|c l IH]; cbn in *.
    - rewrite Nat.eqb_sym. destruct (_ =? _)%nat; reflexivity.
    - destruct (Nat.eqb_spec (c_about c) k); [discriminate|]. rewrite (IH CN). destruct (Nat.eqb_spec (c_about c) j), (Nat.eqb_spec j k); congruence. }
  destruct (o_nocall _ _ _ _ _ O CN) as (D & IN). specialize (IN P).
  eapply (inv_upd s _ k x x _ [ECall k o] I H); [symmetry; apply set_same, H|exact (i_bad s I)|reflexivity|reflexivity|auto| | | | | | |]; cbn [s_list s_thr s_calls s_bad s_tr].
  - apply (i_nd s I).
  - reflexivity.
  - rewrite map_app. cbn. apply NoDup_Add with (a := k) (l := map c_about (s_calls s)). + rewrite <- (app_nil_r (map c_about (s_calls s))) at 1. apply Add_app. + split; [apply (i_calls s I)|apply callof_none, CN].
  - rewrite CA, Nat.eqb_refl. reflexivity.
  - intros j N. rewrite CA. apply Nat.eqb_neq in N. rewrite N. reflexivity.
  - intros y [<-|[]]. reflexivity.
  - rewrite CN in O. rewrite IN in *. destruct O. split; unfold pend, cacts in *; try assumption.
    + intros U. congruence.
    + intros F. destruct (o_val0 F) as (v & A & B). exists v. split; [exact A|right; exact B].
    + intros v [A|A]; [discriminate|apply o_fun0, A].
    + rewrite <- o_end0. evsplit.
    + rewrite <- o_created0. evsplit.
    + intros o'. split.
      * intros [A|A]; [|exfalso; apply (NC o'), (in_evs (ECall k o')), A]. assert (o = o') by congruence. subst. eexists. split; reflexivity.
      * intros (c & C1 & C2). left. assert (c = mkK o k (w_tid x) CStart) by congruence. subst c. cbn in C2. congruence.
    + discriminate.
    + intros c C. assert (c = mkK o k (w_tid x) CStart) by congruence. subst c. split; [reflexivity|]. split; [reflexivity|]. split; [exact P|]. cbn. auto.
    + intros o' r [A|A]; [discriminate|]. destruct (o_res0 o' r A) as (c & C & _). discriminate.
Qed.
(** A step of the call c about thread k. *)
Lemma inv_cstep s i c k x x' p l e b : inv s -> nth_error (s_calls s) i = Some c -> c_about c = k -> nth_error (s_thr s) k = Some x ->
  b = false -> w_tid x' = w_tid x -> (live x' -> live x) -> (l = s_list s \/ l = unlink k (s_list s)) -> (forall y, In y e -> about y = k) ->
  okt k x' (Some (mkK (c_op c) k (c_id c) p)) (inb k l) (e ++ evs k (s_tr s)) ->
  inv (mkS l (set_nth k x' (s_thr s)) (set_nth i (mkK (c_op c) (c_about c) (c_id c) p) (s_calls s)) b (e ++ s_tr s)).
Proof.
  intros I HC A H HB T L HL HE OK. assert (CS := fun j => callof_set (s_calls s) i c (mkK (c_op c) (c_about c) (c_id c) p) j (i_calls s I) HC eq_refl).
  eapply (inv_upd s _ k x x' _ e I H); [reflexivity|exact HB|reflexivity|exact T|exact L| | | | | |exact HE|]; cbn [s_list s_thr s_calls s_bad s_tr].
  - destruct HL as [->| ->]; [|apply unlink_nd]; apply (i_nd s I).
  - intros j N. destruct HL as [->| ->]; [reflexivity|]. rewrite unlink_in by apply (i_nd s I). tauto.
  - erewrite about_set; [apply (i_calls s I)|exact HC|reflexivity].
  - reflexivity.
  - intros j N. rewrite CS, A. apply Nat.eqb_neq in N. rewrite N. reflexivity.
  - rewrite CS, A, Nat.eqb_refl. exact OK.
Qed.
Lemma call_thr s i c : inv s -> nth_error (s_calls s) i = Some c -> exists x, nth_error (s_thr s) (c_about c) = Some x /\ callof (c_about c) (s_calls s) = Some c /\
  okt (c_about c) x (Some c) (inb (c_about c) (s_list s)) (evs (c_about c) (s_tr s)).
Proof.
  intros I HC. assert (CO := callof_nth _ _ _ (i_calls s I) HC). destruct (nth_error (s_thr s) (c_about c)) as [x|] eqn:E.
  - exists x. rewrite <- CO at 2. auto using (i_thr s I).
  - apply nth_error_None in E. destruct (i_none s I _ E). congruence.
Qed.
Lemma inv_act s i c a l r : inv s -> nth_error (s_calls s) i = Some c -> c_pc c = CClean (a :: l) r -> inv (do_act a (set_call i c (CClean l r) s)).
Proof.
  intros I HC P. destruct (call_thr s i c I HC) as (x & H & CO & O). set (k := c_about c) in *.
  assert (AC : cacts (Some c) = a :: l) by (destruct c as [o' k' t' p']; cbn in P; subst p'; reflexivity).
  assert (AK : act_on a = k) by (apply (o_acts _ _ _ _ _ O), in_or_app; left; rewrite AC; left; reflexivity).
  destruct (okt_act k x x _ (Some (mkK (c_op c) k (c_id c) (CClean l r))) _ _ a O) as (B & OK); auto; try reflexivity.
  - intros p. unfold pend. rewrite AC. cbn [cacts]. unfold acount. cbn [filter]. destruct (p a); cbn [length]; lia.
  - intros b Hb. apply in_app_or in Hb. apply in_or_app. destruct Hb as [Hb|Hb]; [left|right; exact Hb]. rewrite AC. right. exact Hb.
  - right. exists c. eexists. split; [reflexivity|]. split; [reflexivity|]. split; [reflexivity|]. split; [rewrite P; discriminate|].
    intros E0 (A1 & A2 & A3 & A4). split; [reflexivity|]. split; [exact A2|]. split; [exact A3|]. cbn [c_pc c_op]. rewrite P, AC in A4.
    destruct A4 as (A4 & A5). split; [|exact A5]. destruct (c_op c); [exact A4|exact A4|]. destruct A4 as (A4 & A6). split; [exact A4|]. intros E. destruct (A6 E); discriminate.
  - unfold do_act. cbn [set_call s_list s_thr s_calls s_bad s_tr]. rewrite AK. change (node (set_call i c (CClean l r) s) k) with (node s k). rewrite (node_nth _ _ _ H).
    apply (inv_cstep s i c k x (act_thr a x) (CClean l r) (s_list s) [act_ev a] _ I HC eq_refl H); auto.
    + rewrite (i_bad s I). exact B.
    + destruct a; reflexivity.
    + apply act_live.
    + intros y [<-|[]]. destruct a; exact AK.
Qed.
Lemma okt_pc k x c p inl E : okt k x (Some c) inl E -> c_about c = k -> cacts (Some c) = [] -> cacts (Some (mkK (c_op c) k (c_id c) p)) = [] -> c_pc c <> CRet ->
  okcall k x inl E (mkK (c_op c) k (c_id c) p) -> okt k x (Some (mkK (c_op c) k (c_id c) p)) inl E.
Proof.
  intros O CA A A' NR OC. destruct O. split; unfold pend in *; rewrite ?A, ?A' in *; try assumption.
  - intros U. destruct (o_unpub0 U) as (_ & _ & _ & ?). discriminate.
  - intros o. rewrite o_called0. split; intros (d & D1 & D2).
    + assert (d = c) by congruence. subst d. eexists. split; [reflexivity|]. exact D2.
    + injection D1 as <-. exists c. auto.
  - discriminate.
  - intros d D. injection D as <-. exact OC.
  - intros o r HR. destruct (o_res0 o r HR) as (d & D1 & D2 & D3 & _). assert (d = c) by congruence. subst d. congruence.
Qed.
(** The calls change only what they found: thread k itself. *)
Lemma set_call_as s i c k x p : nth_error (s_thr s) k = Some x ->
  set_call i c p s = mkS (s_list s) (set_nth k x (s_thr s)) (set_nth i (mkK (c_op c) (c_about c) (c_id c) p) (s_calls s)) (s_bad s) ([] ++ s_tr s).
Proof. intros H. unfold set_call. rewrite (set_same _ _ _ H). reflexivity. Qed.
Lemma find_call s c x : inv s -> nth_error (s_thr s) (c_about c) = Some x -> c_id c = w_tid x -> inb (c_about c) (s_list s) = true ->
  find_node s (c_id c) (s_list s) = Some (c_about c) /\ find_bad s (c_id c) (s_list s) = false.
Proof.
  intros I H T IN. split; [rewrite T; apply find_node_self; auto; [apply inb_in, IN|intros j Hj; exact Hj]|]. apply find_bad_false; [exact I|intros j Hj; exact Hj].
Qed.
Lemma flag_false s : s_bad s = false -> flag false s = s.
Proof. destruct s. cbn. intros ->. reflexivity. Qed.
Lemma inb_unlink k l : NoDup l -> inb k (unlink k l) = false.
Proof. intros N. destruct (inb k (unlink k l)) eqn:E; [|reflexivity]. apply inb_in, unlink_in in E; [destruct E; congruence|exact N]. Qed.
(** A call unlinks a node that was not detached, and takes over its handle and memory. *)
Lemma okt_take k x c d r inl E : okt k x (Some c) inl E -> c_about c = k -> inl = true -> n_det x = false -> n_fin x = true -> cacts (Some c) = [] ->
  okcall k (no_handle d x) false E (mkK (c_op c) k (c_id c) (CClean [AClose k; AFree k] r)) -> c_pc c <> CRet ->
  okt k (no_handle d x) (Some (mkK (c_op c) k (c_id c) (CClean [AClose k; AFree k] r))) false E.
Proof.
  intros O CA IL D F A OC NR. assert (OI := o_inl _ _ _ _ _ O IL). destruct OI as (P & HH & T & _). rewrite D in HH. cbn in HH.
  destruct O. rewrite IL, P, HH in *. unfold pend in *. rewrite A in *. cbn [orb negb b2n acount filter length] in *.
  split; unfold pend in *; proj; unfold tacts, running in *; proj; rewrite ?P in *; cbn [orb negb b2n cacts acount filter length a_close a_free a_fstart] in *; try assumption; try lia.
  - intros a [<-|[<-|Ha]]; [reflexivity|reflexivity|]. apply o_acts0. exact Ha.
  - intros o. rewrite o_called0. split; intros (q & Q1 & Q2).
    + assert (q = c) by congruence. subst q. eexists. split; [reflexivity|]. exact Q2.
    + injection Q1 as <-. exists c. auto.
  - discriminate.
  - intros q Q. injection Q as <-. exact OC.
  - intros o r' HR. destruct (o_res0 o r' HR) as (q & Q1 & _ & Q3 & _). assert (q = c) by congruence. subst q. congruence.
Qed.
Lemma inv_sec1 s i c : inv s -> nth_error (s_calls s) i = Some c -> c_pc c = CStart -> inv (section1 i c s).
Proof.
  intros I HC P. destruct (call_thr s i c I HC) as (x & H & CO & O). set (k := c_about c) in *.
  assert (OC := o_call _ _ _ _ _ O c eq_refl). destruct OC as (_ & T & PB & OC). rewrite P in OC. destruct OC as (IL & D).
  destruct (find_call s c x I H T IL) as (FN & FB). fold k in FN.
  assert (AC : cacts (Some c) = []) by (destruct c as [o' k' t' p']; cbn in P; subst p'; reflexivity).
  assert (NR : c_pc c <> CRet) by (rewrite P; discriminate).
  unfold section1. rewrite FB, (flag_false s (i_bad s I)), FN, (node_nth _ _ _ H), D. cbn zeta.
  destruct (o_inl _ _ _ _ _ O IL) as (_ & HH & _). rewrite D in HH. cbn in HH. unfold close_of. rewrite HH. cbn [app negb andb].
  assert (LN : forall d, live (no_handle d x) -> live x) by (intros d L; exact L).
  destruct (c_op c) eqn:EO.
  - rewrite (set_call_as s i c k x) by exact H. rewrite EO. rewrite <- EO. apply (inv_cstep s i c k x x _ _ [] _ I HC eq_refl H); auto.
    + apply (i_bad s I). + intros y []. + apply okt_pc; auto. split; [reflexivity|]. split; [exact T|]. split; [exact PB|]. cbn. auto.
  - destruct (n_fin x) eqn:F.
    + replace (drop k _) with (mkS (unlink k (s_list s)) (set_nth k (no_handle true x) (s_thr s)) (set_nth i (mkK (c_op c) (c_about c) (c_id c) (CClean [AClose k; AFree k] RVoid)) (s_calls s)) (s_bad s) ([] ++ s_tr s)) by reflexivity.
      apply (inv_cstep s i c k x _ _ _ [] _ I HC eq_refl H); auto.
      * apply (i_bad s I). * intros y []. * rewrite inb_unlink by apply (i_nd s I). eapply okt_take; eauto. split; [reflexivity|]. split; [exact T|]. split; [exact PB|]. cbn. rewrite EO. split; [reflexivity|discriminate].
    + replace (set_thr k _ _) with (mkS (s_list s) (set_nth k (no_handle true x) (s_thr s)) (set_nth i (mkK (c_op c) (c_about c) (c_id c) (CClean [AClose k] RVoid)) (s_calls s)) (s_bad s) ([] ++ s_tr s)) by reflexivity.
      apply (inv_cstep s i c k x _ _ _ [] _ I HC eq_refl H); auto.
      * apply (i_bad s I). * intros y [].
      * rewrite IL in *. destruct O. rewrite PB, HH in *. unfold pend in *. rewrite AC in *. cbn [orb negb b2n acount filter length] in *.
        split; unfold pend in *; proj; unfold tacts, running in *; proj; rewrite ?PB in *; cbn [orb negb b2n cacts acount filter length a_close a_free a_fstart app] in *; try assumption; try lia.
        -- intros a [<-|Ha]; [reflexivity|]. apply o_acts0. exact Ha.
        -- intros o. rewrite o_called0. split; intros (q & Q1 & Q2).
           ++ assert (q = c) by congruence. subst q. eexists. split; [reflexivity|]. exact Q2.
           ++ injection Q1 as <-. exists c. auto.
        -- discriminate.
        -- intros q Q. injection Q as <-. split; [reflexivity|]. split; [exact T|]. split; [exact PB|]. cbn. rewrite EO. split; [reflexivity|discriminate].
        -- intros o r' HR. destruct (o_res0 o r' HR) as (q & Q1 & _ & Q3 & _). assert (q = c) by congruence. subst q. congruence.
  - destruct (n_fin x) eqn:F; cbn [andb].
    + replace (drop k _) with (mkS (unlink k (s_list s)) (set_nth k (no_handle false x) (s_thr s)) (set_nth i (mkK (c_op c) (c_about c) (c_id c) (CClean [AClose k; AFree k] RVoid)) (s_calls s)) (s_bad s) ([] ++ s_tr s)) by reflexivity.
      apply (inv_cstep s i c k x _ _ _ [] _ I HC eq_refl H); auto.
      * apply (i_bad s I). * intros y []. * rewrite inb_unlink by apply (i_nd s I). eapply okt_take; eauto. split; [reflexivity|]. split; [exact T|]. split; [exact PB|]. cbn. rewrite EO. repeat split; discriminate.
    + rewrite (set_call_as s i c k x) by exact H. apply (inv_cstep s i c k x x _ _ [] _ I HC eq_refl H); auto.
      * apply (i_bad s I). * intros y []. * apply okt_pc; auto. split; [reflexivity|]. split; [exact T|]. split; [exact PB|]. cbn. rewrite EO. split; [|discriminate]. split; [exact D|]. intros _. split; [reflexivity|].
        destruct (fin_before _) eqn:E; [|reflexivity]. apply fin_before_fun in E. destruct E as (v & E). apply (o_fun _ _ _ _ _ O) in E. destruct E. congruence.
Qed.
Lemma inv_wait s i c h : inv s -> nth_error (s_calls s) i = Some c -> c_pc c = CWait h -> w_ph (node s h) = TEnd -> inv (set_call i c (CReady h) s).
Proof.
  intros I HC P E. destruct (call_thr s i c I HC) as (x & H & CO & O). set (k := c_about c) in *.
  assert (OC := o_call _ _ _ _ _ O c eq_refl). destruct OC as (_ & T & PB & OC). rewrite P in OC. destruct OC as (EO & -> & IL & D).
  assert (AC : cacts (Some c) = []) by (destruct c as [o' k' t' p']; cbn in P; subst p'; reflexivity).
  rewrite (set_call_as s i c k x) by exact H. apply (inv_cstep s i c k x x _ _ [] _ I HC eq_refl H); auto.
  - apply (i_bad s I). - intros y [].
  - apply okt_pc; auto; [rewrite P; discriminate|]. split; [reflexivity|]. split; [exact T|]. split; [exact PB|]. cbn. rewrite (node_nth _ _ _ H) in E. auto.
Qed.
Lemma no_waitbad s i c h : inv s -> nth_error (s_calls s) i = Some c -> c_pc c = CWait h -> w_open (node s h) = true.
Proof.
  intros I HC P. destruct (call_thr s i c I HC) as (x & H & CO & O). set (k := c_about c) in *.
  assert (OC := o_call _ _ _ _ _ O c eq_refl). destruct OC as (_ & T & PB & OC). rewrite P in OC. destruct OC as (EO & -> & IL & D).
  destruct (o_inl _ _ _ _ _ O IL) as (_ & HH & _). rewrite D in HH. assert (F := o_open _ _ _ _ _ O). rewrite HH in F. cbn in F. rewrite (node_nth _ _ _ H). destruct (w_open x); [reflexivity|discriminate].
Qed.
Lemma inv_sec2 s i c h : inv s -> nth_error (s_calls s) i = Some c -> c_pc c = CReady h -> inv (section2 i c h s).
Proof.
  intros I HC P. destruct (call_thr s i c I HC) as (x & H & CO & O). set (k := c_about c) in *.
  assert (OC := o_call _ _ _ _ _ O c eq_refl). destruct OC as (_ & T & PB & OC). rewrite P in OC. destruct OC as (EO & -> & IL & D & PH).
  destruct (find_call s c x I H T IL) as (FN & FB). fold k in FN.
  assert (AC : cacts (Some c) = []) by (destruct c as [o' k' t' p']; cbn in P; subst p'; reflexivity).
  assert (F : n_fin x = true) by (rewrite (o_fin _ _ _ _ _ O); unfold running; rewrite PH; reflexivity).
  unfold section2. rewrite FB, (flag_false s (i_bad s I)), FN, (node_nth _ _ _ H), D. cbn zeta.
  replace (drop k _) with (mkS (unlink k (s_list s)) (set_nth k (no_handle false x) (s_thr s)) (set_nth i (mkK (c_op c) (c_about c) (c_id c) (CClean [AClose k; AFree k] (RVal (n_val x)))) (s_calls s)) (s_bad s) ([] ++ s_tr s)) by reflexivity.
  apply (inv_cstep s i c k x _ _ _ [] _ I HC eq_refl H); auto.
  - apply (i_bad s I). - intros y [].
  - rewrite inb_unlink by apply (i_nd s I). eapply okt_take; eauto; [|rewrite P; discriminate]. split; [reflexivity|]. split; [exact T|]. split; [exact PB|]. cbn. rewrite EO. auto.
Qed.
Lemma inv_ret s i c r : inv s -> nth_error (s_calls s) i = Some c -> c_pc c = CClean [] r -> inv (emit (EResult (c_about c) (c_op c) r) (set_call i c CRet s)).
Proof.
  intros I HC P. destruct (call_thr s i c I HC) as (x & H & CO & O). set (k := c_about c) in *.
  assert (OC := o_call _ _ _ _ _ O c eq_refl). destruct OC as (_ & T & PB & OC). rewrite P in OC. destruct OC as (OC & OR).
  assert (AC : cacts (Some c) = []) by (destruct c as [o' k' t' p']; cbn in P; subst p'; reflexivity).
  replace (emit _ _) with (mkS (s_list s) (set_nth k x (s_thr s)) (set_nth i (mkK (c_op c) (c_about c) (c_id c) CRet) (s_calls s)) (s_bad s) ([EResult k (c_op c) r] ++ s_tr s)) by (unfold emit, set_call; rewrite (set_same _ _ _ H); reflexivity).
  apply (inv_cstep s i c k x x _ _ [EResult k (c_op c) r] _ I HC eq_refl H); auto.
  - apply (i_bad s I). - intros y [<-|[]]. reflexivity.
  - cbn [app]. assert (OC' : okcall k x (inb k (s_list s)) (EResult k (c_op c) r :: evs k (s_tr s)) (mkK (c_op c) k (c_id c) CRet)).
    { split; [reflexivity|]. split; [exact T|]. split; [exact PB|]. cbn [c_pc c_op cacts fin_before]. split; [|exact Logic.I]. destruct (c_op c); [exact OC|exact OC|]. destruct OC as (A & B). split; [exact A|]. intros Q. destruct (B Q). auto. }
    destruct O. split; unfold pend in *; rewrite ?AC in *; try assumption.
    + intros U. destruct (o_unpub0 U) as (_ & _ & _ & ?). discriminate.
    + intros F. destruct (o_val0 F) as (v & A & B). exists v. split; [exact A|right; exact B].
    + intros v [A|A]; [discriminate|apply o_fun0, A].
    + rewrite <- o_end0. evsplit.
    + rewrite <- o_created0. evsplit.
    + intros o. split.
      * intros [A|A]; [discriminate|]. apply o_called0 in A. destruct A as (q & Q1 & Q2). assert (q = c) by congruence. subst q. eexists. split; [reflexivity|]. exact Q2.
      * intros (q & Q1 & Q2). injection Q1 as <-. right. apply o_called0. exists c. auto.
    + discriminate.
    + intros q Q. injection Q as <-. exact OC'.
    + intros o r' [A|A].
      * assert (A1 : o = c_op c) by congruence. assert (A2 : r' = r) by congruence. subst o r'. eexists. split; [reflexivity|]. auto.
      * destruct (o_res0 o r' A) as (q & Q1 & _ & Q3 & _). assert (q = c) by congruence. subst q. congruence.
Qed.
Lemma inv_step s s' : inv s -> step s s' -> proper (s_tr s') -> inv s'.
Proof.
  intros I ST PR. destruct ST.
  - apply inv_begin; assumption.
  - eapply inv_publish; eassumption.
  - eapply inv_fun; eassumption.
  - eapply inv_tact; eassumption.
  - apply inv_tend; assumption.
  - exfalso. destruct PR as ((_ & PR) & _). exact PR.
  - destruct PR as (_ & PR & NC). apply inv_call; auto. apply (o_created _ _ _ _ _ (i_thr s I _ _ H)). apply (in_evs (ECreated k)), PR.
  - apply inv_sec1; assumption.
  - apply inv_wait; assumption.
  - rewrite (no_waitbad _ _ _ _ I H H0) in H1. discriminate.
  - eapply inv_sec2; eassumption.
  - apply inv_act; assumption.
  - apply inv_ret; assumption.
Qed.
Lemma step_tr s s' : step s s' -> exists e, s_tr s' = e ++ s_tr s.
Proof.
  intros ST. destruct ST; cbn [s_tr do_act set_thr emit set_call flag]; try (eexists [_]; reflexivity); try (exists []; reflexivity); try (eexists [_; _]; reflexivity).
  - unfold wrapper. cbn zeta. destruct (n_det (node s k)); eexists [_]; reflexivity.
  - exists []. unfold section1. cbn zeta. destruct (c_op c); destruct (find_node _ _ _); repeat match goal with |- context [if ?b then _ else _] => destruct b end; reflexivity.
  - exists []. unfold section2. cbn zeta. destruct (find_node _ _ _); reflexivity.
Qed.
Lemma proper_suffix a b : proper (a ++ b) -> proper b.
Proof. induction a as [|e a IH]; [auto|]. intros (H & _). auto. Qed.
Lemma reach_inv s : reachable s -> proper (s_tr s) -> inv s.
Proof.
  intros R. induction R as [|s s' R IH ST]; intros P; [apply inv_init|]. eapply inv_step; eauto. apply IH. destruct (step_tr _ _ ST) as (e & E). rewrite E in P. eapply proper_suffix, P.
Qed.
