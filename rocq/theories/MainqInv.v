(** * Invariant of the model of the main queue (Mainq.v). *)
From Verif Require Import Base Mainq.

Lemma upd_nth {A} (l : list A) i x j :
  nth_error (upd l i x) j = if (j =? i)%nat then match nth_error l i with Some _ => Some x | None => None end else nth_error l j.
Proof.
  revert i j; induction l as [|y l IH]; intros [|i] [|j]; cbn; auto; try (destruct (j =? i)%nat; reflexivity).
Qed.
Lemma upd_len {A} (l : list A) i x : length (upd l i x) = length l.
Proof. revert i; induction l; intros [|i]; cbn; auto. Qed.
Lemma nth_app {A} (l : list A) x j :
  nth_error (l ++ [x]) j = if (j =? length l)%nat then Some x else nth_error l j.
Proof.
  destruct (Nat.eqb_spec j (length l)) as [->|n].
  - rewrite nth_error_app2, Nat.sub_diag by lia. reflexivity.
  - destruct (Nat.lt_ge_cases j (length l)).
    + now rewrite nth_error_app1.
    + rewrite nth_error_app2 by lia. destruct (j - length l)%nat eqn:E; [lia|].
      cbn. rewrite (proj2 (nth_error_None l j)) by lia. match goal with |- nth_error [] ?k = _ => now destruct k end.
Qed.
Lemma nth_len {A} (l : list A) i x : nth_error l i = Some x -> (i < length l)%nat.
Proof. intros H. apply nth_error_Some. congruence. Qed.

(** Who has the right to the main queue. *)
Inductive owner := ONone | OStart (t : nat) | OInit (t i : nat) | OStore (t i : nat) | OQ (i : nat) | ODead.
Definition owns (o : owner) (i : nat) : Prop :=
  match o with OInit _ j | OStore _ j | OQ j => i = j | _ => False end.
Definition starting (o : owner) (i : nat) : Prop :=
  match o with OInit _ j | OStore _ j => i = j | _ => False end.
Definition ended (p : qphase) : Prop := match p with QFini | QPut | QFree => True | _ => False end.

(** What holds of queue [i]. *)
Record qok (o : owner) (s : state) (i : nat) (q : queue) : Prop := mkQok {
  k_id : 65536 <= q_id q < 4294967296 /\ 0 <= q_id q mod 65536 < 2048;
  k_allow : q_main q = true -> q_allowed q = false;
  k_other : q_main q = false -> q_ph q <> QInit /\ q_failed q = false;
  k_own : q_main q = true -> q_ph q = QFree \/ owns o i;
  k_init : q_ph q = QInit -> exists t, o = OInit t i;
  k_term : q_main q = true -> q_ph q = QInit \/ starting o i -> q_failed q = false -> q_term q = false;
  k_failed : q_failed q = true -> q_ph q <> QInit /\ q_ph q <> QRun /\ (q_ph q = QFree \/ starting o i);
  k_users : forall t, In t (q_users q) -> exists k, s_th s t = Got k i;
  k_dead : q_users q <> [] -> q_ph q = QRun \/ q_ph q = QDying;
  k_einit : q_main q = true <-> In (EInit i) (s_tr s);
  k_efini : ended (q_ph q) <-> In (EFini i) (s_tr s) }.

(** What holds of thread [t]. *)
Definition named (o : owner) (s : state) (i : nat) : Prop :=
  exists q, nth_error (s_qs s) i = Some q /\ q_main q = true /\ q_failed q = false /\ ~ starting o i.
Definition tok (o : owner) (s : state) (t : nat) : Prop :=
  match s_th s t with
  | Creating0 => o = OStart t
  | Creating i => o = OInit t i
  | Store i => o = OStore t i
  | Lookup _ id => id = INVALID \/ id = 0 \/ exists i q, nth_error (s_qs s) i = Some q /\ q_id q = id /\ named o s i
  | Got _ i => named o s i /\ exists q, nth_error (s_qs s) i = Some q /\ In t (q_users q)
  | Waiting _ i => named o s i
  | _ => True
  end.
(** What holds of the owner. *)
Definition ook (o : owner) (s : state) : Prop :=
  match o with
  | ONone => s_main s = INVALID
  | OStart t => s_main s = 0 /\ s_th s t = Creating0
  | OInit t i => s_main s = 0 /\ s_th s t = Creating i /\
      exists q, nth_error (s_qs s) i = Some q /\ q_main q = true /\ (q_failed q = false -> q_ph q = QInit)
  | OStore t i => s_main s = 0 /\ s_th s t = Store i /\
      exists q, nth_error (s_qs s) i = Some q /\ q_main q = true /\ q_failed q = false /\ q_ph q = QRun
  | OQ i => exists q, nth_error (s_qs s) i = Some q /\ q_main q = true /\ q_failed q = false /\
      q_ph q <> QFree /\ s_main s = q_id q
  | ODead => s_main s = 0
  end.

(** No init before the fini of every earlier one. *)
Fixpoint serial (tr : list event) : Prop :=
  match tr with
  | [] => True
  | EInit j :: l => (forall i, In (EInit i) l -> In (EFini i) l) /\ serial l
  | _ :: l => serial l
  end.

Record OK (o : owner) (s : state) : Prop := mkOK {
  v_q : forall i q, nth_error (s_qs s) i = Some q -> qok o s i q;
  v_t : forall t, tok o s t;
  v_o : ook o s;
  v_uniq : forall i j q r, nth_error (s_qs s) i = Some q -> nth_error (s_qs s) j = Some r -> q_id q = q_id r -> i = j;
  v_life : 1 <= s_life s <= 65535;
  v_reg : s_atexit s = (if s_reg s then 1 else 0)%nat;
  v_bad : s_bad s = false;
  v_serial : serial (s_tr s);
  v_index : forall i, In (EInit i) (s_tr s) \/ In (EFini i) (s_tr s) -> (i < length (s_qs s))%nat;
  v_eterm : forall t i, In (ETerm t i) (s_tr s) -> named o s i }.

Lemma make_id_ok slot life : 1 <= life <= 65535 -> 0 <= slot < 2048 ->
  65536 <= make_id slot life < 4294967296 /\ 0 <= make_id slot life mod 65536 < 2048.
Proof.
  intros H1 H2. unfold make_id, u32.
  rewrite Z.mod_small by lia. split; [lia|].
  rewrite Z.add_comm, Z_mod_plus_full, Z.mod_small by lia. lia.
Qed.
Lemma next_life_ok l : 1 <= l <= 65535 -> 1 <= next_life l <= 65535.
Proof.
  intros H. unfold next_life, u16. destruct (Z.eqb_spec ((l + 1) mod 65536) 0); [lia|].
  pose proof (Z.mod_pos_bound (l + 1) 65536). lia.
Qed.
Lemma find_some l i id j : find l i id = Some j ->
  exists q, (i <= j)%nat /\ nth_error l (j - i) = Some q /\ installed q = true /\ q_id q = id.
Proof.
  revert i; induction l as [|q l IH]; intros i H; cbn in H; [discriminate|].
  destruct (installed q && (q_id q =? id))%bool eqn:E.
  - injection H as <-. apply andb_true_iff in E as [E1 E2]. exists q. rewrite Nat.sub_diag.
    repeat split; auto; lia.
  - apply IH in H as (r & H1 & H2 & H3 & H4). exists r. repeat split; auto; [lia|].
    replace (j - i)%nat with (S (j - S i))%nat by lia. exact H2.
Qed.
Lemma find_none l i id : find l i id = None -> forall q, In q l -> installed q = true -> q_id q <> id.
Proof.
  revert i; induction l as [|r l IH]; intros i H q Hin Hi; [destruct Hin|]. cbn in H.
  destruct (installed r && (q_id r =? id))%bool eqn:E; try discriminate.
  destruct Hin as [->|Hin].
  - rewrite Hi in E. cbn in E. lia.
  - eauto.
Qed.
Lemma lookup_some s id j : lookup s id = Some j ->
  exists q, nth_error (s_qs s) j = Some q /\ installed q = true /\ q_id q = id.
Proof.
  unfold lookup. destruct (s16 id <? 0); [discriminate|]. intros H.
  apply find_some in H as (q & _ & H & H1 & H2). rewrite Nat.sub_0_r in H. eauto.
Qed.

(** Changes of a thread and of the trace only. *)
Definition same_q (s s' : state) : Prop := s_qs s' = s_qs s.

Lemma named_mono o o' s s' i :
  (forall q, nth_error (s_qs s) i = Some q -> exists q', nth_error (s_qs s') i = Some q' /\ q_main q' = q_main q /\ q_failed q' = q_failed q) ->
  (starting o' i -> starting o i) -> named o s i -> named o' s' i.
Proof.
  intros H1 H2 (q & H3 & H4 & H5 & H6). destruct (H1 _ H3) as (q' & H7 & H8 & H9).
  exists q'. rewrite H8, H9. tauto.
Qed.

Ltac thr t := let x := fresh "x" in intros x; cbn; destruct (Nat.eqb_spec x t); [subst x|].
Ltac proj := cbn [s_main s_life s_reg s_atexit s_qs s_th s_bad s_tr setM setT setQs setLife setReg setBad emit setQ ph fail term allow hold unhold
  q_id q_main q_ph q_failed q_term q_allowed q_users add_queue new_queue] in *.

(** Thread [t] is in none of the calls on a queue. *)
Definition plain (p : pc) : Prop := match p with Got _ _ => False | _ => True end.

Lemma qok_frame o o' s s' i q :
  qok o s i q ->
  (forall t, s_th s t <> s_th s' t -> plain (s_th s t)) ->
  (In (EInit i) (s_tr s') <-> In (EInit i) (s_tr s)) -> (In (EFini i) (s_tr s') <-> In (EFini i) (s_tr s)) ->
  (q_main q = true -> q_ph q <> QFree -> owns o i -> owns o' i) ->
  (starting o' i -> starting o i) -> (q_failed q = true -> starting o i -> starting o' i \/ q_ph q = QFree) ->
  (q_ph q = QInit -> forall t, o = OInit t i -> exists t', o' = OInit t' i) ->
  qok o' s' i q.
Proof.
  intros [] H1 H2 H3 H4 H5 H5' H6. constructor; auto.
  - intros M. destruct (k_own0 M); auto.
    destruct (q_ph q) eqn:E; auto; right; apply H4; auto; congruence.
  - intros E. destruct (k_init0 E) as [t ->]. eauto.
  - intros M [E|E]; auto.
  - intros F. destruct (k_failed0 F) as (F1 & F2 & [F3|F3]); auto. destruct (H5' F F3); auto.
  - intros t Hin. destruct (k_users0 t Hin) as [k Hk]. exists k.
    specialize (H1 t). rewrite Hk in H1. destruct (s_th s' t) eqn:E; try (exfalso; apply H1; congruence).
    assert (D : {Got k0 q0 = Got k i} + {Got k0 q0 <> Got k i}) by (repeat decide equality).
    destruct D as [D|D]; auto. exfalso; apply H1; congruence.
  - rewrite H2. auto.
  - rewrite H3. auto.
Qed.

Definition oth (o : owner) : option nat := match o with OStart t | OInit t _ | OStore t _ => Some t | _ => None end.
(** The right may pass from [o] to [o']. *)
Record osim (o o' : owner) (i : nat) (q : queue) : Prop := mkOsim {
  m_own : q_main q = true -> q_ph q <> QFree -> owns o i -> owns o' i;
  m_st : starting o' i -> starting o i;
  m_fail : q_failed q = true -> starting o i -> starting o' i \/ q_ph q = QFree;
  m_init : q_ph q = QInit -> forall t, o = OInit t i -> exists t', o' = OInit t' i }.
Lemma osim_refl o i q : osim o o i q.
Proof. constructor; eauto. Qed.

Lemma OK_thread o o' s s' t :
  OK o s -> s_qs s' = s_qs s -> (forall x, x <> t -> s_th s' x = s_th s x) -> plain (s_th s t) ->
  (forall i q, nth_error (s_qs s) i = Some q -> osim o o' i q) ->
  (forall x, x <> t -> oth o = Some x -> o' = o) ->
  tok o' s' t -> ook o' s' -> s_life s' = s_life s -> s_atexit s' = (if s_reg s' then 1 else 0)%nat -> s_bad s' = false ->
  (forall i, In (EInit i) (s_tr s') <-> In (EInit i) (s_tr s)) -> (forall i, In (EFini i) (s_tr s') <-> In (EFini i) (s_tr s)) ->
  (forall x i, In (ETerm x i) (s_tr s') <-> In (ETerm x i) (s_tr s)) -> serial (s_tr s') ->
  OK o' s'.
Proof.
  intros [] Hq Ht Hp Ho Hx T O L R B I F E Sr.
  assert (N : forall i, named o s i -> named o' s' i).
  { intros i Hn. assert (Hn' := Hn). destruct Hn as (q & Hn & _).
    eapply named_mono; [| |exact Hn'].
    - intros r Hr. rewrite Hq. exists r. auto.
    - apply (m_st _ _ _ _ (Ho i q Hn)). }
  constructor; auto; try rewrite Hq; auto.
  - intros i q Hi. assert (Ho' := Ho i q Hi). destruct Ho'. apply qok_frame with (o := o) (s := s); auto.
    intros x Hne. destruct (Nat.eq_dec x t) as [->|n]; auto. rewrite Ht in Hne; auto. congruence.
  - intros x. destruct (Nat.eq_dec x t) as [->|n]; auto.
    specialize (v_t0 x). unfold tok in *. rewrite (Ht x n), Hq.
    destruct (s_th s x) eqn:E'; auto.
    + rewrite (Hx x n); auto. rewrite v_t0. reflexivity.
    + rewrite (Hx x n); auto. rewrite v_t0. reflexivity.
    + rewrite (Hx x n); auto. rewrite v_t0. reflexivity.
    + destruct v_t0 as [|[|(i & q & H1 & H2 & H3)]]; auto. right; right. exists i, q. auto.
    + destruct v_t0. auto.
  - rewrite L. auto.
  - intros i H. rewrite I, F in H. auto.
  - intros x i H. rewrite E in H. eauto.
Qed.

(** The steps that leave the queues alone. *)
Ltac thread o' t := exists o'; eapply OK_thread with (t := t); eauto; proj; auto.
Lemma named_nl o s i : named o s i -> exists q, nth_error (s_qs s) i = Some q.
Proof. intros (q & H & _). eauto. Qed.

Lemma OK_queue o o' s s' i q q' t :
  OK o s -> nth_error (s_qs s) i = Some q -> s_qs s' = upd (s_qs s) i q' ->
  q_id q' = q_id q -> q_main q' = q_main q -> (q_failed q' = q_failed q \/ starting o i) ->
  (forall x, x <> t -> s_th s' x = s_th s x) ->
  (forall j k, j <> i -> s_th s t = Got k j -> s_th s' t = Got k j) ->
  (forall x, x <> t -> In x (q_users q) -> In x (q_users q')) ->
  (forall j r, j <> i -> nth_error (s_qs s) j = Some r -> osim o o' j r) -> (starting o' i -> starting o i) ->
  (forall x, x <> t -> oth o = Some x -> o' = o) ->
  qok o' s' i q' -> ((named o s i -> named o' s' i) -> tok o' s' t) -> ook o' s' ->
  s_life s' = s_life s -> s_atexit s' = s_atexit s -> s_reg s' = s_reg s -> s_bad s' = false ->
  (forall j, In (EInit j) (s_tr s') <-> In (EInit j) (s_tr s)) ->
  (forall j, j <> i -> In (EFini j) (s_tr s') <-> In (EFini j) (s_tr s)) ->
  (forall x j, In (ETerm x j) (s_tr s') -> In (ETerm x j) (s_tr s) \/ named o s j) -> serial (s_tr s') ->
  OK o' s'.
Proof.
  intros [] Hi Hq Eid Em Ef Ht Hg Hu Ho Hst Hx Q T O L A R B I F E Sr.
  assert (N : forall j, named o s j -> named o' s' j).
  { intros j Hn. assert (Hn' := Hn). destruct Hn as (r & Hn & M & Fl & St).
    destruct (Nat.eq_dec j i) as [->|n].
    - exists q'. rewrite Hq, upd_nth, Nat.eqb_refl, Hi. repeat split; try congruence; auto.
      destruct Ef as [->|]; [congruence|]. contradiction.
    - eapply named_mono; [| |exact Hn'].
      + intros r' Hr'. rewrite Hq, upd_nth, (proj2 (Nat.eqb_neq j i) n), Hr'. eauto.
      + apply (m_st _ _ _ _ (Ho j r n Hn)). }
  assert (NT : forall j r, nth_error (s_qs s) j = Some r -> exists r', nth_error (s_qs s') j = Some r' /\ q_id r' = q_id r /\
      (forall x, x <> t -> In x (q_users r) -> In x (q_users r'))).
  { intros j r Hj. rewrite Hq, upd_nth. destruct (Nat.eqb_spec j i) as [->|n]; [|eauto].
    rewrite Hi. assert (r = q) by congruence. subst r. exists q'. auto. }
  constructor; auto.
  - intros j r. rewrite Hq, upd_nth. destruct (Nat.eqb_spec j i) as [->|n].
    + rewrite Hi. intros H. assert (q' = r) by congruence. subst. exact Q.
    + intros Hj. assert (Ho' := Ho j r n Hj). destruct Ho'. assert (Vj := v_q0 j r Hj).
      constructor; try (destruct Vj; auto; fail).
      * intros M. destruct (k_own _ _ _ _ Vj M); auto. destruct (q_ph r) eqn:Ep; auto; right; apply m_own0; auto; congruence.
      * intros Ep. destruct (k_init _ _ _ _ Vj Ep) as [x ->]. eauto.
      * intros M [Ep|Ep]; apply (k_term _ _ _ _ Vj M); auto.
      * intros Fl. destruct (k_failed _ _ _ _ Vj Fl) as (F1 & F2 & [F3|F3]); auto.
        destruct (m_fail0 Fl F3); auto.
      * intros x Hin. destruct (k_users _ _ _ _ Vj x Hin) as [k Hk]. exists k.
        destruct (Nat.eq_dec x t) as [->|nx]; [apply Hg; auto|]. rewrite Ht; auto.
      * rewrite I. apply Vj.
      * rewrite (F j n). apply Vj.
  - intros x. destruct (Nat.eq_dec x t) as [->|n]; [apply T; auto|].
    specialize (v_t0 x). unfold tok in *. rewrite (Ht x n).
    destruct (s_th s x) eqn:E'; auto.
    + rewrite (Hx x n); auto. rewrite v_t0. reflexivity.
    + rewrite (Hx x n); auto. rewrite v_t0. reflexivity.
    + rewrite (Hx x n); auto. rewrite v_t0. reflexivity.
    + destruct v_t0 as [|[|(j & r & H1 & H2 & H3)]]; auto. right; right.
      destruct (NT j r H1) as (r' & H4 & H5 & _). exists j, r'. split; auto. split; [congruence|auto].
    + destruct v_t0 as [H1 (r & H2 & H3)]. split; auto.
      destruct (NT _ r H2) as (r' & H4 & _ & H5). exists r'. auto.
  - intros j1 j2 r1 r2. rewrite Hq, !upd_nth.
    destruct (Nat.eqb_spec j1 i) as [->|n1]; destruct (Nat.eqb_spec j2 i) as [->|n2]; auto; rewrite ?Hi; intros H1 H2.
    + assert (q' = r1) by congruence. subst. rewrite Eid. eauto.
    + assert (q' = r2) by congruence. subst. rewrite Eid. eauto.
    + eauto.
  - rewrite L. auto.
  - rewrite A, R. auto.
  - intros j H. rewrite Hq, upd_len. rewrite I in H. destruct (Nat.eq_dec j i) as [->|n].
    + apply nth_error_Some. congruence.
    + rewrite (F j n) in H. auto.
  - intros x j H. destruct (E x j H); eauto.
Qed.

Lemma OK_new o s slot : OK o s -> fresh s slot -> forall main p tr,
  let s1 := add_queue s slot main p in
  let s' := mkSt (s_main s1) (s_life s1) (s_reg s1) (s_atexit s1) (s_qs s1) (s_th s1) (s_bad s1) tr in
  forall o',
  (main = false -> p = QRun /\ o' = o /\ tr = s_tr s) ->
  (main = true -> exists t, o = OStart t /\ o' = OInit t (length (s_qs s)) /\ p = QInit /\ tr = EInit (length (s_qs s)) :: s_tr s) ->
  (forall i q, nth_error (s_qs s1) i = Some q -> qok o' s' i q) /\
  (forall i j q r, nth_error (s_qs s1) i = Some q -> nth_error (s_qs s1) j = Some r -> q_id q = q_id r -> i = j) /\
  (forall i, In (EInit i) tr \/ In (EFini i) tr -> (i < length (s_qs s1))%nat) /\
  (forall i, named o s i -> named o' s' i) /\ serial tr.
Proof.
  intros [] [Hs Hf] main p tr s1 s' o' Hn Hm.
  assert (NI : ~ In (EInit (length (s_qs s))) (s_tr s) /\ ~ In (EFini (length (s_qs s))) (s_tr s)).
  { split; intros H; specialize (v_index0 (length (s_qs s))); assert (length (s_qs s) < length (s_qs s))%nat by auto; lia. }
  destruct (make_id_ok slot (s_life s) v_life0 Hs) as [Id1 Id2].
  assert (EI : forall i, i <> length (s_qs s) -> In (EInit i) tr <-> In (EInit i) (s_tr s)).
  { intros i ni. destruct main; [destruct (Hm eq_refl) as (t & _ & _ & _ & ->)|destruct (Hn eq_refl) as (_ & _ & ->); tauto].
    cbn. split; auto. intros [H|]; auto. congruence. }
  assert (EF : forall i, In (EFini i) tr <-> In (EFini i) (s_tr s)).
  { intros i. destruct main; [destruct (Hm eq_refl) as (t & _ & _ & _ & ->)|destruct (Hn eq_refl) as (_ & _ & ->); tauto].
    cbn. split; auto. intros [H|]; auto. congruence. }
  assert (OS : forall i q, nth_error (s_qs s) i = Some q -> osim o o' i q).
  { intros i q Hi. apply nth_len in Hi as Hi'. destruct main; [destruct (Hm eq_refl) as (t & -> & -> & _)|destruct (Hn eq_refl) as (_ & -> & _); apply osim_refl].
    constructor; cbn; intros; try contradiction; try discriminate; lia. }
  repeat match goal with |- _ /\ _ => split end.
  - intros i q. unfold s1, add_queue; proj. rewrite nth_app. destruct (Nat.eqb_spec i (length (s_qs s))) as [->|n]; intros Hi.
    + assert (q = new_queue s slot main p) by congruence. subst q. constructor; unfold new_queue, s'; cbn [s_main s_life s_reg s_atexit s_qs s_th s_bad s_tr
  q_id q_main q_ph q_failed q_term q_allowed q_users]; auto.
      * intros ->. reflexivity.
      * intros ->. destruct (Hn eq_refl) as (-> & _). split; [discriminate|reflexivity].
      * intros ->. destruct (Hm eq_refl) as (t & _ & -> & _). right. reflexivity.
      * intros ->. destruct main; [destruct (Hm eq_refl) as (t & _ & -> & _)|destruct (Hn eq_refl) as (? & _); discriminate]. eauto.
      * discriminate.
      * intros t [].
      * intros H; contradiction.
      * destruct main; [destruct (Hm eq_refl) as (t & _ & _ & _ & ->)|destruct (Hn eq_refl) as (_ & _ & ->)]; cbn; [tauto|split; [discriminate|tauto]].
      * rewrite EF. split; [|tauto]. destruct main; [destruct (Hm eq_refl) as (t & _ & _ & -> & _)|destruct (Hn eq_refl) as (-> & _ & _)]; cbn; tauto.
    + destruct (OS i q Hi). apply qok_frame with (o := o) (s := s); auto.
      * intros t H. unfold s', s1 in H. cbn in H. congruence.
  - intros i j q r. unfold s1, add_queue; proj. rewrite !nth_app.
    destruct (Nat.eqb_spec i (length (s_qs s))) as [->|n1]; destruct (Nat.eqb_spec j (length (s_qs s))) as [->|n2]; auto; intros H1 H2 E.
    + exfalso. assert (q = new_queue s slot main p) by congruence. subst q. apply nth_error_In in H2. apply (Hf r H2). symmetry. exact E.
    + exfalso. assert (r = new_queue s slot main p) by congruence. subst r. apply nth_error_In in H1. apply (Hf q H1). exact E.
    + eauto.
  - intros i H. unfold s1, add_queue; proj. rewrite app_length. cbn [length].
    destruct (Nat.eq_dec i (length (s_qs s))); [lia|]. rewrite EI, EF in H; auto. apply v_index0 in H. lia.
  - intros i Hn'. assert (Hn2 := Hn'). destruct Hn' as (q & Hi & _). eapply named_mono; [| |exact Hn2].
    + intros r Hr. unfold s', s1, add_queue; proj. rewrite nth_app. apply nth_len in Hr as Hl.
      destruct (Nat.eqb_spec i (length (s_qs s))); [lia|]. eauto.
    + apply (OS i q Hi).
  - destruct main; [destruct (Hm eq_refl) as (t & -> & -> & -> & ->)|destruct (Hn eq_refl) as (-> & -> & ->); auto].
    cbn. split; auto. intros i Hi. assert (Hl := v_index0 i (or_introl Hi)). apply nth_error_Some in Hl.
    destruct (nth_error (s_qs s) i) as [q|] eqn:Ei; [|congruence].
    destruct (v_q0 i q Ei). apply k_einit0 in Hi. destruct (k_own0 Hi) as [E|[]]. apply k_efini0. rewrite E. exact I.
Qed.

Lemma starting_owns o i : starting o i -> owns o i.
Proof. destruct o; cbn; tauto. Qed.
Ltac mem := let M := fresh "M" in intros; cbn [In]; (tauto || (split; [intros [M|M]; [discriminate M|exact M]|auto])).
Ltac neq := let x := fresh "x" in let n := fresh "n" in intros x n; cbn; rewrite (proj2 (Nat.eqb_neq _ _) n); reflexivity.

Definition nstart (p : pc) : Prop := match p with Creating0 | Creating _ | Store _ => False | _ => True end.
Lemma ook_th o s s' t :
  ook o s -> s_main s' = s_main s -> (forall x, x <> t -> s_th s' x = s_th s x) -> nstart (s_th s t) ->
  (forall j r, nth_error (s_qs s) j = Some r -> exists r', nth_error (s_qs s') j = Some r' /\ q_id r' = q_id r /\ q_main r' = q_main r /\
     q_failed r' = q_failed r /\ q_ph r' = q_ph r) ->
  ook o s'.
Proof.
  intros O M T N Q. assert (X : forall x p, s_th s x = p -> ~ nstart p -> s_th s' x = p).
  { intros x p E Np. rewrite T; auto. intros ->. congruence. }
  destruct o; unfold ook in *; rewrite ?M; auto.
  - destruct O as [O1 O2]. split; auto.
  - destruct O as (O1 & O2 & r & O3 & O4 & O5). split; auto. split; [apply X; auto|].
    destruct (Q _ _ O3) as (r' & Q1 & Q2 & Q3 & Q4 & Q5). exists r'. rewrite Q3, Q4, Q5. auto.
  - destruct O as (O1 & O2 & r & O3 & O4 & O5 & O6). split; auto. split; [apply X; auto|].
    destruct (Q _ _ O3) as (r' & Q1 & Q2 & Q3 & Q4 & Q5). exists r'. rewrite Q3, Q4, Q5. auto.
  - destruct O as (r & O3 & O4 & O5 & O6 & O7).
    destruct (Q _ _ O3) as (r' & Q1 & Q2 & Q3 & Q4 & Q5). exists r'. rewrite Q2, Q3, Q4, Q5. auto.
Qed.

Lemma OK_use o s s' t i q q' :
  OK o s -> nth_error (s_qs s) i = Some q -> s_qs s' = upd (s_qs s) i q' ->
  q_id q' = q_id q -> q_main q' = q_main q -> q_ph q' = q_ph q -> q_failed q' = q_failed q -> q_allowed q' = q_allowed q ->
  named o s i -> (forall x, x <> t -> s_th s' x = s_th s x) -> nstart (s_th s t) ->
  (forall j k, s_th s t = Got k j -> j = i) ->
  (forall x, x <> t -> In x (q_users q') <-> In x (q_users q)) -> (In t (q_users q') -> exists k, s_th s' t = Got k i) ->
  (q_users q' <> [] -> q_ph q = QRun \/ q_ph q = QDying) ->
  ((named o s i -> named o s' i) -> tok o s' t) ->
  s_main s' = s_main s -> s_life s' = s_life s -> s_atexit s' = s_atexit s -> s_reg s' = s_reg s -> s_bad s' = s_bad s ->
  (forall j, In (EInit j) (s_tr s') <-> In (EInit j) (s_tr s)) ->
  (forall j, In (EFini j) (s_tr s') <-> In (EFini j) (s_tr s)) ->
  (forall x j, In (ETerm x j) (s_tr s') -> In (ETerm x j) (s_tr s) \/ named o s j) -> serial (s_tr s') ->
  OK o s'.
Proof.
  intros V Hi Hq E1 E2 E3 E4 E5 N T Ns G U1 U2 U3 K M L A R B I F E Sr.
  assert (Q := v_q _ _ V i q Hi). destruct N as (q0 & N1 & N2 & N3 & N4) eqn:EN. clear EN.
  assert (q0 = q) by congruence. subst q0.
  eapply OK_queue with (o := o) (t := t) (i := i) (q := q) (q' := q'); eauto; auto.
  - intros j k n Hg. exfalso. eauto.
  - intros x n Hx. apply U1; auto.
  - intros. apply osim_refl.
  - destruct Q. constructor; rewrite ?E1, ?E2, ?E3, ?E4, ?E5; auto.
    + intros _ [P|P]; [|contradiction]. destruct (k_init0 P) as [x ->]. exfalso. apply N4. reflexivity.
    + intros x Hx. destruct (Nat.eq_dec x t) as [->|n]; auto. apply U1 in Hx; auto.
      destruct (k_users0 x Hx) as [k Hk]. exists k. rewrite T; auto.
    + rewrite I. auto.
    + rewrite F. auto.
  - eapply ook_th with (s := s) (t := t); eauto. { apply V. }
    intros j r Hj. rewrite Hq, upd_nth. destruct (Nat.eqb_spec j i) as [->|n]; [|eauto 10].
    rewrite Hi. assert (r = q) by congruence. subst r. exists q'. auto 10.
  - rewrite B. apply V.
Qed.

(** A step of queue [i] itself. *)
Lemma OK_self o o' s i q q' main tr :
  OK o s -> nth_error (s_qs s) i = Some q ->
  q_id q' = q_id q -> q_main q' = q_main q -> q_failed q' = q_failed q -> q_allowed q' = q_allowed q -> q_users q' = q_users q ->
  let s' := mkSt main (s_life s) (s_reg s) (s_atexit s) (upd (s_qs s) i q') (s_th s) (s_bad s) tr in
  (forall j r, j <> i -> nth_error (s_qs s) j = Some r -> osim o o' j r) ->
  (forall x, oth o = Some x -> o' = o) -> (starting o' i -> starting o i) ->
  qok o' s' i q' -> ook o' s' ->
  (tr = s_tr s \/ tr = EFini i :: s_tr s) ->
  OK o' s'.
Proof.
  intros V Hi E1 E2 E3 E4 E5 s' Os Ox St Q O Tr.
  set (t := S (list_max (q_users q))).
  eapply OK_queue with (o := o) (i := i) (q := q) (q' := q') (t := t); eauto; unfold s'; proj; auto.
  - rewrite E5. auto.
  - intros N. assert (T := v_t _ _ V t). 
    assert (N' : forall j, named o s j -> named o' s' j).
    { intros j Hj. assert (Hj' := Hj). destruct Hj' as (r & Hj' & _). destruct (Nat.eq_dec j i) as [->|n]; [apply N; auto|].
      eapply named_mono; [| |exact Hj].
      - intros r' Hr'. unfold s'. proj. rewrite upd_nth, (proj2 (Nat.eqb_neq j i) n). eauto.
      - apply (m_st _ _ _ _ (Os j r n Hj')). }
    assert (NT : forall j r, nth_error (s_qs s) j = Some r -> exists r', nth_error (s_qs s') j = Some r' /\ q_id r' = q_id r /\ q_users r' = q_users r).
    { intros j r Hj. unfold s'; proj. rewrite upd_nth. destruct (Nat.eqb_spec j i) as [->|n]; [|eauto].
      rewrite Hi. assert (r = q) by congruence. subst r. exists q'. auto. }
    unfold tok in *. fold s'. assert (ET : s_th s' t = s_th s t) by reflexivity. rewrite ET. destruct (s_th s t) eqn:E; auto.
    + rewrite (Ox t) by (rewrite T; reflexivity). exact T.
    + rewrite (Ox t) by (rewrite T; reflexivity). exact T.
    + rewrite (Ox t) by (rewrite T; reflexivity). exact T.
    + destruct T as [|[|(j & r & H1 & H2 & H3)]]; auto. right; right.
      destruct (NT j r H1) as (r' & H4 & H5 & _). exists j, r'. split; auto. split; [congruence|auto].
    + destruct T as [H1 (r & H2 & H3)]. split; auto. destruct (NT _ r H2) as (r' & H4 & _ & H5). exists r'. rewrite H5. auto.
  - apply V.
  - destruct Tr as [-> | ->]; mem.
  - intros j n. destruct Tr as [-> | ->]; [tauto|]. cbn. split; auto. intros [D|]; auto. congruence.
  - intros x j. destruct Tr as [-> | ->]; auto. cbn. intros [D|]; auto. congruence.
  - destruct Tr as [-> | ->]; cbn; apply V.
Qed.

Lemma ook_self o s i q q' tr :
  nth_error (s_qs s) i = Some q -> ook o s -> q_id q' = q_id q -> q_main q' = q_main q -> q_failed q' = q_failed q -> q_ph q' <> QFree ->
  (q_main q = true -> starting o i -> q_failed q = false -> False) ->
  ook o (mkSt (s_main s) (s_life s) (s_reg s) (s_atexit s) (upd (s_qs s) i q') (s_th s) (s_bad s) tr).
Proof.
  intros Hi O E1 E2 E3 P N. destruct o; unfold ook in *; proj; auto.
  - destruct O as (O1 & O2 & r & O3 & O4 & O5). repeat split; auto. rewrite upd_nth. destruct (Nat.eqb_spec i0 i) as [->|n]; [|eauto].
    rewrite Hi. assert (r = q) by congruence. subst r. exists q'. repeat split; auto; try congruence.
    intros F. exfalso. rewrite E3 in F. apply N; auto. reflexivity.
  - destruct O as (O1 & O2 & r & O3 & O4 & O5 & O6). repeat split; auto. rewrite upd_nth. destruct (Nat.eqb_spec i0 i) as [->|n]; [|eauto].
    assert (r = q) by congruence. subst r. exfalso. apply N; auto. reflexivity.
  - destruct O as (r & O3 & O4 & O5 & O6 & O7). rewrite upd_nth. destruct (Nat.eqb_spec i0 i) as [->|n]; [|eauto 10].
    rewrite Hi. assert (r = q) by congruence. subst r. exists q'. repeat split; auto; congruence.
Qed.
Lemma ook_other o s i q q' tr :
  nth_error (s_qs s) i = Some q -> ook o s -> q_main q <> true ->
  ook o (mkSt (s_main s) (s_life s) (s_reg s) (s_atexit s) (upd (s_qs s) i q') (s_th s) (s_bad s) tr).
Proof.
  intros Hi O M. assert (K : forall j r, nth_error (s_qs s) j = Some r -> q_main r = true -> nth_error (upd (s_qs s) i q') j = Some r).
  { intros j r Hj Mr. rewrite upd_nth. destruct (Nat.eqb_spec j i) as [->|n]; auto. exfalso. apply M. congruence. }
  destruct o; unfold ook in *; proj; auto.
  - destruct O as (O1 & O2 & r & O3 & O4 & O5). eauto 10.
  - destruct O as (O1 & O2 & r & O3 & O4 & O5 & O6). eauto 10.
  - destruct O as (r & O3 & O4 & O5 & O6 & O7). eauto 10.
Qed.

Lemma OK_step o s s' : OK o s -> step false s s' -> exists o', OK o' s'.
Proof.
  intros V H. assert (V' := V). destruct V'. destruct H.
  - (* cas_win *)
    assert (Eo : o = ONone).
    { specialize (v_o0). unfold ook in v_o0. destruct o; auto; exfalso; unfold INVALID in *; try (destruct v_o0; lia); try lia.
      destruct v_o0 as (q & Hq & _ & _ & _ & Eq). destruct (k_id _ _ _ _ (v_q0 _ _ Hq)). lia. }
    subst o. exists (OStart t). eapply OK_thread with (t := t) (o := ONone); eauto; proj; auto; try neq; try mem.
    + rewrite H. exact I.
    + intros i q Hi. constructor; cbn; intros; try contradiction; discriminate.
    + discriminate.
    + unfold tok. cbn. rewrite Nat.eqb_refl. reflexivity.
    + unfold ook. cbn. rewrite Nat.eqb_refl. auto.
  - (* cas_lose *)
    exists o. eapply OK_thread with (t := t) (o := o); eauto; proj; auto; try mem; try (intros; apply osim_refl).
    + rewrite H. exact I.
  - (* create_fail *)
    assert (Eo : o = OStart t) by (specialize (v_t0 t); unfold tok in v_t0; now rewrite H in v_t0). subst o.
    exists ODead. eapply OK_thread with (t := t) (o := OStart t); eauto; proj; auto; try neq; try mem.
    + rewrite H. exact I.
    + intros i q Hi. constructor; cbn; intros; try contradiction; discriminate.
    + cbn. congruence.
    + unfold tok. cbn. rewrite Nat.eqb_refl. exact I.
    + cbn in *. tauto.
  - (* create_q *)
    assert (Eo : o = OStart t) by (specialize (v_t0 t); unfold tok in v_t0; now rewrite H in v_t0). subst o.
    destruct (OK_new _ s slot V H0 true QInit (EInit (length (s_qs s)) :: s_tr s) (OInit t (length (s_qs s)))) as (N1 & N2 & N3 & N4 & N5).
    { discriminate. }
    { intros _. exists t. auto. }
    exists (OInit t (length (s_qs s))). constructor; auto.
    + intros i q Hi. specialize (N1 i q Hi). assert (Q := N1). destruct N1; constructor; auto.
      cbn. intros x Hx. destruct (k_users0 x Hx) as [k Hk]. cbn in Hk. exists k.
      destruct (Nat.eqb_spec x t) as [->|]; [congruence|exact Hk].
    + intros x. unfold tok. cbn [s_th emit setT]. destruct (Nat.eqb_spec x t) as [->|n]; [reflexivity|].
      specialize (v_t0 x). unfold tok in v_t0. unfold add_queue; cbn [s_th setLife setQs].
      destruct (s_th s x) eqn:E; auto; try congruence.
      * destruct v_t0 as [|[|(i & q & H1 & H2 & H3)]]; auto. right; right. exists i, q. split; [|split; [auto|apply N4; auto]].
        proj. rewrite nth_app. apply nth_len in H1 as Hl. destruct (Nat.eqb_spec i (length (s_qs s))); [lia|auto].
      * destruct v_t0 as [H1 (r & H2 & H3)]. split; [apply N4; auto|]. exists r. split; auto.
        proj. rewrite nth_app. apply nth_len in H2 as Hl. destruct (Nat.eqb_spec q (length (s_qs s))); [lia|auto].
      * apply N4; auto.
    + unfold ook. cbn. rewrite Nat.eqb_refl. split; [apply v_o0|]. split; [reflexivity|].
      eexists. rewrite nth_app, Nat.eqb_refl. split; [reflexivity|]. cbn. auto.
    + cbn. apply next_life_ok. auto.
    + intros x i. cbn. intros [D|D]; [discriminate|]. apply N4. eauto.
  - (* init_ok *)
    assert (Eo : o = OInit t i) by (specialize (v_t0 t); unfold tok in v_t0; now rewrite H in v_t0). subst o.
    assert (Q := v_q0 i q H0). assert (U : q_users q = []).
    { destruct (q_users q) eqn:E; auto. exfalso. destruct (k_dead _ _ _ _ Q); congruence. }
    destruct v_o0 as (O1 & O2 & r & O3 & O4 & O5). assert (r = q) by congruence. subst r.
    exists (OStore t i). eapply OK_queue with (t := t) (o := OInit t i) (i := i) (q := q) (q' := ph q QRun); eauto; proj; auto; try neq; try mem.
    + rewrite H. discriminate.
    + intros j r n Hj. constructor; cbn; intros; auto; try congruence.
    + cbn. congruence.
    + destruct Q. constructor; proj; auto.
      * intros M. congruence.
      * intros M. right. reflexivity.
      * discriminate.
      * intros F. destruct (k_failed0 F). congruence.
      * rewrite U. intros x [].
      * rewrite <- k_efini0, H1. cbn. tauto.
    + intros _. unfold tok. cbn. rewrite Nat.eqb_refl. reflexivity.
    + unfold ook. cbn. rewrite Nat.eqb_refl, upd_nth, Nat.eqb_refl, H0. repeat split; auto.
      exists (ph q QRun). cbn. repeat split; auto. destruct (q_failed q) eqn:E; auto.
      destruct (k_failed _ _ _ _ Q E). congruence.
  - (* init_fail *)
    assert (Eo : o = OInit t i) by (specialize (v_t0 t); unfold tok in v_t0; now rewrite H in v_t0). subst o.
    assert (Q := v_q0 i q H0). assert (U : q_users q = []).
    { destruct (q_users q) eqn:E; auto. exfalso. destruct (k_dead _ _ _ _ Q); congruence. }
    destruct v_o0 as (O1 & O2 & r & O3 & O4 & O5). assert (r = q) by congruence. subst r.
    exists (OInit t i). eapply OK_queue with (t := t) (o := OInit t i) (i := i) (q := q) (q' := fail q); eauto; proj; auto; try mem; try (intros; apply osim_refl).
    + right. reflexivity.
    + destruct Q. constructor; proj; auto; try congruence; try discriminate.
      * intros M. right. reflexivity.
      * intros _. repeat split; try discriminate. right. reflexivity.
      * rewrite <- k_efini0, H1. cbn. tauto.
    + intros _. specialize (v_t0 t). unfold tok in *. cbn. rewrite H. reflexivity.
    + unfold ook. cbn. rewrite upd_nth, Nat.eqb_refl, H0. repeat split; auto.
      exists (fail q). cbn. repeat split; auto. discriminate.
  - (* fail_ret *)
    assert (Eo : o = OInit t i) by (specialize (v_t0 t); unfold tok in v_t0; now rewrite H in v_t0). subst o.
    destruct v_o0 as (O1 & O2 & r & O3 & O4 & O5). assert (r = q) by congruence. subst r.
    exists ODead. eapply OK_thread with (t := t) (o := OInit t i); eauto; proj; auto; try neq; try mem.
    + rewrite H. exact I.
    + intros j r Hj. constructor; cbn; intros; try contradiction; subst; try congruence.
      all: assert (r = q) by congruence; subst; (congruence || auto).
    + cbn. congruence.
    + unfold tok. cbn. rewrite Nat.eqb_refl. exact I.
  - (* store *)
    assert (Eo : o = OStore t i) by (specialize (v_t0 t); unfold tok in v_t0; now rewrite H in v_t0). subst o.
    destruct v_o0 as (O1 & O2 & r & O3 & O4 & O5 & O6). assert (r = q) by congruence. subst r. rewrite O6.
    exists (OQ i). eapply OK_thread with (t := t) (o := OStore t i); eauto; proj; auto; try neq; try mem.
    + rewrite H. exact I.
    + intros j r Hj. constructor; cbn; intros; try contradiction; subst; try congruence.
      all: assert (r = q) by congruence; subst; (congruence || auto).
    + cbn. congruence.
    + unfold tok. cbn. rewrite Nat.eqb_refl. exact I.
    + exists q. repeat split; auto. congruence.
    + rewrite v_bad0. reflexivity.
  - (* register *)
    exists o. destruct (s_reg s) eqn:Er; (eapply OK_thread with (t := t) (o := o); eauto; proj; auto; try neq; try mem; try (intros; apply osim_refl)).
    + rewrite H. exact I.
    + unfold tok. cbn. rewrite Nat.eqb_refl. exact I.
    + destruct o; cbn in *; auto; destruct (Nat.eqb_spec t0 t); subst; auto; exfalso; destruct v_o0 as (_ & D); try destruct D as (D & _); congruence.
    + rewrite v_reg0, Er. reflexivity.
    + rewrite H. exact I.
    + unfold tok. cbn. rewrite Nat.eqb_refl. exact I.
    + eapply ook_th with (s := s) (t := t); eauto; proj; auto; [neq|rewrite H; exact I|eauto 10].
  - (* mpq_main *)
    exists o. eapply OK_thread with (t := t) (o := o); eauto; proj; auto; try mem; try (intros; apply osim_refl).
    rewrite H. exact I.
  - (* read *)
    exists o. eapply OK_thread with (t := t) (o := o); eauto; proj; auto; try neq; try mem; try (intros; apply osim_refl).
    + rewrite H. exact I.
    + unfold tok. cbn. rewrite Nat.eqb_refl. destruct o; cbn in v_o0; try (left; tauto); try (right; left; tauto).
      destruct v_o0 as (q & O1 & O2 & O3 & O4 & O5). right; right. exists i, q. repeat split; auto.
      exists q. cbn. auto.
    + eapply ook_th with (s := s) (t := t); eauto; proj; auto; [neq|rewrite H; exact I|eauto 10].
  - (* none *)
    exists o. eapply OK_thread with (t := t) (o := o); eauto; proj; auto; try neq; try mem; try (intros; apply osim_refl).
    + rewrite H. exact I.
    + unfold tok. cbn. rewrite Nat.eqb_refl. exact I.
    + eapply ook_th with (s := s) (t := t); eauto; proj; auto; [neq|rewrite H; exact I|eauto 10].
  - (* get *)
    apply lookup_some in H0 as (r & L1 & L2 & L3). assert (r = q) by congruence. subst r.
    assert (N : named o s i).
    { specialize (v_t0 t). unfold tok in v_t0. rewrite H in v_t0. destruct (k_id _ _ _ _ (v_q0 i q H1)) as [D _].
      destruct v_t0 as [|[|(j & r & H2 & H3 & H4)]]; try (unfold INVALID in *; lia).
      assert (j = i) by (apply (v_uniq0 j i r q); congruence). subst j. exact H4. }
    assert (P : q_ph q = QRun).
    { unfold installed in L2. destruct (q_ph q) eqn:E; try discriminate; auto.
      destruct (k_init _ _ _ _ (v_q0 i q H1) E) as [x ->]. destruct N as (r & _ & _ & _ & N). exfalso. apply N. reflexivity. }
    exists o. eapply OK_use with (t := t) (i := i) (q := q) (q' := hold t q); eauto; proj; auto; try neq; try mem.
    + rewrite H. exact I.
    + rewrite H. discriminate.
    + intros x n. cbn. split; auto. intros [<-|]; auto. congruence.
    + intros _. exists k. rewrite Nat.eqb_refl. reflexivity.
    + intros HN. unfold tok. cbn. rewrite Nat.eqb_refl. split; [exact (HN N)|].
      rewrite upd_nth, Nat.eqb_refl, H1. exists (hold t q). cbn. auto.
  - (* busy *)
    assert (T := v_t0 t). unfold tok in T. rewrite H in T. destruct T as [N (r & T1 & T2)]. assert (r = q) by congruence. subst r.
    exists o. eapply OK_use with (t := t) (i := i) (q := q) (q' := unhold t q); eauto; proj; auto; try neq; try mem.
    + rewrite H. exact I.
    + intros j k' E. congruence.
    + intros x n. cbn. split; [apply in_remove|intros; apply in_in_remove; auto].
    + intros D. apply in_remove in D as [_ D]. congruence.
    + intros _. apply (k_dead _ _ _ _ (v_q0 i q H1)). intros E. rewrite E in T2. destruct T2.
    + intros _. unfold tok. cbn. rewrite Nat.eqb_refl. exact I.
    + intros x j [D|D]; [discriminate|auto].
  - (* exit *)
    assert (T := v_t0 t). unfold tok in T. rewrite H in T. destruct T as [N (r & T1 & T2)]. assert (r = q) by congruence. subst r.
    exists o. eapply OK_use with (t := t) (i := i) (q := q) (q' := unhold t (term q)); eauto; proj; auto; try neq.
    + rewrite H. exact I.
    + intros j k' E. congruence.
    + intros x n. cbn. split; [apply in_remove|intros; apply in_in_remove; auto].
    + intros D. apply in_remove in D as [_ D]. congruence.
    + intros _. apply (k_dead _ _ _ _ (v_q0 i q H0)). intros E. rewrite E in T2. destruct T2.
    + intros _. unfold tok. cbn. rewrite Nat.eqb_refl. exact I.
    + intros j. cbn [In]. split; [intros [D|[D|D]]; [discriminate|discriminate|exact D]|auto].
    + intros j. cbn [In]. split; [intros [D|[D|D]]; [discriminate|discriminate|exact D]|auto].
    + intros x j [D|[D|D]]; [discriminate| |auto]. right. congruence.
  - (* exit_wait *)
    assert (T := v_t0 t). unfold tok in T. rewrite H in T. destruct T as [N (r & T1 & T2)]. assert (r = q) by congruence. subst r.
    exists o. eapply OK_use with (t := t) (i := i) (q := q) (q' := unhold t (term q)); eauto; proj; auto; try neq; try mem.
    + rewrite H. exact I.
    + intros j k' E. congruence.
    + intros x n. cbn. split; [apply in_remove|intros; apply in_in_remove; auto].
    + intros D. apply in_remove in D as [_ D]. congruence.
    + intros _. apply (k_dead _ _ _ _ (v_q0 i q H0)). intros E. rewrite E in T2. destruct T2.
    + intros HN. unfold tok. cbn. rewrite Nat.eqb_refl. exact (HN N).
    + intros x j [D|D]; [|auto]. right. congruence.
  - (* wait *)
    assert (T := v_t0 t). unfold tok in T. rewrite H in T. destruct T as [N (r & T1 & T2)]. assert (r = q) by congruence. subst r.
    exists o. eapply OK_use with (t := t) (i := i) (q := q) (q' := unhold t q); eauto; proj; auto; try neq; try mem.
    + rewrite H. exact I.
    + intros j k' E. congruence.
    + intros x n. cbn. split; [apply in_remove|intros; apply in_in_remove; auto].
    + intros D. apply in_remove in D as [_ D]. congruence.
    + intros _. apply (k_dead _ _ _ _ (v_q0 i q H0)). intros E. rewrite E in T2. destruct T2.
    + intros HN. unfold tok. cbn. rewrite Nat.eqb_refl. exact (HN N).
  - (* waited *)
    exists o. eapply OK_thread with (t := t) (o := o); eauto; proj; auto; try neq; try mem; try (intros; apply osim_refl).
    + rewrite H. exact I.
    + unfold tok. cbn. rewrite Nat.eqb_refl. exact I.
    + eapply ook_th with (s := s) (t := t); eauto; proj; auto; [neq|rewrite H; exact I|eauto 10].
  - (* other *)
    destruct (OK_new _ s slot V H false QRun (s_tr s) o) as (N1 & N2 & N3 & N4 & N5).
    { auto. }
    { discriminate. }
    assert (NL : forall i q, nth_error (s_qs s) i = Some q -> nth_error (s_qs (add_queue s slot false QRun)) i = Some q).
    { intros i q Hi. proj. rewrite nth_app. apply nth_len in Hi as Hl. destruct (Nat.eqb_spec i (length (s_qs s))); [lia|auto]. }
    exists o. constructor; auto.
    + intros x. specialize (v_t0 x). unfold tok in *. change (s_th (add_queue s slot false QRun)) with (s_th s).
      destruct (s_th s x) eqn:E; auto.
      * destruct v_t0 as [|[|(i & q & H1 & H2 & H3)]]; auto. right; right. exists i, q. split; [auto|split; [auto|apply N4; auto]].
      * destruct v_t0 as [H1 (r & H2 & H3)]. split; [apply N4; auto|]. exists r. auto.
    + destruct o; unfold ook in *; auto.
      * destruct v_o0 as (O1 & O2 & r & O3 & O4). split; auto. split; auto. exists r. auto.
      * destruct v_o0 as (O1 & O2 & r & O3 & O4). split; auto. split; auto. exists r. auto.
      * destruct v_o0 as (r & O3 & O4). exists r. auto.
    + apply next_life_ok. auto.
    + intros x i D. apply N4. eauto.
  - (* destroy *)
    assert (Q := v_q0 i q H). assert (M : q_main q = false).
    { destruct (q_main q) eqn:E; auto. rewrite (k_allow _ _ _ _ Q E) in H1. discriminate. }
    exists o. apply OK_self with (o := o) (q := q) (tr := s_tr s) (main := s_main s); auto; try (intros; apply osim_refl).
    + destruct Q. constructor; proj; auto. congruence.
    + apply (ook_other _ _ _ _ _ _ H); auto. congruence.
  - discriminate.
  - (* uninstall *)
    assert (Q := v_q0 i q H).
    assert (NS : q_main q = true -> starting o i -> False).
    { intros M D. destruct (q_failed q) eqn:E.
      - destruct (k_failed _ _ _ _ Q E) as (_ & D1 & _). congruence.
      - rewrite (k_term _ _ _ _ Q M (or_intror D) E) in H1. discriminate. }
    exists o. apply OK_self with (o := o) (q := q) (tr := s_tr s) (main := s_main s); auto; try (intros; apply osim_refl).
    + destruct Q. constructor; proj; auto; try congruence.
      * intros M. split; [discriminate|apply k_other0; auto].
      * intros M. right. destruct (k_own0 M); auto. congruence.
      * intros M [D|D]; [discriminate|]. exfalso. eauto.
      * intros F. destruct (k_failed0 F) as (_ & D & _). congruence.
      * rewrite <- k_efini0, H0. cbn. tauto.
    + apply (ook_self _ _ _ _ _ _ H); auto; try discriminate; intros M D; exfalso; eauto.
  - (* fini *)
    assert (Q := v_q0 i q H).
    exists o. apply (OK_self o o s i q (ph q QFini) (s_main s) (EFini i :: s_tr s)); auto; try (intros; apply osim_refl).
    + destruct Q. constructor; proj; auto; try congruence.
      * intros M. split; [discriminate|apply k_other0; auto].
      * intros M. right. destruct (k_own0 M); auto. congruence.
      * intros M [D|D] F; [discriminate|]. apply k_term0; auto.
      * intros F. destruct (k_failed0 F) as (_ & _ & [D|D]); [congruence|]. repeat split; try discriminate. auto.
      * rewrite k_einit0. cbn. split; auto. intros [D|]; auto. discriminate.
      * cbn. tauto.
    + apply (ook_self _ _ _ _ _ _ H); auto; try discriminate.
      intros M D F. destruct o; cbn in D; try contradiction; subst.
      * destruct v_o0 as (_ & _ & r & O3 & _ & O5). assert (r = q) by congruence. subst r. rewrite (O5 F) in H0. discriminate.
      * destruct v_o0 as (_ & _ & r & O3 & _ & O5 & O6). assert (r = q) by congruence. subst r. rewrite O6 in H0. discriminate.
  - (* putid *)
    assert (Q := v_q0 i q H).
    exists o. apply OK_self with (o := o) (q := q) (tr := s_tr s) (main := s_main s); auto; try (intros; apply osim_refl).
    + destruct Q. constructor; proj; auto; try congruence.
      * intros M. split; [discriminate|apply k_other0; auto].
      * intros M. right. destruct (k_own0 M); auto. congruence.
      * intros M [D|D] F; [discriminate|]. apply k_term0; auto.
      * intros F. destruct (k_failed0 F) as (_ & _ & [D|D]); [congruence|]. repeat split; try discriminate. auto.
      * intros D. destruct (k_dead0 D); congruence.
      * rewrite <- k_efini0, H0. cbn. tauto.
    + apply (ook_self _ _ _ _ _ _ H); auto; try discriminate.
      intros M D F. destruct o; cbn in D; try contradiction; subst.
      * destruct v_o0 as (_ & _ & r & O3 & _ & O5). assert (r = q) by congruence. subst r. rewrite (O5 F) in H0. discriminate.
      * destruct v_o0 as (_ & _ & r & O3 & _ & O5 & O6). assert (r = q) by congruence. subst r. rewrite O6 in H0. discriminate.
  - (* free *)
    assert (Q := v_q0 i q H).
    destruct (Z.eqb_spec (q_id q) (s_main s)) as [E|E].
    + assert (Eo : o = OQ i).
      { destruct (k_id _ _ _ _ Q) as [D _]. destruct o; unfold ook, INVALID in v_o0; try (destruct v_o0; lia); try lia.
        destruct v_o0 as (r & O1 & _ & _ & _ & O5). f_equal. apply (v_uniq0 i0 i r q); auto. congruence. }
      subst o. exists ONone.
      destruct v_o0 as (r & O1 & O2 & O3 & _). assert (r = q) by congruence. subst r.
      apply (OK_self (OQ i) ONone s i q (ph q QFree) INVALID (s_tr s)); auto; try reflexivity.
      * intros j r n Hj. constructor; cbn; intros; try contradiction; try congruence.
      * discriminate.
      * destruct Q. constructor; proj; auto; try congruence; try discriminate.
        { intros M [D|D] F; [discriminate|destruct D]. }
        { intros D. destruct (k_dead0 D); congruence. }
        { rewrite <- k_efini0, H0. cbn. tauto. }
    + exists o. apply (OK_self o o s i q (ph q QFree) (s_main s) (s_tr s)); auto; try (intros; apply osim_refl).
      * destruct Q. constructor; proj; auto; try congruence.
        { intros M. split; [discriminate|apply k_other0; auto]. }
        { intros M [D|D] F; [discriminate|]. apply k_term0; auto. }
        { intros F. repeat split; try discriminate. auto. }
        { intros D. destruct (k_dead0 D); congruence. }
        { rewrite <- k_efini0, H0. cbn. tauto. }
      * destruct o; unfold ook in *; proj; auto.
        { destruct v_o0 as (O1 & O2 & r & O3 & O4 & O5). repeat split; auto. rewrite upd_nth. destruct (Nat.eqb_spec i0 i) as [->|n]; [|eauto].
          rewrite H. assert (r = q) by congruence. subst r. exists (ph q QFree). cbn. repeat split; auto.
          intros F. rewrite (O5 F) in H0. discriminate. }
        { destruct v_o0 as (O1 & O2 & r & O3 & O4 & O5 & O6). repeat split; auto. rewrite upd_nth. destruct (Nat.eqb_spec i0 i) as [->|n]; [|eauto].
          assert (r = q) by congruence. subst r. congruence. }
        { destruct v_o0 as (r & O3 & O4 & O5 & O6 & O7). rewrite upd_nth. destruct (Nat.eqb_spec i0 i) as [->|n]; [|eauto 10].
          exfalso. apply E. congruence. }
Qed.

Lemma reach_OK s : reachable false s -> exists o, OK o s.
Proof.
  induction 1 as [life L|s s' _ [o V] St].
  - exists ONone. constructor; cbn; auto; try tauto; try (intros [|i] q Hi; discriminate Hi).
    + intros [|i] j q r Hi; discriminate Hi.
  - eapply OK_step; eauto.
Qed.
