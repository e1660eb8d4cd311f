(** * C54: the life of a descriptor. *)
From Verif Require Import Base Fd FdInv FdStep FdEff.

(** ** Specification *)
(** Some thread is using the object: a call on it or a delivery is under way. *)
Definition in_use (s : st) (o : nat) : Prop := exists t f, In f (stk s t) /\ refs f = true /\ fobj f = o.
(** Callbacks of o so far. *)
Definition callbacks (o : nat) (h : list event) : list event :=
  filter (fun e => match e with ECb _ o' _ => (o' =? o)%nat | _ => false end) h.
(** No aosl_mpq_del_fd. *)
Definition nodel (l : label) : Prop := forall t n, l <> LCall t ODel n.
(** No number is added a second time: no two descriptors ever had the same. *)
Definition no_reuse (s : st) : Prop := forall a b, (a < length (objs s))%nat -> (b < length (objs s))%nat -> o_num (ob s a) = o_num (ob s b) -> a = b.
(** A delivery of o that can still call the user's functions after o was closed:
    one that is not inside data_f, chk_pkt_f or post_f, which are followed by a
    test, nor in the error path, which tests first. *)
Definition done_phase (p : phase) : bool := match p with PE | PC | PX => true | _ => false end.
Definition tested (k : kind) : bool := match k with KCheck | KPost | KData => true | _ => false end.
Fixpoint settled (o : nat) (l : list frame) : Prop :=
  match l with
  | FCb _ k :: (FDisp o' p :: r as l') => (if done_phase p || tested k then True else o' <> o) /\ settled o r
  | FDisp o' p :: r => (if done_phase p then True else o' <> o) /\ settled o r
  | _ :: r => settled o r
  | [] => True
  end.

(** ** Proof *)
Lemma keff_len s s' l : keff s s' l -> (length (objs s) <= length (objs s'))%nat.
Proof. intros [(L & _)| | | |]; lia. Qed.
Lemma frees_in o h : In (EFree o) h <-> 1 <= frees o h.
Proof.
  induction h as [|e h IH]; [cbn; split; [tauto|lia]|]. assert (P : 0 <= frees o h) by (clear; induction h as [|e h IH]; cbn [frees]; [lia|]; destruct e; try lia; destruct (_ =? _)%nat; lia).
  split.
  - intros [->|Hi]; [cbn [frees]; rewrite Nat.eqb_refl; lia|]. apply IH in Hi. cbn [frees]. destruct e; try lia. destruct (_ =? _)%nat; lia.
  - cbn [frees]. destruct e; try (intros X; right; apply IH; exact X). destruct (Nat.eqb_spec o0 o) as [->|D]; [left; reflexivity|intros X; right; apply IH; lia].
Qed.
Lemma quiet_in e x : forallb quietev e = true -> In x e -> quietev x = true. Proof. intros H Hi. rewrite forallb_forall in H. auto. Qed.
Lemma ends_app o a b : ends o (a ++ b) = (ends o a + ends o b)%nat.
Proof. induction a as [|e a IH]; cbn [ends app]; [reflexivity|]. destruct e; try exact IH; rewrite IH; lia. Qed.
Lemma ends_quiet o e : forallb quietev e = true -> ends o e = 0%nat.
Proof. induction e as [|x e IH]; cbn [ends forallb]; [reflexivity|]. intros H. apply andb_prop in H. destruct H as [A B]. destruct x; try discriminate; auto. Qed.
Lemma ends_pos o h : (1 <= ends o h)%nat <-> In (EClose o) h \/ In (EDel o) h.
Proof.
  induction h as [|e h IH]; [cbn; split; [lia|tauto]|]. split.
  - cbn [ends]. destruct e; try (intros X; apply IH in X; cbn; tauto).
    + destruct (Nat.eqb_spec o0 o) as [->|D]; [cbn; auto|]. intros X. assert (Y : (1 <= ends o h)%nat) by lia. apply IH in Y. cbn. tauto.
    + destruct (Nat.eqb_spec o0 o) as [->|D]; [cbn; auto|]. intros X. assert (Y : (1 <= ends o h)%nat) by lia. apply IH in Y. cbn. tauto.
  - intros [[->|X]|[->|X]]; cbn [ends]; rewrite ?Nat.eqb_refl; try lia.
    + assert (Y : (1 <= ends o h)%nat) by (apply IH; auto). destruct e; lia.
    + assert (Y : (1 <= ends o h)%nat) by (apply IH; auto). destruct e; lia.
Qed.
(** How the history and the objects go together. *)
Record Hist (s : st) : Prop := {
  h_lk : forall o, o_linked (ob s o) = true -> (o < length (objs s))%nat /\ ends o (log s) = 0%nat;
  h_ad : forall t o, In (FAdd o) (stk s t) -> ends o (log s) = 0%nat;
  h_one : forall o, (ends o (log s) <= 1)%nat;
  h_new : forall o, (length (objs s) <= o)%nat -> ends o (log s) = 0%nat;
  h_add : forall o q n, In (EAdd o q n) (log s) -> (o < length (objs s))%nat /\ o_num (ob s o) = n /\ o_q (ob s o) = q /\ (o_linked (ob s o) = true \/ ends o (log s) = 1%nat);
  h_fd : forall o, (o < length (objs s))%nat -> ~ In (EClose o) (log s) -> o_fd (ob s o) = o_num (ob s o);
  h_cl : forall o, In (EClose o) (log s) -> o_fd (ob s o) = INVALID }.
Lemma dead_core : core dead = (0, INVALID, 0%nat, false). Proof. reflexivity. Qed.
Lemma ob_over s o : (length (objs s) <= o)%nat -> ob s o = dead. Proof. intros H. unfold ob. apply nth_overflow. exact H. Qed.

(** FAdd frames come only from LAdd. *)
Lemma seff_add s s' l t : seff s s' l t -> forall o, In (FAdd o) (stk s' t) -> In (FAdd o) (stk s t) \/ o = length (objs s).
Proof.
  intros [E|E|f E|c o0 n _ E|c o0 r E1 E|o0 p n E1 E|o0 E1 E|o0 p k r E1 E|o' o0 p k r E1 E|o0 p p' r E1 E] o Hi; try rewrite E in Hi; try rewrite E1.
  - auto.
  - destruct Hi as [X|X]; [right; congruence|auto].
  - left. rewrite E. right. exact Hi.
  - destruct Hi as [X|X]; [discriminate|auto].
  - destruct Hi as [X|X]; [discriminate|left; right; exact X].
  - destruct Hi as [X|[]]. discriminate.
  - destruct Hi as [X|[]]. discriminate.
  - destruct Hi as [X|X]; [discriminate|left; exact X].
  - destruct Hi as [X|X]; [discriminate|left; right; right; exact X].
  - destruct Hi as [X|X]; [discriminate|left; right; exact X].
Qed.
Lemma hist_step s l s' : Inv z0 s -> Hist s -> keff s s' l -> (forall t, t <> who l -> stk s' t = stk s t /\ bts s' t = bts s t) -> seff s s' l (who l) -> Hist s'.
Proof.
  intros H P K So Se.
  assert (Ad : forall t o, In (FAdd o) (stk s' t) -> (exists t', In (FAdd o) (stk s t')) \/ o = length (objs s)).
  { intros t o Hi. destruct (Nat.eq_dec t (who l)) as [->|D]; [destruct (seff_add _ _ _ _ Se _ Hi); eauto|]. rewrite (proj1 (So t D)) in Hi. eauto. }
  destruct K as [(Ln & Co & Tb) (e & Le & Qe)|t n El Tn N0 Ln Cn Co Tb Le|t o r Sk El Ln Co Tb Le|o b L Ht Lk Ln Co Tb (e1 & e2 & Le & Q1 & Q2 & _) Hb|o L Ht Ln Co Tb (e & Le & Qe)].
  1,5: (assert (En : forall a, ends a (log s') = ends a (log s)) by (intros a; rewrite Le, ends_app, (ends_quiet _ _ Qe); reflexivity);
    assert (Cl : forall a, In (EClose a) (log s') <-> In (EClose a) (log s)) by (intros a; rewrite Le, in_app_iff; split; [intros [X|X]; [apply (quiet_in _ _ Qe) in X; discriminate|exact X]|auto]);
    constructor;
    [ intros a X; rewrite (core_lk _ _ (Co a)) in X; rewrite Ln, En; apply (h_lk _ P _ X)
    | intros t a X; rewrite En; destruct (Ad _ _ X) as [[t' Y]| ->]; [apply (h_ad _ P _ _ Y)|apply (h_new _ P); lia]
    | intros a; rewrite En; apply (h_one _ P)
    | intros a X; rewrite En; apply (h_new _ P); lia
    | intros a q n X; rewrite Le, in_app_iff in X; destruct X as [X|X]; [apply (quiet_in _ _ Qe) in X; discriminate|]; rewrite Ln, En, (core_num _ _ (Co a)), (core_q _ _ (Co a)), (core_lk _ _ (Co a)); apply (h_add _ P _ _ _ X)
    | intros a La X; rewrite Ln in La; rewrite Cl in X; rewrite (core_fd _ _ (Co a)), (core_num _ _ (Co a)); apply (h_fd _ P _ La X)
    | intros a X; rewrite Cl in X; rewrite (core_fd _ _ (Co a)); apply (h_cl _ P _ X) ]).
  - (* add *)
    assert (Cn2 : forall a, (length (objs s) < a)%nat -> ob s' a = dead) by (intros a X; apply ob_over; lia). constructor; rewrite ?Le.
    + intros a X. destruct (Nat.lt_trichotomy a (length (objs s))) as [D|[->|D]].
      * rewrite (core_lk _ _ (Co a D)) in X. destruct (h_lk _ P _ X). split; [lia|assumption].
      * unfold core in Cn. assert (o_linked (ob s' (length (objs s))) = false) by congruence. congruence.
      * rewrite (Cn2 a D) in X. discriminate.
    + intros t' a X. destruct (Ad _ _ X) as [[t2 Y]| ->]; [apply (h_ad _ P _ _ Y)|apply (h_new _ P); lia].
    + apply (h_one _ P).
    + intros a X. apply (h_new _ P). lia.
    + intros a q m X. destruct (h_add _ P _ _ _ X) as (A & B & C & D). rewrite (core_num _ _ (Co a A)), (core_q _ _ (Co a A)), (core_lk _ _ (Co a A)). repeat split; auto. lia.
    + intros a La X. destruct (Nat.eq_dec a (length (objs s))) as [->|D]; [unfold core in Cn; congruence|]. assert (La2 : (a < length (objs s))%nat) by lia. rewrite (core_num _ _ (Co a La2)), (core_fd _ _ (Co a La2)). apply (h_fd _ P _ La2 X).
    + intros a X. assert (La2 : (a < length (objs s))%nat). { destruct (Nat.lt_ge_cases a (length (objs s))) as [D|D]; [exact D|]. pose proof (h_new _ P _ D) as Y. assert (1 <= ends a (log s))%nat by (apply ends_pos; auto). lia. }
      rewrite (core_fd _ _ (Co a La2)). apply (h_cl _ P _ X).
  - (* link *)
    assert (Hi : In (FAdd o) (stk s t)) by (rewrite Sk; left; reflexivity). pose proof (i_frm _ _ H _ _ Hi) as Lo. cbn [fobj] in Lo. pose proof (h_ad _ P _ _ Hi) as E0. destruct (i_add _ _ H _ _ Hi) as [Qo _].
    assert (Oth : forall a, a <> o -> core (ob s' a) = core (ob s a)) by (intros a D; rewrite Co, (proj2 (Nat.eqb_neq _ _) D); reflexivity). pose proof (Co o) as Oo. rewrite Nat.eqb_refl in Oo.
    assert (En : forall a, ends a (log s') = ends a (log s)) by (intros a; rewrite Le; reflexivity).
    assert (Cl : forall a, In (EClose a) (log s') <-> In (EClose a) (log s)) by (intros a; rewrite Le; cbn [In]; split; [intros [X|X]; [discriminate|exact X]|auto]).
    assert (Of : o_fd (ob s' o) = o_fd (ob s o) /\ o_num (ob s' o) = o_num (ob s o) /\ o_q (ob s' o) = o_q (ob s o) /\ o_linked (ob s' o) = true) by (unfold core in Oo; repeat split; congruence). destruct Of as (O1 & O2 & O3 & O4). constructor.
    + intros a X. rewrite Ln, En. destruct (Nat.eq_dec a o) as [->|D]; [auto|]. rewrite (core_lk _ _ (Oth a D)) in X. apply (h_lk _ P _ X).
    + intros t' a X. rewrite En. destruct (Ad _ _ X) as [[t2 Y]| ->]; [apply (h_ad _ P _ _ Y)|apply (h_new _ P); lia].
    + intros a. rewrite En. apply (h_one _ P).
    + intros a X. rewrite En. apply (h_new _ P). lia.
    + intros a q n X. rewrite Ln, En. rewrite Le in X. destruct X as [X|X].
      * assert (a = o /\ q = t /\ n = o_num (ob s o)) as (-> & -> & ->) by (repeat split; congruence). rewrite O2, O3, O4. auto.
      * destruct (h_add _ P _ _ _ X) as (A & B & C & D). destruct (Nat.eq_dec a o) as [->|Da]; [rewrite O2, O3, O4; auto|]. rewrite (core_num _ _ (Oth a Da)), (core_q _ _ (Oth a Da)), (core_lk _ _ (Oth a Da)). auto.
    + intros a La X. rewrite Ln in La. rewrite Cl in X. destruct (Nat.eq_dec a o) as [->|Da]; [rewrite O1, O2|rewrite (core_num _ _ (Oth a Da)), (core_fd _ _ (Oth a Da))]; apply (h_fd _ P _ La X).
    + intros a X. rewrite Cl in X. destruct (Nat.eq_dec a o) as [->|Da]; [rewrite O1|rewrite (core_fd _ _ (Oth a Da))]; apply (h_cl _ P _ X).
  - (* end *)
    assert (Oth : forall a, a <> o -> core (ob s' a) = core (ob s a)) by (intros a D; rewrite Co, (proj2 (Nat.eqb_neq _ _) D); reflexivity). pose proof (Co o) as Oo. rewrite Nat.eqb_refl in Oo.
    destruct (h_lk _ P _ Lk) as [_ E0].
    assert (En : forall a, ends a (log s') = ((if (o =? a)%nat then 1 else 0) + ends a (log s))%nat).
    { intros a. rewrite Le, ends_app, (ends_quiet _ _ Q1). destruct b; cbn [ends]; rewrite ends_app, (ends_quiet _ _ Q2); lia. }
    assert (Cl : forall a, a <> o -> In (EClose a) (log s') <-> In (EClose a) (log s)).
    { intros a D. rewrite Le, in_app_iff. cbn [In]. rewrite in_app_iff. split; [intros [X|[X|[X|X]]]; [apply (quiet_in _ _ Q1) in X; discriminate|destruct b; congruence|apply (quiet_in _ _ Q2) in X; discriminate|exact X]|auto]. }
    assert (Ad2 : forall t' a, In (FAdd a) (stk s' t') -> a <> o).
    { intros t' a X ->. destruct (Ad _ _ X) as [[t2 Y]|Y]; [|lia]. destruct (i_add _ _ H _ _ Y). congruence. }
    constructor.
    + intros a X. rewrite Ln, En. destruct (Nat.eq_dec a o) as [->|D]; [unfold core in Oo; assert (o_linked (ob s' o) = false) by congruence; congruence|]. rewrite (core_lk _ _ (Oth a D)) in X. rewrite (proj2 (Nat.eqb_neq o a)) by congruence. apply (h_lk _ P _ X).
    + intros t' a X. pose proof (Ad2 _ _ X) as D. rewrite En, (proj2 (Nat.eqb_neq o a)) by congruence. destruct (Ad _ _ X) as [[t2 Y]| ->]; [apply (h_ad _ P _ _ Y)|apply (h_new _ P); lia].
    + intros a. rewrite En. destruct (Nat.eqb_spec o a) as [->|D]; [lia|apply (h_one _ P)].
    + intros a X. rewrite En, (proj2 (Nat.eqb_neq o a)) by lia. apply (h_new _ P). lia.
    + intros a q n X. assert (X' : In (EAdd a q n) (log s)). { rewrite Le, in_app_iff in X. cbn [In] in X. rewrite in_app_iff in X. destruct X as [X|[X|[X|X]]]; [apply (quiet_in _ _ Q1) in X; discriminate|destruct b; discriminate|apply (quiet_in _ _ Q2) in X; discriminate|exact X]. }
      destruct (h_add _ P _ _ _ X') as (A & B & C & D). rewrite Ln, En. destruct (Nat.eq_dec a o) as [->|Da].
      * rewrite Nat.eqb_refl. assert (o_num (ob s' o) = o_num (ob s o) /\ o_q (ob s' o) = o_q (ob s o)) as [O1 O2] by (unfold core in Oo; split; congruence). rewrite O1, O2. repeat split; auto; right; lia.
      * rewrite (proj2 (Nat.eqb_neq o a)) by congruence. rewrite (core_num _ _ (Oth a Da)), (core_q _ _ (Oth a Da)), (core_lk _ _ (Oth a Da)). auto.
    + intros a La X. rewrite Ln in La. destruct (Nat.eq_dec a o) as [->|Da].
      * destruct b; [exfalso; apply X; rewrite Le; apply in_or_app; right; left; reflexivity|]. unfold core in Oo. assert (o_fd (ob s' o) = o_fd (ob s o) /\ o_num (ob s' o) = o_num (ob s o)) as [O1 O2] by (split; congruence). rewrite O1, O2.
        apply (h_fd _ P _ La). intros Y. assert (1 <= ends o (log s))%nat by (apply ends_pos; auto). lia.
      * rewrite (Cl a Da) in X. rewrite (core_num _ _ (Oth a Da)), (core_fd _ _ (Oth a Da)). apply (h_fd _ P _ La X).
    + intros a X. destruct (Nat.eq_dec a o) as [->|Da]; [|rewrite (Cl a Da) in X; rewrite (core_fd _ _ (Oth a Da)); apply (h_cl _ P _ X)].
      destruct b; [unfold core in Oo; congruence|]. exfalso. rewrite Le, in_app_iff in X. cbn [In] in X. rewrite in_app_iff in X. destruct X as [X|[X|[X|X]]]; [apply (quiet_in _ _ Q1) in X; discriminate|discriminate|apply (quiet_in _ _ Q2) in X; discriminate|].
      assert (1 <= ends o (log s))%nat by (apply ends_pos; auto). lia.
Qed.
Lemma stk_init nt t : stk (init nt) t = [].
Proof. unfold stk, init. cbn [ths]. revert t. induction nt as [|k IH]; intros [|t]; cbn; auto. Qed.
Lemma hist_init nt : Hist (init nt).
Proof. constructor; cbn; try tauto; try lia; try (intros; rewrite stk_init in *; cbn in *; tauto). intros o X. unfold ob in X. cbn in X. destruct o; discriminate. Qed.
Lemma run_hist ls : forall s s', Inv z0 s -> Hist s -> Forall nofail ls -> run s ls = Some s' -> Inv z0 s' /\ Hist s'.
Proof.
  induction ls as [|l ls IH]; intros s s' H P F E; cbn [run] in E; [assert (s' = s) by congruence; subst; auto|]. apply Forall_inv in F as F1. apply Forall_inv_tail in F.
  destruct (step s l) as [s1|] eqn:St; [|discriminate]. destruct (step_eff _ _ _ H F1 St) as (K & So & Se). apply (IH s1); auto; [eapply step_ok; eassumption|eapply hist_step; eassumption].
Qed.
Lemma reach_hist nt ls s : reach nt ls s -> Forall nofail ls -> Inv z0 s /\ Hist s.
Proof. intros R F. exact (run_hist ls _ _ (inv_init nt) (hist_init nt) F R). Qed.

(** ** Theorems.  Histories in which registering with the system never fails. *)
(** The memory of a descriptor is never used after it has been released, by any
    call or delivery on any thread. *)
Theorem C54_no_use_after_free nt ls s : reach nt ls s -> Forall nofail ls -> forall o, ~ In (EBad o) (log s).
Proof. intros R F. exact (i_bad _ _ (reach_inv _ _ _ R F)). Qed.
(** It is released at most once, and when it is, nobody uses it and it is in no
    table or list. *)
Theorem C54_released_once nt ls s o : reach nt ls s -> Forall nofail ls -> frees o (log s) <= 1.
Proof. intros R F. pose proof (reach_inv _ _ _ R F) as H. rewrite (i_free _ _ H o). destruct (_ <? _)%nat; [destruct (o_freed _); cbn; lia|lia]. Qed.
Lemma freed_zero s o : Inv z0 s -> In (EFree o) (log s) -> (o < length (objs s))%nat /\ o_use (ob s o) = 0.
Proof.
  intros H Hi. apply frees_in in Hi. rewrite (i_free _ _ H o) in Hi. destruct (Nat.ltb_spec o (length (objs s))) as [L|L]; [|lia]. split; [exact L|]. pose proof (i_frz _ _ H _ L) as X. destruct (o_freed (ob s o)); [lia|cbn in Hi; lia].
Qed.
Theorem C54_released_last nt ls s o : reach nt ls s -> Forall nofail ls -> In (EFree o) (log s) -> ~ in_use s o /\ (forall n, tab s n <> Some o) /\ o_linked (ob s o) = false.
Proof.
  intros R F Hi. pose proof (reach_inv _ _ _ R F) as H. destruct (freed_zero _ _ H Hi) as [L U]. split; [|split].
  - intros (t & f & X & Y & Z0). pose proof (held_use _ _ _ _ H X Y) as W. rewrite Z0 in W. lia.
  - intros n X. pose proof (tab_use _ _ _ _ H X). lia.
  - rewrite (i_cnt _ _ H _ L) in U. pose proof (total_nn s o). unfold z0 in U. destruct (o_linked (ob s o)); [cbn [b2z] in U; lia|reflexivity].
Qed.
(** Once it was closed or deleted and nobody uses it any more it has been released:
    nothing leaks. *)
Lemma use_total s o : 1 <= total o s -> in_use s o.
Proof.
  unfold total, in_use, stk. intros H. enough (G : forall ts, 1 <= totl o ts -> exists t f, In f (nth t ts []) /\ refs f = true /\ fobj f = o) by exact (G _ H).
  induction ts as [|l ts IH]; cbn [totl]; [lia|]. intros X. destruct (Z_lt_le_dec (holds o l) 1) as [D|D].
  - destruct IH as (t & f & A); [lia|]. exists (S t), f. exact A.
  - exists 0%nat. cbn [nth]. clear - D. induction l as [|f l IH]; cbn [holds] in D; [lia|]. unfold hold in D. destruct (refs f) eqn:Rf; [destruct (Nat.eqb_spec (fobj f) o) as [E|E]|].
    + exists f. cbn. auto.
    + cbn [andb] in D. destruct IH as (g & A & B); [lia|]. exists g. cbn. auto.
    + cbn [andb] in D. destruct IH as (g & A & B); [lia|]. exists g. cbn. auto.
Qed.
Theorem C54_no_leak nt ls s o : reach nt ls s -> Forall nofail ls -> In (EClose o) (log s) \/ In (EDel o) (log s) -> ~ in_use s o -> In (EFree o) (log s).
Proof.
  intros R F E N. destruct (reach_hist _ _ _ R F) as [H P]. apply ends_pos in E.
  assert (L : (o < length (objs s))%nat). { destruct (Nat.lt_ge_cases o (length (objs s))) as [D|D]; [exact D|]. rewrite (h_new _ P _ D) in E. lia. }
  assert (Lk : o_linked (ob s o) = false). { destruct (o_linked (ob s o)) eqn:X; [|reflexivity]. destruct (h_lk _ P _ X). lia. }
  assert (T : total o s = 0). { pose proof (total_nn s o). destruct (Z_lt_le_dec (total o s) 1) as [D|D]; [lia|]. destruct (N (use_total _ _ D)). }
  apply frees_in. rewrite (i_free _ _ H o). apply Nat.ltb_lt in L as L2. rewrite L2, (i_frz _ _ H _ L), (i_cnt _ _ H _ L), Lk, T. unfold z0. cbn. lia.
Qed.
(** A descriptor is taken out of its queue at most once: it is not closed twice,
    nor closed after it was deleted. *)
Theorem C54_ended_once nt ls s o : reach nt ls s -> Forall nofail ls -> (ends o (log s) <= 1)%nat.
Proof. intros R F. exact (h_one _ (proj2 (reach_hist _ _ _ R F)) o). Qed.

(** *** No callback after aosl_close. *)
Record Quiet (o : nat) (s : st) : Prop := {
  q_len : (o < length (objs s))%nat; q_fd : o_fd (ob s o) = INVALID; q_lk : o_linked (ob s o) = false;
  q_tab : forall n, tab s n <> Some o; q_set : forall t, settled o (stk s t) }.
Lemma settled_tl o f r : settled o (f :: r) -> refs f = true -> (match f with FDisp _ _ => True | _ => True end) -> settled o r.
Proof. intros H Re _. destruct f; cbn in *; try discriminate; tauto. Qed.
Lemma settled_cons o f r : refs f = true -> (forall p, f <> FDisp o p) -> settled o r -> settled o (f :: r).
Proof. intros Re D H. destruct f as [a|a p|a k|c a dn]; cbn in *; try discriminate; auto. split; [|exact H]. destruct (done_phase p); [auto|]. intros ->. exact (D p eq_refl). Qed.
Lemma settled_cb o o' k r : settled o r -> settled o (FCb o' k :: r).
Proof. intros H. destruct r as [|[a|a p|a k'|c a dn] r]; auto. cbn in *. destruct (done_phase p); cbn; [tauto|]. destruct (tested k); tauto. Qed.
Lemma valid_not s o : o_fd (ob s o) = INVALID -> valid s o = false. Proof. intros H. unfold valid. rewrite H. reflexivity. Qed.
Lemma quiet_step s l s' o : Inv z0 s -> Hist s -> nofail l -> step s l = Some s' -> Quiet o s -> Quiet o s' /\ callbacks o (log s') = callbacks o (log s).
Proof.
  intros H P Nf St [L Fd Lk Tb Se]. destruct (step_eff _ _ _ H Nf St) as (K & So & Sf).
  assert (C : forall h h', filter cb_of h' = filter cb_of h -> callbacks o h' = callbacks o h).
  { assert (G : forall h, callbacks o h = callbacks o (filter cb_of h)). { induction h as [|e h IH]; [reflexivity|]. destruct e; cbn [filter cb_of callbacks]; try exact IH. unfold callbacks in *. cbn [filter]. rewrite IH. reflexivity. }
    intros h h' E. rewrite (G h), (G h'), E. reflexivity. }
  assert (Kc : (o < length (objs s'))%nat /\ o_fd (ob s' o) = INVALID /\ o_linked (ob s' o) = false /\ forall n, tab s' n <> Some o).
  { destruct K as [(Ln & Co & Tb') _|t n El Tn N0 Ln Cn Co Tb' _|t a r Sk El Ln Co Tb' _|a b La Ht Lk' Ln Co Tb' _ _|a La Ht Ln Co Tb' _].
    - rewrite (core_fd _ _ (Co o)), (core_lk _ _ (Co o)). repeat split; auto; [lia|]. intros n. rewrite Tb'. apply Tb.
    - rewrite (core_fd _ _ (Co o L)), (core_lk _ _ (Co o L)). repeat split; auto; [lia|]. intros m. rewrite Tb'. destruct (m =? n); [intros X; assert (length (objs s) = o) by congruence; lia|apply Tb].
    - assert (D : o <> a). { intros ->. assert (Hi : In (FAdd a) (stk s t)) by (rewrite Sk; left; reflexivity). pose proof (h_ad _ P _ _ Hi) as E0. assert (Nc : ~ In (EClose a) (log s)) by (intros Y; assert (1 <= ends a (log s))%nat by (apply ends_pos; auto); lia). pose proof (h_fd _ P _ L Nc). destruct (i_num _ _ H _ L). unfold INVALID in Fd. lia. }
      pose proof (Co o) as X. rewrite (proj2 (Nat.eqb_neq _ _) D) in X. rewrite (core_fd _ _ X), (core_lk _ _ X). repeat split; auto; [lia|]. intros n. rewrite Tb'. apply Tb.
    - assert (D : o <> a) by (intros ->; congruence). pose proof (Co o) as X. rewrite (proj2 (Nat.eqb_neq _ _) D) in X. rewrite (core_fd _ _ X), (core_lk _ _ X). repeat split; auto; [lia|]. intros n. rewrite Tb'. destruct (n =? _); [discriminate|apply Tb].
    - rewrite (core_fd _ _ (Co o)), (core_lk _ _ (Co o)). repeat split; auto; [lia|]. intros n. rewrite Tb'. destruct (n =? _); [discriminate|apply Tb]. }
  destruct Kc as (L' & Fd' & Lk' & Tb'). pose proof (valid_not _ _ Fd) as V. pose proof (Se (who l)) as Sw.
  assert (Fin : settled o (stk s' (who l)) /\ callbacks o (log s') = callbacks o (log s)).
  { destruct Sf as [E Cb|E Cb|f E Re Cb|c a n _ E _ Cb|c a r E1 E Cb|a p n E1 E _ Tn Cb|a E1 E La _ Cb|a p k r E1 E My Cb|a' a p k r E1 E Cb|a p p' r E1 E Mv Cb].
    - rewrite E. auto.
    - rewrite E. split; [apply settled_cons; [reflexivity|discriminate|exact Sw]|auto].
    - rewrite E in Sw. split; [eapply settled_tl; eauto; destruct f; auto|auto].
    - rewrite E. split; [apply settled_cons; [reflexivity|discriminate|exact Sw]|auto].
    - rewrite E1 in Sw. rewrite E. split; [exact Sw|auto].
    - rewrite E. split; [|auto]. apply settled_cons; [reflexivity| |exact I]. intros q X. assert (a = o) by congruence. subst a. exact (Tb n Tn).
    - rewrite E. split; [|auto]. cbn. auto.
    - rewrite E1 in Sw. rewrite E. split; [apply settled_cb; exact Sw|]. assert (D : a <> o).
      { intros ->. rewrite V in My. cbn in Sw. destruct p, k; cbn in *; try discriminate; tauto. }
      rewrite (C (ECb (who l) a k :: log s) (log s')) by (cbn [filter cb_of]; exact Cb). unfold callbacks. cbn [filter]. rewrite (proj2 (Nat.eqb_neq _ _) D). reflexivity.
    - rewrite E1 in Sw. rewrite E. split; [|auto]. cbn in Sw. destruct Sw as [Sw1 Sw2]. cbn. split; [|exact Sw2]. destruct (Nat.eq_dec a o) as [->|D].
      + rewrite V. destruct p, k; cbn in *; auto; tauto.
      + destruct (done_phase (after p k (valid s a))); auto.
    - rewrite E1 in Sw. rewrite E. split; [|auto]. cbn in *. destruct Sw as [Sw1 Sw2]. split; [|exact Sw2]. destruct (Nat.eq_dec a o) as [->|D].
      + rewrite V in Mv. destruct Mv as [Mv|[-> ->]]; [|exact I]. destruct p, p'; cbn in *; auto; try discriminate; tauto.
      + destruct (done_phase p'); auto. }
  split; [|apply Fin]. constructor; auto. intros t. destruct (Nat.eq_dec t (who l)) as [->|D]; [apply Fin|]. rewrite (proj1 (So t D)). apply Se.
Qed.
(** After aosl_close has taken effect no function of the user is called for the
    descriptor any more - provided that the close did not happen inside the
    descriptor's own event_f, read_f or write_f (see the refutation below). *)
Theorem C54_closed_silent nt a s b s' o : reach nt a s -> Forall nofail a -> In (EClose o) (log s) -> (forall t, settled o (stk s t)) ->
  run s b = Some s' -> Forall nofail b -> callbacks o (log s') = callbacks o (log s).
Proof.
  intros R F Cl Se Rb Fb. destruct (reach_hist _ _ _ R F) as [H P]. assert (E : (1 <= ends o (log s))%nat) by (apply ends_pos; auto).
  assert (L : (o < length (objs s))%nat). { destruct (Nat.lt_ge_cases o (length (objs s))) as [D|D]; [exact D|]. rewrite (h_new _ P _ D) in E. lia. }
  assert (Q : Quiet o s).
  { constructor; auto; [apply (h_cl _ P _ Cl)| |].
    - destruct (o_linked (ob s o)) eqn:X; [|reflexivity]. destruct (h_lk _ P _ X). lia.
    - intros n X. destruct (i_tab _ _ H _ _ X) as (A & _ & B & _). rewrite (h_cl _ P _ Cl) in B. unfold INVALID in B. lia. }
  clear - H P Q Rb Fb. revert s H P Q Rb. induction b as [|l b IH]; intros s H P Q Rb; cbn [run] in Rb; [assert (s' = s) by congruence; subst; reflexivity|].
  apply Forall_inv in Fb as F1. apply Forall_inv_tail in Fb. destruct (step s l) as [s1|] eqn:St; [|discriminate]. destruct (quiet_step _ _ _ _ H P F1 St Q) as [Q1 C1].
  destruct (step_eff _ _ _ H F1 St) as (K & So & Sf). rewrite (IH Fb s1); auto; [eapply step_ok; eassumption|eapply hist_step; eassumption].
Qed.

(** *** Callbacks run on the thread of the descriptor's queue, if no number is used
    a second time. *)
Lemma keff_num s s' l : keff s s' l -> forall o, (o < length (objs s))%nat -> o_num (ob s' o) = o_num (ob s o) /\ o_q (ob s' o) = o_q (ob s o).
Proof.
  intros [(_ & Co & _) _|t n _ _ _ _ _ Co _ _|t a r _ _ _ Co _ _|a b _ _ _ _ Co _ _ _|a _ _ _ Co _ _] o L; try (rewrite (core_num _ _ (Co o)), (core_q _ _ (Co o)); auto).
  - rewrite (core_num _ _ (Co o L)), (core_q _ _ (Co o L)). auto.
  - specialize (Co o). unfold core in Co. destruct (Nat.eqb_spec o a) as [Ea|D]; [subst a|]; split; congruence.
  - specialize (Co o). unfold core in Co. destruct (Nat.eqb_spec o a) as [Ea|D]; [subst a|]; split; congruence.
Qed.
Lemma no_reuse_back s s' l : keff s s' l -> no_reuse s' -> no_reuse s.
Proof.
  intros K N a b La Lb E. pose proof (keff_len _ _ _ K). destruct (keff_num _ _ _ K a La) as [A _]. destruct (keff_num _ _ _ K b Lb) as [B _]. apply N; [lia|lia|congruence].
Qed.
Record Own (s : st) : Prop := {
  w_disp : forall t o p, In (FDisp o p) (stk s t) -> o_q (ob s o) = t;
  w_bat : forall t n, In n (bts s t) -> exists o, (o < length (objs s))%nat /\ o_num (ob s o) = n /\ o_q (ob s o) = t;
  w_cb : forall t o k, In (ECb t o k) (log s) -> (o < length (objs s))%nat /\ o_q (ob s o) = t }.
Lemma cb_in t o k h : In (ECb t o k) h <-> In (ECb t o k) (filter cb_of h). Proof. rewrite filter_In. cbn. tauto. Qed.
Lemma tab_num s n o : Inv z0 s -> tab s n = Some o -> (o < length (objs s))%nat /\ o_num (ob s o) = n.
Proof. intros H Tn. destruct (i_tab _ _ H _ _ Tn) as (A & L & B & _). split; [exact L|]. destruct (i_num _ _ H _ L) as [_ [X|X]]; [congruence|]. unfold INVALID in X. lia. Qed.
Lemma own_step s l s' : Inv z0 s -> Hist s -> nofail l -> step s l = Some s' -> no_reuse s -> Own s -> Own s'.
Proof.
  intros H P Nf St Nr W. destruct (step_eff _ _ _ H Nf St) as (K & So & Sf). pose proof (keff_len _ _ _ K) as Ln. pose proof (keff_num _ _ _ K) as Nu.
  assert (Bk : forall t n, In n (bts s t) -> exists o, (o < length (objs s'))%nat /\ o_num (ob s' o) = n /\ o_q (ob s' o) = t).
  { intros t n X. destruct (w_bat _ W _ _ X) as (o & A & B & C). exists o. destruct (Nu o A) as [D1 D2]. split; [lia|]. split; congruence. }
  assert (Dk : forall t o p, In (FDisp o p) (stk s t) -> o_q (ob s' o) = t). { intros t o p X. pose proof (i_frm _ _ H _ _ X) as L. cbn [fobj] in L. destruct (Nu o L) as [_ D2]. rewrite D2. apply (w_disp _ W _ _ _ X). }
  assert (Ck : forall t o k, In (ECb t o k) (log s) -> (o < length (objs s'))%nat /\ o_q (ob s' o) = t). { intros t o k X. destruct (w_cb _ W _ _ _ X) as [A B]. destruct (Nu o A) as [_ D2]. split; [lia|congruence]. }
  assert (Sw : (forall o p, In (FDisp o p) (stk s' (who l)) -> o_q (ob s' o) = who l) /\ (forall n, In n (bts s' (who l)) -> exists o, (o < length (objs s'))%nat /\ o_num (ob s' o) = n /\ o_q (ob s' o) = who l) /\ (forall t o k, In (ECb t o k) (log s') -> (o < length (objs s'))%nat /\ o_q (ob s' o) = t)).
  { assert (Cs : filter cb_of (log s') = filter cb_of (log s) -> forall t o k, In (ECb t o k) (log s') -> (o < length (objs s'))%nat /\ o_q (ob s' o) = t) by (intros E t o k X; apply (Ck t o k); apply (proj2 (cb_in _ _ _ _)); rewrite <- E; apply (proj1 (cb_in _ _ _ _)); exact X).
    assert (Bs : bts s' (who l) = bts s (who l) -> forall n, In n (bts s' (who l)) -> exists o, (o < length (objs s'))%nat /\ o_num (ob s' o) = n /\ o_q (ob s' o) = who l) by (intros E n X; rewrite E in X; apply (Bk _ _ X)).
    destruct Sf as [E Cb B|E Cb B|f E Re Cb B|c a n _ E _ Cb B|c a r E1 E Cb B|a p n E1 E B Tn Cb|a E1 E La Qa Cb B|a p k r E1 E My Cb B|a' a p k r E1 E Cb B|a p p' r E1 E Mv Cb B].
    - rewrite E. split; [intros o p; apply Dk|]. split; [|exact (Cs Cb)]. destruct B as [B|[(b & B1 & B2 & B3)|(n & B1)]]; [exact (Bs B)| |].
      + intros n X. rewrite B1 in X. rewrite forallb_forall in B3. specialize (B3 n X). unfold watched in B3. apply existsb_exists in B3. destruct B3 as (x & Hx & Cx). apply andb_prop in Cx. destruct Cx as [Cx C3]. apply andb_prop in Cx. destruct Cx as [C1 C2].
        apply In_nth with (d := dead) in Hx. destruct Hx as (o & Lo & Eo). fold (ob s o) in Eo. subst x. apply Nat.eqb_eq in C2. exists o. destruct (Nu o Lo) as [D1 D2]. split; [lia|]. rewrite D1, D2. split; [|exact C2].
        destruct (h_lk _ P _ C1) as [_ E0]. rewrite <- (h_fd _ P _ Lo); [lia|]. intros Y. assert (1 <= ends o (log s))%nat by (apply ends_pos; auto). lia.
      + intros m X. apply (Bk (who l)). rewrite B1. right. exact X.
    - rewrite E. split; [intros o p [X|X]; [discriminate|apply (Dk _ _ _ X)]|]. exact (conj (Bs B) (Cs Cb)).
    - split; [intros o p X; apply (Dk _ o p); rewrite E; right; exact X|]. exact (conj (Bs B) (Cs Cb)).
    - rewrite E. split; [intros o p [X|X]; [discriminate|apply (Dk _ _ _ X)]|]. exact (conj (Bs B) (Cs Cb)).
    - rewrite E. split; [intros o p [X|X]; [discriminate|]|exact (conj (Bs B) (Cs Cb))]. apply (Dk _ o p). rewrite E1. right. exact X.
    - rewrite E. destruct (tab_num _ _ _ H Tn) as [La Na]. split; [|split; [|exact (Cs Cb)]].
      + intros o q [X|[]]. assert (o = a) by congruence. subst o. destruct (w_bat _ W (who l) n) as (o & A1 & A2 & A3); [rewrite B; left; reflexivity|]. assert (a = o) by (apply Nr; auto; congruence). subst o. destruct (Nu a La) as [_ D2]. congruence.
      + intros m X. apply (Bk (who l)). rewrite B. right. exact X.
    - rewrite E. split; [|exact (conj (Bs B) (Cs Cb))]. intros o q [X|[]]. assert (o = a) by congruence. subst o. destruct (h_lk _ P _ La) as [Lo _]. destruct (Nu a Lo) as [_ D2]. congruence.
    - rewrite E. assert (Da : In (FDisp a p) (stk s (who l))) by (rewrite E1; left; reflexivity). split; [intros o q [X|X]; [discriminate|apply (Dk _ o q); rewrite E1; exact X]|]. split; [exact (Bs B)|]. intros t o k' X. apply (proj1 (cb_in _ _ _ _)) in X. rewrite Cb in X. destruct X as [X|X].
      + assert (o = a /\ t = who l) as [-> ->] by (split; congruence). pose proof (i_frm _ _ H _ _ Da) as L. cbn [fobj] in L. split; [lia|apply (Dk _ _ _ Da)].
      + apply (Ck t o k'). apply (proj2 (cb_in _ _ _ _)). exact X.
    - rewrite E. split; [|exact (conj (Bs B) (Cs Cb))]. intros o q [X|X]; [assert (o = a) by congruence; subst o; apply (Dk _ a p); rewrite E1; right; left; reflexivity|]. apply (Dk _ o q). rewrite E1. right. right. exact X.
    - rewrite E. split; [|exact (conj (Bs B) (Cs Cb))]. intros o q [X|X]; [assert (o = a) by congruence; subst o; apply (Dk _ a p); rewrite E1; left; reflexivity|]. apply (Dk _ o q). rewrite E1. right. exact X. }
  destruct Sw as (S1 & S2 & S3). constructor; auto.
  - intros t o p X. destruct (Nat.eq_dec t (who l)) as [->|D]; [apply (S1 o p X)|]. rewrite (proj1 (So t D)) in X. apply (Dk t o p X).
  - intros t n X. destruct (Nat.eq_dec t (who l)) as [->|D]; [apply (S2 n X)|]. rewrite (proj2 (So t D)) in X. apply (Bk t n X).
Qed.
Lemma run_own ls : forall s s', Inv z0 s -> Hist s -> Own s -> Forall nofail ls -> run s ls = Some s' -> no_reuse s' -> no_reuse s /\ Own s'.
Proof.
  induction ls as [|l ls IH]; intros s s' H P W F E N; cbn [run] in E; [assert (s' = s) by congruence; subst; auto|]. apply Forall_inv in F as F1. apply Forall_inv_tail in F.
  destruct (step s l) as [s1|] eqn:St; [|discriminate]. destruct (step_eff _ _ _ H F1 St) as (K & So & Se). pose proof (step_ok _ _ _ H F1 St) as H1. pose proof (hist_step _ _ _ H P K So Se) as P1.
  assert (N1 : no_reuse s1).
  { clear - H1 P1 F E N. revert s1 H1 P1 E. induction ls as [|l ls IH]; intros s1 H1 P1 E; cbn [run] in E; [assert (s' = s1) by congruence; subst; exact N|]. apply Forall_inv in F as F1. apply Forall_inv_tail in F.
    destruct (step s1 l) as [s2|] eqn:St; [|discriminate]. destruct (step_eff _ _ _ H1 F1 St) as (K & So & Se). eapply no_reuse_back; [exact K|]. apply (IH F s2); auto; [eapply step_ok; eassumption|eapply hist_step; eassumption]. }
  pose proof (no_reuse_back _ _ _ K N1) as N0. split; [exact N0|]. apply (IH s1 s' H1 P1); auto. exact (own_step s l s1 H P F1 St N0 W).
Qed.
Theorem C54_own_thread nt ls s t o k q n : reach nt ls s -> Forall nofail ls -> no_reuse s -> In (ECb t o k) (log s) -> In (EAdd o q n) (log s) -> t = q.
Proof.
  intros R F N Cb Ad. assert (W0 : Own (init nt)) by (constructor; [intros t0 o0 p X; rewrite stk_init in X; destruct X|cbn; tauto|cbn; tauto]).
  destruct (reach_hist _ _ _ R F) as [H P]. destruct (run_own ls _ _ (inv_init nt) (hist_init nt) W0 F R N) as [_ W]. destruct (w_cb _ W _ _ _ Cb) as [_ A]. destruct (h_add _ P _ _ _ Ad) as (_ & _ & B & _). congruence.
Qed.

(** *** A descriptor that was added is found under its number until it is closed -
    when aosl_mpq_del_fd is not used. *)
Definition nodelf (f : frame) : bool := match f with FOp ODel _ _ => false | _ => true end.
Record Find (s : st) : Prop := {
  f_nd : forall t f, In f (stk s t) -> nodelf f = true;
  f_tab : forall o, (o < length (objs s))%nat -> o_fd (ob s o) <> INVALID -> tab s (o_fd (ob s o)) = Some o }.
Lemma seff_frames s s' l t : seff s s' l t -> nodel l -> (forall f, In f (stk s t) -> nodelf f = true) -> forall f, In f (stk s' t) -> nodelf f = true.
Proof.
  intros [E|E|f0 E|c o0 n El E|c o0 r E1 E|o0 p n E1 E|o0 E1 E|o0 p k r E1 E|o' o0 p k r E1 E|o0 p p' r E1 E] Nd Hs f Hi; try rewrite E1 in Hs; try rewrite E in Hi.
  - auto.
  - destruct Hi as [<-|X]; auto.
  - apply Hs. rewrite E. right. exact Hi.
  - destruct Hi as [<-|X]; [destruct c; auto; destruct (Nd t n El)|auto].
  - destruct Hi as [<-|X]; [|apply Hs; right; exact X]. specialize (Hs _ (or_introl eq_refl)). destruct c; auto.
  - destruct Hi as [<-|[]]. reflexivity.
  - destruct Hi as [<-|[]]. reflexivity.
  - destruct Hi as [<-|X]; auto.
  - destruct Hi as [<-|X]; [reflexivity|apply Hs; right; right; exact X].
  - destruct Hi as [<-|X]; [reflexivity|apply Hs; right; exact X].
Qed.
Lemma find_step s l s' : Inv z0 s -> nofail l -> nodel l -> step s l = Some s' -> Find s -> Find s'.
Proof.
  intros H Nf Nd St [Fn Ft]. destruct (step_eff _ _ _ H Nf St) as (K & So & Sf). constructor.
  - intros t f X. destruct (Nat.eq_dec t (who l)) as [->|D]; [eapply seff_frames; eauto|]. rewrite (proj1 (So t D)) in X. apply (Fn t f X).
  - destruct K as [(Ln & Co & Tb) _|t n El Tn N0 Ln Cn Co Tb _|t a r Sk El Ln Co Tb _|a b La Ht Lk Ln Co Tb _ Hb|a La Ht Ln Co Tb _]; intros o L V.
    + rewrite Ln in L. rewrite (core_fd _ _ (Co o)) in *. rewrite Tb. auto.
    + destruct (Nat.eq_dec o (length (objs s))) as [->|D].
      * unfold core in Cn. assert (Fd : o_fd (ob s' (length (objs s))) = n) by congruence. rewrite Fd, Tb, Z.eqb_refl. reflexivity.
      * assert (L2 : (o < length (objs s))%nat) by lia. rewrite (core_fd _ _ (Co o L2)) in *. rewrite Tb. pose proof (Ft o L2 V) as X. destruct (Z.eqb_spec (o_fd (ob s o)) n) as [Y|Y]; [congruence|exact X].
    + rewrite Ln in L. assert (Fd : o_fd (ob s' o) = o_fd (ob s o)) by (specialize (Co o); unfold core in Co; destruct (Nat.eqb_spec o a) as [Ea|D]; [subst a|]; congruence). rewrite Fd in *. rewrite Tb. auto.
    + rewrite Ln in L. pose proof (Co o) as X. destruct (Nat.eqb_spec o a) as [Ea|D]; [subst a|].
      * destruct b; [unfold core in X; assert (o_fd (ob s' o) = INVALID) by congruence; congruence|]. destruct (Hb eq_refl) as (t & r & Sk). assert (Y : nodelf (FOp ODel o false) = true) by (apply (Fn t); rewrite Sk; left; reflexivity). discriminate.
      * rewrite (core_fd _ _ X) in *. rewrite Tb. pose proof (Ft o L V) as Y. destruct (Z.eqb_spec (o_fd (ob s o)) (o_fd (ob s a))) as [E|E]; [congruence|exact Y].
    + rewrite Ln in L. rewrite (core_fd _ _ (Co o)) in *. rewrite Tb. destruct (Z.eqb_spec (o_fd (ob s o)) (o_fd (ob s a))) as [E|E]; [|auto].
      destruct (Z.eq_dec (o_fd (ob s a)) INVALID) as [D|D]; [congruence|]. destruct (Ht (Ft a La D)).
Qed.
Theorem C54_found nt ls s o q n : reach nt ls s -> Forall nofail ls -> Forall nodel ls -> In (EAdd o q n) (log s) -> ~ In (EClose o) (log s) -> tab s n = Some o.
Proof.
  intros R F Nd Ad Nc. destruct (reach_hist _ _ _ R F) as [H P]. destruct (h_add _ P _ _ _ Ad) as (L & B & _ & _). pose proof (h_fd _ P _ L Nc) as Fd.
  assert (W : Find s).
  { unfold reach in R. assert (W0 : Find (init nt)) by (constructor; [intros t f X; rewrite stk_init in X; destruct X|intros a X; cbn in X; lia]). clear - R F Nd W0. pose proof (inv_init nt) as H0. revert H0 W0 R. generalize (init nt). induction ls as [|l ls IH]; intros s0 H0 W0 R; cbn [run] in R; [assert (s = s0) by congruence; subst; exact W0|].
    apply Forall_inv in F as F1. apply Forall_inv_tail in F. apply Forall_inv in Nd as N1. apply Forall_inv_tail in Nd. destruct (step s0 l) as [s1|] eqn:St; [|discriminate]. apply (IH F Nd s1); auto; [eapply step_ok; eassumption|eapply find_step; eassumption]. }
  rewrite <- B, <- Fd. apply (f_tab _ W _ L). rewrite Fd. destruct (i_num _ _ H _ L). unfold INVALID. lia.
Qed.
(** So adding its number again is refused, on every queue. *)
Theorem C54_twice_refused nt ls s o q n t : reach nt ls s -> Forall nofail ls -> Forall nodel ls -> In (EAdd o q n) (log s) -> ~ In (EClose o) (log s) ->
  (t < length (ths s))%nat -> user s t = true -> 0 <= n -> step s (LAdd t n) = Some (note (EBusy n) s).
Proof.
  intros R F Nd Ad Nc Lt Us N0. pose proof (C54_found _ _ _ _ _ _ R F Nd Ad Nc) as Tn. unfold step. cbn [who]. apply Nat.ltb_lt in Lt. rewrite Lt. cbn [negb]. rewrite Us, Tn. replace (0 <=? n) with true by lia. reflexivity.
Qed.
(** With aosl_mpq_del_fd the same holds as long as no number is used twice. *)
Lemma once_step s l s' : Inv z0 s -> Hist s -> nofail l -> step s l = Some s' -> no_reuse s' ->
  (forall o, o_linked (ob s o) = true \/ (exists t, In (FAdd o) (stk s t)) -> tab s (o_num (ob s o)) = Some o) ->
  (forall o, o_linked (ob s' o) = true \/ (exists t, In (FAdd o) (stk s' t)) -> tab s' (o_num (ob s' o)) = Some o).
Proof.
  intros H P Nf St Nr W o Ho. destruct (step_eff _ _ _ H Nf St) as (K & So & Sf). pose proof (keff_num _ _ _ K) as Nu.
  assert (Ad : forall t a, In (FAdd a) (stk s' t) -> (exists t', In (FAdd a) (stk s t')) \/ a = length (objs s)).
  { intros t a Hi. destruct (Nat.eq_dec t (who l)) as [->|D]; [destruct (seff_add _ _ _ _ Sf _ Hi); eauto|]. rewrite (proj1 (So t D)) in Hi. eauto. }
  pose proof (step_ok _ _ _ H Nf St) as H'. pose proof (hist_step _ _ _ H P K So Sf) as P'.
  assert (L' : (o < length (objs s'))%nat). { destruct Ho as [Ho|[t Ho]]; [apply (h_lk _ P' _ Ho)|exact (i_frm _ _ H' _ _ Ho)]. }
  destruct K as [(Ln & Co & Tb) _|t n El Tn N0 Ln Cn Co Tb _|t a r Sk El Ln Co Tb _|a b La Ht Lk Ln Co Tb _ Hb|a La Ht Ln Co Tb _].
  - assert (X : o_linked (ob s o) = true \/ (exists t, In (FAdd o) (stk s t))) by (rewrite (core_lk _ _ (Co o)) in Ho; destruct Ho as [Ho|[t Ho]]; [auto|]; destruct (Ad _ _ Ho); [auto|lia]).
    rewrite (core_num _ _ (Co o)), Tb. apply (W o X).
  - destruct (Nat.eq_dec o (length (objs s))) as [->|D].
    + unfold core in Cn. assert (E : o_num (ob s' (length (objs s))) = n) by congruence. rewrite E, Tb, Z.eqb_refl. reflexivity.
    + assert (Lo : (o < length (objs s))%nat) by lia. assert (X : o_linked (ob s o) = true \/ (exists t, In (FAdd o) (stk s t))) by (rewrite (core_lk _ _ (Co o Lo)) in Ho; destruct Ho as [Ho|[t' Ho]]; [auto|]; destruct (Ad _ _ Ho); [auto|lia]).
      pose proof (W o X) as Y. rewrite (core_num _ _ (Co o Lo)), Tb. destruct (Z.eqb_spec (o_num (ob s o)) n) as [E|E]; [congruence|exact Y].
  - rewrite Ln in L'. rewrite (proj1 (Nu o L')), Tb. destruct (Nat.eq_dec o a) as [->|D]; [apply W; right; exists t; rewrite Sk; left; reflexivity|].
    apply W. specialize (Co o). rewrite (proj2 (Nat.eqb_neq _ _) D) in Co. rewrite (core_lk _ _ Co) in Ho. destruct Ho as [Ho|[t' Ho]]; [auto|]. destruct (Ad _ _ Ho); [auto|lia].
  - rewrite Ln in L'. destruct (Nat.eq_dec o a) as [->|D].
    + exfalso. specialize (Co a). rewrite Nat.eqb_refl in Co. unfold core in Co. assert (o_linked (ob s' a) = false) by congruence. destruct Ho as [Ho|[t Ho]]; [congruence|]. destruct (Ad _ _ Ho) as [[t' X]|X]; [|lia]. destruct (i_add _ _ H _ _ X). congruence.
    + assert (X : o_linked (ob s o) = true \/ (exists t, In (FAdd o) (stk s t))). { specialize (Co o). rewrite (proj2 (Nat.eqb_neq _ _) D) in Co. rewrite (core_lk _ _ Co) in Ho. destruct Ho as [Ho|[t' Ho]]; [auto|]. destruct (Ad _ _ Ho); [auto|lia]. }
      pose proof (W o X) as Y. rewrite (proj1 (Nu o L')), Tb. destruct (Z.eqb_spec (o_num (ob s o)) (o_fd (ob s a))) as [E|E]; [congruence|exact Y].
  - rewrite Ln in L'. assert (X : o_linked (ob s o) = true \/ (exists t, In (FAdd o) (stk s t))) by (rewrite (core_lk _ _ (Co o)) in Ho; destruct Ho as [Ho|[t Ho]]; [auto|]; destruct (Ad _ _ Ho); [auto|lia]).
    pose proof (W o X) as Y. rewrite (core_num _ _ (Co o)), Tb. destruct (Z.eqb_spec (o_num (ob s o)) (o_fd (ob s a))) as [E|E]; [|exact Y]. exfalso. apply Ht. rewrite <- E, Y. f_equal.
    destruct (i_num _ _ H _ La) as [Na [Fa|Fa]]; [|destruct (i_num _ _ H _ L'); unfold INVALID in Fa; lia]. apply Nr; rewrite ?Ln; auto. rewrite (proj1 (Nu o L')), (proj1 (Nu a La)). congruence.
Qed.
Theorem C54_found_once nt ls s o q n : reach nt ls s -> Forall nofail ls -> no_reuse s -> In (EAdd o q n) (log s) -> ~ In (EClose o) (log s) -> ~ In (EDel o) (log s) -> tab s n = Some o.
Proof.
  intros R F Nr Ad Nc Nd. destruct (reach_hist _ _ _ R F) as [H P]. destruct (h_add _ P _ _ _ Ad) as (L & B & _ & Lk).
  assert (Lk' : o_linked (ob s o) = true). { destruct Lk as [Lk|Lk]; [exact Lk|]. assert (X : (1 <= ends o (log s))%nat) by lia. apply ends_pos in X. tauto. }
  rewrite <- B. enough (W : forall o, o_linked (ob s o) = true \/ (exists t, In (FAdd o) (stk s t)) -> tab s (o_num (ob s o)) = Some o) by (apply W; auto).
  unfold reach in R. clear - R F Nr. assert (W0 : forall o, o_linked (ob (init nt) o) = true \/ (exists t, In (FAdd o) (stk (init nt) t)) -> tab (init nt) (o_num (ob (init nt) o)) = Some o).
  { intros o [X|[t X]]; [unfold ob in X; cbn in X; destruct o; discriminate|rewrite stk_init in X; destruct X]. }
  pose proof (inv_init nt) as H0. pose proof (hist_init nt) as P0. revert H0 P0 W0 R. generalize (init nt). induction ls as [|l ls IH]; intros s0 H0 P0 W0 R; cbn [run] in R; [assert (s = s0) by congruence; subst; exact W0|].
  apply Forall_inv in F as F1. apply Forall_inv_tail in F. destruct (step s0 l) as [s1|] eqn:St; [|discriminate]. destruct (step_eff _ _ _ H0 F1 St) as (K & So & Se). pose proof (step_ok _ _ _ H0 F1 St) as H1. pose proof (hist_step _ _ _ H0 P0 K So Se) as P1.
  apply (IH F s1); auto. assert (N1 : no_reuse s1).
  { clear - H1 P1 F R Nr. revert s1 H1 P1 R. induction ls as [|l ls IH]; intros s1 H1 P1 E; cbn [run] in E; [assert (s = s1) by congruence; subst; exact Nr|]. apply Forall_inv in F as F1. apply Forall_inv_tail in F.
    destruct (step s1 l) as [s2|] eqn:St; [|discriminate]. destruct (step_eff _ _ _ H1 F1 St) as (K & So & Se). eapply no_reuse_back; [exact K|]. apply (IH F s2); auto; [eapply step_ok; eassumption|eapply hist_step; eassumption]. }
  exact (once_step s0 l s1 H0 P0 F1 St N1 W0).
Qed.

(** ** Departures *)
Ltac runs := unfold reach; vm_compute; reflexivity.
Definition fin (nt : nat) (ls : list label) : st := match run (init nt) ls with Some s => s | None => init 0 end.
(** aosl_mpq_del_fd in the descriptor's own data callback: the reading loop goes on
    reading from it and calling the user's functions. *)
Definition del_in_callback : list label :=
  [LAdd 0 5; LAddOk 0; LPoll 0 [5]; LDisp 0 PR; LCb 0 KData; LCall 0 ODel 5; LExec 0 0; LRetOp 0; LRet 0; LCb 0 KRead; LRet 0; LCb 0 KData].
Theorem C54_callback_after_del_refuted : exists s, reach 1 del_in_callback s /\ log s = [ECb 0 0 KData; ECb 0 0 KRead; EDel 0; ECb 0 0 KData; EAdd 0 0 5].
Proof. eexists. split; [runs|reflexivity]. Qed.
(** aosl_close in the descriptor's own event callback (ready for writing): the
    reading side still runs and calls read_f, with the invalid number, and with what that
    returns data_f. *)
Definition close_in_event : list label :=
  [LAdd 0 5; LAddOk 0; LPoll 0 [5]; LDisp 0 PW; LCb 0 KEvent; LCall 0 OClose 5; LExec 0 0; LRetOp 0; LRet 0; LCb 0 KRead; LRet 0; LCb 0 KData].
Theorem C54_callback_after_close_refuted : exists s, reach 1 close_in_event s /\ log s = [ECb 0 0 KData; ECb 0 0 KRead; EClose 0; ECb 0 0 KEvent; EAdd 0 0 5] /\ o_fd (ob s 0) = INVALID.
Proof. eexists. split; [runs|]. split; reflexivity. Qed.
(** Two threads delete a descriptor; in between the number is added again.  The second
    call, on the old object, takes the new one out of the table: it cannot be
    found any more, the number can be added a third time, and when the queue is
    destroyed its loop over the descriptors never ends. *)
Definition stale_del : list label :=
  [LAdd 0 5; LAddOk 0; LCall 1 ODel 5; LCall 2 ODel 5; LExec 1 0; LRetOp 1; LAdd 0 5; LAddOk 0; LExec 2 0; LRetOp 2].
Theorem C54_stale_delete_refuted : exists s, reach 3 stale_del s /\ In (EAdd 1 0 5) (log s) /\ ~ In (EDel 1) (log s) /\ ~ In (EClose 1) (log s) /\ tab s 5 = None /\
  (forall fuel, fini fuel 0 s = None) /\
  exists s', run s [LAdd 0 5; LAddOk 0] = Some s' /\ o_linked (ob s' 1) = true /\ o_fd (ob s' 1) = 5 /\ o_linked (ob s' 2) = true /\ o_fd (ob s' 2) = 5.
Proof.
  exists (fin 3 stale_del). split; [runs|]. split; [vm_compute; auto|]. split; [vm_compute; intuition discriminate|]. split; [vm_compute; intuition discriminate|]. split; [reflexivity|]. split.
  - assert (G : forall s, first_of s 0 = Some 1%nat -> tab s 5 = None -> ob s 1 = mkO 5 5 0 1 true false -> length (objs s) = 2%nat -> forall fuel, fini fuel 0 s = None).
    { intros s A B C D fuel. revert s A B C D. induction fuel as [|f IH]; intros s A B C D; [reflexivity|]. cbn [fini]. unfold fini_round. rewrite A. destruct s as [os tb th bt lg]. destruct os as [|x0 [|x1 [|? ?]]]; try discriminate. unfold ob in C. cbn in C. subst x1. cbn [tab] in B.
      assert (E : close_f 0 1 (mkS [x0; mkO 5 5 0 1 true false] tb th bt lg) = mkS [x0; mkO 5 5 0 1 true false] (fun x => if x =? 5 then None else tb x) th bt lg).
      { unfold close_f, getref, touch, q_del_f, remove_fd. cbn -[putref Z.eqb]. unfold touch. cbn -[putref Z.eqb]. rewrite B. cbn -[Z.eqb]. reflexivity. }
      rewrite E. apply IH; auto. }
    intros fuel. apply G; reflexivity.
  - eexists. split; [vm_compute; reflexivity|]. auto.
Qed.
(** A batch of events holds a number; a callback closes that descriptor, and the
    number goes to a new one of another queue: the event is delivered to the new
    one, on the wrong thread. *)
Definition stale_event : list label :=
  [LAdd 0 5; LAddOk 0; LAdd 0 6; LAddOk 0; LPoll 0 [5; 6]; LDisp 0 PR; LCb 0 KData; LCall 0 OClose 6; LExec 0 0; LRetOp 0; LAdd 1 6; LAddOk 1;
   LRet 0; LMove 0 PX; LPut 0; LDisp 0 PR; LCb 0 KRead].
Theorem C54_wrong_thread_refuted : exists s, reach 2 stale_event s /\ In (EAdd 2 1 6) (log s) /\ In (ECb 0 2 KRead) (log s).
Proof. eexists. split; [runs|]. cbn. auto 10. Qed.
(** If registering with the system fails the object is freed although another
    thread may have got hold of it meanwhile. *)
Definition failing_add : list label := [LAdd 0 5; LCall 1 OUse 5; LAddFail 0; LSkip 1].
Theorem C54_failed_add_refuted : exists s, reach 2 failing_add s /\ In (EBad 0) (log s).
Proof. eexists. split; [runs|]. cbn. auto. Qed.

(** ** The hypotheses are met *)
(** A descriptor is added, its data callback closes it while another thread
    holds it to write; it is released when that thread is through. *)
Definition life : list label :=
  [LAdd 0 5; LAddOk 0; LCall 1 OUse 5; LPoll 0 [5]; LDisp 0 PR; LCb 0 KRead; LRet 0; LCb 0 KData; LCall 0 OClose 5; LExec 0 0; LRetOp 0].
Definition life2 : list label := [LRet 0; LPut 0; LExec 1 0; LRetOp 1; LAdd 1 5; LAddOk 1].
Example life_run : exists s, reach 2 life s /\ log s = [EClose 0; ECb 0 0 KData; ECb 0 0 KRead; EAdd 0 0 5] /\ forall t, settled 0 (stk s t).
Proof. exists (fin 2 life). split; [runs|]. split; [reflexivity|]. intros t. unfold stk.
  replace (ths (fin 2 life)) with [[FCb 0 KData; FDisp 0 PR]; [FOp OUse 0 false]] by (vm_compute; reflexivity). destruct t as [|[|[|t]]]; cbn; auto. Qed.
Example life_all : exists s, reach 2 (life ++ life2) s /\ log s = [EAdd 1 1 5; EFree 0; EClose 0; ECb 0 0 KData; ECb 0 0 KRead; EAdd 0 0 5] /\ ~ in_use s 0.
Proof. exists (fin 2 (life ++ life2)). split; [runs|]. split; [reflexivity|]. intros (t & f & Hi & _). unfold stk in Hi.
  replace (ths (fin 2 (life ++ life2))) with [@nil frame; []] in Hi by (vm_compute; reflexivity). destruct t as [|[|[|t]]]; cbn in Hi; auto. Qed.
Example life_ok : Forall nofail (life ++ life2) /\ Forall nodel (life ++ life2).
Proof. split; repeat constructor; discriminate. Qed.
Example once_ok : no_reuse (fin 2 life).
Proof. intros a b La Lb _. replace (length (objs (fin 2 life))) with 1%nat in * by (vm_compute; reflexivity). lia. Qed.
Print Assumptions C54_no_use_after_free. Print Assumptions C54_released_once. Print Assumptions C54_released_last. Print Assumptions C54_no_leak. Print Assumptions C54_ended_once.
Print Assumptions C54_closed_silent. Print Assumptions C54_own_thread. Print Assumptions C54_found. Print Assumptions C54_twice_refused. Print Assumptions C54_found_once.
Print Assumptions C54_callback_after_del_refuted. Print Assumptions C54_callback_after_close_refuted. Print Assumptions C54_stale_delete_refuted. Print Assumptions C54_wrong_thread_refuted. Print Assumptions C54_failed_add_refuted.
