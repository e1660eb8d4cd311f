(** * One object and the calls about it: the invariant. *)
From Verif Require Import Base Refobj.
Ltac Zify.zify_post_hook ::= Z.div_mod_to_equations.

(** ** Sums over threads and over stacks. *)
Fixpoint sumT (T : nat) (f : nat -> Z) : Z := match T with O => 0 | S n => f n + sumT n f end.
Lemma sumT_ext T f g : (forall t, (t < T)%nat -> f t = g t) -> sumT T f = sumT T g.
Proof. induction T as [|n IH]; cbn; intros H; [reflexivity|]. rewrite H by lia. rewrite IH; [reflexivity|]. intros t L. apply H. lia. Qed.
Lemma sumT_upd T f g t : (t < T)%nat -> (forall x, x <> t -> g x = f x) -> sumT T g = sumT T f - f t + g t.
Proof.
  induction T as [|n IH]; intros L O; [lia|]. cbn. destruct (Nat.eq_dec t n) as [->|N].
  - rewrite (sumT_ext n g f); [lia|]. intros x Lx. apply O. lia.
  - rewrite (O n) by congruence. rewrite IH; [lia|lia|assumption].
Qed.
Lemma sumT_nonneg T f : (forall t, 0 <= f t) -> 0 <= sumT T f.
Proof. intros H. induction T as [|n IH]; cbn; [lia|]. specialize (H n). lia. Qed.
Lemma sumT_ge T f t : (t < T)%nat -> (forall t, 0 <= f t) -> f t <= sumT T f.
Proof.
  intros L H. induction T as [|n IH]; [lia|]. cbn. pose proof (H n). pose proof (sumT_nonneg n f H).
  destruct (Nat.eq_dec t n) as [->|N]; [lia|]. specialize (IH ltac:(lia)). lia.
Qed.
Lemma sumT_two T f t u : (t < T)%nat -> (u < T)%nat -> t <> u -> (forall t, 0 <= f t) -> f t + f u <= sumT T f.
Proof.
  intros L M N H. induction T as [|n IH]; [lia|]. cbn. pose proof (H n).
  destruct (Nat.eq_dec t n) as [->|N1]; [pose proof (sumT_ge n f u ltac:(lia) H); lia|].
  destruct (Nat.eq_dec u n) as [->|N2]; [pose proof (sumT_ge n f t ltac:(lia) H); lia|].
  specialize (IH ltac:(lia) ltac:(lia)). lia.
Qed.
Lemma sumT_zero T f : (forall t, f t = 0) -> sumT T f = 0.
Proof. intros H. induction T as [|n IH]; cbn; [reflexivity|]. rewrite H, IH. reflexivity. Qed.
Fixpoint csum (c : frame -> Z) (l : list frame) : Z := match l with [] => 0 | x :: r => c x + csum c r end.
Lemma csum_nonneg c l : (forall x, 0 <= c x) -> 0 <= csum c l.
Proof. intros H. induction l as [|x l IH]; cbn; [lia|]. specialize (H x). lia. Qed.
Definition b2z (b : bool) : Z := if b then 1 else 0.

(** ** What a call contributes. *)
Definition about (o : nat) (x : frame) : bool := match x with FOp o' _ _ _ _ _ | FQ o' _ _ _ _ | FDes o' _ _ _ _ | FFin o' _ | FNew o' => (o' =? o)%nat | FMark _ => false end.
Definition proj (o : nat) (l : list frame) : list frame := filter (about o) l.
(** A reference. *)
Definition use (x : frame) : Z := match x with FOp _ nr _ _ st _ => if nr then 0 else match st with SRet => 0 | _ => 1 end | FQ _ _ st _ _ => match st with SRet => 0 | _ => 1 end | FDes _ _ _ st _ => match st with DRet => 0 | _ => 1 end | _ => 0 end.
(** The first reference. *)
Definition ownc (x : frame) : Z := match x with FNew _ => 1 | FDes _ true _ (DChk | DWant | DSet | DUnl | DDel) _ => 1 | _ => 0 end.
Definition finc (x : frame) : Z := match x with FFin _ _ => 1 | _ => 0 end.
Definition finm (x : frame) : Z := match x with FFin _ FMem => 1 | _ => 0 end.
(** A counted read lock; the thread's write mark; a read lock on the raw lock besides the counted ones; a write lock on it; lk. *)
Definition rdc (x : frame) : Z := match x with FOp _ _ _ HRd (SLocked | SRun | SUnl) _ => 1 | _ => 0 end.
Definition wlc (x : frame) : Z := match x with FOp _ _ _ HWr (SLocked | SRun | SUnl) _ => 1 | FOp _ _ _ HUp (SUpLk | SUpGap | SLocked | SRun | SUnl) _ => 1 | _ => 0 end.
Definition rraw (x : frame) : Z := match x with FQ _ true (SLocked | SRun | SUnl) _ _ => 1 | FOp _ _ _ HUp (SUpGap | SLocked | SRun | SUnl | SDownGap) _ => -1 | _ => 0 end.
Definition wrw (x : frame) : Z := match x with FOp _ _ _ (HWr | HUp) (SLocked | SRun | SUnl) _ => 1 | FDes _ _ _ (DSet | DUnl) _ => 1 | _ => 0 end.
Definition lkw (x : frame) : Z := match x with FOp _ _ _ HWr (SLocked | SRun | SUnl) _ => 1 | FOp _ _ _ HUp (SUpLk | SUpGap | SLocked | SRun | SUnl | SDownGap | SDownLk) _ => 1 | FDes _ _ _ (DSet | DUnl) _ => 1 | _ => 0 end.
Definition gcc (x : frame) : Z := match x with FOp _ nr _ _ st _ => if nr then 0 else match st with SRet => 0 | _ => 1 end | FQ _ _ st _ _ => match st with SRet => 0 | _ => 1 end | _ => 0 end.
(** A callback of aosl_ref_read or aosl_ref_write, or a queue function with the read lock, runs. *)
Definition openc (x : frame) : Z := match x with FOp _ _ (Read | Write) _ SRun _ => 1 | FQ _ true SRun _ _ => 1 | _ => 0 end.
Definition dwc (x : frame) : Z := match x with FDes _ _ _ DWait _ => 1 | _ => 0 end.
Definition thr (l : list frame) : Z := (if 0 <? csum rdc l then 1 else 0) + csum rraw l.
(** A call that waits for the one above it. *)
Definition below_ok (x : frame) : Prop := match x with FOp _ _ _ _ (SRun | SRet) _ => True | FQ _ _ (SRun | SRet) _ _ => True | FMark _ => True | FDes _ _ _ DRet _ => True | FFin _ FDtor => True | _ => False end.

(** ** Local conditions of a call and the calls below it about the same object. *)
Definition locked_ok (r : obj) (o : nat) (k : kind) (h : how) (l : list frame) : Prop :=
  (k = Read /\ h = HRd /\ onq o l && negb (async r) = false) \/ (k = Write /\ h = HWr) \/ (k = Write /\ h = HUp /\ onq o l = true /\ async r = false).
Definition wfx (r : obj) (o : nat) (x : frame) (l : list frame) : Prop :=
  match x with
  | FOp _ nr k h st e =>
      (nr = true -> k = Read /\ onq o l = true) /\ (e <> 0 -> e = - AOSL_EPERM /\ destroyed r = true) /\
      match st with
      | SGot => h = HNo
      | SPut | SRet => True
      | SUpLk | SUpGap | SDownGap | SDownLk => k = Write /\ h = HUp /\ onq o l = true /\ async r = false
      | SLocked => locked_ok r o k h l
      | SRun | SUnl => k = Hold /\ h = HNo \/ (k = Read /\ h = HNo /\ onq o l = true /\ async r = false) \/ locked_ok r o k h l
      end
  | FQ _ lkd st rf _ =>
      (rf = true -> destroyed r = true /\ match st with SUnl | SPut | SRet => True | _ => False end) /\
      match st with
      | SGot => lkd = false
      | SLocked | SRun | SUnl => lkd = negb (async r)
      | SPut | SRet => True
      | _ => False
      end
  | FDes _ del g st e =>
      match st with
      | DStart => True
      | _ => onq o l && negb (async r) = false /\ csum rdc l = 0 /\ (cfree r = true -> g = csum gcc l)
      end /\
      match st with
      | DUninst => del = true
      | DUnl => destroyed r = true
      | DDel | DWait => del = true /\ destroyed r = true
      | DPut | DRet => (e = 0 \/ e = - AOSL_EPERM) /\ destroyed r = true \/ e = - AOSL_EINVAL
      | _ => True
      end /\
      match st with DUnl | DDel => e = 0 \/ e = - AOSL_EPERM | _ => True end
  | _ => True
  end.
Fixpoint wfs (r : obj) (o : nat) (l : list frame) : Prop := match l with [] => True | x :: l' => wfx r o x l' /\ wfs r o l' end.

Record OInv (T : nat) (o : nat) (r : obj) (i : bool) (k : nat -> list frame) : Prop := mkInv {
  v_use : usage r = sumT T (fun t => csum use (k t)) + (b2z i + sumT T (fun t => csum ownc (k t)));
  v_own : b2z i + sumT T (fun t => csum ownc (k t)) <= 1;
  v_rd : readers r = sumT T (fun t => thr (k t));
  v_wr : b2z (writer r) = sumT T (fun t => csum wrw (k t));
  v_lk : b2z (lk r) = sumT T (fun t => csum lkw (k t));
  v_ex : writer r = true -> readers r = 0;
  v_lc : forall t, (t < T)%nat -> lc r t = if 0 <? csum wlc (k t) then LWr else LRd (Z.to_nat (csum rdc (k t)));
  v_lc2 : forall t, (t < T)%nat -> csum wlc (k t) <= 1 /\ (0 < csum wlc (k t) -> csum rdc (k t) = 0);
  v_gc : cfree r = true -> forall t, (t < T)%nat -> gc r t = csum gcc (k t);
  v_wf : forall t, (t < T)%nat -> wfs r o (k t);
  v_des : destroyed r = true -> forall t, (t < T)%nat -> csum openc (k t) = 0;
  v_own0 : i = false -> sumT T (fun t => csum ownc (k t)) = 0 -> destroyed r = true;
  v_fin1 : 0 < usage r -> sumT T (fun t => csum finc (k t)) = 0 /\ gone r = false;
  v_fin2 : usage r = 0 -> sumT T (fun t => csum finc (k t)) + b2z (gone r) = 1;
  v_rel : b2z (rel r) = sumT T (fun t => csum finm (k t)) + b2z (gone r);
  v_wait : forall tw, waited r = Some tw -> i = false /\ sumT T (fun t => csum ownc (k t)) = 0 /\ forall t, (t < T)%nat -> t <> tw -> csum use (k t) = 0;
  v_wait2 : cfree r = true -> async r = false -> i = false -> sumT T (fun t => csum ownc (k t)) = 0 -> 0 < sumT T (fun t => csum dwc (k t)) \/ waited r <> None }.

Lemma use_nn x : 0 <= use x. Proof. destruct x as [? [] ? ? [] ?|? ? [] ? ?| |? ? ? [] ?| |]; cbn; lia. Qed.
Lemma own_nn x : 0 <= ownc x. Proof. destruct x as [? [] ? ? [] ?|? ? [] ? ?| |? [] ? [] ?| |]; cbn; lia. Qed.
Lemma rdc_nn x : 0 <= rdc x. Proof. destruct x as [? ? ? [] [] ?|? ? [] ? ?| |? ? ? [] ?| |]; cbn; lia. Qed.
Lemma wlc_nn x : 0 <= wlc x. Proof. destruct x as [? ? ? [] [] ?|? ? [] ? ?| |? ? ? [] ?| |]; cbn; lia. Qed.
Lemma wrw_nn x : 0 <= wrw x. Proof. destruct x as [? ? ? [] [] ?|? ? [] ? ?| |? ? ? [] ?| |]; cbn; lia. Qed.
Lemma lkw_nn x : 0 <= lkw x. Proof. destruct x as [? ? ? [] [] ?|? ? [] ? ?| |? ? ? [] ?| |]; cbn; lia. Qed.
Lemma gcc_nn x : 0 <= gcc x. Proof. destruct x as [? [] ? ? [] ?|? ? [] ? ?| |? ? ? [] ?| |]; cbn; lia. Qed.
Lemma openc_nn x : 0 <= openc x. Proof. destruct x as [? ? [] ? [] ?|? [] [] ? ?| |? ? ? [] ?| |]; cbn; lia. Qed.
Lemma finc_nn x : 0 <= finc x. Proof. destruct x; cbn; lia. Qed.
Lemma finm_nn x : 0 <= finm x. Proof. destruct x as [| | | |? []|]; cbn; lia. Qed.
Lemma dwc_nn x : 0 <= dwc x. Proof. destruct x as [| | |? ? ? [] ?| |]; cbn; lia. Qed.
Lemma wrw_lkw l : csum wrw l <= csum lkw l.
Proof. induction l as [|x l IH]; cbn [csum]; [lia|]. assert (wrw x <= lkw x); [|lia]. destruct x as [? ? ? [] [] ?|? ? [] ? ?| |? ? ? [] ?| |]; cbn; lia. Qed.
Lemma finm_finc l : csum finm l <= csum finc l.
Proof. induction l as [|x l IH]; cbn [csum]; [lia|]. assert (finm x <= finc x); [|lia]. destruct x as [| | | |? []|]; cbn; lia. Qed.
Lemma use_gcc l : Forall below_ok l -> csum use l = csum gcc l.
Proof. induction 1 as [|x l H _ IH]; cbn [csum]; [reflexivity|]. assert (use x = gcc x); [|lia]. destruct x as [? ? ? ? [] ?|? ? [] ? ?| |? ? ? [] ?| |]; cbn in *; try contradiction; reflexivity. Qed.

(** Frames of one object. *)
Definition allab (o : nat) (l : list frame) : Prop := Forall (fun x => about o x = true) l.
Lemma onq_use o l : onq o l = true -> 1 <= csum use l.
Proof.
  unfold onq. induction l as [|x l IH]; cbn [existsb csum]; intros H; [discriminate|]. apply orb_true_iff in H. pose proof (csum_nonneg use l use_nn). pose proof (use_nn x).
  destruct H as [H|H]; [|specialize (IH H); lia]. assert (use x = 1); [|lia]. destruct x as [|? ? [] ? ?| | | |]; try discriminate H. reflexivity.
Qed.
Lemma raw_lower r o l : wfs r o l -> b2z (onq o l && negb (async r)) <= csum rraw l + csum lkw l.
Proof.
  induction l as [|x l IH]; cbn [wfs csum onq existsb]; intros H; [cbn; lia|]. destruct H as [H1 H2]. specialize (IH H2). unfold onq in IH.
  assert (X : b2z ((onq1 o x || existsb (onq1 o) l) && negb (async r)) <= b2z (existsb (onq1 o) l && negb (async r)) + (rraw x + lkw x)); [|lia].
  destruct x as [? ? ? [] [] ?|? [] [] ? ?| |? ? ? [] ?| |]; cbn [onq1 rraw lkw orb]; try lia;
  try (destruct (existsb (onq1 o) l), (async r); cbn; lia).
  - cbn in H1. destruct (_ =? o)%nat, (existsb (onq1 o) l), (async r); cbn; lia.
  - cbn [wfx] in H1. destruct H1 as [_ H1]. destruct (async r); [|discriminate H1]. rewrite !andb_false_r. cbn; lia.
Qed.
Lemma raw_nonneg r o l : wfs r o l -> csum lkw l <= 1 -> 0 <= csum rraw l.
Proof.
  induction l as [|x l IH]; cbn [wfs csum]; intros H L; [lia|]. destruct H as [H1 H2]. pose proof (csum_nonneg lkw l lkw_nn). pose proof (lkw_nn x).
  specialize (IH H2 ltac:(lia)). pose proof (raw_lower r o l H2) as B. 
  destruct x as [? ? k h st e|? [] [] ? ?| |? ? ? [] ?| |]; cbn [rraw] in *; try lia.
  destruct h; try lia. destruct st; try lia; cbn [lkw] in *; cbn [wfx] in H1.
  - destruct H1 as [_ [_ [_ [_ [A C]]]]]. rewrite A, C in B. cbn in B. lia.
  - destruct H1 as [_ [_ [[_ [X _]]|[[_ X]|[_ [_ [A C]]]]]]]; try discriminate X. rewrite A, C in B. cbn in B. lia.
  - destruct H1 as [_ [_ [[_ X]|[[_ [X _]]|[[_ [X _]]|[[_ X]|[_ [_ [A C]]]]]]]]]; try discriminate X. rewrite A, C in B. cbn in B. lia.
  - destruct H1 as [_ [_ [[_ X]|[[_ [X _]]|[[_ [X _]]|[[_ X]|[_ [_ [A C]]]]]]]]]; try discriminate X. rewrite A, C in B. cbn in B. lia.
  - destruct H1 as [_ [_ [_ [_ [A C]]]]]. rewrite A, C in B. cbn in B. lia.
Qed.
Lemma closed r o l : wfs r o l -> csum rdc l = 0 -> csum lkw l = 0 -> csum rraw l = 0 -> csum openc l = 0.
Proof.
  assert (G : wfs r o l -> csum rdc l = 0 -> csum lkw l = 0 -> csum rraw l = 0 \/ csum rraw l = 0 -> onq o l && negb (async r) = false -> csum openc l = 0).
  { induction l as [|x l IH]; cbn [wfs csum onq existsb]; intros H R L W Q; [lia|]. destruct H as [H1 H2].
    pose proof (csum_nonneg lkw l lkw_nn). pose proof (lkw_nn x). pose proof (csum_nonneg rdc l rdc_nn). pose proof (rdc_nn x).
    assert (Q' : onq o l && negb (async r) = false).
    { unfold onq. destruct (existsb (onq1 o) l); [|reflexivity]. rewrite orb_true_r in Q. exact Q. }
    pose proof (raw_nonneg r o l H2 ltac:(lia)) as N.
    assert (NX : 0 <= rraw x).
    { destruct x as [? ? ? h st ?|? [] [] ? ?| | | |]; cbn; try lia. destruct h; try lia. destruct st; try lia; cbn [lkw] in *; lia. }
    assert (E : rraw x = 0 /\ csum rraw l = 0) by lia. destruct E as [E1 E2].
    rewrite IH by (auto; lia). assert (openc x = 0); [|lia]. unfold onq in *.
    destruct x as [? ? k h st e|? lkd st ? ?| |? ? ? [] ?| |]; cbn [openc]; try reflexivity.
    - destruct st; try (destruct k; reflexivity). destruct k; try reflexivity.
      + cbn [wfx] in H1. destruct H1 as [_ [_ [[X _]|[[_ [_ [A C]]]|[[_ [X _]]|[[X _]|[X _]]]]]]]; try discriminate X; [|subst h; cbn [rdc] in *; lia]. unfold onq in A. rewrite A, C in Q'. discriminate Q'.
      + cbn [wfx] in H1. destruct H1 as [_ [_ [[X _]|[[X _]|[[X _]|[[_ X]|[_ [X _]]]]]]]]; try discriminate X; subst h; cbn [lkw] in *; lia.
    - destruct lkd; [|destruct st; reflexivity]. destruct st; cbn [rraw openc] in *; try lia. }
  intros H R L W. apply G; auto. pose proof (raw_lower r o l H) as B. rewrite W, L in B. destruct (onq o l && negb (async r)); [cbn in B; lia|reflexivity].
Qed.
Lemma thr_nonneg r o l : wfs r o l -> csum lkw l <= 1 -> 0 <= thr l.
Proof. intros H L. unfold thr. pose proof (raw_nonneg r o l H L). destruct (0 <? _); lia. Qed.
Lemma onq_open r o l : wfs r o l -> onq o l = true -> async r = false -> 1 <= csum openc l.
Proof.
  unfold onq. induction l as [|x l IH]; cbn [wfs existsb csum]; intros H Q A; [discriminate|]. destruct H as [H1 H2]. apply orb_true_iff in Q.
  pose proof (csum_nonneg openc l openc_nn). pose proof (openc_nn x). destruct Q as [Q|Q]; [|specialize (IH H2 Q A); lia].
  assert (openc x = 1); [|lia]. destruct x as [|? ? [] ? ?| | | |]; try discriminate Q. cbn [wfx] in H1. destruct H1 as [_ ->]. rewrite A. reflexivity.
Qed.
