(** * The invariant of the read-write lock is preserved. *)
From Verif Require Import Base Rwlock RwlockInv.

Definition small (N : nat) : Prop := Z.of_nat N < 536870912.

Lemma sums_one N s s' t p o : (t < N)%nat -> (forall u, u <> t -> s_pc s' u = s_pc s u /\ s_owed s' u = s_owed s u) ->
  s_pc s' t = p -> s_owed s' t = o ->
  HR N s' = HR N s - hr (s_pc s t) (s_owed s t) + hr p o /\ TT N s' = TT N s - tt (s_pc s t) + tt p /\
  TG N s' = TG N s - tg (s_pc s t) + tg p /\
  FR N s' = FR N s - fr (s_pc s t) + fr p /\ FW N s' = FW N s - fw (s_pc s t) + fw p /\ HW N s' = HW N s - hw (s_pc s t) + hw p.
Proof.
  intros Ht Hu Hp Ho. unfold HR, TT, TG, FR, FW, HW. subst p o.
  repeat split.
  - apply (sum_one N (fun v => hr (s_pc s v) (s_owed s v)) (fun v => hr (s_pc s' v) (s_owed s' v)) t Ht).
    intros u Hn. destruct (Hu u Hn) as [-> ->]. reflexivity.
  - apply (sum_one N (fun v => tt (s_pc s v)) (fun v => tt (s_pc s' v)) t Ht). intros u Hn. destruct (Hu u Hn) as [-> _]. reflexivity.
  - apply (sum_one N (fun v => tg (s_pc s v)) (fun v => tg (s_pc s' v)) t Ht). intros u Hn. destruct (Hu u Hn) as [-> _]. reflexivity.
  - apply (sum_one N (fun v => fr (s_pc s v)) (fun v => fr (s_pc s' v)) t Ht). intros u Hn. destruct (Hu u Hn) as [-> _]. reflexivity.
  - apply (sum_one N (fun v => fw (s_pc s v)) (fun v => fw (s_pc s' v)) t Ht). intros u Hn. destruct (Hu u Hn) as [-> _]. reflexivity.
  - apply (sum_one N (fun v => hw (s_pc s v)) (fun v => hw (s_pc s' v)) t Ht). intros u Hn. destruct (Hu u Hn) as [-> _]. reflexivity.
Qed.

Lemma add_f N s d : inv N s -> small N -> - 17179869184 <= d <= 17179869184 -> add (s_cnt s) d = s_cnt s + d.
Proof.
  intros I S D. apply add_id. rewrite (i_cnt _ _ I). pose proof (bounds _ _ I) as [? ? ? ? ? ? X L].
  unfold formula, small, act, wrs, M in *. destruct L as [[-> _]|[-> _]]; lia.
Qed.
Lemma active_f a w l : 0 <= a < M -> active (formula a w l) = a.
Proof.
  intros H. rewrite active_mod. unfold formula. replace (a - M * (w + l)) with (a + (- (w + l)) * M) by lia.
  rewrite Z.mod_add by (unfold M; lia). apply Z.mod_small, H.
Qed.

Lemma init_inv N : inv N init_state.
Proof.
  assert (Z0 : forall f, (forall t, f t = 0) -> sumN N f = 0).
  { intros f H. induction N as [|n IH]; cbn; [reflexivity|]. rewrite IH, H; reflexivity. }
  split; cbn; try tauto; try discriminate; try (intros; split; (discriminate || intuition discriminate)); try (intros; constructor).
  - unfold act, wrs, HR, TT, FR, FW, HW. rewrite !Z0 by reflexivity. reflexivity.
  - unfold HW. rewrite Z0 by reflexivity. lia.
  - unfold HW. rewrite Z0 by reflexivity. lia.
Qed.

Ltac proj := cbn [s_cnt s_mx s_list s_pc s_pulse s_null s_owed s_gen s_tr go fresh set_pulse set_null set_owed leave] in *.
Ltac eqs :=
  repeat match goal with
  | H : context [fupd ?f ?k ?v ?x] |- _ =>
      first [ rewrite (fupd_eq f k v) in H | rewrite (fupd_ne f k v x) in H by congruence
            | destruct (Nat.eq_dec x k); [subst x|] ]
  | |- context [fupd ?f ?k ?v ?x] =>
      first [ rewrite (fupd_eq f k v) | rewrite (fupd_ne f k v x) by congruence
            | destruct (Nat.eq_dec x k); [subst x|] ]
  end.
Lemma in_snoc {A} (x y : A) l : In x (l ++ [y]) <-> In x l \/ x = y.
Proof. rewrite in_app_iff. cbn. intuition. Qed.

Ltac brk :=
  repeat match goal with
  | |- context [if ?b then _ else _] => destruct b eqn:?
  | H : context [if ?b then _ else _] |- _ => destruct b eqn:?
  end.
Ltac pcs := repeat match goal with Hp : s_pc ?s ?t = _, H : context [s_pc ?s ?t] |- _ => progress (rewrite Hp in H) | Hp : s_pc ?s ?t = _ |- context [s_pc ?s ?t] => rewrite Hp end.

Lemma out_step N s s' : inv N s -> step N s s' -> forall t, (N <= t)%nat -> s_pc s' t = Idle.
Proof.
  intros I H u Hu. pose proof (i_out _ _ I u Hu) as O.
  destruct H; try (destruct (s_list s)); try (destruct (active v =? 0)); try destruct wt; try destruct c; proj; rewrite ?fupd_ne by lia; exact O.
Qed.

Lemma mx_step N s s' : inv N s -> step N s s' -> forall t, s_mx s' = Some t <-> crit (s_pc s' t) = true.
Proof.
  intros I H u. pose proof (i_mx _ _ I) as X. pose proof (X u) as Xu.
  destruct H; try (destruct (s_list s)); try (destruct (active v =? 0)); try destruct wt; try destruct c; proj;
   pose proof (X t) as Xt; pcs; brk; eqs; pcs; cbn [crit] in *; try tauto; try (split; intros; congruence);
   try (split; intros Q; [congruence|apply X in Q; rewrite Q in *; intuition congruence]).
Qed.

Lemma active_s N s d a w l : inv N s -> small N -> s_cnt s + d = formula a w l -> 0 <= a < M -> active (s_cnt s + d) = a.
Proof. intros _ _ -> H. apply active_f, H. Qed.

Lemma ges N s t : inv N s -> (t < N)%nat ->
  hr (s_pc s t) (s_owed s t) <= HR N s /\ tt (s_pc s t) <= TT N s /\ tg (s_pc s t) <= TG N s /\ fr (s_pc s t) <= FR N s /\ fw (s_pc s t) <= FW N s /\ hw (s_pc s t) <= HW N s.
Proof.
  intros I Ht. repeat split.
  - apply (sum_ge N (fun t => hr (s_pc s t) (s_owed s t))); [intros; apply hr_b|exact Ht].
  - apply (sum_ge N (fun t => tt (s_pc s t))); [intros; apply (tt_b N); assumption|exact Ht].
  - apply (sum_ge N (fun t => tg (s_pc s t))); [intros; apply (tg_b N); assumption|exact Ht].
  - apply (sum_ge N (fun t => fr (s_pc s t))); [intros; apply fr_b|exact Ht].
  - apply (sum_ge N (fun t => fw (s_pc s t))); [intros; apply fw_b|exact Ht].
  - apply (sum_ge N (fun t => hw (s_pc s t))); [intros; apply hw_b|exact Ht].
Qed.
(** The sums after a step that moves one client. *)
Ltac sums N s t :=
  match goal with |- context [HR N ?s'] =>
    let X := fresh "SUM" in
    pose proof (sums_one N s s' t _ _ ltac:(assumption) ltac:(let w9 := fresh in let Hv := fresh in intros w9 Hv; proj; rewrite ?fupd_ne by exact Hv; split; reflexivity) eq_refl eq_refl) as X;
    let G := fresh "GES" in
    pose proof (ges N s t ltac:(assumption) ltac:(assumption)) as G;
    proj; rewrite ?fupd_eq in X; pcs; cbn [hr tt tg fr fw hw tk] in X, G;
    let X1 := fresh in let X2 := fresh in let X3 := fresh in let X4 := fresh in let X5 := fresh in let X6 := fresh in
    destruct X as (X1 & X2 & X3 & X4 & X5 & X6); rewrite ?X1, ?X2, ?X3, ?X4, ?X5, ?X6; clear X1 X2 X3 X4 X5 X6; destruct G as (? & ? & ? & ? & ? & ?)
  end.
Ltac consts := unfold WRITE_BIAS, READ_BIAS, WAITING_BIAS, ACTIVE_MASK in *.

Lemma leave_sums N s t c : (t < N)%nat -> (exists k, s_pc s t = K k c) ->
  HR N (leave t c s) = HR N s /\ TT N (leave t c s) = TT N s - tt (s_pc s t) /\ TG N (leave t c s) = TG N s - tg (s_pc s t) /\ FR N (leave t c s) = FR N s /\
  FW N (leave t c s) = FW N s /\ HW N (leave t c s) = HW N s /\ s_list (leave t c s) = s_list s /\ s_cnt (leave t c s) = s_cnt s.
Proof.
  intros Ht [k Hp].
  pose proof (sums_one N s (leave t c s) t (match c with CIdle => Idle | CRead => RWait | CHold => RHold | CWrite v => WTry v end) (s_owed s t) Ht) as X.
  destruct X as (A & B & B' & C & D & E).
  - intros u Hu. destruct c; proj; rewrite fupd_ne by exact Hu; auto.
  - destruct c; proj; apply fupd_eq.
  - destruct c; reflexivity.
  - rewrite Hp in *. destruct c; cbn [hr tt tg fr fw hw] in *; repeat split; try lia; reflexivity.
Qed.

Lemma sums_same N s s' : s_pc s' = s_pc s -> s_owed s' = s_owed s ->
  HR N s' = HR N s /\ TT N s' = TT N s /\ TG N s' = TG N s /\ FR N s' = FR N s /\ FW N s' = FW N s /\ HW N s' = HW N s.
Proof. intros A B. unfold HR, TT, TG, FR, FW, HW. rewrite A, B. repeat split. Qed.

(** Counter and exclusion. *)
Definition cinv N s := s_cnt s = formula (RwlockInv.act N s) (wrs N s) (LL s) /\ (HW N s <= 1 /\ (HW N s = 1 -> HR N s + TG N s = 0)).

Ltac start I S :=
  pose proof (i_cnt _ _ I) as CNT; pose proof (i_excl _ _ I) as EXC; pose proof (bounds _ _ I) as BND;
  destruct BND as [? ? ? ? ? ? BS BL].
Ltac arith :=
  rewrite ?(add_f _ _ _ ltac:(eassumption) ltac:(eassumption)) in * by (consts; lia);
  unfold cinv, RwlockInv.act, wrs, formula, M, small, LL in *; proj;
  repeat match goal with EL : s_list ?s = _, H : context [s_list ?s] |- _ => rewrite EL in H | EL : s_list ?s = _ |- context [s_list ?s] => rewrite EL end; consts; lia.

Lemma readers_in u l : In u (readers l) -> In (u, true) l.
Proof. induction l as [|[v [|]] l IH]; cbn; try tauto. intros [->|]; auto. Qed.
Lemma readers_nodup l : NoDup (map fst l) -> NoDup (readers l).
Proof.
  induction l as [|[v [|]] l IH]; cbn; intros H; [constructor| |constructor]. inversion_clear H as [|? ? A B].
  constructor; [|auto]. intros X. apply A. apply readers_in in X. apply in_map_iff. exists (v, true). auto.
Qed.
Lemma readers_split l : l = map (fun u => (u, true)) (readers l) ++ after_readers l.
Proof. induction l as [|[v [|]] l IH]; cbn; [reflexivity| |reflexivity]. f_equal. exact IH. Qed.
Lemma nodup_bound N l : NoDup l -> (forall u, In u l -> (u < N)%nat) -> Z.of_nat (length l) <= Z.of_nat N.
Proof.
  intros ND H. assert (X : (length l <= length (seq 0 N))%nat).
  { apply NoDup_incl_length; [exact ND|]. intros u Hu. apply in_seq. specialize (H u Hu). lia. }
  rewrite seq_length in X. lia.
Qed.
Ltac cond b := let Hb := fresh "Hb" in case_eq b; intros Hb; rewrite ?Hb in *.
Ltac nonempty E := let a := fresh "a" in let l := fresh "l" in match goal with |- context [s_list ?s] => destruct (s_list s) as [|a l] eqn:E in * end.
Lemma cinv_step N s s' : inv N s -> small N -> step N s s' -> cinv N s'.
Proof.
  intros I S H. start I S. unfold cinv, RwlockInv.act, wrs.
  destruct H; rewrite ?(add_f N s) in * by (assumption || (consts; lia)).
  - sums N s t. arith.
  - sums N s t. arith.
  - sums N s t. arith.
  - sums N s t. arith.
  - sums N s t. arith.
  - sums N s t. arith.
  - sums N s t. arith.
  - sums N s t. arith.
  - sums N s t. cond ((tmp <? -1) && (active tmp =? 0)); cbn [hr tt tg fr fw hw] in *; arith.
  - sums N s t. cond (tmp <? 0); cbn [hr tt tg fr fw hw] in *; arith.
  - sums N s t. cond (tmp <? 0); cbn [hr tt tg fr fw hw] in *; arith.
  - sums N s t. subst adj. match goal with |- context [if ?b then _ else _] => cond b end; cbn [hr tt tg fr fw hw tk] in *; destruct (s_list s) eqn:EL; cbn [app] in *; arith.
  - assert (O : s_owed s t = true) by (apply (i_null _ _ I); [pcs; reflexivity|assumption]). sums N s t. rewrite O in *. arith.
  - sums N s t. arith.
  - sums N s t. arith.
  - sums N s t. subst adj. match goal with |- context [if ?b then _ else _] => cond b end; cbn [hr tt tg fr fw hw tk] in *; destruct (s_list s) eqn:EL; cbn [app] in *; arith.
  - sums N s t. arith.
  - sums N s t. assert (W : In (t, false) (s_list s)) by (apply (i_wr _ _ I); pcs; reflexivity).
    pose proof (i_nodup _ _ I) as ND. unfold LL in *. proj.
    assert (D : del t (s_list s) = [] <-> exists x, s_list s = [x]).
    { clear - W ND. destruct (s_list s) as [|[x b] l]; [destruct W|]. cbn in ND. inversion_clear ND as [|? ? A B]. unfold del. cbn.
      destruct W as [W|W].
      - injection W as -> ->. rewrite Nat.eqb_refl. cbn. split; [|intros [y Hy]; injection Hy; intros -> _; reflexivity].
        intros Hd. destruct l as [|[y c] l']; [eauto|exfalso]. cbn in Hd. destruct (Nat.eqb_spec y t) as [->|]; [apply A; cbn; auto|discriminate Hd].
      - destruct (Nat.eqb_spec x t) as [->|]; [exfalso; apply A, in_map_iff; exists (t, false); auto|]. cbn. split; [discriminate|].
        intros [y Hy]. injection Hy. intros -> _. destruct W. }
    destruct (s_list s) as [|x [|y l]]; [destruct W| |].
    + rewrite (proj2 D ltac:(eauto)). arith.
    + destruct (del t (x :: y :: l)); [destruct (proj1 D eq_refl) as [? X]; discriminate X|]. arith.
  - sums N s t. arith.
  - sums N s t. arith.
  - sums N s t. arith.
  - destruct (s_list s) eqn:E; sums N s t; arith.
  - destruct (s_list s) eqn:E; sums N s t; arith.
  - assert (X := leave_sums N (match wt with WAKE_ANY => set_pulse u true s | _ => s end) t c H ltac:(exists (KStart wt); destruct wt; exact H0)).
    destruct (sums_same N s (match wt with WAKE_ANY => set_pulse u true s | _ => s end)) as (Y1 & Y2 & Y3 & Y4 & Y5 & Y6); [destruct wt; reflexivity..|].
    destruct X as (X1 & X2 & X3 & X4 & X5 & X6 & X7 & X8). unfold LL in *. rewrite X1, X2, X3, X4, X5, X6, X7, X8, Y1, Y2, Y3, Y4, Y5, Y6.
    replace (s_pc (match wt with WAKE_ANY => set_pulse u true s | _ => s end) t) with (s_pc s t) by (destruct wt; reflexivity).
    rewrite H0. cbn [tt tk tg]. replace (s_list (match wt with WAKE_ANY => set_pulse u true s | _ => s end)) with (s_list s) by (destruct wt; reflexivity).
    replace (s_cnt (match wt with WAKE_ANY => set_pulse u true s | _ => s end)) with (s_cnt s) by (destruct wt; reflexivity).
    clear X1 X2 X3 X4 X5 X6 X7 X8 Y1 Y2 Y3 Y4 Y5 Y6. arith.
  - pose proof (i_wf _ _ I _ _ _ H0) as W. destruct wt; cbn [wf_k] in W; try subst c; sums N s t; arith.
  - destruct (i_read _ _ I _ _ _ H0 eq_refl) as (u & l & EL).
    sums N s t. cond (s_cnt s + READ_BIAS - READ_BIAS <? WAITING_BIAS); cbn [hr tt tg fr fw hw tk] in *; unfold READ_BIAS in *; arith.
  - destruct (active v =? 0).
    + sums N s t. arith.
    + assert (X := leave_sums N (go t (K KUndo c) v (s_mx s) (s_list s) [] s) t c H ltac:(exists KUndo; proj; apply fupd_eq)).
      destruct X as (X1 & X2 & X3 & X4 & X5 & X6 & X7 & X8). unfold LL. rewrite X1, X2, X3, X4, X5, X6, X7, X8. clear X1 X2 X3 X4 X5 X6 X7 X8.
      sums N s t. rewrite fupd_eq. cbn [tt tk tg]. arith.
  - pose proof (i_wf _ _ I _ _ _ H0) as W. cbn [wf_k] in W.
    destruct (i_read _ _ I _ _ _ H0 eq_refl) as (u & l & EL).
    set (s1 := go t (K (KSet (readers (s_list s))) c) (add (s_cnt s) n) (s_mx s) (after_readers (s_list s)) [] s).
    assert (X : HR N (set_owed (readers (s_list s)) s1) = HR N s1 + Z.of_nat (length (readers (s_list s)))).
    { apply sum_list.
      - apply readers_nodup, I.
      - intros v Hv0. pose proof (readers_in _ _ Hv0) as Hv. apply (i_rd _ _ I) in Hv. destruct Hv as [V1 V2].
        split.
        + destruct (Nat.lt_ge_cases v N) as [|G]; [assumption|]. rewrite (i_out _ _ I v G) in V1. discriminate.
        + cbn [set_owed s_pc s_owed]. rewrite fupds_in by exact Hv0.
          unfold s1. cbn [go s_pc s_owed]. rewrite V2. destruct (Nat.eq_dec v t) as [->|Hn].
          * rewrite fupd_eq. rewrite H0 in V1. destruct c; try discriminate V1. reflexivity.
          * rewrite fupd_ne by exact Hn. destruct (s_pc s v) as [| | | | | | | | | | | |k' c']; try discriminate V1; try reflexivity. destruct c'; try discriminate V1. reflexivity.
      - intros v Hv. cbn [set_owed s_owed s_pc]. rewrite fupds_out by exact Hv. reflexivity. }
    replace (HR N (set_owed (readers (s_list s)) s1)) with (HR N s1 + Z.of_nat (length (readers (s_list s)))) by (symmetry; exact X).
    change (TT N (set_owed (readers (s_list s)) s1)) with (TT N s1). change (TG N (set_owed (readers (s_list s)) s1)) with (TG N s1).
    change (FR N (set_owed (readers (s_list s)) s1)) with (FR N s1). change (FW N (set_owed (readers (s_list s)) s1)) with (FW N s1).
    change (HW N (set_owed (readers (s_list s)) s1)) with (HW N s1). clear X. unfold s1. sums N s t. clear s1.
    assert (LR : 1 <= Z.of_nat (length (readers (s_list s))) <= Z.of_nat N).
    { rewrite EL. cbn [readers length]. split; [lia|]. change (Datatypes.S (length (readers l))) with (length (readers ((u, true) :: l))). rewrite <- EL.
      apply nodup_bound; [apply readers_nodup, I|]. intros w Hw. apply readers_in, (i_rd _ _ I) in Hw. destruct Hw as [Hw _].
      destruct (Nat.lt_ge_cases w N) as [|G]; [assumption|]. rewrite (i_out _ _ I w G) in Hw. discriminate. }
    assert (LS : LL s = 1) by (unfold LL; rewrite EL; reflexivity).
    unfold LL at 1. proj. remember (Z.of_nat (length (readers (s_list s)))) as n0.
    clear Heqn0 BL. destruct (after_readers (s_list s)); cbn [hr] in *; clear EL; rewrite LS in CNT;
    (rewrite (add_f N s n I S) by (unfold small in S; consts; lia)); destruct W as [[-> ->]|[-> Hc]]; try (destruct c; try congruence); cbn [hr] in *; arith.
  - sums N s t. arith.
  - sums N s t. arith.
  - sums N s t. arith.
  - assert (X := leave_sums N s t c H ltac:(eauto)).
    destruct X as (X1 & X2 & X3 & X4 & X5 & X6 & X7 & X8). unfold LL in *. rewrite X1, X2, X3, X4, X5, X6, X7, X8. rewrite H0. cbn [tt tk tg]. clear X1 X2 X3 X4 X5 X6 X7 X8. arith.
Qed.

Lemma wf_step N s s' : inv N s -> small N -> step N s s' -> forall t k c, s_pc s' t = K k c -> wf_k k c.
Proof.
  intros I S H. pose proof (i_wf _ _ I) as W.
  assert (HWF : forall t adj c, s_pc s t = WFail -> (t < N)%nat -> adj = - WRITE_BIAS + (if match s_list s with [] => true | _ => false end then WAITING_BIAS else 0) ->
    c = add (s_cnt s) adj -> (WAITING_BIAS <? c) && (adj =? - WRITE_BIAS) = true -> active c <> 0).
  { intros t adj c Hp Ht Ha Hc Hb. apply andb_prop in Hb. destruct Hb as [B1 B2].
    pose proof (ges N s t I Ht) as G. rewrite Hp in G. cbn [hr tt tg fr fw hw] in G. start I S. unfold LL in *.
    destruct (s_list s); [consts; lia|]. rewrite Z.add_0_r in Ha. subst adj. rewrite (add_f N s) in Hc by (assumption || (consts; lia)).
    assert (E : c = formula (RwlockInv.act N s - 1) (wrs N s - 1) 1). { unfold formula, M in *. consts. lia. }
    rewrite E in *. rewrite active_f; unfold RwlockInv.act, wrs, formula, small, M in *; consts; lia. }
  intros u k' c' Hu.
  destruct H; try (destruct (s_list s) eqn:EL); try (destruct (active v =? 0)); try destruct wt;
   try (match goal with Hx : s_pc s _ = K _ ?c |- _ => is_var c; destruct c end); proj;
   eqs; brk; try discriminate; try (eapply W; eassumption);
   repeat match goal with Hx : s_pc s _ = K _ _ |- _ => apply W in Hx end;
   try (injection Hu; clear Hu; intros; subst; cbn [wf_k] in *; repeat match goal with Hx : exists _, _ |- _ => destruct Hx | Hx : _ /\ _ |- _ => destruct Hx end;
        try tauto; try congruence; try (solve [left; split; congruence | right; split; congruence]); auto).
  all: try (eexists; split; [reflexivity|]; eapply (HWF t); try eassumption; reflexivity).
  destruct H0; discriminate.
Qed.

Ltac cases_step s :=
  try (destruct (s_list s) eqn:EL); try (match goal with |- context [active ?v =? 0] => destruct (active v =? 0) end); try (match goal with wt : wake_type |- _ => destruct wt end);
  try (match goal with Hx : s_pc s _ = K _ ?c |- _ => is_var c; destruct c end); proj.

Lemma rd_step N s s' : inv N s -> step N s s' -> forall t, In (t, true) (s_list s') <-> rw_place (s_pc s' t) = true /\ s_owed s' t = false.
Proof.
  intros I H u. pose proof (i_rd _ _ I) as X. pose proof (X u) as Xu.
  assert (LIS : forall t c adj l l', s_pc s t = K (KGrant adj) c -> s_list s = l -> l' = after_readers l ->
     In (u, true) l' <-> In (u, true) l /\ ~ In u (readers l)).
  { intros t c adj l l' _ <- ->. pose proof (i_nodup _ _ I) as ND. pose proof (readers_split (s_list s)) as E. rewrite E in ND. rewrite map_app in ND.
    rewrite E at 2. rewrite in_app_iff. split.
    - intros Hi. split; [auto|]. intros Hr. revert ND. rewrite map_map. cbn. rewrite map_id. intros ND.
      assert (In u (map fst (after_readers (s_list s)))) by (apply in_map_iff; exists (u, true); auto).
      clear - ND Hr H0. induction (readers (s_list s)) as [|a l IH]; [destruct Hr|]. cbn in ND. inversion_clear ND as [|? ? A B].
      destruct Hr as [->|Hr]; [apply A, in_or_app; auto|auto].
    - intros [[Hi|Hi] Hn]; [|exact Hi]. exfalso. apply Hn. apply in_map_iff in Hi. destruct Hi as (w & Ew & Hw). injection Ew as ->. exact Hw. }
  assert (DEL : forall t, In (u, true) (del t (s_list s)) <-> In (u, true) (s_list s) /\ u <> t).
  { intros t. unfold del. rewrite filter_In. cbn. destruct (Nat.eqb_spec u t); cbn; intuition congruence. }
  assert (LV : forall t c s1, (exists k, s_pc s1 t = K k c) -> s_list s1 = s_list s -> s_owed s1 = s_owed s -> 
     (In (u, true) (s_list s) <-> rw_place (s_pc s1 u) = true /\ s_owed s u = false) ->
     In (u, true) (s_list (leave t c s1)) <-> rw_place (s_pc (leave t c s1) u) = true /\ s_owed (leave t c s1) u = false).
  { intros t c s1 [k Hk] El Eo Hx. destruct c; proj; rewrite El, Eo, Hx; destruct (Nat.eq_dec u t) as [->|]; rewrite ?fupd_eq, ?fupd_ne by assumption; try rewrite Hk; reflexivity. }
  destruct H; try (proj; pose proof (X t) as Xt; pcs; brk; eqs; pcs; rewrite ?in_snoc; cbn [rw_place] in *; solve [tauto | intuition congruence]).
  - proj. pose proof (X t) as Xt. pose proof (i_null _ _ I t) as Y. pcs. cbn [rw_place] in *. eqs; [|exact Xu]. rewrite Y in * by auto. intuition discriminate.
  - proj. rewrite DEL. pose proof (X t) as Xt. eqs; pcs; cbn [rw_place] in *; intuition congruence.
  - destruct (s_list s) eqn:EL; proj; pose proof (X t) as Xt; eqs; pcs; rewrite ?EL in *; cbn [rw_place] in *; intuition congruence.
  - destruct (s_list s) eqn:EL; proj; pose proof (X t) as Xt; eqs; pcs; rewrite ?EL in *; cbn [rw_place] in *; intuition congruence.
  - apply LV; destruct wt; cbn; eauto.
  - destruct (active v =? 0); [proj; pose proof (X t) as Xt; eqs; pcs; exact Xu|]. apply LV; proj; eqs; eauto. pcs. exact Xu.
  - proj. rewrite (LIS t c adj _ _ H0 eq_refl eq_refl). destruct (in_dec Nat.eq_dec u (readers (s_list s))) as [Hi|Hi].
    + rewrite fupds_in by exact Hi. intuition congruence.
    + rewrite fupds_out by exact Hi. eqs; pcs; cbn [rw_place] in *; tauto.
  - apply LV; eauto.
Qed.

Lemma wr_step N s s' : inv N s -> step N s s' -> forall t, In (t, false) (s_list s') <-> ww_place (s_pc s' t) = true.
Proof.
  intros I H u. pose proof (i_wr _ _ I) as X. pose proof (X u) as Xu.
  assert (LIS : In (u, false) (after_readers (s_list s)) <-> In (u, false) (s_list s)).
  { pose proof (readers_split (s_list s)) as E. rewrite E at 2. rewrite in_app_iff. split; [auto|]. intros [Hi|Hi]; [|exact Hi].
    apply in_map_iff in Hi. destruct Hi as (w & Ew & _). discriminate. }
  assert (DEL : forall t, In (u, false) (del t (s_list s)) <-> In (u, false) (s_list s) /\ u <> t).
  { intros t. unfold del. rewrite filter_In. cbn. destruct (Nat.eqb_spec u t); cbn; intuition congruence. }
  assert (LV : forall t c s1, (exists k, s_pc s1 t = K k c) -> s_list s1 = s_list s ->
     (In (u, false) (s_list s) <-> ww_place (s_pc s1 u) = true) ->
     In (u, false) (s_list (leave t c s1)) <-> ww_place (s_pc (leave t c s1) u) = true).
  { intros t c s1 [k Hk] El Hx. destruct c; proj; rewrite El, Hx; destruct (Nat.eq_dec u t) as [->|]; rewrite ?fupd_eq, ?fupd_ne by assumption; try rewrite Hk; reflexivity. }
  destruct H; try (proj; pose proof (X t) as Xt; pcs; brk; eqs; pcs; rewrite ?in_snoc; cbn [ww_place] in *; solve [tauto | intuition congruence]).
  - proj. rewrite DEL. pose proof (X t) as Xt. eqs; pcs; cbn [ww_place] in *; intuition congruence.
  - destruct (s_list s) eqn:EL; proj; pose proof (X t) as Xt; eqs; pcs; rewrite ?EL in *; cbn [ww_place] in *; intuition congruence.
  - destruct (s_list s) eqn:EL; proj; pose proof (X t) as Xt; eqs; pcs; rewrite ?EL in *; cbn [ww_place] in *; intuition congruence.
  - apply LV; destruct wt; cbn; eauto.
  - destruct (active v =? 0); [proj; pose proof (X t) as Xt; eqs; pcs; exact Xu|]. apply LV; proj; eqs; eauto. pcs. exact Xu.
  - apply LV; eauto.
Qed.

Lemma NoDup_app_snoc {A} (l : list A) x : NoDup l -> ~ In x l -> NoDup (l ++ [x]).
Proof.
  intros ND Hx. induction ND as [|y l B1 B2 IH]; cbn; [constructor; [tauto|constructor]|]. constructor.
  - rewrite in_snoc. intros [|]; [tauto|subst; apply Hx; left; reflexivity].
  - apply IH. intros Hi. apply Hx. right. exact Hi.
Qed.
Lemma nodup_step N s s' : inv N s -> step N s s' -> NoDup (map fst (s_list s')).
Proof.
  intros I H. pose proof (i_nodup _ _ I) as ND.
  assert (LV : forall t c s1, s_list (leave t c s1) = s_list s1) by (intros t c s1; destruct c; reflexivity).
  destruct H; rewrite ?LV; try exact ND; proj; try (destruct (s_list s) eqn:EL; rewrite <- ?EL in *; proj; rewrite ?EL; exact ND).
  - rewrite map_app. cbn. apply NoDup_app_snoc; [exact ND|]. intros Hi. apply in_map_iff in Hi. destruct Hi as ([w b] & Ew & Hw). cbn in Ew. subst w.
    destruct b; [apply (i_rd _ _ I) in Hw|apply (i_wr _ _ I) in Hw]; rewrite H0 in Hw; cbn in Hw; intuition discriminate.
  - rewrite map_app. cbn. apply NoDup_app_snoc; [exact ND|]. intros Hi. apply in_map_iff in Hi. destruct Hi as ([w b] & Ew & Hw). cbn in Ew. subst w.
    destruct b; [apply (i_rd _ _ I) in Hw|apply (i_wr _ _ I) in Hw]; rewrite H0 in Hw; cbn in Hw; intuition discriminate.
  - clear - ND. unfold del. induction (s_list s) as [|[w b] l IH]; cbn; [constructor|]. cbn in ND. inversion_clear ND as [|? ? A B].
    destruct (negb (w =? t)%nat); cbn; [constructor|]; auto. intros Hi. apply A. apply in_map_iff in Hi. destruct Hi as (x & Ex & Hx). apply filter_In in Hx.
    apply in_map_iff. exists x. tauto.
  - destruct (s_list s); exact ND.
  - destruct (s_list s); exact ND.
  - destruct wt; exact ND.
  - destruct (active v =? 0); rewrite ?LV; exact ND.
  - pose proof (readers_split (s_list s)) as E. rewrite E in ND. rewrite map_app in ND. clear - ND.
    induction (map fst (map (fun u => (u, true)) (readers (s_list s)))) as [|a l IH]; [exact ND|]. inversion_clear ND; auto.
Qed.

Definition head_ok (k : kplace) (l : list (nat * bool)) : Prop :=
  (start_list k = true -> l <> []) /\ (need_reader k = true -> exists u l', l = (u, true) :: l').
Lemma head_step N s s' : inv N s -> step N s s' -> forall t k c, s_pc s' t = K k c -> head_ok k (s_list s').
Proof.
  intros I H u k' c' Hu.
  assert (X : forall t k c, s_pc s t = K k c -> head_ok k (s_list s)).
  { intros t k c Hp. split; intros Hx; [eapply (i_head _ _ I)|eapply (i_read _ _ I)]; eassumption. }
  assert (EXT : forall l, l <> [] -> head_ok (KStart WAKE_ANY) l /\ head_ok (KStart WAKE_READ_OWNED) l /\ head_ok (KStart WAKE_READERS) l).
  { intros l Hl. repeat split; intros; try exact Hl; discriminate. }
  assert (MX : s_mx s = None -> forall t k c, s_pc s t <> K k c).
  { intros Hm t k c Hp. pose proof (crit_none N s t I Hm) as Y. rewrite Hp in Y. discriminate. }
  assert (ME : forall t p k c, s_pc s t = p -> crit p = true -> t <> u -> s_pc s u = K k c -> False).
  { intros t p k c Hp Hc Hn Hq. apply Hn. apply (crit_one N s); [exact I|rewrite Hp; exact Hc|rewrite Hq; reflexivity]. }
  assert (LV : forall t c s1, (exists k, s_pc s t = K k c) -> (forall w, w <> t -> s_pc s1 w = s_pc s w) -> s_pc (leave t c s1) u = K k' c' -> False).
  { intros t c s1 [k Hk] Hs Hq. destruct (Nat.eq_dec u t) as [->|Hn].
    - destruct c; proj; rewrite fupd_eq in Hq; discriminate.
    - assert (s_pc s1 u = K k' c') by (destruct c; proj; rewrite fupd_ne in Hq by exact Hn; exact Hq). rewrite Hs in H0 by exact Hn.
      eapply (ME t); [exact Hk|reflexivity|congruence|exact H0]. }
  destruct H; try (exfalso; eapply LV; [|intros w Hw|exact Hu]; [eauto|reflexivity]);
   try (proj; brk; eqs; try discriminate; try (eapply X; eassumption); fail).
  - proj. brk; eqs; try discriminate; try (exfalso; eapply MX; eassumption); (injection Hu as <- <-; apply EXT; cbn [app]; try (destruct (s_list s)); discriminate).
  - proj. brk; eqs; try discriminate; try (exfalso; eapply MX; eassumption); (injection Hu as <- <-; apply EXT; cbn [app]; try (destruct (s_list s)); discriminate).
  - proj. eqs; try discriminate. exfalso. eapply (ME t); [eassumption|reflexivity|congruence|eassumption].
  - destruct (s_list s) eqn:EL; proj; eqs; try discriminate; try (rewrite EL; eapply X; eassumption); try (exfalso; eapply MX; eassumption).
    injection Hu as <- <-. apply EXT. congruence.
  - destruct (s_list s) eqn:EL; proj; eqs; try discriminate; try (rewrite EL; eapply X; eassumption); try (exfalso; eapply MX; eassumption).
    injection Hu as <- <-. apply EXT. congruence.
  - exfalso. eapply LV; [|intros w Hw|exact Hu]; [eauto|destruct wt; reflexivity].
  - proj. eqs; [|eapply X; eassumption]. injection Hu as <- <-. rewrite H1. split; [discriminate|eauto].
  - proj. eqs; [|eapply X; eassumption]. injection Hu as <- <-. apply X in H0. destruct H0 as [A B].
    destruct (_ <? _); split; intros; auto.
  - destruct (active v =? 0).
    + proj. eqs; [|eapply X; eassumption]. injection Hu as <- <-. apply X in H0. exact H0.
    + exfalso. eapply LV; [|intros w Hw|exact Hu]; [eauto|]. proj. rewrite fupd_ne by exact Hw. reflexivity.
  - proj. eqs; [injection Hu as <- <-; split; discriminate|]. exfalso. eapply (ME t); [eassumption|reflexivity|congruence|eassumption].
  - proj. eqs; [injection Hu as <- <-; split; discriminate|eapply X; eassumption].
  - proj. eqs; [injection Hu as <- <-; split; discriminate|eapply X; eassumption].
  - proj. eqs; [injection Hu as <- <-; split; discriminate|eapply X; eassumption].
Qed.

Lemma todo_crit N s t u : inv N s -> In u (todo (s_pc s t)) -> s_mx s = Some t.
Proof. intros I H. apply (i_mx _ _ I). destruct (s_pc s t); try destruct H. reflexivity. Qed.
Lemma todo_nodup_step N s s' : inv N s -> step N s s' -> forall t, NoDup (todo (s_pc s' t)).
Proof.
  intros I H u. pose proof (i_todo _ _ I) as X. pose proof (readers_nodup _ (i_nodup _ _ I)) as ND.
  destruct H; try (destruct (s_list s)); try (destruct (active v =? 0)); try destruct wt; try (match goal with Hx : s_pc s _ = K _ ?c |- _ => is_var c; destruct c end);
   pose proof (X t) as Xt; proj; pcs; brk; eqs; cbn [todo] in *; try apply X; try constructor; try (inversion_clear Xt; assumption); try exact Xt.
  all: exact ND.
Qed.

(** Owed readers, notification. *)
Record ninv (s : state) : Prop := {
  n_ok : forall t u, In u (todo (s_pc s t)) -> rw_place (s_pc s u) = true /\ s_owed s u = true /\ s_null s u = false;
  n_owed : forall u, rw_place (s_pc s u) = true -> s_owed s u = true -> s_null s u = false -> exists t, In u (todo (s_pc s t));
  n_null : forall u, rw_place (s_pc s u) = true -> s_null s u = true -> s_owed s u = true }.
Lemma ninv_of N s : inv N s -> ninv s.
Proof. intros I. destruct I. split; assumption. Qed.
Lemma ninv_same s s' : ninv s -> (forall u, todo (s_pc s' u) = todo (s_pc s u)) -> (forall u, rw_place (s_pc s' u) = rw_place (s_pc s u)) ->
  s_null s' = s_null s -> s_owed s' = s_owed s -> ninv s'.
Proof.
  intros [A B C] T R Nn O. split.
  - intros t u. rewrite T, R, Nn, O. apply A.
  - intros u. rewrite R, Nn, O. intros X Y Z. destruct (B u X Y Z) as [t Ht]. exists t. rewrite T. exact Ht.
  - intros u. rewrite R, Nn, O. apply C.
Qed.
Lemma ninv_leave s t c k : ninv s -> s_pc s t = K k c -> todo (K k c) = [] -> ninv (leave t c s).
Proof.
  intros I Hp Ht. apply (ninv_same s); [exact I| | | |]; try (destruct c; reflexivity); intros u; destruct (Nat.eq_dec u t) as [->|Hn];
   destruct c; proj; rewrite ?fupd_eq, ?fupd_ne by exact Hn; try reflexivity; rewrite Hp; cbn in *; try reflexivity; symmetry; exact Ht.
Qed.
Lemma ninv_go s t p c m l es : ninv s -> todo p = todo (s_pc s t) -> rw_place p = rw_place (s_pc s t) -> ninv (go t p c m l es s).
Proof.
  intros I Ht Hr. apply (ninv_same s); [exact I| | |reflexivity|reflexivity]; intros u; proj; destruct (Nat.eq_dec u t) as [->|Hn]; rewrite ?fupd_eq, ?fupd_ne by exact Hn; auto.
Qed.
Lemma ninv_fresh s t p c m l es : ninv s -> todo p = [] -> todo (s_pc s t) = [] -> rw_place (s_pc s t) = false -> ninv (fresh t (go t p c m l es s)).
Proof.
  intros [A B C] Tp Tt Hr. split; proj.
  - intros v u. destruct (Nat.eq_dec v t) as [->|Hv]; rewrite ?fupd_eq, ?fupd_ne by exact Hv; [rewrite Tp; intros []|]. intros Hi. apply A in Hi.
    destruct (Nat.eq_dec u t) as [->|Hu]; [rewrite Hr in Hi; destruct Hi; discriminate|]. rewrite !fupd_ne by exact Hu. exact Hi.
  - intros u. destruct (Nat.eq_dec u t) as [->|Hu]; rewrite ?fupd_eq, ?fupd_ne by exact Hu; [discriminate|]. intros X Y Z. destruct (B u X Y Z) as [v Hv]. exists v.
    destruct (Nat.eq_dec v t) as [->|Hn]; [rewrite Tt in Hv; destruct Hv|]. rewrite fupd_ne by exact Hn. exact Hv.
  - intros u. destruct (Nat.eq_dec u t) as [->|Hu]; rewrite ?fupd_eq, ?fupd_ne by exact Hu; [discriminate|]. apply C.
Qed.
Lemma ninv_pulse s t b : ninv s -> ninv (set_pulse t b s).
Proof. intros [A B C]. split; assumption. Qed.

Lemma ninv_step N s s' : inv N s -> step N s s' -> ninv s'.
Proof.
  intros I H. pose proof (ninv_of N s I) as X.
  destruct H; try (apply ninv_pulse); try (apply ninv_go; [exact X| |]; pcs; brk; reflexivity); try (apply ninv_fresh; [exact X| | |]; pcs; brk; reflexivity).
  - (* granted *) pose proof (n_null _ X t ltac:(pcs; reflexivity) H1) as O. destruct X as [A B C]. split; proj.
    + intros v u Hi. destruct (Nat.eq_dec v t) as [->|Hv]; [rewrite fupd_eq in Hi; destruct Hi|rewrite fupd_ne in Hi by exact Hv].
      apply A in Hi. eqs; [|exact Hi]. destruct Hi as (_ & _ & Hi). congruence.
    + intros u. eqs; [discriminate|]. intros Y Z W. destruct (B u Y Z W) as [v Hv]. exists v. eqs; [rewrite H0 in Hv; destruct Hv|exact Hv].
    + intros u. eqs; [discriminate|]. apply C.
  - destruct (s_list s); apply ninv_go; try exact X; pcs; reflexivity.
  - destruct (s_list s); apply ninv_go; try exact X; pcs; reflexivity.
  - eapply ninv_leave with (k := KStart wt); [destruct wt; try apply ninv_pulse; exact X|destruct wt; exact H0|reflexivity].
  - destruct wt; apply ninv_go; try exact X; pcs; reflexivity.
  - destruct (active v =? 0); [apply ninv_go; try exact X; pcs; reflexivity|].
    eapply ninv_leave with (k := KUndo); [apply ninv_go; try exact X; pcs; reflexivity|proj; apply fupd_eq|reflexivity].
  - (* kgrant *) destruct X as [A B C].
    assert (RW : forall u, rw_place (fupd (s_pc s) t (K (KSet (readers (s_list s))) c) u) = rw_place (s_pc s u)) by (intros u; eqs; [rewrite H0; reflexivity|reflexivity]).
    assert (TD : forall v, v <> t -> todo (s_pc s v) = []).
    { intros v Hv. destruct (todo (s_pc s v)) as [|w l] eqn:E; [reflexivity|exfalso]. apply Hv. apply (crit_one N s); [exact I| |rewrite H0; reflexivity].
      destruct (s_pc s v); try discriminate E. reflexivity. }
    split; proj.
    + intros v u Hi. destruct (Nat.eq_dec v t) as [->|Hv]; [rewrite fupd_eq in Hi|rewrite fupd_ne, TD in Hi by exact Hv; destruct Hi]. cbn [todo] in Hi.
      rewrite RW, fupds_in by exact Hi. apply readers_in, (i_rd _ _ I) in Hi. destruct Hi as [Hi O]. repeat split; auto.
      destruct (s_null s u) eqn:En; [|reflexivity]. rewrite (C u Hi En) in O. discriminate.
    + intros u. rewrite RW. intros Y Z W. exists t. rewrite fupd_eq. cbn [todo]. destruct (in_dec Nat.eq_dec u (readers (s_list s))) as [Hi|Hi]; [exact Hi|].
      rewrite fupds_out in Z by exact Hi. destruct (B u Y Z W) as [v Hv]. destruct (Nat.eq_dec v t) as [->|Hn]; [rewrite H0 in Hv|rewrite TD in Hv by exact Hn]; destruct Hv.
    + intros u. rewrite RW. intros Y Z. destruct (in_dec Nat.eq_dec u (readers (s_list s))) as [Hi|Hi]; [apply fupds_in, Hi|rewrite fupds_out by exact Hi; auto].
  - (* kset *) destruct X as [A B C].
    assert (RW : forall w, rw_place (fupd (s_pc s) t (K (KPul u (s_gen s u) l) c) w) = rw_place (s_pc s w)) by (intros w; eqs; [rewrite H0; reflexivity|reflexivity]).
    assert (TD : forall v, v <> t -> todo (s_pc s v) = []).
    { intros v Hv. destruct (todo (s_pc s v)) as [|w l'] eqn:E; [reflexivity|exfalso]. apply Hv. apply (crit_one N s); [exact I| |rewrite H0; reflexivity].
      destruct (s_pc s v); try discriminate E. reflexivity. }
    pose proof (i_todo _ _ I t) as ND. rewrite H0 in ND. cbn [todo] in ND. inversion_clear ND as [|? ? ND1 ND2].
    assert (AT : forall w, In w (u :: l) -> rw_place (s_pc s w) = true /\ s_owed s w = true /\ s_null s w = false) by (intros w Hw; apply (A t); rewrite H0; exact Hw).
    split; proj.
    + intros v w Hi. destruct (Nat.eq_dec v t) as [->|Hv]; [rewrite fupd_eq in Hi|rewrite fupd_ne, TD in Hi by exact Hv; destruct Hi]. cbn [todo] in Hi.
      rewrite RW. rewrite fupd_ne by (intros ->; contradiction). apply AT. right. exact Hi.
    + intros w. rewrite RW. intros Y Z W. exists t. rewrite fupd_eq. cbn [todo]. destruct (Nat.eq_dec w u) as [->|Hn]; [rewrite fupd_eq in W; discriminate|].
      rewrite fupd_ne in W by exact Hn. destruct (B w Y Z W) as [v Hv]. destruct (Nat.eq_dec v t) as [->|Hm]; [|rewrite TD in Hv by exact Hm; destruct Hv].
      rewrite H0 in Hv. destruct Hv; [congruence|assumption].
    + intros w. rewrite RW. intros Y Z. destruct (Nat.eq_dec w u) as [->|Hn]; [apply AT; left; reflexivity|]. rewrite fupd_ne in Z by exact Hn. auto.
  - eapply ninv_leave; [exact X|exact H0|reflexivity].
Qed.

Lemma sleep_step N s s' : inv N s -> step N s s' -> forall u, s_pc s' u = RSleep -> s_null s' u = true ->
  s_pulse s' u = true \/ exists t l c, s_pc s' t = K (KPul u (s_gen s' u) l) c.
Proof.
  intros I H u. pose proof (i_sleep _ _ I u) as X.
  (* t moves from a place that is not KPul *)
  assert (MV : forall t p, (forall w g l c, s_pc s t <> K (KPul w g l) c) ->
     (exists v l c, s_pc s v = K (KPul u (s_gen s u) l) c) -> exists v l c, fupd (s_pc s) t p v = K (KPul u (s_gen s u) l) c).
  { intros t p Hn (v & l & c & Hv). exists v, l, c. destruct (Nat.eq_dec v t) as [->|Hvt]; [exfalso; eapply Hn; exact Hv|]. rewrite fupd_ne by exact Hvt. exact Hv. }
  assert (LV : forall t c s1, s_pc s t <> RSleep -> (forall w g l c, s_pc s t <> K (KPul w g l) c) -> (forall w, w <> t -> s_pc s1 w = s_pc s w) -> s_null s1 = s_null s -> s_gen s1 = s_gen s ->
     (s_pulse s u = true -> s_pulse s1 u = true) ->
     s_pc (leave t c s1) u = RSleep -> s_null (leave t c s1) u = true ->
     s_pulse (leave t c s1) u = true \/ exists v l c', s_pc (leave t c s1) v = K (KPul u (s_gen (leave t c s1) u) l) c').
  { intros t c s1 Hp Hn Hs En Eg Pl Hu Hnu.
    assert (E : s_pc (leave t c s1) u = s_pc s u).
    { destruct (Nat.eq_dec u t) as [->|Hne]; [destruct c; proj; rewrite fupd_eq in Hu; discriminate|].
      destruct c; proj; rewrite fupd_ne by exact Hne; apply Hs, Hne. }
    rewrite E in Hu. replace (s_null (leave t c s1)) with (s_null s) in Hnu by (destruct c; symmetry; exact En).
    replace (s_gen (leave t c s1)) with (s_gen s) by (destruct c; symmetry; exact Eg). replace (s_pulse (leave t c s1)) with (s_pulse s1) by (destruct c; reflexivity).
    destruct (X Hu Hnu) as [Y|(v & l & c' & Y)]; [left; auto|right]. exists v, l, c'. destruct (Nat.eq_dec v t) as [->|Hne]; [exfalso; eapply Hn; exact Y|].
    replace (s_pc (leave t c s1) v) with (s_pc s v); [exact Y|]. destruct c; proj; rewrite fupd_ne by exact Hne; symmetry; apply Hs, Hne. }
  destruct H; try (proj; intros Hu Hnu; eqs; try discriminate; try congruence; try (match type of Hu with (if ?b then _ else _) = RSleep => destruct b; discriminate end);
      destruct (X Hu Hnu) as [Y|Y]; [left; exact Y|right; apply MV; [pcs; discriminate|exact Y]]; fail).
  - destruct (s_list s); proj; intros Hu Hnu; eqs; try discriminate; (destruct (X Hu Hnu) as [Y|Y]; [left; exact Y|right; apply MV; [pcs; discriminate|exact Y]]).
  - destruct (s_list s); proj; intros Hu Hnu; eqs; try discriminate; (destruct (X Hu Hnu) as [Y|Y]; [left; exact Y|right; apply MV; [pcs; discriminate|exact Y]]).
  - apply LV; pcs; try discriminate; destruct wt; try reflexivity; try tauto; cbn; intros Y; eqs; auto.
  - destruct (active v =? 0).
    + proj. intros Hu Hnu. eqs; try discriminate. destruct (X Hu Hnu) as [Y|Y]; [left; exact Y|right; apply MV; [pcs; discriminate|exact Y]].
    + apply LV; pcs; try discriminate; try reflexivity; [|auto]. intros w Hw. proj. apply fupd_ne, Hw.
  - (* kset *) proj. intros Hu Hnu. destruct (Nat.eq_dec u t) as [->|Hut]; [rewrite fupd_eq in Hu; discriminate|]. rewrite fupd_ne in Hu by exact Hut.
    destruct (Nat.eq_dec u u0) as [->|Hn].
    + right. exists t, l, c. apply fupd_eq.
    + rewrite fupd_ne in Hnu by exact Hn. destruct (X Hu Hnu) as [Y|Y]; [left; exact Y|right; apply MV; [pcs; discriminate|exact Y]].
  - (* kpul *) proj. intros Hu Hnu. destruct (Nat.eq_dec u t) as [->|Hut]; [rewrite fupd_eq in Hu; discriminate|]. rewrite fupd_ne in Hu by exact Hut.
    destruct (Nat.eq_dec u u0) as [->|Hn]; [left; apply fupd_eq|]. rewrite (fupd_ne (s_pulse s)) by exact Hn.
    destruct (X Hu Hnu) as [Y|(v & l' & c' & Y)]; [left; exact Y|right]. exists v, l', c'. destruct (Nat.eq_dec v t) as [->|]; [congruence|]. rewrite fupd_ne by assumption. exact Y.
  - (* stray *) proj. intros Hu Hnu. destruct (Nat.eq_dec u t) as [->|Hut]; [rewrite fupd_eq in Hu; discriminate|]. rewrite fupd_ne in Hu by exact Hut.
    destruct (X Hu Hnu) as [Y|(v & l' & c' & Y)]; [left; exact Y|right]. exists v, l', c'. destruct (Nat.eq_dec v t) as [->|]; [|rewrite fupd_ne by assumption; exact Y].
    exfalso. rewrite H0 in Y. injection Y as -> -> _ _. destruct H1 as [H1|H1]; [congruence|]. rewrite Hu in H1. discriminate.
  - apply LV; pcs; try discriminate; reflexivity || auto.
Qed.

Lemma free_cnt N s : inv N s -> RwlockInv.act N s = 0 -> s_list s <> [] -> s_cnt s = WAITING_BIAS /\ active (s_cnt s) = 0.
Proof.
  intros I A L. pose proof (bounds _ _ I) as [? ? ? ? ? ? BS BL]. rewrite (i_cnt _ _ I), A. unfold RwlockInv.act in A.
  assert (W : wrs N s = 0) by (unfold wrs; lia). assert (E : LL s = 1) by (destruct BL as [[_ X]|[X _]]; [contradiction|exact X]).
  rewrite W, E. split; [reflexivity|]. apply active_f. unfold M. lia.
Qed.
Lemma carer_mono p b b' : (b = true -> b' = true) -> carer p b = true -> carer p b' = true.
Proof. destruct p; cbn; auto. Qed.
Lemma care_keep N s s' t : inv N s -> RwlockInv.act N s = 0 -> s_list s <> [] -> carer (s_pc s t) (s_pulse s t) = false ->
  (forall v, v <> t -> s_pc s' v = s_pc s v /\ (s_pulse s v = true -> s_pulse s' v = true)) -> exists v, carer (s_pc s' v) (s_pulse s' v) = true.
Proof.
  intros I A L C H. destruct (i_care _ _ I L A) as [v Hv]. exists v. destruct (Nat.eq_dec v t) as [->|Hn]; [congruence|].
  destruct (H v Hn) as [-> P]. eapply carer_mono; eassumption.
Qed.
Ltac up := intros; exfalso; unfold RwlockInv.act in *; lia.

Ltac keeps := match goal with KEEP : (forall (t : nat) (s1 : state), _), Ht : (?t < ?N)%nat |- context [HR ?N ?s1] => pose proof (KEEP t s1) as KP end.
Lemma care_step N s s' : inv N s -> small N -> step N s s' -> s_list s' <> [] -> RwlockInv.act N s' = 0 -> exists t, carer (s_pc s' t) (s_pulse s' t) = true.
Proof.
  intros I S H HL HA. pose proof (cinv_step N s s' I S H) as [CN _]. start I S.
  assert (KEEP : forall t s1, RwlockInv.act N s = 0 -> s_list s <> [] -> carer (s_pc s t) (s_pulse s t) = false ->
    (forall v, v <> t -> s_pc s1 v = s_pc s v /\ (s_pulse s v = true -> s_pulse s1 v = true)) -> exists v, carer (s_pc s1 v) (s_pulse s1 v) = true).
  { intros t s1. apply (care_keep N s s1 t I). }
  assert (FREE : forall s1, s1 = s' -> s_cnt s1 = formula 0 0 1).
  { intros s1 ->. rewrite CN, HA.
    assert (WR : 0 <= wrs N s' <= 0). 
    { assert (0 <= TT N s').
      { apply sum_nonneg. intros u. pose proof (wf_step N s s' I S H u) as W. destruct (s_pc s' u) as [| | | | | | | | | | | |k c]; cbn; try lia.
        specialize (W k c eq_refl). destruct k; cbn in *; lia. }
      assert (0 <= HR N s') by (apply sum_nonneg; intros; apply hr_b). assert (0 <= FR N s') by (apply sum_nonneg; intros; apply fr_b).
      assert (0 <= FW N s') by (apply sum_nonneg; intros; apply fw_b). assert (0 <= HW N s') by (apply sum_nonneg; intros; apply hw_b).
      unfold RwlockInv.act, wrs in *. lia. }
    unfold LL. destruct (s_list s'); [congruence|]. f_equal. lia. }
  specialize (FREE _ eq_refl). change (formula 0 0 1) with WAITING_BIAS in FREE.
  assert (ACTF : active WAITING_BIAS = 0) by reflexivity.
  assert (FC : RwlockInv.act N s = 0 -> s_list s <> [] -> s_cnt s = WAITING_BIAS /\ active (s_cnt s) = 0) by (apply free_cnt; exact I).
  revert HA. unfold RwlockInv.act at 1. clear CN.
  destruct H.
  - sums N s t. up.
  - sums N s t. up.
  - sums N s t. up.
  - keeps. sums N s t. intros. apply KP; [unfold RwlockInv.act; lia|exact HL|pcs; reflexivity|intros; rewrite ?fupd_ne by assumption; auto].
  - sums N s t. up.
  - sums N s t. up.
  - sums N s t. up.
  - keeps. sums N s t. intros. apply KP; [unfold RwlockInv.act; lia|exact HL|pcs; reflexivity|intros; rewrite ?fupd_ne by assumption; auto].
  - proj. subst tmp. rewrite FREE. intros _. exists t. proj. rewrite fupd_eq. reflexivity.
  - proj. subst tmp. rewrite FREE. intros _. exists t. proj. rewrite fupd_eq. reflexivity.
  - sums N s t. destruct (tmp <? 0); cbn [hr tt tg fr fw hw]; up.
  - proj. intros _. exists t. proj. rewrite fupd_eq. rewrite FREE. reflexivity.
  - assert (O : s_owed s t = true) by (apply (i_null _ _ I); [pcs; reflexivity|assumption]). sums N s t. rewrite O in *. up.
  - keeps. sums N s t. intros. apply KP; [unfold RwlockInv.act; lia|exact HL|pcs; reflexivity|intros; rewrite ?fupd_ne by assumption; auto].
  - keeps. sums N s t. intros. apply KP; [unfold RwlockInv.act; lia|exact HL|pcs; reflexivity|intros; rewrite ?fupd_ne by assumption; auto].
  - proj. intros _. exists t. proj. rewrite fupd_eq. rewrite FREE. rewrite Z.ltb_irrefl. reflexivity.
  - keeps. sums N s t. intros. apply KP; [unfold RwlockInv.act; lia|exact HL|pcs; cbn; apply Z.eqb_neq; assumption|intros; rewrite ?fupd_ne by assumption; auto].
  - sums N s t. up.
  - sums N s t. intros HA. exfalso. apply H2. apply FC; [unfold RwlockInv.act; lia|exact HL].
  - intros _. exists t. proj. rewrite !fupd_eq. reflexivity.
  - intros _. exists t. proj. rewrite !fupd_eq. rewrite FREE. reflexivity.
  - destruct (s_list s) eqn:EL; proj; [congruence|]. intros _. exists t. rewrite fupd_eq. reflexivity.
  - destruct (s_list s) eqn:EL; proj; [congruence|]. sums N s t. up.
  - pose proof (i_wf _ _ I _ _ _ H0) as W. destruct wt; cbn [wf_k] in W.
    + intros _. assert (HU : In (u, false) (s_list s)) by (rewrite H1; left; reflexivity). apply (i_wr _ _ I) in HU.
      assert (HC : crit (s_pc s u) = false).
      { destruct (crit (s_pc s u)) eqn:E; [|reflexivity]. assert (u = t) by (apply (crit_one N s); [exact I|exact E|pcs; reflexivity]). subst u. rewrite H0 in HU.
        destruct W as [-> | ->]; discriminate HU. }
      assert (Hut : u <> t) by (intros ->; rewrite H0 in HC; discriminate).
      exists u. assert (E : s_pc (leave t c (set_pulse u true s)) u = s_pc s u) by (destruct c; proj; rewrite fupd_ne by exact Hut; reflexivity).
      rewrite E. replace (s_pulse (leave t c (set_pulse u true s)) u) with true by (destruct c; proj; rewrite fupd_eq; reflexivity).
      destruct (s_pc s u); try discriminate HU; try discriminate HC; reflexivity.
    + destruct W as (v & -> & Hv). pose proof (leave_sums N s t (CWrite v) H ltac:(eauto)) as (L1 & L2 & L3 & L4 & L5 & L6 & L7 & L8).
      rewrite L1, L2, L4, L5, L6, H0. cbn [tt tk]. intros HA. eapply (KEEP t); [unfold RwlockInv.act; lia|congruence|pcs; reflexivity|]. intros w Hw. proj. rewrite fupd_ne by exact Hw. auto.
    + subst c. sums N s t. up.
  - pose proof (i_wf _ _ I _ _ _ H0) as W. destruct wt; cbn [wf_k] in W.
    + intros _. exists t. proj. rewrite fupd_eq. reflexivity.
    + intros _. exists t. proj. rewrite fupd_eq. reflexivity.
    + subst c. sums N s t. up.
  - sums N s t. destruct (_ <? _); cbn [hr tt tg fr fw hw tk]; unfold READ_BIAS in *; up.
  - destruct (active v =? 0) eqn:EA; [intros _; exists t; proj; rewrite fupd_eq; reflexivity|].
    intros _. exfalso. apply Z.eqb_neq in EA. apply EA. 
    assert (E : v = WAITING_BIAS) by (revert FREE; destruct c; proj; auto). rewrite E. exact ACTF.
  - pose proof (i_wf _ _ I _ _ _ H0) as W. cbn [wf_k] in W.
    destruct (i_read _ _ I _ _ _ H0 eq_refl) as (u & l & EL).
    set (s1 := set_owed _ _). intros HA. exfalso.
    assert (U : In (u, true) (s_list s)) by (rewrite EL; left; reflexivity). apply (i_rd _ _ I) in U. destruct U as [U1 U2].
    assert (Hu : (u < N)%nat). { destruct (Nat.lt_ge_cases u N) as [|G]; [assumption|]. rewrite (i_out _ _ I u G) in U1. discriminate. }
    assert (G1 : hr (s_pc s1 u) (s_owed s1 u) <= HR N s1) by (apply (sum_ge N (fun w => hr (s_pc s1 w) (s_owed s1 w))); [intros; apply hr_b|exact Hu]).
    assert (G2 : hr (s_pc s1 u) (s_owed s1 u) = 1).
    { unfold s1. proj. rewrite fupds_in by (rewrite EL; left; reflexivity). destruct (Nat.eq_dec u t) as [->|Hn].
      - rewrite fupd_eq. rewrite H0 in U1. destruct c; try discriminate U1. reflexivity.
      - rewrite fupd_ne by exact Hn. destruct (s_pc s u) as [| | | | | | | | | | | |k' c']; try discriminate U1; try reflexivity. destruct c'; try discriminate U1. reflexivity. }
    assert (0 <= TT N s1).
    { apply sum_nonneg. intros w. unfold s1. proj. destruct (Nat.eq_dec w t) as [->|Hn]; [rewrite fupd_eq; cbn; lia|rewrite fupd_ne by exact Hn; apply (tt_b N), I]. }
    assert (0 <= FR N s1) by (apply sum_nonneg; intros; apply fr_b).
    assert (0 <= FW N s1) by (apply sum_nonneg; intros; apply fw_b). assert (0 <= HW N s1) by (apply sum_nonneg; intros; apply hw_b). lia.
  - keeps. sums N s t. intros. apply KP; [unfold RwlockInv.act; lia|exact HL|pcs; reflexivity|intros; rewrite ?fupd_ne by assumption; auto].
  - keeps. sums N s t. intros. apply KP; [unfold RwlockInv.act; lia|exact HL|pcs; reflexivity|intros; rewrite (fupd_ne (s_pc s)) by assumption; split; [reflexivity|]].
    intros Y. eqs; [reflexivity|exact Y].
  - keeps. sums N s t. intros. apply KP; [unfold RwlockInv.act; lia|exact HL|pcs; reflexivity|intros; rewrite ?fupd_ne by assumption; auto].
  - pose proof (leave_sums N s t c H ltac:(eauto)) as (L1 & L2 & L3 & L4 & L5 & L6 & L7 & L8). rewrite L1, L2, L4, L5, L6, H0. cbn [tt tk].
    intros HA. eapply (KEEP t); [unfold RwlockInv.act; lia|congruence|pcs; reflexivity|]. intros w Hw. destruct c; proj; rewrite fupd_ne by exact Hw; auto.
Qed.

Lemma inv_step N s s' : inv N s -> small N -> step N s s' -> inv N s'.
Proof.
  intros I S H. destruct (cinv_step N s s' I S H) as [A B]. destruct (ninv_step N s s' I H) as [C D E].
  pose proof (head_step N s s' I H) as F. split; try assumption.
  - apply (out_step N s), H. exact I.
  - apply (mx_step N s s' I H).
  - apply (wf_step N s s' I S H).
  - intros t k c Hp. apply (F t k c Hp).
  - intros t k c Hp. apply (F t k c Hp).
  - apply (nodup_step N s s' I H).
  - apply (rd_step N s s' I H).
  - apply (wr_step N s s' I H).
  - apply (todo_nodup_step N s s' I H).
  - apply (sleep_step N s s' I H).
  - apply (care_step N s s' I S H).
Qed.
Lemma inv_reachable N s : small N -> reachable N s -> inv N s.
Proof. intros S R. induction R; [apply init_inv|eapply inv_step; eassumption]. Qed.
