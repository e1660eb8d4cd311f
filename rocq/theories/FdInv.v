(** * Invariant of the descriptor model: reference counts. *)
From Verif Require Import Base Fd.

Definition fobj (f : frame) : nat := match f with FAdd o | FDisp o _ | FCb o _ | FOp _ o _ => o end.
Definition refs (f : frame) : bool := match f with FCb _ _ => false | _ => true end.
Definition hold (o : nat) (f : frame) : Z := if refs f && (fobj f =? o)%nat then 1 else 0.
Fixpoint holds (o : nat) (l : list frame) : Z := match l with [] => 0 | f :: l' => hold o f + holds o l' end.
Fixpoint totl (o : nat) (ts : list (list frame)) : Z := match ts with [] => 0 | l :: ts' => holds o l + totl o ts' end.
Definition total (o : nat) (s : st) : Z := totl o (ths s).
Definition b2z (b : bool) : Z := if b then 1 else 0.
Fixpoint frees (o : nat) (h : list event) : Z := match h with [] => 0 | EFree o' :: h' => (if (o' =? o)%nat then 1 else 0) + frees o h' | _ :: h' => frees o h' end.
Definition isadd (f : frame) : bool := match f with FAdd _ => true | _ => false end.

Record Inv (ex : nat -> Z) (s : st) : Prop := {
  i_bad : forall o, ~ In (EBad o) (log s);
  i_cnt : forall o, (o < length (objs s))%nat -> o_use (ob s o) = b2z (o_linked (ob s o)) + total o s + ex o;
  i_frz : forall o, (o < length (objs s))%nat -> o_freed (ob s o) = (o_use (ob s o) =? 0);
  i_tab : forall n o, tab s n = Some o -> 0 <= n /\ (o < length (objs s))%nat /\ o_fd (ob s o) = n /\ (o_linked (ob s o) = true \/ In (FAdd o) (stk s (o_q (ob s o))));
  i_frm : forall t f, In f (stk s t) -> (fobj f < length (objs s))%nat;
  i_add : forall t o, In (FAdd o) (stk s t) -> t = o_q (ob s o) /\ o_linked (ob s o) = false;
  i_hd : forall t f, In f (tl (stk s t)) -> isadd f = false;
  i_num : forall o, (o < length (objs s))%nat -> 0 <= o_num (ob s o) /\ (o_fd (ob s o) = o_num (ob s o) \/ o_fd (ob s o) = INVALID);
  i_ex : forall o, 0 <= ex o /\ ((length (objs s) <= o)%nat -> ex o = 0);
  i_free : forall o, frees o (log s) = if (o <? length (objs s))%nat then b2z (o_freed (ob s o)) else 0 }.

Lemma hold_nn o f : 0 <= hold o f. Proof. unfold hold. destruct (_ && _); lia. Qed.
Lemma holds_nn o l : 0 <= holds o l. Proof. induction l as [|f l IH]; cbn [holds]; [lia|]. pose proof (hold_nn o f). lia. Qed.
Lemma totl_nn o ts : 0 <= totl o ts. Proof. induction ts as [|l ts IH]; cbn [totl]; [lia|]. pose proof (holds_nn o l). lia. Qed.
Lemma totl_upd o t l : forall ts, (t < length ts)%nat -> totl o (upd ts t l) = totl o ts - holds o (nth t ts []) + holds o l.
Proof. revert t. intros t ts. revert t. induction ts as [|a ts IH]; intros [|t] H; cbn [length upd nth totl] in *; try lia. rewrite IH by lia. lia. Qed.
Lemma totl_in o t ts : holds o (nth t ts []) <= totl o ts.
Proof. revert t. induction ts as [|a ts IH]; intros [|t]; cbn [nth totl holds]; [lia|lia| |]; pose proof (totl_nn o ts); pose proof (holds_nn o a); first [lia | specialize (IH t); lia]. Qed.
Lemma nth_upd {A} (d : A) l : forall n m x, nth m (upd l n x) d = if (m =? n)%nat && (n <? length l)%nat then x else nth m l d.
Proof.
  induction l as [|a l IH]; intros n m x.
  - cbn [length]. replace (n <? 0)%nat with false by (symmetry; apply Nat.ltb_ge; lia). rewrite andb_false_r. reflexivity.
  - destruct n as [|n], m as [|m]; cbn [upd nth length]; try reflexivity. rewrite IH. reflexivity.
Qed.
Lemma ob_seto s o x o' : ob (seto o x s) o' = if (o' =? o)%nat && (o <? length (objs s))%nat then x else ob s o'.
Proof. unfold ob, seto. cbn [objs]. apply nth_upd. Qed.
Lemma stk_sett s t l t' : stk (sett t l s) t' = if (t' =? t)%nat && (t <? length (ths s))%nat then l else stk s t'.
Proof. unfold stk, sett. cbn [ths]. apply nth_upd. Qed.
Lemma len_seto s o x : length (objs (seto o x s)) = length (objs s). Proof. unfold seto. cbn [objs]. apply upd_length. Qed.
Lemma total_sett s t l o : (t < length (ths s))%nat -> total o (sett t l s) = total o s - holds o (stk s t) + holds o l.
Proof. intros H. unfold total, sett, stk. cbn [ths]. apply totl_upd. exact H. Qed.
Lemma hold_total s t o : holds o (stk s t) <= total o s. Proof. apply totl_in. Qed.
Lemma total_nn s o : 0 <= total o s. Proof. apply totl_nn. Qed.
Lemma holds_in o f l : In f l -> refs f = true -> fobj f = o -> 1 <= holds o l.
Proof.
  intros Hi R E. induction l as [|g l IH]; [destruct Hi|]. cbn [holds]. pose proof (hold_nn o g). pose proof (holds_nn o l). destruct Hi as [->|Hi]; [|specialize (IH Hi); lia].
  unfold hold. rewrite R, E, Nat.eqb_refl. cbn [andb]. lia.
Qed.
Lemma held_use ex s t f : Inv ex s -> In f (stk s t) -> refs f = true -> 1 <= o_use (ob s (fobj f)).
Proof.
  intros H Hi R. pose proof (i_frm _ _ H _ _ Hi) as L. rewrite (i_cnt _ _ H _ L). pose proof (holds_in (fobj f) f _ Hi R eq_refl). pose proof (hold_total s t (fobj f)).
  pose proof (i_ex _ _ H (fobj f)) as [E _]. destruct (o_linked _); cbn [b2z]; lia.
Qed.
Lemma tab_use ex s n o : Inv ex s -> tab s n = Some o -> 1 <= o_use (ob s o).
Proof.
  intros H Ht. destruct (i_tab _ _ H _ _ Ht) as (A & L & B & [C|C]).
  - rewrite (i_cnt _ _ H _ L), C. cbn [b2z]. pose proof (total_nn s o). pose proof (proj1 (i_ex _ _ H o)). lia.
  - pose proof (held_use _ _ _ _ H C eq_refl). exact H0.
Qed.
Lemma touch_ok ex s o : Inv ex s -> (o < length (objs s))%nat -> 1 <= o_use (ob s o) -> touch o s = s.
Proof. intros H L U. unfold touch. rewrite (i_frz _ _ H _ L). replace (o_use (ob s o) =? 0) with false by lia. reflexivity. Qed.
Lemma held_touch ex s t f : Inv ex s -> In f (stk s t) -> refs f = true -> touch (fobj f) s = s.
Proof. intros H Hi R. eapply touch_ok; [eassumption|eapply i_frm; eassumption|eapply held_use; eassumption]. Qed.

Definition exu (ex : nat -> Z) (o : nat) (d : Z) : nat -> Z := fun x => if (x =? o)%nat then ex x + d else ex x.
Ltac eqb x y := destruct (Nat.eq_dec x y) as [->|]; [rewrite ?Nat.eqb_refl|rewrite ?(proj2 (Nat.eqb_neq x y)) by assumption].

(** A change of one object that keeps its numbers and queue. *)
Lemma seto_ok ex ex' s o x : Inv ex s -> (o < length (objs s))%nat ->
  o_num x = o_num (ob s o) -> o_q x = o_q (ob s o) ->
  (o_fd x = o_fd (ob s o) \/ (o_fd x = INVALID /\ forall n, tab s n <> Some o)) ->
  (o_linked x = o_linked (ob s o) \/ (o_linked x = false /\ forall n, tab s n <> Some o)) ->
  o_use x = b2z (o_linked x) + total o s + ex' o -> o_freed x = (o_use x =? 0) -> b2z (o_freed x) = frees o (log s) ->
  (forall o', o' <> o -> ex' o' = ex o') -> 0 <= ex' o ->
  Inv ex' (seto o x s).
Proof.
  intros H L N Q Fd Lk U Fr Fe Ex E0.
  constructor.
  - exact (i_bad _ _ H).
  - intros o' L'. rewrite len_seto in L'. rewrite ob_seto. apply Nat.ltb_lt in L. rewrite L, andb_true_r. eqb o' o; [exact U|]. rewrite (i_cnt _ _ H _ L'), Ex by assumption. reflexivity.
  - intros o' L'. rewrite len_seto in L'. rewrite ob_seto. apply Nat.ltb_lt in L. rewrite L, andb_true_r. eqb o' o; [exact Fr|]. apply (i_frz _ _ H _ L').
  - intros n o' Ht. change (tab (seto o x s)) with (tab s) in Ht. rewrite len_seto, ob_seto. pose proof (proj2 (Nat.ltb_lt _ _) L) as L2. rewrite L2, andb_true_r.
    destruct (i_tab _ _ H _ _ Ht) as (A & B & C & D). eqb o' o; [|auto]. change (stk (seto o x s)) with (stk s). rewrite Q. split; [exact A|]. split; [exact B|].
    split; [destruct Fd as [->|[_ Fd]]; [exact C|destruct (Fd n Ht)]|]. destruct Lk as [->|[_ Lk]]; [exact D|destruct (Lk n Ht)].
  - intros t f. change (stk (seto o x s)) with (stk s). rewrite len_seto. apply (i_frm _ _ H).
  - intros t o' Hi. change (stk (seto o x s)) with (stk s) in Hi. rewrite ob_seto. pose proof (proj2 (Nat.ltb_lt _ _) L) as L2. rewrite L2, andb_true_r. destruct (i_add _ _ H _ _ Hi) as [A B].
    eqb o' o; [|auto]. rewrite Q. split; [exact A|]. destruct Lk as [->|[Lk _]]; assumption.
  - exact (i_hd _ _ H).
  - intros o' L'. rewrite len_seto in L'. rewrite ob_seto. pose proof (proj2 (Nat.ltb_lt _ _) L) as L2. rewrite L2, andb_true_r. eqb o' o; [|apply (i_num _ _ H _ L')].
    rewrite N. destruct (i_num _ _ H _ L') as [A B]. split; [exact A|]. destruct Fd as [->|[Fd _]]; auto.
  - intros o'. rewrite len_seto. destruct (i_ex _ _ H o') as [A B]. destruct (Nat.eq_dec o' o) as [->|E]; [split; [exact E0|intros; lia]|]. rewrite Ex by exact E. auto.
  - intros o'. rewrite len_seto, ob_seto. change (log (seto o x s)) with (log s). pose proof (proj2 (Nat.ltb_lt _ _) L) as L2. rewrite L2, andb_true_r. eqb o' o; [rewrite L2; auto|]. apply (i_free _ _ H).
Qed.
Lemma note_ok ex s e : Inv ex s -> (forall o, e <> EBad o) -> (forall o, e <> EFree o) -> Inv ex (note e s).
Proof.
  intros H A B. destruct H. constructor; auto.
  - intros o [E|Hi]; [exact (A o E)|]. exact (i_bad0 o Hi).
  - intros o. cbn [log note frees]. destruct e; try apply i_free0. destruct (B o0 eq_refl).
Qed.
Lemma obj_eta x : mkO (o_num x) (o_fd x) (o_q x) (o_use x) (o_linked x) (o_freed x) = x. Proof. destruct x; reflexivity. Qed.
Lemma frees_of ex s o : Inv ex s -> (o < length (objs s))%nat -> frees o (log s) = b2z (o_freed (ob s o)).
Proof. intros H L. rewrite (i_free _ _ H o). apply Nat.ltb_lt in L. rewrite L. reflexivity. Qed.

Lemma getref_eq ex s o : Inv ex s -> (o < length (objs s))%nat -> 1 <= o_use (ob s o) ->
  getref o s = seto o (mkO (o_num (ob s o)) (o_fd (ob s o)) (o_q (ob s o)) (o_use (ob s o) + 1) (o_linked (ob s o)) (o_freed (ob s o))) s.
Proof. intros H L U. unfold getref. rewrite (touch_ok _ _ _ H L U). reflexivity. Qed.
Lemma getref_ok ex s o : Inv ex s -> (o < length (objs s))%nat -> 1 <= o_use (ob s o) -> Inv (exu ex o 1) (getref o s).
Proof.
  intros H L U. rewrite (getref_eq _ _ _ H L U). apply (seto_ok ex); cbn [o_num o_fd o_q o_use o_linked o_freed]; auto.
  - rewrite (i_cnt _ _ H _ L). unfold exu. rewrite Nat.eqb_refl. lia.
  - rewrite (i_frz _ _ H _ L). lia.
  - symmetry. apply (frees_of _ _ _ H L).
  - intros o' E. unfold exu. rewrite (proj2 (Nat.eqb_neq _ _) E). reflexivity.
  - unfold exu. rewrite Nat.eqb_refl. pose proof (proj1 (i_ex _ _ H o)). lia.
Qed.
(** Giving back a reference: what remains, and what the call changes. *)
Lemma putref_ok ex s o : Inv ex s -> 1 <= ex o -> Inv (exu ex o (-1)) (putref o s).
Proof.
  intros H E. assert (L : (o < length (objs s))%nat). { destruct (Nat.lt_ge_cases o (length (objs s))); [assumption|]. pose proof (proj2 (i_ex _ _ H o) H0). lia. }
  assert (U : 1 <= o_use (ob s o)). { rewrite (i_cnt _ _ H _ L). pose proof (total_nn s o). destruct (o_linked _); cbn [b2z]; lia. }
  unfold putref. rewrite (touch_ok _ _ _ H L U). pose proof (i_cnt _ _ H _ L) as C. pose proof (total_nn s o) as T. pose proof (i_frz _ _ H _ L) as F.
  assert (F0 : o_freed (ob s o) = false) by lia. destruct (o_use (ob s o) =? 1) eqn:B.
  - assert (Lk : o_linked (ob s o) = false) by (destruct (o_linked (ob s o)); [cbn [b2z] in C; lia|reflexivity]). rewrite Lk in *. cbn [b2z] in C.
    set (x := mkO _ _ _ _ _ _). assert (Hs : Inv (exu ex o (-1)) (seto o (mkO (o_num (ob s o)) (o_fd (ob s o)) (o_q (ob s o)) 0 false true) (mkS (objs s) (tab s) (ths s) (bts s) (EFree o :: log s)))).
    { assert (H' : Inv ex (mkS (objs s) (tab s) (ths s) (bts s) (log s))) by (destruct s; exact H).
      pose proof (seto_ok ex (exu ex o (-1)) s o (mkO (o_num (ob s o)) (o_fd (ob s o)) (o_q (ob s o)) 0 false false) H L) as G. cbn [o_num o_fd o_q o_use o_linked o_freed] in G.
      constructor; cbn [log seto objs tab ths bts].
      - intros o' [X|Hi]; [discriminate|]. exact (i_bad _ _ H o' Hi).
      - intros o' L'. rewrite upd_length in L'. change (ob _ o') with (nth o' (upd (objs s) o x) dead). rewrite nth_upd; fold (ob s o'). apply Nat.ltb_lt in L. rewrite L, andb_true_r. unfold exu. eqb o' o.
        + cbn [x o_use o_linked b2z]. change (total o _) with (total o s). lia.
        + rewrite (i_cnt _ _ H _ L'). reflexivity.
      - intros o' L'. rewrite upd_length in L'. change (ob _ o') with (nth o' (upd (objs s) o x) dead). rewrite nth_upd; fold (ob s o'). apply Nat.ltb_lt in L. rewrite L, andb_true_r. eqb o' o; [reflexivity|apply (i_frz _ _ H _ L')].
      - intros n o' Ht. rewrite upd_length. destruct (i_tab _ _ H _ _ Ht) as (A1 & A2 & A3 & A4). change (ob _ o') with (nth o' (upd (objs s) o x) dead). rewrite nth_upd; fold (ob s o'). pose proof (proj2 (Nat.ltb_lt _ _) L) as L2. rewrite L2, andb_true_r.
        eqb o' o; [|auto]. exfalso. destruct A4 as [A4|A4]; [congruence|]. pose proof (holds_in o _ _ A4 eq_refl eq_refl). pose proof (hold_total s (o_q (ob s o)) o). lia.
      - intros t0 f. rewrite upd_length. apply (i_frm _ _ H).
      - intros t0 o' Hi. change (stk _ t0) with (stk s t0) in Hi. destruct (i_add _ _ H _ _ Hi) as [A1 A2]. change (ob _ o') with (nth o' (upd (objs s) o x) dead). rewrite nth_upd; fold (ob s o'). pose proof (proj2 (Nat.ltb_lt _ _) L) as L2. rewrite L2, andb_true_r. eqb o' o; auto.
      - exact (i_hd _ _ H).
      - intros o' L'. rewrite upd_length in L'. change (ob _ o') with (nth o' (upd (objs s) o x) dead). rewrite nth_upd; fold (ob s o'). apply Nat.ltb_lt in L. rewrite L, andb_true_r. pose proof (i_num _ _ H _ L'). eqb o' o; auto.
      - intros o'. rewrite upd_length. destruct (i_ex _ _ H o') as [A1 A2]. unfold exu. eqb o' o; [split; intros; lia|auto].
      - intros o'. rewrite upd_length. change (ob _ o') with (nth o' (upd (objs s) o x) dead). rewrite nth_upd; fold (ob s o'). apply Nat.ltb_lt in L. rewrite L, andb_true_r. cbn [frees]. rewrite (i_free _ _ H o').
        rewrite (Nat.eqb_sym o o'). eqb o' o; [rewrite L, F0; reflexivity|]. destruct (o' <? _)%nat; lia. }
    exact Hs.
  - apply (seto_ok ex); cbn [o_num o_fd o_q o_use o_linked o_freed]; auto.
    + unfold exu. rewrite Nat.eqb_refl. lia.
    + rewrite F0. lia.
    + symmetry. apply (frees_of _ _ _ H L).
    + intros o' E'. unfold exu. rewrite (proj2 (Nat.eqb_neq _ _) E'). reflexivity.
    + unfold exu. rewrite Nat.eqb_refl. lia.
Qed.
Lemma Inv_ext ex ex' s : (forall o, ex o = ex' o) -> Inv ex s -> Inv ex' s.
Proof. intros E H. destruct H. constructor; auto; intros; rewrite <- ?E; auto. Qed.
Lemma setb_ok ex s t b : Inv ex s -> Inv ex (setb t b s).
Proof. intros H. destruct H. constructor; auto. Qed.
(** A change of a stack that adds no FAdd. *)
Lemma sett_ok ex ex' s t l : Inv ex s -> (t < length (ths s))%nat ->
  (forall o, holds o l + ex' o = holds o (stk s t) + ex o) -> (forall f, In f l -> (fobj f < length (objs s))%nat) ->
  (forall o, In (FAdd o) l <-> In (FAdd o) (stk s t)) -> (forall f, In f (tl l) -> isadd f = false) -> (forall o, 0 <= ex' o /\ ((length (objs s) <= o)%nat -> ex' o = 0)) ->
  Inv ex' (sett t l s).
Proof.
  intros H Lt Hh Hf Ha Hd Hx.
  constructor; cbn [log sett objs tab].
  - exact (i_bad _ _ H).
  - intros o L. rewrite total_sett by exact Lt. change (ob (sett t l s) o) with (ob s o). rewrite (i_cnt _ _ H _ L). specialize (Hh o). lia.
  - intros o L. apply (i_frz _ _ H _ L).
  - intros n o Ht. destruct (i_tab _ _ H _ _ Ht) as (A & B & C & D). change (ob (sett t l s) o) with (ob s o). repeat split; auto. destruct D as [D|D]; [auto|right].
    rewrite stk_sett. destruct (_ && _) eqn:E; [|exact D]. apply Ha. apply andb_prop in E. destruct E as [E _]. apply Nat.eqb_eq in E. rewrite <- E. exact D.
  - intros t0 f. rewrite stk_sett. destruct (_ && _); [apply Hf|apply (i_frm _ _ H)].
  - intros t0 o. rewrite stk_sett. change (ob (sett t l s) o) with (ob s o). destruct (_ && _) eqn:E; [|apply (i_add _ _ H)]. intros Hi. apply Ha in Hi. apply andb_prop in E. destruct E as [E _]. apply Nat.eqb_eq in E. subst t0. apply (i_add _ _ H _ _ Hi).
  - intros t0 f. rewrite stk_sett. destruct (_ && _); [apply Hd|apply (i_hd _ _ H)].
  - intros o L. apply (i_num _ _ H _ L).
  - exact Hx.
  - intros o. apply (i_free _ _ H).
Qed.
