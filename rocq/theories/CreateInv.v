(** * The invariant of the creation of a queue (C57) *)
From Verif Require Import Base Create.

(** ** Vocabulary *)
Definition event_eqb (a b : event) : bool :=
  match a, b with EInit, EInit | EFini, EFini => true | _, _ => false end.
Fixpoint count (e : event) (l : list event) : nat :=
  match l with [] => 0 | x :: l => (if event_eqb e x then 1 else 0) + count e l end%nat.
Definition given (b : bool) : nat := if b then 1%nat else 0%nat.
(** The queue object could not be made; init has failed. *)
Definition q_fails (v : env) : bool := match e_q v with Some 0 => false | _ => true end.
Definition init_fails (c : cfg) (v : env) : bool := (negb (q_fails v) && (c_init c && (e_init v <? 0)))%bool.
Definition fails (c : cfg) (v : env) : bool := (q_fails v || init_fails c v)%bool.
(** The aosl_errno of the failure. *)
Definition failure (v : env) : Z :=
  match e_q v with Some 0 => e_init_errno v | Some e => e | None => 0 end.

(** ** The invariant *)
Definition past1 (b : child) : bool := match b with BNone | BArgs | BLk1 | BDone => false | _ => true end.
Definition past1' (b : child) : bool := match b with BNone | BArgs | BLk1 | BDone | BUn1 => false | _ => true end.
Definition past2 (b : child) : bool := match b with BUn2 | BRun | BFini false | BFree false | BEnd => true | _ => false end.
Definition past2' (b : child) : bool := match b with BRun | BFini false | BFree false | BEnd => true | _ => false end.
Definition held1 (c : creator) (b : child) : option who :=
  match c with CTest1 | CUn1 => Some Creator | _ => match b with BDone | BUn1 => Some Child | _ => None end end.
Definition held2 (c : creator) (b : child) : option who :=
  match c with CTest2 | CUn2 => Some Creator | _ => match b with BRes | BUn2 => Some Child | _ => None end end.
Definition fits (v : env) (c : creator) (b : child) : bool :=
  match c with
  | CStart | CHal => match b with BNone => true | _ => false end
  | CLk1 | CSleep1 => match b with BNone => negb (e_pthread v =? 0) | _ => true end
  | CTest1 => match b with BNone => negb (e_pthread v =? 0) | BDone | BUn1 => false | _ => true end
  | CUn1 | CDes1 | CLk2 | CSleep2 => past1' b
  | CTest2 => (past1' b && negb (match b with BRes | BUn2 => true | _ => false end))%bool
  | CUn2 | CDes2 | CErr | CQid => past2' b
  | CRet => (past2' b || match b with BNone => true | _ => false end)%bool
  end.
(** The child's way through the code. *)
Definition way (c : cfg) (v : env) (b : child) : bool :=
  match b with
  | BInit => negb (q_fails v)
  | BFini true | BFree true => init_fails c v
  | BFini false | BFree false | BRun => negb (fails c v)
  | BFiniQ => q_fails v
  | _ => true
  end.
Definition started (v : env) (b : child) : bool := match b with BNone => true | _ => e_pthread v =? 0 end.
Definition qof (c : cfg) (v : env) (b : child) : option bool :=
  match b with
  | BNone | BArgs | BLk1 | BDone | BUn1 | BEntry | BFiniQ => None
  | BInit | BFini _ | BFree _ | BRun => Some true
  | BLk2 | BRes | BUn2 => if q_fails v then None else Some (negb (init_fails c v))
  | BEnd => if q_fails v then None else Some false
  end.
Definition inits (c : cfg) (v : env) (b : child) : nat :=
  match b with
  | BNone | BArgs | BLk1 | BDone | BUn1 | BEntry | BFiniQ | BInit => 0%nat
  | _ => if q_fails v then 0%nat else given (c_init c)
  end.
Definition finis (c : cfg) (v : env) (b : child) : nat :=
  match b with
  | BFree _ | BEnd => given (c_fini c)
  | BLk2 | BRes | BUn2 => if fails c v then given (c_fini c) else 0%nat
  | _ => 0%nat
  end.
(** The failure is in the child's variable err. *)
Definition noted (c : cfg) (v : env) (b : child) : bool :=
  match b with
  | BFini true | BFree true | BFiniQ => true
  | BLk2 | BRes | BUn2 | BEnd => fails c v
  | _ => false
  end.
Definition early (b : child) : bool := match b with BNone | BArgs | BLk1 | BDone | BUn1 | BEntry => true | _ => false end.

(** What holds when the call returns. *)
Definition returned (c : cfg) (v : env) (ok : bool) (e : Z) (l : list event) : Prop :=
  (checks c = None -> e_pthread v = 0 ->
     ok = negb (fails c v) /\
     count EInit l = (if q_fails v then 0%nat else given (c_init c)) /\
     (fails c v = true -> count EFini l = given (c_fini c) /\ e = failure v)) /\
  (checks c <> None -> ok = false /\ l = []) /\
  (checks c = None -> e_pthread v <= 0).

Record Inv (c : cfg) (v : env) (s : state) : Prop := {
  i_fits : fits v (s_c s) (s_b s) = true;
  i_way : way c v (s_b s) = true;
  i_start : started v (s_b s) = true;
  i_lk1 : s_lk1 s = held1 (s_c s) (s_b s);
  i_lk2 : s_lk2 s = held2 (s_c s) (s_b s);
  i_done : s_done s = past1 (s_b s);
  i_res : s_res s = if past2 (s_b s) then Some (negb (fails c v)) else None;
  i_live1 : match s_c s with CStart | CHal | CLk1 | CTest1 | CSleep1 | CUn1 | CDes1 => s_live1 s = true | _ => True end;
  i_live2 : match s_c s with CErr | CQid | CRet => True | _ => s_live2 s = true end;
  i_sleep1 : s_c s = CSleep1 -> s_done s = true -> s_wake s = true;
  i_sleep2 : s_c s = CSleep2 -> s_res s <> None -> s_wake s = true;
  i_bad : s_bad s = false;
  i_q : s_q s = qof c v (s_b s);
  i_berr : early (s_b s) = true -> s_berr s = 0;
  i_serr : noted c v (s_b s) = true -> s_serr s = failure v;
  i_err : past2 (s_b s) = true -> fails c v = true -> s_err s = failure v;
  i_ck : s_c s <> CStart -> s_c s <> CRet -> checks c = None;
  i_ck2 : s_b s <> BNone -> checks c = None;
  i_pt : (s_c s = CLk1 \/ s_c s = CTest1 \/ s_c s = CSleep1) -> 0 <= e_pthread v;
  i_ok : s_c s = CQid -> fails c v = false;
  i_inits : count EInit (s_tr s) = inits c v (s_b s);
  i_finis : count EFini (s_tr s) = finis c v (s_b s);
  i_noret : s_c s <> CRet -> forall l1 ok e l2, s_tr s <> l1 ++ EReturn ok e :: l2;
  i_empty : s_c s = CStart -> s_tr s = [];
  i_ret : forall l1 ok e l2, s_tr s = l1 ++ EReturn ok e :: l2 -> returned c v ok e l2
}.

Lemma Inv_init c v e : Inv c v (init_state e).
Proof.
  constructor; cbn; auto; try discriminate; try congruence; try (intros; destruct l1; discriminate).
  intros [H|[H|H]]; discriminate.
Qed.

Definition is_ret (x : event) : bool := match x with EReturn _ _ => true | _ => false end.
Definition retf (tr : list event) : Prop := forall l1 ok e l2, tr <> l1 ++ EReturn ok e :: l2.
Lemma retf_cons x tr : is_ret x = false -> retf tr -> retf (x :: tr).
Proof. intros Hx H l1 ok e l2 E. destruct l1 as [|y l1]; [injection E as -> _; discriminate|injection E as _ E; exact (H _ _ _ _ E)]. Qed.
Definition rets (P : bool -> Z -> list event -> Prop) (tr : list event) : Prop :=
  forall l1 ok e l2, tr = l1 ++ EReturn ok e :: l2 -> P ok e l2.
Lemma rets_cons P x tr : is_ret x = false -> rets P tr -> rets P (x :: tr).
Proof. intros Hx H l1 ok e l2 E. destruct l1 as [|y l1]; [injection E as -> _; discriminate|injection E as _ E; exact (H _ _ _ _ E)]. Qed.
Lemma rets_ret (P : bool -> Z -> list event -> Prop) ok e tr : retf tr -> P ok e tr -> rets P (EReturn ok e :: tr).
Proof.
  intros H HP l1 ok' e' l2 E. destruct l1 as [|y l1]; [injection E as <- <- <-; exact HP|injection E as _ E]. destruct (H _ _ _ _ E).
Qed.

Ltac pre := match goal with
  | H : forall l1 ok e l2, _ = l1 ++ EReturn ok e :: l2 -> _ |- forall l1 ok e l2, _ = l1 ++ EReturn ok e :: l2 -> _ => exact H
  | H : _ -> forall l1 ok e l2, _ <> l1 ++ EReturn ok e :: l2 |- _ -> forall l1 ok e l2, _ <> l1 ++ EReturn ok e :: l2 => intros _; apply H; discriminate
  | H : ?b <> BNone -> checks _ = None |- _ -> checks _ = None => intros _; apply H; discriminate
  | H : ?b <> BNone -> checks _ = None |- _ -> _ -> checks _ = None => intros _ _; apply H; discriminate
  | H : _ -> _ -> checks _ = None |- _ -> _ -> checks _ = None => intros _ _; apply H; discriminate
  end.
Ltac rw := repeat match goal with
  | H : q_fails ?v = ?b |- context [q_fails ?v] => rewrite H
  | H : init_fails ?c ?v = ?b |- context [init_fails ?c ?v] => rewrite H
  | H : fails ?c ?v = ?b |- context [fails ?c ?v] => rewrite H
  | H : c_init ?c = ?b |- context [c_init ?c] => rewrite H
  | H : c_fini ?c = ?b |- context [c_fini ?c] => rewrite H
  | H : q_fails ?v = ?b, K : context [q_fails ?v] |- _ => lazymatch K with H => fail | _ => rewrite H in K end
  | H : init_fails ?c ?v = ?b, K : context [init_fails ?c ?v] |- _ => lazymatch K with H => fail | _ => rewrite H in K end
  | H : fails ?c ?v = ?b, K : context [fails ?c ?v] |- _ => lazymatch K with H => fail | _ => rewrite H in K end
  end.
Ltac crush0 :=
  intros; repeat match goal with
  | H : forall (l1 : list event) (ok : bool) (e : Z) (l2 : list event), _ |- _ => clear H
  | H : _ -> forall (l1 : list event) (ok : bool) (e : Z) (l2 : list event), _ |- _ => clear H
  end; try discriminate; cbn in *; subst; cbn in *; try discriminate; try reflexivity; try assumption; rw; cbn in *; try discriminate; try congruence; auto; try tauto.
Ltac crush := first [solve [pre]|crush0].
Ltac red_st := cbn [ret frame1 frame2 setC setB setL1 setL2 setWake setDone setRes die1 die2 setQ setBerr setCerr setSerr touch touchQ emit
  s_c s_b s_lk1 s_lk2 s_wake s_done s_res s_err s_live1 s_live2 s_q s_berr s_cerr s_serr s_bad s_badq s_tr].
Ltac tr_tac := match goal with
  | H : _ -> forall l1 ok e l2, ?tr <> l1 ++ _ |- _ -> forall l1 ok e l2, ?x :: ?tr <> l1 ++ _ =>
      let D := fresh in intros D; exact (retf_cons x tr eq_refl (H D))
  | H : forall l1 ok e l2, ?tr = l1 ++ _ -> _ |- forall l1 ok e l2, ?x :: ?tr = l1 ++ _ -> _ => exact (rets_cons _ x tr eq_refl H)
  end.
Ltac fin := constructor; red_st; first [solve [tr_tac]|crush].

Lemma child_ok c v s s' : Inv c v s -> child_step c v s = Some s' -> Inv c v s'.
Proof.
  intros HI H. destruct s as [cc b lk1 lk2 wk dn res err lv1 lv2 q be ce se bad badq tr]. destruct HI.
  cbn [s_c s_b s_lk1 s_lk2 s_wake s_done s_res s_err s_live1 s_live2 s_q s_berr s_cerr s_serr s_bad s_badq s_tr] in *.
  destruct b; cbn [child_step s_b] in H; try discriminate.
  - (* BArgs *) injection H as <-. destruct cc; try discriminate; fin.
  - (* BLk1 *) cbn [s_lk1] in H. destruct lk1; [discriminate|]. injection H as <-. destruct cc; try discriminate; fin.
  - (* BDone *) injection H as <-. destruct cc; try discriminate; fin.
  - (* BUn1 *) injection H as <-. destruct cc; try discriminate; fin.
  - (* BEntry *)
    assert (G : s' = (if q_fails v then setB BFiniQ (setSerr (failure v) (setBerr (failure v) (frame2 (mkSt cc BEntry lk1 lk2 wk dn res err lv1 lv2 q be ce se bad badq tr))))
       else setB BInit (setQ (Some true) (setSerr be (frame2 (mkSt cc BEntry lk1 lk2 wk dn res err lv1 lv2 q be ce se bad badq tr)))))).
    { unfold q_fails, failure. assert (be = 0) by auto. subst be. clear - H. destruct (e_q v) as [[|e|e]|]; injection H as <-; reflexivity. }
    subst s'. destruct (q_fails v) eqn:Eq.
    + destruct cc; try discriminate; fin.
    + destruct cc; try discriminate; fin.
  - (* BInit *)
    unfold frame2, touch in H. cbn [s_c s_b s_lk1 s_lk2 s_wake s_done s_res s_err s_live1 s_live2 s_q s_berr s_cerr s_serr s_bad s_badq s_tr] in H.
    assert (Eq : q_fails v = false) by (cbn in i_way0; destruct (q_fails v); auto; discriminate).
    assert (Ef : failure v = e_init_errno v) by (unfold q_fails, failure in *; destruct (e_q v) as [[| |]|]; congruence).
    destruct (c_init c) eqn:Ei; [destruct (e_init v <? 0) eqn:En|].
    + assert (El : init_fails c v = true) by (unfold init_fails; rewrite Eq, Ei, En; auto).
      injection H as <-. destruct cc; try discriminate; fin.
    + assert (El : init_fails c v = false) by (unfold init_fails; rewrite Eq, Ei, En; auto).
      assert (El' : fails c v = false) by (unfold fails; rewrite Eq, El; auto).
      injection H as <-. destruct cc; try discriminate; fin.
    + assert (El : init_fails c v = false) by (unfold init_fails; rewrite Eq, Ei; auto).
      assert (El' : fails c v = false) by (unfold fails; rewrite Eq, El; auto).
      injection H as <-. destruct cc; try discriminate; fin.
  - (* BFini *)
    injection H as <-. unfold call_fini. destruct (c_fini c) eqn:Ef.
    + destruct rep; [assert (Ex : fails c v = true) by (unfold fails; cbn in i_way0; rewrite i_way0; apply orb_true_r)|assert (Ex : fails c v = false) by (cbn in i_way0; destruct (fails c v); auto; discriminate)].
      all: destruct cc; try discriminate; fin.
    + destruct rep; [assert (Ex : fails c v = true) by (unfold fails; cbn in i_way0; rewrite i_way0; apply orb_true_r)|assert (Ex : fails c v = false) by (cbn in i_way0; destruct (fails c v); auto; discriminate)].
      all: destruct cc; try discriminate; fin.
  - (* BFree *)
    injection H as <-. assert (Eq : q_fails v = false).
    { destruct rep; cbn in i_way0; unfold fails, init_fails in i_way0; destruct (q_fails v); auto; discriminate. }
    destruct rep; [assert (Ex : fails c v = true) by (unfold fails; cbn in i_way0; rewrite i_way0; apply orb_true_r)|assert (Ex : fails c v = false) by (cbn in i_way0; destruct (fails c v); auto; discriminate)].
    all: destruct cc; try discriminate; fin.
  - (* BFiniQ *)
    injection H as <-. unfold call_fini. assert (Ex : fails c v = true) by (unfold fails; cbn in i_way0; rewrite i_way0; auto).
    destruct (c_fini c) eqn:Ef; destruct cc; try discriminate; fin.
  - (* BLk2 *) cbn [s_lk2] in H. destruct lk2; [discriminate|]. injection H as <-. destruct cc; try discriminate; fin.
  - (* BRes *)
    injection H as <-. cbn [s_q s_serr frame2 touch]. rewrite i_q0. cbn [qof].
    assert (Ex : match (if q_fails v then None else Some (negb (init_fails c v))) with Some true => true | _ => false end = negb (fails c v)).
    { unfold fails. destruct (q_fails v), (init_fails c v); auto. }
    rewrite Ex. destruct cc; try discriminate; fin.
  - (* BUn2 *)
    injection H as <-. cbn [s_q]. rewrite i_q0. cbn [qof].
    assert (Ex : match (if q_fails v then None else Some (negb (init_fails c v))) with Some true => BRun | _ => BEnd end = if fails c v then BEnd else BRun).
    { unfold fails. destruct (q_fails v), (init_fails c v); auto. }
    rewrite Ex. destruct (fails c v) eqn:Ef.
    + assert (En : q_fails v = false -> init_fails c v = true) by (unfold fails in Ef; intros E; rewrite E in Ef; exact Ef).
      destruct (q_fails v) eqn:Eq; [|specialize (En eq_refl)]; destruct cc; try discriminate; fin.
    + assert (Eq : q_fails v = false /\ init_fails c v = false) by (unfold fails in Ef; apply orb_false_iff; auto). destruct Eq as (Eq & En).
      destruct cc; try discriminate; fin.
  - (* BRun *) injection H as <-. destruct cc; try discriminate; fin.
Qed.
