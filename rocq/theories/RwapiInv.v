(** * Invariants of the public read-write lock (Rwapi.v). *)
From Verif Require Import Base Rwapi RwapiSpec.
From Verif Require Rwlock RwlockInv RwlockStep RwlockSpec RwlockThms.

(** How the raw lock is held / waited for at a place, who owns lk, which call it is. *)
Definition ph (p : place) : option bool :=
  match p with RHeld | RdRel | UTry | UChk | UNap | USet | URel | DClr | DUnl => Some false | WHeld | WrRel | DRel => Some true | _ => None end.
Definition pw (p : place) : option bool := match p with RdWait | DWait => Some false | UWait => Some true | _ => None end.
Definition pl (p : place) : bool :=
  match p with WTry | WNo | TTry | TNo | WHeld | WrRel | WrEnd | USet | URel | UWant | UWait | DRel | DWant | DWait | DClr | DUnl => true | _ => false end.
Definition opof (p : place) : op :=
  match p with
  | RdCall | RdWait => ORd | TryRd => OTryRd | WLk | WTry | WNo | WNap => OWr | TLk | TTry | TNo => OTryWr
  | RdRel | RdEnd => ORdUn | WrRel | WrEnd => OWrUn | UTry | UChk | UNap | USet | URel | UWant | UWait => OUp
  | DRel | DWant | DWait | DClr | DUnl => ODown | Idle | RHeld | WHeld => ORd end.
Definition lat (t : nat) (p : place) (l : option uevent) : Prop :=
  match p with
  | Idle => l = None \/ exists o r, l = Some (ERet t o r) /\ gives_write o r = false /\ gives_read o r = false
  | RHeld => exists o r, l = Some (ERet t o r) /\ gives_read o r = true
  | WHeld => exists o r, l = Some (ERet t o r) /\ gives_write o r = true
  | _ => l = Some (ECall t (opof p)) end.

Record inv (N : nat) (s : state) : Prop := {
  v_raw : Rwlock.reachable N (raw s);
  v_h : forall t, RwlockSpec.holds t (Rwlock.s_tr (raw s)) = ph (pc s t) /\ RwlockSpec.waits t (Rwlock.s_tr (raw s)) = pw (pc s t);
  v_l : forall t, lk s = Some t <-> pl (pc s t) = true;
  v_u : forall t, lat t (pc s t) (latest t (tr s)) }.

Ltac proj := cbn [raw lk cnt pc dead tr go app] in *.

Lemma inv_init N : inv N init_state.
Proof. split; [constructor|intros; split; reflexivity|intros; split; discriminate|intros; left; reflexivity]. Qed.

(** One client moves. *)
Lemma inv_go N s t p r' m c es :
  inv N s -> Rwlock.reachable N r' ->
  (forall u, RwlockSpec.holds u (Rwlock.s_tr r') = (if (u =? t)%nat then ph p else RwlockSpec.holds u (Rwlock.s_tr (raw s))) /\
             RwlockSpec.waits u (Rwlock.s_tr r') = (if (u =? t)%nat then pw p else RwlockSpec.waits u (Rwlock.s_tr (raw s)))) ->
  (m = lk s /\ pl p = pl (pc s t) \/ m = Some t /\ lk s = None /\ pl p = true \/ m = None /\ pl (pc s t) = true /\ pl p = false) ->
  (forall u, latest u (es ++ tr s) = if (u =? t)%nat then latest t (es ++ tr s) else latest u (tr s)) -> lat t p (latest t (es ++ tr s)) ->
  inv N (go t p r' m c es s).
Proof.
  intros I R H L U1 U2. split; proj; [exact R| | |].
  - intros u. destruct (H u) as [H1 H2]. rewrite H1, H2. clear H1 H2. destruct (Nat.eqb_spec u t) as [E|NE]; [subst u; auto|]. apply (v_h _ _ I).
  - intros u. destruct (v_l _ _ I u) as [A B]. destruct (v_l _ _ I t) as [A' B']. destruct (Nat.eqb_spec u t) as [->|NE].
    + destruct L as [[-> E]|[(-> & _ & E)|(-> & E & E')]]; rewrite ?E, ?E'; [split; assumption|split; reflexivity|split; discriminate].
    + destruct L as [[-> E]|[(-> & E & _)|(-> & E & _)]]; [split; assumption| |].
      * split; [congruence|]. intros X. specialize (B X). congruence.
      * split; [discriminate|]. intros X. specialize (B X). specialize (B' E). congruence.
  - intros u. rewrite U1. destruct (Nat.eqb_spec u t) as [->|]; [exact U2|]. apply (v_u _ _ I).
Qed.
Lemma reach_raw N r es r' : Rwlock.reachable N r -> rawstep N r es r' -> Rwlock.reachable N r'.
Proof. intros R [H _]. econstructor; eassumption. Qed.
Lemma hw_app t es h : (forall e, In e es -> RwlockSpec.about t e = false) ->
  RwlockSpec.holds t (es ++ h) = RwlockSpec.holds t h /\ RwlockSpec.waits t (es ++ h) = RwlockSpec.waits t h.
Proof.
  induction es as [|e es IH]; intros H; [auto|]. cbn [app RwlockSpec.holds RwlockSpec.waits]. rewrite (H e ltac:(left; reflexivity)). apply IH. intros; apply H; right; assumption.
Qed.

Ltac hw I H := intros ?; match goal with H : rawstep _ _ _ _ |- _ => rewrite (proj2 H) end; cbn [app RwlockSpec.holds RwlockSpec.waits RwlockSpec.about];
  match goal with |- context [(?u =? ?t)%nat] => rewrite ?(Nat.eqb_sym t u); destruct (Nat.eqb_spec u t) as [->|]; [let E1 := fresh in let E2 := fresh in destruct (v_h _ _ I t) as [E1 E2]; rewrite ?E1, ?E2, ?H|]; split; reflexivity end.
Ltac hw0 I H := intros ?; match goal with |- context [(?v =? ?t)%nat] => destruct (Nat.eqb_spec v t) as [->|]; [destruct (v_h _ _ I t) as [-> ->]; rewrite H; split; reflexivity|split; reflexivity] end.
Ltac lts := intros ?; cbn [app latest who]; match goal with |- context [(?u =? ?t)%nat] => rewrite ?(Nat.eqb_sym t u); destruct (Nat.eqb_spec u t) as [->|]; rewrite ?Nat.eqb_refl; reflexivity end.

Lemma inv_step N s s' : inv N s -> step N s s' -> inv N s'.
Proof.
  intros I H. pose proof (v_raw _ _ I) as R.
  assert (LO : forall t p, pc s t = p -> lat t p (latest t (tr s))) by (intros t p <-; apply (v_u _ _ I)).
  destruct H.
  1-3: apply inv_go; auto; [|left| lts|]; [|split; [reflexivity|]|]; cbn [In] in H1; decompose [or] H1; try contradiction; match goal with E : _ = (_, _) |- _ => injection E as <- <- end; try (hw0 I H0); try (rewrite H0; reflexivity); cbn [app latest who]; rewrite Nat.eqb_refl; reflexivity.
  1: { split; proj; [eapply reach_raw; eassumption| |apply (v_l _ _ I)|apply (v_u _ _ I)].
    intros t. rewrite (proj2 H). destruct (hw_app t es (Rwlock.s_tr (raw s))) as [-> ->]; [|apply (v_h _ _ I)].
    intros e He. destruct H0 as [->|[u ->]]; [destruct He|]. destruct He as [<-|[]]. reflexivity. }
  all: try (apply inv_go; [exact I|first [exact R|eapply reach_raw; eassumption]| | |lts| ];
    [first [hw I H|hw0 I H] | first [left; split; [reflexivity|rewrite H; reflexivity]|right; left; split; [reflexivity|split; [assumption|reflexivity]]|right; right; split; [reflexivity|split; [rewrite H; reflexivity|reflexivity]]]
     | first [cbn [app latest who]; rewrite Nat.eqb_refl; first [eexists; eexists; split; reflexivity | right; eexists; eexists; split; [reflexivity|split; reflexivity]] | exact (LO _ _ H)]]).
  (* abort *)
  split; proj; [exact R|apply (v_h _ _ I)|apply (v_l _ _ I)|apply (v_u _ _ I)].
Qed.

Lemma inv_reachable N s : reachable N s -> inv N s.
Proof. intros R. induction R as [|s s' R IH D H]; [apply inv_init|eapply inv_step; eassumption]. Qed.

(** Reading the situation off the history. *)
Lemma lat_writes N s t : inv N s -> writes t (tr s) <-> pc s t = WHeld.
Proof.
  intros I. pose proof (v_u _ _ I t) as U. split.
  - intros (o & r & E & G). rewrite E in U. destruct (pc s t); cbn in U; try congruence; [destruct U as [U|(o' & r' & U & X & _)]; congruence|]. destruct U as (o' & r' & U & X). assert (o' = o /\ r' = r) as [-> ->] by (split; congruence). destruct o; discriminate || (cbn in *; congruence).
  - intros E. rewrite E in U. exact U.
Qed.
Lemma lat_reads N s t : inv N s -> reads t (tr s) <-> pc s t = RHeld.
Proof.
  intros I. pose proof (v_u _ _ I t) as U. split.
  - intros (o & r & E & G). rewrite E in U. destruct (pc s t); cbn in U; try congruence; [destruct U as [U|(o' & r' & U & _ & X)]; congruence|]. destruct U as (o' & r' & U & X). assert (o' = o /\ r' = r) as [-> ->] by (split; congruence). destruct o; discriminate || (cbn in *; congruence).
  - intros E. rewrite E in U. exact U.
Qed.
Definition incall (p : place) : bool := match p with Idle | RHeld | WHeld => false | _ => true end.
Lemma lat_inside N s t o : inv N s -> inside t o (tr s) <-> incall (pc s t) = true /\ opof (pc s t) = o.
Proof.
  intros I. pose proof (v_u _ _ I t) as U. unfold inside. split.
  - intros E. rewrite E in U. destruct (pc s t); cbn in *; try (split; congruence); decompose [ex and or] U; discriminate.
  - intros [E <-]. destruct (pc s t); try discriminate E; exact U.
Qed.

(** ** More about the places *)
(** Places in which the client has no raw call under way and holds nothing. *)
Definition free (p : place) : bool :=
  match p with Idle | RdCall | TryRd | WLk | WTry | WNo | WNap | TLk | TTry | TNo => true | _ => false end.
Definition no_down (p : Rwlock.place) : Prop := p <> Rwlock.DownPend /\ forall k, p <> Rwlock.K k Rwlock.CHold.
Record inv2 (N : nat) (s : state) : Prop := {
  w_inv : inv N s;
  w_out : forall t, (N <= t)%nat -> pc s t = Idle;
  w_free : forall t, free (pc s t) = true -> rawidle (raw s) t;
  w_down : forall t, no_down (Rwlock.s_pc (raw s) t) }.

(** What the raw steps do to the places. *)
Lemma leave_pc t c r u : u <> t -> Rwlock.s_pc (Rwlock.leave t c r) u = Rwlock.s_pc r u.
Proof. intros H. destruct c; cbn; apply RwlockInv.fupd_ne; exact H. Qed.
Lemma leave_tr t c r : Rwlock.s_tr (Rwlock.leave t c r) = Rwlock.s_tr r. Proof. destruct c; reflexivity. Qed.
Lemma no_cons {A} (x : A) l : x :: l = l -> False.
Proof. revert x. induction l as [|y l IH]; intros x H; [discriminate|]. injection H as -> H. exact (IH _ H). Qed.
Lemma no_cons2 {A} (x y : A) l : x :: y :: l = l -> False.
Proof. intros H. assert (X : length (x :: y :: l) = length l) by congruence. cbn in X. lia. Qed.
Lemma app_same {A} (a b l : list A) : a ++ l = b ++ l -> a = b. Proof. apply app_inv_tail. Qed.

(** The mover of a raw step, the event it shows, and where it goes. *)
Definition mv (N : nat) (r r' : Rwlock.state) (t : nat) (es : list Rwlock.event) : Prop :=
  (t < N)%nat /\ Rwlock.s_tr r' = es ++ Rwlock.s_tr r /\ (forall u, u <> t -> Rwlock.s_pc r' u = Rwlock.s_pc r u) /\
  ((es = [] /\ Rwlock.s_pc r t <> Rwlock.Idle /\ Rwlock.s_pc r t <> Rwlock.RHold /\ Rwlock.s_pc r t <> Rwlock.WHold) \/
   (exists v, es = [Rwlock.EStray v] /\ Rwlock.s_pc r t <> Rwlock.Idle) \/
   (exists w, es = [Rwlock.EBusy t w] /\ Rwlock.s_pc r t = Rwlock.Idle /\ Rwlock.s_pc r' t = Rwlock.Idle) \/
   (exists w, es = [Rwlock.EWant t w] /\ Rwlock.s_pc r t = Rwlock.Idle) \/
   (exists w, es = [Rwlock.EGot t w; Rwlock.EWant t w] /\ Rwlock.s_pc r t = Rwlock.Idle) \/
   (exists w, es = [Rwlock.EGot t w] /\ (Rwlock.s_pc r t = Rwlock.Idle \/ RwlockThms.wanted (Rwlock.s_pc r t) = Some w)) \/
   (exists w, es = [Rwlock.ERel t w] /\ (Rwlock.s_pc r t = Rwlock.RHold \/ Rwlock.s_pc r t = Rwlock.WHold)) \/ (es = [Rwlock.EDown t] /\ Rwlock.s_pc r t = Rwlock.WHold)).
Lemma raw_mover N r r' : Rwlock.step N r r' -> exists t es, mv N r r' t es.
Proof.
  intros H.
  assert (GO : forall t p c m l es r1 u, u <> t -> (forall v, v <> t -> Rwlock.s_pc r1 v = Rwlock.s_pc r v) -> Rwlock.s_pc (Rwlock.go t p c m l es r1) u = Rwlock.s_pc r u).
  { intros. cbn. rewrite RwlockInv.fupd_ne by assumption. auto. }
  destruct H; exists t;
   (match goal with
    | |- context [Rwlock.EStray ?u] => exists [Rwlock.EStray u]
    | |- context [[Rwlock.EGot ?a ?b; Rwlock.EWant ?c ?d]] => exists [Rwlock.EGot a b; Rwlock.EWant c d]
    | |- context [[Rwlock.EGot ?a ?b]] => exists [Rwlock.EGot a b]
    | |- context [[Rwlock.EWant ?a ?b]] => exists [Rwlock.EWant a b]
    | |- context [[Rwlock.EBusy ?a ?b]] => exists [Rwlock.EBusy a b]
    | |- context [[Rwlock.ERel ?a ?b]] => exists [Rwlock.ERel a b]
    | |- context [[Rwlock.EDown ?a]] => exists [Rwlock.EDown a]
    | _ => exists [] end); unfold mv; (split; [assumption|]); (split; [|split]);
   try (rewrite ?leave_tr; try destruct (Rwlock.s_list r); try destruct wt; try (destruct (Rwlock.active v =? 0)); rewrite ?leave_tr; reflexivity);
   try (intros v0 Hv; try destruct (Rwlock.s_list r); try (destruct (Rwlock.active v =? 0)); cbn [Rwlock.s_pc Rwlock.set_pulse Rwlock.fresh Rwlock.set_owed Rwlock.set_null]; solve [apply GO; [exact Hv|reflexivity] | rewrite leave_pc by exact Hv; try destruct wt; solve [reflexivity | apply GO; [exact Hv|reflexivity]]]).
  all: try (left; split; [reflexivity|rewrite H0; repeat split; discriminate]).
  all: try (right; left; eexists; split; [reflexivity|rewrite H0; discriminate]).
  all: try (right; right; left; eexists; split; [reflexivity|split; [exact H0|cbn; rewrite RwlockInv.fupd_eq; reflexivity]]).
  all: try (right; right; right; left; eexists; split; [reflexivity|exact H0]).
  all: try (right; right; right; right; left; eexists; split; [reflexivity|exact H0]).
  all: try (right; right; right; right; right; left; eexists; split; [reflexivity|rewrite H0; first [left; reflexivity|right; reflexivity]]).
  all: try (right; right; right; right; right; right; left; eexists; split; [reflexivity|rewrite H0; first [left; reflexivity|right; reflexivity]]).
  all: try (right; right; right; right; right; right; right; split; [reflexivity|exact H0]).
Qed.
Lemma raw_down N r r' : Rwlock.step N r r' -> (forall x, no_down (Rwlock.s_pc r x)) -> (forall t, Rwlock.s_tr r' <> Rwlock.EDown t :: Rwlock.s_tr r) -> forall x, no_down (Rwlock.s_pc r' x).
Proof.
  intros H D ND x.
  assert (LV : forall t k c r1, Rwlock.s_pc r t = Rwlock.K k c -> (forall v, v <> t -> Rwlock.s_pc r1 v = Rwlock.s_pc r v) -> no_down (Rwlock.s_pc (Rwlock.leave t c r1) x)).
  { intros t k c r1 E1 E2. destruct (Nat.eq_dec x t) as [->|NE]; [|rewrite leave_pc by exact NE; rewrite E2 by exact NE; apply D].
    destruct c; cbn; rewrite RwlockInv.fupd_eq; split; [|intros| |intros| |intros| |intros]; discriminate. }
  assert (ND' : forall t p, Rwlock.s_pc r t = p -> no_down p) by (intros t p <-; apply D).
  destruct H; try (exfalso; eapply ND; reflexivity); try (eapply LV; [eassumption|]; try destruct wt; reflexivity);
   try destruct (Rwlock.s_list r); try (destruct (Rwlock.active v =? 0));
   cbn [Rwlock.s_pc Rwlock.go Rwlock.set_pulse Rwlock.fresh Rwlock.set_owed Rwlock.set_null];
   try (eapply LV; [eassumption|]; intros v0 Hv; cbn; rewrite RwlockInv.fupd_ne by exact Hv; reflexivity);
   (destruct (Nat.eq_dec x t) as [->|NE]; [rewrite RwlockInv.fupd_eq|rewrite RwlockInv.fupd_ne by exact NE; apply D]);
   RwlockStep.brk; try (split; [|intros]; discriminate);
   apply ND' in H0; destruct H0 as [X1 X2]; (split; [|intros k]; try discriminate; try congruence; intros X; try (injection X as X); try (eapply X2; rewrite ?X; reflexivity)).
Qed.
Lemma rawstep_idle N r es r' u : rawstep N r es r' -> rawidle r u -> (forall e, In e es -> RwlockSpec.about u e = true -> exists w, e = Rwlock.EBusy u w) -> rawidle r' u.
Proof.
  intros [H E] Id A. destruct (raw_mover N r r' H) as (t & es' & Ht & E' & O & M). assert (es' = es) by (rewrite E in E'; symmetry; exact (app_inv_tail _ _ _ E')). subst es'.
  unfold rawidle in *. destruct (Nat.eq_dec u t) as [->|NE]; [|rewrite O by exact NE; exact Id].
  assert (RF : forall e, RwlockSpec.about t e = true -> In e es -> (forall w, e <> Rwlock.EBusy t w) -> False) by (intros e A1 A2 A3; destruct (A e A2 A1) as [w X]; exact (A3 w X)).
  destruct M as [(-> & X & _)|[(v & -> & X)|[(w & -> & _ & X)|[(w & -> & _)|[(w & -> & _)|[(w & -> & _)|[(w & -> & _)|(-> & _)]]]]]]]; try contradiction; try assumption; exfalso.
  all: eapply RF; [|left; reflexivity|intros ?; discriminate]; cbn; apply Nat.eqb_refl.
Qed.
Lemma rawstep_busy N r t w r' : rawstep N r [Rwlock.EBusy t w] r' -> (t < N)%nat /\ rawidle r t /\ rawidle r' t.
Proof.
  intros [H E]. destruct (raw_mover N r r' H) as (t' & es' & Ht & E' & O & M). assert (es' = [Rwlock.EBusy t w]) by (rewrite E in E'; symmetry; exact (app_inv_tail _ _ _ E')). subst es'.
  destruct M as [(X & _)|[(v & X & _)|[(w' & X & X1 & X2)|[(w' & X & _)|[(w' & X & _)|[(w' & X & _)|[(w' & X & _)|(X & _)]]]]]]]; try discriminate. assert (t' = t) by congruence. subst t'. auto.
Qed.
Lemma rawstep_down N r es r' : rawstep N r es r' -> (forall x, no_down (Rwlock.s_pc r x)) -> (forall t, es <> [Rwlock.EDown t]) -> forall x, no_down (Rwlock.s_pc r' x).
Proof.
  intros [H E] D ND. apply (raw_down N r r' H D). intros t X. rewrite E in X. apply (ND t). change (Rwlock.EDown t :: Rwlock.s_tr r) with ([Rwlock.EDown t] ++ Rwlock.s_tr r) in X. exact (app_inv_tail _ _ _ X).
Qed.

Lemma inv2_init N : inv2 N init_state.
Proof. split; [apply inv_init|reflexivity|reflexivity|intros t; split; [|intros k]; discriminate]. Qed.
Lemma rawstep_lt N r t es r' : rawstep N r es r' -> (exists e, In e es /\ RwlockSpec.about t e = true) -> (t < N)%nat.
Proof.
  intros [H E] (e & He & Ae). destruct (raw_mover N r r' H) as (t' & es' & Ht & E' & O & M). assert (es' = es) by (rewrite E in E'; symmetry; exact (app_inv_tail _ _ _ E')). subst es'.
  assert (X : t' = t); [|subst; exact Ht].
  destruct M as [(-> & _)|[(v & -> & _)|[(w & -> & _)|[(w & -> & _)|[(w & -> & _)|[(w & -> & _)|[(w & -> & _)|(-> & _)]]]]]]]; cbn [In] in He; decompose [or] He; subst; try contradiction; cbn in Ae; try discriminate; apply Nat.eqb_eq; exact Ae.
Qed.

Lemma inv2_step N s s' : inv2 N s -> step N s s' -> inv2 N s'.
Proof.
  intros W H. pose proof (w_inv _ _ W) as I. pose proof (inv_step N s s' I H) as I'. split; [exact I'| | |].
  - intros t Ht. pose proof (w_out _ _ W t Ht) as Q. destruct H; proj; try exact Q;
      (destruct (Nat.eqb_spec t t0) as [->|]; [exfalso|exact Q]); try lia; congruence.
  - intros t. pose proof (w_free _ _ W) as F. specialize (F t) as Ft. destruct H; proj.
    1-3: destruct (Nat.eqb_spec t t0) as [->|]; [|exact Ft]; rewrite H0 in Ft; cbn [In] in H1; decompose [or] H1; try contradiction; match goal with E : _ = (_, _) |- _ => injection E as <- <- end; first [intros _; apply Ft; reflexivity|discriminate].
    1: { intros X. eapply rawstep_idle; [eassumption|apply Ft; exact X|]. intros e He Ae. destruct H0 as [->|[v ->]]; [destruct He|]. destruct He as [<-|[]]. discriminate. }
    all: try (destruct (Nat.eqb_spec t t0) as [->|NE]; [try discriminate; intros _; rewrite ?H in Ft; first [apply Ft; reflexivity|eapply rawstep_busy; eassumption|assumption]|]).
    all: try exact Ft.
    all: intros X; eapply rawstep_idle; [eassumption|apply Ft; exact X|]; cbn [In]; intros e He Ae; exfalso; decompose [or] He; subst; try contradiction; cbn in Ae; apply Nat.eqb_eq in Ae; congruence.
  - pose proof (w_down _ _ W) as D. destruct H; proj; try exact D; try (eapply rawstep_down; [eassumption|exact D|intros ? ?; discriminate]).
    eapply rawstep_down; [eassumption|exact D|]. intros t E. destruct H0 as [->|[v ->]]; discriminate.
Qed.
Lemma inv2_reachable N s : reachable N s -> inv2 N s.
Proof. intros R. induction R as [|s s' R IH D H]; [apply inv2_init|eapply inv2_step; eassumption]. Qed.
