(** Invariants of the model of idle shrinking. *)
From Verif Require Import Base Idle IdleSpec.
Local Open Scope nat_scope.

Ltac proj := cbn [clock entries nextq cnt pc term execs idle last expire upcs freed uaf trace set_pc set_upc emit set_cnt touch release create accept remove called] in *.
Lemma fupd_eq {A} (f : nat -> A) k v : fupd f k v k = v.
Proof. unfold fupd. rewrite Nat.eqb_refl. reflexivity. Qed.
Lemma fupd_ne {A} (f : nat -> A) k v x : x <> k -> fupd f k v x = f x.
Proof. intros H. unfold fupd. destruct (Nat.eqb_spec x k); congruence. Qed.
Lemma howmany_app f a b : howmany f (a ++ b) = howmany f a + howmany f b.
Proof. induction a as [|e a IH]; cbn; [reflexivity|rewrite IH; lia]. Qed.
Lemma howmany_0 f l : (forall e, In e l -> f e = false) -> howmany f l = 0.
Proof. induction l as [|e l IH]; intros H; cbn; [reflexivity|]. rewrite (H e (or_introl eq_refl)), IH; [reflexivity|]. intros x X. apply H. right. exact X. Qed.

Inductive reach (N : nat) (M : option nat) : st -> Prop :=
| r_init : reach N M init
| r_step s l s' : reach N M s -> exec N M l s = Some s' -> reach N M s'.
Lemma run_reach N M ls : forall s s', reach N M s -> run N M ls s = Some s' -> reach N M s'.
Proof. induction ls as [|l ls IH]; cbn; intros s s' R H; [congruence|]. destruct (exec N M l s) eqn:E; [|discriminate]. eapply IH; [eapply r_step; eassumption|exact H]. Qed.
Lemma reachable_reach N M s : reachable N M s -> reach N M s.
Proof. intros [ls H]. eapply run_reach; [apply r_init|exact H]. Qed.

Lemma accepts_1 q e : accepts q [e] = match e with EAccept x => if x =? q then 1 else 0 | _ => 0 end.
Proof. unfold accepts. cbn [howmany]. destruct e; try reflexivity; destruct (_ =? _); reflexivity. Qed.
(** What a step does to the thread of queue q. *)
Inductive qmove (M : option nat) (q : nat) (s s' : st) : Prop :=
| m_same d : pc s' q = pc s q -> execs s' q = execs s q -> idle s' q = idle s q -> last s' q = last s q -> expire s' q = expire s q -> (clock s <= clock s')%Z -> nextq s <= nextq s' -> (q < nextq s -> q < nextq s') ->
    (q < nextq s' -> q < nextq s) -> trace s' = trace s ++ d -> works q d = 0 -> checks q d = 0 -> (accepts q d = 0 -> cnt s' q = cnt s q) -> qmove M q s s'
| m_new d : q = nextq s -> pc s' q = QFuncs 0 0 false -> execs s' q = 0 -> idle s' q = 0 -> last s' q = 0 -> expire s' q = (clock s + 1000)%Z -> clock s' = clock s -> nextq s' = S q ->
    trace s' = trace s ++ ECreate q (clock s) :: d -> works q d = 0 -> checks q d = 0 -> qmove M q s s'
| m_own d n : q < nextq s -> execs s' q = execs s q + n -> idle s' q = idle s q -> last s' q = last s q -> expire s' q = expire s q -> clock s' = clock s -> nextq s' = nextq s -> trace s' = trace s ++ d -> checks q d = 0 -> (works q d = 0 -> cnt s' q = cnt s q) ->
    match pc s q, pc s' q with
    | QFuncs _ e b, QFuncs _ e' b' => n = 0 /\ (e' = e /\ b = false /\ b' = true /\ works q d = 1 \/ e' = S e /\ b = true /\ b' = false /\ works q d = 1)
    | QFuncs _ e b, QTimers now => b = false /\ n = e /\ works q d = 0 /\ now = clock s
    | QShrink now, QWait now' _ | QAll now, QWait now' _ | QWait now _, QTimers now' => n = 0 /\ works q d = 0 /\ now' = now
    | QTimers _, QFuncs _ e b => n = 0 /\ works q d = 0 /\ e = 0 /\ b = false
    | QTimers _, QDrain _ => n = 0 /\ works q d = 0
    | QDrain _, QDrain _ | QDrain _, QDone => n = 0
    | _, _ => False
    end -> qmove M q s s'
| m_check now m k : q < nextq s -> cnt s' q = cnt s q -> M = Some m -> pc s q = QTimers now -> (expire s q <= now)%Z -> k = count_idle s q -> execs s' q = execs s q -> idle s' q = k -> last s' q = execs s q ->
    expire s' q = (clock s + 1000 - (now - expire s q))%Z -> clock s' = clock s -> nextq s' = nextq s -> trace s' = trace s ++ [ECheck q now (now - expire s q)] ->
    pc s' q = (if 2 * m <=? k then QAll now else if m <=? k then QShrink now else QTimers now) -> qmove M q s s'.

Definition live (s : st) : Prop := (forall q, nextq s <= q -> pc s q = QDone) /\ (forall q, In q (entries s) -> q < nextq s).
Lemma best_in c l : forall b q, best c l b = Some q -> b = Some q \/ In q l.
Proof.
  induction l as [|x l IH]; cbn [best In]; intros b q H; [left; exact H|]. apply IH in H. destruct H as [H|H]; [|right; right; exact H].
  destruct b as [y|]; [destruct (c x <? c y)|]; (assert (X : forall u v : nat, Some u = Some v -> u = v) by congruence; apply X in H; subst; auto).
Qed.
Lemma lastone_in l q : In q (lastone l) -> In q l.
Proof.
  unfold lastone. destruct (Nat.ltb_spec 1 (length l)) as [H|H]; intros X; [|contradiction]. destruct X as [<-|[]].
  destruct l as [|x l]; cbn in H; [lia|]. rewrite (app_removelast_last 0 (l := x :: l)) at 2 by discriminate. apply in_app_iff. right. left. reflexivity.
Qed.
Lemma others_in l q : In q (others l) -> In q l.
Proof.
  unfold others. destruct (Nat.ltb_spec 1 (length l)) as [H|H]; intros X; [|exact X].
  destruct l as [|x l]; cbn in H; [lia|]. rewrite (app_removelast_last 0 (l := x :: l)) by discriminate. apply in_app_iff. left. exact X.
Qed.
Lemma works_remove q by_ t ws : works q (map (fun x => ERemove by_ x t) ws) = 0.
Proof. apply howmany_0. intros e H. apply in_map_iff in H. destruct H as [x [<- _]]. reflexivity. Qed.
Lemma checks_remove q by_ t ws : checks q (map (fun x => ERemove by_ x t) ws) = 0.
Proof. apply howmany_0. intros e H. apply in_map_iff in H. destruct H as [x [<- _]]. reflexivity. Qed.

Ltac res H := let X := fresh in assert (X := H); clear H; apply (f_equal (fun o => match o with Some z => z | None => init end)) in X; cbn beta iota in X; subst.
Ltac brk H := repeat (first [discriminate H | match type of H with
  | context [match ?x with _ => _ end] => match x with context [match _ with _ => _ end] => fail 1 | _ => let E := fresh "E" in destruct x eqn:E end end]); try discriminate H.

Lemma live_step N M l s s' : live s -> exec N M l s = Some s' -> live s'.
Proof.
  intros [L1 L2] H. destruct l; cbn [exec] in H.
  all: try (brk H; res H; unfold called; split; intros; proj; unfold fupd in *;
    repeat match goal with |- context [if ?b then _ else _] => destruct b eqn:? end; repeat match goal with X : context [if ?b then _ else _] |- _ => destruct b eqn:? end; proj; unfold fupd in *; rewrite ?Nat.eqb_eq in *; subst; auto;
    try (rewrite L1 in * by assumption; congruence); try (exfalso; match goal with X : In _ (others _) |- _ => apply others_in in X; apply L2 in X; lia end); try (apply L2, others_in; assumption); try contradiction; fail).
  destruct (freed s); [discriminate|]. res H. unfold dispatch. destruct (best _ _ _) as [b|] eqn:B.
  - destruct (_ && _).
    + split; proj; intros q H; unfold fupd in *; [destruct (Nat.eqb_spec q (nextq s)); [lia|apply L1; lia]|]. apply in_app_iff in H. destruct H as [H|[<-|[]]]; [apply L2 in H|]; lia.
    + split; proj; assumption.
  - split; proj; intros q H; unfold fupd in *; [destruct (Nat.eqb_spec q (nextq s)); [lia|apply L1; lia]|]. apply in_app_iff in H. destruct H as [H|[<-|[]]]; [apply L2 in H|]; lia.
Qed.
Lemma reach_live N M s : reach N M s -> live s.
Proof. induction 1 as [|s l s' R IH H]; [split; cbn; [reflexivity|contradiction]|]. eapply live_step; eassumption. Qed.

Lemma works_1 q e : works q [e] = match e with EBegin x | EEnd x _ => if x =? q then 1 else 0 | _ => 0 end.
Proof. unfold works. cbn [howmany]. destruct e; try reflexivity; destruct (_ =? _); reflexivity. Qed.
Lemma checks_1 q e : checks q [e] = match e with ECheck x _ _ => if x =? q then 1 else 0 | _ => 0 end.
Proof. unfold checks. cbn [howmany]. destruct e; try reflexivity; destruct (_ =? _); reflexivity. Qed.
Ltac same q d := apply (m_same _ _ _ _ d); proj; rewrite ?fupd_ne by assumption; rewrite ?app_nil_r, <- ?app_assoc; rewrite ?works_1, ?checks_1, ?works_remove, ?checks_remove; auto; try lia; try reflexivity;
  try (match goal with |- (if ?x =? ?y then _ else _) = _ => destruct (Nat.eqb_spec x y); [congruence|reflexivity] end).
Ltac own d n := apply (m_own _ _ _ _ d n); proj; rewrite ?fupd_eq; rewrite ?app_nil_r, <- ?app_assoc; rewrite ?works_1, ?checks_1, ?works_remove, ?checks_remove, ?Nat.eqb_refl; auto; try lia; try reflexivity; try (intros; discriminate).
Lemma exec_move N M l s s' : live s -> exec N M l s = Some s' -> forall q, qmove M q s s'.
Proof.
  intros [L1 L2] H q.
  assert (Lq : pc s q <> QDone -> q < nextq s) by (intros X; destruct (le_lt_dec (nextq s) q) as [Y|Y]; [elim X; apply L1; exact Y|exact Y]).
  destruct l as [n| |x|x|x|x|x|x|x|x|p w|p w|p w|p]; cbn [exec] in H.
  - res H. same q (@nil ev).
  - destruct (freed s); [discriminate|]. res H. unfold dispatch.
    assert (New : qmove M q s (accept (create s) (nextq s))).
    { destruct (Nat.eq_dec q (nextq s)) as [->|n].
      - apply (m_new _ _ _ _ [EAccept (nextq s)]); proj; rewrite ?fupd_eq; auto. rewrite <- app_assoc. reflexivity.
      - apply (m_same _ _ _ _ ([ECreate (nextq s) (clock s)] ++ [EAccept (nextq s)])); proj; rewrite ?fupd_ne by assumption; auto; try lia. rewrite <- app_assoc. reflexivity. }
    destruct (best _ _ _) as [b|] eqn:B; [destruct (_ && _)|]; try exact New. same q [EAccept b]. rewrite accepts_1. intros X. unfold fupd. destruct (Nat.eqb_spec q b) as [->|]; [rewrite Nat.eqb_refl in X; discriminate X|reflexivity].
  - destruct (Nat.eq_dec q x) as [<-|ne]; brk H; res H.
    + own [EBegin q] 0; [apply Lq; congruence|]. rewrite E, ?Nat.eqb_refl. split; [reflexivity|tauto].
    + own [EBegin q] 0; [apply Lq; congruence|]. rewrite E. auto.
    + same q [EBegin x].
    + same q [EBegin x].
  - destruct (Nat.eq_dec q x) as [<-|ne]; brk H; res H.
    + own [EEnd q (clock s)] 0; [apply Lq; congruence|]. rewrite E, ?Nat.eqb_refl. split; [reflexivity|tauto].
    + own [EEnd q (clock s)] 0; [apply Lq; congruence|]. rewrite E. auto.
    + same q [EEnd x (clock s)].
    + same q [EEnd x (clock s)].
  - destruct (Nat.eq_dec q x) as [<-|ne]; brk H; res H.
    + own (@nil ev) done; [apply Lq; congruence|]. rewrite E. auto.
    + same q (@nil ev).
  - destruct M as [m|]; [|destruct (pc s x); discriminate H]. destruct (Nat.eq_dec q x) as [<-|ne]; brk H; res H.
    + apply (m_check _ _ _ _ now m (count_idle s q)); proj; rewrite ?fupd_eq; auto; [apply Lq; congruence|apply Z.leb_le; assumption|].
      match goal with E1 : (2 * _ <=? _) = _ |- _ => rewrite E1 end. reflexivity.
    + apply (m_check _ _ _ _ now m (count_idle s q)); proj; rewrite ?fupd_eq; auto; [apply Lq; congruence|apply Z.leb_le; assumption|].
      match goal with E1 : (2 * _ <=? _) = _, E2 : (m <=? _) = _ |- _ => rewrite E1, E2 end. reflexivity.
    + apply (m_check _ _ _ _ now m (count_idle s q)); proj; rewrite ?fupd_eq; auto; [apply Lq; congruence|apply Z.leb_le; assumption|].
      match goal with E1 : (2 * _ <=? _) = _, E2 : (m <=? _) = _ |- _ => rewrite E1, E2 end. reflexivity.
    + same q [ECheck x now (now - expire s x)%Z].
    + same q [ECheck x now (now - expire s x)%Z].
    + same q [ECheck x now (now - expire s x)%Z].
  - destruct (Nat.eq_dec q x) as [<-|ne]; brk H; res H.
    + own (map (fun x => ERemove (Some q) x (clock s)) (lastone (entries s))) 0; [apply Lq; congruence|]. rewrite E. auto.
    + own (map (fun x => ERemove (Some q) x (clock s)) (entries s)) 0; [apply Lq; congruence|]. rewrite E. auto.
    + same q (map (fun z => ERemove (Some x) z (clock s)) (lastone (entries s))).
    + same q (map (fun z => ERemove (Some x) z (clock s)) (entries s)).
  - destruct (Nat.eq_dec q x) as [<-|ne]; brk H; res H.
    + own (@nil ev) 0; [apply Lq; congruence|]. rewrite E. auto.
    + same q (@nil ev).
  - destruct (Nat.eq_dec q x) as [<-|ne]; brk H; res H; try (same q (@nil ev); fail).
    all: own (@nil ev) 0; [apply Lq; congruence|]; rewrite E; auto.
  - destruct (Nat.eq_dec q x) as [<-|ne]; brk H; res H.
    + own [EDone q] 0; [apply Lq; congruence|]. rewrite E. reflexivity.
    + same q [EDone x].
  - brk H; res H; unfold called; destruct w; proj; same q (map (fun z => ERemove None z (clock s)) (lastone (entries s))).
  - brk H; res H; unfold called; destruct w; proj; same q (map (fun z => ERemove None z (clock s)) (entries s)).
  - brk H; res H; unfold called; destruct w; proj; same q (map (fun z => ERemove None z (clock s)) (entries s)).
  - brk H; res H; proj; same q [ERet p ws].
Qed.

(** ** The counter of idle checks, what it saw, and how much time it took. *)
Definition phase (s : st) (q : nat) : Prop :=
  match pc s q with
  | QFuncs _ d b => works q (trace s) = 2 * (execs s q + d) + (if b then 1 else 0)
  | QTimers now | QShrink now | QAll now | QWait now _ => works q (trace s) = 2 * execs s q /\ (now <= clock s)%Z
  | QDrain _ | QDone => True
  end.
Definition asked (M : option nat) (s : st) (q : nat) : Prop :=
  match pc s q with
  | QShrink _ => last s q = execs s q /\ exists m, M = Some m /\ m <= idle s q
  | QAll _ => last s q = execs s q /\ exists m, M = Some m /\ 2 * m <= idle s q
  | _ => True
  end.
Definition story (s : st) (q : nat) : Prop :=
  exists a e b t0 c0, trace s = a ++ e :: b /\ since q e t0 /\ checks q b = idle s q /\ works q b + 2 * last s q = works q (trace s) /\
    (t0 + 1000 * Z.of_nat (idle s q) <= clock s)%Z /\ (t0 + 1000 * Z.of_nat (S (idle s q)) <= expire s q)%Z /\ In (ECreate q c0) (a ++ [e]) /\ (c0 <= t0)%Z.
Record inv (M : option nat) (s : st) : Prop := {
  v_live : live s;
  v_fresh : forall q, nextq s <= q -> works q (trace s) = 0 /\ checks q (trace s) = 0;
  v_phase : forall q, phase s q;
  v_asked : forall q, asked M s q;
  v_story : forall q, q < nextq s -> story s q
}.
Lemma works_app q a b : works q (a ++ b) = works q a + works q b.
Proof. apply howmany_app. Qed.
Lemma checks_app q a b : checks q (a ++ b) = checks q a + checks q b.
Proof. apply howmany_app. Qed.
Lemma inv_step N M l s s' : inv M s -> exec N M l s = Some s' -> inv M s'.
Proof.
  intros I H. pose proof (exec_move _ _ _ _ _ (v_live _ _ I) H) as Mv. constructor.
  - eapply live_step; [apply I|exact H].
  - intros q Hq. destruct (Mv q) as [d P1 P2 P3 P4 P5 P6 P7 P8 P9 P10 P11 P12 P13|d P1 P2 P3 P4 P5 P6 P7 P8 P9 P10 P11|d n P1 P2 P3 P4 P5 P6 P7 P8 P9 PC P10|now m k P1 PC P2 P3 P4 P5 P6 P7 P8 P9 P10 P11 P12 P13]; try lia.
    rewrite P10, works_app, checks_app, P11, P12. destruct (v_fresh _ _ I q); lia.
  - intros q. pose proof (v_phase _ _ I q) as Ph. unfold phase in *.
    destruct (Mv q) as [d P1 P2 P3 P4 P5 P6 P7 P8 P9 P10 P11 P12 P13|d P1 P2 P3 P4 P5 P6 P7 P8 P9 P10 P11|d n P1 P2 P3 P4 P5 P6 P7 P8 P9 PC P10|now m k P1 PC P2 P3 P4 P5 P6 P7 P8 P9 P10 P11 P12 P13].
    + rewrite P1, P2, P10, works_app, P11, Nat.add_0_r. destruct (pc s q); try exact Ph; (split; [apply Ph|destruct Ph; lia]).
    + rewrite P2, P3, P9, works_app, (proj1 (v_fresh _ _ I q ltac:(lia))). unfold works. cbn [howmany]. fold (works q d). rewrite P10. reflexivity.
    + rewrite P2, P8, P6, works_app. destruct (pc s q) as [r e b| | | | | |]; destruct (pc s' q) as [r' e' b'| | | | | |]; try contradiction;
        repeat match goal with X : _ /\ _ |- _ => destruct X end; repeat match goal with X : _ \/ _ |- _ => destruct X end; repeat match goal with X : _ /\ _ |- _ => destruct X end; subst; try discriminate; try exact Logic.I; try split; lia.
    + rewrite P3 in Ph. rewrite P13, P6, P12, P10, works_app, works_1, Nat.add_0_r. destruct (2 * m <=? k); [exact Ph|]. destruct (m <=? k); exact Ph.
  - intros q. pose proof (v_asked _ _ I q) as As. unfold asked in *.
    destruct (Mv q) as [d P1 P2 P3 P4 P5 P6 P7 P8 P9 P10 P11 P12 P13|d P1 P2 P3 P4 P5 P6 P7 P8 P9 P10 P11|d n P1 P2 P3 P4 P5 P6 P7 P8 P9 PC P10|now m k P1 PC P2 P3 P4 P5 P6 P7 P8 P9 P10 P11 P12 P13].
    + rewrite P1, P2, P3, P4. exact As.
    + rewrite P2. exact Logic.I.
    + destruct (pc s q) as [r e b| | | | | |]; destruct (pc s' q) as [r' e' b'| | | | | |]; try contradiction; exact Logic.I.
    + rewrite P13, P6, P7, P8. destruct (Nat.leb_spec (2 * m) k); [split; [reflexivity|exists m; auto]|]. destruct (Nat.leb_spec m k); [split; [reflexivity|exists m; auto]|exact Logic.I].
  - intros q Hq. unfold story in *. pose proof (v_phase _ _ I q) as Ph. unfold phase in Ph.
    destruct (Mv q) as [d P1 P2 P3 P4 P5 P6 P7 P8 P9 P10 P11 P12 P13|d P1 P2 P3 P4 P5 P6 P7 P8 P9 P10 P11|d n P1 P2 P3 P4 P5 P6 P7 P8 P9 PC P10|now m k P1 PC P2 P3 P4 P5 P6 P7 P8 P9 P10 P11 P12 P13].
    + destruct (v_story _ _ I q (P9 Hq)) as [a [e [b [t0 [c0 [S1 [S2 [S3 [S4 [S5 [S6 [S7 S8]]]]]]]]]]]].
      exists a, e, (b ++ d), t0, c0. rewrite P10, S1, <- app_assoc. cbn [app]. rewrite works_app, checks_app, P11, P12, P3, P4, P5. repeat split; auto; try lia.
      change (e :: b ++ d) with ((e :: b) ++ d). rewrite app_assoc, works_app, <- S1, P11. lia.
    + exists (trace s), (ECreate q (clock s)), d, (clock s), (clock s). rewrite P4, P5, P6, P7, P9, P11. repeat split; auto; try lia.
      * left. reflexivity.
      * rewrite works_app, (proj1 (v_fresh _ _ I q ltac:(lia))). unfold works. cbn [howmany]. fold (works q d). lia.
      * apply in_app_iff. right. left. reflexivity.
    + destruct (v_story _ _ I q P1) as [a [e [b [t0 [c0 [S1 [S2 [S3 [S4 [S5 [S6 [S7 S8]]]]]]]]]]]].
      exists a, e, (b ++ d), t0, c0. rewrite P8, S1, <- app_assoc. cbn [app]. rewrite works_app, checks_app, P9, P3, P4, P5, P6. repeat split; auto; try lia.
      change (e :: b ++ d) with ((e :: b) ++ d). rewrite app_assoc, works_app, <- S1. lia.
    + destruct (v_story _ _ I q P1) as [a [e [b [t0 [c0 [S1 [S2 [S3 [S4 [S5 [S6 [S7 S8]]]]]]]]]]]].
      rewrite P3 in Ph. destruct Ph as [Ph1 Ph2]. unfold count_idle in P5. rewrite P7, P8, P9, P10, P12. destruct ((execs s q =? last s q) && (cnt s q =? 0)) eqn:C.
      * apply andb_prop in C. destruct C as [C _]. apply Nat.eqb_eq in C. exists a, e, (b ++ [ECheck q now (now - expire s q)]), t0, c0. rewrite works_app, checks_app, works_1, checks_1, Nat.eqb_refl, P5.
        repeat split; auto; try lia.
        -- rewrite S1, <- app_assoc. reflexivity.
        -- rewrite works_app, works_1. lia.
      * exists (trace s), (ECheck q now (now - expire s q)), [], (expire s q), c0. rewrite P5. repeat split; auto; try lia.
        -- right. exists now, (now - expire s q)%Z. repeat split; lia.
        -- rewrite works_app, works_1. unfold works at 1. cbn. lia.
        -- apply in_app_iff. left. rewrite S1. change (e :: b) with ([e] ++ b). rewrite app_assoc. apply in_app_iff. left. exact S7.
Qed.
Lemma inv_init M : inv M init.
Proof. constructor; cbn; intros; try lia; try exact Logic.I; auto. split; cbn; [reflexivity|contradiction]. Qed.
Lemma reach_inv N M s : reach N M s -> inv M s.
Proof. induction 1 as [|s l s' R IH H]; [apply inv_init|eapply inv_step; eassumption]. Qed.

Lemma exec_trace N M l s s' : live s -> exec N M l s = Some s' -> exists d, trace s' = trace s ++ d.
Proof.
  intros L H. destruct (exec_move _ _ _ _ _ L H 0) as [d P1 P2 P3 P4 P5 P6 P7 P8 P9 P10 P11 P12 P13|d P1 P2 P3 P4 P5 P6 P7 P8 P9 P10 P11|d n P1 P2 P3 P4 P5 P6 P7 P8 P9 PC P10|now m k P1 PC P2 P3 P4 P5 P6 P7 P8 P9 P10 P11 P12 P13]; eauto.
Qed.
(** The step that made an event. *)
Lemma reach_at N M s tr e tr2 : reach N M s -> trace s = tr ++ e :: tr2 ->
  exists s0 l s1 d1 d2, reach N M s0 /\ exec N M l s0 = Some s1 /\ trace s1 = trace s0 ++ d1 ++ e :: d2 /\ tr = trace s0 ++ d1.
Proof.
  intros R. revert tr tr2. induction R as [|s l s' R IH H]; intros tr tr2 E; [destruct tr; discriminate E|].
  destruct (exec_trace _ _ _ _ _ (reach_live _ _ _ R) H) as [d D].
  destruct (le_lt_dec (length (trace s)) (length tr)) as [L|L].
  - assert (X : exists d1, tr = trace s ++ d1 /\ d = d1 ++ e :: tr2).
    { rewrite D in E. clear -E L. revert tr L E. generalize (trace s) as u. induction u as [|x u IHu]; intros tr L E; [exists tr; split; [reflexivity|exact E]|].
      destruct tr as [|y tr]; cbn in L; [lia|]. cbn in E. assert (x = y) by congruence. subst y. destruct (IHu tr) as [d1 [A B]]; [lia|congruence|]. exists d1. split; [cbn; congruence|exact B]. }
    destruct X as [d1 [X1 X2]]. exists s, l, s', d1, tr2. repeat split; auto. rewrite D, X2. reflexivity.
  - assert (X : exists d1, trace s = tr ++ e :: d1 /\ tr2 = d1 ++ d).
    { rewrite D in E. clear -E L. revert tr L E. generalize (trace s) as u. induction u as [|x u IHu]; intros tr L E; [cbn in L; lia|].
      destruct tr as [|y tr]; cbn in E, L; [exists u; split; cbn; congruence|]. assert (x = y) by congruence. subst y. destruct (IHu tr) as [d1 [A B]]; [lia|congruence|]. exists d1. split; [cbn; congruence|exact B]. }
    destruct X as [d1 [X1 _]]. exact (IH _ _ X1).
Qed.

(** A check that goes on without work in between counts on, and a queue that counted to twice the limit has left the pool or is about to empty it. *)
Definition counting (s : st) (q : nat) : Prop := forall a b, trace s = a ++ b -> works q b = 0 -> accepts q b = 0 -> cnt s q = 0 -> checks q b <= S (idle s q) /\ (1 <= checks q b -> 2 * last s q = works q (trace s)).
Lemma accepts_app q a b : accepts q (a ++ b) = accepts q a + accepts q b.
Proof. apply howmany_app. Qed.
Lemma app_split {A} (u d a b : list A) : u ++ d = a ++ b -> (exists b0, u = a ++ b0 /\ b = b0 ++ d) \/ (exists d0, d = d0 ++ b /\ a = u ++ d0).
Proof.
  revert a. induction u as [|x u IH]; intros a E; [right; exists a; auto|]. destruct a as [|y a]; [left; exists (x :: u); auto|].
  cbn [app] in E. injection E as -> E. destruct (IH a E) as [[b0 [A1 B]]|[d0 [A1 B]]].
  - left. exists b0. split; [cbn; congruence|exact B].
  - right. exists d0. split; [exact A1|cbn; congruence].
Qed.
Lemma counting_step N M l s s' : inv M s -> exec N M l s = Some s' -> (forall q, counting s q) -> forall q, counting s' q.
Proof.
  intros I H C q a b E W A Z0. pose proof (v_phase _ _ I q) as Ph. unfold phase in Ph.
  destruct (exec_move _ _ _ _ _ (v_live _ _ I) H q) as [d P1 P2 P3 P4 P5 P6 P7 P8 P9 P10 P11 P12 P13|d P1 P2 P3 P4 P5 P6 P7 P8 P9 P10 P11|d n P1 P2 P3 P4 P5 P6 P7 P8 P9 PC P10|now m k P1 PC P2 P3 P4 P5 P6 P7 P8 P9 P10 P11 P12 P13].
  - rewrite P10 in E. destruct (app_split _ _ _ _ E) as [[b0 [X1 X2]]|[d0 [X1 X2]]].
    + rewrite X2, works_app in W. rewrite X2, accepts_app in A. rewrite X2, checks_app, P12, P3, P4, P10, works_app, P11, !Nat.add_0_r. apply (C q a b0); auto; try lia.
    + rewrite X1, checks_app in P12. lia.
  - assert (K0 : checks q (ECreate q (clock s) :: d) = 0) by (unfold checks in *; cbn [howmany]; exact P11).
    rewrite P9 in E. destruct (app_split _ _ _ _ E) as [[b0 [X1 X2]]|[d0 [X1 X2]]].
    + assert (Cz : checks q b0 = 0); [|rewrite X2, checks_app, Cz, K0; lia]. pose proof (v_fresh _ _ I q) as Fr. rewrite X1, checks_app in Fr. lia.
    + rewrite X1, checks_app in K0. lia.
  - rewrite P8 in E. destruct (app_split _ _ _ _ E) as [[b0 [X1 X2]]|[d0 [X1 X2]]].
    + rewrite X2, works_app in W. rewrite X2, accepts_app in A. rewrite X2, checks_app, P9, P3, P4, P8, works_app, Nat.add_0_r. destruct (C q a b0) as [C1 C2]; auto; try lia; try (rewrite <- PC; [exact Z0|lia]).
    + rewrite X1, checks_app in P9. lia.
  - rewrite P12 in E. destruct (app_split _ _ _ _ E) as [[b0 [X1 X2]]|[d0 [X1 X2]]].
    + rewrite X2, works_app in W. rewrite X2, accepts_app in A. rewrite PC in Z0. destruct (C q a b0) as [C1 C2]; auto; try lia. rewrite P3 in Ph. destruct Ph as [Ph1 Ph2].
      rewrite X2, checks_app, checks_1, Nat.eqb_refl, P7, P8, P12, works_app, works_1, Nat.add_0_r. split; [|lia].
      destruct (Nat.eq_dec (checks q b0) 0) as [e|e]; [lia|]. unfold count_idle in P5. rewrite Z0 in P5. replace (execs s q =? last s q) with true in P5 by (symmetry; apply Nat.eqb_eq; lia). cbn in P5. lia.
    + destruct d0 as [|z d0]; [cbn in X1; subst b|].
      * rewrite checks_1, Nat.eqb_refl, P7, P8, P12, works_app, works_1, Nat.add_0_r. rewrite P3 in Ph. split; [lia|]. intros _. lia.
      * destruct d0; [|destruct d0; discriminate X1]. assert (b = []) by (destruct b; [reflexivity|discriminate X1]). subst b. cbn. split; [lia|]. intros K. lia.
Qed.
