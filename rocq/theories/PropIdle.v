(** C72: a pool gives up idle queues; waiting for them; destroying the pool. *)
From Verif Require Import Base Idle IdleSpec IdleInv.
Local Open Scope nat_scope.

(** Queue q has been left alone for n of its checks, from the moment its counting began (its creation or an earlier check, due at time t0): no function began or ended there since. *)
Definition left_alone (q n : nat) (tr : list ev) (t0 : Z) : Prop := exists a e b, tr = a ++ e :: b /\ since q e t0 /\ works q b = 0 /\ n <= checks q b.

Lemma asked_left M s q n : inv M s -> q < nextq s -> (exists now, pc s q = QShrink now \/ pc s q = QAll now) -> n <= idle s q -> exists t0, left_alone q n (trace s) t0 /\ (t0 + 1000 * Z.of_nat n <= clock s)%Z.
Proof.
  intros I L [now P] K. destruct (v_story _ _ I q L) as [a [e [b [t0 [c0 [S1 [S2 [S3 [S4 [S5 [S6 [S7 S8]]]]]]]]]]]].
  pose proof (v_asked _ _ I q) as A. pose proof (v_phase _ _ I q) as Ph. unfold asked in A. unfold phase in Ph.
  exists t0. split; [|lia]. exists a, e, b. destruct P as [P|P]; rewrite P in A, Ph; repeat split; auto; lia.
Qed.

Lemma remove_event (f : option nat) ws t d1 d2 q x t' : map (fun z => ERemove f z t) ws = d1 ++ ERemove (Some q) x t' :: d2 -> f = Some q /\ t' = t /\ In x ws.
Proof.
  intros E. assert (J : In (ERemove (Some q) x t') (map (fun z => ERemove f z t) ws)) by (rewrite E; apply in_app_iff; right; left; reflexivity).
  apply in_map_iff in J. destruct J as [z [J1 J2]]. assert (f = Some q /\ t' = t /\ z = x) by (repeat split; congruence). intuition (subst; auto).
Qed.

(** Whenever the pool gives up a queue of its own accord, some queue had been left alone for max_idles checks.  (Part of the claim: in time this is only as much as the checks are punctual, see the next theorem.) *)
Theorem C72_cause_partial N M s tr q x t tr2 : reachable N M s -> trace s = tr ++ ERemove (Some q) x t :: tr2 ->
  exists m t0 a b, M = Some m /\ tr = a ++ b /\ works q b = 0 /\ checks q b = 0 /\ left_alone q m a t0 /\ (t0 + 1000 * Z.of_nat m <= t)%Z.
Proof.
  intros R E. apply reachable_reach in R. destruct (reach_at _ _ _ _ _ _ R E) as [s0 [l [s1 [d1 [d2 [R0 [H [T1 T2]]]]]]]].
  pose proof (reach_inv _ _ _ R0) as I. destruct l as [k| |y|y|y|y|y|y|y|y|p w|p w|p w|p]; cbn [exec] in H.
  all: try (exfalso; brk H; res H; unfold called in T1; proj; rewrite <- ?app_assoc in T1; try (match type of T1 with trace ?z = trace ?z ++ _ => rewrite <- (app_nil_r (trace z)) in T1 at 1 end); apply app_inv_head in T1; destruct d1 as [|? [|? ?]]; discriminate T1).
  - exfalso. destruct (freed s0); [discriminate|]. res H. unfold dispatch in T1. destruct (best _ _ _) as [b|]; [destruct (_ && _)|]; proj; rewrite <- ?app_assoc in T1; apply app_inv_head in T1; destruct d1 as [|? [|? [|? ?]]]; discriminate T1.
  - destruct (pc s0 y) as [| |now|now| | |] eqn:P; try discriminate H; res H; proj; apply app_inv_head in T1; destruct (remove_event _ _ _ _ _ _ _ _ T1) as [F1 [F2 F3]]; assert (y = q) by congruence; subst y t.
    + pose proof (v_asked _ _ I q) as A. unfold asked in A. rewrite P in A. destruct A as [_ [m [A1 A2]]].
      destruct (asked_left M s0 q m) as [t0 [B1 B2]]; eauto; [destruct (le_lt_dec (nextq s0) q) as [Y|Y]; [rewrite (proj1 (v_live _ _ I)) in P by exact Y; discriminate P|exact Y]|].
      exists m, t0, (trace s0), d1. repeat split; auto.
      * pose proof (works_remove q (Some q) (clock s0) (lastone (entries s0))) as K. rewrite T1, works_app in K. lia.
      * pose proof (checks_remove q (Some q) (clock s0) (lastone (entries s0))) as K. rewrite T1, checks_app in K. lia.
    + pose proof (v_asked _ _ I q) as A. unfold asked in A. rewrite P in A. destruct A as [_ [m [A1 A2]]].
      destruct (asked_left M s0 q m) as [t0 [B1 B2]]; eauto; [destruct (le_lt_dec (nextq s0) q) as [Y|Y]; [rewrite (proj1 (v_live _ _ I)) in P by exact Y; discriminate P|exact Y]|lia|].
      exists m, t0, (trace s0), d1. repeat split; auto.
      * pose proof (works_remove q (Some q) (clock s0) (entries s0)) as K. rewrite T1, works_app in K. lia.
      * pose proof (checks_remove q (Some q) (clock s0) (entries s0)) as K. rewrite T1, checks_app in K. lia.
  - exfalso. brk H; res H; unfold called in T1; destruct w; proj; apply app_inv_head in T1; destruct (remove_event _ _ _ _ _ _ _ _ T1) as [F1 _]; discriminate F1.
  - exfalso. brk H; res H; unfold called in T1; destruct w; proj; apply app_inv_head in T1; destruct (remove_event _ _ _ _ _ _ _ _ T1) as [F1 _]; discriminate F1.
  - exfalso. brk H; res H; unfold called in T1; destruct w; proj; apply app_inv_head in T1; destruct (remove_event _ _ _ _ _ _ _ _ T1) as [F1 _]; discriminate F1.
Qed.
Print Assumptions C72_cause_partial.

(** The counter of idle checks cannot overflow: it never exceeds the number of seconds since the queue was created (a run of 2^31 seconds takes 68 years). *)
Theorem C72_counter N M s q : reachable N M s -> q < nextq s -> exists c0, In (ECreate q c0) (trace s) /\ (1000 * Z.of_nat (idle s q) <= clock s - c0)%Z.
Proof.
  intros R L. pose proof (reach_inv _ _ _ (reachable_reach _ _ _ R)) as I. destruct (v_story _ _ I q L) as [a [e [b [t0 [c0 [S1 [S2 [S3 [S4 [S5 [S6 [S7 S8]]]]]]]]]]]].
  exists c0. split; [|lia]. rewrite S1. apply in_app_iff in S7. apply in_app_iff. destruct S7 as [S7|[S7|[]]]; [left; exact S7|right; left; exact S7].
Qed.
Print Assumptions C72_counter.

(** What the idle check of a queue does to the pool: after twice max_idles checks without work it empties it, after max_idles it takes out the last queue, but never the only one. *)
Theorem C72_effect N M s q s' : reachable N M s -> exec N M (LAct q) s = Some s' -> exists m, M = Some m /\
  ((exists t0, left_alone q (2 * m) (trace s) t0) /\ entries s' = [] \/
   (exists t0, left_alone q m (trace s) t0) /\ (length (entries s) <= 1 /\ entries s' = entries s \/ exists x, entries s = entries s' ++ [x] /\ entries s' <> [] /\ trace s' = trace s ++ [ERemove (Some q) x (clock s)])).
Proof.
  intros R H. pose proof (reach_inv _ _ _ (reachable_reach _ _ _ R)) as I. cbn [exec] in H.
  assert (L : q < nextq s) by (destruct (le_lt_dec (nextq s) q) as [Y|Y]; [rewrite (proj1 (v_live _ _ I)) in H by exact Y; discriminate H|exact Y]).
  pose proof (v_asked _ _ I q) as A. unfold asked in A. destruct (pc s q) as [| |now|now| | |] eqn:P; try discriminate H; destruct A as [_ [m [A1 A2]]]; exists m; (split; [exact A1|]); res H; proj.
  - right. destruct (asked_left _ s q m I L (ex_intro _ now (or_introl P)) A2) as [t0 [B _]]. split; [exists t0; exact B|].
    unfold others, lastone. destruct (Nat.ltb_spec 1 (length (entries s))) as [K|K]; [right|left; auto].
    exists (List.last (entries s) 0). split; [apply app_removelast_last; intros X; rewrite X in K; cbn in K; lia|]. split; [|reflexivity].
    destruct (entries s) as [|u [|v r]]; cbn in K; try lia. cbn. discriminate.
  - left. destruct (asked_left _ s q (2 * m) I L (ex_intro _ now (or_intror P)) A2) as [t0 [B _]]. split; [exists t0; exact B|reflexivity].
Qed.
Print Assumptions C72_effect.

(** A call from outside to shrink by one likewise takes the last queue, but never the only one. *)
Theorem C72_shrink_one N M s p w s' : exec N M (LShrink p w) s = Some s' -> length (entries s) <= 1 /\ entries s' = entries s /\ trace s' = trace s \/ exists x, entries s = entries s' ++ [x] /\ entries s' <> [] /\ trace s' = trace s ++ [ERemove None x (clock s)].
Proof.
  intros H. cbn [exec] in H. brk H; res H. unfold called. assert (D : forall z z' : st, entries z = entries z' /\ trace z = trace z' -> length (entries s) <= 1 /\ entries z' = entries s /\ trace z' = trace s \/ (exists x, entries s = entries z' ++ [x] /\ entries z' <> [] /\ trace z' = trace s ++ [ERemove None x (clock s)]) ->
    length (entries s) <= 1 /\ entries z = entries s /\ trace z = trace s \/ exists x, entries s = entries z ++ [x] /\ entries z <> [] /\ trace z = trace s ++ [ERemove None x (clock s)]) by (intros z z' [-> ->] X; exact X).
  apply (D _ (remove s None (others (entries s)) (lastone (entries s)))); [destruct w; split; reflexivity|]. proj.
  unfold others, lastone. destruct (Nat.ltb_spec 1 (length (entries s))) as [K|K]; [right|left; cbn; rewrite app_nil_r; auto].
  exists (List.last (entries s) 0). split; [apply app_removelast_last; intros X; rewrite X in K; cbn in K; lia|]. split; [|reflexivity].
  destruct (entries s) as [|u [|v r]]; cbn in K; try lia. cbn. discriminate.
Qed.
Print Assumptions C72_shrink_one.

(** A queue that was left alone for one check more than twice max_idles, with nothing to do, is out of the pool or about to empty it. *)
Lemma gone_step N m l s s' : inv (Some m) s -> exec N (Some m) l s = Some s' -> (forall q, In q (entries s) -> 2 * m <= idle s q -> 1 <= m -> exists now, pc s q = QAll now) -> forall q, In q (entries s') -> 2 * m <= idle s' q -> 1 <= m -> exists now, pc s' q = QAll now.
Proof.
  intros I H G q J K M1.
  assert (Old : In q (entries s) \/ q = nextq s /\ idle s' q = 0).
  { destruct l as [k| |y|y|y|y|y|y|y|y|p w|p w|p w|p]; cbn [exec] in H.
    all: try (brk H; res H; unfold called in *; repeat match goal with X : In _ (entries (if ?b then _ else _)) |- _ => destruct b end; proj; try contradiction; left; first [exact J|apply others_in; exact J]).
    destruct (freed s); [discriminate|]. res H. unfold dispatch in *. destruct (best _ _ _) as [b|]; [destruct (_ && _)|]; proj; try (left; exact J); apply in_app_iff in J; (destruct J as [J|[<-|[]]]; [left; exact J|right; rewrite fupd_eq; auto]). }
  destruct Old as [J0|[_ Z0]]; [|lia].
  destruct (exec_move _ _ _ _ _ (v_live _ _ I) H q) as [d P1 P2 P3 P4 P5 P6 P7 P8 P9 P10 P11 P12 P13|d P1 P2 P3 P4 P5 P6 P7 P8 P9 P10 P11|d n P1 P2 P3 P4 P5 P6 P7 P8 P9 PC P10|now n k P1 PC P2 P3 P4 P5 P6 P7 P8 P9 P10 P11 P12 P13].
  - rewrite P1. rewrite P3 in K. exact (G q J0 K M1).
  - rewrite P4 in K. lia.
  - rewrite P3 in K. destruct (G q J0 K M1) as [now P]. exfalso. rewrite P in P10. destruct (pc s' q) eqn:P'; try contradiction.
    clear -H P P' J. destruct l as [k| |y|y|y|y|y|y|y|y|p w|p w|p w|p]; cbn [exec] in H.
    all: try (brk H; res H; unfold called in *; repeat match goal with X : context [pc (if ?b then _ else _)] |- _ => destruct b end; proj; unfold fupd in *; repeat match goal with X : context [if ?b then _ else _] |- _ => destruct b eqn:? end; rewrite ?Nat.eqb_eq in *; subst; congruence).
    + destruct (freed s); [discriminate|]. res H. unfold dispatch in *. destruct (best _ _ _) as [b|]; [destruct (_ && _)|]; proj; unfold fupd in *; try congruence; destruct (q =? nextq s); congruence.
    + destruct (Nat.eq_dec q y) as [<-|ne]; [rewrite P in H; res H; proj; contradiction|]. brk H; res H; proj; rewrite fupd_ne in P' by assumption; congruence.
  - assert (n = m) by congruence. subst n. rewrite P7 in K. rewrite P13. apply Nat.leb_le in K. rewrite K. exists now. reflexivity.
Qed.
Lemma reach_more N M s : reach N M s -> (forall q, counting s q) /\ (forall m, M = Some m -> forall q, In q (entries s) -> 2 * m <= idle s q -> 1 <= m -> exists now, pc s q = QAll now).
Proof.
  induction 1 as [|s l s' R [IH1 IH2] H].
  - split; [|intros m _ q []]. intros q a b E _ _ _. symmetry in E. apply app_eq_nil in E. destruct E as [-> ->]. cbn. split; [lia|]. intros X. lia.
  - pose proof (reach_inv _ _ _ R) as I. split; [exact (counting_step _ _ _ _ _ I H IH1)|]. intros m ->. exact (gone_step _ _ _ _ _ I H (IH2 m eq_refl)).
Qed.
Theorem C72_goes_away N m s q a b : 1 <= m -> reachable N (Some m) s -> trace s = a ++ b -> works q b = 0 -> accepts q b = 0 -> cnt s q = 0 -> 2 * m < checks q b -> ~ In q (entries s) \/ exists now, pc s q = QAll now.
Proof.
  intros M1 R E W A Z0 K. destruct (reach_more _ _ _ (reachable_reach _ _ _ R)) as [C G]. destruct (C q a b E W A Z0) as [C1 _].
  destruct (in_dec Nat.eq_dec q (entries s)) as [J|J]; [right|left; exact J]. apply (G m eq_refl q J); lia.
Qed.
Print Assumptions C72_goes_away.

(** Without a limit (a negative max_idles) the pool gives up nothing of its own accord. *)
Theorem C72_no_limit N s q x t : reachable N None s -> ~ In (ERemove (Some q) x t) (trace s).
Proof. intros R J. apply in_split in J. destruct J as [a [b E]]. destruct (C72_cause_partial _ _ _ _ _ _ _ _ R E) as [m [_ [_ [_ [X _]]]]]. discriminate X. Qed.
Print Assumptions C72_no_limit.

(** ** Waiting. *)
Lemma wait_step N M s : reach N M s -> (forall q, q < nextq s -> pc s q = QDone -> In (EDone q) (trace s)) /\ (forall p ws f, upcs s p = UWait ws f -> forall x, In x ws -> x < nextq s /\ exists t, In (ERemove None x t) (trace s)).
Proof.
  induction 1 as [|s l s' R [I1 I2] H]; [split; cbn; [intros; lia|intros; discriminate]|].
  pose proof (reach_live _ _ _ R) as [L1 L2]. split.
  - intros q. destruct l as [k| |y|y|y|y|y|y|y|y|p w|p w|p w|p]; cbn [exec] in H.
    all: try (brk H; res H; unfold called; repeat match goal with |- context [if ?b then _ else _] => destruct b end; proj; unfold fupd; try (destruct (Nat.eqb_spec q y) as [->|]); intros A B; try discriminate B; rewrite ?in_app_iff; try (left; apply I1; assumption); right; left; reflexivity).
    + brk H; res H; intros A B; proj; apply I1; assumption.
    + destruct (freed s); [discriminate|]. res H. unfold dispatch. destruct (best _ _ _) as [b|]; [destruct (_ && _)|]; proj; unfold fupd; try (destruct (Nat.eqb_spec q (nextq s)) as [->|]); intros A B; try discriminate B; rewrite ?in_app_iff; auto; left; try left; apply I1; auto; lia.
    + brk H; res H; proj; unfold fupd; destruct (Nat.eqb_spec q y) as [->|]; intros A B; try discriminate B; apply I1; assumption.
    + brk H; res H; proj; unfold fupd; destruct (Nat.eqb_spec q y) as [->|]; intros A B; try discriminate B; apply I1; assumption.
    + brk H; res H; proj; unfold fupd; destruct (Nat.eqb_spec q y) as [->|]; intros A B; try discriminate B; try (destruct (term s y); discriminate B); apply I1; assumption.
  - assert (Keep : (exists d, trace s' = trace s ++ d) /\ nextq s <= nextq s').
    { destruct (exec_move _ _ _ _ _ (conj L1 L2) H 0) as [d P1 P2 P3 P4 P5 P6 P7 P8 P9 P10 P11 P12 P13|d P1 P2 P3 P4 P5 P6 P7 P8 P9 P10 P11|d n P1 P2 P3 P4 P5 P6 P7 P8 P9 PC P10|now m k P1 PC P2 P3 P4 P5 P6 P7 P8 P9 P10 P11 P12 P13]; (split; [eexists; eassumption|lia]). }
    destruct Keep as [[d D] Nx]. intros p ws f U x X.
    assert (Old : upcs s p = UWait ws f \/ (forall z, In z ws -> In z (entries s) /\ In (ERemove None z (clock s)) (trace s'))).
    { destruct l as [k| |y|y|y|y|y|y|y|y|p0 w|p0 w|p0 w|p0]; cbn [exec] in H.
      all: try (brk H; res H; proj; left; exact U).
      - destruct (freed s); [discriminate|]. res H. unfold dispatch in U. destruct (best _ _ _) as [b|]; [destruct (_ && _)|]; proj; left; exact U.
      - brk H; res H; unfold called in *; destruct w; proj; try (left; exact U). unfold fupd in U. destruct (p =? p0); [|left; exact U]. right. assert (ws = lastone (entries s)) by congruence. subst ws.
        intros z Z0. split; [apply lastone_in; exact Z0|]. apply in_app_iff. right. apply in_map_iff. exists z. auto.
      - brk H; res H; unfold called in *; destruct w; proj; try (left; exact U). unfold fupd in U. destruct (p =? p0); [|left; exact U]. right. assert (ws = entries s) by congruence. subst ws.
        intros z Z0. split; [exact Z0|]. apply in_app_iff. right. apply in_map_iff. exists z. auto.
      - brk H; res H; unfold called in *; destruct w; proj; try (left; exact U). unfold fupd in U. destruct (p =? p0); [|left; exact U]. right. assert (ws = entries s) by congruence. subst ws.
        intros z Z0. split; [exact Z0|]. apply in_app_iff. right. apply in_map_iff. exists z. auto.
      - brk H; res H; proj; unfold fupd in U; destruct (p =? p0); try discriminate U; left; exact U. }
    destruct Old as [Old|Old].
    + destruct (I2 _ _ _ Old x X) as [A [t B]]. split; [lia|]. exists t. rewrite D. apply in_app_iff. left. exact B.
    + destruct (Old x X) as [A B]. split; [apply L2 in A; lia|]. eauto.
Qed.
(** A call from outside that waits returns after every queue it took out has ended. *)
Theorem C72_wait N M s tr p ws tr2 : reachable N M s -> trace s = tr ++ ERet p ws :: tr2 -> forall x, In x ws -> In (EDone x) tr /\ exists t, In (ERemove None x t) tr.
Proof.
  intros R E x X. apply reachable_reach in R. destruct (reach_at _ _ _ _ _ _ R E) as [s0 [l [s1 [d1 [d2 [R0 [H [T1 T2]]]]]]]].
  destruct (wait_step _ _ _ R0) as [W1 W2]. destruct l as [k| |y|y|y|y|y|y|y|y|p0 w|p0 w|p0 w|p0]; cbn [exec] in H.
  all: try (exfalso; brk H; res H; unfold called in T1; repeat match goal with X : context [if ?b then _ else _] |- _ => destruct b end; proj; rewrite <- ?app_assoc in T1; try (match type of T1 with trace ?z = trace ?z ++ _ => rewrite <- (app_nil_r (trace z)) in T1 at 1 end); apply app_inv_head in T1;
    first [destruct d1 as [|? [|? ?]]; discriminate T1|
      match type of T1 with map ?f ?l = _ => assert (Y : In (ERet p ws) (map f l)) by (rewrite T1; apply in_app_iff; right; left; reflexivity); apply in_map_iff in Y; destruct Y as [? [Y _]]; discriminate Y end]).
  - exfalso. destruct (freed s0); [discriminate|]. res H. unfold dispatch in T1. destruct (best _ _ _) as [b|]; [destruct (_ && _)|]; proj; rewrite <- ?app_assoc in T1; apply app_inv_head in T1; destruct d1 as [|? [|? [|? ?]]]; discriminate T1.
  - destruct (upcs s0 p0) as [|ws0 f] eqn:U; [discriminate|]. destruct (forallb (isdone s0) ws0) eqn:D; [|discriminate]. res H.
    assert (Q : [ERet p0 ws0] = d1 ++ ERet p ws :: d2) by (destruct f; proj; apply app_inv_head in T1; exact T1).
    assert (d1 = [] /\ ws0 = ws) by (destruct d1 as [|? [|? ?]]; cbn in Q; split; congruence). destruct H as [-> ->]. rewrite app_nil_r.
    destruct (W2 _ _ _ U x X) as [A B]. split; [|exact B]. apply W1; [exact A|]. rewrite forallb_forall in D. specialize (D x X). unfold isdone in D. destruct (pc s0 x); congruence.
Qed.
Print Assumptions C72_wait.

(** ** What a queue accepted is executed before it ends. *)
Definition busyb (x : qpc) : nat := match x with QFuncs _ _ true | QDrain true => 1 | _ => 0 end.
Definition batch (s : st) (q : nat) : Prop := match pc s q with QFuncs r _ b => r <= cnt s q /\ (b = true -> 1 <= r) | QDrain b => b = true -> 1 <= cnt s q | QDone => cnt s q = 0 | _ => True end.
Record winv (s : st) : Prop := {
  w_nd : NoDup (entries s);
  w_in : forall q, In q (entries s) -> term s q = false;
  w_end : forall q, q < nextq s -> (exists b, pc s q = QDrain b) \/ pc s q = QDone -> term s q = true;
  w_cnt : forall q, q < nextq s -> works q (trace s) + 2 * cnt s q = 2 * accepts q (trace s) + busyb (pc s q);
  w_batch : forall q, q < nextq s -> batch s q;
  w_new : forall q, nextq s <= q -> accepts q (trace s) = 0 /\ works q (trace s) = 0
}.
Lemma nodup_others l : NoDup l -> NoDup (others l) /\ forall q, In q (others l) -> ~ In q (lastone l).
Proof.
  intros H. unfold others, lastone. destruct (Nat.ltb_spec 1 (length l)) as [K|K]; [|split; [exact H|intros q _ []]].
  destruct l as [|x l]; cbn in K; [lia|]. rewrite (app_removelast_last 0 (l := x :: l)) in H by discriminate. split; [apply NoDup_remove_1 in H; rewrite app_nil_r in H; exact H|].
  intros q A [<-|[]]. apply NoDup_remove_2 in H. apply H. rewrite app_nil_r. exact A.
Qed.
Lemma existsb_in x l : existsb (Nat.eqb x) l = true <-> In x l.
Proof. rewrite existsb_exists. split; [intros [y [A B]]; apply Nat.eqb_eq in B; congruence|intros H; exists x; split; [exact H|apply Nat.eqb_refl]]. Qed.
Lemma accepts_remove q by_ t ws : accepts q (map (fun x => ERemove by_ x t) ws) = 0.
Proof. apply howmany_0. intros e H. apply in_map_iff in H. destruct H as [x [<- _]]. reflexivity. Qed.
(** Taking queues out. *)
Lemma winv_remove s by_ keep ws : winv s -> NoDup keep -> (forall q, In q keep -> In q (entries s) /\ ~ In q ws) -> winv (remove s by_ keep ws).
Proof.
  intros W N1 K. constructor; proj.
  - exact N1.
  - intros q Q. destruct (K q Q) as [A B]. destruct (existsb (Nat.eqb q) ws) eqn:X; [apply existsb_in in X; contradiction|apply (w_in _ W); exact A].
  - intros q Q X. destruct (existsb (Nat.eqb q) ws); [reflexivity|apply (w_end _ W); assumption].
  - intros q Q. rewrite works_app, accepts_app, works_remove, accepts_remove, !Nat.add_0_r. apply (w_cnt _ W q Q).
  - intros q Q. apply (w_batch _ W q Q).
  - intros q Q. rewrite works_app, accepts_app, works_remove, accepts_remove, !Nat.add_0_r. apply (w_new _ W q Q).
Qed.
(** Anything that leaves queues and counters alone. *)
Lemma winv_same s s' : winv s -> entries s' = entries s -> term s' = term s -> pc s' = pc s -> cnt s' = cnt s -> nextq s' = nextq s -> (exists d, trace s' = trace s ++ d /\ forall q, works q d = 0 /\ accepts q d = 0) -> winv s'.
Proof.
  intros W E1 E2 E3 E4 E5 [d [E6 E7]]. constructor; unfold batch; rewrite ?E1, ?E2, ?E3, ?E4, ?E5, ?E6; try apply W.
  - intros q Q. destruct (E7 q) as [X Y]. rewrite works_app, accepts_app, X, Y, !Nat.add_0_r. apply (w_cnt _ W q Q).
  - intros q Q. destruct (E7 q) as [X Y]. rewrite works_app, accepts_app, X, Y, !Nat.add_0_r. apply (w_new _ W q Q).
Qed.
(** A step of queue y itself. *)
Lemma winv_own s s' y x d : winv s -> y < nextq s -> entries s' = entries s -> term s' = term s -> pc s' = fupd (pc s) y x -> (forall q, q <> y -> cnt s' q = cnt s q) -> nextq s' = nextq s -> trace s' = trace s ++ d ->
  (forall q, accepts q d = 0 /\ (q <> y -> works q d = 0)) -> works y d + 2 * cnt s' y + busyb (pc s y) = 2 * cnt s y + busyb x -> ((exists b, x = QDrain b) \/ x = QDone -> term s y = true) ->
  match x with QFuncs r _ b => r <= cnt s' y /\ (b = true -> 1 <= r) | QDrain b => b = true -> 1 <= cnt s' y | QDone => cnt s' y = 0 | _ => True end -> winv s'.
Proof.
  intros W Y E1 E2 E3 E4 E5 E6 E7 E8 E9 E10. constructor; unfold batch; rewrite ?E1, ?E2, ?E3, ?E5, ?E6; try apply W.
  - intros q Q. unfold fupd. destruct (Nat.eqb_spec q y) as [->|n]; [exact E9|apply (w_end _ W); exact Q].
  - intros q Q. destruct (E7 q) as [X1 X2]. rewrite works_app, accepts_app, X1, Nat.add_0_r. pose proof (w_cnt _ W q Q) as C. unfold fupd. destruct (Nat.eqb_spec q y) as [->|n]; [lia|]. rewrite (X2 n), (E4 q n). lia.
  - intros q Q. unfold fupd. destruct (Nat.eqb_spec q y) as [->|n]; [exact E10|]. rewrite (E4 q n). apply (w_batch _ W q Q).
  - intros q Q. destruct (E7 q) as [X1 X2]. rewrite works_app, accepts_app, X1, X2 by lia. rewrite !Nat.add_0_r. apply (w_new _ W q Q).
Qed.
Ltac ownq y := eapply (winv_own _ _ y); [eassumption|assumption|proj; reflexivity|proj; reflexivity|proj; reflexivity|intros; proj; rewrite ?fupd_ne by assumption; reflexivity|proj; reflexivity|proj; try reflexivity; symmetry; apply app_nil_r| | | |].
Lemma winv_step N M l s s' : live s -> winv s -> exec N M l s = Some s' -> winv s'.
Proof.
  intros [L1 L2] W H. destruct l as [k| |y|y|y|y|y|y|y|y|p w|p w|p w|p]; cbn [exec] in H.
  1: { res H. apply (winv_same s); auto. exists []. proj. rewrite app_nil_r. split; [reflexivity|]. intros q. split; reflexivity. }
  1: { destruct (freed s); [discriminate|]. res H. unfold dispatch.
    assert (Acc : forall z b, winv z -> b < nextq z -> In b (entries z) -> winv (accept z b)).
    { intros z b Wz Bz Iz. constructor; proj; try apply Wz.
      - intros q Q. rewrite works_app, accepts_app, works_1, accepts_1. pose proof (w_cnt _ Wz q Q) as C. unfold fupd. destruct (Nat.eqb_spec q b) as [->|n]; [rewrite Nat.eqb_refl; lia|]. destruct (Nat.eqb_spec b q); [congruence|lia].
      - intros q Q. pose proof (w_batch _ Wz q Q) as B. unfold batch in *. proj. unfold fupd. destruct (Nat.eqb_spec q b) as [->|n]; [|exact B].
        destruct (pc z b) eqn:P; try exact B; [destruct B; split; [lia|auto]|intros; lia|]. pose proof (w_in _ Wz b Iz) as X1. rewrite (w_end _ Wz b Q (or_intror P)) in X1. discriminate X1.
      - intros q Q. rewrite works_app, accepts_app, works_1, accepts_1. destruct (w_new _ Wz q Q) as [X1 X2]. destruct (Nat.eqb_spec b q); lia. }
    assert (Cr : winv (create s)).
    { constructor; proj.
      - assert (Nn : ~ In (nextq s) (entries s)) by (intros X; apply L2 in X; lia). pose proof (w_nd _ W) as ND. clear -Nn ND. induction (entries s) as [|x l IH]; cbn; [constructor; [intros []|constructor]|].
        inversion ND; subst. constructor; [rewrite in_app_iff; intros [X|[X|[]]]; [contradiction|apply Nn; left; congruence]|apply IH; [intros X; apply Nn; right; exact X|assumption]].
      - intros q Q. unfold fupd. destruct (Nat.eqb_spec q (nextq s)) as [->|n]; [reflexivity|]. apply in_app_iff in Q. destruct Q as [Q|[Q|[]]]; [apply (w_in _ W q Q)|congruence].
      - intros q Q. unfold fupd. destruct (Nat.eqb_spec q (nextq s)) as [->|n]; [intros [[b X]|X]; discriminate X|apply (w_end _ W q); lia].
      - intros q Q. rewrite works_app, accepts_app, works_1, accepts_1, !Nat.add_0_r. unfold fupd. destruct (Nat.eqb_spec q (nextq s)) as [->|n]; [destruct (w_new _ W (nextq s) (le_n _)) as [X1 X2]; rewrite X1, X2; reflexivity|apply (w_cnt _ W q); lia].
      - intros q Q. unfold batch. proj. unfold fupd. destruct (Nat.eqb_spec q (nextq s)) as [->|n]; [split; [lia|discriminate]|apply (w_batch _ W q); lia].
      - intros q Q. rewrite works_app, accepts_app, works_1, accepts_1, !Nat.add_0_r. apply (w_new _ W q). lia. }
    assert (New : winv (accept (create s) (nextq s))) by (apply Acc; [exact Cr|proj; lia|proj; apply in_app_iff; right; left; reflexivity]).
    destruct (best _ _ _) as [b|] eqn:B; [destruct (_ && _)|]; try exact New. destruct (best_in _ _ _ _ B) as [X|X]; [discriminate X|]. apply Acc; auto. }
  9: { destruct (upcs s p); [|discriminate]. destruct (freed s); [discriminate|]. res H. destruct (nodup_others _ (w_nd _ W)) as [X1 X2].
    assert (W1 : winv (remove s None (others (entries s)) (lastone (entries s)))) by (apply winv_remove; [exact W|exact X1|intros q Q; split; [apply others_in; exact Q|apply X2; exact Q]]).
    unfold called. destruct w; [|exact W1]. eapply winv_same; [exact W1|reflexivity..|]. exists []. rewrite app_nil_r. split; [reflexivity|]. intros q. split; reflexivity. }
  9: { destruct (upcs s p); [|discriminate]. destruct (freed s); [discriminate|]. res H.
    assert (W1 : winv (remove s None [] (entries s))) by (apply winv_remove; [exact W|constructor|intros q []]).
    unfold called. destruct w; [|exact W1]. eapply winv_same; [exact W1|reflexivity..|]. exists []. rewrite app_nil_r. split; [reflexivity|]. intros q. split; reflexivity. }
  9: { destruct (upcs s p); [|discriminate]. destruct (freed s); [discriminate|]. res H.
    assert (W1 : winv (remove s None [] (entries s))) by (apply winv_remove; [exact W|constructor|intros q []]).
    unfold called. destruct w; eapply winv_same; try exact W1; try reflexivity; exists []; rewrite app_nil_r; (split; [reflexivity|]); intros q; split; reflexivity. }
  9: { destruct (upcs s p) as [|ws f]; [discriminate|]. destruct (forallb _ _); [|discriminate]. res H. eapply winv_same; try exact W; try (destruct f; reflexivity). exists [ERet p ws]. split; [destruct f; reflexivity|]. intros q. split; reflexivity. }
  all: assert (Y : y < nextq s) by (destruct (le_lt_dec (nextq s) y) as [Y|Y]; [rewrite L1 in H by exact Y; discriminate H|exact Y]); pose proof (w_batch _ W y Y) as B; pose proof (w_end _ W y Y) as En; unfold batch in B.
  - destruct (pc s y) as [r e [|]| | | | |[|]|] eqn:P; try (destruct r; discriminate H); try discriminate H.
    + destruct r as [|r]; [discriminate H|]. res H. ownq y.
      * intros q. rewrite accepts_1, works_1. split; [reflexivity|]. intros n. destruct (Nat.eqb_spec y q); congruence.
      * proj. rewrite P, works_1, Nat.eqb_refl. cbn [busyb]. lia.
      * intros [[b X]|X]; discriminate X.
      * proj. split; [apply B|lia].
    + destruct (Nat.ltb_spec 0 (cnt s y)); [|discriminate H]. res H. ownq y.
      * intros q. rewrite accepts_1, works_1. split; [reflexivity|]. intros n. destruct (Nat.eqb_spec y q); congruence.
      * proj. rewrite P, works_1, Nat.eqb_refl. cbn [busyb]. lia.
      * intros _. apply En. left. eauto.
      * proj. lia.
  - destruct (pc s y) as [r e [|]| | | | |[|]|] eqn:P; try (destruct r; discriminate H); try discriminate H.
    + destruct r as [|r]; [discriminate H|]. destruct B as [B1 B2]. res H. ownq y.
      * intros q. rewrite accepts_1, works_1. split; [reflexivity|]. intros n. destruct (Nat.eqb_spec y q); congruence.
      * proj. rewrite P, works_1, Nat.eqb_refl, fupd_eq. cbn [busyb]. lia.
      * intros [[b X]|X]; discriminate X.
      * proj. rewrite fupd_eq. split; [lia|discriminate].
    + specialize (B eq_refl). res H. ownq y.
      * intros q. rewrite accepts_1, works_1. split; [reflexivity|]. intros n. destruct (Nat.eqb_spec y q); congruence.
      * proj. rewrite P, works_1, Nat.eqb_refl, fupd_eq. cbn [busyb]. lia.
      * intros _. apply En. left. eauto.
      * discriminate.
  - destruct (pc s y) as [[|r] e [|]| | | | | |] eqn:P; try discriminate H. res H. ownq y; [intros q; split; reflexivity|proj; rewrite P; reflexivity|intros [[b X]|X]; discriminate X|exact Logic.I].
  - destruct (pc s y) eqn:P; try discriminate H. destruct M as [m|]; [|discriminate H]. destruct (_ <=? _)%Z; [|discriminate H]. res H.
    ownq y; [intros q; split; reflexivity|proj; rewrite P; destruct (2 * m <=? count_idle s y); [|destruct (m <=? count_idle s y)]; reflexivity| |];
      destruct (2 * m <=? count_idle s y); try (destruct (m <=? count_idle s y)); try exact Logic.I; intros [[b X]|X]; discriminate X.
  - destruct (nodup_others _ (w_nd _ W)) as [X1 X2].
    assert (W1 : winv (remove s (Some y) (others (entries s)) (lastone (entries s)))) by (apply winv_remove; [exact W|exact X1|intros q Q; split; [apply others_in; exact Q|apply X2; exact Q]]).
    assert (W2 : winv (remove s (Some y) [] (entries s))) by (apply winv_remove; [exact W|constructor|intros q []]).
    destruct (pc s y) eqn:P; try discriminate H; res H.
    + clear W W2. ownq y; [intros q; split; reflexivity|proj; rewrite P; reflexivity|intros [[b X]|X]; discriminate X|exact Logic.I].
    + clear W W1. ownq y; [intros q; split; reflexivity|proj; rewrite P; reflexivity|intros [[b X]|X]; discriminate X|exact Logic.I].
  - destruct (pc s y) eqn:P; try discriminate H. destruct (forallb _ _); [|discriminate H]. res H. ownq y; [intros q; split; reflexivity|proj; rewrite P; reflexivity|intros [[b X]|X]; discriminate X|exact Logic.I].
  - destruct (pc s y) eqn:P; try discriminate H. match type of H with (if ?x then _ else _) = _ => destruct x end; [discriminate H|]. res H. destruct (term s y) eqn:T; ownq y; try (intros q; split; reflexivity); try (proj; rewrite P; reflexivity); try (intros [[b X]|X]; congruence); proj; try discriminate. split; [lia|discriminate].
  - destruct (pc s y) as [| | | | |[|]|] eqn:P; try discriminate H. destruct (Nat.eqb_spec (cnt s y) 0) as [Z0|]; [|discriminate H]. res H. ownq y; [intros q; split; reflexivity|proj; rewrite P; reflexivity|intros _; apply En; left; eauto|proj; exact Z0].
Qed.
(** When a queue has ended, each function it accepted has begun and ended. *)
Theorem C72_executed N M s q : reachable N M s -> In (EDone q) (trace s) -> works q (trace s) = 2 * accepts q (trace s).
Proof.
  intros R J. apply reachable_reach in R.
  assert (W : winv s) by (clear J; induction R as [|s l s' R IH H]; [constructor; cbn; auto; try (intros; lia); try constructor; try (intros ? []); intros; split; reflexivity|eapply winv_step; [apply (reach_live _ _ _ R)|exact IH|exact H]]).
  assert (D : q < nextq s /\ pc s q = QDone).
  { clear W. induction R as [|s l s' R IH H]; [contradiction|]. pose proof (reach_live _ _ _ R) as L.
    assert (Keep : q < nextq s -> pc s q = QDone -> q < nextq s' /\ pc s' q = QDone).
    { intros A B. destruct (exec_move _ _ _ _ _ L H q) as [d P1 P2 P3 P4 P5 P6 P7 P8 P9 P10 P11 P12 P13|d P1 P2 P3 P4 P5 P6 P7 P8 P9 P10 P11|d n P1 P2 P3 P4 P5 P6 P7 P8 P9 PC P10|now m k P1 PC P2 P3 P4 P5 P6 P7 P8 P9 P10 P11 P12 P13].
      - split; [auto|congruence].
      - lia.
      - rewrite B in P10. contradiction.
      - congruence. }
    destruct (exec_trace _ _ _ _ _ L H) as [d E]. rewrite E in J. apply in_app_iff in J. destruct J as [J|J]; [destruct (IH J); auto|].
    destruct l as [k| |y|y|y|y|y|y|y|y|p w|p w|p w|p]; cbn [exec] in H.
    all: try (exfalso; brk H; res H; unfold called in E; repeat match goal with X : context [if ?b then _ else _] |- _ => destruct b end; proj; rewrite <- ?app_assoc in E; try (match type of E with trace ?z = trace ?z ++ _ => rewrite <- (app_nil_r (trace z)) in E at 1 end); apply app_inv_head in E; subst d;
      first [contradiction|destruct J as [J|[]]; discriminate J|apply in_map_iff in J; destruct J as [? [J _]]; discriminate J]).
    - exfalso. destruct (freed s); [discriminate|]. res H. unfold dispatch in E. destruct (best _ _ _) as [b|]; [destruct (_ && _)|]; proj; rewrite <- ?app_assoc in E; apply app_inv_head in E; subst d; cbn [In app] in J; clear -J; intuition discriminate.
    - destruct (pc s y) as [| | | | |[|]|] eqn:P; try discriminate H. destruct (Nat.eqb_spec (cnt s y) 0) as [Z0|]; [|discriminate H]. res H. proj. apply app_inv_head in E. subst d. destruct J as [J|[]]. assert (y = q) by congruence. subst y. rewrite fupd_eq. split; [|reflexivity].
      destruct (le_lt_dec (nextq s) q) as [Y|Y]; [rewrite (proj1 L) in P by exact Y; discriminate P|exact Y]. }
  destruct D as [D1 D2]. pose proof (w_cnt _ W q D1) as C. pose proof (w_batch _ W q D1) as B. unfold batch in B. rewrite D2 in B, C. cbn [busyb] in C. lia.
Qed.
Print Assumptions C72_executed.

(** ** Where the code breaks the claim. *)
Fixpoint times {A} (n : nat) (l : list A) : list A := match n with 0 => [] | S n => l ++ times n l end.
Definition end_of (N : nat) (M : option nat) (ls : list label) : st := match run N M ls init with Some s => s | None => init end.
Lemma end_run N M ls : (match run N M ls init with Some _ => true | None => false end) = true -> run N M ls init = Some (end_of N M ls).
Proof. unfold end_of. destruct (run N M ls init); [reflexivity|discriminate]. Qed.

(** max_idles is 5.  The only queue executes one function for 12 seconds; the checks that are overdue then run one after the other without a pause, each finding that nothing was executed since the one before. *)
Definition long_job : list label :=
  [LDispatch; LTimers 0; LLoop 0; LBegin 0; LTick (12 * 1000); LEnd 0; LTimers 0] ++ times 5 [LFire 0] ++ times 5 [LFire 0; LAct 0; LWaited 0] ++ [LFire 0; LAct 0].
(** The queue is taken out of the pool, as idle for ten seconds, in the millisecond in which its function ended. *)
Theorem C72_cause_refuted : exists s tr1 tr2, run 1 (Some 5) long_job init = Some s /\ trace s = tr1 ++ EEnd 0 12000 :: tr2 ++ [ERemove (Some 0) 0 12000].
Proof.
  exists (end_of 1 (Some 5) long_job), [ECreate 0 0; EAccept 0; EBegin 0], (map (fun k => ECheck 0 12000 (11000 - 1000 * Z.of_nat k)) (seq 0 11)).
  split; [apply end_run; vm_compute; reflexivity|vm_compute; reflexivity].
Qed.
Print Assumptions C72_cause_refuted.

(** A pool of two queues, as the library's own one on Linux (LTWP_SIZE 2, LTWP_MAX_IDLES 5: mpqp.c 587, 592).  Queue 1 executes a function that takes 12 seconds; queue 0, idle for five, takes queue 1 out and waits for it.  A new request is given to queue 0.  When queue 1 is done, its overdue checks make it empty the pool and wait for queue 0. *)
Definition embrace : list label :=
  [LDispatch; LDispatch; LTimers 0; LLoop 0; LBegin 0; LEnd 0; LTimers 1; LLoop 1; LBegin 1] ++
  times 5 [LTick 1000; LTimers 0; LFire 0; LLoop 0] ++ [LTick 1000; LTimers 0; LFire 0; LAct 0; LTick (6 * 1000); LDispatch; LEnd 1; LTimers 1] ++
  times 5 [LFire 1] ++ times 5 [LFire 1; LAct 1; LWaited 1] ++ [LFire 1; LAct 1].
Lemma stuck_step N M l s s' a b na nb : a <> b -> pc s a = QWait na [b] -> pc s b = QWait nb [a] -> a < nextq s -> b < nextq s -> exec N M l s = Some s' ->
  pc s' a = QWait na [b] /\ pc s' b = QWait nb [a] /\ a < nextq s' /\ b < nextq s' /\ works a (trace s') = works a (trace s).
Proof.
  intros Ne A B La Lb H.
  assert (Da : isdone s a = false) by (unfold isdone; rewrite A; reflexivity). assert (Db : isdone s b = false) by (unfold isdone; rewrite B; reflexivity).
  assert (W : forall d, works a d = 0 -> works a (trace s ++ d) = works a (trace s)) by (intros d D; rewrite works_app, D; lia).
  destruct l as [k| |y|y|y|y|y|y|y|y|p w|p w|p w|p]; cbn [exec] in H.
  - res H. proj. auto.
  - destruct (freed s); [discriminate|]. res H. unfold dispatch. destruct (best _ _ _) as [x|]; [destruct (_ && _)|]; proj; rewrite ?fupd_ne by lia; rewrite <- ?app_assoc; repeat split; auto; try lia; apply W; reflexivity.
  - assert (y <> a) by (intros ->; rewrite A in H; discriminate H). assert (y <> b) by (intros ->; rewrite B in H; discriminate H).
    brk H; res H; proj; rewrite ?fupd_ne by congruence; repeat split; auto; apply W; rewrite works_1; destruct (Nat.eqb_spec y a); congruence.
  - assert (y <> a) by (intros ->; rewrite A in H; discriminate H). assert (y <> b) by (intros ->; rewrite B in H; discriminate H).
    brk H; res H; proj; rewrite ?fupd_ne by congruence; repeat split; auto; apply W; rewrite works_1; destruct (Nat.eqb_spec y a); congruence.
  - assert (y <> a) by (intros ->; rewrite A in H; discriminate H). assert (y <> b) by (intros ->; rewrite B in H; discriminate H).
    brk H; res H; proj; rewrite ?fupd_ne by congruence; repeat split; auto.
  - assert (y <> a) by (intros ->; rewrite A in H; discriminate H). assert (y <> b) by (intros ->; rewrite B in H; discriminate H).
    destruct (pc s y); try discriminate H. destruct M; [|discriminate H]. destruct (expire s y <=? now)%Z; [|discriminate H]. res H. proj. rewrite ?fupd_ne by congruence; repeat split; auto; apply W; rewrite works_1; reflexivity.
  - assert (y <> a) by (intros ->; rewrite A in H; discriminate H). assert (y <> b) by (intros ->; rewrite B in H; discriminate H).
    brk H; res H; proj; rewrite ?fupd_ne by congruence; repeat split; auto; apply W; apply works_remove.
  - assert (y <> a) by (intros ->; rewrite A in H; cbn in H; rewrite Db in H; discriminate H). assert (y <> b) by (intros ->; rewrite B in H; cbn in H; rewrite Da in H; discriminate H).
    brk H; res H; proj; rewrite ?fupd_ne by congruence; repeat split; auto.
  - assert (y <> a) by (intros ->; rewrite A in H; discriminate H). assert (y <> b) by (intros ->; rewrite B in H; discriminate H).
    destruct (pc s y); try discriminate H. match type of H with (if ?x then _ else _) = _ => destruct x end; [discriminate H|]. res H. proj. rewrite ?fupd_ne by congruence; repeat split; auto.
  - assert (y <> a) by (intros ->; rewrite A in H; discriminate H). assert (y <> b) by (intros ->; rewrite B in H; discriminate H).
    brk H; res H; proj; rewrite ?fupd_ne by congruence; repeat split; auto; apply W; rewrite works_1; reflexivity.
  - brk H; res H; unfold called; destruct w; proj; repeat split; auto; apply W, works_remove.
  - brk H; res H; unfold called; destruct w; proj; repeat split; auto; apply W, works_remove.
  - brk H; res H; unfold called; destruct w; proj; repeat split; auto; apply W, works_remove.
  - brk H; res H; proj; repeat split; auto; apply W; rewrite works_1; reflexivity.
Qed.
Lemma stuck_run N M a b na nb : a <> b -> forall ls s s', pc s a = QWait na [b] -> pc s b = QWait nb [a] -> a < nextq s -> b < nextq s -> run N M ls s = Some s' ->
  pc s' a = QWait na [b] /\ pc s' b = QWait nb [a] /\ works a (trace s') = works a (trace s).
Proof.
  intros Ne. induction ls as [|l ls IH]; intros s s' A B La Lb H; cbn [run] in H; [assert (s' = s) by congruence; subst; auto|].
  destruct (exec N M l s) as [s1|] eqn:E; [|discriminate]. destruct (stuck_step _ _ _ _ _ _ _ _ _ Ne A B La Lb E) as [A1 [B1 [C1 [D1 E1]]]].
  destruct (IH _ _ A1 B1 C1 D1 H) as [X [Y Z0]]. rewrite Z0, E1. auto.
Qed.
(** Both queues wait for each other for ever: neither ends, and the second function that queue 0 accepted never begins (works counts one begin and one end, of the first). *)
Theorem C72_deadlock_refuted : exists s, run 2 (Some 5) embrace init = Some s /\ accepts 0 (trace s) = 2 /\
  forall ls s', run 2 (Some 5) ls s = Some s' -> works 0 (trace s') = 2 /\ isdone s' 0 = false /\ isdone s' 1 = false.
Proof.
  exists (end_of 2 (Some 5) embrace). split; [apply end_run; vm_compute; reflexivity|]. split; [vm_compute; reflexivity|]. intros ls s' H.
  destruct (stuck_run 2 (Some 5) 0 1 6000 12000 ltac:(discriminate) ls (end_of 2 (Some 5) embrace) s') as [A [B C]]; [vm_compute; reflexivity|vm_compute; reflexivity|vm_compute; lia|vm_compute; lia|exact H|].
  rewrite C. unfold isdone. rewrite A, B. split; [vm_compute; reflexivity|auto].
Qed.
Print Assumptions C72_deadlock_refuted.

(** In a pool of one queue a queue waits only for queues created after it, so that no circle can arise; without a limit no queue waits for another at all. *)
Lemma one_step N s M : N <= 1 -> reach N M s -> (entries s = [] \/ exists n, nextq s = S n /\ entries s = [n]) /\ (forall q now ws, pc s q = QWait now ws -> forall x, In x ws -> q < x).
Proof.
  intros N1. induction 1 as [|s l s' R [I1 I2] H]; [split; [left; reflexivity|discriminate]|]. pose proof (reach_live _ _ _ R) as [L1 L2].
  assert (L0 : lastone (entries s) = [] /\ others (entries s) = entries s) by (destruct I1 as [->|[n [_ ->]]]; split; reflexivity). destruct L0 as [L3 L4]. split.
  - destruct l as [k| |y|y|y|y|y|y|y|y|p w|p w|p w|p]; cbn [exec] in H.
    all: try (brk H; res H; unfold called; repeat match goal with |- context [if ?b then _ else _] => destruct b end; proj; rewrite ?L4; auto; fail).
    + destruct (freed s); [discriminate|]. res H. unfold dispatch. destruct I1 as [I1|[n [I1 I3]]].
      * rewrite I1. cbn [best]. right. exists (nextq s). proj. rewrite I1. auto.
      * rewrite I3. cbn [best length]. replace (1 <? N) with false by (symmetry; apply Nat.ltb_ge; lia). rewrite andb_false_r. right. exists n. proj. auto.
  - intros q now ws P x X. destruct l as [k| |y|y|y|y|y|y|y|y|p w|p w|p w|p]; cbn [exec] in H.
    all: try (brk H; res H; unfold called in *; repeat match goal with X : context [pc (if ?b then _ else _)] |- _ => destruct b end; proj; unfold fupd in P; try (destruct (q =? y)); try discriminate P; try (eapply I2; eassumption); fail).
    + destruct (freed s); [discriminate|]. res H. unfold dispatch in P. destruct (best _ _ _) as [b|]; [destruct (_ && _)|]; proj; unfold fupd in P; try (destruct (q =? nextq s)); try discriminate P; eapply I2; eassumption.
    + destruct (pc s y) eqn:Py; try discriminate H; res H; proj; unfold fupd in P; destruct (Nat.eqb_spec q y) as [->|]; try (eapply I2; eassumption).
      * rewrite L3 in P. cbn in P. assert (ws = []) by congruence. subst ws. contradiction.
      * assert (ws = filter (fun x => negb (x =? y)) (entries s)) by congruence. subst ws. apply filter_In in X. destruct X as [X1 X2].
        destruct I1 as [I1|[n [I1 I3]]]; [rewrite I1 in X1; contradiction|]. rewrite I3 in X1. destruct X1 as [<-|[]].
        assert (Hy : y < nextq s) by (destruct (le_lt_dec (nextq s) y) as [Y|Y]; [rewrite L1 in Py by exact Y; discriminate Py|exact Y]).
        destruct (Nat.eqb_spec n y) as [->|]; [discriminate X2|lia].
Qed.
Theorem C72_no_circle_partial N M s : reachable N M s -> (N <= 1 -> forall q now ws, pc s q = QWait now ws -> forall x, In x ws -> q < x) /\ (M = None -> forall q now ws, pc s q <> QWait now ws).
Proof.
  intros R. apply reachable_reach in R. split; [intros N1; exact (proj2 (one_step _ _ _ N1 R))|]. intros ->. 
  assert (K : forall q, match pc s q with QShrink _ | QAll _ | QWait _ _ => False | _ => True end).
  { induction R as [|s l s' R IH H]; [cbn; auto|]. intros q. specialize (IH q). pose proof (reach_inv _ _ _ R) as I.
    destruct (exec_move _ _ _ _ _ (v_live _ _ I) H q) as [d P1 P2 P3 P4 P5 P6 P7 P8 P9 P10 P11 P12 P13|d P1 P2 P3 P4 P5 P6 P7 P8 P9 P10 P11|d n P1 P2 P3 P4 P5 P6 P7 P8 P9 PC P10|now m k P1 PC P2 P3 P4 P5 P6 P7 P8 P9 P10 P11 P12 P13].
    - rewrite P1. exact IH.
    - rewrite P2. exact Logic.I.
    - destruct (pc s q); try contradiction; destruct (pc s' q); try contradiction; exact Logic.I.
    - discriminate P2. }
  intros q now ws P. specialize (K q). rewrite P in K. exact K.
Qed.
Print Assumptions C72_no_circle_partial.

(** ** Destroying the pool. *)
Definition phase_ok (s : st) : Prop := forall q, match pc s q with QShrink _ | QAll _ | QWait _ _ => False | _ => True end.
Definition held (s : st) (q : nat) : Prop := pc s q = QDone \/ exists p ws f, upcs s p = UWait ws f /\ In q ws.
Record dinv (s : st) : Prop := {
  d_pc : phase_ok s;
  d_held : forall q, q < nextq s -> In q (entries s) \/ held s q;
  d_busy : forall p ws, upcs s p = UWait ws true -> entries s = [] /\ forall q, q < nextq s -> pc s q = QDone \/ In q ws;
  d_freed : freed s = true -> entries s = [] /\ (forall q, q < nextq s -> pc s q = QDone) /\ quiet s;
  d_one : forall p p' ws ws', upcs s p = UWait ws true -> upcs s p' = UWait ws' true -> p = p';
  d_uaf : uaf s = false
}.
Lemma lastone_others l q : In q l -> In q (others l) \/ In q (lastone l).
Proof.
  unfold others, lastone. destruct (Nat.ltb_spec 1 (length l)) as [H|H]; intros X; [|left; exact X].
  destruct l as [|x l]; cbn in H; [lia|]. rewrite (app_removelast_last 0 (l := x :: l)) in X by discriminate. apply in_app_iff in X. exact X.
Qed.
Lemma dinv_q N l s s' : live s -> dinv s -> exec N None l s = Some s' -> entries s' = entries s -> nextq s' = nextq s -> upcs s' = upcs s -> freed s' = freed s -> uaf s' = (uaf s || match l with LFini _ => freed s | _ => false end) -> (forall q, pc s q = QDone -> pc s' q = QDone) ->
  (match l with LFini q => pc s q <> QDone | _ => True end) -> dinv s'.
Proof.
  intros L D H E1 E2 E3 E4 E5 E6 E7.
  assert (Fl : freed s = true -> match l with LFini _ => False | _ => True end).
  { intros F. destruct l; auto. destruct (d_freed _ D F) as [_ [X _]]. destruct (le_lt_dec (nextq s) q) as [Y|Y]; [apply E7; apply (proj1 L); exact Y|apply E7, X; exact Y]. }
  constructor.
  - intros q. pose proof (d_pc _ D q) as IH.
    destruct (exec_move _ _ _ _ _ L H q) as [d P1 P2 P3 P4 P5 P6 P7 P8 P9 P10 P11 P12 P13|d P1 P2 P3 P4 P5 P6 P7 P8 P9 P10 P11|d n P1 P2 P3 P4 P5 P6 P7 P8 P9 PC P10|now m k P1 PC P2 P3 P4 P5 P6 P7 P8 P9 P10 P11 P12 P13].
    + rewrite P1. exact IH.
    + rewrite P2. exact Logic.I.
    + destruct (pc s q); try contradiction; destruct (pc s' q); try contradiction; exact Logic.I.
    + discriminate P2.
  - intros q Q. rewrite E2 in Q. rewrite E1. destruct (d_held _ D q Q) as [A|[A|[p [ws [f [A B]]]]]]; [left; exact A|right; left; auto|right; right; exists p, ws, f; rewrite E3; auto].
  - intros p ws U. rewrite E3 in U. rewrite E1, E2. destruct (d_busy _ D p ws U) as [A B]. split; [exact A|]. intros q Q. destruct (B q Q); auto.
  - intros F. rewrite E4 in F. rewrite E1, E2. destruct (d_freed _ D F) as [A [B C]]. split; [exact A|]. split; [auto|]. unfold quiet. rewrite E3. exact C.
  - intros p p' ws ws'. rewrite E3. apply (d_one _ D).
  - rewrite E5, (d_uaf _ D). destruct (freed s) eqn:F; [|destruct l; reflexivity]. specialize (Fl eq_refl). destruct l; try reflexivity. contradiction.
Qed.
Lemma dinv_call s p ws f keep : live s -> dinv s -> upcs s p = UIdle -> freed s = false -> quiet s -> (forall q, In q (entries s) -> In q keep \/ In q ws) -> (forall q, In q keep -> In q (entries s)) ->
  (f = true -> keep = [] /\ ws = entries s /\ forall x, upcs s x = UIdle) -> dinv (called (remove s None keep ws) p true ws f).
Proof.
  intros L D U F Q K1 K2 Kf. unfold called. constructor; proj.
  - intros q. exact (d_pc _ D q).
  - intros q Hq. destruct (d_held _ D q Hq) as [A|[A|[p0 [ws0 [f0 [A B]]]]]]; [|right; left; exact A|].
    + destruct (K1 q A) as [A1|A1]; [left; exact A1|]. right. right. exists p, ws, f. proj. rewrite fupd_eq. auto.
    + right. right. exists p0, ws0, f0. proj. rewrite fupd_ne by (intros ->; congruence). auto.
  - intros p0 ws0. unfold fupd. destruct (Nat.eqb_spec p0 p) as [->|]; [|intros X; elim (Q _ _ X)]. intros X. assert (ws0 = ws /\ f = true) by (split; congruence). destruct H as [-> Ft].
    destruct (Kf Ft) as [-> [-> K3]]. split; [reflexivity|]. intros q Hq. destruct (d_held _ D q Hq) as [A|[A|[p0 [ws0 [f0 [A B]]]]]]; auto. rewrite K3 in A. discriminate A.
  - rewrite F. discriminate.
  - intros p0 p1 ws0 ws1. unfold fupd. destruct (Nat.eqb_spec p0 p) as [->|]; [|intros X; elim (Q _ _ X)]. destruct (Nat.eqb_spec p1 p) as [->|]; [reflexivity|intros _ X; elim (Q _ _ X)].
  - exact (d_uaf _ D).
Qed.
Lemma orderly_dinv N s : orderly N None s -> reach N None s /\ dinv s.
Proof.
  induction 1 as [|s l s' O [R D] H G].
  - split; [apply r_init|]. constructor; cbn; try (intros; lia); try discriminate; try reflexivity. intros q. exact Logic.I.
  - split; [eapply r_step; eassumption|]. pose proof (reach_live _ _ _ R) as L. assert (H' := H).
    destruct l as [k| |y|y|y|y|y|y|y|y|p w|p w|p w|p]; cbn [exec] in H.
    + eapply (dinv_q N (LTick k)); eauto; res H; proj; auto. rewrite orb_false_r. reflexivity.
    + destruct (freed s) eqn:F; [discriminate|]. assert (New : dinv (accept (create s) (nextq s))).
      { constructor; proj.
        - intros q. proj. unfold fupd. destruct (q =? nextq s); [exact Logic.I|exact (d_pc _ D q)].
        - intros q Hq. destruct (Nat.eq_dec q (nextq s)) as [->|n]; [left; apply in_app_iff; right; left; reflexivity|].
          destruct (d_held _ D q ltac:(lia)) as [A|[A|[p0 [ws0 [f0 [A B]]]]]]; [left; apply in_app_iff; left; exact A|right; left; proj; rewrite fupd_ne by assumption; exact A|right; right; exists p0, ws0, f0; auto].
        - intros p ws U. elim (G _ _ U).
        - rewrite F. discriminate.
        - exact (d_one _ D).
        - exact (d_uaf _ D). }
      res H. unfold dispatch in *. destruct (best _ _ _) as [b|] eqn:B; [destruct (_ && _)|]; try exact New.
      eapply (dinv_q N LDispatch); eauto; proj; auto. rewrite orb_false_r. reflexivity.
    + eapply (dinv_q N (LBegin y)); eauto; brk H; res H; proj; auto; try (rewrite orb_false_r; reflexivity); intros q X; unfold fupd; destruct (Nat.eqb_spec q y); congruence.
    + eapply (dinv_q N (LEnd y)); eauto; brk H; res H; proj; auto; try (rewrite orb_false_r; reflexivity); intros q X; unfold fupd; destruct (Nat.eqb_spec q y); congruence.
    + eapply (dinv_q N (LTimers y)); eauto; brk H; res H; proj; auto; try (rewrite orb_false_r; reflexivity); intros q X; unfold fupd; destruct (Nat.eqb_spec q y); congruence.
    + destruct (pc s y); discriminate H.
    + pose proof (d_pc _ D y) as X. destruct (pc s y); try discriminate H; contradiction.
    + pose proof (d_pc _ D y) as X. destruct (pc s y); try discriminate H; contradiction.
    + eapply (dinv_q N (LLoop y)); eauto; destruct (pc s y) eqn:P; try discriminate H; res H; proj; auto; try (rewrite orb_false_r; reflexivity); intros q X; unfold fupd; destruct (Nat.eqb_spec q y); congruence.
    + eapply (dinv_q N (LFini y)); eauto; brk H; res H; proj; auto; try congruence; intros q X; unfold fupd; destruct (Nat.eqb_spec q y); congruence.
    + destruct G as [-> G]. destruct (upcs s p) eqn:U; [|discriminate]. destruct (freed s) eqn:F; [discriminate|]. res H. apply dinv_call; auto; [apply lastone_others|apply others_in|discriminate].
    + destruct G as [-> G]. destruct (upcs s p) eqn:U; [|discriminate]. destruct (freed s) eqn:F; [discriminate|]. res H. apply dinv_call; auto; [intros q []|discriminate].
    + destruct G as [-> G]. destruct (upcs s p) eqn:U; [|discriminate]. destruct (freed s) eqn:F; [discriminate|]. res H. apply dinv_call; auto; [intros x ws; rewrite G; discriminate|intros q []].
    + destruct (upcs s p) as [|ws f] eqn:U; [discriminate|]. destruct (forallb (isdone s) ws) eqn:Dn; [|discriminate]. rewrite forallb_forall in Dn.
      assert (Dq : forall q, In q ws -> pc s q = QDone) by (intros q X; specialize (Dn q X); unfold isdone in Dn; destruct (pc s q); congruence).
      assert (Hd : forall q, held s q -> pc s q = QDone \/ exists p0 ws0 f0, p0 <> p /\ upcs s p0 = UWait ws0 f0 /\ In q ws0).
      { intros q [A|[p0 [ws0 [f0 [A B]]]]]; [left; exact A|]. destruct (Nat.eq_dec p0 p) as [->|n]; [left; apply Dq; congruence|right; eauto 6]. }
      res H. constructor.
      * intros q. destruct f; proj; exact (d_pc _ D q).
      * intros q Hq. assert (Hq' : q < nextq s) by (destruct f; exact Hq). destruct (d_held _ D q Hq') as [A|A]; [left; destruct f; exact A|]. right. apply Hd in A. destruct A as [A|[p0 [ws0 [f0 [A1 [A2 A3]]]]]]; [left; destruct f; exact A|].
        right. exists p0, ws0, f0. destruct f; proj; rewrite fupd_ne by exact A1; auto.
      * intros p0 ws0 U0. assert (U1 : upcs s p0 = UWait ws0 true) by (destruct f; proj; unfold fupd in U0; destruct (Nat.eqb_spec p0 p); congruence). destruct f; exact (d_busy _ D _ _ U1).
      * destruct f; proj.
        -- intros _. destruct (d_busy _ D _ _ U) as [A B]. assert (AllD : forall q, q < nextq s -> pc s q = QDone) by (intros q Hq; destruct (B q Hq); auto). split; [exact A|]. split; [exact AllD|].
           intros x wx. proj. unfold fupd. destruct (Nat.eqb_spec x p) as [->|n]; [discriminate|]. intros X. elim n. exact (d_one _ D _ _ _ _ X U).
        -- intros F. destruct (d_freed _ D F) as [A [B C]]. split; [exact A|]. split; [exact B|]. intros x wx. proj. unfold fupd. destruct (x =? p); [discriminate|apply C].
      * intros p0 p1 ws0 ws1 U0 U1. apply (d_one _ D p0 p1 ws0 ws1); destruct f; proj; unfold fupd in U0, U1; destruct (Nat.eqb_spec p0 p); destruct (Nat.eqb_spec p1 p); congruence.
      * destruct f; exact (d_uaf _ D).
Qed.

(** Without an idle limit, if every call waits and the pool is not used while or after it is destroyed, its memory is never used after it was released. *)
Theorem C72_destroy_partial N s : orderly N None s -> uaf s = false /\ (freed s = true -> forall q, q < nextq s -> In (EDone q) (trace s)).
Proof.
  intros O. destruct (orderly_dinv _ _ O) as [R D]. split; [apply D|]. intros F q Q. destruct (wait_step _ _ _ R) as [W _]. apply W; [exact Q|]. apply (d_freed _ D F). exact Q.
Qed.
Print Assumptions C72_destroy_partial.

(** With an idle limit: queue 0, idle for long enough, has just taken itself out of the pool (and does not wait for itself); a call that destroys the pool, with wait, has nothing to wait for and releases the memory; the queue then ends and uses it.  Every call waits and is alone. *)
Definition self_removed : list label :=
  [LDispatch; LTimers 0; LLoop 0; LBegin 0; LEnd 0; LTick 1000; LTimers 0; LFire 0; LLoop 0; LTimers 0; LLoop 0; LTick 1000; LTimers 0; LFire 0; LAct 0; LWaited 0; LLoop 0; LTimers 0; LLoop 0; LTick 1000; LTimers 0; LFire 0; LAct 0; LWaited 0;
   LDestroy 9 true; LReturn 9; LLoop 0; LFini 0].
(** Without a limit, but without waiting: the queue is still executing when the memory is released. *)
Definition not_waited : list label := [LDispatch; LTimers 0; LLoop 0; LBegin 0; LDestroy 9 false; LEnd 0; LTimers 0; LLoop 0; LFini 0].
Lemma orderly_run N M ls : forall s s', orderly N M s -> run N M ls s = Some s' ->
  (forall a l b z, ls = a ++ l :: b -> run N M a s = Some z -> match l with LDispatch => quiet z | LShrink _ w | LAll _ w => w = true /\ quiet z | LDestroy _ w => w = true /\ forall x, upcs z x = UIdle | _ => True end) -> orderly N M s'.
Proof.
  induction ls as [|l ls IH]; intros s s' O H G; cbn [run] in H; [congruence|]. destruct (exec N M l s) as [s1|] eqn:E; [|discriminate].
  apply (IH s1 s'); [|exact H|].
  - eapply o_step; [exact O|exact E|]. exact (G [] l ls s eq_refl eq_refl).
  - intros a l0 b z A B. apply (G (l :: a) l0 b z); [cbn; congruence|]. cbn [run]. rewrite E. exact B.
Qed.
(** A readable version of the side condition, for schedules in which thread 9 is the only one to call. *)
Definition calm (l : label) (s : st) : bool :=
  match l with
  | LDispatch => match upcs s 9 with UWait _ true => false | _ => true end
  | LShrink p w | LAll p w => (p =? 9) && w && match upcs s 9 with UWait _ true => false | _ => true end
  | LDestroy p w => (p =? 9) && w && match upcs s 9 with UIdle => true | _ => false end
  | LReturn p => p =? 9
  | _ => true end.
Fixpoint calm_run (N : nat) (M : option nat) (ls : list label) (s : st) : bool := match ls with [] => true | l :: r => calm l s && match exec N M l s with Some s => calm_run N M r s | None => true end end.
Lemma only9 N M l s s' : exec N M l s = Some s' -> calm l s = true -> (forall x, x <> 9 -> upcs s x = UIdle) -> forall x, x <> 9 -> upcs s' x = UIdle.
Proof.
  intros H C I x X. destruct l as [k| |y|y|y|y|y|y|y|y|p w|p w|p w|p]; cbn [exec] in H; cbn [calm] in C.
  all: try (brk H; res H; proj; auto; fail).
  - destruct (freed s); [discriminate|]. res H. unfold dispatch. destruct (best _ _ _) as [b|]; [destruct (_ && _)|]; proj; auto.
  - apply andb_prop in C. destruct C as [C _]. apply andb_prop in C. destruct C as [C _]. apply Nat.eqb_eq in C. subst p. brk H; res H; unfold called; destruct w; proj; rewrite ?fupd_ne by exact X; auto.
  - apply andb_prop in C. destruct C as [C _]. apply andb_prop in C. destruct C as [C _]. apply Nat.eqb_eq in C. subst p. brk H; res H; unfold called; destruct w; proj; rewrite ?fupd_ne by exact X; auto.
  - apply andb_prop in C. destruct C as [C _]. apply andb_prop in C. destruct C as [C _]. apply Nat.eqb_eq in C. subst p. brk H; res H; unfold called; destruct w; proj; rewrite ?fupd_ne by exact X; auto.
  - apply Nat.eqb_eq in C. subst p. brk H; res H; proj; rewrite ?fupd_ne by exact X; auto.
Qed.
Lemma calm_orderly N M ls : forall s s', orderly N M s -> (forall x, x <> 9 -> upcs s x = UIdle) -> calm_run N M ls s = true -> run N M ls s = Some s' -> orderly N M s'.
Proof.
  induction ls as [|l ls IH]; intros s s' O I C H; cbn [run] in H; [congruence|]. cbn [calm_run] in C. apply andb_prop in C. destruct C as [C1 C2]. destruct (exec N M l s) as [s1|] eqn:E; [|discriminate].
  apply (IH s1 s'); [|exact (only9 _ _ _ _ _ E C1 I)|exact C2|exact H]. eapply o_step; [exact O|exact E|].
  assert (Q : match upcs s 9 with UWait _ true => false | _ => true end = true -> quiet s).
  { intros X x ws U. destruct (Nat.eq_dec x 9) as [->|n]; [rewrite U in X; discriminate X|]. rewrite (I x n) in U. discriminate U. }
  destruct l; try exact Logic.I; cbn [calm] in C1.
  - apply Q. exact C1.
  - apply andb_prop in C1. destruct C1 as [C1 C3]. apply andb_prop in C1. split; [apply C1|apply Q; exact C3].
  - apply andb_prop in C1. destruct C1 as [C1 C3]. apply andb_prop in C1. split; [apply C1|apply Q; exact C3].
  - apply andb_prop in C1. destruct C1 as [C1 C3]. apply andb_prop in C1. split; [apply C1|]. intros x. destruct (Nat.eq_dec x 9) as [->|n]; [destruct (upcs s 9); [reflexivity|discriminate C3]|apply I; exact n].
Qed.
Theorem C72_destroy_refuted :
  (exists s, orderly 1 (Some 1) s /\ uaf s = true) /\ (exists s, run 2 None not_waited init = Some s /\ uaf s = true).
Proof.
  split.
  - exists (end_of 1 (Some 1) self_removed). split; [|vm_compute; reflexivity]. eapply (calm_orderly 1 (Some 1) self_removed init); [apply o_init|reflexivity|vm_compute; reflexivity|apply end_run; vm_compute; reflexivity].
  - exists (end_of 2 None not_waited). split; [apply end_run; vm_compute; reflexivity|vm_compute; reflexivity].
Qed.
Print Assumptions C72_destroy_refuted.

(** ** Examples. *)
(** Two queues; queue 0 does a short function, queue 1 too; after one second of idleness queue 0 (limit 1) takes out queue 1 and waits until it has ended; the pool keeps queue 0.  The theorems above apply to this run. *)
Definition ordinary : list label :=
  [LDispatch; LDispatch; LTimers 0; LLoop 0; LBegin 0; LEnd 0; LTimers 1; LLoop 1; LBegin 1; LEnd 1; LTick 1000; LTimers 0; LFire 0; LLoop 0; LTick 1000; LTimers 0; LFire 0; LAct 0;
   LTimers 1; LFire 1; LFire 1; LAct 1; LWaited 1; LLoop 1; LFini 1; LWaited 0; LLoop 0].
Example ordinary_run : exists s, run 2 (Some 1) ordinary init = Some s /\ entries s = [0] /\ In (ERemove (Some 0) 1 2000) (trace s) /\ In (EDone 1) (trace s) /\ idle s 0 = 1 /\ uaf s = false.
Proof. exists (end_of 2 (Some 1) ordinary). split; [apply end_run; vm_compute; reflexivity|]. vm_compute. repeat split; auto 20. Qed.
(** A queue that is left alone for three checks with the limit 1 is out of the pool: the hypotheses of C72_goes_away. *)
Definition alone : list label :=
  [LDispatch; LTimers 0; LLoop 0; LBegin 0; LEnd 0; LTick 1000; LTimers 0; LFire 0; LLoop 0; LTimers 0; LLoop 0; LTick 1000; LTimers 0; LFire 0; LAct 0; LWaited 0; LLoop 0; LTimers 0; LLoop 0; LTick 1000; LTimers 0; LFire 0].
Example alone_run : exists s a b, run 1 (Some 1) alone init = Some s /\ trace s = a ++ b /\ works 0 b = 0 /\ accepts 0 b = 0 /\ cnt s 0 = 0 /\ 2 < checks 0 b /\ pc s 0 = QAll 3000.
Proof.
  exists (end_of 1 (Some 1) alone), [ECreate 0 0; EAccept 0; EBegin 0; EEnd 0 0], [ECheck 0 1000 0; ECheck 0 2000 0; ECheck 0 3000 0]. split; [apply end_run; vm_compute; reflexivity|].
  vm_compute. repeat split; auto.
Qed.
(** An orderly run that destroys a pool without limit while its queue works: it returns after the queue has ended. *)
Definition tidy : list label := [LDispatch; LTimers 0; LLoop 0; LBegin 0; LDestroy 9 true; LEnd 0; LTimers 0; LLoop 0; LFini 0; LReturn 9].
Example tidy_run : exists s, orderly 2 None s /\ freed s = true /\ nextq s = 1 /\ In (ERet 9 [0]) (trace s).
Proof.
  exists (end_of 2 None tidy). split; [|vm_compute; auto 20]. eapply (calm_orderly 2 None tidy init); [apply o_init|reflexivity|vm_compute; reflexivity|apply end_run; vm_compute; reflexivity].
Qed.
(** In the run above queue 1 accepted one function and ended: the hypotheses of C72_executed. *)
Example executed_run : exists s, reachable 2 (Some 1) s /\ In (EDone 1) (trace s) /\ accepts 1 (trace s) = 1 /\ works 1 (trace s) = 2.
Proof. exists (end_of 2 (Some 1) ordinary). split; [exists ordinary; apply end_run; vm_compute; reflexivity|]. vm_compute. auto 20. Qed.
