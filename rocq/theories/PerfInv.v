(** * Invariants of the model of the performance callback (Perf.v). *)
From Verif Require Import Base Perf PerfSpec.

Definition good (e : event) (l : list event) : Prop :=
  match e with
  | ESet _ _ => forall q, lives l q = false
  | ERet p c true => stored p c l
  | ERet p c false => refused p c l
  | EBegin q i t => reports l (num i) = [] /\ lives l q = true /\ 0 <= qts i <= t /\ (forall q' i' t', In (EBegin q' i' t') l -> num i' <> num i)
  | ERan q n t => reports l n = [] /\ lives l q = true /\ exists i t0, num i = n /\ In (EBegin q i t0) l /\ t0 <= t
  | EReport q n c nm fo w e => c = installed l /\ c <> 0%nat /\ lives l q = true /\ reports l n = [] /\
      exists i t0 t1, num i = n /\ name i = nm /\ fonly i = fo /\ In (EBegin q i t0) l /\ In (ERan q n t1) l /\ t0 <= t1 /\ w = u32 (- (1000 * qts i)) /\ e = 0
  | EEnd q n => lives l q = true /\ reports l n = (if Nat.eqb (installed l) 0 then [] else [installed l]) /\ exists i t0 t1, num i = n /\ In (EBegin q i t0) l /\ In (ERan q n t1) l
  | _ => True
  end.
Fixpoint allok (l : list event) : Prop := match l with [] => True | e :: l => good e l /\ allok l end.
Lemma allok_at l1 e l2 : allok (l1 ++ e :: l2) -> good e l2.
Proof. induction l1 as [|x l1 IH]; cbn; intuition. Qed.
Lemma begin_one l : allok l -> forall q i t q' i' t', In (EBegin q i t) l -> In (EBegin q' i' t') l -> num i = num i' -> q = q' /\ i = i' /\ t = t'.
Proof.
  induction l as [|e l IH]; cbn; [tauto|]. intros [G A] q i t q' i' t' [-> |H] [E|H'] N.
  - injection E as -> -> ->. auto.
  - cbn in G. destruct G as (_ & _ & _ & F). apply F in H'. congruence.
  - subst e. cbn in G. destruct G as (_ & _ & _ & F). apply F in H. congruence.
  - eapply IH; eauto.
Qed.

Definition finv (f : frame) : inv := match f with FRun i _ | FRan i _ | FCall i _ | FCb i | FOut i => i end.
Definition fnum (f : frame) : nat := num (finv f).
Definition begun (l : list event) (q : nat) (i : inv) (c : Z) : Prop := exists t0, In (EBegin q i t0) l /\ t0 <= c.
Definition ran (l : list event) (q : nat) (i : inv) : Prop := exists t0 t1, In (EBegin q i t0) l /\ In (ERan q (num i) t1) l /\ t0 <= t1.
Definition frok (s : st) (q : nat) (f : frame) : Prop :=
  begun (log s) q (finv f) (clock s) /\
  match f with
  | FRun i t => t = 0 /\ reports (log s) (num i) = []
  | FRan i t => t = 0 /\ reports (log s) (num i) = [] /\ ran (log s) q i
  | FCall i t => t = 0 /\ reports (log s) (num i) = [] /\ ran (log s) q i /\ perf s <> 0%nat
  | FCb i => reports (log s) (num i) = [perf s] /\ ran (log s) q i /\ perf s <> 0%nat
  | FOut i => reports (log s) (num i) = (if Nat.eqb (perf s) 0 then [] else [perf s]) /\ ran (log s) q i
  end.
Definition pending (p c : nat) (l : list event) : Prop := exists b n, l = b ++ ECall p c :: n /\ quiet p b.
Definition pcok (s : st) (p : nat) : Prop :=
  match pc s p with
  | SIdle => True
  | SCall c => pending p c (log s)
  | SLocked c => pending p c (log s) /\ In p (readers s)
  | SZero c => pending p c (log s) /\ In p (readers s) /\ forall q, alive s q = false
  | SOut c ok => (if ok then stored p c (log s) else refused p c (log s)) /\ In p (readers s)
  | SRet c ok => if ok then stored p c (log s) else refused p c (log s)
  end.
Record Inv (s : st) : Prop := {
  i_perf : perf s = installed (log s);
  i_alive : forall q, alive s q = lives (log s) q;
  i_next : forall q, alive s q = true -> (q < nextq s)%nat;
  i_count : count s = Z.of_nat (length (filter (alive s) (seq 0 (nextq s))));
  i_stk : forall q, stk s q <> [] -> alive s q = true;
  i_fr : forall q f, In f (stk s q) -> frok s q f;
  i_nd : forall q, NoDup (map fnum (stk s q));
  i_num : forall q i t, In (EBegin q i t) (log s) -> (num i < nextn s)%nat;
  i_rep : forall n, (nextn s <= n)%nat -> reports (log s) n = [];
  i_pc : forall p, pcok s p;
  i_crash : crashed s = false;
  i_ok : allok (log s) }.

Lemma upd_eq {A} (f : nat -> A) k v : upd f k v k = v.
Proof. unfold upd. rewrite Nat.eqb_refl. reflexivity. Qed.
Lemma upd_neq {A} (f : nat -> A) k v x : x <> k -> upd f k v x = f x.
Proof. unfold upd. intros H. apply Nat.eqb_neq in H. rewrite H. reflexivity. Qed.

Lemma filter_upd_out (f : nat -> bool) k v l : ~ In k l -> filter (upd f k v) l = filter f l.
Proof. induction l as [|x l IH]; cbn; [reflexivity|]. intros H. rewrite IH by tauto. rewrite upd_neq by (intros ->; tauto). reflexivity. Qed.
Lemma filter_upd_off (f : nat -> bool) k l : NoDup l -> In k l -> f k = true -> length (filter f l) = S (length (filter (upd f k false) l)).
Proof.
  induction l as [|x l IH]; intros N H F; [destruct H|]. inversion N as [|? ? N1 N2]; subst. cbn. destruct (Nat.eq_dec x k) as [-> |D].
  - rewrite F, upd_eq. cbn. rewrite filter_upd_out by assumption. reflexivity.
  - destruct H as [H|H]; [congruence|]. rewrite upd_neq by assumption. destruct (f x); cbn; rewrite IH by assumption; reflexivity.
Qed.
Lemma none_alive s : Inv s -> count s = 0 -> forall q, alive s q = false.
Proof.
  intros I E q. destruct (alive s q) eqn:A; [|reflexivity]. pose proof (i_count _ I) as C. rewrite E in C.
  assert (H : In q (filter (alive s) (seq 0 (nextq s)))) by (apply filter_In; split; [apply in_seq; pose proof (i_next _ I q A); lia|exact A]).
  destruct (filter (alive s) (seq 0 (nextq s))); [destruct H|cbn in C; lia].
Qed.
Lemma some_alive s : Inv s -> count s <> 0 -> exists q, alive s q = true.
Proof.
  intros I E. pose proof (i_count _ I) as C. destruct (filter (alive s) (seq 0 (nextq s))) as [|q l] eqn:F; [cbn in C; lia|].
  exists q. assert (H : In q (filter (alive s) (seq 0 (nextq s)))) by (rewrite F; left; reflexivity). apply filter_In in H. tauto.
Qed.

(** Nothing of p happens. *)
Definition other (p : nat) (e : list event) : Prop := quiet p e.
Lemma quiet_app p a b : quiet p a -> quiet p b -> quiet p (a ++ b).
Proof. intros A B c. rewrite !in_app_iff. specialize (A c). specialize (B c). tauto. Qed.
Lemma quiet_nil p : quiet p [].
Proof. intros c. cbn. tauto. Qed.
Lemma pending_ext p c l e : pending p c l -> quiet p e -> pending p c (e ++ l).
Proof. intros (b & n & -> & Q) E. exists (e ++ b), n. split; [apply app_assoc|apply quiet_app; assumption]. Qed.
Lemma stored_ext p c l e : stored p c l -> quiet p e -> stored p c (e ++ l).
Proof. intros (a & b & n & -> & Q & Q') E. exists (e ++ a), b, n. split; [apply app_assoc|]. split; [apply quiet_app|]; assumption. Qed.
Lemma refused_ext p c l e : refused p c l -> quiet p e -> refused p c (e ++ l).
Proof. intros (a & b & n & -> & Q & Q' & L) E. exists (e ++ a), b, n. split; [apply app_assoc|]. split; [apply quiet_app; assumption|]. split; assumption. Qed.

Lemma pcok_ext s s' p e : pcok s p -> pc s' p = pc s p -> log s' = e ++ log s -> quiet p e -> (In p (readers s) -> In p (readers s')) ->
  (In p (readers s) -> (forall q, alive s q = false) -> forall q, alive s' q = false) -> pcok s' p.
Proof.
  unfold pcok. intros K E L Q R A. rewrite E, L. destruct (pc s p) as [|c|c|c|c ok|c ok]; auto.
  - apply pending_ext; assumption.
  - split; [apply pending_ext; tauto|tauto].
  - destruct K as (K1 & K2 & K3). split; [apply pending_ext; assumption|]. split; [tauto|]. apply A; assumption.
  - destruct ok; (split; [apply stored_ext || apply refused_ext|]); tauto.
  - destruct ok; [apply stored_ext|apply refused_ext]; assumption.
Qed.
Lemma frok_ext s s' q f e : frok s q f -> log s' = e ++ log s -> clock s <= clock s' -> perf s' = perf s -> reports (log s') (fnum f) = reports (log s) (fnum f) -> frok s' q f.
Proof.
  unfold frok. intros (B & K) L C P R. rewrite P.
  assert (BB : begun (log s') q (finv f) (clock s')) by (destruct B as (t0 & B1 & B2); exists t0; rewrite L; split; [apply in_or_app; auto|lia]).
  assert (RR : forall i, ran (log s) q i -> ran (log s') q i) by (intros i (t0 & t1 & X & Y & T); exists t0, t1; rewrite L; repeat (split; [apply in_or_app; auto|]); exact T).
  unfold fnum in R. destruct f; cbn [finv] in *; rewrite R; intuition.
Qed.
Lemma installed_app e l : (forall p c, ~ In (ESet p c) e) -> installed (e ++ l) = installed l.
Proof. induction e as [|x e IH]; intros H; cbn [app]; [reflexivity|]. destruct x; cbn [installed]; try (apply IH; intros p0 c0 X; apply (H p0 c0); right; exact X). exfalso. eapply H. left. reflexivity. Qed.

(** A step of a thread in aosl_perf_set_callback. *)
Lemma inv_goto s p x rd e : Inv s -> (forall p', p' <> p -> quiet p' e) ->
  (forall y, In y e -> match y with ECall _ _ | ERet _ _ _ => True | _ => False end) ->
  allok (e ++ log s) -> (forall p', p' <> p -> In p' (readers s) -> In p' rd) -> pcok (goto s p x rd (perf s) e) p -> Inv (goto s p x rd (perf s) e).
Proof.
  intros I Q T A R P.
  assert (X : installed (e ++ log s) = installed (log s) /\ (forall q, lives (e ++ log s) q = lives (log s) q) /\ (forall n, reports (e ++ log s) n = reports (log s) n) /\
    (forall q i t, In (EBegin q i t) (e ++ log s) -> In (EBegin q i t) (log s))).
  { clear - T. induction e as [|y e IH]; cbn [app]; [auto|]. destruct IH as (E1 & E2 & E3 & E4); [intros z Z0; apply T; right; exact Z0|]. specialize (T y (or_introl eq_refl)).
    destruct y; try contradiction; cbn [installed lives reports]; repeat (split; [assumption|]); intros q i t [D|H]; try discriminate; apply E4, H. }
  destruct X as (E1 & E2 & E3 & E4). destruct I. split; cbn [goto clock count perf readers pc nextq alive nextn stk crashed log] in *; auto; try congruence.
  - intros q f F. eapply frok_ext; [apply (i_fr0 q f F)|reflexivity|cbn; lia|reflexivity|]. cbn [goto log]. apply E3.
  - intros q i t H. eapply i_num0, E4, H.
  - intros n N. rewrite E3. auto.
  - intros p'. destruct (Nat.eq_dec p' p) as [-> |D]; [exact P|]. eapply pcok_ext; [apply (i_pc0 p')|cbn [goto pc]; apply upd_neq; exact D|reflexivity|apply Q, D|cbn [goto readers]; auto|cbn [goto alive]; auto].
Qed.
(** A step of a queue in q_invoke_f: the innermost execution moves on, or a new one begins, or it ends. *)
Lemma inv_push s q l n e : Inv s -> alive s q = true -> (nextn s <= n)%nat ->
  (forall y, In y e -> match y with EBegin _ i _ => (nextn s <= num i < n)%nat | ERan _ _ _ | EEnd _ _ => True | EReport _ m _ _ _ _ _ => (m < nextn s)%nat | _ => False end) ->
  allok (e ++ log s) -> NoDup (map fnum l) ->
  (forall f, In f l -> In f (stk s q) \/ frok (push s q l n false e) q f) ->
  (forall q' f, In f (stk s q') -> (q' = q -> In f l) -> frok (push s q l n false e) q f \/ reports (e ++ log s) (fnum f) = reports (log s) (fnum f)) ->
  Inv (push s q l n (crashed s) e).
Proof.
  intros I AL LE T A ND F O. rewrite (i_crash _ I).
  assert (X : installed (e ++ log s) = installed (log s) /\ (forall q, lives (e ++ log s) q = lives (log s) q) /\ (forall m, (n <= m)%nat -> reports (e ++ log s) m = reports (log s) m) /\
    (forall q i t, In (EBegin q i t) (e ++ log s) -> In (EBegin q i t) (log s) \/ (num i < n)%nat) /\ forall p, quiet p e).
  { clear - T LE. induction e as [|y e IH]; cbn [app]; [do 4 (split; [auto|]); intros p c; cbn; tauto|]. destruct IH as (E1 & E2 & E3 & E4 & E5); [intros z Z0; apply T; right; exact Z0|]. specialize (T y (or_introl eq_refl)).
    destruct y; try contradiction; cbn [installed lives reports]; (split; [assumption|]); (split; [assumption|]); (split; [|split]);
      try (intros p1 c1; cbn; destruct (E5 p1 c1); intuition discriminate); try (intros x j t [D|H]; [injection D as <- <- <-; right; lia|apply E4 in H; tauto]); try (intros x j t [D|H]; [discriminate|apply E4 in H; tauto]); auto.
    intros m M. destruct (Nat.eqb_spec n0 m); [lia|auto]. }
  destruct X as (E1 & E2 & E3 & E4 & E5). pose proof I as I'. destruct I. split; cbn [push clock count perf readers pc nextq alive nextn stk crashed log] in *; auto; try congruence.
  - intros x H. destruct (Nat.eq_dec x q) as [-> |D]; [exact AL|]. rewrite upd_neq in H by exact D. auto.
  - intros x f H. destruct (Nat.eq_dec x q) as [-> |D].
    + rewrite upd_eq in H. destruct (F f H) as [B|B]; [|exact B]. destruct (O q f B (fun _ => H)) as [K|K]; [exact K|]. eapply frok_ext; [apply (i_fr0 q f B)|reflexivity|cbn; lia|reflexivity|exact K].
    + rewrite upd_neq in H by exact D. destruct (O x f H (fun Y => False_ind _ (D Y))) as [K|K].
      * exfalso. destruct K as ((t0 & B1 & _) & _). destruct (i_fr0 x f H) as ((t1 & B2 & _) & _).
        cbn [push log] in B1. apply D. eapply (begin_one (e ++ log s) A x (finv f) t1 q (finv f) t0); [apply in_or_app; auto|exact B1|reflexivity].
      * eapply frok_ext; [apply (i_fr0 x f H)|reflexivity|cbn; lia|reflexivity|exact K].
  - intros x. destruct (Nat.eq_dec x q) as [-> |D]; [rewrite upd_eq; exact ND|rewrite upd_neq by exact D; auto].
  - intros x i t H. apply E4 in H. destruct H as [H|H]; [apply i_num0 in H; lia|exact H].
  - intros m M. rewrite E3 by exact M. apply i_rep0. lia.
  - intros p. eapply pcok_ext; [apply (i_pc0 p)|reflexivity|reflexivity|apply E5|auto|auto].
Qed.
Lemma other_num s q f0 r : Inv s -> stk s q = f0 :: r -> forall q' f, In f (stk s q') -> (q' = q -> In f r) -> fnum f <> fnum f0.
Proof.
  intros I E q' f F D N. assert (B0 : frok s q f0) by (apply (i_fr _ I); rewrite E; left; reflexivity). pose proof (i_fr _ I q' f F) as B. destruct B0 as ((t0 & B0 & _) & _). destruct B as ((t1 & B1 & _) & _).
  destruct (begin_one _ (i_ok _ I) _ _ _ _ _ _ B0 B1) as (X & _); [unfold fnum in N; congruence|]. specialize (D (eq_sym X)).
  pose proof (i_nd _ I q) as ND. rewrite E in ND. inversion ND as [|? ? N1 N2]; subst. apply N1. rewrite <- N. apply in_map, D.
Qed.
Lemma inv_move s q f0 f1 r e : Inv s -> stk s q = f0 :: r -> finv f1 = finv f0 ->
  (forall y, In y e -> match y with ERan _ _ _ => True | EReport _ m _ _ _ _ _ => m = fnum f0 | _ => False end) ->
  allok (e ++ log s) -> frok (push s q (f1 :: r) (nextn s) false e) q f1 -> Inv (push s q (f1 :: r) (nextn s) (crashed s) e).
Proof.
  intros I E FI T A F. assert (AL : alive s q = true) by (apply (i_stk _ I); rewrite E; discriminate).
  assert (B0 : frok s q f0) by (apply (i_fr _ I); rewrite E; left; reflexivity).
  assert (NX : (fnum f0 < nextn s)%nat) by (destruct B0 as ((t0 & B0 & _) & _); apply (i_num _ I) in B0; exact B0).
  assert (FN : fnum f1 = fnum f0) by (unfold fnum; congruence).
  apply inv_push; auto.
  - intros y Y. specialize (T y Y). destruct y; try contradiction; auto. subst. exact NX.
  - pose proof (i_nd _ I q) as ND. rewrite E in ND. cbn [map] in *. rewrite FN. exact ND.
  - intros f [<-|H]; [right; exact F|]. left. rewrite E. right. exact H.
  - intros q' f H D. assert (CS : (f = f1 /\ q' = q) \/ fnum f <> fnum f0).
    { destruct (Nat.eq_dec q' q) as [-> |Q]; [|right; eapply (other_num s q); eauto; intros X; contradiction]. destruct (D eq_refl) as [<-|H']; [left; auto|]. right. eapply (other_num s q); eauto. }
    destruct CS as [[-> ->]|N]; [left; exact F|]. right. clear - T N.
    induction e as [|y e IH]; cbn [app]; [reflexivity|]. assert (IH' := IH (fun z Z0 => T z (or_intror Z0))). specialize (T y (or_introl eq_refl)). destruct y; try contradiction; cbn [reports]; [exact IH'|]. subst. destruct (Nat.eqb_spec (fnum f0) (fnum f)); [congruence|exact IH'].
Qed.

Lemma times t k : t = 0 -> u32 (u64 (t - u64 k)) = u32 (- k) /\ u32 (u64 (tick_us - t)) = 0.
Proof.
  intros ->. split; [|reflexivity]. unfold u32, u64.
  rewrite <- (Znumtheory.Zmod_div_mod 4294967296 18446744073709551616); [|lia|lia|exists 4294967296; reflexivity].
  rewrite (Z.sub_0_l (k mod 18446744073709551616)).
  rewrite (Z.mod_eq k 18446744073709551616) by lia. replace (- (k - 18446744073709551616 * (k / 18446744073709551616))) with (- k + (4294967296 * (k / 18446744073709551616)) * 4294967296) by ring.
  apply Z.mod_add. lia.
Qed.

Lemma inv_init : Inv init.
Proof.
  split; cbn; auto; try lia; try discriminate; try contradiction.
  intros q. constructor.
Qed.
Lemma begun_app e l q i c c' : begun l q i c -> c <= c' -> begun (e ++ l) q i c'.
Proof. intros (t0 & H & L) C. exists t0. split; [apply in_or_app; auto|lia]. Qed.

Lemma inv_step s l s' : Inv s -> step s l = Some s' -> Inv s'.
Proof.
  intros I H. destruct l as [| |q|p c|p|p|p|p|p|q nm fo ts|q|q|q|q|q]; cbn [step] in H.
  - (* LTick *) injection H as <-. pose proof I as I'. destruct I. split; cbn [clock count perf readers pc nextq alive nextn stk crashed log] in *; auto.
    + intros q f F. eapply (frok_ext s _ q f []); auto; cbn; lia.
  - (* LCreate *) destruct (readers s) as [|x rd] eqn:RD; [|discriminate]. injection H as <-. pose proof I as I'. destruct I.
    assert (NA : alive s (nextq s) = false) by (destruct (alive s (nextq s)) eqn:E; [|reflexivity]; apply i_next0 in E; lia).
    split; cbn [clock count perf readers pc nextq alive nextn stk crashed log] in *; auto.
    + intros q. cbn [lives]. destruct (Nat.eqb_spec (nextq s) q) as [<-|D]; [apply upd_eq|]. rewrite upd_neq by congruence. apply i_alive0.
    + intros q A. destruct (Nat.eq_dec q (nextq s)) as [-> |D]; [lia|]. rewrite upd_neq in A by exact D. apply i_next0 in A. lia.
    + rewrite seq_S, filter_app, app_length. cbn. rewrite upd_eq. cbn. rewrite filter_upd_out by (rewrite in_seq; lia). lia.
    + intros q K. destruct (Nat.eq_dec q (nextq s)) as [-> |D]; [apply upd_eq|rewrite upd_neq by exact D; auto].
    + intros q f F. eapply (frok_ext s _ q f [_]); auto; [reflexivity|cbn; lia].
    + intros q i t [X|X]; [discriminate|eauto].
    + intros p. eapply (pcok_ext s _ p [_]); auto; try reflexivity; try (intros c; cbn; intuition discriminate); cbn [readers]; rewrite RD; intros [].
    + cbn. auto.
  - (* LDestroy *) destruct (readers s) as [|x rd] eqn:RD; [|discriminate]. destruct (stk s q) as [|f r] eqn:ST; [|discriminate]. destruct (alive s q) eqn:AL; [|discriminate]. injection H as <-. pose proof I as I'. destruct I.
    split; cbn [clock count perf readers pc nextq alive nextn stk crashed log] in *; auto.
    + intros x. cbn [lives]. destruct (Nat.eqb_spec q x) as [<-|D]; [apply upd_eq|]. rewrite upd_neq by congruence. apply i_alive0.
    + intros x A. destruct (Nat.eq_dec x q) as [-> |D]; [rewrite upd_eq in A; discriminate|]. rewrite upd_neq in A by exact D. auto.
    + rewrite i_count0. rewrite (filter_upd_off (alive s) q); [lia|apply seq_NoDup|apply in_seq; apply i_next0 in AL; lia|exact AL].
    + intros x K. destruct (Nat.eq_dec x q) as [-> |D]; [congruence|rewrite upd_neq by exact D; auto].
    + intros x f F. eapply (frok_ext s _ x f [_]); auto; [reflexivity|cbn; lia].
    + intros x i t [X|X]; [discriminate|eauto].
    + intros p. eapply (pcok_ext s _ p [_]); auto; try reflexivity; try (intros c; cbn; intuition discriminate); cbn [readers]; rewrite RD; intros [].
    + cbn. auto.
  - (* LCall *) destruct (pc s p) eqn:PC; try discriminate. injection H as <-. apply inv_goto; auto.
    + intros p' D c'. cbn. intuition congruence.
    + intros y [<-|[]]. exact Logic.I.
    + split; [exact Logic.I|apply (i_ok _ I)].
    + unfold pcok. cbn [goto pc log]. rewrite upd_eq. exists [], (log s). split; [reflexivity|apply quiet_nil].
  - (* LLock *) destruct (pc s p) as [|c|c|c|c ok|c ok] eqn:PC; try discriminate. injection H as <-. pose proof (i_pc _ I p) as K. unfold pcok in K. rewrite PC in K. apply inv_goto; auto.
    + intros p' D. apply quiet_nil.
    + intros y [].
    + apply (i_ok _ I).
    + intros p' D X. right. exact X.
    + unfold pcok. cbn [goto pc log readers app]. rewrite upd_eq. split; [exact K|left; reflexivity].
  - (* LCheck *) destruct (pc s p) as [|c|c|c|c ok|c ok] eqn:PC; try discriminate. injection H as <-. pose proof (i_pc _ I p) as K. unfold pcok in K. rewrite PC in K. destruct K as [K R]. apply inv_goto; auto.
    + intros p' D. apply quiet_nil.
    + intros y [].
    + apply (i_ok _ I).
    + unfold pcok. cbn [goto pc log readers app alive]. rewrite upd_eq. destruct (Z.eqb_spec (count s) 0) as [C|C].
      * split; [exact K|]. split; [exact R|]. apply none_alive; assumption.
      * split; [|exact R]. destruct K as (b & n & E & Q). exists [], b, n. split; [exact E|]. split; [apply quiet_nil|]. split; [exact Q|]. destruct (some_alive s I C) as (x & X). exists x. rewrite <- E, <- (i_alive _ I). exact X.
  - (* LStore *) destruct (pc s p) as [|c|c|c|c ok|c ok] eqn:PC; try discriminate. injection H as <-. pose proof (i_pc _ I p) as K. unfold pcok in K. rewrite PC in K. destruct K as (K & R & NA).
    assert (NS : forall q, stk s q = []) by (intros q; destruct (stk s q) eqn:E; [reflexivity|]; pose proof (i_stk _ I q) as X; rewrite E, NA in X; discriminate X; discriminate).
    pose proof I as I'. destruct I. split; cbn [goto clock count perf readers pc nextq alive nextn stk crashed log app] in *; auto.
    + intros q f F. rewrite NS in F. destruct F.
    + intros q i t [X|X]; [discriminate|eauto].
    + intros p'. destruct (Nat.eq_dec p' p) as [-> |D].
      * unfold pcok. cbn [goto pc log readers app]. rewrite upd_eq. split; [|exact R]. destruct K as (b & n & E & Q). exists [], b, n. split; [rewrite E; reflexivity|]. split; [apply quiet_nil|exact Q].
      * eapply (pcok_ext s _ p' [_]); auto; cbn [goto pc]; [apply upd_neq; exact D|reflexivity|intros c'; cbn; intuition congruence].
    + split; [|exact i_ok0]. intros q. rewrite <- i_alive0. apply NA.
  - (* LUnlock *) destruct (pc s p) as [|c|c|c|c ok|c ok] eqn:PC; try discriminate. injection H as <-. pose proof (i_pc _ I p) as K. unfold pcok in K. rewrite PC in K. destruct K as [K R]. apply inv_goto; auto.
    + intros p' D. apply quiet_nil.
    + intros y [].
    + apply (i_ok _ I).
    + intros p' D X. apply filter_In. split; [exact X|]. apply negb_true_iff, Nat.eqb_neq, D.
    + unfold pcok. cbn [goto pc log readers app]. rewrite upd_eq. exact K.
  - (* LRet *) destruct (pc s p) as [|c|c|c|c ok|c ok] eqn:PC; try discriminate. injection H as <-. pose proof (i_pc _ I p) as K. unfold pcok in K. rewrite PC in K. apply inv_goto; auto.
    + intros p' D c'. cbn. intuition discriminate.
    + intros y [<-|[]]. exact Logic.I.
    + split; [|apply (i_ok _ I)]. cbn. destruct ok; exact K.
    + unfold pcok. cbn [goto pc]. rewrite upd_eq. exact Logic.I.
  - (* LBegin *) destruct (alive s q) eqn:AL; [|discriminate]. destruct (free (stk s q)); [|discriminate]. destruct (Z.leb_spec 0 ts) as [T0|]; [|discriminate]. destruct (Z.leb_spec ts (clock s)) as [T1|]; [|discriminate]. cbn [andb] in H. injection H as <-.
    set (i := mkI (nextn s) nm fo ts).
    assert (FR : forall q' f, In f (stk s q') -> (fnum f < nextn s)%nat) by (intros q' f F; destruct (i_fr _ I q' f F) as ((t0 & B & _) & _); apply (i_num _ I) in B; exact B).
    apply inv_push; auto.
    + intros y [<-|[]]. cbn. lia.
    + split; [|apply (i_ok _ I)]. cbn. split; [apply (i_rep _ I); lia|]. split; [rewrite <- (i_alive _ I); exact AL|]. split; [lia|]. intros q' i' t' B. apply (i_num _ I) in B. lia.
    + cbn [map]. constructor; [|apply (i_nd _ I)]. intros B. apply in_map_iff in B. destruct B as (f & N & F). apply FR in F. cbn in N. lia.
    + intros f [<-|F]; [right|left; exact F]. split; [exists (clock s); cbn; split; [left; reflexivity|lia]|]. split; [destruct (Nat.eqb (perf s) 0); reflexivity|]. cbn. apply (i_rep _ I). lia.
  - (* LFret *) destruct (stk s q) as [|[i t|i t|i t|i|i] r] eqn:ST; try discriminate. injection H as <-. assert (K : frok s q (FRun i t)) by (apply (i_fr _ I); rewrite ST; left; reflexivity). destruct K as (B & -> & RP).
    apply (inv_move s q (FRun i 0)); auto; cbn [app].
    + intros y [<-|[]]. exact Logic.I.
    + split; [|apply (i_ok _ I)]. cbn. split; [exact RP|]. split; [rewrite <- (i_alive _ I); apply (i_stk _ I); rewrite ST; discriminate|]. destruct B as (t0 & B & L). exists i, t0. auto.
    + split; [apply (begun_app [_]) with (c := clock s); [exact B|cbn; lia]|]. split; [reflexivity|]. split; [exact RP|]. destruct B as (t0 & B & L). exists t0, (clock s). cbn. auto.
  - (* LTest *) destruct (stk s q) as [|[i t|i t|i t|i|i] r] eqn:ST; try discriminate. injection H as <-. assert (K : frok s q (FRan i t)) by (apply (i_fr _ I); rewrite ST; left; reflexivity). destruct K as (B & -> & RP & RN).
    apply (inv_move s q (FRan i 0)); auto.
    + destruct (Nat.eqb (perf s) 0); reflexivity.
    + intros y [].
    + apply (i_ok _ I).
    + destruct (Nat.eqb_spec (perf s) 0) as [P|P]; (split; [exact B|]); cbn [push log perf app]; [split; [|exact RN]; rewrite P; exact RP|auto].
  - (* LPerf *) destruct (stk s q) as [|[i t|i t|i t|i|i] r] eqn:ST; try discriminate. assert (K : frok s q (FCall i t)) by (apply (i_fr _ I); rewrite ST; left; reflexivity). destruct K as (B & T & RP & RN & P).
    destruct (Nat.eqb_spec (perf s) 0) as [P0|_]; [contradiction|]. injection H as <-. apply (inv_move s q (FCall i t)); auto.
    + intros y [<-|[]]. reflexivity.
    + split; [|apply (i_ok _ I)]. destruct (times t (qts i * 1000) T) as [W1 W2]. cbn [good]. split; [apply (i_perf _ I)|]. split; [exact P|]. split; [rewrite <- (i_alive _ I); apply (i_stk _ I); rewrite ST; discriminate|]. split; [exact RP|].
      destruct RN as (t0 & t1 & B1 & B2 & L). exists i, t0, t1. repeat (split; [assumption||reflexivity|]). split; [rewrite W1; f_equal; lia|exact W2].
    + split; [apply (begun_app [_]) with (c := clock s); [exact B|cbn; lia]|]. cbn [push log perf app reports]. rewrite Nat.eqb_refl, RP. split; [reflexivity|]. split; [|exact P]. destruct RN as (t0 & t1 & B1 & B2 & L). exists t0, t1. cbn. auto.
  - (* LCbret *) destruct (stk s q) as [|[i t|i t|i t|i|i] r] eqn:ST; try discriminate. injection H as <-. assert (K : frok s q (FCb i)) by (apply (i_fr _ I); rewrite ST; left; reflexivity). destruct K as (B & RP & RN & P).
    apply (inv_move s q (FCb i)); auto.
    + intros y [].
    + apply (i_ok _ I).
    + split; [exact B|]. cbn [push log perf app]. apply Nat.eqb_neq in P. rewrite P. auto.
  - (* LEnd *) destruct (stk s q) as [|[i t|i t|i t|i|i] r] eqn:ST; try discriminate. injection H as <-. assert (K : frok s q (FOut i)) by (apply (i_fr _ I); rewrite ST; left; reflexivity). destruct K as (B & RP & RN).
    assert (AL : alive s q = true) by (apply (i_stk _ I); rewrite ST; discriminate).
    apply inv_push; auto.
    + intros y [<-|[]]. exact Logic.I.
    + split; [|apply (i_ok _ I)]. cbn. split; [rewrite <- (i_alive _ I); exact AL|]. split; [rewrite <- (i_perf _ I); exact RP|]. destruct RN as (t0 & t1 & B1 & B2 & L). exists i, t0, t1. auto.
    + pose proof (i_nd _ I q) as ND. rewrite ST in ND. inversion ND; assumption.
    + intros f F. left. rewrite ST. right. exact F.
Qed.
Lemma inv_run ls : forall s s', Inv s -> run s ls = Some s' -> Inv s'.
Proof. induction ls as [|l ls IH]; intros s s' V; cbn [run]; [intros [= <-]; exact V|]. destruct (step s l) as [s1|] eqn:E; [|discriminate]. apply IH. eapply inv_step; eauto. Qed.
Theorem inv_reach s : reach s -> Inv s.
Proof. intros [ls R]. eapply inv_run; [apply inv_init|exact R]. Qed.
