(** * C34: the queue pools. *)
From Verif Require Import Base Mpqp.
Local Open Scope nat_scope.

(** ** Readings of a history. *)
(** What queue [q] accepted, in order; what it has finished, in order. *)
Definition acc1 (q : nat) (e : ev) : list item := match e with EAccept j k => if k =? q then [Job j] else [] | EMark t k => if k =? q then [Mark t] else [] | _ => [] end.
Definition fin1 (q : nat) (e : ev) : list item := match e with EEnd k it => if k =? q then [it] else [] | _ => [] end.
Definition acc (q : nat) (tr : list ev) : list item := flat_map (acc1 q) tr.
Definition fin (q : nat) (tr : list ev) : list item := flat_map (fin1 q) tr.
(** How often the function of the tail request [t] was called. *)
Definition istail (t : nat) (e : ev) : bool := match e with ETail k _ => k =? t | _ => false end.
Definition tails (t : nat) (tr : list ev) : nat := length (filter (istail t) tr).
Definition ismark (t : nat) (it : item) : bool := match it with Mark k => k =? t | _ => false end.
Definition marks (t : nat) (l : list item) : nat := length (filter (ismark t) l).
Definition isalloc (q : nat) (e : ev) : bool := match e with EAlloc k => k =? q | _ => false end.
Definition isfree (q : nat) (e : ev) : bool := match e with EFree k => k =? q | _ => false end.
Definition allocs (q : nat) (tr : list ev) : nat := length (filter (isalloc q) tr).
Definition frees (q : nat) (tr : list ev) : nat := length (filter (isfree q) tr).

(** ** Generalities. *)
Lemma acc_app q a b : acc q (a ++ b) = acc q a ++ acc q b. Proof. apply flat_map_app. Qed.
Lemma fin_app q a b : fin q (a ++ b) = fin q a ++ fin q b. Proof. apply flat_map_app. Qed.
Lemma tails_app t a b : tails t (a ++ b) = tails t a + tails t b.
Proof. unfold tails. rewrite filter_app, app_length. reflexivity. Qed.
Lemma marks_app t a b : marks t (a ++ b) = marks t a + marks t b.
Proof. unfold marks. rewrite filter_app, app_length. reflexivity. Qed.
Lemma fupd_eq {A} (f : nat -> A) k v : fupd f k v k = v. Proof. unfold fupd. rewrite Nat.eqb_refl. reflexivity. Qed.
Lemma fupd_ne {A} (f : nat -> A) k v x : x <> k -> fupd f k v x = f x.
Proof. unfold fupd. intros H. apply Nat.eqb_neq in H. rewrite H. reflexivity. Qed.
Lemma fupd_case {A} (f : nat -> A) k v x y : fupd f k v x = y -> (x = k /\ v = y) \/ (x <> k /\ f x = y).
Proof. destruct (Nat.eq_dec x k) as [->|n]; [rewrite fupd_eq|rewrite fupd_ne by assumption]; auto. Qed.
Lemma marks_pos t l : marks t l <> 0 -> In (Mark t) l.
Proof.
  unfold marks. intros H. destruct (filter (ismark t) l) as [|x r] eqn:E; [contradiction H; reflexivity|].
  assert (I : In x (filter (ismark t) l)) by (rewrite E; left; reflexivity).
  apply filter_In in I. destruct I as [I J]. destruct x as [j|k]; [discriminate J|]. apply Nat.eqb_eq in J. subst k. exact I.
Qed.
Lemma marks_in t l : In (Mark t) l -> 1 <= marks t l.
Proof.
  intros I. unfold marks. assert (F : In (Mark t) (filter (ismark t) l)) by (apply filter_In; split; [assumption|cbn; apply Nat.eqb_refl]).
  destruct (filter (ismark t) l); [contradiction F|cbn; lia].
Qed.
Fixpoint nsum (f : nat -> nat) (l : list nat) : nat := match l with [] => 0 | x :: r => f x + nsum f r end.
Lemma nsum_ext f g l : (forall x, In x l -> f x = g x) -> nsum f l = nsum g l.
Proof. induction l as [|x l IH]; cbn; intros H; [reflexivity|]. rewrite H by (left; reflexivity). rewrite IH; [reflexivity|]. intros y Y. apply H. right. assumption. Qed.
Lemma nsum_inc f g l q : NoDup l -> In q l -> g q = S (f q) -> (forall x, x <> q -> g x = f x) -> nsum g l = S (nsum f l).
Proof.
  induction 1 as [|x l NI ND IH]; intros I E O; [contradiction I|]. cbn. destruct (Nat.eq_dec x q) as [->|n].
  - rewrite E. rewrite (nsum_ext g f l); [lia|]. intros y Y. apply O. intros ->. contradiction.
  - rewrite (O x) by assumption. destruct I as [->|I]; [contradiction n; reflexivity|]. rewrite IH; auto.
Qed.
Lemma nsum_le f l : (forall x, f x <= 1) -> nsum f l <= length l.
Proof. intros H. induction l as [|x l IH]; cbn; [lia|]. specialize (H x). lia. Qed.
Lemma nsum_full f l : (forall x, f x <= 1) -> nsum f l = length l -> forall x, In x l -> f x = 1.
Proof.
  intros H. induction l as [|y l IH]; cbn; intros E x I; [contradiction I|]. pose proof (H y) as Hy. pose proof (nsum_le f l H) as L.
  destruct I as [->|I]; [lia|]. apply IH; [lia|assumption].
Qed.
Lemma nsum_const1 f l : (forall x, In x l -> f x = 1) -> nsum f l = length l.
Proof. induction l as [|x l IH]; cbn; intros H; [reflexivity|]. rewrite H by (left; reflexivity). rewrite IH; [reflexivity|]. intros y Y. apply H. right. exact Y. Qed.

(** ** Reachability by steps. *)
Inductive reach (N : nat) : st -> Prop := R0 : reach N init | RS s l s' : reach N s -> exec N l s = Some s' -> reach N s'.
Lemma run_reach N ls : forall s s', reach N s -> run N ls s = Some s' -> reach N s'.
Proof.
  induction ls as [|l ls IH]; cbn [run]; intros s s' R H; [assert (s = s') by congruence; subst; assumption|].
  destruct (exec N l s) as [s1|] eqn:E; [|discriminate]. eapply IH; [|eassumption]. econstructor; eassumption.
Qed.
Lemma reachable_reach N s : reachable N s -> reach N s.
Proof. intros [ls H]. eapply run_reach; [constructor|eassumption]. Qed.
Lemma run_app N a : forall b s, run N (a ++ b) s = match run N a s with Some x => run N b x | None => None end.
Proof. induction a as [|l a IH]; intros b s; cbn [run app]; [reflexivity|]. destruct (exec N l s); [apply IH|reflexivity]. Qed.
Lemma reach_reachable N s : reach N s -> reachable N s.
Proof.
  induction 1 as [|s l s' R [ls IH] E]; [exists []; reflexivity|]. exists (ls ++ [l]). rewrite run_app, IH. cbn [run]. rewrite E. reflexivity.
Qed.

Ltac proj := cbn [entries lock cnt items cur left pcs nextq nextj nextt trace crashed set_pc set_lock set_entries emit set_cnt new_job crash enqueue create use] in *.
(** The cases of a step. *)
Ltac steps H :=
  unfold exec in H; match type of H with (if crashed ?s then _ else _) = _ => destruct (crashed s) eqn:?; [discriminate H|] end;
  match type of H with match ?l with _ => _ end = _ => destruct l end;
  unfold pick in H;
  repeat (match type of H with
          | context [match ?x with _ => _ end] =>
              lazymatch x with context [match _ with _ => _ end] => fail | _ => destruct x eqn:?; try discriminate H end
          end);
  match type of H with Some ?x = Some ?y => assert (x = y) by congruence; subst y; clear H end.

Lemma exec_trace N l s s' : exec N l s = Some s' -> exists d, trace s' = trace s ++ d.
Proof.
  intros H. steps H; proj; try rewrite <- !app_assoc; try (eexists; reflexivity); exists []; rewrite app_nil_r; reflexivity.
Qed.
Lemma reach_split N s : reach N s -> forall a e b, trace s = a ++ e :: b ->
  exists s0 l s1 d1 d2, reach N s0 /\ exec N l s0 = Some s1 /\ trace s1 = trace s0 ++ d1 ++ e :: d2 /\ a = trace s0 ++ d1.
Proof.
  induction 1 as [|s l s' R IH E]; intros a e b T; [destruct a; discriminate T|].
  destruct (exec_trace _ _ _ _ E) as [d D]. pose proof D as D'. rewrite T in D.
  assert (C : (exists b', trace s = a ++ e :: b') \/ (exists d1 d2, d = d1 ++ e :: d2 /\ a = trace s ++ d1)).
  { clear -D. revert a D. generalize (trace s) as t0. induction t0 as [|x t0 IH]; intros a D.
    - right. exists a, b. cbn in *. auto.
    - destruct a as [|y a]; cbn in D.
      + left. exists t0. cbn. congruence.
      + assert (y = x) by congruence. subst y. destruct (IH a) as [[b' B]|[d1 [d2 [X Y]]]]; [congruence| |].
        * left. exists b'. cbn. congruence.
        * right. exists d1, d2. split; [assumption|]. cbn. congruence. }
  destruct C as [[b' B]|[d1 [d2 [X Y]]]]; [eapply IH; eassumption|].
  exists s, l, s', d1, d2. subst d. repeat split; assumption.
Qed.

(** ** The pool's entries. *)
Lemma best_entry_spec l : forall i b,
  match best_entry l i b with
  | None => l = [] /\ b = None
  | Some (k, u) => (b = Some (k, u) /\ (forall e, In e l -> u <= snd e)) \/
      (i <= k < i + length l /\ nth_error (map snd l) (k - i) = Some u /\ (forall e, In e l -> u <= snd e) /\ (forall k' u', b = Some (k', u') -> u < u'))
  end.
Proof.
  induction l as [|[q u] l IH]; intros i b; cbn [best_entry].
  - destruct b as [[k u]|]; [left; split; [reflexivity|intros e []]|auto].
  - destruct b as [[k0 u0]|].
    + destruct (u <? u0) eqn:C.
      * apply Nat.ltb_lt in C. specialize (IH (S i) (Some (i, u))). destruct (best_entry l (S i) (Some (i, u))) as [[k v]|]; [|destruct IH; discriminate].
        right. destruct IH as [[E A]|[A [B [D E]]]].
        -- assert (k = i /\ v = u) as [-> ->] by (split; congruence). rewrite Nat.sub_diag. cbn. split; [lia|]. split; [reflexivity|]. split.
           ++ intros e [<-|I]; [cbn; lia|auto].
           ++ intros k' u' K. assert (u0 = u') by congruence. lia.
        -- cbn [length map]. split; [lia|]. replace (k - i) with (S (k - S i)) by lia. cbn [nth_error]. split; [exact B|]. specialize (E _ _ eq_refl). split.
           ++ intros e [<-|I]; [cbn; lia|auto].
           ++ intros k' u' K. assert (u0 = u') by congruence. lia.
      * apply Nat.ltb_ge in C. specialize (IH (S i) (Some (k0, u0))). destruct (best_entry l (S i) (Some (k0, u0))) as [[k v]|]; [|destruct IH; discriminate].
        destruct IH as [[E A]|[A [B [D E]]]].
        -- left. split; [exact E|]. assert (v = u0) by congruence. intros e [<-|I]; [cbn; lia|auto].
        -- right. cbn [length map]. split; [lia|]. replace (k - i) with (S (k - S i)) by lia. cbn [nth_error]. split; [exact B|]. specialize (E _ _ eq_refl). split.
           ++ intros e [<-|I]; [cbn; lia|auto].
           ++ intros k' u' K. assert (u0 = u') by congruence. lia.
    + specialize (IH (S i) (Some (i, u))). destruct (best_entry l (S i) (Some (i, u))) as [[k v]|]; [|destruct IH; discriminate].
      right. destruct IH as [[E A]|[A [B [D E]]]].
      * assert (k = i /\ v = u) as [-> ->] by (split; congruence). rewrite Nat.sub_diag. cbn. split; [lia|]. split; [reflexivity|]. split; [|discriminate].
        intros e [<-|I]; [cbn; lia|auto].
      * cbn [length map]. split; [lia|]. replace (k - i) with (S (k - S i)) by lia. cbn [nth_error]. split; [exact B|]. specialize (E _ _ eq_refl). split; [|discriminate].
        intros e [<-|I]; [cbn; lia|auto].
Qed.
(** [bump i l]: entry i's usage is one more. *)
Fixpoint bump (i : nat) (l : list (nat * nat)) : list (nat * nat) :=
  match l, i with [], _ => [] | (q, u) :: r, O => (q, S u) :: r | e :: r, S i => e :: bump i r end.
Lemma use_bump s i : entries (use s i) = bump i (entries s).
Proof.
  unfold use. cbn [entries set_entries]. generalize (entries s) as l. clear s.
  assert (G : forall l k i, map (fun p : nat * (nat * nat) => if fst p =? k + i then (fst (snd p), S (snd (snd p))) else snd p) (combine (seq k (length l)) l) = bump i l).
  { induction l as [|[q u] l IH]; intros k j; [destruct j; reflexivity|]. cbn [length seq combine map fst snd bump].
    destruct j as [|j]; cbn [bump].
    - rewrite Nat.add_0_r, Nat.eqb_refl. f_equal.
      rewrite <- (map_id l) at 3. clear IH. assert (M : forall m k0, k < k0 -> map (fun p : nat * (nat * nat) => if fst p =? k then (fst (snd p), S (snd (snd p))) else snd p) (combine (seq k0 (length m)) m) = map (fun x => x) m).
      { induction m as [|[x y] m IHm]; intros k0 K; [reflexivity|]. cbn [length seq combine map fst snd]. rewrite (proj2 (Nat.eqb_neq _ _)) by lia. rewrite IHm by lia. reflexivity. }
      apply M. lia.
    - rewrite (proj2 (Nat.eqb_neq _ _)) by lia. f_equal. rewrite <- (IH (S k) j). apply map_ext. intros p. replace (S k + j) with (k + S j) by lia. reflexivity. }
  intros l. exact (G l 0 i).
Qed.
Lemma bump_fst i l : map fst (bump i l) = map fst l.
Proof. revert i. induction l as [|[q u] l IH]; intros [|i]; cbn; [reflexivity|reflexivity|reflexivity|rewrite IH; reflexivity]. Qed.
Lemma bump_usage i l : Forall (fun e => 1 <= snd e) l -> Forall (fun e => 1 <= snd e) (bump i l).
Proof. revert i. induction l as [|[q u] l IH]; intros [|i] H; cbn; inversion H; subst; constructor; cbn in *; auto. Qed.
Lemma unuse_fst l : forall q m, unuse l q = Some m -> map fst m = map fst l /\ (Forall (fun e => 1 <= snd e) l -> Forall (fun e => 1 <= snd e) m).
Proof.
  induction l as [|[k u] l IH]; intros q m; cbn [unuse]; [discriminate|]. destruct (k =? q).
  - destruct (1 <? u) eqn:U; [|discriminate]. intros E. assert (m = (k, Nat.pred u) :: l) by congruence. subst m. apply Nat.ltb_lt in U.
    split; [reflexivity|]. intros F. inversion F; subst. constructor; [cbn; lia|assumption].
  - destruct (unuse l q) as [r|] eqn:R; cbn; [|discriminate]. intros E. assert (m = (k, u) :: r) by congruence. subst m.
    destruct (IH _ _ R) as [A B]. split; [cbn; rewrite A; reflexivity|]. intros F. inversion F; subst. constructor; auto.
Qed.

Record inv1 (N : nat) (s : st) : Prop := {
  i_len : length (entries s) <= N;
  i_nd : NoDup (map fst (entries s));
  i_lt : forall q, In q (map fst (entries s)) -> q < nextq s;
  i_us : Forall (fun e => 1 <= snd e) (entries s);
  i_scan : forall p j i b, pcs s p = Scan j i b -> lock s = Some p /\ i <= length (entries s) /\ (b = None -> i = 0);
  i_tail : forall p t i, pcs s p = Tail t i -> lock s = Some p /\ i <= length (entries s) }.

Lemma nth_len {A} (l : list A) i : nth_error l i = None -> length l <= i. Proof. apply nth_error_None. Qed.
Lemma nth_lt {A} (l : list A) i x : nth_error l i = Some x -> i < length l. Proof. intros H. apply nth_error_Some. congruence. Qed.
Lemma map_fst_snoc (l : list (nat * nat)) q u : map fst (l ++ [(q, u)]) = map fst l ++ [q]. Proof. rewrite map_app. reflexivity. Qed.
Lemma NoDup_snoc (l : list nat) q : NoDup l -> ~ In q l -> NoDup (l ++ [q]).
Proof.
  induction l as [|x l IH]; cbn; intros ND NI; [constructor; [intros []|constructor]|]. inversion ND; subst. constructor.
  - rewrite in_app_iff. intros [I|[E|[]]]; [contradiction|]. apply NI. left. symmetry. exact E.
  - apply IH; [assumption|]. intros I. apply NI. right. exact I.
Qed.
Lemma rev_cons_eq {A} (l : list A) x r : rev l = x :: r -> l = rev r ++ [x].
Proof. intros H. rewrite <- (rev_involutive l), H. reflexivity. Qed.
(** inv1 looks only at these. *)
Lemma inv1_ext N s s' : inv1 N s -> entries s' = entries s -> lock s' = lock s -> (forall p, pcs s' p = pcs s p) -> nextq s' = nextq s -> inv1 N s'.
Proof. intros [A B C D E F] E1 E2 E3 E4. constructor; rewrite ?E1, ?E2, ?E4; try assumption; intros p *; rewrite E3; eauto. Qed.
Definition neutral (x : pc) : Prop := match x with Scan _ _ _ | Tail _ _ => False | _ => True end.
Lemma inv1_pc N s p x : inv1 N s -> neutral x -> inv1 N (set_pc s p x).
Proof.
  intros [A B C D E F] X. constructor; proj; try assumption; intros q *; intros H; apply fupd_case in H; destruct H as [[-> H]|[n H]]; try (subst x; contradiction X); eauto.
Qed.
Lemma inv1_release N s p x : inv1 N s -> neutral x -> lock s = Some p -> inv1 N (set_pc (set_lock s None) p x).
Proof.
  intros [A B C D E F] X Lk. constructor; proj; try assumption; intros q *; intros H; apply fupd_case in H; destruct H as [[-> H]|[n H]]; try (subst x; contradiction X);
  [destruct (E _ _ _ _ H) as [K _]|destruct (F _ _ _ H) as [K _]]; rewrite Lk in K; congruence.
Qed.
Lemma inv1_free N s : inv1 N s -> lock s = None -> forall p, neutral (pcs s p).
Proof.
  intros [A B C D E F] Lk p. destruct (pcs s p) eqn:P; cbn; auto; [destruct (E _ _ _ _ P) as [K _]|destruct (F _ _ _ P) as [K _]]; congruence.
Qed.
Lemma inv1_acquire N s p x : inv1 N s -> lock s = None -> (match x with Scan _ i b => i = 0 /\ b = None | Tail _ i => i = 0 | _ => False end) -> inv1 N (set_pc (set_lock s (Some p)) p x).
Proof.
  intros I Lk X. pose proof (inv1_free _ _ I Lk) as Fr. destruct I as [A B C D E F]. constructor; proj; try assumption; intros q *; intros H; apply fupd_case in H; destruct H as [[-> H]|[n H]]; try subst x;
  try (specialize (Fr q); rewrite H in Fr; contradiction Fr); cbn in X; intuition (subst; try congruence; lia).
Qed.
(** changing the entries while nobody is in a loop *)
Lemma inv1_entries N s e nq : inv1 N s -> (forall p, neutral (pcs s p)) -> length e <= N -> NoDup (map fst e) -> (forall q, In q (map fst e) -> q < nq) -> Forall (fun e => 1 <= snd e) e ->
  forall s', entries s' = e -> nextq s' = nq -> pcs s' = pcs s -> lock s' = lock s -> inv1 N s'.
Proof.
  intros I Fr A B C D s' E1 E2 E3 E4. constructor; rewrite ?E1, ?E2, ?E3, ?E4; try assumption; intros p *; intros H; specialize (Fr p); rewrite H in Fr; contradiction Fr.
Qed.
Lemma inv1_create N s : inv1 N s -> length (entries s) < N -> (forall p, neutral (pcs s p)) -> inv1 N (create s).
Proof.
  intros I C Fr. pose proof I as [L ND LT US _ _]. eapply (inv1_entries N s); try reflexivity; auto; proj.
  - rewrite app_length. cbn. lia.
  - rewrite map_fst_snoc. apply NoDup_snoc; [assumption|]. intros J. specialize (LT _ J). lia.
  - intros q. rewrite map_fst_snoc, in_app_iff. intros [J|[<-|[]]]; [specialize (LT _ J)|]; lia.
  - apply Forall_app. split; [assumption|]. constructor; [cbn; lia|constructor].
Qed.
Lemma inv1_use N s i : inv1 N s -> (forall p, neutral (pcs s p)) -> inv1 N (use s i).
Proof.
  intros I Fr. pose proof I as [L ND LT US _ _]. eapply (inv1_entries N s); try (apply use_bump); try reflexivity; auto.
  - rewrite <- (map_length fst), bump_fst, map_length. exact L.
  - rewrite bump_fst. exact ND.
  - intros q. rewrite bump_fst. apply LT.
  - apply bump_usage. exact US.
Qed.
(** The pool may be created by LPick while its caller holds the lock. *)
Lemma pick_ok N s p j i b ok s1 o : 1 <= N -> inv1 N s -> pcs s p = Scan j i b -> nth_error (entries s) i = None -> pick N s b ok = (s1, o) ->
  inv1 N (set_pc (set_lock s1 None) p Idle) /\ trace s1 = trace s ++ (if (length (entries s1) =? length (entries s)) then [] else [ECreate (nextq s)]) /\ pcs s1 = pcs s.
Proof.
  intros N1 I P Nn. unfold pick.
  destruct (i_scan _ _ I _ _ _ _ P) as [Lk [Li Lb]]. apply nth_len in Nn.
  assert (I0 : inv1 N (set_pc (set_lock s None) p Idle)) by (apply inv1_release; cbn; auto).
  assert (Cr : match b with None => true | Some b => (0 <? cnt s b) && (length (entries s) <? N) end = true -> inv1 N (set_pc (set_lock (create s) None) p Idle)).
  { intros C. assert (Ln : length (entries s) < N).
    { destruct b; [apply andb_prop in C; destruct C as [_ C]; apply Nat.ltb_lt in C; exact C|]. rewrite (Lb eq_refl) in Nn. lia. }
    eapply (inv1_ext N (create (set_pc (set_lock s None) p Idle))); try reflexivity.
    apply inv1_create; proj; [assumption|assumption|]. intros q. apply (inv1_free _ _ I0). reflexivity. }
  assert (NE : (length (entries (create s)) =? length (entries s)) = false) by (proj; rewrite app_length; cbn; apply Nat.eqb_neq; lia).
  match goal with |- context [if ?x then if ok then _ else _ else _] => destruct x eqn:Cc end; [destruct ok|].
  - intros H. assert (s1 = set_cnt (create s) (nextq s) (S (cnt (create s) (nextq s)))) by congruence. subst s1. split; [|split; [|reflexivity]].
    + eapply inv1_ext; [exact (Cr eq_refl)|reflexivity..].
    + change (entries (set_cnt _ _ _)) with (entries (create s)). rewrite NE. reflexivity.
  - destruct b as [b|]; intros H.
    + assert (s1 = set_cnt s b (S (cnt s b))) by congruence. subst s1. split; [|split; [|reflexivity]]; [eapply inv1_ext; [exact I0|reflexivity..]|]. proj. rewrite Nat.eqb_refl, app_nil_r. reflexivity.
    + assert (s1 = s) by congruence. subst s1. split; [assumption|split; [|reflexivity]]. rewrite Nat.eqb_refl, app_nil_r. reflexivity.
  - destruct b as [b|]; intros H; [|discriminate Cc].
    assert (s1 = set_cnt s b (S (cnt s b))) by congruence. subst s1. split; [|split; [|reflexivity]]; [eapply inv1_ext; [exact I0|reflexivity..]|]. proj. rewrite Nat.eqb_refl, app_nil_r. reflexivity.
Qed.
Lemma best_none l i : best_entry l i None = None -> l = [].
Proof. intros H. pose proof (best_entry_spec l i None) as S. rewrite H in S. apply S. Qed.
Lemma alloc_case N s (ok : bool) s1 b : 1 <= N -> inv1 N s -> (forall p, neutral (pcs s p)) ->
  (if match best_entry (entries s) 0 None with None => true | Some (_, u) => (1 <? u) && (length (entries s) <? N) end
   then if ok then (create s, Some (length (entries s))) else (s, option_map fst (best_entry (entries s) 0 None))
   else (s, option_map fst (best_entry (entries s) 0 None))) = (s1, b) -> inv1 N s1 /\ (forall p, neutral (pcs s1 p)) /\ (s1 = s \/ s1 = create s) /\ match b with Some i => i < length (entries s1) | None => True end.
Proof.
  intros N1 I Fr. pose proof (best_entry_spec (entries s) 0 None) as Bs. match goal with |- (if ?x then _ else _) = _ -> _ => destruct x eqn:C end; [destruct ok|]; intros H.
  - assert (s1 = create s) by congruence. assert (b = Some (length (entries s))) by congruence. subst. split; [|split; [exact Fr|split; [auto|]]].
    + apply inv1_create; [assumption| |assumption]. destruct (best_entry _ _ _) as [[k u]|]; [|destruct Bs as [-> _]; cbn; lia].
      apply andb_prop in C. destruct C as [_ C]. apply Nat.ltb_lt in C. exact C.
    + proj. rewrite app_length. cbn. lia.
  - assert (s1 = s) by congruence. assert (b = option_map fst (best_entry (entries s) 0 None)) by congruence. subst. split; [assumption|]. split; [assumption|]. split; [auto|].
    destruct (best_entry _ _ _) as [[k u]|]; cbn; [|exact Coq.Init.Logic.I]. destruct Bs as [[E _]|[B _]]; [discriminate|lia].
  - assert (s1 = s) by congruence. assert (b = option_map fst (best_entry (entries s) 0 None)) by congruence. subst. split; [assumption|]. split; [assumption|]. split; [auto|].
    destruct (best_entry _ _ _) as [[k u]|]; cbn; [|exact Coq.Init.Logic.I]. destruct Bs as [[E _]|[B _]]; [discriminate|lia].
Qed.
Lemma create_pc N s : inv1 N s -> lock s = None -> forall p, neutral (pcs s p). Proof. apply inv1_free. Qed.
Lemma fupd2 {A} (f : nat -> A) k v w x : fupd (fupd f k v) k w x = fupd f k w x.
Proof. unfold fupd. destruct (x =? k); reflexivity. Qed.
Ltac res H := match type of H with Some ?x = Some ?s' => assert (s' = x) by congruence; subst s'; clear H end.
Lemma inv1_step N l s s' : 1 <= N -> inv1 N s -> exec N l s = Some s' -> inv1 N s'.
Proof.
  intros N1 I H. unfold exec in H. destruct (crashed s); [discriminate H|]. destruct l.
  - destruct (lock s) eqn:Lk; [discriminate|]. destruct (pcs s p) eqn:P; try discriminate. res H.
    apply inv1_acquire; [eapply inv1_ext; [exact I|reflexivity..]|assumption|auto].
  - destruct (pcs s p) as [|j i b| | | |] eqn:P; try discriminate. destruct (nth_error (entries s) i) as [[q u]|] eqn:Ne; [|discriminate].
    res H. destruct I as [A B C D E F]. apply nth_lt in Ne. destruct (E _ _ _ _ P) as [X [Y Z0]].
    constructor; proj; try assumption; intros r *; intros H0; apply fupd_case in H0; destruct H0 as [[-> H0]|[n H0]]; eauto; try discriminate H0.
    assert (i0 = S i) by congruence. assert (b0 = better s q b) by congruence. subst. split; [assumption|]. split; [lia|]. unfold better. destruct b; [destruct (_ <? _)|]; discriminate.
  - destruct (pcs s p) as [|j i b| | | |] eqn:P; try discriminate. destruct (nth_error (entries s) i) as [[q u]|] eqn:Ne; [discriminate|].
    destruct (pick N s b ok) as [s1 o] eqn:Pk. destruct (pick_ok _ _ _ _ _ _ _ _ _ N1 I P Ne Pk) as [I1 [_ Pe]]. res H.
    destruct o as [q|].
    + eapply inv1_ext; [apply (inv1_pc _ _ p (Send j q) I1); exact Coq.Init.Logic.I|reflexivity|reflexivity| |reflexivity]. intros x. proj. rewrite fupd2. reflexivity.
    + eapply inv1_ext; [exact I1|reflexivity..].
  - destruct (pcs s p) eqn:P; try discriminate. res H. apply inv1_pc; [|exact Coq.Init.Logic.I]. destruct ok; (eapply inv1_ext; [exact I|reflexivity..]).
  - destruct (pcs s p) eqn:P; try discriminate. res H. apply inv1_pc; [|exact Coq.Init.Logic.I]. eapply inv1_ext; [exact I|reflexivity..].
  - destruct (lock s) eqn:Lk; [discriminate|]. destruct (pcs s p) eqn:P; try discriminate.
    match type of H with (let '(_, _) := ?x in _) = _ => destruct x as [s1 b] eqn:Al end.
    destruct (alloc_case _ _ _ _ _ N1 I (inv1_free _ _ I Lk) Al) as [I1 [Fr _]]. res H. destruct b as [i|]; [|assumption].
    apply inv1_pc; [|exact Coq.Init.Logic.I]. apply inv1_use; assumption.
  - destruct (pcs s p) eqn:P; try discriminate. res H. apply inv1_pc; [|exact Coq.Init.Logic.I]. destruct (nth_error _ _) as [[q0 u]|]; (eapply inv1_ext; [exact I|reflexivity..]).
  - destruct (lock s) eqn:Lk; [discriminate|]. destruct (unuse (entries s) q) as [e|] eqn:U; [|discriminate]. res H. destruct (unuse_fst _ _ _ U) as [A B]. pose proof I as [L ND LT US _ _].
    eapply (inv1_entries N s); try reflexivity; [assumption|apply (inv1_free _ _ I Lk)|..]; proj.
    + rewrite <- (map_length fst), A, map_length. assumption.
    + rewrite A. assumption.
    + intros x. rewrite A. apply LT.
    + auto.
  - destruct (lock s) eqn:Lk; [discriminate|]. destruct (rev (entries s)) as [|[q u] r] eqn:Rv; [discriminate|]. destruct (_ && _); [|discriminate]. res H. apply rev_cons_eq in Rv. pose proof I as [L ND LT US _ _]. rewrite Rv in *.
    eapply (inv1_entries N s); try reflexivity; [assumption|apply (inv1_free _ _ I Lk)|..]; proj.
    + rewrite app_length in L. lia.
    + rewrite map_app in ND. rewrite <- (app_nil_r (map fst (rev r))). apply (NoDup_remove_1 _ [] q). exact ND.
    + intros x X. apply LT. rewrite map_app, in_app_iff. auto.
    + apply Forall_app in US. apply US.
  - destruct (lock s) eqn:Lk; [discriminate|]. res H.
    apply (inv1_entries N s [] (nextq s) I (inv1_free _ _ I Lk)); proj; cbn [map length]; auto; try (intros q []); try apply NoDup_nil; lia.
  - destruct (lock s) eqn:Lk; [discriminate|]. destruct (pcs s p) eqn:P; try discriminate.
    set (s1 := match entries s with [] => if ok then create s else s | _ => s end) in *.
    assert (I1 : inv1 N s1). { unfold s1. destruct (entries s) eqn:En; [|exact I]. destruct ok; [|exact I]. apply inv1_create; [assumption|rewrite En; cbn; lia|apply (inv1_free _ _ I Lk)]. }
    assert (L1 : lock s1 = None) by (unfold s1; destruct (entries s); [destruct ok|]; exact Lk).
    destruct (entries s1) as [|e0 es] eqn:En; [discriminate|]. res H. rewrite <- En.
    eapply inv1_ext; [apply (inv1_acquire N s1 p (Tail (nextt s1) 0) I1 L1 eq_refl)|reflexivity..].
  - destruct (pcs s p) as [| | | | |t i] eqn:P; try discriminate. destruct (nth_error (entries s) i) as [[q u]|] eqn:Ne; [|discriminate]. res H.
    destruct I as [A B C D E F]. apply nth_lt in Ne. destruct (F _ _ _ P) as [X Y].
    constructor; proj; try assumption; intros r *; intros H0; apply fupd_case in H0; destruct H0 as [[-> H0]|[n H0]]; eauto; try discriminate H0.
    assert (i0 = S i) by congruence. subst. split; [assumption|lia].
  - destruct (pcs s p) as [| | | | |t i] eqn:P; try discriminate. destruct (nth_error (entries s) i) eqn:Ne; [discriminate|]. res H.
    apply inv1_release; [assumption|exact Coq.Init.Logic.I|]. apply (i_tail _ _ I _ _ _ P).
  - destruct (q <? nextq s); [|discriminate]. res H. eapply inv1_ext; [exact I|reflexivity..].
  - destruct (cur s q); [discriminate|]. destruct (items s q); [discriminate|]. res H. eapply inv1_ext; [exact I|reflexivity..].
  - destruct (cur s q) as [it|]; [|discriminate]. match type of H with (let '(_, _) := ?x in _) = _ => destruct x as [l e] end. res H. eapply inv1_ext; [exact I|reflexivity..].
Qed.
Lemma inv1_init N : inv1 N init.
Proof. constructor; cbn; try lia; try discriminate; try constructor. Qed.
Lemma reach_inv1 N s : 1 <= N -> reach N s -> inv1 N s.
Proof. intros N1. induction 1; [apply inv1_init|eapply inv1_step; eassumption]. Qed.

(** ** The tail requests. *)
Definition olist {A} (o : option A) : list A := match o with Some x => [x] | None => [] end.
Definition tok (s : st) (t : nat) (qs : list nat) : Prop :=
  NoDup qs /\ qs <> [] /\
  (exists i, i <= length qs /\ (forall p i', pcs s p = Tail t i' -> i' = i /\ map fst (entries s) = qs) /\ ((forall p i', pcs s p <> Tail t i') -> i = length qs) /\
     forall q, marks t (acc q (trace s)) = if in_dec Nat.eq_dec q (firstn i qs) then 1 else 0) /\
  left s t + nsum (fun q => marks t (fin q (trace s))) qs = length qs /\
  tails t (trace s) = if left s t =? 0 then 1 else 0.
Record inv2 (s : st) : Prop := {
  j_q : forall q, acc q (trace s) = fin q (trace s) ++ olist (cur s q) ++ items s q;
  j_new : forall t, nextt s <= t -> (forall q, marks t (acc q (trace s)) = 0) /\ tails t (trace s) = 0 /\ (forall qs, ~ In (ECall t qs) (trace s)) /\ (forall p i, pcs s p <> Tail t i);
  j_u : forall t qs qs', In (ECall t qs) (trace s) -> In (ECall t qs') (trace s) -> qs = qs';
  j_has : forall t, t < nextt s -> exists qs, In (ECall t qs) (trace s);
  j_t : forall t qs, In (ECall t qs) (trace s) -> tok s t qs }.

Definition quiet (d : list ev) : Prop := (forall q, acc q d = []) /\ (forall q, fin q d = []) /\ (forall t, tails t d = 0) /\ (forall t qs, ~ In (ECall t qs) d).
Lemma quiet_nil : quiet []. Proof. repeat split; intros; intros []. Qed.
Definition quiet1 (e : ev) : bool := match e with EAccept _ _ | ECall _ _ | EMark _ _ | EEnd _ _ | ETail _ _ => false | _ => true end.
Lemma quiet_all d : forallb quiet1 d = true -> quiet d.
Proof.
  intros H. rewrite forallb_forall in H. repeat split.
  - intros q. induction d as [|e d IH]; [reflexivity|]. change (acc q (e :: d)) with (acc1 q e ++ acc q d). rewrite IH; [|intros x X; apply H; right; assumption].
    specialize (H e (or_introl eq_refl)). destruct e; cbn in *; try discriminate H; reflexivity.
  - intros q. induction d as [|e d IH]; [reflexivity|]. change (fin q (e :: d)) with (fin1 q e ++ fin q d). rewrite IH; [|intros x X; apply H; right; assumption].
    specialize (H e (or_introl eq_refl)). destruct e; cbn in *; try discriminate H; reflexivity.
  - intros k. induction d as [|e d IH]; [reflexivity|]. change (e :: d) with ([e] ++ d). rewrite tails_app, IH; [|intros x X; apply H; right; assumption].
    specialize (H e (or_introl eq_refl)). destruct e; cbn in *; try discriminate H; reflexivity.
  - intros k qs I. specialize (H _ I). discriminate H.
Qed.
Lemma call_app t qs tr d : (forall t qs, ~ In (ECall t qs) d) -> In (ECall t qs) (tr ++ d) -> In (ECall t qs) tr.
Proof. intros Q I. apply in_app_iff in I. destruct I as [I|I]; [assumption|destruct (Q _ _ I)]. Qed.
Lemma inv2_frame s s' d : inv2 s -> trace s' = trace s ++ d -> quiet d -> (forall q, items s' q = items s q) -> (forall q, cur s' q = cur s q) -> (forall t, left s' t = left s t) -> nextt s' = nextt s ->
  (forall p t i, pcs s' p = Tail t i <-> pcs s p = Tail t i) -> (forall p t i, pcs s p = Tail t i -> map fst (entries s') = map fst (entries s)) -> inv2 s'.
Proof.
  intros [A B C D E] T [Q1 [Q2 [Q3 Q4]]] Hi Hc Hl Hn Hp He.
  assert (Ac : forall q, acc q (trace s') = acc q (trace s)) by (intros q; rewrite T, acc_app, Q1, app_nil_r; reflexivity).
  assert (Fi : forall q, fin q (trace s') = fin q (trace s)) by (intros q; rewrite T, fin_app, Q2, app_nil_r; reflexivity).
  assert (Ta : forall t, tails t (trace s') = tails t (trace s)) by (intros q; rewrite T, tails_app, Q3, Nat.add_0_r; reflexivity).
  assert (Ca : forall t qs, In (ECall t qs) (trace s') <-> In (ECall t qs) (trace s)).
  { intros u qs. rewrite T. split; [apply call_app; assumption|]. intros I. apply in_app_iff. auto. }
  constructor.
  - intros q. rewrite Ac, Fi, Hc, Hi. apply A.
  - intros u. rewrite Hn. intros L. destruct (B u L) as [B1 [B2 [B3 B4]]]. split; [intros q; rewrite Ac; apply B1|]. split; [rewrite Ta; apply B2|]. split.
    + intros qs. rewrite Ca. apply B3.
    + intros p i H. apply Hp in H. exact (B4 _ _ H).
  - intros u qs qs'. rewrite !Ca. apply C.
  - intros u. rewrite Hn. intros L. destruct (D u L) as [qs I]. exists qs. apply Ca. assumption.
  - intros u qs. rewrite Ca. intros I. destruct (E u qs I) as [E1 [E2 [[i [F1 [F2 [F3 F4]]]] [E4 E5]]]].
    split; [assumption|]. split; [assumption|]. split; [|split].
    + exists i. split; [assumption|]. split; [|split].
      * intros p i' H. apply Hp in H. destruct (F2 _ _ H) as [X Y]. split; [assumption|]. rewrite (He _ _ _ H). assumption.
      * intros H. apply F3. intros p i' K. apply Hp in K. exact (H _ _ K).
      * intros q. rewrite Ac. apply F4.
    + rewrite Hl. rewrite (nsum_ext _ (fun q => marks u (fin q (trace s)))); [assumption|]. intros x _. rewrite Fi. reflexivity.
    + rewrite Ta, Hl. assumption.
Qed.
(** A function [it] other than a marker is accepted. *)
Lemma inv2_job s s' q j : inv2 s -> trace s' = trace s ++ [EAccept j q] -> items s' = fupd (items s) q (items s q ++ [Job j]) -> cur s' = cur s -> left s' = left s -> nextt s' = nextt s ->
  (forall p t i, pcs s' p = Tail t i <-> pcs s p = Tail t i) -> map fst (entries s') = map fst (entries s) -> inv2 s'.
Proof.
  intros [A B C D E] T Hi Hc Hl Hn Hp He.
  assert (Ac : forall x, acc x (trace s') = acc x (trace s) ++ (if q =? x then [Job j] else [])) by (intros x; rewrite T, acc_app; cbn; rewrite app_nil_r; reflexivity).
  assert (Am : forall u x, marks u (acc x (trace s')) = marks u (acc x (trace s))) by (intros u x; rewrite Ac, marks_app; destruct (q =? x); cbn; lia).
  assert (Fi : forall x, fin x (trace s') = fin x (trace s)) by (intros x; rewrite T, fin_app; apply app_nil_r).
  assert (Ta : forall u, tails u (trace s') = tails u (trace s)) by (intros u; rewrite T, tails_app; cbn; lia).
  assert (Ca : forall u qs, In (ECall u qs) (trace s') <-> In (ECall u qs) (trace s)).
  { intros u qs. rewrite T. split; [apply call_app; intros ? ? [X|[]]; discriminate X|]. intros I. apply in_app_iff. auto. }
  constructor.
  - intros x. rewrite Ac, Fi, Hc, Hi, A. destruct (Nat.eqb_spec q x) as [->|n]; [rewrite fupd_eq, <- !app_assoc; reflexivity|rewrite fupd_ne, app_nil_r by auto; reflexivity].
  - intros u. rewrite Hn. intros L. destruct (B u L) as [B1 [B2 [B3 B4]]]. split; [intros x; rewrite Am; apply B1|]. split; [rewrite Ta; apply B2|]. split.
    + intros qs. rewrite Ca. apply B3.
    + intros p i H. apply Hp in H. exact (B4 _ _ H).
  - intros u qs qs'. rewrite !Ca. apply C.
  - intros u. rewrite Hn. intros L. destruct (D u L) as [qs I]. exists qs. apply Ca. assumption.
  - intros u qs. rewrite Ca. intros I. destruct (E u qs I) as [E1 [E2 [[i [F1 [F2 [F3 F4]]]] [E4 E5]]]].
    split; [assumption|]. split; [assumption|]. split; [|split].
    + exists i. split; [assumption|]. split; [|split].
      * intros p i' H. apply Hp in H. destruct (F2 _ _ H) as [X Y]. split; [assumption|]. rewrite He. assumption.
      * intros H. apply F3. intros p i' K. apply Hp in K. exact (H _ _ K).
      * intros x. rewrite Am. apply F4.
    + rewrite Hl. rewrite (nsum_ext _ (fun q => marks u (fin q (trace s)))); [assumption|]. intros x _. rewrite Fi. reflexivity.
    + rewrite Ta, Hl. assumption.
Qed.
(** A tail request is placed. *)
Lemma inv2_call s s' p : inv2 s -> (forall p, neutral (pcs s p)) -> NoDup (map fst (entries s)) -> entries s <> [] -> trace s' = trace s ++ [ECall (nextt s) (map fst (entries s))] -> items s' = items s -> cur s' = cur s ->
  left s' = fupd (left s) (nextt s) (length (entries s)) -> nextt s' = S (nextt s) -> pcs s' = fupd (pcs s) p (Tail (nextt s) 0) -> entries s' = entries s -> inv2 s'.
Proof.
  intros [A B C D E] Fr ND NE T Hi Hc Hl Hn Hp He.
  assert (Ac : forall x, acc x (trace s') = acc x (trace s)) by (intros x; rewrite T, acc_app; apply app_nil_r).
  assert (Fi : forall x, fin x (trace s') = fin x (trace s)) by (intros x; rewrite T, fin_app; apply app_nil_r).
  assert (Ta : forall u, tails u (trace s') = tails u (trace s)) by (intros u; rewrite T, tails_app; cbn; lia).
  assert (Ca : forall u qs, In (ECall u qs) (trace s') <-> In (ECall u qs) (trace s) \/ (u = nextt s /\ qs = map fst (entries s))).
  { intros u qs. rewrite T, in_app_iff. cbn. intuition congruence. }
  assert (Pc : forall x u i, pcs s' x = Tail u i -> x = p /\ u = nextt s /\ i = 0).
  { intros x u i H. rewrite Hp in H. apply fupd_case in H. destruct H as [[-> H]|[n H]]; [repeat split; congruence|]. specialize (Fr x). rewrite H in Fr. contradiction Fr. }
  destruct (B (nextt s) (le_n _)) as [N1 [N2 [N3 N4]]].
  constructor.
  - intros x. rewrite Ac, Fi, Hc, Hi. apply A.
  - intros u. rewrite Hn. intros L. assert (L' : nextt s <= u) by lia. destruct (B u L') as [B1 [B2 [B3 B4]]]. split; [intros x; rewrite Ac; apply B1|]. split; [rewrite Ta; apply B2|]. split.
    + intros qs. rewrite Ca. intros [X|[X _]]; [exact (B3 _ X)|lia].
    + intros x i H. apply Pc in H. lia.
  - intros u qs qs'. rewrite !Ca. intros [X|[X1 X2]] [Y|[Y1 Y2]]; try congruence; [eauto|subst u; destruct (N3 _ X)|subst u; destruct (N3 _ Y)].
  - intros u. rewrite Hn. intros L. destruct (Nat.eq_dec u (nextt s)) as [->|n].
    + exists (map fst (entries s)). apply Ca. auto.
    + assert (L' : u < nextt s) by lia. destruct (D u L') as [qs I]. exists qs. apply Ca. auto.
  - intros u qs. rewrite Ca. intros [I|[-> ->]].
    + assert (u <> nextt s) by (intros ->; exact (N3 _ I)). destruct (E u qs I) as [E1 [E2 [[i [F1 [F2 [F3 F4]]]] [E4 E5]]]].
      split; [assumption|]. split; [assumption|]. split; [|split].
      * exists i. split; [assumption|]. split; [|split].
        -- intros x i' K. apply Pc in K. lia.
        -- intros _. apply F3. intros x i' K. specialize (Fr x). rewrite K in Fr. contradiction Fr.
        -- intros x. rewrite Ac. apply F4.
      * rewrite Hl, fupd_ne by assumption. rewrite (nsum_ext _ (fun q => marks u (fin q (trace s)))); [assumption|]. intros x _. rewrite Fi. reflexivity.
      * rewrite Ta, Hl, fupd_ne by assumption. assumption.
    + assert (Z0 : forall q, marks (nextt s) (fin q (trace s)) = 0). { intros q. specialize (N1 q). rewrite A, marks_app in N1. lia. }
      split; [assumption|]. split; [destruct (entries s); [contradiction NE; reflexivity|discriminate]|]. split; [|split].
      * exists 0. split; [lia|]. split; [|split].
        -- intros x i' K. apply Pc in K. rewrite He. split; [apply K|reflexivity].
        -- intros K. exfalso. apply (K p 0). rewrite Hp, fupd_eq. reflexivity.
        -- intros q. rewrite Ac. cbn [firstn]. destruct (in_dec _ _ _) as [[]|]. apply N1.
      * rewrite Hl, fupd_eq, map_length. rewrite (nsum_ext _ (fun _ => 0)); [|intros x _; rewrite Fi; apply Z0].
        assert (NZ : forall l, nsum (fun _ => 0) l = 0) by (induction l; cbn; auto). rewrite NZ. lia.
      * rewrite Ta, N2, Hl, fupd_eq. destruct (entries s); [contradiction NE; reflexivity|reflexivity].
Qed.
Lemma tail_called s p t i : inv2 s -> pcs s p = Tail t i -> In (ECall t (map fst (entries s))) (trace s).
Proof.
  intros [A B C D E] P. destruct (le_lt_dec (nextt s) t) as [L|L]; [destruct (B t L) as [_ [_ [_ X]]]; destruct (X _ _ P)|].
  destruct (D t L) as [qs I]. destruct (E _ _ I) as [_ [_ [[i0 [_ [F _]]] _]]]. destruct (F _ _ P) as [_ ->]. exact I.
Qed.
Lemma firstn_snoc {A} (l : list A) i x : nth_error l i = Some x -> firstn (S i) l = firstn i l ++ [x].
Proof. revert i. induction l as [|y l IH]; intros [|i] H; cbn in *; try discriminate; [congruence|]. f_equal. apply IH. assumption. Qed.
Lemma nth_notin {A} (l : list A) i x : NoDup l -> nth_error l i = Some x -> ~ In x (firstn i l).
Proof.
  revert i. induction l as [|y l IH]; intros [|i] ND H; cbn in *; try discriminate; [intros []|]. inversion ND; subst. intros [->|I]; [|exact (IH _ H3 H I)].
  apply H2. eapply nth_error_In. eassumption.
Qed.
Lemma inv2_mark N s s' p t i q : inv1 N s -> inv2 s -> pcs s p = Tail t i -> nth_error (map fst (entries s)) i = Some q -> trace s' = trace s ++ [EMark t q] -> items s' = fupd (items s) q (items s q ++ [Mark t]) -> cur s' = cur s -> left s' = left s -> nextt s' = nextt s ->
  pcs s' = fupd (pcs s) p (Tail t (S i)) -> entries s' = entries s -> inv2 s'.
Proof.
  intros I1 I2 P Ne T Hi Hc Hl Hn Hp He. pose proof (tail_called _ _ _ _ I2 P) as Cl. pose proof I2 as [A B C D E].
  assert (Uq : forall x u k, pcs s x = Tail u k -> x = p /\ u = t /\ k = i).
  { intros x u k H. destruct (i_tail _ _ I1 _ _ _ H) as [L1 _]. destruct (i_tail _ _ I1 _ _ _ P) as [L2 _]. assert (x = p) by congruence. subst x. repeat split; congruence. }
  assert (Ac : forall x, acc x (trace s') = acc x (trace s) ++ (if q =? x then [Mark t] else [])) by (intros x; rewrite T, acc_app; cbn; rewrite app_nil_r; reflexivity).
  assert (Am : forall u x, u <> t -> marks u (acc x (trace s')) = marks u (acc x (trace s))).
  { intros u x n. rewrite Ac, marks_app. destruct (q =? x); cbn; [|lia]. unfold marks. cbn. rewrite (proj2 (Nat.eqb_neq _ _)) by auto. cbn. lia. }
  assert (Fi : forall x, fin x (trace s') = fin x (trace s)) by (intros x; rewrite T, fin_app; apply app_nil_r).
  assert (Ta : forall u, tails u (trace s') = tails u (trace s)) by (intros u; rewrite T, tails_app; cbn; lia).
  assert (Ca : forall u qs, In (ECall u qs) (trace s') <-> In (ECall u qs) (trace s)).
  { intros u qs. rewrite T. split; [apply call_app; intros ? ? [X|[]]; discriminate X|]. intros I. apply in_app_iff. auto. }
  assert (Pc : forall x u k, pcs s' x = Tail u k -> x = p /\ u = t /\ k = S i).
  { intros x u k H. rewrite Hp in H. apply fupd_case in H. destruct H as [[-> H]|[n H]]; [repeat split; congruence|]. apply Uq in H. destruct H as [H _]. contradiction. }
  assert (Tn : t < nextt s). { destruct (le_lt_dec (nextt s) t) as [L|L]; [destruct (B t L) as [_ [_ [_ X]]]; destruct (X _ _ P)|assumption]. }
  constructor.
  - intros x. rewrite Ac, Fi, Hc, Hi, A. destruct (Nat.eqb_spec q x) as [->|n]; [rewrite fupd_eq, <- !app_assoc; reflexivity|rewrite fupd_ne, app_nil_r by auto; reflexivity].
  - intros u. rewrite Hn. intros L. destruct (B u L) as [B1 [B2 [B3 B4]]]. split; [intros x; rewrite Am by lia; apply B1|]. split; [rewrite Ta; apply B2|]. split.
    + intros qs. rewrite Ca. apply B3.
    + intros x k H. apply Pc in H. lia.
  - intros u qs qs'. rewrite !Ca. apply C.
  - intros u. rewrite Hn. intros L. destruct (D u L) as [qs I]. exists qs. apply Ca. assumption.
  - intros u qs. rewrite Ca. intros I. destruct (E u qs I) as [E1 [E2 [[i0 [F1 [F2 [F3 F4]]]] [E4 E5]]]].
    split; [assumption|]. split; [assumption|]. split; [|split].
    + destruct (Nat.eq_dec u t) as [->|n].
      * destruct (F2 _ _ P) as [<- Q]. pose proof (nth_lt _ _ _ Ne) as Ln. rewrite Q in Ln, Ne. exists (S i). split; [lia|]. split; [|split].
        -- intros x i' H. apply Pc in H. rewrite He. split; [apply H|assumption].
        -- intros H. exfalso. apply (H p (S i)). rewrite Hp, fupd_eq. reflexivity.
        -- intros x. rewrite Ac, marks_app, F4. rewrite (firstn_snoc _ _ _ Ne). pose proof (nth_notin _ _ _ E1 Ne) as Nn.
           destruct (Nat.eqb_spec q x) as [->|nx].
           ++ destruct (in_dec _ x (firstn i qs)); [contradiction|]. destruct (in_dec _ x (firstn i qs ++ [x])) as [_|Y]; [|destruct Y; apply in_app_iff; right; left; reflexivity].
              unfold marks. cbn. rewrite Nat.eqb_refl. reflexivity.
           ++ change (marks t []) with 0. rewrite Nat.add_0_r. destruct (in_dec _ x (firstn i qs)) as [Y|Y]; destruct (in_dec _ x (firstn i qs ++ [q])) as [Z0|Z0]; try reflexivity; exfalso.
              ** apply Z0. apply in_app_iff. auto.
              ** apply in_app_iff in Z0. destruct Z0 as [Z0|[Z0|[]]]; contradiction.
      * exists i0. split; [assumption|]. split; [|split].
        -- intros x i' H. apply Pc in H. lia.
        -- intros _. apply F3. intros x i' H. apply Uq in H. lia.
        -- intros x. rewrite Am by assumption. apply F4.
    + rewrite Hl. rewrite (nsum_ext _ (fun q => marks u (fin q (trace s)))); [assumption|]. intros x _. rewrite Fi. reflexivity.
    + rewrite Ta, Hl. assumption.
Qed.
(** The placing of markers ends. *)
Lemma inv2_end N s s' p t i : inv1 N s -> inv2 s -> pcs s p = Tail t i -> nth_error (entries s) i = None -> trace s' = trace s -> items s' = items s -> cur s' = cur s -> left s' = left s -> nextt s' = nextt s -> pcs s' = fupd (pcs s) p Idle -> inv2 s'.
Proof.
  intros I1 I2 P Ne T Hi Hc Hl Hn Hp. pose proof (tail_called _ _ _ _ I2 P) as Cl. pose proof I2 as [A B C D E].
  assert (Uq : forall x u k, pcs s x = Tail u k -> x = p /\ u = t /\ k = i).
  { intros x u k H. destruct (i_tail _ _ I1 _ _ _ H) as [L1 _]. destruct (i_tail _ _ I1 _ _ _ P) as [L2 _]. assert (x = p) by congruence. subst x. repeat split; congruence. }
  assert (Pc : forall x u k, pcs s' x <> Tail u k).
  { intros x u k H. rewrite Hp in H. apply fupd_case in H. destruct H as [[-> H]|[n H]]; [discriminate|]. apply Uq in H. destruct H as [H _]. contradiction. }
  constructor; rewrite ?T, ?Hi, ?Hc, ?Hn; auto.
  - intros u L. destruct (B u L) as [B1 [B2 [B3 B4]]]. auto.
  - intros u qs I. destruct (E u qs I) as [E1 [E2 [[i0 [F1 [F2 [F3 F4]]]] [E4 E5]]]]. unfold tok. rewrite T, Hl.
    split; [assumption|]. split; [assumption|]. split; [|auto]. exists i0. split; [assumption|]. split; [|split; [|assumption]].
    + intros x k H. destruct (Pc _ _ _ H).
    + intros _. destruct (Nat.eq_dec u t) as [->|n].
      * destruct (F2 _ _ P) as [<- Q]. apply nth_len in Ne. rewrite <- (map_length fst), Q in Ne. lia.
      * apply F3. intros x k H. apply Uq in H. lia.
Qed.
Lemma inv2_begin s s' q it r : inv2 s -> cur s q = None -> items s q = it :: r -> trace s' = trace s ++ [EBegin q it] -> items s' = fupd (items s) q r -> cur s' = fupd (cur s) q (Some it) -> left s' = left s -> nextt s' = nextt s -> pcs s' = pcs s -> entries s' = entries s -> inv2 s'.
Proof.
  intros I Cu It T Hi Hc Hl Hn Hp He.
  assert (I' : inv2 (emit s (EBegin q it))). { eapply inv2_frame; try exact I; try reflexivity. apply quiet_all. reflexivity. }
  destruct I' as [A B C D E]. proj. constructor; rewrite ?T, ?Hn, ?Hp; auto.
  - intros x. rewrite A, Hi, Hc. destruct (Nat.eq_dec x q) as [->|n]; [rewrite !fupd_eq, Cu, It; reflexivity|rewrite !fupd_ne by assumption; reflexivity].
  - intros u qs I0. specialize (E u qs I0). unfold tok in *. proj. rewrite T, Hl, Hp, He. exact E.
Qed.
(** What is being executed is not a finished marker. *)
Lemma cur_mark s q t : inv2 s -> cur s q = Some (Mark t) -> exists qs, In (ECall t qs) (trace s) /\ In q qs /\ marks t (fin q (trace s)) = 0 /\ marks t (acc q (trace s)) = 1.
Proof.
  intros [A B C D E] Cu. pose proof (A q) as Aq. rewrite Cu in Aq. assert (M : marks t (acc q (trace s)) = marks t (fin q (trace s)) + (1 + marks t (items s q))).
  { rewrite Aq, marks_app. f_equal. unfold marks. cbn. rewrite Nat.eqb_refl. reflexivity. }
  destruct (le_lt_dec (nextt s) t) as [L|L]; [destruct (B t L) as [X _]; rewrite X in M; lia|].
  destruct (D t L) as [qs I]. exists qs. destruct (E _ _ I) as [E1 [E2 [[i0 [F1 [F2 [F3 F4]]]] [E4 E5]]]]. rewrite F4 in *.
  destruct (in_dec _ _ _) as [J|J]; [|lia]. repeat split; try assumption; try lia. rewrite <- (firstn_skipn i0 qs). apply in_app_iff. auto.
Qed.
Lemma marks_fin1 s q t qs : inv2 s -> In (ECall t qs) (trace s) -> marks t (fin q (trace s)) <= 1.
Proof.
  intros [A B C D E] I. destruct (E _ _ I) as [E1 [E2 [[i0 [F1 [F2 [F3 F4]]]] [E4 E5]]]]. specialize (F4 q). rewrite A, marks_app in F4. destruct (in_dec _ _ _); lia.
Qed.
Lemma inv2_fin s s' q it : inv2 s -> cur s q = Some it -> items s' = items s -> cur s' = fupd (cur s) q None -> nextt s' = nextt s -> pcs s' = pcs s -> entries s' = entries s ->
  (left s', trace s') = match it with Mark t => (fupd (left s) t (Nat.pred (left s t)), trace s ++ (if Nat.pred (left s t) =? 0 then [ETail t q; EEnd q it] else [EEnd q it])) | Job _ => (left s, trace s ++ [EEnd q it]) end -> inv2 s'.
Proof.
  intros I Cu Hi Hc Hn Hp He HT. pose proof I as [A B C D E].
  assert (Hd : exists d, trace s' = trace s ++ d /\ (forall x, acc x d = []) /\ (forall x, fin x d = if q =? x then [it] else []) /\ (forall u qs, ~ In (ECall u qs) d) /\ (forall u, tails u d = if ismark u it then (if Nat.pred (left s u) =? 0 then 1 else 0) else 0)).
  { destruct it as [j|t]; (assert (HT' : trace s' = trace s ++ _) by (exact (f_equal snd HT))); cbn [snd] in HT'; eexists; (split; [exact HT'|]).
    - repeat split; intros; cbn; try reflexivity; try (destruct (q =? x); reflexivity). intros [X|[]]; discriminate.
    - destruct (Nat.pred (left s t) =? 0) eqn:Z0.
      + repeat split; intros; cbn; try reflexivity; try (destruct (q =? x); reflexivity).
        * intros [X|[X|[]]]; discriminate.
        * unfold tails. cbn. destruct (Nat.eqb_spec t u) as [<-|n]; [rewrite Z0; reflexivity|reflexivity].
      + repeat split; intros; cbn; try reflexivity; try (destruct (q =? x); reflexivity).
        * intros [X|[]]; discriminate.
        * destruct (Nat.eqb_spec t u) as [<-|n]; [rewrite Z0|]; reflexivity. }
  assert (Hl : left s' = match it with Mark t => fupd (left s) t (Nat.pred (left s t)) | Job _ => left s end) by (destruct it; exact (f_equal fst HT)).
  clear HT. destruct Hd as [d [T [D1 [D2 [D3 D4]]]]].
  assert (Ac : forall x, acc x (trace s') = acc x (trace s)) by (intros x; rewrite T, acc_app, D1; apply app_nil_r).
  assert (Fi : forall x, fin x (trace s') = fin x (trace s) ++ (if q =? x then [it] else [])) by (intros x; rewrite T, fin_app, D2; reflexivity).
  assert (Ca : forall u qs, In (ECall u qs) (trace s') <-> In (ECall u qs) (trace s)).
  { intros u qs. rewrite T. split; [apply call_app; assumption|]. intros J. apply in_app_iff. auto. }
  assert (Mk : forall u, ismark u it = true -> it = Mark u) by (intros u; destruct it as [j|k]; cbn; [discriminate|]; intros X; apply Nat.eqb_eq in X; subst; reflexivity).
  constructor.
  - intros x. rewrite Ac, Fi, Hc, Hi, A. destruct (Nat.eqb_spec q x) as [->|n]; [rewrite fupd_eq, Cu; cbn; rewrite <- app_assoc; reflexivity|rewrite fupd_ne, app_nil_r by auto; reflexivity].
  - intros u. rewrite Hn, Hp. intros L. destruct (B u L) as [B1 [B2 [B3 B4]]]. split; [intros x; rewrite Ac; apply B1|]. split; [|split; [intros qs; rewrite Ca; apply B3|exact B4]].
    rewrite T, tails_app, D4, B2. destruct (ismark u it) eqn:M; [|reflexivity]. apply Mk in M. subst it. destruct (cur_mark _ _ _ I Cu) as [qs [X _]]. destruct (B3 _ X).
  - intros u qs qs'. rewrite !Ca. apply C.
  - intros u. rewrite Hn. intros L. destruct (D u L) as [qs J]. exists qs. apply Ca. assumption.
  - intros u qs. rewrite Ca. intros J. destruct (E u qs J) as [E1 [E2 [[i0 [F1 [F2 [F3 F4]]]] [E4 E5]]]]. unfold tok. rewrite Hp, He.
    split; [assumption|]. split; [assumption|]. split; [exists i0; repeat split; try assumption; try apply (F2 _ _ H); intros x; rewrite Ac; apply F4|].
    destruct (ismark u it) eqn:M.
    + apply Mk in M. subst it. destruct (cur_mark _ _ _ I Cu) as [qs' [X [Y [Z0 W]]]]. assert (qs' = qs) by eauto. subst qs'.
      assert (NS : nsum (fun q0 => marks u (fin q0 (trace s'))) qs = S (nsum (fun q0 => marks u (fin q0 (trace s))) qs)).
      { apply (nsum_inc _ _ _ q); [assumption|assumption| |].
        - rewrite Fi, Nat.eqb_refl, marks_app. unfold marks at 2. cbn. rewrite Nat.eqb_refl. cbn. lia.
        - intros x n. rewrite Fi. rewrite (proj2 (Nat.eqb_neq _ _)) by auto. rewrite app_nil_r. reflexivity. }
      assert (Lt : nsum (fun q0 => marks u (fin q0 (trace s))) qs < length qs).
      { pose proof (nsum_le (fun q0 => marks u (fin q0 (trace s))) qs (fun x => marks_fin1 _ x _ _ I J)) as Le. destruct (Nat.eq_dec (nsum (fun q0 => marks u (fin q0 (trace s))) qs) (length qs)) as [Eq|]; [|lia].
        pose proof (nsum_full _ _ (fun x => marks_fin1 _ x _ _ I J) Eq q Y) as X1. cbn in X1. lia. }
      rewrite NS, Hl, fupd_eq. split; [lia|]. rewrite T, tails_app, D4, E5. cbn [ismark]. rewrite Nat.eqb_refl.
      destruct (left s u =? 0) eqn:L0; [apply Nat.eqb_eq in L0; lia|reflexivity].
    + assert (Lf : left s' u = left s u). { rewrite Hl. destruct it as [j|k]; [reflexivity|]. cbn in M. apply Nat.eqb_neq in M. apply fupd_ne. auto. }
      rewrite Lf. rewrite (nsum_ext _ (fun q => marks u (fin q (trace s)))).
      * split; [assumption|]. rewrite T, tails_app, D4, M, E5. lia.
      * intros x _. rewrite Fi, marks_app. destruct (q =? x); [|cbn; lia]. unfold marks at 2. cbn [filter]. rewrite M. cbn. lia.
Qed.
Lemma tail_iff (f : nat -> pc) p x : neutral (f p) \/ (exists j i b, f p = Scan j i b) -> (match x with Tail _ _ => False | _ => True end) -> forall y t i, fupd f p x y = Tail t i <-> f y = Tail t i.
Proof.
  intros H X y t i. destruct (Nat.eq_dec y p) as [->|n]; [rewrite fupd_eq|rewrite fupd_ne by assumption; reflexivity].
  split; intros K; [subst x; contradiction X|]. rewrite K in H. destruct H as [[]|[? [? [? H]]]]; discriminate.
Qed.
Ltac fr d := eapply (inv2_frame _ _ d); [eassumption|proj; rewrite ?app_nil_r; try reflexivity|apply quiet_all; try reflexivity|proj; try reflexivity..].
Lemma inv2_step N l s s' : 1 <= N -> inv1 N s -> inv2 s -> exec N l s = Some s' -> inv2 s'.
Proof.
  intros N1 I1 I2 H. unfold exec in H. destruct (crashed s); [discriminate H|]. destruct l.
  - destruct (lock s) eqn:Lk; [discriminate|]. destruct (pcs s p) eqn:P; try discriminate. res H.
    fr (@nil ev). apply tail_iff; [left; rewrite P|]; exact I.
  - destruct (pcs s p) as [|j i b| | | |] eqn:P; try discriminate. destruct (nth_error (entries s) i) as [[q u]|] eqn:Ne; [|discriminate]. res H.
    fr (@nil ev). apply tail_iff; [right; rewrite P; eauto|exact I].
  - destruct (pcs s p) as [|j i b| | | |] eqn:P; try discriminate. destruct (nth_error (entries s) i) as [[q u]|] eqn:Ne; [discriminate|].
    destruct (pick N s b ok) as [s1 o] eqn:Pk. destruct (i_scan _ _ I1 _ _ _ _ P) as [Lk _]. res H.
    assert (S1 : exists d, trace s1 = trace s ++ d /\ forallb quiet1 d = true /\ items s1 = items s /\ cur s1 = cur s /\ left s1 = left s /\ nextt s1 = nextt s /\ pcs s1 = pcs s).
    { unfold pick in Pk. match type of Pk with context [if ?x then if ok then _ else _ else _] => destruct x end; [destruct ok|].
      - assert (s1 = set_cnt (create s) (nextq s) (S (cnt (create s) (nextq s)))) by congruence. subst s1. exists [ECreate (nextq s)]. repeat split.
      - exists []. rewrite app_nil_r. destruct b as [b|]; [assert (s1 = set_cnt s b (S (cnt s b))) by congruence|assert (s1 = s) by congruence]; subst s1; repeat split.
      - exists []. rewrite app_nil_r. destruct b as [b|]; [assert (s1 = set_cnt s b (S (cnt s b))) by congruence|assert (s1 = s) by congruence]; subst s1; repeat split. }
    destruct S1 as [d [T [Q [E1 [E2 [E3 [E4 E5]]]]]]].
    assert (NT : forall x t k, pcs s x <> Tail t k). { intros x t k K. destruct (i_tail _ _ I1 _ _ _ K) as [K1 _]. assert (x = p) by congruence. subst x. rewrite P in K. discriminate. }
    destruct o as [q|].
    + fr d; try assumption; try (intros; congruence).
      * rewrite E5. apply tail_iff; [right; rewrite P; eauto|exact I].
      * intros x t k K. destruct (NT _ _ _ K).
    + fr (d ++ [ENone j]).
      * rewrite T, app_assoc. reflexivity.
      * rewrite forallb_app, Q. reflexivity.
      * intros x. rewrite E1. reflexivity.
      * intros x. rewrite E2. reflexivity.
      * intros x. rewrite E3. reflexivity.
      * assumption.
      * rewrite E5. apply tail_iff; [right; rewrite P; eauto|exact I].
      * intros x t k K. destruct (NT _ _ _ K).
  - destruct (pcs s p) eqn:P; try discriminate. res H. destruct ok.
    + eapply (inv2_job s _ q j); [assumption|proj; try reflexivity..]. apply tail_iff; [left; rewrite P|]; exact I.
    + fr [ERefuse j q]. apply tail_iff; [left; rewrite P|]; exact I.
  - destruct (pcs s p) eqn:P; try discriminate. res H. fr (@nil ev). apply tail_iff; [left; rewrite P|]; exact I.
  - destruct (lock s) eqn:Lk; [discriminate|]. destruct (pcs s p) eqn:P; try discriminate.
    match type of H with (let '(_, _) := ?x in _) = _ => destruct x as [s1 b] eqn:Al end.
    destruct (alloc_case _ _ _ _ _ N1 I1 (inv1_free _ _ I1 Lk) Al) as [_ [Fr [S1 _]]]. res H.
    assert (NT : forall x t k, pcs s x <> Tail t k). { intros x t k K. pose proof (inv1_free _ _ I1 Lk x) as Fx. rewrite K in Fx. contradiction Fx. }
    assert (I2' : inv2 s1). { destruct S1 as [->| ->]; [assumption|]. fr [ECreate (nextq s)]. intros x t k K. destruct (NT _ _ _ K). }
    assert (NT' : forall x t k, pcs s1 x <> Tail t k) by (intros x t k; destruct S1 as [->| ->]; apply NT).
    destruct b as [i|]; [|assumption]. fr (@nil ev).
    + apply tail_iff; [left; apply Fr|exact I].
    + intros x t k K. destruct (NT' _ _ _ K).
  - destruct (pcs s p) eqn:P; try discriminate. res H. destruct (nth_error _ _) as [[q0 u]|].
    + fr [EAlloc q0]. apply tail_iff; [left; rewrite P|]; exact I.
    + fr (@nil ev). apply tail_iff; [left; rewrite P|]; exact I.
  - destruct (lock s) eqn:Lk; [discriminate|]. destruct (unuse (entries s) q) as [e|] eqn:U; [|discriminate]. res H. fr [EFree q].
    intros x t k K. pose proof (inv1_free _ _ I1 Lk x) as Fx. rewrite K in Fx. contradiction Fx.
  - destruct (lock s) eqn:Lk; [discriminate|]. destruct (rev (entries s)) as [|[q u] r] eqn:Rv; [discriminate|]. destruct (_ && _); [|discriminate]. res H. fr [ERemove q].
    intros x t k K. pose proof (inv1_free _ _ I1 Lk x) as Fx. rewrite K in Fx. contradiction Fx.
  - destruct (lock s) eqn:Lk; [discriminate|]. res H. fr (map (fun e => ERemove (fst e)) (entries s)).
    + apply forallb_forall. intros e. rewrite in_map_iff. intros [x [<- _]]. reflexivity.
    + intros x t k K. pose proof (inv1_free _ _ I1 Lk x) as Fx. rewrite K in Fx. contradiction Fx.
  - destruct (lock s) eqn:Lk; [discriminate|]. destruct (pcs s p) eqn:P; try discriminate.
    set (s1 := match entries s with [] => if ok then create s else s | _ => s end) in *.
    assert (S1 : s1 = s \/ (s1 = create s /\ entries s = [])) by (unfold s1; destruct (entries s); [destruct ok|]; auto).
    assert (NT : forall x t k, pcs s x <> Tail t k). { intros x t k K. pose proof (inv1_free _ _ I1 Lk x) as Fx. rewrite K in Fx. contradiction Fx. }
    assert (I2' : inv2 s1). { destruct S1 as [->|[-> _]]; [assumption|]. fr [ECreate (nextq s)]. intros x t k K. destruct (NT _ _ _ K). }
    assert (Fr : forall x, neutral (pcs s1 x)) by (intros x; destruct S1 as [->|[-> _]]; apply (inv1_free _ _ I1 Lk)).
    assert (ND : NoDup (map fst (entries s1))). { destruct S1 as [->|[-> E]]; [apply I1|]. proj. rewrite E. cbn. constructor; [intros []|constructor]. }
    destruct (entries s1) as [|e0 es] eqn:En; [discriminate|]. res H. rewrite <- En in *.
    eapply (inv2_call s1 _ p); try eassumption; try reflexivity. rewrite En. discriminate.
  - destruct (pcs s p) as [| | | | |t i] eqn:P; try discriminate. destruct (nth_error (entries s) i) as [[q u]|] eqn:Ne; [|discriminate]. res H.
    eapply (inv2_mark N s _ p t i q); try eassumption; try reflexivity. rewrite (map_nth_error fst i _ Ne). reflexivity.
  - destruct (pcs s p) as [| | | | |t i] eqn:P; try discriminate. destruct (nth_error (entries s) i) eqn:Ne; [discriminate|]. res H.
    eapply (inv2_end N s _ p t i); try eassumption; reflexivity.
  - destruct (q <? nextq s); [|discriminate]. res H. eapply (inv2_job s _ q (nextj s)); [assumption|reflexivity..].
  - destruct (cur s q) eqn:Cu; [discriminate|]. destruct (items s q) as [|it r] eqn:It; [discriminate|]. res H. eapply (inv2_begin s _ q it r); try eassumption; reflexivity.
  - destruct (cur s q) as [it|] eqn:Cu; [|discriminate]. destruct it as [j|t]; res H.
    + eapply (inv2_fin s _ q (Job j)); try eassumption; reflexivity.
    + eapply (inv2_fin s _ q (Mark t)); try eassumption; reflexivity.
Qed.
Lemma inv2_init : inv2 init.
Proof.
  constructor; cbn; try (intros; contradiction).
  - intros q. reflexivity.
  - intros t _. repeat split; auto. discriminate.
  - intros t L. lia.
Qed.
Lemma reach_inv2 N s : 1 <= N -> reach N s -> inv2 s.
Proof. intros N1. induction 1; [apply inv2_init|]. eapply inv2_step; try eassumption. apply reach_inv1; assumption. Qed.

(** ** The theorems. *)
Definition iscreate (e : ev) : bool := match e with ECreate _ => true | _ => false end.
Definition isremove (e : ev) : bool := match e with ERemove _ => true | _ => false end.
Definition howmany (f : ev -> bool) (tr : list ev) : nat := length (filter f tr).
Lemma howmany_app f a b : howmany f (a ++ b) = howmany f a + howmany f b.
Proof. unfold howmany. rewrite filter_app, app_length. reflexivity. Qed.
Lemma bump_len i l : length (bump i l) = length l.
Proof. rewrite <- (map_length fst), bump_fst, map_length. reflexivity. Qed.
Lemma size_step N l s s' : exec N l s = Some s' -> howmany iscreate (trace s) = howmany isremove (trace s) + length (entries s) -> howmany iscreate (trace s') = howmany isremove (trace s') + length (entries s').
Proof.
  intros H B. assert (Cr : howmany iscreate (trace (create s)) = howmany isremove (trace (create s)) + length (entries (create s))).
  { proj. rewrite !howmany_app, app_length. cbn. lia. }
  assert (Us : forall x i, howmany iscreate (trace x) = howmany isremove (trace x) + length (entries x) -> howmany iscreate (trace (use x i)) = howmany isremove (trace (use x i)) + length (entries (use x i))).
  { intros x i X. rewrite use_bump, bump_len. exact X. }
  unfold exec in H. destruct (crashed s); [discriminate H|]. destruct l.
  - destruct (lock s) eqn:Lk; [discriminate|]. destruct (pcs s p) eqn:P; try discriminate. res H. assumption.
  - destruct (pcs s p) as [|j i b| | | |] eqn:P; try discriminate. destruct (nth_error (entries s) i) as [[q u]|] eqn:Ne; [|discriminate]. res H. assumption.
  - destruct (pcs s p) as [|j i b| | | |] eqn:P; try discriminate. destruct (nth_error (entries s) i) as [[q u]|] eqn:Ne; [discriminate|].
    destruct (pick N s b ok) as [s1 o] eqn:Pk. res H.
    assert (S1 : (trace s1 = trace s /\ entries s1 = entries s) \/ (trace s1 = trace (create s) /\ entries s1 = entries (create s))).
    { unfold pick in Pk. match type of Pk with context [if ?x then if ok then _ else _ else _] => destruct x end; [destruct ok|].
      - right. assert (s1 = set_cnt (create s) (nextq s) (S (cnt (create s) (nextq s)))) by congruence. subst s1. auto.
      - left. destruct b as [b|]; [assert (s1 = set_cnt s b (S (cnt s b))) by congruence|assert (s1 = s) by congruence]; subst s1; auto.
      - left. destruct b as [b|]; [assert (s1 = set_cnt s b (S (cnt s b))) by congruence|assert (s1 = s) by congruence]; subst s1; auto. }
    assert (B1 : howmany iscreate (trace s1) = howmany isremove (trace s1) + length (entries s1)) by (destruct S1 as [[-> ->]|[-> ->]]; assumption).
    destruct o; proj; [exact B1|]. rewrite !howmany_app. cbn. lia.
  - destruct (pcs s p) eqn:P; try discriminate. res H. destruct ok; proj; rewrite !howmany_app; cbn; lia.
  - destruct (pcs s p) eqn:P; try discriminate. res H. assumption.
  - destruct (lock s) eqn:Lk; [discriminate|]. destruct (pcs s p) eqn:P; try discriminate.
    match type of H with (let '(_, _) := ?x in _) = _ => destruct x as [s1 b] eqn:Al end. res H.
    assert (S1 : s1 = s \/ s1 = create s).
    { match type of Al with (if ?x then if ok then _ else _ else _) = _ => destruct x end; [destruct ok|]; [right|left|left]; congruence. }
    assert (B1 : howmany iscreate (trace s1) = howmany isremove (trace s1) + length (entries s1)) by (destruct S1 as [->| ->]; assumption).
    destruct b; [apply (Us s1 n B1)|assumption].
  - destruct (pcs s p) eqn:P; try discriminate. res H. destruct (nth_error _ _) as [[q0 u]|]; proj; [rewrite !howmany_app; cbn; lia|assumption].
  - destruct (lock s) eqn:Lk; [discriminate|]. destruct (unuse (entries s) q) as [e|] eqn:U; [|discriminate]. res H. destruct (unuse_fst _ _ _ U) as [A _]. proj.
    rewrite !howmany_app. cbn. rewrite <- (map_length fst e), A, map_length. lia.
  - destruct (lock s) eqn:Lk; [discriminate|]. destruct (rev (entries s)) as [|[q u] r] eqn:Rv; [discriminate|]. destruct (_ && _); [|discriminate]. res H. apply rev_cons_eq in Rv. proj. rewrite Rv in B.
    rewrite !howmany_app. rewrite app_length in B. cbn in *. lia.
  - destruct (lock s) eqn:Lk; [discriminate|]. res H. proj. rewrite !howmany_app.
    assert (M : forall l : list (nat * nat), howmany iscreate (map (fun e => ERemove (fst e)) l) = 0 /\ howmany isremove (map (fun e => ERemove (fst e)) l) = length l).
    { induction l as [|x l [IH1 IH2]]; cbn in *; [auto|]. unfold howmany in *. cbn. rewrite IH1, IH2. auto. }
    destruct (M (entries s)) as [-> ->]. cbn. lia.
  - destruct (lock s) eqn:Lk; [discriminate|]. destruct (pcs s p) eqn:P; try discriminate.
    set (s1 := match entries s with [] => if ok then create s else s | _ => s end) in *.
    assert (S1 : s1 = s \/ s1 = create s) by (unfold s1; destruct (entries s); [destruct ok|]; auto).
    assert (B1 : howmany iscreate (trace s1) = howmany isremove (trace s1) + length (entries s1)) by (destruct S1 as [->| ->]; assumption).
    destruct (entries s1) as [|e0 es] eqn:En; [discriminate|]. res H. rewrite <- En in *. proj. rewrite !howmany_app. cbn. lia.
  - destruct (pcs s p) as [| | | | |t i] eqn:P; try discriminate. destruct (nth_error (entries s) i) as [[q u]|] eqn:Ne; [|discriminate]. res H. proj. rewrite !howmany_app. cbn. lia.
  - destruct (pcs s p) as [| | | | |t i] eqn:P; try discriminate. destruct (nth_error (entries s) i) eqn:Ne; [discriminate|]. res H. assumption.
  - destruct (q <? nextq s); [|discriminate]. res H. proj. rewrite !howmany_app. cbn. lia.
  - destruct (cur s q) eqn:Cu; [discriminate|]. destruct (items s q) as [|it r] eqn:It; [discriminate|]. res H. proj. rewrite !howmany_app. cbn. lia.
  - destruct (cur s q) as [it|] eqn:Cu; [|discriminate]. destruct it as [j|t]; res H; proj; rewrite !howmany_app; [cbn; lia|].
    destruct (_ =? 0); cbn; lia.
Qed.
Lemma reach_size N s : reach N s -> howmany iscreate (trace s) = howmany isremove (trace s) + length (entries s).
Proof. induction 1; [reflexivity|]. eapply size_step; eassumption. Qed.

(** A pool configured for N queues never has more than N: the queues created and not removed are the pool's entries, at most N of them, all different. *)
Theorem C34_size N s : 1 <= N -> reachable N s ->
  howmany iscreate (trace s) = howmany isremove (trace s) + length (entries s) /\ length (entries s) <= N /\ NoDup (map fst (entries s)).
Proof.
  intros N1 R. apply reachable_reach in R. pose proof (reach_inv1 _ _ N1 R) as I. split; [apply (reach_size _ _ R)|]. split; apply I.
Qed.
Print Assumptions C34_size.

Lemma tails_spec N s t : 1 <= N -> reach N s -> tails t (trace s) <= 1.
Proof.
  intros N1 R. pose proof (reach_inv2 _ _ N1 R) as I. destruct (le_lt_dec (nextt s) t) as [L|L]; [destruct (j_new _ I t L) as [_ [-> _]]; lia|].
  destruct (j_has _ I t L) as [qs C]. destruct (j_t _ I _ _ C) as [_ [_ [_ [_ ->]]]]. destruct (left s t =? 0); lia.
Qed.
(** The function of a tail request is called at most once, and only if there was such a request; it has been called once the queues the request was placed for have nothing left to do. *)
Theorem C34_tail_once N s t : 1 <= N -> reachable N s ->
  tails t (trace s) <= 1 /\
  (forall q, In (ETail t q) (trace s) -> exists qs, In (ECall t qs) (trace s) /\ In q qs) /\
  (forall qs, In (ECall t qs) (trace s) -> (forall p i, pcs s p <> Tail t i) -> (forall q, In q qs -> items s q = [] /\ cur s q = None) -> tails t (trace s) = 1).
Proof.
  intros N1 R. apply reachable_reach in R. pose proof (reach_inv2 _ _ N1 R) as I. split; [apply (tails_spec _ _ _ N1 R)|]. split.
  - intros q J. apply in_split in J. destruct J as [a [b T]]. destruct (reach_split _ _ R _ _ _ T) as [s0 [l [s1 [d1 [d2 [R0' [E [T1 A]]]]]]]].
    assert (I0 : inv2 s0) by (eapply reach_inv2; eassumption).
    assert (Cu : cur s0 q = Some (Mark t)).
    { clear -E T1. steps E; proj; rewrite <- ?app_assoc in T1;
      try (match type of T1 with trace ?z = trace ?z ++ _ => rewrite <- (app_nil_r (trace z)) in T1 at 1 end); apply app_inv_head in T1;
      try (destruct d1 as [|? [|? [|? ?]]]; cbn in T1; congruence).
      - assert (X : In (ETail t q) (map (fun e : nat * nat => ERemove (fst e)) (entries s0))) by (rewrite T1; apply in_app_iff; right; left; reflexivity). apply in_map_iff in X. destruct X as [? [X _]]. discriminate X. }
    destruct (cur_mark _ _ _ I0 Cu) as [qs [X [Y _]]]. exists qs. split; [|assumption]. rewrite T, A. rewrite !in_app_iff. auto.
  - intros qs C NT Dr. destruct (j_t _ I _ _ C) as [E1 [E2 [[i0 [F1 [F2 [F3 F4]]]] [E4 E5]]]]. rewrite E5. rewrite (F3 NT) in F4. rewrite firstn_all in F4.
    rewrite (nsum_const1 _ qs) in E4; [rewrite (proj2 (Nat.eqb_eq _ _)) by lia; reflexivity|].
    intros q Q. destruct (Dr q Q) as [D1 D2]. specialize (F4 q). rewrite (j_q _ I), D1, D2, !app_nil_r in F4. destruct (in_dec _ _ _); [assumption|contradiction].
Qed.
Print Assumptions C34_tail_once.

Lemma in_acc q tr it : In it (acc q tr) <-> match it with Job j => In (EAccept j q) tr | Mark t => In (EMark t q) tr end.
Proof.
  unfold acc. rewrite in_flat_map. split.
  - intros [e [E H]]. destruct e; cbn in H; try contradiction H; destruct (Nat.eqb_spec q0 q) as [->|]; try contradiction H; destruct H as [<-|[]]; assumption.
  - destruct it as [j|t]; intros H; eexists; (split; [exact H|]); cbn; rewrite Nat.eqb_refl; left; reflexivity.
Qed.
Lemma in_fin q tr it : In it (fin q tr) <-> In (EEnd q it) tr.
Proof.
  unfold fin. rewrite in_flat_map. split.
  - intros [e [E H]]. destruct e; cbn in H; try contradiction H; destruct (Nat.eqb_spec q0 q) as [->|]; try contradiction H; destruct H as [<-|[]]; assumption.
  - intros H; eexists; (split; [exact H|]); cbn; rewrite Nat.eqb_refl; left; reflexivity.
Qed.
Lemma pre_in (a b f r : list item) m : a ++ b = f ++ r -> In m f -> ~ In m a -> forall x, In x a -> In x f.
Proof.
  revert a. induction f as [|y f IH]; intros a E M NM x X; [contradiction M|]. destruct a as [|z a]; [contradiction X|]. cbn in E.
  assert (z = y) by congruence. subst z. destruct X as [->|X]; [left; reflexivity|]. right. apply (IH a); try assumption; [congruence| |intros Y; apply NM; right; assumption].
  destruct M as [->|M]; [|assumption]. contradiction NM. left. reflexivity.
Qed.
(** The function of a tail request is called after everything that the pool's queues had accepted when the request was placed has been executed; and every one of these queues has begun its marker by then. *)
Theorem C34_tail_after N s t qs x tr1 tr2 tr3 : 1 <= N -> reachable N s -> trace s = tr1 ++ ECall t qs :: tr2 ++ ETail t x :: tr3 -> forall q, In q qs ->
  (forall j, In (EAccept j q) tr1 -> In (EEnd q (Job j)) (tr1 ++ ECall t qs :: tr2)) /\ In (EMark t q) tr2 /\ (q = x \/ In (EEnd q (Mark t)) tr2).
Proof.
  intros N1 R T q Q. apply reachable_reach in R.
  assert (T' : trace s = (tr1 ++ ECall t qs :: tr2) ++ ETail t x :: tr3) by (rewrite T, <- app_assoc; reflexivity).
  destruct (reach_split _ _ R _ _ _ T') as [s0 [l [s1 [d1 [d2 [R0' [E [T1 A]]]]]]]].
  assert (I0 : inv2 s0) by (eapply reach_inv2; eassumption).
  assert (Cu : cur s0 x = Some (Mark t) /\ left s0 t = 1 /\ d1 = []).
  { assert (NZ : cur s0 x = Some (Mark t) -> left s0 t <> 0).
    { intros K L. destruct (cur_mark _ _ _ I0 K) as [ks [X [Y [Z0 W]]]]. destruct (j_t _ I0 _ _ X) as [_ [_ [_ [E4 _]]]]. rewrite L in E4.
      pose proof (nsum_full _ _ (fun z => marks_fin1 _ z _ _ I0 X) E4 x Y) as K1. cbn in K1. lia. }
    clear -E T1 NZ. steps E; proj; rewrite <- ?app_assoc in T1;
      try (match type of T1 with trace ?z = trace ?z ++ _ => rewrite <- (app_nil_r (trace z)) in T1 at 1 end); apply app_inv_head in T1;
      try (destruct d1 as [|? [|? [|? ?]]]; cbn in T1; congruence).
    - assert (X : In (ETail t x) (map (fun e : nat * nat => ERemove (fst e)) (entries s0))) by (rewrite T1; apply in_app_iff; right; left; reflexivity). apply in_map_iff in X. destruct X as [? [X _]]. discriminate X.
    - destruct d1 as [|? [|? [|? ?]]]; cbn in T1; try congruence.
      assert (q = x /\ t0 = t) as [-> ->] by (split; congruence). split; [assumption|]. split; [|reflexivity].
      match goal with H : (Nat.pred _ =? 0) = true |- _ => apply Nat.eqb_eq in H end. specialize (NZ ltac:(assumption)). lia. }
  destruct Cu as [Cu [Lf ->]]. rewrite app_nil_r in A.
  (* the call *)
  destruct (reach_split _ _ R0' tr1 (ECall t qs) tr2 (eq_sym A)) as [s2 [l2 [s3 [d3 [d4 [R2 [E2 [T2 A2]]]]]]]].
  assert (I2 : inv2 s2) by (eapply reach_inv2; eassumption).
  assert (Nw : nextt s2 <= t /\ forall q, acc q d3 = []).
  { clear -E2 T2. steps E2; proj; rewrite <- ?app_assoc in T2;
      try (match type of T2 with trace ?z = trace ?z ++ _ => rewrite <- (app_nil_r (trace z)) in T2 at 1 end); apply app_inv_head in T2;
      try (destruct d3 as [|? [|? [|? ?]]]; cbn in T2; congruence).
    - assert (X : In (ECall t qs) (map (fun e : nat * nat => ERemove (fst e)) (entries s2))) by (rewrite T2; apply in_app_iff; right; left; reflexivity). apply in_map_iff in X. destruct X as [? [X _]]. discriminate X.
    - destruct d3 as [|? [|? [|? ?]]]; cbn in T2; try congruence. split; [assert (nextt s2 = t) by congruence; lia|]. assert (e = ECreate (nextq s2)) by congruence. subst e. reflexivity.
    - destruct d3 as [|? [|? [|? ?]]]; cbn in T2; try congruence. split; [assert (nextt s2 = t) by congruence; lia|reflexivity]. }
  destruct Nw as [Nw D3]. destruct (j_new _ I2 t Nw) as [M0 _].
  assert (NM : ~ In (Mark t) (acc q tr1)). { rewrite A2, acc_app, D3, app_nil_r. intros X. apply marks_in in X. rewrite M0 in X. lia. }
  assert (C0 : In (ECall t qs) (trace s0)) by (rewrite <- A; apply in_app_iff; right; left; reflexivity).
  destruct (j_t _ I0 _ _ C0) as [E1 [E2' [[i0 [F1 [F2 [F3 F4]]]] [E4 E5]]]].
  assert (Fm : q <> x -> marks t (fin q (trace s0)) = 1).
  { intros n. destruct (cur_mark _ _ _ I0 Cu) as [ks [X [Y [Z0 W]]]]. assert (ks = qs) by (eapply (j_u _ I0); eassumption). subst ks.
    apply (nsum_full (fun z => if z =? x then 1 else marks t (fin z (trace s0))) qs) with (x := q) in Q.
    - rewrite (proj2 (Nat.eqb_neq _ _)) in Q by assumption. exact Q.
    - intros z. destruct (z =? x); [lia|]. apply (marks_fin1 _ _ _ _ I0 C0).
    - assert (S1 : nsum (fun z => if z =? x then 1 else marks t (fin z (trace s0))) qs = S (nsum (fun z => marks t (fin z (trace s0))) qs)).
      { apply (nsum_inc _ _ _ x E1 Y); [rewrite Nat.eqb_refl, Z0; reflexivity|]. intros z nz. rewrite (proj2 (Nat.eqb_neq _ _)) by assumption. reflexivity. }
      lia. }
  assert (Ord : acc q tr1 ++ acc q (ECall t qs :: tr2) = fin q (trace s0) ++ olist (cur s0 q) ++ items s0 q) by (rewrite <- acc_app, A; apply I0).
  assert (MA : In (Mark t) (acc q (trace s0))).
  { destruct (Nat.eq_dec q x) as [->|n].
    - rewrite (j_q _ I0), Cu. apply in_app_iff. right. left. reflexivity.
    - rewrite (j_q _ I0). apply in_app_iff. left. apply marks_pos. rewrite (Fm n). discriminate. }
  split; [|split].
  - intros j J. apply in_fin. rewrite A. assert (J' : In (Job j) (acc q tr1)) by (apply in_acc; exact J).
    destruct (Nat.eq_dec q x) as [->|n].
    + rewrite Cu in Ord. cbn [olist] in Ord. rewrite app_assoc in Ord.
      assert (K : In (Job j) (fin x (trace s0) ++ [Mark t])) by (eapply (pre_in _ _ _ _ (Mark t) Ord); try eassumption; apply in_app_iff; right; left; reflexivity).
      apply in_app_iff in K. destruct K as [K|[K|[]]]; [assumption|discriminate].
    + eapply (pre_in _ _ _ _ (Mark t) Ord); try eassumption. apply marks_pos. rewrite (Fm n). discriminate.
  - rewrite <- A, acc_app in MA. apply in_app_iff in MA. destruct MA as [MA|MA]; [contradiction|]. apply in_acc in MA. destruct MA as [MA|MA]; [discriminate|assumption].
  - destruct (Nat.eq_dec q x) as [->|n]; [auto|]. right. assert (K : In (Mark t) (fin q (trace s0))) by (apply marks_pos; rewrite (Fm n); discriminate).
    apply in_fin in K. rewrite <- A in K. apply in_app_iff in K. destruct K as [K|[K|K]]; [|discriminate|assumption].
    exfalso. apply in_fin in K. apply NM. pose proof (j_q _ I2 q) as J2. rewrite A2, acc_app, D3, app_nil_r, J2. apply in_app_iff. left.
    rewrite A2, fin_app in K. apply in_app_iff in K. destruct K as [K|K]; [assumption|]. apply in_fin in K.
    exfalso. clear -E2 T2 K. steps E2; proj; rewrite <- ?app_assoc in T2;
      try (match type of T2 with trace ?z = trace ?z ++ _ => rewrite <- (app_nil_r (trace z)) in T2 at 1 end); apply app_inv_head in T2;
      try (destruct d3 as [|? [|? [|? ?]]]; cbn in T2; try congruence; cbn in K; intuition congruence).
    assert (X : In (ECall t qs) (map (fun e : nat * nat => ERemove (fst e)) (entries s2))) by (rewrite T2; apply in_app_iff; right; left; reflexivity). apply in_map_iff in X. destruct X as [? [X _]]. discriminate X.
Qed.
Print Assumptions C34_tail_after.

(** ** Nothing can keep a tail request from completing. *)
Lemma drain1 N q : forall n s, length (items s q) = n -> cur s q = None -> crashed s = false ->
  exists ls s', run N ls s = Some s' /\ items s' q = [] /\ cur s' q = None /\ crashed s' = false /\ pcs s' = pcs s /\ (forall x, x <> q -> items s' x = items s x /\ cur s' x = cur s x) /\ exists d, trace s' = trace s ++ d.
Proof.
  induction n as [|n IH]; intros s L C Cr.
  - exists [], s. destruct (items s q) eqn:E; [|discriminate L]. repeat split; auto. exists []. rewrite app_nil_r. reflexivity.
  - destruct (items s q) as [|it r] eqn:E; [discriminate L|].
    destruct (exec N (LBegin q) s) as [s1|] eqn:B1; [|unfold exec in B1; rewrite Cr, C, E in B1; discriminate].
    pose proof (exec_trace _ _ _ _ B1) as [d1 D1]. pose proof B1 as B1'. unfold exec in B1'. rewrite Cr, C, E in B1'.
    assert (P1 : cur s1 q = Some it /\ items s1 q = r /\ crashed s1 = false /\ pcs s1 = pcs s /\ (forall x, x <> q -> items s1 x = items s x /\ cur s1 x = cur s x)).
    { res B1'. proj. rewrite !fupd_eq. repeat split; auto; apply fupd_ne; assumption. }
    clear B1'. destruct P1 as [P1 [P2 [P3 [P4 P5]]]].
    destruct (exec N (LEnd q) s1) as [s2|] eqn:B2; [|unfold exec in B2; rewrite P3, P1 in B2; destruct it; discriminate].
    pose proof (exec_trace _ _ _ _ B2) as [d2 D2]. pose proof B2 as B2'. unfold exec in B2'. rewrite P3, P1 in B2'.
    assert (Q1 : cur s2 q = None /\ items s2 = items s1 /\ crashed s2 = false /\ pcs s2 = pcs s1 /\ (forall x, x <> q -> cur s2 x = cur s1 x)).
    { destruct it; res B2'; proj; rewrite fupd_eq; repeat split; auto; intros x X; apply fupd_ne; assumption. }
    clear B2'. destruct Q1 as [Q1 [Q2 [Q3 [Q4 Q5]]]].
    destruct (IH s2) as [ls [s' [R [A1 [A2 [A3 [A4 [A5 [d A6]]]]]]]]]; [rewrite Q2, P2; cbn in L; lia|assumption|assumption|].
    exists (LBegin q :: LEnd q :: ls), s'. cbn [run]. rewrite B1, B2. repeat split; auto; try congruence.
    + destruct (A5 x H) as [X _]. destruct (P5 x H) as [Y _]. congruence.
    + destruct (A5 x H) as [_ X]. destruct (P5 x H) as [_ Y]. rewrite X, Q5 by assumption. exact Y.
    + exists (d1 ++ d2 ++ d). rewrite A6, D2, D1, <- !app_assoc. reflexivity.
Qed.
Lemma drain N q s : crashed s = false ->
  exists ls s', run N ls s = Some s' /\ items s' q = [] /\ cur s' q = None /\ crashed s' = false /\ pcs s' = pcs s /\ (forall x, x <> q -> items s' x = items s x /\ cur s' x = cur s x) /\ exists d, trace s' = trace s ++ d.
Proof.
  intros Cr. destruct (cur s q) as [it|] eqn:C; [|apply (drain1 N q _ s eq_refl C Cr)].
  destruct (exec N (LEnd q) s) as [s2|] eqn:B2; [|unfold exec in B2; rewrite Cr, C in B2; destruct it; discriminate].
  pose proof (exec_trace _ _ _ _ B2) as [d2 D2]. pose proof B2 as B2'. unfold exec in B2'. rewrite Cr, C in B2'.
  assert (Q1 : cur s2 q = None /\ items s2 = items s /\ crashed s2 = false /\ pcs s2 = pcs s /\ (forall x, x <> q -> cur s2 x = cur s x)).
  { destruct it; res B2'; proj; rewrite fupd_eq; repeat split; auto; intros x X; apply fupd_ne; assumption. }
  destruct Q1 as [Q1 [Q2 [Q3 [Q4 Q5]]]].
  destruct (drain1 N q _ s2 eq_refl Q1 Q3) as [ls [s' [R [A1 [A2 [A3 [A4 [A5 [d A6]]]]]]]]].
  exists (LEnd q :: ls), s'. cbn [run]. rewrite B2. repeat split; auto; try congruence.
  - destruct (A5 x H) as [X _]. congruence.
  - destruct (A5 x H) as [_ X]. rewrite X. apply Q5. assumption.
  - exists (d2 ++ d). rewrite A6, D2, <- app_assoc. reflexivity.
Qed.
Lemma drain_all N : forall qs s, crashed s = false -> exists ls s', run N ls s = Some s' /\ (forall q, In q qs -> items s' q = [] /\ cur s' q = None) /\ (forall q, items s q = [] /\ cur s q = None -> items s' q = [] /\ cur s' q = None) /\ pcs s' = pcs s /\ exists d, trace s' = trace s ++ d.
Proof.
  induction qs as [|q qs IH]; intros s Cr.
  - exists [], s. repeat split; auto; try (destruct H; assumption); try contradiction. exists []. rewrite app_nil_r. reflexivity.
  - destruct (drain N q s Cr) as [ls [s1 [R [A1 [A2 [A3 [A4 [A5 [d A6]]]]]]]]]. destruct (IH s1 A3) as [ls2 [s2 [R2 [B1 [B2 [B3 [d2 B4]]]]]]].
    exists (ls ++ ls2), s2. rewrite run_app, R. split; [assumption|]. split; [|split; [|split]].
    + intros x [<-|X]; [apply B2; auto|auto].
    + intros x [X1 X2]. apply B2. destruct (Nat.eq_dec x q) as [->|n]; [auto|]. destruct (A5 x n) as [-> ->]. auto.
    + congruence.
    + exists (d ++ d2). rewrite B4, A6, <- app_assoc. reflexivity.
Qed.
Lemma place_all N t p : forall n s i, pcs s p = Tail t i -> crashed s = false -> length (entries s) = i + n ->
  exists ls s', run N ls s = Some s' /\ crashed s' = false /\ (forall x, x <> p -> pcs s' x = pcs s x) /\ pcs s' p = Idle /\ exists d, trace s' = trace s ++ d.
Proof.
  induction n as [|n IH]; intros s i P Cr L.
  - assert (Ne : nth_error (entries s) i = None) by (apply nth_error_None; lia).
    exists [LTailEnd p]. cbn [run]. unfold exec. rewrite Cr, P, Ne. eexists. split; [reflexivity|]. proj.
    split; [assumption|]. split; [intros x X; apply fupd_ne; assumption|]. split; [apply fupd_eq|]. exists []. rewrite app_nil_r. reflexivity.
  - destruct (nth_error (entries s) i) as [[q u]|] eqn:Ne; [|apply nth_error_None in Ne; lia].
    destruct (exec N (LTailMark p) s) as [s1|] eqn:B; [|unfold exec in B; rewrite Cr, P, Ne in B; discriminate].
    pose proof (exec_trace _ _ _ _ B) as [d1 D1]. pose proof B as B'. unfold exec in B'. rewrite Cr, P, Ne in B'.
    assert (Q : pcs s1 p = Tail t (S i) /\ crashed s1 = false /\ entries s1 = entries s /\ forall x, x <> p -> pcs s1 x = pcs s x).
    { res B'. proj. rewrite fupd_eq. repeat split; auto. intros x X. apply fupd_ne. assumption. }
    destruct Q as [Q1 [Q2 [Q3 Q4]]]. destruct (IH s1 (S i) Q1 Q2) as [ls [s' [R [A1 [A2 [A3 [d A4]]]]]]]; [rewrite Q3; lia|].
    exists (LTailMark p :: ls), s'. cbn [run]. rewrite B. repeat split; auto.
    + intros x X. rewrite A2, Q4 by assumption. reflexivity.
    + exists (d1 ++ d). rewrite A4, D1, <- app_assoc. reflexivity.
Qed.
(** Wherever a pool is, a tail request that was placed can still be completed: whatever the other threads and queues did, it takes no more than its caller going on and the queues working. *)
Theorem C34_tail_completes N s t qs : 1 <= N -> reachable N s -> crashed s = false -> In (ECall t qs) (trace s) -> exists ls s', run N ls s = Some s' /\ tails t (trace s') = 1.
Proof.
  intros N1 R Cr C. pose proof (reachable_reach _ _ R) as R'. pose proof (reach_inv1 _ _ N1 R') as I1.
  assert (P : exists ls s1, run N ls s = Some s1 /\ crashed s1 = false /\ (forall p i, pcs s1 p <> Tail t i) /\ exists d, trace s1 = trace s ++ d).
  { destruct (lock s) as [p|] eqn:Lk.
    - destruct (pcs s p) as [| | | | |t0 i] eqn:P; try (exists [], s; repeat split; auto; [|exists []; rewrite app_nil_r; reflexivity]; intros x k K; destruct (i_tail _ _ I1 _ _ _ K) as [K1 _]; assert (x = p) by congruence; subst x; congruence).
      destruct (i_tail _ _ I1 _ _ _ P) as [_ Li]. destruct (place_all N t0 p (length (entries s) - i) s i P Cr) as [ls [s1 [R1 [A1 [A2 [A3 A4]]]]]]; [lia|].
      exists ls, s1. repeat split; auto. intros x k K. destruct (Nat.eq_dec x p) as [->|n]; [congruence|]. rewrite A2 in K by assumption.
      destruct (i_tail _ _ I1 _ _ _ K) as [K1 _]. congruence.
    - exists [], s. repeat split; auto; [|exists []; rewrite app_nil_r; reflexivity]. intros x k K. destruct (i_tail _ _ I1 _ _ _ K) as [K1 _]. congruence. }
  destruct P as [ls1 [s1 [R1 [Cr1 [NT [d1 D1]]]]]]. destruct (drain_all N qs s1 Cr1) as [ls2 [s2 [R2 [A1 [_ [A3 [d2 D2]]]]]]].
  exists (ls1 ++ ls2), s2. assert (Rn : run N (ls1 ++ ls2) s = Some s2) by (rewrite run_app, R1; exact R2). split; [exact Rn|].
  assert (Re : reachable N s2) by (apply reach_reachable; eapply run_reach; eassumption).
  destruct (C34_tail_once N s2 t N1 Re) as [_ [_ H]]. apply (H qs).
  - rewrite D2, D1, !in_app_iff. auto.
  - intros p i. rewrite A3. apply NT.
  - exact A1.
Qed.
Print Assumptions C34_tail_completes.

(** ** The counters. *)
Definition busy (q : nat) (x : pc) : nat := match x with Send _ k | Put _ k => if k =? q then 1 else 0 | _ => 0 end.
(** [ps] holds every thread that is doing something. *)
Definition cover (s : st) (ps : list nat) : Prop := NoDup ps /\ forall p, ~ In p ps -> pcs s p = Idle.
Definition counted (s : st) (ps : list nat) : Prop := forall q, cnt s q = length (items s q) + length (olist (cur s q)) + nsum (fun p => busy q (pcs s p)) ps.
Lemma cover_add s ps p : cover s ps -> counted s ps -> exists ps', cover s ps' /\ counted s ps' /\ In p ps'.
Proof.
  intros [ND C] K. destruct (in_dec Nat.eq_dec p ps) as [I|I]; [exists ps; repeat split; assumption|]. exists (p :: ps). split; [split|split].
  - constructor; assumption.
  - intros x X. apply C. intros Y. apply X. right. assumption.
  - intros q. rewrite K. cbn [nsum]. rewrite (C p I). cbn [busy]. lia.
  - left. reflexivity.
Qed.
Lemma nsum_upd (f : nat -> nat) (g : nat -> nat) ps p : NoDup ps -> In p ps -> (forall x, x <> p -> g x = f x) -> nsum g ps + f p = nsum f ps + g p.
Proof.
  induction 1 as [|x l NI ND IH]; intros I O; [contradiction I|]. cbn. destruct I as [->|I].
  - rewrite (nsum_ext g f l); [lia|]. intros y Y. apply O. intros ->. contradiction.
  - specialize (IH I O). rewrite (O x); [lia|]. intros ->. contradiction.
Qed.
Lemma cover_pc s s' ps p x : cover s ps -> In p ps -> pcs s' = fupd (pcs s) p x -> cover s' ps.
Proof. intros [ND C] I E. split; [assumption|]. intros y Y. rewrite E, fupd_ne by (intros ->; contradiction). apply C. assumption. Qed.
Lemma counted_pc s s' ps p x : cover s ps -> counted s ps -> In p ps -> pcs s' = fupd (pcs s) p x ->
  (forall q, cnt s' q + busy q (pcs s p) + length (items s q) + length (olist (cur s q)) = cnt s q + busy q x + length (items s' q) + length (olist (cur s' q))) -> counted s' ps.
Proof.
  intros [ND C] K I E H q. specialize (H q). specialize (K q).
  pose proof (nsum_upd (fun y => busy q (pcs s y)) (fun y => busy q (pcs s' y)) ps p ND I) as S1. cbn in S1. rewrite E in *. rewrite fupd_eq in S1.
  assert (S2 : forall y, y <> p -> busy q (fupd (pcs s) p x y) = busy q (pcs s y)) by (intros y Y; rewrite fupd_ne by assumption; reflexivity). specialize (S1 S2).
  pose proof (nsum_upd (fun y => busy q (pcs s y)) (fun y => busy q (pcs s y)) ps p ND I ltac:(reflexivity)) as S3. lia.
Qed.
Lemma counted_same s s' ps : cover s ps -> counted s ps -> pcs s' = pcs s -> (forall q, cnt s' q + length (items s q) + length (olist (cur s q)) = cnt s q + length (items s' q) + length (olist (cur s' q))) -> cover s' ps /\ counted s' ps.
Proof.
  intros [ND C] K E H. split; [split; [assumption|rewrite E; assumption]|]. intros q. specialize (H q). specialize (K q). rewrite E. lia.
Qed.
Lemma counted_step N l s s' ps : cover s ps -> counted s ps -> exec N l s = Some s' -> exists ps', cover s' ps' /\ counted s' ps'.
Proof.
  intros C0 K0 H. unfold exec in H. destruct (crashed s); [discriminate H|].
  assert (One : forall p x s1, pcs s1 = fupd (pcs s) p x -> (forall q, cnt s1 q + busy q (pcs s p) + length (items s q) + length (olist (cur s q)) = cnt s q + busy q x + length (items s1 q) + length (olist (cur s1 q))) -> exists ps', cover s1 ps' /\ counted s1 ps').
  { intros p x s1 E Q. destruct (cover_add _ _ p C0 K0) as [ps' [C1 [K1 I1]]]. exists ps'. split; [eapply cover_pc; eassumption|eapply counted_pc; eassumption]. }
  assert (Same : forall s1, pcs s1 = pcs s -> (forall q, cnt s1 q + length (items s q) + length (olist (cur s q)) = cnt s q + length (items s1 q) + length (olist (cur s1 q))) -> exists ps', cover s1 ps' /\ counted s1 ps').
  { intros s1 E Q. exists ps. eapply counted_same; eassumption. }
  assert (Pos : forall q it, cur s q = Some it -> 1 <= cnt s q) by (intros q it E; rewrite (K0 q), E; cbn; lia).
  assert (Pos2 : forall p j q, pcs s p = Put j q -> 1 <= cnt s q).
  { intros p j q E. destruct (cover_add _ _ p C0 K0) as [ps' [[ND C1] [K1 I1]]]. rewrite (K1 q).
    pose proof (nsum_upd (fun y => busy q (pcs s y)) (fun y => if y =? p then 0 else busy q (pcs s y)) ps' p ND I1) as S1. cbn in S1. rewrite Nat.eqb_refl, E in S1. cbn in S1. rewrite Nat.eqb_refl in S1.
    assert (S2 : forall x, x <> p -> (if x =? p then 0 else busy q (pcs s x)) = busy q (pcs s x)) by (intros x X; rewrite (proj2 (Nat.eqb_neq _ _)) by assumption; reflexivity). specialize (S1 S2). lia. }
  destruct l.
  - destruct (lock s) eqn:Lk; [discriminate|]. destruct (pcs s p) eqn:P; try discriminate. res H. eapply (One p); [reflexivity|]. intros q. rewrite P. reflexivity.
  - destruct (pcs s p) as [|j i b| | | |] eqn:P; try discriminate. destruct (nth_error (entries s) i) as [[q u]|] eqn:Ne; [|discriminate]. res H. eapply (One p); [reflexivity|]. intros x. rewrite P. reflexivity.
  - destruct (pcs s p) as [|j i b| | | |] eqn:P; try discriminate. destruct (nth_error (entries s) i) as [[q u]|] eqn:Ne; [discriminate|].
    destruct (pick N s b ok) as [s1 o] eqn:Pk. res H.
    assert (S1 : pcs s1 = pcs s /\ items s1 = items s /\ cur s1 = cur s /\ (cnt s1 = match o with Some q => fupd (cnt s) q (S (cnt s q)) | None => cnt s end)).
    { unfold pick in Pk. match type of Pk with context [if ?x then if ok then _ else _ else _] => destruct x end; [destruct ok|].
      - assert (s1 = set_cnt (create s) (nextq s) (S (cnt (create s) (nextq s)))) by congruence. assert (o = Some (nextq s)) by congruence. subst s1 o. auto.
      - destruct b as [b|]; [assert (s1 = set_cnt s b (S (cnt s b))) by congruence; assert (o = Some b) by congruence|assert (s1 = s) by congruence; assert (o = None) by congruence]; subst s1 o; auto.
      - destruct b as [b|]; [assert (s1 = set_cnt s b (S (cnt s b))) by congruence; assert (o = Some b) by congruence|assert (s1 = s) by congruence; assert (o = None) by congruence]; subst s1 o; auto. }
    destruct S1 as [E1 [E2 [E3 E4]]].
    destruct o as [q|].
    + eapply (One p (Send j q)); proj; [rewrite E1; reflexivity|]. intros x. rewrite P, E2, E3, E4. cbn [busy]. destruct (Nat.eqb_spec q x) as [->|n]; [rewrite fupd_eq; lia|rewrite fupd_ne by auto; lia].
    + eapply (One p Idle); proj; [rewrite E1; reflexivity|]. intros x. rewrite P, E2, E3, E4. reflexivity.
  - destruct (pcs s p) eqn:P; try discriminate. res H. destruct ok.
    + eapply (One p); [reflexivity|]. intros x. rewrite P. proj. cbn [busy]. destruct (Nat.eqb_spec q x) as [->|n]; [rewrite !fupd_eq, app_length; cbn; lia|rewrite !fupd_ne by auto; lia].
    + eapply (One p); [reflexivity|]. intros x. rewrite P. reflexivity.
  - destruct (pcs s p) eqn:P; try discriminate. res H. specialize (Pos2 _ _ _ P). eapply (One p); [reflexivity|]. intros x. rewrite P. proj. cbn [busy]. destruct (Nat.eqb_spec q x) as [->|n]; [rewrite fupd_eq; lia|rewrite fupd_ne by auto; lia].
  - destruct (lock s) eqn:Lk; [discriminate|]. destruct (pcs s p) eqn:P; try discriminate.
    match type of H with (let '(_, _) := ?x in _) = _ => destruct x as [s1 b] eqn:Al end. res H.
    assert (S1 : s1 = s \/ s1 = create s).
    { match type of Al with (if ?x then if ok then _ else _ else _) = _ => destruct x end; [destruct ok|]; [right|left|left]; congruence. }
    destruct b as [i|].
    + eapply (One p (Alloc i (nth i (map fst (entries s1)) 0))); [destruct S1 as [->| ->]; reflexivity|]. intros x. rewrite P. destruct S1 as [->| ->]; reflexivity.
    + apply Same; [destruct S1 as [->| ->]; reflexivity|]. intros x. destruct S1 as [->| ->]; reflexivity.
  - destruct (pcs s p) eqn:P; try discriminate. res H. destruct (nth_error _ _) as [[q0 u]|]; (eapply (One p); [reflexivity|]; intros x; rewrite P; reflexivity).
  - destruct (lock s) eqn:Lk; [discriminate|]. destruct (unuse (entries s) q) as [e|] eqn:U; [|discriminate]. res H. apply Same; reflexivity.
  - destruct (lock s) eqn:Lk; [discriminate|]. destruct (rev (entries s)) as [|[q u] r] eqn:Rv; [discriminate|]. destruct (_ && _); [|discriminate]. res H. apply Same; reflexivity.
  - destruct (lock s) eqn:Lk; [discriminate|]. res H. apply Same; reflexivity.
  - destruct (lock s) eqn:Lk; [discriminate|]. destruct (pcs s p) eqn:P; try discriminate.
    set (s1 := match entries s with [] => if ok then create s else s | _ => s end) in *.
    assert (S1 : s1 = s \/ s1 = create s) by (unfold s1; destruct (entries s); [destruct ok|]; auto).
    destruct (entries s1) as [|e0 es] eqn:En; [discriminate|]. res H. eapply (One p (Tail (nextt s1) 0)); [destruct S1 as [->| ->]; reflexivity|].
    intros x. rewrite P. destruct S1 as [->| ->]; reflexivity.
  - destruct (pcs s p) as [| | | | |t i] eqn:P; try discriminate. destruct (nth_error (entries s) i) as [[q u]|] eqn:Ne; [|discriminate]. res H.
    eapply (One p); [reflexivity|]. intros x. rewrite P. proj. cbn [busy]. destruct (Nat.eq_dec x q) as [->|n]; [rewrite !fupd_eq, app_length; cbn; lia|rewrite !fupd_ne by auto; lia].
  - destruct (pcs s p) as [| | | | |t i] eqn:P; try discriminate. destruct (nth_error (entries s) i) eqn:Ne; [discriminate|]. res H. eapply (One p); [reflexivity|]. intros x. rewrite P. reflexivity.
  - destruct (q <? nextq s); [|discriminate]. res H. apply Same; [reflexivity|]. intros x. proj. destruct (Nat.eq_dec x q) as [->|n]; [rewrite !fupd_eq, app_length; cbn; lia|rewrite !fupd_ne by auto; lia].
  - destruct (cur s q) eqn:Cu; [discriminate|]. destruct (items s q) as [|it r] eqn:It; [discriminate|]. res H. apply Same; [reflexivity|]. intros x. proj.
    destruct (Nat.eq_dec x q) as [->|n]; [rewrite !fupd_eq, It, Cu; cbn; lia|rewrite !fupd_ne by auto; lia].
  - destruct (cur s q) as [it|] eqn:Cu; [|discriminate]. specialize (Pos _ _ Cu). destruct it as [j|t]; res H; (apply Same; [reflexivity|]; intros x; proj;
    destruct (Nat.eq_dec x q) as [->|n]; [rewrite !fupd_eq, Cu; cbn; lia|rewrite !fupd_ne by auto; lia]).
Qed.
Lemma reach_counted N s : reach N s -> exists ps, cover s ps /\ counted s ps.
Proof.
  induction 1 as [|s l s' R [ps [C K]] E].
  - exists []. split; [split; [constructor|reflexivity]|]. intros q. reflexivity.
  - eapply counted_step; eassumption.
Qed.
(** The counter by which queues are compared is the number of requests the queue accepted and has not finished, plus the requests on their way to it; so it is the number of pending requests when none is on its way. *)
Theorem C34_counter N s q : 1 <= N -> reachable N s ->
  length (acc q (trace s)) - length (fin q (trace s)) <= cnt s q /\ length (fin q (trace s)) <= length (acc q (trace s)) /\
  ((forall p j, pcs s p <> Send j q /\ pcs s p <> Put j q) -> cnt s q = length (acc q (trace s)) - length (fin q (trace s))).
Proof.
  intros N1 R. apply reachable_reach in R. pose proof (reach_inv2 _ _ N1 R) as I. destruct (reach_counted _ _ R) as [ps [[ND C] K]].
  rewrite (j_q _ I q), !app_length, (K q). split; [lia|]. split; [lia|]. intros Nb.
  assert (Z0 : nsum (fun p => busy q (pcs s p)) ps = 0); [|lia]. clear -Nb. induction ps as [|p ps IH]; [reflexivity|]. cbn. rewrite IH, Nat.add_0_r.
  destruct (pcs s p) as [| |j k|j k| |] eqn:E; try reflexivity; cbn; destruct (Nat.eqb_spec k q) as [->|]; try reflexivity; destruct (Nb p j) as [X Y]; congruence.
Qed.
Print Assumptions C34_counter.

(** ** Which queue a request goes to. *)
Definition minb (s : st) (i : nat) (b : option nat) : Prop :=
  match b with None => i = 0 | Some q => In q (firstn i (map fst (entries s))) /\ forall q', In q' (firstn i (map fst (entries s))) -> cnt s q <= cnt s q' end.
Lemma minb_step s i q b : nth_error (map fst (entries s)) i = Some q -> minb s i b -> minb s (S i) (better s q b).
Proof.
  intros Ne M. unfold better. destruct b as [b|]; cbn [minb] in *.
  - destruct M as [M1 M2]. destruct (cnt s q <? cnt s b) eqn:C; [apply Nat.ltb_lt in C|apply Nat.ltb_ge in C]; cbn [minb]; rewrite (firstn_snoc _ _ _ Ne).
    + split; [apply in_app_iff; right; left; reflexivity|]. intros q' J. apply in_app_iff in J. destruct J as [J|[<-|[]]]; [specialize (M2 _ J)|]; lia.
    + split; [apply in_app_iff; auto|]. intros q' J. apply in_app_iff in J. destruct J as [J|[<-|[]]]; [exact (M2 _ J)|assumption].
  - subst i. cbn [minb]. rewrite (firstn_snoc _ _ _ Ne). cbn. split; [auto|]. intros q' [<-|[]]. lia.
Qed.
Definition alike (s s' : st) : Prop := entries s' = entries s /\ cnt s' = cnt s /\ trace s' = trace s /\ nextq s' = nextq s /\ nextj s' = nextj s /\ crashed s' = crashed s /\ items s' = items s.
Lemma scan_run N p : forall n s j i b s', pcs s p = Scan j i b -> minb s i b -> run N (repeat (LScan p) n) s = Some s' -> exists i' b', alike s s' /\ pcs s' p = Scan j i' b' /\ minb s i' b'.
Proof.
  induction n as [|n IH]; cbn [repeat run]; intros s j i b s' P M H.
  - assert (s' = s) by congruence. subst. exists i, b. repeat split; assumption.
  - destruct (exec N (LScan p) s) as [s1|] eqn:E; [|discriminate]. unfold exec in E. destruct (crashed s) eqn:Cr; [discriminate|]. rewrite P in E.
    destruct (nth_error (entries s) i) as [[q u]|] eqn:Ne; [|discriminate]. res E.
    pose proof (map_nth_error fst i _ Ne) as Ne'. cbn in Ne'.
    assert (Q : alike s (set_pc s p (Scan j (S i) (better s q b)))) by (repeat split).
    destruct (IH (set_pc s p (Scan j (S i) (better s q b))) j (S i) (better s q b) s' (fupd_eq _ _ _) (minb_step _ _ _ _ Ne' M) H) as [i' [b' [A [B C]]]].
    exists i', b'. split; [|split; [exact B|exact C]]. exact A.
Qed.
(** If nothing else happens while a thread chooses, its request goes to a queue of the pool none of the others of which has a smaller counter; or to a new queue, which is created only when the pool is empty, or has room and every queue of it is busy; if there is no queue and none can be created it is refused. *)
Theorem C34_least_partial N s p n ok s' : 1 <= N -> reachable N s -> run N (LDispatch p :: repeat (LScan p) n ++ [LPick p ok]) s = Some s' ->
  let qs := map fst (entries s) in
  (exists q, pcs s' p = Send (nextj s) q /\ In q qs /\ map fst (entries s') = qs /\ trace s' = trace s /\ (forall q', In q' qs -> cnt s q <= cnt s q') /\ (cnt s q = 0 \/ length qs = N \/ ok = false)) \/
  (pcs s' p = Send (nextj s) (nextq s) /\ map fst (entries s') = qs ++ [nextq s] /\ trace s' = trace s ++ [ECreate (nextq s)] /\ length qs < N /\ (forall q', In q' qs -> 0 < cnt s q')) \/
  (qs = [] /\ ok = false /\ pcs s' p = Idle /\ trace s' = trace s ++ [ENone (nextj s)]).
Proof.
  intros N1 R H qs. pose proof (i_len _ _ (reach_inv1 _ _ N1 (reachable_reach _ _ R))) as LN.
  cbn [run] in H. destruct (exec N (LDispatch p) s) as [s1|] eqn:E; [|discriminate]. unfold exec in E. destruct (crashed s) eqn:Cr; [discriminate|].
  destruct (lock s) eqn:Lk; [discriminate|]. destruct (pcs s p) eqn:P; try discriminate. res E.
  set (s1 := set_pc (set_lock (new_job s) (Some p)) p (Scan (nextj s) 0 None)) in *. rewrite run_app in H.
  destruct (run N (repeat (LScan p) n) s1) as [s2|] eqn:E2; [|discriminate].
  assert (P1 : pcs s1 p = Scan (nextj s) 0 None) by (unfold s1; proj; apply fupd_eq).
  destruct (scan_run N p n s1 (nextj s) 0 None s2 P1 eq_refl E2) as [i [b [A [P2 M]]]].
  destruct A as [A1 [A2 [A3 [A4 [A5 [A6 A7]]]]]]. unfold s1 in A1, A2, A3, A4, A5, A6, A7. proj.
  cbn [run] in H. destruct (exec N (LPick p ok) s2) as [s3|] eqn:E3; [|discriminate]. assert (s3 = s') by congruence. subst s3. clear H. unfold exec in E3. rewrite A6, Cr, P2 in E3.
  destruct (nth_error (entries s2) i) as [[q u]|] eqn:Ne; [discriminate|]. apply nth_len in Ne. rewrite A1 in Ne.
  assert (M' : match b with None => qs = [] | Some q => In q qs /\ forall q', In q' qs -> cnt s q <= cnt s q' end).
  { unfold minb, s1 in M. proj. destruct b as [b|].
    - rewrite firstn_all2 in M by (rewrite map_length; exact Ne). exact M.
    - subst i. unfold qs. destruct (entries s); [reflexivity|cbn in Ne; lia]. }
  assert (Lq : length qs = length (entries s)) by apply map_length.
  unfold pick in E3. rewrite A1, A2 in E3. destruct b as [b|].
  - destruct M' as [M1 M2]. destruct ((0 <? cnt s b) && (length (entries s) <? N)) eqn:C; [destruct ok|].
    + apply andb_prop in C. destruct C as [C1 C2]. apply Nat.ltb_lt in C1, C2. right. left. res E3. proj. rewrite fupd_eq, map_fst_snoc, A1, A3, A4. repeat split; auto; [lia|].
      intros q' J. specialize (M2 q' J). lia.
    + left. exists b. res E3. proj. rewrite fupd_eq, A1, A3. repeat split; auto.
    + left. exists b. res E3. proj. rewrite fupd_eq, A1, A3. repeat split; auto. apply andb_false_iff in C. destruct C as [C|C]; apply Nat.ltb_ge in C; [left; lia|right; left; lia].
  - destruct ok.
    + right. left. res E3. proj. rewrite fupd_eq, map_fst_snoc, A1, A3, A4. repeat split; auto; [rewrite M'; cbn; lia|]. rewrite M'. intros q' [].
    + right. right. res E3. proj. rewrite fupd_eq, A3. repeat split; auto.
Qed.
Print Assumptions C34_least_partial.

(** All the states an execution goes through. *)
Fixpoint states (N : nat) (ls : list label) (s : st) : list st := s :: match ls with [] => [] | l :: r => match exec N l s with Some s => states N r s | None => [] end end.
Definition disp (p n : nat) (ok : bool) : list label := LDispatch p :: repeat (LScan p) n ++ [LPick p ok; LSend p true; LPut p].
Definition end_of (N : nat) (ls : list label) (s : st) : st := match run N ls s with Some x => x | None => s end.
Definition isrun (N : nat) (ls : list label) (s : st) : bool := match run N ls s with Some _ => true | None => false end.
Lemma end_run N ls s : isrun N ls s = true -> run N ls s = Some (end_of N ls s).
Proof. unfold isrun, end_of. destruct (run N ls s); [reflexivity|discriminate]. Qed.
(** Three queues with 1, 0 and 2 pending requests. *)
Definition setup : list label := disp 0 0 true ++ disp 0 1 true ++ disp 0 2 true ++ [LBegin 1; LEnd 1; LDirect 2].
(** A request is being placed; while the queues are looked at, others give work to the queue found best so far. *)
Definition race : list label := [LDispatch 0; LScan 0; LScan 0; LDirect 1; LDirect 1; LDirect 1; LScan 0; LPick 0 true; LSend 0 true].
(** In general the request need not go to a queue with the fewest pending requests: here it goes to queue 2, although at every moment of its placement queue 0 had fewer. *)
Theorem C34_least_refuted : exists s s', run 3 setup init = Some s /\ run 3 race s = Some s' /\ (exists j tr, trace s' = tr ++ [EAccept j 2]) /\
  Forall (fun x => length (acc 0 (trace x)) - length (fin 0 (trace x)) < length (acc 2 (trace x)) - length (fin 2 (trace x))) (states 3 race s).
Proof.
  exists (end_of 3 setup init), (end_of 3 race (end_of 3 setup init)). split; [apply end_run; vm_compute; reflexivity|]. split; [apply end_run; vm_compute; reflexivity|]. split.
  - exists 4, [ECreate 0; EAccept 0 0; ECreate 1; EAccept 1 1; ECreate 2; EAccept 2 2; EBegin 1 (Job 1); EEnd 1 (Job 1); EAccept 3 2; EAccept 5 1; EAccept 6 1; EAccept 7 1]. vm_compute. reflexivity.
  - apply Forall_forall. intros x X. apply Nat.ltb_lt. revert x X. apply forallb_forall. vm_compute. reflexivity.
Qed.
Print Assumptions C34_least_refuted.

(** ** aosl_mpq_alloc and aosl_mpq_free. *)
(** The queue handed out is one whose usage is least, or a new one when every queue of the pool is allocated and there is room. *)
Theorem C34_alloc_least N s p ok s' i q : exec N (LAlloc p ok) s = Some s' -> pcs s' p = Alloc i q ->
  (exists u, nth_error (entries s) i = Some (q, u) /\ nth_error (entries s') i = Some (q, S u) /\ (forall e, In e (entries s) -> u <= snd e) /\ (u <= 1 \/ N <= length (entries s) \/ ok = false)) \/
  (i = length (entries s) /\ q = nextq s /\ entries s' = entries s ++ [(q, 2)] /\ (entries s = [] \/ length (entries s) < N /\ forall e, In e (entries s) -> 1 < snd e)).
Proof.
  intros H P. unfold exec in H. destruct (crashed s); [discriminate|]. destruct (lock s); [discriminate|]. destruct (pcs s p) eqn:Pp; try discriminate.
  pose proof (best_entry_spec (entries s) 0 None) as Bs. destruct (best_entry (entries s) 0 None) as [[k v]|].
  - destruct Bs as [[Bs _]|[B1 [B2 [B3 _]]]]; [discriminate|]. rewrite Nat.sub_0_r in B2.
    assert (Nk : exists x, nth_error (entries s) k = Some (x, v)).
    { revert B2. clear. generalize (entries s) as l. intros l. revert k. induction l as [|[a c] l IH]; intros [|k] H; cbn in *; try discriminate; [exists a; congruence|apply IH; assumption]. }
    destruct Nk as [x Nk].
    assert (Bump : nth_error (bump k (entries s)) k = Some (x, S v)).
    { revert Nk. clear. generalize (entries s) as l. intros l. revert k. induction l as [|[a c] l IH]; intros [|k] H; cbn in *; try discriminate; [congruence|apply IH; assumption]. }
    assert (Nx : nth k (map fst (entries s)) 0 = x) by (apply nth_error_nth; rewrite (map_nth_error fst k _ Nk); reflexivity).
    destruct ((1 <? v) && (length (entries s) <? N)) eqn:C; [destruct ok|]; cbn [option_map fst] in H.
    + right. apply andb_prop in C. destruct C as [C1 C2]. apply Nat.ltb_lt in C1, C2. assert (E' : entries s' = bump (length (entries s)) (entries (create s)) /\ pcs s' p = Alloc (length (entries s)) (nth (length (entries s)) (map fst (entries (create s))) 0)).
      { res H. change (entries (set_pc (use (create s) (length (entries s))) p (Alloc (length (entries s)) (nth (length (entries s)) (map fst (entries (create s))) 0)))) with (entries (use (create s) (length (entries s)))). rewrite use_bump. split; [reflexivity|]. proj. apply fupd_eq. }
      destruct E' as [E1 E2]. rewrite P in E2. proj. rewrite map_fst_snoc, app_nth2, map_length, Nat.sub_diag in E2 by (rewrite map_length; lia). cbn [nth] in E2.
      assert (i = length (entries s)) by congruence. assert (q = nextq s) by congruence. subst i q. split; [reflexivity|]. split; [reflexivity|]. split.
      * rewrite E1. clear. generalize (entries s) as l. induction l as [|[a c] l IH]; cbn; [reflexivity|rewrite IH; reflexivity].
      * right. split; [assumption|]. intros e J. specialize (B3 e J). lia.
    + left. exists v. res H. cbn [pcs set_pc] in P. rewrite fupd_eq, Nx in P. assert (i = k /\ q = x) as [-> ->] by (split; congruence).
      change (entries (set_pc (use s k) p (Alloc k (nth k (map fst (entries s)) 0)))) with (entries (use s k)). rewrite use_bump. repeat split; auto.
    + left. exists v. res H. cbn [pcs set_pc] in P. rewrite fupd_eq, Nx in P. assert (i = k /\ q = x) as [-> ->] by (split; congruence).
      change (entries (set_pc (use s k) p (Alloc k (nth k (map fst (entries s)) 0)))) with (entries (use s k)). rewrite use_bump. repeat split; auto.
      apply andb_false_iff in C. destruct C as [C|C]; apply Nat.ltb_ge in C; auto.
  - destruct Bs as [Bs _]. rewrite Bs in H. destruct ok; cbn [option_map length] in H.
    + right. res H. proj. rewrite Bs in P. cbn in P. rewrite fupd_eq in P. assert (i = 0 /\ q = nextq s) as [-> ->] by (split; congruence). rewrite Bs. split; [reflexivity|]. split; [reflexivity|]. split; [reflexivity|]. left. reflexivity.
    + res H. congruence.
Qed.
Print Assumptions C34_alloc_least.

(** Histories in which the whole pool is not shrunk, and in which a queue is given back only as often as it was handed out. *)
Inductive polite (N : nat) : st -> Prop :=
| Pl0 : polite N init
| PlS s l s' : polite N s -> exec N l s = Some s' -> l <> LShrinkAll -> (forall q, l = LFree q -> frees q (trace s) < allocs q (trace s)) -> polite N s'.
Lemma polite_reach N s : polite N s -> reach N s.
Proof. induction 1; [constructor|econstructor; eassumption]. Qed.
(** Allocations under way for queue [q]. *)
Definition pend (q : nat) (x : pc) : nat := match x with Alloc _ k => if k =? q then 1 else 0 | _ => 0 end.
Record ainv (s : st) (ps : list nat) : Prop := {
  a_cov : cover s ps;
  a_use : forall q u, In (q, u) (entries s) -> u + frees q (trace s) = 1 + allocs q (trace s) + nsum (fun p => pend q (pcs s p)) ps;
  a_pc : forall p i q, pcs s p = Alloc i q -> exists u, nth_error (entries s) i = Some (q, u);
  a_le : forall q, frees q (trace s) <= allocs q (trace s);
  a_new : forall q, nextq s <= q -> allocs q (trace s) = 0;
  a_run : crashed s = false }.
Lemma allocs_app q a b : allocs q (a ++ b) = allocs q a + allocs q b.
Proof. unfold allocs. rewrite filter_app, app_length. reflexivity. Qed.
Lemma frees_app q a b : frees q (a ++ b) = frees q a + frees q b.
Proof. unfold frees. rewrite filter_app, app_length. reflexivity. Qed.
Definition still (d : list ev) : Prop := forall q, allocs q d = 0 /\ frees q d = 0.
Lemma ainv_frame s s' ps d : ainv s ps -> trace s' = trace s ++ d -> still d -> cover s' ps -> (forall p q, pend q (pcs s' p) = pend q (pcs s p)) -> (forall p i q, pcs s' p = Alloc i q -> pcs s p = Alloc i q) ->
  entries s' = entries s -> nextq s <= nextq s' -> crashed s' = false -> ainv s' ps.
Proof.
  intros [A B C D E F] T St Cv Pd Pc En Nq Cr. assert (Al : forall q, allocs q (trace s') = allocs q (trace s)) by (intros q; rewrite T, allocs_app; destruct (St q); lia).
  assert (Fr : forall q, frees q (trace s') = frees q (trace s)) by (intros q; rewrite T, frees_app; destruct (St q); lia).
  constructor; auto.
  - intros q u. rewrite En, Al, Fr. intros J. rewrite (B q u J). f_equal. apply nsum_ext. intros x _. symmetry. apply Pd.
  - intros p i q H. rewrite En. apply (C p). apply Pc. assumption.
  - intros q. rewrite Al, Fr. apply D.
  - intros q. rewrite Al. intros L. apply E. lia.
Qed.
Lemma ainv_cover s ps p : ainv s ps -> exists ps', ainv s ps' /\ In p ps'.
Proof.
  intros [[ND A] B C D E F]. destruct (in_dec Nat.eq_dec p ps) as [I|I]; [exists ps; split; [constructor; try split; assumption|assumption]|]. exists (p :: ps). split; [|left; reflexivity].
  constructor; auto; [split|].
  - constructor; assumption.
  - intros x X. apply A. intros Y. apply X. right. assumption.
  - intros q u J. rewrite (B q u J). cbn [nsum]. rewrite (A p I). cbn [pend]. lia.
Qed.
Lemma bump_in l : forall i x v, NoDup (map fst l) -> nth_error l i = Some (x, v) -> forall q u, In (q, u) (bump i l) -> (q = x /\ u = S v) \/ (q <> x /\ In (q, u) l).
Proof.
  induction l as [|[a c] l IH]; intros [|i] x v ND Ne q u J; cbn in *; try discriminate; inversion ND; subst.
  - assert (a = x /\ c = v) as [-> ->] by (split; congruence). destruct J as [J|J]; [left; split; congruence|]. right. split; [|auto]. intros ->. apply H1. apply (in_map fst) in J. exact J.
  - destruct J as [J|J].
    + right. split; [|auto]. assert (a = q) by congruence. subst q. intros ->. apply H1. apply nth_error_In in Ne. apply (in_map fst) in Ne. exact Ne.
    + destruct (IH _ _ _ H2 Ne _ _ J) as [K|[K1 K2]]; auto.
Qed.
Lemma bump_nth l : forall i k q u, nth_error l k = Some (q, u) -> exists u', nth_error (bump i l) k = Some (q, u').
Proof. induction l as [|[a c] l IH]; intros [|i] [|k] q u H; cbn in *; try discriminate; eauto. assert (a = q) by congruence. subst. eauto. Qed.
Lemma unuse_in l : forall q m, NoDup (map fst l) -> unuse l q = Some m -> forall q' u', In (q', u') m -> (q' = q /\ 1 <= u' /\ In (q, S u') l) \/ (q' <> q /\ In (q', u') l).
Proof.
  induction l as [|[a c] l IH]; intros q m ND U q' u' J; cbn [unuse] in U; [discriminate|]. inversion ND; subst. destruct (Nat.eqb_spec a q) as [->|n].
  - destruct (1 <? c) eqn:C; [|discriminate]. apply Nat.ltb_lt in C. assert (m = (q, Nat.pred c) :: l) by congruence. subst m. destruct J as [J|J].
    + left. assert (q' = q /\ u' = Nat.pred c) as [-> ->] by (split; congruence). split; [reflexivity|]. split; [lia|]. left. f_equal. lia.
    + right. split; [|right; assumption]. intros ->. apply H1. apply (in_map fst) in J. exact J.
  - destruct (unuse l q) as [r|] eqn:R; cbn [option_map] in U; [|discriminate]. assert (m = (a, c) :: r) by congruence. subst m. destruct J as [J|J].
    + right. assert (a = q') by congruence. split; [congruence|left; assumption].
    + destruct (IH _ _ H2 R _ _ J) as [[K1 [K2 K3]]|[K1 K2]]; [left|right]; repeat split; auto; right; assumption.
Qed.
Lemma unuse_nth l : forall q m, unuse l q = Some m -> forall k x u, nth_error l k = Some (x, u) -> exists u', nth_error m k = Some (x, u').
Proof.
  induction l as [|[a c] l IH]; intros q m U k x u H; cbn [unuse] in U; [discriminate|]. destruct (a =? q).
  - destruct (1 <? c); [|discriminate]. assert (m = (a, Nat.pred c) :: l) by congruence. subst m. destruct k; cbn in *; [assert (a = x) by congruence; subst|]; eauto.
  - destruct (unuse l q) as [r|] eqn:R; cbn [option_map] in U; [|discriminate]. assert (m = (a, c) :: r) by congruence. subst m. destruct k; cbn in *; eauto.
Qed.
Lemma cover_same s s' ps : cover s ps -> pcs s' = pcs s -> cover s' ps. Proof. intros [A B] E. split; [assumption|rewrite E; assumption]. Qed.
Lemma pend_upd (f : nat -> pc) p x q : pend q (f p) = pend q x -> forall y, pend q (fupd f p x y) = pend q (f y).
Proof. intros H y. destruct (Nat.eq_dec y p) as [->|n]; [rewrite fupd_eq; auto|rewrite fupd_ne by assumption; reflexivity]. Qed.
Lemma alloc_upd (f : nat -> pc) p x : (forall i q, x <> Alloc i q) -> forall y i q, fupd f p x y = Alloc i q -> f y = Alloc i q.
Proof. intros H y i q K. apply fupd_case in K. destruct K as [[-> K]|[n K]]; [destruct (H _ _ K)|assumption]. Qed.
Lemma ainv_create N s ps : inv1 N s -> ainv s ps -> ainv (create s) ps.
Proof.
  intros I1 [A B C D E F]. constructor; proj; auto.
  - intros q u J. rewrite allocs_app, frees_app. change (allocs q [ECreate (nextq s)]) with 0. change (frees q [ECreate (nextq s)]) with 0. rewrite !Nat.add_0_r. apply in_app_iff in J. destruct J as [J|[J|[]]]; [auto|].
    assert (q = nextq s /\ u = 1) as [-> ->] by (split; congruence). specialize (E _ (le_n _)). specialize (D (nextq s)).
    assert (Z0 : nsum (fun p => pend (nextq s) (pcs s p)) ps = 0); [|lia]. clear -I1 C. induction ps as [|p ps IH]; [reflexivity|]. cbn. rewrite IH, Nat.add_0_r.
    destruct (pcs s p) as [| | | |i k|] eqn:P; try reflexivity. cbn. destruct (Nat.eqb_spec k (nextq s)) as [->|]; [|reflexivity]. destruct (C _ _ _ P) as [u H].
    apply nth_error_In in H. apply (in_map fst) in H. apply (i_lt _ _ I1) in H. cbn in H. lia.
  - intros p i q H. destruct (C _ _ _ H) as [u K]. exists u. rewrite nth_error_app1; [assumption|]. apply nth_lt in K. assumption.
  - intros q. rewrite allocs_app, frees_app. specialize (D q). cbn. lia.
  - intros q L. rewrite allocs_app. rewrite E by lia. reflexivity.
Qed.
Lemma ainv_step N l s s' ps : 1 <= N -> inv1 N s -> ainv s ps -> exec N l s = Some s' -> l <> LShrinkAll -> (forall q, l = LFree q -> frees q (trace s) < allocs q (trace s)) -> exists ps', ainv s' ps'.
Proof.
  intros N1 I1 A0 H NS NF. pose proof (a_run _ _ A0) as Cr. unfold exec in H. rewrite Cr in H.
  assert (One : forall p x s1 d, pcs s1 = fupd (pcs s) p x -> (forall q, pend q (pcs s p) = pend q x) -> (forall i q, x <> Alloc i q) -> trace s1 = trace s ++ d -> still d -> entries s1 = entries s -> nextq s1 = nextq s -> crashed s1 = false -> exists ps', ainv s1 ps').
  { intros p x s1 d E Pd Na T St En Nq C1. destruct (ainv_cover _ _ p A0) as [ps' [A1 I0]]. exists ps'. eapply (ainv_frame s s1 ps' d A1); auto; try rewrite E; try lia.
    - eapply cover_pc; [apply A1|exact I0|exact E].
    - intros y q. apply pend_upd. apply Pd.
    - apply alloc_upd. assumption. }
  assert (Same : forall s1 d, pcs s1 = pcs s -> trace s1 = trace s ++ d -> still d -> entries s1 = entries s -> nextq s1 = nextq s -> crashed s1 = false -> exists ps', ainv s1 ps').
  { intros s1 d E T St En Nq C1. exists ps. eapply (ainv_frame s s1 ps d A0); auto; try rewrite E; try lia; auto. eapply cover_same; [apply A0|assumption]. }
  assert (Nil : still []) by (intros q; split; reflexivity).
  assert (TN : forall tr : list ev, tr = tr ++ []) by (intros; rewrite app_nil_r; reflexivity).
  destruct l.
  - destruct (lock s) eqn:Lk; [discriminate|]. destruct (pcs s p) eqn:P; try discriminate. res H. eapply (One p); try reflexivity; proj; try apply TN; try assumption; [rewrite P; reflexivity|discriminate].
  - destruct (pcs s p) as [|j i b| | | |] eqn:P; try discriminate. destruct (nth_error (entries s) i) as [[q u]|] eqn:Ne; [|discriminate]. res H. eapply (One p); try reflexivity; proj; try apply TN; try assumption; [rewrite P; reflexivity|discriminate].
  - destruct (pcs s p) as [|j i b| | | |] eqn:P; try discriminate. destruct (nth_error (entries s) i) as [[q u]|] eqn:Ne; [discriminate|].
    destruct (pick N s b ok) as [s1 o] eqn:Pk. res H.
    assert (S1 : exists s0, (s0 = s \/ s0 = create s) /\ trace s1 = trace s0 /\ entries s1 = entries s0 /\ nextq s1 = nextq s0 /\ pcs s1 = pcs s0 /\ crashed s1 = crashed s0).
    { unfold pick in Pk. match type of Pk with context [if ?x then if ok then _ else _ else _] => destruct x end; [destruct ok|].
      - exists (create s). assert (s1 = set_cnt (create s) (nextq s) (S (cnt (create s) (nextq s)))) by congruence. subst s1. auto 10.
      - exists s. destruct b as [b|]; [assert (s1 = set_cnt s b (S (cnt s b))) by congruence|assert (s1 = s) by congruence]; subst s1; auto 10.
      - exists s. destruct b as [b|]; [assert (s1 = set_cnt s b (S (cnt s b))) by congruence|assert (s1 = s) by congruence]; subst s1; auto 10. }
    destruct S1 as [s0 [S0 [E1 [E2 [E3 [E4 E5]]]]]].
    assert (A1 : ainv s0 ps) by (destruct S0 as [->| ->]; [assumption|eapply ainv_create; eassumption]). assert (P0 : pcs s0 = pcs s) by (destruct S0 as [->| ->]; reflexivity).
    destruct (ainv_cover _ _ p A1) as [ps' [A2 I2]]. exists ps'. destruct o as [q|].
    + eapply (ainv_frame s0 _ ps' [] A2); proj; try apply TN; try assumption; try lia.
      * rewrite E1. apply TN.
      * eapply (cover_pc s0); [apply A2|exact I2|]. proj. rewrite E4. reflexivity.
      * intros y k. rewrite E4. apply pend_upd. rewrite P0, P. reflexivity.
      * rewrite E4. apply alloc_upd. discriminate.
      * rewrite E5. apply A2.
    + eapply (ainv_frame s0 _ ps' [ENone j] A2); proj; try assumption; try lia.
      * rewrite E1. reflexivity.
      * eapply (cover_pc s0); [apply A2|exact I2|]. proj. rewrite E4. reflexivity.
      * intros y k. rewrite E4. apply pend_upd. rewrite P0, P. reflexivity.
      * rewrite E4. apply alloc_upd. discriminate.
      * rewrite E5. apply A2.
  - destruct (pcs s p) eqn:P; try discriminate. res H. destruct ok; (eapply (One p); try reflexivity; proj; try assumption; [rewrite P; reflexivity|discriminate]).
  - destruct (pcs s p) eqn:P; try discriminate. res H. eapply (One p); try reflexivity; proj; try apply TN; try assumption; [rewrite P; reflexivity|discriminate].
  - destruct (lock s) eqn:Lk; [discriminate|]. destruct (pcs s p) eqn:P; try discriminate.
    match type of H with (let '(_, _) := ?x in _) = _ => destruct x as [s1 b] eqn:Al end.
    destruct (alloc_case _ _ _ _ _ N1 I1 (inv1_free _ _ I1 Lk) Al) as [I1' [Fr [S1 Lb]]]. res H.
    assert (A1 : ainv s1 ps) by (destruct S1 as [->| ->]; [assumption|eapply ainv_create; eassumption]).
    destruct b as [i|]; [|exists ps; assumption]. destruct (ainv_cover _ _ p A1) as [ps' [A2 I2]]. exists ps'.
    assert (P0 : pcs s1 p = Idle) by (destruct S1 as [->| ->]; exact P).
    destruct (nth_error (entries s1) i) as [[x v]|] eqn:Ne; [|apply nth_error_None in Ne; lia].
    assert (Nx : nth i (map fst (entries s1)) 0 = x) by (apply nth_error_nth; rewrite (map_nth_error fst i _ Ne); reflexivity).
    rewrite Nx. destruct A2 as [B0 B B2 B3 B4 B5].
    assert (En : entries (set_pc (use s1 i) p (Alloc i x)) = bump i (entries s1)) by apply use_bump.
    assert (Ps : forall q, nsum (fun y => pend q (fupd (pcs s1) p (Alloc i x) y)) ps' = nsum (fun y => pend q (pcs s1 y)) ps' + (if x =? q then 1 else 0)).
    { intros q. pose proof (nsum_upd (fun y => pend q (pcs s1 y)) (fun y => pend q (fupd (pcs s1) p (Alloc i x) y)) ps' p (proj1 B0) I2) as K. cbn beta in K. rewrite fupd_eq, P0 in K. cbn [pend] in K.
      rewrite <- K; [lia|]. intros y Y. rewrite fupd_ne by assumption. reflexivity. }
    constructor.
    + eapply (cover_pc s1); [exact B0|exact I2|reflexivity].
    + intros q u. rewrite En. intros J. change (trace (set_pc (use s1 i) p (Alloc i x))) with (trace s1). change (pcs (set_pc (use s1 i) p (Alloc i x))) with (fupd (pcs s1) p (Alloc i x)). rewrite Ps.
      destruct (bump_in _ _ _ _ (i_nd _ _ I1') Ne _ _ J) as [[-> ->]|[n J']].
      * rewrite Nat.eqb_refl. specialize (B _ _ (nth_error_In _ _ Ne)). lia.
      * rewrite (proj2 (Nat.eqb_neq _ _)) by auto. specialize (B _ _ J'). lia.
    + intros y k q K. rewrite En. change (pcs (set_pc (use s1 i) p (Alloc i x))) with (fupd (pcs s1) p (Alloc i x)) in K. apply fupd_case in K. destruct K as [[-> K]|[n K]].
      * assert (k = i /\ q = x) as [-> ->] by (split; congruence). eapply bump_nth. eassumption.
      * destruct (B2 _ _ _ K) as [u U]. eapply bump_nth. eassumption.
    + exact B3.
    + exact B4.
    + exact B5.
  - destruct (pcs s p) as [| | | |i q|] eqn:P; try discriminate. res H. destruct (ainv_cover _ _ p A0) as [ps' [[B0 B B2 B3 B4 B5] I2]]. exists ps'. destruct (B2 _ _ _ P) as [u U]. rewrite U.
    assert (Ps : forall k, nsum (fun y => pend k (fupd (pcs s) p Idle y)) ps' + (if q =? k then 1 else 0) = nsum (fun y => pend k (pcs s y)) ps').
    { intros k. pose proof (nsum_upd (fun y => pend k (pcs s y)) (fun y => pend k (fupd (pcs s) p Idle y)) ps' p (proj1 B0) I2) as K. cbn beta in K. rewrite fupd_eq, P in K. cbn [pend] in K.
      rewrite K; [lia|]. intros y Y. rewrite fupd_ne by assumption. reflexivity. }
    assert (Aq : forall k, allocs k [EAlloc q] = if q =? k then 1 else 0) by (intros k; unfold allocs; cbn; destruct (q =? k); reflexivity).
    constructor; proj.
    + eapply (cover_pc s); [exact B0|exact I2|reflexivity].
    + intros k v J. rewrite allocs_app, frees_app, Aq. change (frees k [EAlloc q]) with 0. specialize (Ps k). specialize (B _ _ J). lia.
    + intros y k x K. apply alloc_upd in K; [|discriminate]. eapply B2. eassumption.
    + intros k. rewrite allocs_app, frees_app. specialize (B3 k). change (frees k [EAlloc q]) with 0. lia.
    + intros k L. rewrite allocs_app, Aq, B4 by assumption. apply nth_error_In in U. apply (in_map fst) in U. apply (i_lt _ _ I1) in U. cbn in U. rewrite (proj2 (Nat.eqb_neq _ _)) by lia. reflexivity.
    + exact B5.
  - destruct (lock s) eqn:Lk; [discriminate|]. destruct (unuse (entries s) q) as [e|] eqn:U; [|discriminate]. res H. specialize (NF _ eq_refl). exists ps. destruct A0 as [B0 B B2 B3 B4 B5].
    assert (Fq : forall k, frees k [EFree q] = if q =? k then 1 else 0) by (intros k; unfold frees; cbn; destruct (q =? k); reflexivity).
    constructor; proj; auto.
    + intros k v J. rewrite allocs_app, frees_app, Fq. change (allocs k [EFree q]) with 0. destruct (unuse_in _ _ _ (i_nd _ _ I1) U _ _ J) as [[-> [K1 K2]]|[K1 K2]].
      * rewrite Nat.eqb_refl. specialize (B _ _ K2). lia.
      * rewrite (proj2 (Nat.eqb_neq _ _)) by auto. specialize (B _ _ K2). lia.
    + intros y k x K. destruct (B2 _ _ _ K) as [v V]. eapply unuse_nth; eassumption.
    + intros k. rewrite allocs_app, frees_app, Fq. change (allocs k [EFree q]) with 0. specialize (B3 k). destruct (Nat.eqb_spec q k) as [->|]; lia.
    + intros k L. rewrite allocs_app, B4 by assumption. reflexivity.
  - destruct (lock s) eqn:Lk; [discriminate|]. destruct (rev (entries s)) as [|[q u] r] eqn:Rv; [discriminate|]. destruct (_ && _) eqn:C; [|discriminate]. res H. apply andb_prop in C. destruct C as [_ C]. apply Nat.eqb_eq in C. subst u.
    apply rev_cons_eq in Rv. exists ps. destruct A0 as [B0 B B2 B3 B4 B5].
    assert (St : still [ERemove q]) by (intros k; split; reflexivity).
    assert (Q0 : nsum (fun p => pend q (pcs s p)) ps = 0). { assert (J : In (q, 1) (entries s)) by (rewrite Rv; apply in_app_iff; right; left; reflexivity). specialize (B _ _ J). specialize (B3 q). lia. }
    constructor; proj; auto.
    + intros k v J. rewrite allocs_app, frees_app. destruct (St k) as [-> ->]. rewrite !Nat.add_0_r. apply B. rewrite Rv. apply in_app_iff. auto.
    + intros y k x K. destruct (B2 _ _ _ K) as [v V]. exists v. rewrite Rv in V. destruct (lt_dec k (length (rev r))) as [L|L]; [rewrite nth_error_app1 in V by assumption; assumption|].
      exfalso. rewrite nth_error_app2 in V by lia. destruct (k - length (rev r)) as [|z]; cbn in V; [|destruct z; discriminate]. assert (x = q) by congruence. subst x.
      destruct B0 as [ND Cv]. assert (Iy : In y ps) by (destruct (in_dec Nat.eq_dec y ps) as [X|X]; [assumption|rewrite (Cv _ X) in K; discriminate]).
      clear -Q0 Iy K. induction ps as [|w ps IH]; [contradiction Iy|]. cbn in Q0. destruct Iy as [->|Iy]; [rewrite K in Q0; cbn in Q0; rewrite Nat.eqb_refl in Q0; lia|apply IH; [lia|assumption]].
    + intros k. rewrite allocs_app, frees_app. destruct (St k) as [-> ->]. specialize (B3 k). lia.
    + intros k L. rewrite allocs_app, B4 by assumption. reflexivity.
  - contradiction NS. reflexivity.
  - destruct (lock s) eqn:Lk; [discriminate|]. destruct (pcs s p) eqn:P; try discriminate.
    set (s1 := match entries s with [] => if ok then create s else s | _ => s end) in *.
    assert (S1 : s1 = s \/ s1 = create s) by (unfold s1; destruct (entries s); [destruct ok|]; auto).
    assert (A1 : ainv s1 ps) by (destruct S1 as [->| ->]; [assumption|eapply ainv_create; eassumption]).
    assert (P0 : pcs s1 p = Idle) by (destruct S1 as [->| ->]; exact P).
    destruct (entries s1) as [|e0 es] eqn:En; [discriminate|]. res H. rewrite <- En.
    destruct (ainv_cover _ _ p A1) as [ps' [A2 I2]]. exists ps'. eapply (ainv_frame s1 _ ps' [ECall (nextt s1) (map fst (entries s1))] A2); proj; try reflexivity.
    + intros k. split; reflexivity.
    + eapply (cover_pc s1); [apply A2|exact I2|reflexivity].
    + intros y k. apply pend_upd. rewrite P0. reflexivity.
    + apply alloc_upd. discriminate.
    + apply A2.
  - destruct (pcs s p) as [| | | | |t i] eqn:P; try discriminate. destruct (nth_error (entries s) i) as [[q u]|] eqn:Ne; [|discriminate]. res H.
    eapply (One p); try reflexivity; proj; try assumption; [rewrite P; reflexivity|discriminate].
  - destruct (pcs s p) as [| | | | |t i] eqn:P; try discriminate. destruct (nth_error (entries s) i) eqn:Ne; [discriminate|]. res H. eapply (One p); try reflexivity; proj; try apply TN; try assumption; [rewrite P; reflexivity|discriminate].
  - destruct (q <? nextq s); [|discriminate]. res H. eapply Same; try reflexivity; proj; assumption.
  - destruct (cur s q) eqn:Cu; [discriminate|]. destruct (items s q) as [|it r] eqn:It; [discriminate|]. res H. eapply Same; try reflexivity; proj; assumption.
  - destruct (cur s q) as [it|] eqn:Cu; [|discriminate]. destruct it as [j|t]; res H; (eapply Same; try reflexivity; proj; try assumption; intros k; destruct (Nat.pred (left s t) =? 0); split; reflexivity).
Qed.
Lemma polite_ainv N s : 1 <= N -> polite N s -> exists ps, ainv s ps.
Proof.
  intros N1. induction 1 as [|s l s' Pl [ps IH] E NS NF].
  - exists []. constructor; cbn; auto; try discriminate; try contradiction. split; [constructor|reflexivity].
  - eapply ainv_step; try eassumption. apply reach_inv1; [assumption|]. apply polite_reach. assumption.
Qed.
(** In such histories aosl_mpq_alloc does not crash and returns the queue it chose under the lock; a queue is never given back more often than it was handed out; and a queue that is handed out stays in the pool until it is given back: when a queue is removed, every allocation of it had been freed. *)
Theorem C34_alloc_partial N s : 1 <= N -> polite N s ->
  crashed s = false /\
  (forall p i q s', pcs s p = Alloc i q -> exec N (LAllocRet p) s = Some s' -> trace s' = trace s ++ [EAlloc q]) /\
  (forall s' q, exec N LShrink s = Some s' -> trace s' = trace s ++ [ERemove q] -> allocs q (trace s) = frees q (trace s)).
Proof.
  intros N1 Pl. destruct (polite_ainv _ _ N1 Pl) as [ps A]. split; [apply A|]. split.
  - intros p i q s' P H. destruct (a_pc _ _ A _ _ _ P) as [u U]. unfold exec in H. rewrite (a_run _ _ A), P, U in H. res H. reflexivity.
  - intros s' q H T. unfold exec in H. rewrite (a_run _ _ A) in H. destruct (lock s); [discriminate|]. destruct (rev (entries s)) as [|[k u] r] eqn:Rv; [discriminate|]. destruct (_ && _) eqn:C; [|discriminate].
    apply andb_prop in C. destruct C as [_ C]. apply Nat.eqb_eq in C. subst u. res H. proj. apply app_inv_head in T. assert (k = q) by congruence. subst k. apply rev_cons_eq in Rv.
    assert (J : In (q, 1) (entries s)) by (rewrite Rv; apply in_app_iff; right; left; reflexivity). pose proof (a_use _ _ A _ _ J) as K. pose proof (a_le _ _ A q). lia.
Qed.
Print Assumptions C34_alloc_partial.
(** Shrinking the whole pool while a thread is in aosl_mpq_alloc makes that call use a NULL pointer; and if the pool was filled again meanwhile, it returns a queue on which it has no claim: its next aosl_mpq_free of that queue is refused. *)
Theorem C34_alloc_race_refuted :
  (exists s, run 2 [LAlloc 0 true; LShrinkAll; LAllocRet 0] init = Some s /\ crashed s = true) /\
  (exists s, run 2 ([LAlloc 0 true; LShrinkAll] ++ disp 1 0 true ++ [LAllocRet 0]) init = Some s /\ crashed s = false /\ (exists tr, trace s = tr ++ [EAlloc 1]) /\ exec 2 (LFree 1) s = None).
Proof.
  split.
  - exists (end_of 2 [LAlloc 0 true; LShrinkAll; LAllocRet 0] init). split; [apply end_run|]; vm_compute; reflexivity.
  - exists (end_of 2 ([LAlloc 0 true; LShrinkAll] ++ disp 1 0 true ++ [LAllocRet 0]) init). split; [apply end_run; vm_compute; reflexivity|]. split; [vm_compute; reflexivity|]. split; [|vm_compute; reflexivity].
    exists [ECreate 0; ERemove 0; ECreate 1; EAccept 0 1]. vm_compute. reflexivity.
Qed.
Print Assumptions C34_alloc_race_refuted.

(** ** Examples. *)
(** Two queues, a tail request placed by thread 1 while queue 0 works: its function is called once, by the last queue to get there. *)
Definition ex_run : list label := disp 0 0 true ++ disp 0 1 true ++ [LBegin 0; LTail 1 true; LTailMark 1; LBegin 1; LTailMark 1; LTailEnd 1; LEnd 1; LBegin 1; LEnd 1; LEnd 0; LBegin 0; LEnd 0].
Example ex_tail : isrun 2 ex_run init = true /\ tails 0 (trace (end_of 2 ex_run init)) = 1 /\ length (entries (end_of 2 ex_run init)) = 2 /\
  trace (end_of 2 ex_run init) = [ECreate 0; EAccept 0 0; ECreate 1; EAccept 1 1; EBegin 0 (Job 0)] ++ ECall 0 [0; 1] :: [EMark 0 0; EBegin 1 (Job 1); EMark 0 1; EEnd 1 (Job 1); EBegin 1 (Mark 0); EEnd 1 (Mark 0); EEnd 0 (Job 0); EBegin 0 (Mark 0)] ++ ETail 0 0 :: [EEnd 0 (Mark 0)].
Proof. vm_compute. auto. Qed.
(** The hypotheses of C34_least_partial: a pool of three queues with 1, 0 and 2 pending requests; the request goes to the second. *)
Example ex_least : isrun 3 (setup ++ LDispatch 5 :: repeat (LScan 5) 3 ++ [LPick 5 true]) init = true /\ pcs (end_of 3 (setup ++ LDispatch 5 :: repeat (LScan 5) 3 ++ [LPick 5 true]) init) 5 = Send 4 1.
Proof. vm_compute. auto. Qed.
(** Allocating twice gives two queues, the third allocation shares one. *)
Example ex_alloc : trace (end_of 2 [LAlloc 0 true; LAllocRet 0; LAlloc 0 true; LAllocRet 0; LAlloc 0 true; LAllocRet 0; LFree 1; LShrink] init) = [ECreate 0; EAlloc 0; ECreate 1; EAlloc 1; EAlloc 0; EFree 1; ERemove 1].
Proof. vm_compute. reflexivity. Qed.
