(** * Properties C05, C06, C07 (red-black tree). *)
From Verif Require Import Base Rbtree RbtreeProof RbtreeFix RbtreeErase RbtreeSpec RbtreeThms RbtreeIter.

(** C05.  In every reachable state the memory holds a tree whose in-order
    reading is exactly the live elements, sorted by key, equal keys in
    insertion order; the counter is their number (mod 2^64). *)
Theorem C05_ordered_multiset :
  forall (K : Type) (cmp : K -> K -> Z) st keys live,
  total_preorder cmp -> reach cmp st keys live ->
  exists l, walk_in (s_heap st) (s_root st) l /\
    (forall l', walk_in (s_heap st) (s_root st) l' -> l' = l) /\
    NoDup l /\
    Permutation l (map fst live) /\
    (forall a k, In (a, k) live -> keys a = k) /\
    StronglySorted (fun x y => cmp (keys x) (keys y) <= 0) l /\
    (forall k, filter (fun a => cmp (keys a) k =? 0) l =
               filter (fun a => cmp (keys a) k =? 0) (map fst live)) /\
    s_count st = u64 (Z.of_nat (length live)).
Proof.
  intros K cmp st keys live TP H. apply (reach_Inv _ _ _ _ TP) in H.
  destruct H as (t & m & F & R & P & S & St & C & Kk).
  assert (Hr : s_root st = tptr t) by apply F.
  assert (W : walk_in (s_heap st) (s_root st) (inorder t)).
  { rewrite Hr. eapply rep_walk_in. apply F. }
  exists (inorder t). split; auto. split.
  - intros l' H'. eapply walk_in_det; eauto.
  - split; [eapply focus_nodup; eauto|]. repeat split; auto.
Qed.

(** C05.  An insertion of a node that is not in the tree always succeeds, and
    leads to a reachable state with that element appended to the history. *)
Theorem C05_insert_succeeds :
  forall (K : Type) (cmp : K -> K -> Z) st keys live a k g fuel,
  total_preorder cmp -> reach cmp st keys live -> ~ In a (map fst live) ->
  (log_steps (length live) <= fuel)%nat ->
  exists st', rb_insert_node K cmp (kupd keys a k) fuel a (with_cell st a (Some g)) = Ok (tt, st') /\
    reach cmp st' (kupd keys a k) (live ++ [(a, k)]).
Proof.
  intros K cmp st keys live a k g fuel TP H Ha Hf.
  pose proof (reach_Inv _ _ _ _ TP H) as HI.
  destruct (runs_ok _ _ _ (Inv_insert cmp TP st keys live a k g fuel HI Ha Hf)) as ([] & st' & E1 & _).
  exists st'. split; auto. eapply reach_insert; eauto.
Qed.

(** C05.  aosl_rb_erase of a node in the tree removes exactly that node. *)
Theorem C05_erase_succeeds :
  forall (K : Type) (cmp : K -> K -> Z) st keys live a fuel,
  total_preorder cmp -> reach cmp st keys live -> In a (map fst live) ->
  (log_steps (length live) <= fuel)%nat ->
  exists st' st'', rb_erase fuel (Some a) st = Ok (tt, st') /\ free_node (Some a) st' = Ok (tt, st'') /\
    reach cmp st'' keys (filter (not_node a) live).
Proof.
  intros K cmp st keys live a fuel TP H Ha Hf.
  pose proof (reach_Inv _ _ _ _ TP H) as HI.
  destruct (Inv_erase cmp st keys live a fuel HI Ha Hf) as (st' & E1 & E2 & _).
  exists st', (with_cell st' a None). split; auto. split; auto. eapply reach_erase; eauto.
Qed.

(** C05.  find returns a live element equal to the key, exactly when there is one. *)
Theorem C05_find :
  forall (K : Type) (cmp : K -> K -> Z) st keys live k fuel,
  total_preorder cmp -> reach cmp st keys live -> (log_steps (length live) <= fuel)%nat ->
  (exists a ka, find_node K cmp keys fuel k st = Ok (Some a, st) /\ In (a, ka) live /\ cmp ka k = 0) \/
  (find_node K cmp keys fuel k st = Ok (None, st) /\ forall a ka, In (a, ka) live -> cmp ka k <> 0).
Proof.
  intros K cmp st keys live k fuel TP H Hf.
  pose proof (reach_Inv _ _ _ _ TP H) as HI.
  destruct (Inv_find cmp TP st keys live k fuel HI Hf) as ([a|] & E1 & Hv).
  - left. exists a, (keys a). tauto.
  - right. auto.
Qed.

(** C05.  remove deletes exactly one element equal to the key, if any. *)
Theorem C05_remove :
  forall (K : Type) (cmp : K -> K -> Z) st keys live k fuel,
  total_preorder cmp -> reach cmp st keys live -> (log_steps (length live) <= fuel)%nat ->
  (exists a ka st' st'', rb_remove K cmp keys fuel k st = Ok (Some a, st') /\
      free_node (Some a) st' = Ok (tt, st'') /\
      In (a, ka) live /\ cmp ka k = 0 /\
      reach cmp st'' keys (filter (not_node a) live) /\
      length live = S (length (filter (not_node a) live))) \/
  (rb_remove K cmp keys fuel k st = Ok (None, st) /\ forall a ka, In (a, ka) live -> cmp ka k <> 0).
Proof.
  intros K cmp st keys live k fuel TP H Hf.
  pose proof (reach_Inv _ _ _ _ TP H) as HI.
  destruct (Inv_remove cmp TP st keys live k fuel HI Hf) as [(a & st' & E1 & Hin & Hc & E2 & HI2)|(E1 & Hv)].
  - left. exists a, (keys a), st', (with_cell st' a None). repeat split; auto.
    + eapply reach_remove; eauto.
    + assert (ND : NoDup (map fst live)).
      { destruct HI as (t & m & F & R & P & _). eapply Permutation_NoDup; [exact P|].
        eapply focus_nodup; eauto. }
      assert (Ha : In a (map fst live)) by (apply in_map_iff; exists (a, keys a); auto).
      clear -ND Ha. induction live as [|[b kb] live IH]; simpl in *; [tauto|].
      inversion ND; subst. unfold not_node at 1. simpl. destruct (Nat.eqb_spec b a) as [->|Hne]; simpl.
      * f_equal. f_equal. symmetry. apply filter_all. intros [c kc] Hx. unfold not_node. simpl.
        apply negb_true_iff, Nat.eqb_neq. intros ->. apply H1. apply in_map_iff. exists (a, kc). auto.
      * f_equal. apply IH; auto. destruct Ha; [congruence|auto].
  - right. auto.
Qed.

(** C05.  The insertion point search reports the logical neighbours: all
    elements up to [prev] are <= the key, all from [next] on are greater. *)
Theorem C05_insertion_point :
  forall (K : Type) (cmp : K -> K -> Z) st keys live k fuel l,
  total_preorder cmp -> reach cmp st keys live -> (log_steps (length live) <= fuel)%nat ->
  walk_in (s_heap st) (s_root st) l ->
  exists lk par L R, find_links K cmp keys fuel k st = Ok ((lk, par, last_error L, hd_error R), st) /\
    l = L ++ R /\ read_link lk st = Ok (None, st) /\
    (forall x, In x L -> cmp (keys x) k <= 0) /\ (forall x, In x R -> 0 < cmp (keys x) k).
Proof.
  intros K cmp st keys live k fuel l TP H Hf W.
  pose proof (reach_Inv _ _ _ _ TP H) as HI.
  destruct HI as (t & m & F & Rb & P & S & St & C & Kk).
  pose proof (Inv_fuel live t m Rb P) as Hh.
  assert (l = inorder t) as ->.
  { eapply walk_in_det; [exact W|]. assert (s_root st = tptr t) as -> by apply F. eapply rep_walk_in. apply F. }
  destruct (runs_ok _ _ _ (find_links_ok cmp keys TP k fuel st t F S ltac:(lia)))
    as (v & st' & E1 & -> & q & Hq & -> & HL & HR).
  exists (link_of q), (ppar q), (lctx q), (rctx q). split; auto.
  split; [rewrite <- Hq, inorder_plug; reflexivity|]. split; auto.
  assert (Fq : focus st q E) by (apply (proj2 (focus_plug _ _ _)); rewrite Hq; exact F).
  destruct (runs_ok _ _ _ (read_link_of st q E (fun v s => v = None /\ s = st) Fq (conj eq_refl eq_refl))) as (v & s' & E2 & -> & ->).
  exact E2.
Qed.

(** C05.  aosl_rb_clear frees every element exactly once and leaves an empty tree. *)
Theorem C05_clear :
  forall (K : Type) (cmp : K -> K -> Z) st keys live loops fuel,
  total_preorder cmp -> reach cmp st keys live ->
  (log_steps (length live) <= fuel)%nat -> (length live < loops)%nat ->
  exists l st', rb_clear loops fuel st = Ok (l, st') /\ Permutation l (map fst live) /\
    s_root st' = None /\ s_count st' = 0 /\ (forall a, In a l -> s_heap st' a = None).
Proof.
  intros K cmp st keys live loops fuel TP H Hf Hl.
  eapply rb_clear_ok; eauto using reach_Inv.
Qed.

(** C05.  aosl_rb_replace_node puts a fresh node in the place of another. *)
Theorem C05_replace_node :
  forall (K : Type) (cmp : K -> K -> Z) st keys live a new g L R,
  total_preorder cmp -> reach cmp st keys live -> ~ In new (map fst live) ->
  walk_in (s_heap st) (s_root st) (L ++ a :: R) ->
  exists st', rb_replace_node (Some a) (Some new) (with_cell st new (Some g)) = Ok (tt, st') /\
    walk_in (s_heap st') (s_root st') (L ++ new :: R) /\ s_count st' = s_count st.
Proof.
  intros K cmp st keys live a new g L R TP H Hn W.
  destruct (reach_Inv _ _ _ _ TP H) as (t & m & F & Rb & P & S & St & C & Kk).
  assert (L ++ a :: R = inorder t) as I.
  { eapply walk_in_det; [exact W|]. assert (s_root st = tptr t) as -> by apply F. eapply rep_walk_in. apply F. }
  assert (Hnt : ~ In new (inorder t)) by (intros G; apply Hn; eapply Permutation_in; eauto).
  assert (F1 : focus (with_cell st new (Some g)) [] t).
  { apply focus_with_cell; auto. simpl. rewrite occ_count, (proj1 (count_occ_not_In _ _ _)); auto. }
  destruct (focus_find _ t a F1) as (p & c & l & r & Ht & Fp).
  { rewrite <- I. apply in_app_iff. right. left. auto. }
  assert (L = lctx p ++ inorder l /\ R = inorder r ++ rctx p) as [-> ->].
  { apply (nodup_split a). - rewrite I. apply (focus_nodup _ _ F).
    - rewrite I, Ht, inorder_plug. simpl. rewrite <- !app_assoc. reflexivity. }
  destruct (runs_ok _ _ _ (rb_replace_node_ok _ p a c l r new Fp ltac:(
    assert (Hpl : forall q t x, (occ x (plug q t) = occ x t + occp x q)%nat) by
      (clear; induction q as [|[? ? ?|? ? ?] q IH]; intros t x; simpl; [lia| |]; rewrite IH; simpl; lia);
    rewrite <- Hpl, <- Ht, occ_count; apply count_occ_not_In; auto)
    ltac:(simpl; rewrite hupd_eq; discriminate))) as ([] & st' & E1 & F2 & C2).
  exists st'. split; auto. split; [|rewrite C2; reflexivity].
  apply (proj1 (focus_plug _ _ _)) in F2.
  assert (s_root st' = tptr (plug p (T new c l r))) as -> by apply F2.
  replace ((lctx p ++ inorder l) ++ new :: inorder r ++ rctx p) with (inorder (plug p (T new c l r))).
  - eapply rep_walk_in. apply F2.
  - rewrite inorder_plug. simpl. rewrite <- !app_assoc. reflexivity.
Qed.

(** C06.  Red-black shape: along every way down from the root to a NULL leaf
    there are equally many black nodes, never two reds in a row, and the
    number of nodes met is at most 2*log2(n+1). *)
Theorem C06_balanced :
  forall (K : Type) (cmp : K -> K -> Z) st keys live,
  total_preorder cmp -> reach cmp st keys live ->
  exists b, forall colours, way_down (s_heap st) (s_root st) colours ->
    blacks colours = b /\ no_two_reds colours /\ hd false colours = false /\
    (length colours <= 2 * Nat.log2 (length live + 1))%nat.
Proof.
  intros K cmp st keys live TP H.
  destruct (reach_Inv _ _ _ _ TP H) as (t & m & F & Rb & P & S & St & C & Kk).
  exists m. intros cs W. assert (Hr : s_root st = tptr t) by apply F. rewrite Hr in W.
  destruct (way_down_rb _ _ _ _ _ cs (proj1 (proj2 F)) Rb W) as (A1 & A2 & A3 & A4).
  split; auto. split; auto. split.
  - specialize (A3 eq_refl). destruct cs as [|[] cs]; auto. simpl in A3. tauto.
  - pose proof (rb_log _ _ Rb). apply Permutation_length in P. rewrite size_inorder, map_length in P.
    rewrite <- P. lia.
Qed.

(** C06.  Every operation finishes without error when each of its loops is
    given 2*log2(n+1)+2 iterations. *)
Theorem C06_logarithmic_steps :
  forall (K : Type) (cmp : K -> K -> Z) st keys live,
  total_preorder cmp -> reach cmp st keys live ->
  let fuel := (2 * Nat.log2 (length live + 1) + 2)%nat in
  (forall a k g, ~ In a (map fst live) ->
     exists st', rb_insert_node K cmp (kupd keys a k) fuel a (with_cell st a (Some g)) = Ok (tt, st')) /\
  (forall a, In a (map fst live) ->
     exists st', rb_erase fuel (Some a) st = Ok (tt, st') /\
                 (exists r, rb_next fuel (Some a) st = Ok (r, st)) /\
                 (exists r, rb_prev fuel (Some a) st = Ok (r, st))) /\
  (forall k, exists r, find_node K cmp keys fuel k st = Ok (r, st)) /\
  (forall k, exists r st', rb_remove K cmp keys fuel k st = Ok (r, st')) /\
  (exists r, rb_first fuel st = Ok (r, st)) /\ (exists r, rb_last fuel st = Ok (r, st)).
Proof.
  intros K cmp st keys live TP H fuel.
  pose proof (reach_Inv _ _ _ _ TP H) as HI.
  assert (Hf : (log_steps (length live) <= fuel)%nat) by (unfold fuel, log_steps; lia).
  destruct HI as (t & m & F & Rb & P & S & St & C & Kk) eqn:HIe.
  pose proof (Inv_fuel live t m Rb P) as Hh.
  split; [|split; [|split; [|split; [|split]]]].
  - intros a k g Ha. destruct (C05_insert_succeeds K cmp st keys live a k g fuel TP H Ha Hf) as (st' & E1 & _). eauto.
  - intros a Ha. destruct (C05_erase_succeeds K cmp st keys live a fuel TP H Ha Hf) as (st' & _ & E1 & _).
    exists st'. split; auto.
    assert (In a (inorder t)) as Hat by (eapply Permutation_in; [symmetry|]; eauto).
    destruct (in_split _ _ Hat) as (L & R & I).
    split; eexists; [eapply rb_next_ok|eapply rb_prev_ok]; eauto; lia.
  - intros k. destruct (C05_find K cmp st keys live k fuel TP H Hf) as [(a & ka & E1 & _)|(E1 & _)]; eauto.
  - intros k. destruct (C05_remove K cmp st keys live k fuel TP H Hf) as [(a & ka & s1 & s2 & E1 & _)|(E1 & _)]; eauto.
  - eexists. eapply rb_first_ok; eauto. lia.
  - eexists. eapply rb_last_ok; eauto. lia.
Qed.

(** C07.  first / last / next / prev follow the in-order sequence. *)
Theorem C07_iteration :
  forall (K : Type) (cmp : K -> K -> Z) st keys live fuel l,
  total_preorder cmp -> reach cmp st keys live -> (log_steps (length live) <= fuel)%nat ->
  walk_in (s_heap st) (s_root st) l ->
  rb_first fuel st = Ok (hd_error l, st) /\
  rb_last fuel st = Ok (last_error l, st) /\
  forall L a R, l = L ++ a :: R ->
    rb_next fuel (Some a) st = Ok (hd_error R, st) /\
    rb_prev fuel (Some a) st = Ok (last_error L, st).
Proof.
  intros K cmp st keys live fuel l TP H Hf W.
  destruct (reach_Inv _ _ _ _ TP H) as (t & m & F & Rb & P & S & St & C & Kk).
  pose proof (Inv_fuel live t m Rb P) as Hh.
  assert (l = inorder t) as ->.
  { eapply walk_in_det; [exact W|]. assert (s_root st = tptr t) as -> by apply F. eapply rep_walk_in. apply F. }
  split; [eapply rb_first_ok; eauto; lia|]. split; [eapply rb_last_ok; eauto; lia|].
  intros L a R I. split; [eapply rb_next_ok; eauto; lia|eapply rb_prev_ok; eauto; lia].
Qed.

(** C07.  The recursive traversals run the callback over the pre-, in- and
    post-order sequence until it returns non-zero; each sequence contains
    every live element once; the tree is left unchanged. *)
Theorem C07_traversals :
  forall (K : Type) (cmp : K -> K -> Z) st keys live fuel (S0 : Type) (f : nat -> S0 -> Z * S0) (s : S0),
  total_preorder cmp -> reach cmp st keys live -> (log_steps (length live) <= fuel)%nat ->
  exists lpre lin lpost,
    walk_pre (s_heap st) (s_root st) lpre /\ Permutation lpre (map fst live) /\
    walk_in (s_heap st) (s_root st) lin /\ Permutation lin (map fst live) /\
    walk_post (s_heap st) (s_root st) lpost /\ Permutation lpost (map fst live) /\
    rb_traverse_dlr S0 f fuel s st = Ok (visit_until f lpre s, st) /\
    rb_traverse_ldr S0 f fuel s st = Ok (visit_until f lin s, st) /\
    rb_traverse_lrd S0 f fuel s st = Ok (visit_until f lpost s, st).
Proof.
  intros K cmp st keys live fuel S0 f s TP H Hf.
  destruct (reach_Inv _ _ _ _ TP H) as (t & m & F & Rb & P & S & St & C & Kk).
  pose proof (Inv_fuel live t m Rb P) as Hh.
  assert (Hr : s_root st = tptr t) by apply F. rewrite Hr.
  exists (preorder t), (inorder t), (postorder t).
  assert (P1 : forall t, Permutation (preorder t) (inorder t)).
  { clear. induction t as [|a c l IHl r IHr]; simpl; auto. rewrite IHl, IHr. apply Permutation_middle. }
  assert (P2 : forall t, Permutation (postorder t) (inorder t)).
  { clear. induction t as [|a c l IHl r IHr]; simpl; auto. rewrite IHl, IHr.
    apply Permutation_app_head. symmetry. apply Permutation_cons_append. }
  destruct (rb_traverse_ok f fuel st t s F ltac:(lia)) as (T1 & T2 & T3).
  assert (Rp := proj1 (proj2 F)).
  split; [eapply rep_walk_pre; eauto|]. split; [rewrite P1; auto|].
  split; [eapply rep_walk_in; eauto|]. split; [auto|].
  split; [eapply rep_walk_post; eauto|]. split; [rewrite P2; auto|]. auto.
Qed.

(** Non-vacuity: every sequence of distinct nodes with any keys is a history;
    the integers with "a - b" (no overflow) are a total preorder; and a
    concrete run with removals, computed. *)
Example reach_any : forall (K : Type) (cmp : K -> K -> Z) (k0 : K) (l : list (nat * K)),
  total_preorder cmp -> NoDup (map fst l) -> exists st keys, reach cmp st keys l.
Proof.
  intros K cmp k0 l TP. induction l as [|[a k] l IH] using rev_ind; intros ND.
  - exists (mkSt (fun _ => None) None 0), (fun _ => k0).
    eapply reach_init with (st0 := mkSt (fun _ => None) None 0). reflexivity.
  - rewrite map_app in ND. simpl in ND. apply NoDup_remove in ND as (ND & Ha). rewrite app_nil_r in *.
    destruct (IH ND) as (st & keys & H).
    destruct (C05_insert_succeeds K cmp st keys l a k (mkN None false None None) _ TP H Ha (le_n _)) as (st' & _ & H').
    eauto.
Qed.
Example preorder_sub : total_preorder (fun x y : Z => x - y).
Proof. split; intros; lia. Qed.

Definition demo_ops : M (list nat) :=
  let keys := fun a => Z.of_nat (a mod 7) in
  let ins a : M unit := fun st => rb_insert_node Z (fun x y => x - y) keys 40 a
                 (with_cell st a (Some (mkN (Some 77%nat) false (Some 78%nat) None))) in
  rb_root_init ;;; ins 3%nat ;;; ins 10%nat ;;; ins 1%nat ;;; ins 5%nat ;;; ins 8%nat ;;;
  ins 15%nat ;;; ins 2%nat ;;; ins 6%nat ;;; ins 13%nat ;;;
  rb_erase 40 (Some 8%nat) ;;;
  r <- rb_remove Z (fun x y => x - y) keys 40 3 ;;
  rb_traverse_ldr (list nat) (fun a l => (0, l ++ [a])) 40 [].
Example demo_result :
  match demo_ops (mkSt (fun _ => None) None 0) with
  | Ok (l, st) => l = [1; 15; 2; 10; 5; 6; 13]%nat /\ s_count st = 7
  | _ => False
  end.
Proof. vm_compute. split; reflexivity. Qed.

Print Assumptions C05_ordered_multiset.
Print Assumptions C05_insert_succeeds.
Print Assumptions C05_erase_succeeds.
Print Assumptions C05_find.
Print Assumptions C05_remove.
Print Assumptions C05_insertion_point.
Print Assumptions C05_clear.
Print Assumptions C05_replace_node.
Print Assumptions C06_balanced.
Print Assumptions C06_logarithmic_steps.
Print Assumptions C07_iteration.
Print Assumptions C07_traversals.
