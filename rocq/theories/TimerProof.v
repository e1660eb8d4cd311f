(** * Timer queue: the tree, the list and their invariant. *)
From Coq Require Import Sorting.Sorted Permutation.
From Verif Require Import Base Rbtree RbtreeProof RbtreeFix RbtreeErase RbtreeSpec RbtreeThms RbtreeIter Timer TimerSpec.

(** ** Execution predicate for the timer monad *)
Definition tr {A} (m : TM A) (s : tst) (Q : A -> tst -> Prop) : Prop :=
  match m s with Ok (v, s') => Q v s' | _ => False end.
Lemma tr_bind {A B} (m : TM A) (k : A -> TM B) s Q :
  tr m s (fun v s' => tr (k v) s' Q) -> tr (tbind m k) s Q.
Proof. unfold tr, tbind. destruct (m s) as [[v s']| |]; simpl; auto. Qed.
Lemma tr_conseq {A} (m : TM A) s (Q Q' : A -> tst -> Prop) :
  tr m s Q -> (forall v s', Q v s' -> Q' v s') -> tr m s Q'.
Proof. unfold tr. destruct (m s) as [[v s']| |]; auto. Qed.
Lemma tr_ok {A} (m : TM A) s Q : tr m s Q -> exists v s', m s = Ok (v, s') /\ Q v s'.
Proof. unfold tr. destruct (m s) as [[v s']| |]; try tauto. eauto. Qed.
Lemma tr_ret {A} (v : A) s (Q : A -> tst -> Prop) : Q v s -> tr (tret v) s Q.
Proof. auto. Qed.
Lemma tr_tld a n s (Q : tnode -> tst -> Prop) : t_cell s a = Some n -> Q n s -> tr (tld a) s Q.
Proof. unfold tr, tld. intros ->. auto. Qed.
Lemma tr_tmod a n f s (Q : unit -> tst -> Prop) :
  t_cell s a = Some n -> Q tt (put_cell (cupd (t_cell s) a (Some (f n))) s) -> tr (tmod a f) s Q.
Proof. unfold tr, tmod. intros ->. auto. Qed.
Lemma tr_onrb {A} (m : M A) s (Q : A -> tst -> Prop) :
  runs m (t_rb s) (fun v r => Q v (put_rb r s)) -> tr (onrb m) s Q.
Proof. unfold tr, onrb, runs. destruct (m (t_rb s)) as [[v r]| |]; simpl; auto. Qed.
Lemma tr_fun {A} (m : tst -> TM A) s (Q : A -> tst -> Prop) : tr (m s) s Q -> tr (fun s => m s s) s Q.
Proof. auto. Qed.

Lemma cupd_eq h a v : cupd h a v a = v.
Proof. unfold cupd. now rewrite Nat.eqb_refl. Qed.
Lemma cupd_neq h a v x : x <> a -> cupd h a v x = h x.
Proof. unfold cupd. intros H. now rewrite (proj2 (Nat.eqb_neq _ _) H). Qed.

(** ** The doubly linked list *)
Definition hdp (l : list nat) (nx : lptr) : lptr := match l with [] => nx | a :: _ => LTo a end.
Definition lastp (p : lptr) (l : list nat) : lptr := match last_error l with Some a => LTo a | None => p end.
Fixpoint seg (c : nat -> option tnode) (p : lptr) (l : list nat) (nx : lptr) : Prop :=
  match l with
  | [] => True
  | a :: l' => (exists n, c a = Some n /\ tn_prev n = p /\ tn_next n = hdp l' nx) /\ seg c (LTo a) l' nx
  end.

Lemma lastp_cons p a l : lastp p (a :: l) = lastp (LTo a) l.
Proof.
  unfold lastp, last_error. simpl. destruct (rev l) as [|b r] eqn:Hr; simpl; auto.
Qed.
Lemma lastp_snoc p l a : lastp p (l ++ [a]) = LTo a.
Proof. unfold lastp. rewrite last_error_app. reflexivity. Qed.
Lemma hdp_app l1 l2 nx : hdp (l1 ++ l2) nx = hdp l1 (hdp l2 nx).
Proof. destruct l1; reflexivity. Qed.

Lemma seg_app c l1 l2 : forall p nx,
  seg c p (l1 ++ l2) nx <-> seg c p l1 (hdp l2 nx) /\ seg c (lastp p l1) l2 nx.
Proof.
  induction l1 as [|a l1 IH]; intros p nx; simpl.
  - unfold lastp. simpl. tauto.
  - rewrite IH, lastp_cons, hdp_app. tauto.
Qed.

Lemma seg_frame c c' l : forall p nx,
  seg c p l nx ->
  (forall x n, In x l -> c x = Some n -> exists n', c' x = Some n' /\ tn_prev n' = tn_prev n /\ tn_next n' = tn_next n) ->
  seg c' p l nx.
Proof.
  induction l as [|a l IH]; intros p nx S H; simpl in *; auto.
  destruct S as ((n & Hn & Hp & Hx) & S). split.
  - destruct (H a n (or_introl eq_refl) Hn) as (n' & E1 & E2 & E3). exists n'. intuition congruence.
  - eapply IH; eauto.
Qed.
Lemma seg_other c a v l p nx : seg c p l nx -> ~ In a l -> seg (cupd c a v) p l nx.
Proof.
  intros S Ha. eapply seg_frame; eauto. intros x n Hx Hn. exists n.
  rewrite cupd_neq; auto. intros ->. auto.
Qed.
(** Redirect the incoming "prev" of a segment: its head cell. *)
Lemma seg_set_prev c a l p p' nx n : seg c p (a :: l) nx -> ~ In a l -> c a = Some n ->
  seg (cupd c a (Some (with_prev p' n))) p' (a :: l) nx.
Proof.
  intros ((n0 & Hn & Hp & Hx) & S) Ha Hc. split.
  - exists (with_prev p' n). rewrite cupd_eq. replace n0 with n in * by congruence. auto.
  - apply seg_other; auto.
Qed.
Lemma seg_set_next c a l p nx nx' n : seg c p (l ++ [a]) nx -> ~ In a l -> c a = Some n ->
  seg (cupd c a (Some (with_next nx' n))) p (l ++ [a]) nx'.
Proof.
  intros S Ha Hc. apply seg_app in S as (S1 & S2). apply seg_app. simpl in S1, S2 |- *. split.
  - apply seg_other; auto.
  - split; auto. destruct S2 as ((n0 & Hn & Hp & Hx) & _). exists (with_next nx' n).
    rewrite cupd_eq. replace n0 with n in * by congruence. auto.
Qed.
Lemma seg_in c l : forall p nx a, seg c p l nx -> In a l -> exists n, c a = Some n /\ (nx = LNull -> tn_next n <> LPoison).
Proof.
  induction l as [|b l IH]; intros p nx a S Ha; [destruct Ha|]. simpl in S. destruct Ha as [<-|Ha].
  - destruct S as ((n & Hn & _ & Hx) & _). exists n. split; auto. intros ->. rewrite Hx. destruct l; discriminate.
  - eapply IH; [apply S|auto].
Qed.

(** ** Frame conditions *)
(** A timer without its list pointers. *)
Definition strip (n : tnode) : tnode := with_next LPoison (with_prev LPoison n).
Definition same_info (c c' : nat -> option tnode) : Prop :=
  forall x, option_map strip (c' x) = option_map strip (c x).
Lemma same_info_refl c : same_info c c.
Proof. intros x. reflexivity. Qed.
Lemma same_info_trans c c' c'' : same_info c c' -> same_info c' c'' -> same_info c c''.
Proof. intros H1 H2 x. rewrite H2. apply H1. Qed.
Lemma same_info_cupd c a n n' : c a = Some n -> strip n' = strip n -> same_info c (cupd c a (Some n')).
Proof.
  intros H1 H2 x. unfold cupd. destruct (Nat.eqb_spec x a) as [->|]; auto. rewrite H1. simpl. congruence.
Qed.
Lemma same_info_some c c' x n : same_info c c' -> c x = Some n -> exists n', c' x = Some n' /\ strip n' = strip n.
Proof.
  intros H Hx. specialize (H x). rewrite Hx in H. destruct (c' x) as [n'|]; simpl in H; [|discriminate].
  exists n'. split; congruence.
Qed.
Lemma same_info_some' c c' x n' : same_info c c' -> c' x = Some n' -> exists n, c x = Some n /\ strip n' = strip n.
Proof.
  intros H Hx. specialize (H x). rewrite Hx in H. destruct (c x) as [n|]; simpl in H; [|discriminate].
  exists n. split; congruence.
Qed.
Lemma same_info_none c c' x : same_info c c' -> (c' x = None <-> c x = None).
Proof. intros H. specialize (H x). destruct (c x), (c' x); simpl in H; split; congruence. Qed.
Lemma strip_fields n n' : strip n' = strip n ->
  tn_interval n' = tn_interval n /\ tn_expire n' = tn_expire n /\ tn_usage n' = tn_usage n /\
  tn_installed n' = tn_installed n /\ tn_uid n' = tn_uid n /\ tn_serial n' = tn_serial n.
Proof. destruct n, n'. unfold strip. simpl. intros [=]. subst. repeat split. Qed.

(** ** The core invariant *)
Record TC (s : tst) (l : list nat) : Prop := {
  tc_tree : exists t m, focus (t_rb s) [] t /\ rb t false m /\ inorder t = l;
  tc_first : t_first s = hd_error l;
  tc_seg : seg (t_cell s) LNull l LNull;
  tc_sorted : StronglySorted (before s) l;
  tc_unl : forall x n, t_cell s x = Some n -> ~ In x l -> tn_next n = LPoison;
  tc_dom : forall x, s_heap (t_rb s) x = None <-> t_cell s x = None;
  tc_serial : forall x, In x l -> (serial_of s x < t_serial s)%nat
}.

Lemma TC_nodup s l : TC s l -> NoDup l.
Proof. intros H. destruct (tc_tree _ _ H) as (t & m & F & _ & <-). eapply focus_nodup; eauto. Qed.
Lemma TC_cell s l a : TC s l -> In a l -> exists n, t_cell s a = Some n /\ tn_next n <> LPoison.
Proof. intros H Ha. destruct (seg_in _ _ _ _ _ (tc_seg _ _ H) Ha) as (n & Hn & Hx). exists n. auto. Qed.
Lemma TC_active s l a : TC s l -> (timer_active s a = true <-> In a l).
Proof.
  intros H. unfold timer_active. split.
  - intros Ha. destruct (t_cell s a) as [n|] eqn:Hn; [|discriminate].
    destruct (in_dec Nat.eq_dec a l) as [|Hi]; auto.
    unfold is_linked in Ha. rewrite (tc_unl _ _ H _ _ Hn Hi) in Ha. discriminate.
  - intros Ha. destruct (TC_cell _ _ _ H Ha) as (n & -> & Hx). unfold is_linked. destruct (tn_next n); auto; congruence.
Qed.

Lemma same_info_expire s s' a : same_info (t_cell s) (t_cell s') -> expire_of s' a = expire_of s a.
Proof.
  intros H. unfold expire_of. specialize (H a). destruct (t_cell s a) as [n|], (t_cell s' a) as [n'|]; simpl in H; try discriminate; auto.
  assert (H1 : strip n' = strip n) by congruence. apply strip_fields in H1. tauto.
Qed.
Lemma same_info_serial s s' a : same_info (t_cell s) (t_cell s') -> serial_of s' a = serial_of s a.
Proof.
  intros H. unfold serial_of. specialize (H a). destruct (t_cell s a) as [n|], (t_cell s' a) as [n'|]; simpl in H; try discriminate; auto.
  assert (H1 : strip n' = strip n) by congruence. apply strip_fields in H1. tauto.
Qed.

(** ** The search *)
Lemma find_prepare_is_find_links key e : forall fuel lk par prev next st lk' par' prev' next' st',
  find_links_loop Z (fun x y => x - y) key fuel lk par prev next e st = Ok ((lk', par', prev', next'), st') ->
  find_prepare_loop fuel key e lk par prev st = Ok ((lk', prev', par'), st').
Proof.
  induction fuel as [|fuel IH]; intros lk par prev next st lk' par' prev' next' st' H; simpl in *; [discriminate|].
  unfold bindM in *. destruct (read_link lk st) as [[[cur|] st1]| |]; simpl in *; try discriminate.
  - unfold cmp_node, bindM, ld, ret in *. destruct (s_heap st1 cur) as [n|]; simpl in *; [|discriminate].
    replace (e <? key cur) with (0 <? key cur - e) by (destruct (Z.ltb_spec 0 (key cur - e)), (Z.ltb_spec e (key cur)); lia).
    destruct (0 <? key cur - e); eapply IH; eauto.
  - unfold ret in *. congruence.
Qed.

Lemma all_left_parent q : lctx q = [] -> ppar q = hd_error (rctx q).
Proof.
  destruct q as [|[a c r|a c l] q]; simpl; auto. intros H. exfalso. destruct (lctx q); simpl in H; [destruct (inorder l)|]; simpl in H; discriminate.
Qed.

Lemma ss_before_le s l : StronglySorted (before s) l -> StronglySorted (le_key (fun x y => x - y) (expire_of s)) l.
Proof.
  induction 1 as [|a l S IH F]; constructor; auto.
  eapply Forall_impl; [|exact F]. intros b [H|[H _]]; unfold le_key; lia.
Qed.

Lemma runs_link' st p a (Q : unit -> rst -> Prop) :
  focus st p E -> (occp a p = 0)%nat -> s_heap st a <> None ->
  (forall st', focus st' p (T a true E E) -> s_count st' = s_count st -> Q tt st') ->
  runs (rb_link_node (Some a) (ppar p) (link_of p)) st Q.
Proof.
  intros (Fp & _ & N) Ha Hg HQ. destruct (s_heap st a) as [g|] eqn:Hga; [|congruence].
  unfold rb_link_node. apply runs_bind.
  eapply runs_modify; [exact Hga|].
  set (h1 := hupd (s_heap st) a _).
  assert (Hp : repc h1 (s_root st) None p).
  { eapply repc_frame; [exact Fp|]. intros x Hx. unfold h1. rewrite !hupd_neq; auto; intros ->; lia. }
  assert (G : Q tt (mkSt (upd_hole h1 p (Some a)) (upd_root (s_root st) p (Some a)) (s_count st))).
  { apply HQ; [|reflexivity]. split; [|split]; cbn [s_heap s_root tptr].
    - apply (repc_upd_hole _ _ _ _ _ Hp). intros x; specialize (N x); lia.
    - simpl. repeat split; auto. rewrite upd_hole_other by auto. unfold h1. apply hupd_eq.
    - intros x. specialize (N x). simpl in *. unfold ind. destruct (Nat.eqb_spec x a) as [->|]; lia. }
  destruct p as [|[b c s|b c s] p]; simpl link_of; cbn [write_link].
  - exact G.
  - destruct Hp as (Hb & _). eapply runs_modify; [exact Hb|]. exact G.
  - destruct Hp as (Hb & _). eapply runs_modify; [exact Hb|]. exact G.
Qed.
Lemma mono_link a b lk : mono (rb_link_node a b lk).
Proof. unfold rb_link_node, write_link, set_left, set_right. mono_full. Qed.
Lemma mono_insert_color_loop fuel : forall a, mono (insert_color_loop fuel a).
Proof.
  induction fuel as [|fuel IH]; intros a; cbn [insert_color_loop]; unfold set_red, set_black, set_color; mono_full.
Qed.
Lemma mono_insert_color fuel a : mono (insert_color fuel a).
Proof.
  unfold insert_color. apply mono_bind; [apply mono_insert_color_loop|intros ?]. unfold set_black, set_color. mono_full.
Qed.
Lemma runs_mono {A} (m : M A) st (Q : A -> rst -> Prop) : mono m -> runs m st Q ->
  runs m st (fun v st' => Q v st' /\ forall x, s_heap st' x = None <-> s_heap st x = None).
Proof.
  unfold runs, mono. intros Hm H. specialize (Hm st). destruct (m st) as [[v st']| |]; auto.
  split; auto. eapply Hm. reflexivity.
Qed.
Lemma occ_plug q : forall t x, (occ x (plug q t) = occ x t + occp x q)%nat.
Proof. induction q as [|[? ? ?|? ? ?] q IH]; intros t x; simpl; [lia| |]; rewrite IH; simpl; lia. Qed.

Lemma put_first_same c s : put_first (t_first s) (put_cell c s) = put_cell c s.
Proof. destruct s. reflexivity. Qed.
Lemma put_cell_cell c s : t_cell (put_cell c s) = c.
Proof. reflexivity. Qed.
Lemma snoc_cases {A} (l : list A) : l = [] \/ exists l' x, l = l' ++ [x].
Proof. destruct l as [|a l]; auto. right. destruct (exists_last (l := a :: l)) as (l' & x & H); [discriminate|eauto]. Qed.

Lemma link_list_ok s L R a n par :
  seg (t_cell s) LNull (L ++ R) LNull -> t_first s = hd_error (L ++ R) ->
  NoDup (L ++ a :: R) -> t_cell s a = Some n -> (L = [] -> par = hd_error R) ->
  tr (link_list a (last_error L) par) s (fun _ s' => exists c',
    s' = put_first (hd_error (L ++ a :: R)) (put_cell c' s) /\
    seg c' LNull (L ++ a :: R) LNull /\ same_info (t_cell s) c' /\
    (forall x, ~ In x (L ++ a :: R) -> c' x = t_cell s x)).
Proof.
  intros Sg Hf ND Ha Hpar. unfold link_list.
  apply NoDup_remove in ND as (ND & Hna). rewrite in_app_iff in Hna.
  destruct (snoc_cases L) as [->|(L' & p & ->)].
  - rewrite (Hpar eq_refl). cbn [last_error rev hd_error]. simpl in Sg, Hf, ND, Hna.
    apply tr_bind. eapply tr_tmod; [exact Ha|]. cbv beta.
    destruct R as [|b R]; cbn [hd_error].
    + apply tr_bind. eapply tr_tmod; [rewrite put_cell_cell; apply cupd_eq|].
      unfold tr. cbn [put_first put_cell]. exists (cupd (cupd (t_cell s) a (Some (with_prev LNull n))) a (Some (with_next LNull (with_prev LNull n)))).
      split; [destruct s; reflexivity|]. split.
      * simpl. split; auto. exists (with_next LNull (with_prev LNull n)). rewrite cupd_eq. auto.
      * split.
        -- eapply same_info_trans; [apply (same_info_cupd _ a n (with_prev LNull n)); auto; now destruct n|].
           eapply same_info_cupd; [apply cupd_eq|]. now destruct n.
        -- simpl. intros x Hx. rewrite !cupd_neq; auto.
    + assert (b <> a) by (intros ->; apply Hna; right; left; auto).
      destruct Sg as ((nb & Hb & Hbp & Hbn) & Sg).
      apply tr_bind. apply tr_bind. eapply tr_tmod; [rewrite put_cell_cell; apply cupd_eq|]. cbv beta. cbn [t_cell put_cell].
      set (c1 := cupd (t_cell s) a (Some (with_prev LNull n))).
      set (c2 := cupd c1 a (Some (with_next (LTo b) (with_prev LNull n)))).
      assert (Hc2 : c2 b = Some nb) by (unfold c2, c1; rewrite !cupd_neq; auto).
      eapply tr_tmod; [exact Hc2|]. unfold tr.
      exists (cupd c2 b (Some (with_prev (LTo a) nb))).
      split; [destruct s; reflexivity|]. split; [|split].
      * cbn [app]. change (seg (cupd c2 b (Some (with_prev (LTo a) nb))) LNull (a :: b :: R) LNull).
        split.
        -- exists (with_next (LTo b) (with_prev LNull n)). rewrite cupd_neq by auto. unfold c2. rewrite cupd_eq. auto.
        -- apply NoDup_cons_iff in ND as (ND1 & ND2).
           apply seg_set_prev with (p := LNull); auto. simpl. split.
           ++ exists nb. auto.
           ++ unfold c2, c1. apply seg_other; [apply seg_other; auto|]; intros G; apply Hna; right; right; auto.
      * eapply same_info_trans; [|eapply same_info_cupd; [exact Hc2|now destruct nb]].
        eapply same_info_trans; [apply (same_info_cupd _ a n (with_prev LNull n)); auto; now destruct n|].
        eapply same_info_cupd; [apply cupd_eq|]. now destruct n.
      * intros x Hx. rewrite cupd_neq by (intros ->; apply Hx; right; left; auto).
        unfold c2, c1. rewrite !cupd_neq; auto; intros ->; apply Hx; left; auto.
  - rewrite last_error_app. cbn [hd_error].
    rewrite <- app_assoc in *. cbn [app] in *.
    assert (p <> a) by (intros ->; apply Hna; left; apply in_app_iff; right; left; auto).
    assert (NDp := NoDup_remove _ _ _ ND). rewrite in_app_iff in NDp. destruct NDp as (ND1 & NDp).
    apply seg_app in Sg as (S1 & S2). destruct S2 as ((np & Hp & Hpp & Hpn) & S2).
    apply tr_bind. eapply tr_tmod; [exact Ha|]. cbv beta.
    apply tr_bind. eapply tr_tld; [rewrite put_cell_cell, cupd_neq by auto; exact Hp|].
    apply tr_bind. eapply tr_tmod; [rewrite put_cell_cell; apply cupd_eq|]. cbv beta.
    rewrite Hpn.
    cbn [t_cell put_cell].
    set (c1 := cupd (t_cell s) a (Some (with_prev (LTo p) n))).
    set (c2 := cupd c1 a (Some (with_next (hdp R LNull) (with_prev (LTo p) n)))).
    assert (HL' : ~ In a L') by (intros G; apply Hna; left; apply in_app_iff; left; auto).
    assert (S1' : seg c2 LNull L' (LTo p)) by (unfold c2, c1; apply seg_other; [apply seg_other|]; auto).
    assert (S2' : seg c2 (LTo p) R LNull) by (unfold c2, c1; apply seg_other; [apply seg_other|]; auto).
    assert (Hc2 : c2 p = Some np) by (unfold c2, c1; rewrite !cupd_neq; auto).
    assert (I2 : same_info (t_cell s) c2).
    { eapply same_info_trans; [apply (same_info_cupd _ a n (with_prev (LTo p) n)); auto; now destruct n|].
      eapply same_info_cupd; [apply cupd_eq|]. now destruct n. }
    assert (FF : forall c, put_cell c s = put_first (hd_error (L' ++ p :: a :: R)) (put_cell c s)).
    { intros c. replace (hd_error (L' ++ p :: a :: R)) with (t_first s); [symmetry; apply put_first_same|].
      rewrite Hf. destruct L'; reflexivity. }
    assert (Fx : forall x, ~ In x (L' ++ p :: a :: R) -> x <> a /\ x <> p /\ ~ In x R).
    { intros x Hx. rewrite in_app_iff in Hx. simpl in Hx. intuition. }
    apply tr_bind. destruct R as [|b R]; cbn [hdp].
    + apply tr_ret. eapply tr_tmod; [exact Hc2|].
      exists (cupd c2 p (Some (with_next (LTo a) np))). split; [|split; [|split]].
      * rewrite <- FF. reflexivity.
      * change (L' ++ [p; a]) with (L' ++ [p] ++ [a]). rewrite app_assoc. apply seg_app. split.
        -- cbn [hdp]. apply seg_set_next with (nx := LNull); auto. apply seg_app. split; auto.
           simpl. split; auto. exists np. rewrite lastp_cons in Hpp || idtac. auto.
        -- rewrite lastp_snoc. simpl. split; auto. exists (with_next LNull (with_prev (LTo p) n)).
           rewrite cupd_neq by auto. unfold c2. rewrite cupd_eq. auto.
      * eapply same_info_trans; [exact I2|]. eapply same_info_cupd; [exact Hc2|now destruct np].
      * intros x Hx. apply Fx in Hx as (X1 & X2 & X3). rewrite cupd_neq by auto. unfold c2, c1. rewrite !cupd_neq; auto.
    + destruct S2' as ((nb & Hb & Hbp & Hbn) & S3).
      assert (b <> p) by (intros ->; apply NDp; right; left; auto).
      assert (b <> a) by (intros ->; apply Hna; right; left; auto).
      eapply tr_tmod; [exact Hb|]. eapply tr_tmod; [rewrite put_cell_cell, cupd_neq by auto; exact Hc2|].
      set (c3 := cupd c2 b (Some (with_prev (LTo a) nb))).
      exists (cupd c3 p (Some (with_next (LTo a) np))). split; [|split; [|split]].
      * rewrite <- FF. reflexivity.
      * change (L' ++ p :: a :: b :: R) with (L' ++ [p] ++ a :: b :: R). rewrite app_assoc. apply seg_app. split.
        -- cbn [hdp]. apply seg_set_next with (nx := LTo b); auto. apply seg_app. split.
           ++ unfold c3. apply seg_other; auto. intros G. apply NoDup_remove_2 in ND1. apply ND1. apply in_app_iff; auto.
           ++ simpl. split; auto. exists np. unfold c3. rewrite cupd_neq by auto. auto.
           ++ unfold c3. rewrite cupd_neq by auto. auto.
        -- rewrite lastp_snoc. apply seg_other; [|simpl; intuition].
           split.
           ++ exists (with_next (LTo b) (with_prev (LTo p) n)). unfold c3. rewrite cupd_neq by auto. unfold c2. rewrite cupd_eq. auto.
           ++ unfold c3. apply seg_set_prev with (p := LTo p); auto.
              ** simpl. split; auto. exists nb. auto.
              ** apply NoDup_remove_2 in ND1. intros G. apply ND1. apply in_app_iff; auto.
      * eapply same_info_trans; [exact I2|]. eapply same_info_trans;
          [eapply (same_info_cupd c2 b nb (with_prev (LTo a) nb)); [exact Hb|now destruct nb]|]. fold c3.
        eapply same_info_cupd; [unfold c3; rewrite cupd_neq by auto; exact Hc2|now destruct np].
      * intros x Hx. apply Fx in Hx as (X1 & X2 & X3). rewrite cupd_neq by auto. unfold c3.
        rewrite cupd_neq by (intros ->; apply X3; left; auto). unfold c2, c1. rewrite !cupd_neq; auto.
Qed.

(** ** Arming *)
Definition bump (s : tst) : tst :=
  mkTS (t_rb s) (t_cell s) (t_first s) (t_all s) (t_clk s) (t_tick s) (t_dtors s) (S (t_serial s)) (t_uid s) (t_held s).

(** What arming leaves alone. *)
Definition same_rest (s s' : tst) : Prop :=
  t_all s' = t_all s /\ t_clk s' = t_clk s /\ t_tick s' = t_tick s /\ t_dtors s' = t_dtors s /\
  t_uid s' = t_uid s /\ t_held s' = t_held s.

Lemma before_ext s s' l : (forall x, In x l -> expire_of s' x = expire_of s x /\ serial_of s' x = serial_of s x) ->
  StronglySorted (before s) l -> StronglySorted (before s') l.
Proof.
  intros H S. induction S as [|a l S IH F]; constructor.
  - apply IH. intros x Hx. apply H. right. auto.
  - rewrite Forall_forall in *. intros b Hb. destruct (H a (or_introl eq_refl)) as (E1 & E2).
    destruct (H b (or_intror Hb)) as (E3 & E4). unfold before. rewrite E1, E2, E3, E4. apply F. auto.
Qed.
Lemma ss_insert {A} (R : A -> A -> Prop) L a R0 : StronglySorted R (L ++ R0) ->
  (forall x, In x L -> R x a) -> (forall x, In x R0 -> R a x) -> StronglySorted R (L ++ a :: R0).
Proof.
  induction L as [|b L IH]; simpl; intros S HL HR.
  - constructor; auto. apply Forall_forall. auto.
  - inversion S as [|? ? S1 F]; subst. constructor.
    + apply IH; auto.
    + rewrite Forall_forall in *. intros x Hx. apply in_app_iff in Hx as [Hx|[<-|Hx]]; auto.
      * apply F. apply in_app_iff; auto.
      * apply F. apply in_app_iff; auto.
Qed.
Lemma ss_remove {A} (R : A -> A -> Prop) L a R0 : StronglySorted R (L ++ a :: R0) -> StronglySorted R (L ++ R0).
Proof.
  induction L as [|b L IH]; simpl; intros S; inversion S as [|? ? S1 F]; subst; auto.
  constructor; auto. rewrite Forall_forall in *. intros x Hx. apply F.
  apply in_app_iff in Hx. apply in_app_iff. simpl. tauto.
Qed.

Lemma tree_fuel s t m : rb t false m -> (length (inorder t) <= length (t_all s))%nat ->
  (height t + 2 <= rbfuel s)%nat.
Proof.
  intros R H. unfold rbfuel. pose proof (rb_log _ _ R). rewrite size_inorder in H.
  assert (X := log_steps_mono _ _ H). unfold log_steps in *. lia.
Qed.

Lemma insert_timer_ok s l a n :
  TC s l -> ~ In a l -> t_cell s a = Some n -> (length l <= length (t_all s))%nat ->
  tr (insert_timer a) s (fun _ s' => exists L R,
    l = L ++ R /\ TC s' (L ++ a :: R) /\
    (forall x, In x L -> expire_of s x <= tn_expire n) /\ (forall x, In x R -> tn_expire n < expire_of s x) /\
    same_rest s s' /\ t_serial s' = S (t_serial s) /\
    same_info (cupd (t_cell s) a (Some (with_serial (t_serial s) n))) (t_cell s') /\
    (forall x, ~ In x l -> x <> a -> t_cell s' x = t_cell s x)).
Proof.
  intros HT Hal Hn Hlen.
  destruct (tc_tree _ _ HT) as (t & m & F & Rb & It).
  assert (Hfu : (height t + 2 <= rbfuel s)%nat) by (eapply tree_fuel; eauto; rewrite It; auto).
  unfold insert_timer. apply tr_bind. unfold stamp.
  change (tr (tmod a (with_serial (t_serial s))) (bump s) (fun v s' =>
    tr (do r <- find_prepare a; (let '(lk, prev, par) := r in run link_list a prev par; link_rb a lk par)) s' (fun _ s' => exists L R,
    l = L ++ R /\ TC s' (L ++ a :: R) /\
    (forall x, In x L -> expire_of s x <= tn_expire n) /\ (forall x, In x R -> tn_expire n < expire_of s x) /\
    same_rest s s' /\ t_serial s' = S (t_serial s) /\
    same_info (cupd (t_cell s) a (Some (with_serial (t_serial s) n))) (t_cell s') /\
    (forall x, ~ In x l -> x <> a -> t_cell s' x = t_cell s x)))).
  eapply tr_tmod; [exact Hn|].
  set (n1 := with_serial (t_serial s) n). set (s1 := put_cell _ (bump s)).
  assert (Hc1 : t_cell s1 = cupd (t_cell s) a (Some n1)) by reflexivity.
  assert (He : forall x, expire_of s1 x = expire_of s x).
  { intros x. unfold expire_of. rewrite Hc1. unfold cupd. destruct (Nat.eqb_spec x a) as [->|]; auto. now rewrite Hn. }
  assert (Hea : expire_of s1 a = tn_expire n) by (rewrite He; unfold expire_of; now rewrite Hn).
  apply tr_bind. unfold find_prepare. apply tr_fun with (m := fun s => onrb _). apply tr_onrb.
  assert (Ss : StronglySorted (le_key (fun x y => x - y) (expire_of s1)) (inorder t)).
  { rewrite It. apply ss_before_le. eapply before_ext; [|apply (tc_sorted _ _ HT)].
    intros x Hx. split; auto. unfold serial_of. rewrite Hc1, cupd_neq; auto. intros ->. auto. }
  assert (TP : total_preorder (fun x y : Z => x - y)) by (split; intros; lia).
  destruct (runs_ok _ _ _ (find_links_ok (fun x y => x - y) (expire_of s1) TP (expire_of s1 a) (rbfuel s1) (t_rb s1) t
                             F Ss ltac:(change (rbfuel s1) with (rbfuel s); lia)))
    as (v & r' & E1 & -> & q & Hq & -> & HL & HR).
  unfold find_links in E1. apply find_prepare_is_find_links in E1. unfold runs. rewrite E1.
  replace (put_rb (t_rb s1) s1) with s1 by (destruct s1; reflexivity).
  assert (Hl : l = lctx q ++ rctx q) by (rewrite <- It, <- Hq, inorder_plug; reflexivity).
  set (L := lctx q) in *. set (R := rctx q) in *.
  assert (NDl : NoDup (L ++ a :: R)).
  { apply (NoDup_Add (a := a) (l := l)); [rewrite Hl; apply Add_app|]. split; [apply (TC_nodup _ _ HT)|auto]. }
  apply tr_bind. eapply tr_conseq.
  { apply (link_list_ok s1 L R a n1 (ppar q)).
    - rewrite <- Hl, Hc1. apply seg_other; [apply (tc_seg _ _ HT)|auto].
    - rewrite <- Hl. apply (tc_first _ _ HT).
    - auto.
    - rewrite Hc1. apply cupd_eq.
    - intros HLn. apply all_left_parent. exact HLn. }
  intros _ s2 (c' & -> & Sg & Inf & Oth).
  unfold link_rb. apply tr_fun with (m := fun s => onrb _). apply tr_onrb.
  cbn [t_rb put_first put_cell].
  assert (Fq : focus (t_rb s1) q E) by (apply (proj2 (focus_plug _ _ _)); rewrite Hq; exact F).
  assert (Hoq : occp a q = 0%nat).
  { assert (X : occ a t = 0%nat) by (rewrite occ_count; apply count_occ_not_In; rewrite It; auto).
    rewrite <- Hq, occ_plug in X. simpl in X. auto. }
  assert (Hha : s_heap (t_rb s1) a <> None).
  { change (t_rb s1) with (t_rb s). rewrite (tc_dom _ _ HT). congruence. }
  destruct (plug_rb_inv q E m ltac:(rewrite Hq; exact Rb)) as (cb & ct & k & Hp & HE & Hc).
  assert (k = 0%nat) by (inversion HE; auto). subst k.
  eapply runs_conseq.
  { apply runs_mono; [apply mono_bind; [apply mono_link|intros ?; apply mono_insert_color]|].
    apply runs_bind. eapply runs_link'; [exact Fq|exact Hoq|exact Hha|]. intros st1 F1 C1.
    assert (Hle : (length q + 1 <= rbfuel s)%nat) by (pose proof (height_plug q E) as HH; rewrite Hq in HH; lia).
    eapply runs_conseq; [apply (insert_color_ok (rbfuel s) st1 q a E E 0 cb F1 ltac:(constructor) ltac:(constructor) Hp Hle)|].
    instantiate (1 := fun _ st' => exists t m, focus st' [] t /\ rb t false m /\ inorder t = inorder (plug q (T a true E E))).
    cbv beta. intros _ st2 (t' & m' & X1 & X2 & X3 & _). eauto. }
  intros _ r2 ((t' & m' & F2 & R2 & I2) & Dm).
  assert (Inf' : same_info (cupd (t_cell s) a (Some n1)) c') by (rewrite <- Hc1; exact Inf).
  set (s3 := put_rb r2 _). 
  assert (Hc3 : t_cell s3 = c') by reflexivity.
  assert (He3 : forall x, expire_of s3 x = expire_of s x).
  { intros x. rewrite <- He. apply same_info_expire. exact Inf. }
  assert (Hs3 : forall x, x <> a -> serial_of s3 x = serial_of s x).
  { intros x Hx. rewrite (same_info_serial s1 s3) by exact Inf. unfold serial_of. rewrite Hc1, cupd_neq; auto. }
  assert (Hs3a : serial_of s3 a = t_serial s).
  { rewrite (same_info_serial s1 s3) by exact Inf. unfold serial_of. rewrite Hc1, cupd_eq. reflexivity. }
  assert (HL' : forall x, In x L -> expire_of s x <= tn_expire n).
  { intros x Hx. specialize (HL x Hx). rewrite He, Hea in HL. lia. }
  assert (HR' : forall x, In x R -> tn_expire n < expire_of s x).
  { intros x Hx. specialize (HR x Hx). rewrite He, Hea in HR. lia. }
  assert (Hnea : expire_of s a = tn_expire n) by (unfold expire_of; now rewrite Hn).
  assert (Hxa : forall x, In x L \/ In x R -> x <> a).
  { intros x Hx ->. apply Hal. rewrite Hl. apply in_app_iff. auto. }
  exists L, R. split; [auto|]. split; [|split; [exact HL'|split; [exact HR'|split; [|split; [reflexivity|split; [exact Inf'|]]]]]].
  - constructor.
    + exists t', m'. split; [exact F2|]. split; [auto|]. rewrite I2, inorder_plug. reflexivity.
    + reflexivity.
    + exact Sg.
    + apply ss_insert.
      * rewrite <- Hl. eapply before_ext; [|apply (tc_sorted _ _ HT)]. intros x Hx. split; auto. apply Hs3. intros ->. auto.
      * intros x Hx. unfold before. rewrite !He3, Hs3a, Hs3, Hnea by auto. specialize (HL' x Hx).
        assert (In x l) by (rewrite Hl; apply in_app_iff; auto). pose proof (tc_serial _ _ HT x H). lia.
      * intros x Hx. unfold before. rewrite !He3, Hnea. specialize (HR' x Hx). lia.
    + intros x nx Hx Hi. rewrite Hc3 in Hx. rewrite (Oth x Hi), Hc1, cupd_neq in Hx.
      * apply (tc_unl _ _ HT x nx Hx). rewrite Hl. intros G. apply Hi. apply in_app_iff in G. apply in_app_iff. simpl. tauto.
      * intros ->. apply Hi. apply in_app_iff. right. left. auto.
    + intros x. change (t_rb s3) with r2. rewrite Dm, Hc3, (same_info_none _ _ x Inf), Hc1.
      change (t_rb s1) with (t_rb s). rewrite (tc_dom _ _ HT). unfold cupd.
      destruct (Nat.eqb_spec x a) as [->|]; [|tauto]. rewrite Hn. split; discriminate.
    + intros x Hx. change (t_serial s3) with (S (t_serial s)). destruct (Nat.eq_dec x a) as [->|Hxn].
      * rewrite Hs3a. lia.
      * rewrite Hs3 by auto. assert (In x l) by (rewrite Hl; apply in_app_iff in Hx; apply in_app_iff; simpl in Hx; intuition congruence).
        pose proof (tc_serial _ _ HT x H). lia.
  - repeat split; reflexivity.
  - intros x Hx Hxn. rewrite Hc3, Oth, Hc1, cupd_neq; auto.
    rewrite Hl in Hx. rewrite in_app_iff in *. simpl. intuition.
Qed.

(** ** Disarming *)
Lemma unlink_list_ok s L R a n :
  seg (t_cell s) LNull (L ++ a :: R) LNull -> t_first s = hd_error (L ++ a :: R) ->
  NoDup (L ++ a :: R) -> t_cell s a = Some n ->
  tr (unlink_list a) s (fun _ s' => exists c' n',
    s' = put_first (hd_error (L ++ R)) (put_cell c' s) /\
    seg c' LNull (L ++ R) LNull /\ same_info (t_cell s) c' /\
    c' a = Some n' /\ tn_next n' = LPoison /\
    (forall x, ~ In x (L ++ a :: R) -> c' x = t_cell s x)).
Proof.
  intros Sg Hf ND Ha. unfold unlink_list.
  assert (ND' := NoDup_remove _ _ _ ND). rewrite in_app_iff in ND'. destruct ND' as (ND1 & Hna).
  apply seg_app in Sg as (S1 & S2). destruct S2 as ((n0 & Hn0 & Hp & Hx) & S2).
  assert (n0 = n) by congruence. subst n0.
  apply tr_bind. eapply tr_tld; [exact Ha|]. apply tr_bind.
  (* the last two statements *)
  assert (Fin : forall s1 c1 n1, s1 = put_first (hd_error (L ++ R)) (put_cell c1 s) ->
    seg c1 LNull (L ++ R) LNull -> same_info (t_cell s) c1 -> c1 a = Some n1 ->
    (forall x, ~ In x (L ++ a :: R) -> c1 x = t_cell s x) ->
    tr (run tmod a (with_next LPoison); tmod a (with_prev LPoison)) s1 (fun _ s' => exists c' n',
    s' = put_first (hd_error (L ++ R)) (put_cell c' s) /\
    seg c' LNull (L ++ R) LNull /\ same_info (t_cell s) c' /\
    c' a = Some n' /\ tn_next n' = LPoison /\
    (forall x, ~ In x (L ++ a :: R) -> c' x = t_cell s x))).
  { intros s1 c1 n1 -> Sg1 I1 A1 O1. apply tr_bind. eapply tr_tmod; [exact A1|].
    eapply tr_tmod; [cbn [t_cell put_cell put_first]; apply cupd_eq|]. cbn [t_cell put_cell put_first].
    exists (cupd (cupd c1 a (Some (with_next LPoison n1))) a (Some (with_prev LPoison (with_next LPoison n1)))), (with_prev LPoison (with_next LPoison n1)).
    split; [destruct s; reflexivity|]. split; [|split; [|split; [apply cupd_eq|split; [reflexivity|]]]].
    - apply seg_other; [apply seg_other; auto|]; rewrite in_app_iff; auto.
    - eapply same_info_trans; [exact I1|].
      eapply same_info_trans; [apply (same_info_cupd c1 a n1 (with_next LPoison n1)); auto; now destruct n1|].
      eapply same_info_cupd; [apply cupd_eq|]. now destruct n1.
    - intros x Hxx. assert (x <> a) by (intros ->; apply Hxx; apply in_app_iff; right; left; auto).
      rewrite !cupd_neq; auto. }
  destruct (snoc_cases L) as [->|(L' & p & ->)].
  - simpl in Hf, S1, Hp, Hna. unfold tr at 1. rewrite Hf. cbn [hd_error]. rewrite ptr_eqb_refl, Hx.
    destruct R as [|b R]; cbn [hdp].
    + apply (Fin _ (t_cell s) n); [destruct s; reflexivity|simpl; auto|apply same_info_refl|exact Ha|auto].
    + change (tr (run tmod b (with_prev LNull); (fun s0 => Ok (tt, put_first (Some b) s0))) s (fun _ s' =>
         tr (run tmod a (with_next LPoison); tmod a (with_prev LPoison)) s' (fun _ s' => exists c' n',
           s' = put_first (hd_error ([] ++ b :: R)) (put_cell c' s) /\
           seg c' LNull ([] ++ b :: R) LNull /\ same_info (t_cell s) c' /\
           c' a = Some n' /\ tn_next n' = LPoison /\
           (forall x, ~ In x ([] ++ a :: b :: R) -> c' x = t_cell s x)))).
      assert (Hb : exists nb, t_cell s b = Some nb) by (destruct S2 as ((nb & Hb & _) & _); eauto).
      destruct Hb as (nb & Hb).
      apply tr_bind. eapply tr_tmod; [exact Hb|]. unfold tr at 1.
      assert (b <> a) by (intros ->; apply Hna; right; left; auto).
      eapply (Fin _ (cupd (t_cell s) b (Some (with_prev LNull nb))) n); [destruct s; reflexivity| | | |].
      * cbn [app]. apply seg_set_prev with (p := LTo a); auto. apply NoDup_cons_iff in ND1. apply ND1.
      * eapply same_info_cupd; [exact Hb|now destruct nb].
      * rewrite cupd_neq; auto.
      * intros x Hxx. apply cupd_neq. intros ->. apply Hxx. right. left. auto.
  - assert (EE : forall X, (L' ++ [p]) ++ X = L' ++ p :: X) by (intros X; rewrite <- app_assoc; reflexivity).
    rewrite !EE in *.
    assert (p <> a) by (intros ->; apply Hna; left; apply in_app_iff; right; left; auto).
    assert (Hna' : t_first s <> Some a).
    { rewrite Hf. destruct L' as [|c L']; simpl; [congruence|]. intros [= ->].
      apply Hna. left. left. auto. }
    rewrite lastp_snoc in Hp.
    unfold tr at 1. rewrite (ptr_eqb_false _ _ Hna'), Hp, Hx.
    change (tr (run tmod p (with_next (hdp R LNull));
                match hdp R LNull with LTo x => tmod x (with_prev (LTo p)) | LNull => tret tt | LPoison => fun _ => UB end) s (fun _ s' =>
         tr (run tmod a (with_next LPoison); tmod a (with_prev LPoison)) s' (fun _ s' => exists c' n',
           s' = put_first (hd_error (L' ++ p :: R)) (put_cell c' s) /\
           seg c' LNull (L' ++ p :: R) LNull /\ same_info (t_cell s) c' /\
           c' a = Some n' /\ tn_next n' = LPoison /\
           (forall x, ~ In x (L' ++ p :: a :: R) -> c' x = t_cell s x)))).
    assert (FF : forall c, put_cell c s = put_first (hd_error (L' ++ p :: R)) (put_cell c s)).
    { intros c. replace (hd_error (L' ++ p :: R)) with (t_first s); [symmetry; apply put_first_same|].
      rewrite Hf. destruct L'; reflexivity. }
    assert (S1c := S1). apply seg_app in S1c as (S1a & (np & Hnp & Hpp & Hpn) & _).
    assert (NDp := NoDup_remove _ _ _ ND1). rewrite in_app_iff in NDp. destruct NDp as (ND2 & NDp).
    apply tr_bind. eapply tr_tmod; [exact Hnp|].
    set (c1 := cupd (t_cell s) p (Some (with_next (hdp R LNull) np))).
    assert (Sp : seg c1 LNull (L' ++ [p]) (hdp R LNull)) by (eapply seg_set_next; eauto).
    assert (SR : seg c1 (LTo a) R LNull) by (apply seg_other; auto).
    assert (I1 : same_info (t_cell s) c1) by (eapply same_info_cupd; [exact Hnp|now destruct np]).
    assert (A1 : c1 a = Some n) by (unfold c1; rewrite cupd_neq; auto).
    assert (Fx : forall x, ~ In x (L' ++ p :: a :: R) -> x <> a /\ x <> p /\ ~ In x R).
    { intros x Hxx. rewrite in_app_iff in Hxx. simpl in Hxx. intuition. }
    destruct R as [|b R]; cbn [hdp].
    + apply tr_ret. apply (Fin _ c1 n); [apply FF|exact Sp|exact I1|exact A1|].
      intros x Hxx. apply cupd_neq. apply Fx in Hxx. tauto.
    + assert (Hb : exists nb, c1 b = Some nb) by (destruct SR as ((nb & Hb & _) & _); eauto).
      destruct Hb as (nb & Hb).
      assert (b <> p) by (intros ->; apply NDp; right; left; auto).
      assert (b <> a) by (intros ->; apply Hna; right; left; auto).
      eapply tr_tmod; [exact Hb|]. cbn [t_cell put_cell].
      set (c2 := cupd c1 b (Some (with_prev (LTo p) nb))).
      eapply (Fin _ c2 n).
      * rewrite <- FF. destruct s; reflexivity.
      * change (L' ++ p :: b :: R) with (L' ++ [p] ++ b :: R). rewrite app_assoc. apply seg_app. split.
        -- cbn [hdp]. unfold c2. apply seg_other; auto. rewrite in_app_iff. intros [G|[G|[]]]; [|congruence].
           apply NoDup_remove_2 in ND2. apply ND2. apply in_app_iff; auto.
        -- rewrite lastp_snoc. unfold c2. apply seg_set_prev with (p := LTo a); auto.
           apply NoDup_remove_2 in ND2. intros G. apply ND2. apply in_app_iff; auto.
      * eapply same_info_trans; [exact I1|]. apply (same_info_cupd c1 b nb (with_prev (LTo p) nb)); [exact Hb|now destruct nb].
      * unfold c2. rewrite cupd_neq; auto.
      * intros x Hxx. apply Fx in Hxx as (X1 & X2 & X3). unfold c2, c1.
        rewrite !cupd_neq; auto. intros ->. apply X3. left. auto.
Qed.

Lemma unlink_timer_ok s L R a :
  TC s (L ++ a :: R) -> (length (L ++ a :: R) <= length (t_all s))%nat ->
  tr (unlink_timer a) s (fun _ s' => TC s' (L ++ R) /\ same_rest s s' /\ t_serial s' = t_serial s /\
    same_info (t_cell s) (t_cell s') /\ (forall x, ~ In x (L ++ a :: R) -> t_cell s' x = t_cell s x)).
Proof.
  intros HT Hlen. assert (ND := TC_nodup _ _ HT).
  assert (Hin : In a (L ++ a :: R)) by (apply in_app_iff; right; left; auto).
  destruct (TC_cell _ _ _ HT Hin) as (n & Hn & _).
  destruct (tc_tree _ _ HT) as (t & m & F & Rb & It).
  unfold unlink_timer. apply tr_bind. eapply tr_conseq.
  { eapply unlink_list_ok; [apply (tc_seg _ _ HT)|apply (tc_first _ _ HT)|exact ND|exact Hn]. }
  intros _ s1 (c' & n' & -> & Sg & Inf & Ha & Hpo & Oth).
  apply tr_fun with (m := fun s => onrb _). apply tr_onrb. cbn [t_rb put_first put_cell].
  eapply runs_conseq.
  { apply runs_mono; [apply mono_rb_erase|]. eapply rb_erase_ok; [exact F|exact Rb|exact It|].
    unfold rbfuel. change (t_all _) with (t_all s). fold (rbfuel s). eapply tree_fuel; eauto. rewrite It. auto. }
  intros _ r2 ((t' & m' & F2 & R2 & I2 & C2) & Dm).
  set (s3 := put_rb r2 _). assert (Hc3 : t_cell s3 = c') by reflexivity.
  assert (He3 : forall x, expire_of s3 x = expire_of s x) by (intros x; apply same_info_expire; exact Inf).
  assert (Hs3 : forall x, serial_of s3 x = serial_of s x) by (intros x; apply same_info_serial; exact Inf).
  assert (Hsub : forall x, In x (L ++ R) -> In x (L ++ a :: R)).
  { intros x Hx. apply in_app_iff in Hx. apply in_app_iff. simpl. tauto. }
  split; [|split; [repeat split; reflexivity|split; [reflexivity|split; [exact Inf|exact Oth]]]].
  constructor.
  - exists t', m'. auto.
  - reflexivity.
  - exact Sg.
  - eapply before_ext; [|eapply ss_remove; apply (tc_sorted _ _ HT)]. auto.
  - intros x nx Hx Hi. rewrite Hc3 in Hx. destruct (Nat.eq_dec x a) as [->|Hxa].
    + congruence.
    + assert (Hi' : ~ In x (L ++ a :: R)) by (rewrite in_app_iff in *; simpl; intuition).
      rewrite Oth in Hx by auto. apply (tc_unl _ _ HT x nx Hx Hi').
  - intros x. change (t_rb s3) with r2. rewrite Dm, Hc3, (same_info_none _ _ x Inf). apply (tc_dom _ _ HT).
  - intros x Hx. rewrite Hs3. apply (tc_serial _ _ HT). auto.
Qed.
