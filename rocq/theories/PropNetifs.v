(** * C45: the interface cache is a finite map. *)
From Verif Require Import Base Dlist PropDlist Netifs.

(** ** Specification *)
(** Interface index to name and type. *)
Definition fmap := Z -> option (list Z * Z).
Definition fempty : fmap := fun _ => None.
Definition fset (M : fmap) (i : Z) (v : option (list Z * Z)) : fmap := fun x => if x =? i then v else M x.
(** The first 63 characters of a name; no name is the empty name. *)
Definition cut63 (n : option (list Z)) : list Z := match n with Some n => firstn 63 n | None => [] end.
(** The map after a call that returned r. *)
Definition after (M : fmap) (o : nop) (r : Z) : fmap :=
  if r =? 0 then match o with ODel i => fset M i None | OUpd i n t _ => fset M i (Some (cut63 n, t)) end else M.
(** The answers allowed: a deletion tells whether the entry existed; an update may
    fail only for an unknown interface when memory is exhausted. *)
Definition answer (M : fmap) (o : nop) (r : Z) : Prop :=
  match o with
  | ODel i => r = if i <? 0 then - AOSL_EINVAL else match M i with Some _ => 0 | None => - AOSL_ENOENT end
  | OUpd i n t a => if i <? 0 then r = - AOSL_EINVAL else r = 0 \/ (r = - AOSL_ENOMEM /\ a = None /\ M i = None)
  end.
Definition idx_of (o : nop) : Z := match o with ODel i => i | OUpd i _ _ _ => i end.
(** Interface indexes are C ints; malloc behaves. *)
Definition op_ok (s : nst) (o : nop) : Prop := -2147483648 <= idx_of o < 2147483648 /\ alloc_ok s o.

(** Histories: the cache after [n] calls, with the map they describe.  [hist_fini] is an
    unsubscription, after which the cache is used again without netifs_hash_init. *)
Inductive hist : nst -> fmap -> nat -> Prop :=
| hist_init s : netifs_init start = Ok s -> hist s fempty 0
| hist_op s M n o fuel r s' : hist s M n -> op_ok s o -> (n <= fuel)%nat -> nexec fuel s o = Ok (Some (r, s')) -> hist s' (after M o r) (S n)
| hist_fini s M n fuel l s' : hist s M n -> (n <= fuel)%nat -> netifs_fini fuel s = Ok (Some (l, s')) -> hist s' fempty n.

(** ** Invariant *)
Definition dom (k : Z) : Prop := -1 <= k < 16.
Definition ishead (p : Z) : Prop := 99 <= p < 116.
(** [X]: nodes that are in no list at the moment. *)
Record inv (X : list Z) (L : Z -> list Z) (s : nst) (n : nat) : Prop := {
  i_list : forall k, dom k -> islist (s_lk s) (bucket k) (L k);
  i_len : forall k, dom k -> (length (L k) <= n)%nat;
  i_disj : forall k j p, dom k -> dom j -> In p (L k) -> In p (L j) -> k = j;
  i_addr : forall k p, dom k -> In p (L k) -> p <> 0 /\ ~ ishead p;
  i_nd : forall p, s_nd s p <> None <-> In p X \/ exists k, dom k /\ In p (L k);
  i_loose : forall p, In p X -> p <> 0 /\ ~ ishead p /\ mapped (s_lk s) p /\ forall k, dom k -> ~ In p (L k);
  i_lk : forall p, s_lk s p <> None -> ishead p \/ s_nd s p <> None;
  i_fld : forall k p, dom k -> 0 <= k -> In p (L k) -> exists v, s_nd s p = Some v /\ 0 <= if_index v < 2147483648 /\ hash (if_index v) = k /\ (length (if_name v) <= 63)%nat;
  i_uniq : forall k p q v w, dom k -> 0 <= k -> In p (L k) -> In q (L k) -> s_nd s p = Some v -> s_nd s q = Some w -> if_index v = if_index w -> p = q }.
Definition agree (L : Z -> list Z) (s : nst) (M : fmap) : Prop := forall i, 0 <= i < 2147483648 ->
  match M i with
  | Some (nm, t) => exists p, In p (L (hash i)) /\ s_nd s p = Some {| if_index := i; if_type := t; if_name := nm |}
  | None => forall p v, In p (L (hash i)) -> s_nd s p = Some v -> if_index v <> i
  end.

Lemma hash_dom i : 0 <= hash i < 16.
Proof. unfold hash. change 15 with (Z.ones 4). rewrite Z.land_ones by lia. apply Z.mod_pos_bound. reflexivity. Qed.
Lemma dom_hash i : dom (hash i). Proof. pose proof (hash_dom i). unfold dom. lia. Qed.
Lemma bucket_head k : dom k -> ishead (bucket k). Proof. unfold dom, ishead, bucket. lia. Qed.
Lemma s32_idx i : 0 <= i < 2147483648 -> s32 i = i.
Proof. intros H. unfold s32. apply wrap_signed_id; [lia|reflexivity|]. cbn. lia. Qed.

Lemma heads_differ X L s n k j p : inv X L s n -> dom k -> dom j -> k <> j -> In p (bucket k :: L k) -> ~ In p (bucket j :: L j).
Proof.
  intros I Hk Hj N [<-|H] [E|H2].
  - unfold bucket in E. lia.
  - apply (i_addr _ _ _ _ I j _ Hj H2). apply bucket_head, Hk.
  - subst p. apply (i_addr _ _ _ _ I k _ Hk H). apply bucket_head, Hj.
  - apply N, (i_disj _ _ _ _ I k j p); assumption.
Qed.

(** The search. *)
Lemma find_ok X L s n k i fuel : inv X L s n -> dom k -> 0 <= k -> 0 <= i < 2147483648 -> (n <= fuel)%nat ->
  exists r, find_from fuel s (hd (bucket k) (L k)) (bucket k) i = Ok (Some r) /\
    ((r = 0 /\ forall p v, In p (L k) -> s_nd s p = Some v -> if_index v <> i) \/ (r <> 0 /\ In r (L k) /\ exists v, s_nd s r = Some v /\ if_index v = i)).
Proof.
  intros I Hk Hk0 Hi Hf. pose proof (i_list _ _ _ _ I k Hk) as IL. pose proof (i_len _ _ _ _ I k Hk) as LL.
  assert (FL : forall p, In p (L k) -> exists v, s_nd s p = Some v) by (intros p Hp; destruct (i_fld _ _ _ _ I k p Hk Hk0 Hp) as (v & E & _); eauto).
  assert (AD : forall p, In p (L k) -> p <> 0 /\ p <> bucket k) by (intros p Hp; destruct (i_addr _ _ _ _ I k p Hk Hp) as [A B]; split; [exact A|]; intros ->; apply B, bucket_head, Hk).
  assert (G : forall l2 l1 fuel, L k = l1 ++ l2 -> (length l2 <= fuel)%nat -> exists r, find_from fuel s (hd (bucket k) l2) (bucket k) i = Ok (Some r) /\
    ((r = 0 /\ forall p v, In p l2 -> s_nd s p = Some v -> if_index v <> i) \/ (r <> 0 /\ In r l2 /\ exists v, s_nd s r = Some v /\ if_index v = i))).
  { induction l2 as [|x l2 IH]; intros l1 f E Lf.
    - exists 0. split; [destruct f; cbn; rewrite Z.eqb_refl; reflexivity|]. left. split; [reflexivity|]. intros ? ? [].
    - destruct f as [|f]; [cbn in Lf; lia|]. cbn [hd find_from].
      assert (Hx : In x (L k)) by (rewrite E; apply in_or_app; right; left; reflexivity). destruct (AD x Hx) as [X0 X1]. destruct (Z.eqb_spec x (bucket k)); [contradiction|].
      destruct (FL x Hx) as (v & Ev). rewrite Ev, s32_idx by exact Hi. destruct (Z.eqb_spec (if_index v) i) as [Ei|Ei].
      + exists x. split; [reflexivity|]. right. split; [exact X0|]. split; [left; reflexivity|]. eauto.
      + rewrite E in IL. assert (I2 : islist (s_lk s) (bucket k) ((l1 ++ [x]) ++ l2)) by (rewrite <- app_assoc; exact IL).
        destruct (cut _ _ (l1 ++ [x]) l2 I2) as (P2 & p2 & m & N & E1' & E2 & _ & B' & _).
        assert (p2 = x) by (rewrite app_comm_cons in E1'; apply app_inj_tail in E1' as [_ Q]; auto). subst p2. rewrite (ld_next_nx _ _ _ (proj1 B')). cbn [bind].
        replace m with (hd (bucket k) l2) by (destruct l2; cbn in E2; injection E2 as <- _; reflexivity).
        destruct (IH (l1 ++ [x]) f ltac:(rewrite <- app_assoc; exact E) ltac:(cbn in Lf; lia)) as (r & Er & D). exists r. split; [exact Er|]. destruct D as [[D1 D2]|(D1 & D2 & D3)].
        * left. split; [exact D1|]. intros p w [<-|Hp] Ew; [congruence|eauto].
        * right. split; [exact D1|]. split; [right; exact D2|exact D3]. }
  apply (G (L k) [] fuel eq_refl). lia.
Qed.
Lemma node_by_index_ok X L s n i fuel : inv X L s n -> 0 <= i < 2147483648 -> (n <= fuel)%nat ->
  exists r, node_by_index fuel s i = Ok (Some r) /\
    ((r = 0 /\ forall p v, In p (L (hash i)) -> s_nd s p = Some v -> if_index v <> i) \/ (r <> 0 /\ In r (L (hash i)) /\ exists v, s_nd s r = Some v /\ if_index v = i)).
Proof.
  intros I Hi Hf. unfold node_by_index. rewrite (ld_next_nx _ _ _ (first_next _ _ _ (i_list _ _ _ _ I _ (dom_hash i)))). cbn [bind].
  apply (find_ok X L s n); auto; [apply dom_hash|apply hash_dom].
Qed.
Lemma agree_found X L s n M i : inv X L s n -> agree L s M -> 0 <= i < 2147483648 ->
  (forall p v, In p (L (hash i)) -> s_nd s p = Some v -> if_index v <> i) -> M i = None.
Proof. intros I A Hi H. specialize (A i Hi). destruct (M i) as [[nm t]|]; [|reflexivity]. destruct A as (p & Hp & E). exfalso. exact (H p _ Hp E eq_refl). Qed.
Lemma agree_at X L s n M i p v : inv X L s n -> agree L s M -> 0 <= i < 2147483648 -> In p (L (hash i)) -> s_nd s p = Some v -> if_index v = i -> M i = Some (if_name v, if_type v).
Proof.
  intros I A Hi Hp E Ei. specialize (A i Hi). destruct (M i) as [[nm t]|].
  - destruct A as (q & Hq & Eq). assert (p = q) by (apply (i_uniq _ _ _ _ I (hash i) p q v _ (dom_hash i) (proj1 (hash_dom i)) Hp Hq E Eq); exact Ei). subst q. rewrite E in Eq. injection Eq as ->. reflexivity.
  - exfalso. exact (A p v Hp E Ei).
Qed.

(** Removing a node from list k; the links of the other lists are unchanged. *)
Definition Lset (L : Z -> list Z) (k : Z) (l : list Z) : Z -> list Z := fun x => if x =? k then l else L x.
Lemma Lset_eq L k l : Lset L k l k = l. Proof. unfold Lset. rewrite Z.eqb_refl. reflexivity. Qed.
Lemma Lset_ne L k l j : j <> k -> Lset L k l j = L j. Proof. intros H. unfold Lset. destruct (Z.eqb_spec j k); [contradiction|reflexivity]. Qed.

Lemma str_eq_true a b : str_eq a b = true -> a = b.
Proof. revert b. induction a as [|x a IH]; intros [|y b]; cbn; try discriminate; [reflexivity|]. intros H. apply andb_prop in H as [H1 H2]. apply Z.eqb_eq in H1. rewrite H1, (IH b H2). reflexivity. Qed.
Lemma upd_name_cut old n : (length old <= 63)%nat -> upd_name old n = cut63 n.
Proof.
  intros H. destruct n as [n|]; [|reflexivity]. cbn [upd_name cut63]. destruct (str_eq old n) eqn:E; [|reflexivity]. apply str_eq_true in E. subst n. symmetry. apply firstn_all2, H.
Qed.
Lemma cut63_len n : (length (cut63 n) <= 63)%nat.
Proof. destruct n as [n|]; cbn [cut63]; [apply firstn_le_length|cbn; lia]. Qed.

Lemma take X L s n k l1 x l2 : inv X L s n -> dom k -> L k = l1 ++ x :: l2 ->
  exists h', list_del (s_lk s) x = Ok h' /\ inv (x :: X) (Lset L k (l1 ++ l2)) (set_lk s h') n.
Proof.
  intros I Hk E. pose proof (i_list _ _ _ _ I k Hk) as IL. rewrite E in IL. destruct (C42_del _ _ _ _ _ IL) as (h' & D & IL' & SB & EX). exists h'. split; [exact D|].
  assert (Hx : In x (L k)) by (rewrite E; apply in_or_app; right; left; reflexivity).
  assert (SUB : forall p, In p (l1 ++ l2) -> In p (L k)) by (intros p Hp; rewrite E; apply in_app_or in Hp; apply in_or_app; cbn; tauto).
  assert (SUBx : forall p, In p (L k) -> p = x \/ In p (l1 ++ l2)) by (intros p Hp; rewrite E in Hp; rewrite in_app_iff in *; cbn in Hp; intuition).
  assert (NX : ~ In x (l1 ++ l2)) by (destruct IL as [ND _]; apply NoDup_cons_iff in ND as [_ ND]; apply NoDup_remove_2 in ND; exact ND).
  assert (LS : forall j p, In p (Lset L k (l1 ++ l2) j) -> In p (L j)) by (intros j p; unfold Lset; destruct (Z.eqb_spec j k); [subst; apply SUB|auto]).
  constructor; cbn [s_lk s_nd set_lk].
  - intros j Hj. destruct (Z.eq_dec j k) as [->|NE]; [rewrite Lset_eq; exact IL'|]. rewrite Lset_ne by exact NE. apply (islist_frame _ _ _ _ _ SB (i_list _ _ _ _ I j Hj)).
    intros p Hp Hq. apply (heads_differ X L s n j k p I Hj Hk NE Hp). destruct Hq as [<-|[<-|Hq]]; [right; exact Hx|left; reflexivity|right; apply SUB, Hq].
  - intros j Hj. destruct (Z.eq_dec j k) as [->|NE]; [rewrite Lset_eq|rewrite Lset_ne by exact NE; apply (i_len _ _ _ _ I j Hj)]. pose proof (i_len _ _ _ _ I k Hk) as Q. rewrite E in Q. rewrite app_length in *. cbn in Q. lia.
  - intros a b p Ha Hb H1 H2. apply (i_disj _ _ _ _ I a b p Ha Hb); auto.
  - intros a p Ha H1. apply (i_addr _ _ _ _ I a p Ha); auto.
  - intros p. rewrite (i_nd _ _ _ _ I p). split.
    + intros [H|(j & Hj & H)]; [left; right; exact H|]. destruct (Z.eq_dec j k) as [->|NE].
      * destruct (SUBx p H) as [->|H']; [left; left; reflexivity|]. right. exists k. rewrite Lset_eq. auto.
      * right. exists j. rewrite Lset_ne by exact NE. auto.
    + intros [[<-|H]|(j & Hj & H)]; [right; exists k; auto|left; exact H|right; exists j; split; auto].
  - intros p [<-|Hp].
    + destruct (i_addr _ _ _ _ I k x Hk Hx) as [A B]. split; [exact A|]. split; [exact B|]. split; [unfold mapped; rewrite EX; discriminate|]. intros j Hj H. destruct (Z.eq_dec j k) as [->|NE]; [rewrite Lset_eq in H; exact (NX H)|].
      rewrite Lset_ne in H by exact NE. apply NE, (i_disj _ _ _ _ I j k x Hj Hk H Hx).
    + destruct (i_loose _ _ _ _ I p Hp) as (A & B & C & D'). split; [exact A|]. split; [exact B|]. split; [|intros j Hj H; apply (D' j Hj); auto].
      unfold mapped. rewrite SB; [exact C|]. intros [<-|[Q|Q]]; [apply (D' k Hk Hx)|subst p; apply B, bucket_head, Hk|apply (D' k Hk); auto].
  - intros p Hp. destruct (in_dec Z.eq_dec p (x :: bucket k :: l1 ++ l2)) as [H|H].
    + destruct H as [<-|[<-|H]]; [right; apply (i_nd _ _ _ _ I); right; eauto|left; apply bucket_head, Hk|right; apply (i_nd _ _ _ _ I); right; exists k; auto].
    + rewrite (SB p H) in Hp. apply (i_lk _ _ _ _ I p Hp).
  - intros a p Ha H0 H1. apply (i_fld _ _ _ _ I a p Ha H0); auto.
  - intros a p q v w Ha H0 H1 H2. apply (i_uniq _ _ _ _ I a p q v w Ha H0); auto.
Qed.

Lemma link L s n k x : inv [x] L s n -> dom k ->
  (0 <= k -> exists v, s_nd s x = Some v /\ 0 <= if_index v < 2147483648 /\ hash (if_index v) = k /\ (length (if_name v) <= 63)%nat /\ forall p w, In p (L k) -> s_nd s p = Some w -> if_index w <> if_index v) ->
  exists h', list_add_tail (s_lk s) x (bucket k) = Ok h' /\ inv [] (Lset L k (L k ++ [x])) (set_lk s h') (S n).
Proof.
  intros I Hk F. pose proof (i_list _ _ _ _ I k Hk) as IL. destruct (i_loose _ _ _ _ I x (or_introl eq_refl)) as (X0 & XH & XM & XN).
  assert (NI : ~ In x (bucket k :: L k)) by (intros [<-|H]; [apply XH, bucket_head, Hk|apply (XN k Hk H)]).
  destruct (C42_add_tail _ _ _ x IL XM NI) as (h' & A & IL' & SB). exists h'. split; [exact A|].
  assert (LS : forall j p, In p (Lset L k (L k ++ [x]) j) -> (j = k /\ p = x) \/ In p (L j)) by (intros j p; unfold Lset; destruct (Z.eqb_spec j k); [subst; rewrite in_app_iff; cbn; intuition|auto]).
  assert (LS2 : forall j p, In p (L j) -> In p (Lset L k (L k ++ [x]) j)) by (intros j p; unfold Lset; destruct (Z.eqb_spec j k); [subst; rewrite in_app_iff; auto|auto]).
  constructor; cbn [s_lk s_nd set_lk].
  - intros j Hj. destruct (Z.eq_dec j k) as [->|NE]; [rewrite Lset_eq; exact IL'|]. rewrite Lset_ne by exact NE. apply (islist_frame _ _ _ _ _ SB (i_list _ _ _ _ I j Hj)).
    intros p Hp [<-|Hq]; [destruct Hp as [<-|Hp]; [apply XH, bucket_head, Hj|apply (XN j Hj Hp)]|]. exact (heads_differ _ L s n j k p I Hj Hk NE Hp Hq).
  - intros j Hj. pose proof (i_len _ _ _ _ I j Hj) as Q. destruct (Z.eq_dec j k) as [->|NE]; [rewrite Lset_eq, app_length; cbn; lia|rewrite Lset_ne by exact NE; lia].
  - intros a b p Ha Hb H1 H2. apply LS in H1, H2. destruct H1 as [[-> ->]|H1], H2 as [[-> E]|H2]; [reflexivity|exfalso; apply (XN b Hb H2)|subst; exfalso; apply (XN a Ha H1)|apply (i_disj _ _ _ _ I a b p Ha Hb); auto].
  - intros a p Ha H1. apply LS in H1 as [[-> ->]|H1]; [auto|apply (i_addr _ _ _ _ I a p Ha H1)].
  - intros p. rewrite (i_nd _ _ _ _ I p). split.
    + intros [[<-|[]]|(j & Hj & H)]; right; [exists k; split; [exact Hk|]; rewrite Lset_eq; apply in_or_app; right; left; reflexivity|exists j; auto].
    + intros [[]|(j & Hj & H)]. apply LS in H as [[-> ->]|H]; [left; left; reflexivity|right; eauto].
  - intros p [].
  - intros p Hp. destruct (in_dec Z.eq_dec p (x :: bucket k :: L k)) as [H|H].
    + destruct H as [<-|[<-|H]]; [right; apply (i_nd _ _ _ _ I); left; left; reflexivity|left; apply bucket_head, Hk|right; apply (i_nd _ _ _ _ I); right; eauto].
    + rewrite (SB p H) in Hp. apply (i_lk _ _ _ _ I p Hp).
  - intros a p Ha H0 H1. apply LS in H1 as [[-> ->]|H1]; [|apply (i_fld _ _ _ _ I a p Ha H0 H1)]. destruct (F H0) as (v & F1 & F2 & F3 & F4 & _). eauto 6.
  - intros a p q v w Ha H0 H1 H2 E1 E2 E. apply LS in H1, H2. destruct H1 as [[-> ->]|H1], H2 as [[Q ->]|H2]; [reflexivity| | |apply (i_uniq _ _ _ _ I a p q v w Ha H0 H1 H2 E1 E2 E)].
    + destruct (F H0) as (v' & F1 & _ & _ & _ & F5). exfalso. rewrite E1 in F1. injection F1 as <-. apply (F5 q w H2 E2). congruence.
    + subst a. destruct (F H0) as (v' & F1 & _ & _ & _ & F5). exfalso. rewrite E2 in F1. injection F1 as <-. apply (F5 p v H1 E1). congruence.
Qed.

Lemma set_nd_eq s p v : s_nd (set_nd s p v) p = v. Proof. cbn. rewrite Z.eqb_refl. reflexivity. Qed.
Lemma set_nd_ne s p v q : q <> p -> s_nd (set_nd s p v) q = s_nd s q. Proof. intros H. cbn. destruct (Z.eqb_spec q p); [contradiction|reflexivity]. Qed.
Lemma fill L s n x v : inv [x] L s n -> inv [x] L (set_nd s x (Some v)) n.
Proof.
  intros I. destruct (i_loose _ _ _ _ I x (or_introl eq_refl)) as (X0 & XH & XM & XN). destruct I as [I1 I2 I3 I4 I5 I6 I7 I8 I9].
  assert (NE : forall k p, dom k -> In p (L k) -> p <> x) by (intros k p Hk Hp ->; exact (XN k Hk Hp)).
  constructor; auto.
  - intros p. destruct (Z.eq_dec p x) as [->|N]; [rewrite set_nd_eq|rewrite set_nd_ne by exact N; apply I5]. split; [intros _; left; left; reflexivity|discriminate].
  - intros p Hp. destruct (I7 p Hp) as [H|H]; [left; exact H|right]. destruct (Z.eq_dec p x) as [->|N]; [rewrite set_nd_eq; discriminate|rewrite set_nd_ne by exact N; exact H].
  - intros k p Hk H0 Hp. rewrite set_nd_ne by eauto. auto.
  - intros k p q a b Hk H0 Hp Hq. rewrite !set_nd_ne by eauto. eauto.
Qed.
Lemma fresh L s n a g : inv [] L s n -> a <> 0 -> s_lk s a = None -> inv [a] L (malloc_node s a g) n.
Proof.
  intros I A0 AN. unfold malloc_node. 
  assert (AH : ~ ishead a). { intros H. assert (dom (a - 100)) by (unfold ishead, dom in *; lia). pose proof (islist_mapped _ _ _ (bucket (a - 100)) (i_list _ _ _ _ I _ H0) (or_introl eq_refl)) as Q. replace (bucket (a - 100)) with a in Q by (unfold bucket; lia). contradiction. }
  assert (NE : forall k p, dom k -> In p (L k) -> p <> a) by (intros k p Hk Hp ->; apply (islist_mapped _ _ _ a (i_list _ _ _ _ I _ Hk) (or_intror Hp)), AN).
  assert (ND : s_nd s a = None). { destruct (s_nd s a) eqn:E; [|reflexivity]. exfalso. destruct (proj1 (i_nd _ _ _ _ I a) ltac:(congruence)) as [[]|(k & Hk & H)]. exact (NE k a Hk H eq_refl). }
  destruct I as [I1 I2 I3 I4 I5 I6 I7 I8 I9]. constructor; auto.
  - intros k Hk. apply (islist_frame (s_lk s) _ [a] _ _); [|apply I1, Hk|].
    + intros p Hp. cbn. destruct (Z.eqb_spec p a); [subst; exfalso; apply Hp; left; reflexivity|reflexivity].
    + intros p [<-|Hp] [Q|[]]; [subst a; apply AH, bucket_head, Hk|]. apply (NE k p Hk Hp). auto.
  - intros p. destruct (Z.eq_dec p a) as [->|N]; [rewrite set_nd_eq; split; [intros _; left; left; reflexivity|discriminate]|]. rewrite set_nd_ne by exact N. cbn [set_lk s_nd]. rewrite I5. cbn. intuition.
  - intros p [<-|[]]. split; [exact A0|]. split; [exact AH|]. split; [unfold mapped; cbn; rewrite Z.eqb_refl; discriminate|]. intros k Hk H. exact (NE k a Hk H eq_refl).
  - intros p Hp. destruct (Z.eq_dec p a) as [->|N]; [right; rewrite set_nd_eq; discriminate|]. rewrite set_nd_ne by exact N. cbn in Hp |- *. destruct (Z.eqb_spec p a); [contradiction|]. apply I7, Hp.
  - intros k p Hk H0 Hp. rewrite set_nd_ne by eauto. cbn [set_lk s_nd]. auto.
  - intros k p q v w Hk H0 Hp Hq. rewrite !set_nd_ne by eauto. cbn [set_lk s_nd]. eauto.
Qed.
Lemma release L s n x : inv [x] L s n -> exists s', free_node s x = Ok s' /\ inv [] L s' n /\ (forall p, s_nd s' p = if p =? x then None else s_nd s p).
Proof.
  intros I. destruct (i_loose _ _ _ _ I x (or_introl eq_refl)) as (X0 & XH & XM & XN).
  unfold free_node. destruct (s_nd s x) eqn:E; [|exfalso; apply (proj2 (i_nd _ _ _ _ I x) (or_introl (or_introl eq_refl)) E)]. eexists. split; [reflexivity|].
  assert (NE : forall k p, dom k -> In p (L k) -> p <> x) by (intros k p Hk Hp ->; exact (XN k Hk Hp)).
  destruct I as [I1 I2 I3 I4 I5 I6 I7 I8 I9]. split; [|intros p; cbn; reflexivity]. constructor; auto.
  - intros k Hk. apply (islist_frame (s_lk s) _ [x] _ _); [|apply I1, Hk|].
    + intros p Hp. cbn. destruct (Z.eqb_spec p x); [subst; exfalso; apply Hp; left; reflexivity|reflexivity].
    + intros p [<-|Hp] [Q|[]]; [subst x; apply XH, bucket_head, Hk|]. apply (NE k p Hk Hp). auto.
  - intros p. destruct (Z.eq_dec p x) as [->|N]; [rewrite set_nd_eq; split; [congruence|intros [[]|(k & Hk & H)]; exfalso; exact (NE k x Hk H eq_refl)]|]. rewrite set_nd_ne by exact N. cbn [set_lk s_nd]. rewrite I5. cbn. split; [intros [[Q|[]]|H]; [congruence|auto]|intros [[]|H]; auto].
  - intros p [].
  - intros p Hp. cbn in Hp. destruct (Z.eqb_spec p x); [congruence|]. rewrite set_nd_ne by assumption. apply I7, Hp.
  - intros k p Hk H0 Hp. rewrite set_nd_ne by eauto. cbn [set_lk s_nd]. auto.
  - intros k p q v w Hk H0 Hp Hq. rewrite !set_nd_ne by eauto. cbn [set_lk s_nd]. eauto.
Qed.
Lemma rewrite_node X L s n p v v' : inv X L s n -> s_nd s p = Some v -> if_index v' = if_index v -> (length (if_name v') <= 63)%nat -> inv X L (set_nd s p (Some v')) n.
Proof.
  intros [I1 I2 I3 I4 I5 I6 I7 I8 I9] E Ei El. constructor; auto.
  - intros q. rewrite <- I5. destruct (Z.eq_dec q p) as [->|N]; [rewrite set_nd_eq, E; split; discriminate|rewrite set_nd_ne by exact N; reflexivity].
  - intros q Hq. destruct (I7 q Hq) as [H|H]; [left; exact H|right]. destruct (Z.eq_dec q p) as [->|N]; [rewrite set_nd_eq; discriminate|rewrite set_nd_ne by exact N; exact H].
  - intros k q Hk H0 Hq. destruct (I8 k q Hk H0 Hq) as (w & Ew & A & B & C). destruct (Z.eq_dec q p) as [->|N]; [rewrite set_nd_eq; exists v'; rewrite E in Ew; injection Ew as <-; rewrite Ei; auto|rewrite set_nd_ne by exact N; eauto].
  - assert (G : forall q a, s_nd (set_nd s p (Some v')) q = Some a -> exists b, s_nd s q = Some b /\ if_index b = if_index a).
    { intros q a. destruct (Z.eq_dec q p) as [->|N]; [rewrite set_nd_eq; intros [= <-]; eauto|rewrite set_nd_ne by exact N; eauto]. }
    intros k q r a b Hk H0 Hq Hr Ea Eb Eab. destruct (G q a Ea) as (a' & Ea' & Qa), (G r b Eb) as (b' & Eb' & Qb). apply (I9 k q r a' b' Hk H0 Hq Hr Ea' Eb'). congruence.
Qed.
Lemma inv_mono X L s n m : inv X L s n -> (n <= m)%nat -> inv X L s m.
Proof. intros [I1 I2 I3 I4 I5 I6 I7 I8 I9] H. constructor; auto. intros k Hk. specialize (I2 k Hk). lia. Qed.

Definition good (s : nst) (M : fmap) (n : nat) : Prop := exists L, inv [] L s n /\ agree L s M.

Lemma dom_free : dom (-1). Proof. unfold dom. lia. Qed.
Lemma hash_ne_free i : hash i <> -1. Proof. pose proof (hash_dom i). lia. Qed.

Lemma agree_mono_del L s n M i x v l1 l2 F : inv [] L s n -> agree L s M -> 0 <= i < 2147483648 -> L (hash i) = l1 ++ x :: l2 -> s_nd s x = Some v -> if_index v = i ->
  forall h, agree (Lset (Lset L (hash i) (l1 ++ l2)) (-1) F) (set_lk s h) (fset M i None).
Proof.
  intros I A Hi E Ev Ei h j Hj. unfold fset. rewrite Lset_ne by apply hash_ne_free. cbn [set_lk s_nd].
  assert (NX : ~ In x (l1 ++ l2)) by (pose proof (i_list _ _ _ _ I _ (dom_hash i)) as [ND _]; rewrite E in ND; apply NoDup_cons_iff in ND as [_ ND]; apply NoDup_remove_2 in ND; exact ND).
  assert (SUB : forall p, In p (l1 ++ l2) -> In p (L (hash i))) by (intros p Hp; rewrite E; apply in_app_or in Hp; apply in_or_app; cbn; tauto).
  assert (Hx : In x (L (hash i))) by (rewrite E; apply in_or_app; right; left; reflexivity).
  destruct (Z.eqb_spec j i) as [->|NE].
  - rewrite Lset_eq. intros p w Hp Ew Q. apply NX. replace x with p; [exact Hp|]. apply (i_uniq _ _ _ _ I (hash i) p x w v (dom_hash i) (proj1 (hash_dom i)) (SUB p Hp) Hx Ew Ev). congruence.
  - specialize (A j Hj). destruct (Z.eq_dec (hash j) (hash i)) as [Eh|Eh]; [|rewrite Lset_ne by exact Eh; exact A]. rewrite Eh in *. rewrite Lset_eq. destruct (M j) as [[nm t]|].
    + destruct A as (p & Hp & Ep). exists p. split; [|exact Ep]. rewrite E in Hp. rewrite in_app_iff in *. cbn in Hp. destruct Hp as [Hp|[<-|Hp]]; auto. exfalso. rewrite Ev in Ep. injection Ep as ->. cbn in Ei. congruence.
    + intros p w Hp. apply A, SUB, Hp.
Qed.

Lemma del_ok s M n i fuel : good s M n -> -2147483648 <= i < 2147483648 -> (n <= fuel)%nat ->
  exists r s', del_netif fuel s i = Ok (Some (r, s')) /\ answer M (ODel i) r /\ good s' (after M (ODel i) r) (S n).
Proof.
  intros (L & I & A) Hi Hf. unfold del_netif, answer, after. destruct (Z.ltb_spec i 0) as [H0|H0].
  - exists (- AOSL_EINVAL), s. split; [reflexivity|]. split; [reflexivity|]. cbn. exists L. split; [apply (inv_mono _ _ _ n); [exact I|lia]|exact A].
  - assert (Hi' : 0 <= i < 2147483648) by lia. destruct (node_by_index_ok _ L s n i fuel I Hi' Hf) as (r & -> & D). cbn [bind]. destruct D as [[-> D]|(N0 & Hr & v & Ev & Ei)].
    + rewrite Z.eqb_refl, (agree_found _ L s n M i I A Hi' D). eexists _, s. split; [reflexivity|]. split; [reflexivity|]. cbn. exists L. split; [apply (inv_mono _ _ _ n); [exact I|lia]|exact A].
    + destruct (Z.eqb_spec r 0); [contradiction|]. rewrite (agree_at _ L s n M i r v I A Hi' Hr Ev Ei). destruct (in_split _ _ Hr) as (l1 & l2 & E).
      destruct (take _ L s n (hash i) l1 r l2 I (dom_hash i) E) as (h1 & -> & I1). cbn [bind].
      destruct (link _ _ n (-1) r I1 dom_free ltac:(lia)) as (h2 & E2 & I2). cbn [set_lk s_lk] in E2. change (bucket (-1)) with FREE in E2. rewrite E2. cbn [bind].
      exists 0, (set_lk s h2). split; [reflexivity|]. split; [reflexivity|]. cbn [Z.eqb]. eexists. split; [exact I2|]. apply (agree_mono_del L s n M i r v l1 l2 _ I A Hi' E Ev Ei).
Qed.

(** Linking a filled node under a new index. *)
Lemma link_new_ok L s n M x i nm t : inv [x] L s n -> agree L s M -> 0 <= i < 2147483648 -> M i = None ->
  exists s', link_new s x i nm t = Ok (Some (0, s')) /\ good s' (fset M i (Some (cut63 nm, t))) (S n).
Proof.
  intros I A Hi Mi. destruct (i_loose _ _ _ _ I x (or_introl eq_refl)) as (X0 & XH & XM & XN). unfold link_new.
  destruct (s_nd s x) eqn:E; [|exfalso; apply (proj2 (i_nd _ _ _ _ I x) (or_introl (or_introl eq_refl)) E)].
  change (new_name nm) with (cut63 nm). pose (v := {| if_index := i; if_type := t; if_name := cut63 nm |}). fold v.
  assert (NE : forall k p, dom k -> In p (L k) -> p <> x) by (intros k p Hk Hp ->; exact (XN k Hk Hp)).
  pose proof (A i Hi) as Ai. rewrite Mi in Ai.
  destruct (link L (set_nd s x (Some v)) n (hash i) x (fill L s n x v I) (dom_hash i)) as (h & Eh & I2).
  { intros _. exists v. split; [apply set_nd_eq|]. split; [exact Hi|]. split; [reflexivity|]. split; [apply cut63_len|]. intros p w Hp. rewrite set_nd_ne by eauto using dom_hash. intros Ew. apply (Ai p w Hp Ew). }
  cbn zeta. rewrite Eh. cbn [bind]. eexists. split; [reflexivity|]. eexists. split; [exact I2|].
  intros j Hj. unfold fset. cbn [set_lk s_nd]. fold (s_nd (set_nd s x (Some v))). destruct (Z.eqb_spec j i) as [->|NJ].
  - exists x. rewrite Lset_eq. split; [apply in_or_app; right; left; reflexivity|]. change (s_nd (set_nd s x (Some v)) x = Some v). apply set_nd_eq.
  - specialize (A j Hj). assert (G : forall p, In p (Lset L (hash i) (L (hash i) ++ [x]) (hash j)) -> (p = x) \/ In p (L (hash j))).
    { intros p. unfold Lset. destruct (Z.eqb_spec (hash j) (hash i)) as [->|]; [rewrite in_app_iff; cbn; intuition|auto]. }
    destruct (M j) as [[a b]|].
    + destruct A as (p & Hp & Ep). exists p. split; [unfold Lset; destruct (Z.eqb_spec (hash j) (hash i)) as [Q|]; [rewrite <- Q; apply in_or_app; left|]; exact Hp|].
      change (s_nd (set_nd s x (Some v)) p = Some {| if_index := j; if_type := b; if_name := a |}). rewrite set_nd_ne by eauto using dom_hash. exact Ep.
    + intros p w Hp Ew. change (s_nd (set_nd s x (Some v)) p = Some w) in Ew. destruct (Z.eq_dec p x) as [->|NP].
      * rewrite set_nd_eq in Ew. injection Ew as <-. cbn. congruence.
      * rewrite set_nd_ne in Ew by exact NP. destruct (G p Hp) as [Q|Q]; [contradiction|]. exact (A p w Q Ew).
Qed.

Lemma agree_free L s M l h : agree L s M -> agree (Lset L (-1) l) (set_lk s h) M.
Proof. intros A i Hi. specialize (A i Hi). cbn [set_lk s_nd]. rewrite Lset_ne by apply hash_ne_free. exact A. Qed.
Lemma agree_rewrite L s n M p i t nm v : inv [] L s n -> agree L s M -> 0 <= i < 2147483648 -> In p (L (hash i)) -> s_nd s p = Some v -> if_index v = i ->
  agree L (set_nd s p (Some {| if_index := i; if_type := t; if_name := nm |})) (fset M i (Some (nm, t))).
Proof.
  intros I A Hi Hp Ev Ei j Hj. unfold fset. destruct (Z.eqb_spec j i) as [->|NE]; [exists p; split; [exact Hp|apply set_nd_eq]|]. specialize (A j Hj). destruct (M j) as [[a b]|].
  - destruct A as (q & Hq & Eq). exists q. split; [exact Hq|]. rewrite set_nd_ne; [exact Eq|]. intros ->. rewrite Ev in Eq. injection Eq as ->. cbn in Ei. congruence.
  - intros q w Hq. destruct (Z.eq_dec q p) as [->|N]; [rewrite set_nd_eq; intros [= <-]; cbn; congruence|rewrite set_nd_ne by exact N; apply A, Hq].
Qed.

Lemma upd_ok s M n i nm t a fuel : good s M n -> op_ok s (OUpd i nm t a) -> (n <= fuel)%nat ->
  exists r s', upd_netif fuel s a i nm t = Ok (Some (r, s')) /\ answer M (OUpd i nm t a) r /\ good s' (after M (OUpd i nm t a) r) (S n).
Proof.
  intros (L & I & A) [Hi AO] Hf. cbn [idx_of] in Hi. unfold upd_netif, answer, after. destruct (Z.ltb_spec i 0) as [H0|H0].
  - exists (- AOSL_EINVAL), s. split; [reflexivity|]. split; [reflexivity|]. cbn. exists L. split; [apply (inv_mono _ _ _ n); [exact I|lia]|exact A].
  - assert (Hi' : 0 <= i < 2147483648) by lia. destruct (node_by_index_ok _ L s n i fuel I Hi' Hf) as (r & -> & D). cbn [bind]. destruct D as [[-> D]|(N0 & Hr & v & Ev & Ei)].
    + rewrite Z.eqb_refl. cbn [negb]. pose proof (agree_found _ L s n M i I A Hi' D) as Mi.
      pose proof (i_list _ _ _ _ I (-1) dom_free) as IF. change (bucket (-1)) with FREE in IF.
      assert (Z0 : ~ In 0 (FREE :: L (-1))) by (intros [Q|Q]; [discriminate|]; apply (proj1 (i_addr _ _ _ _ I (-1) 0 dom_free Q) eq_refl)).
      pose proof (C42_remove_head _ _ _ IF Z0) as RH. destruct (L (-1)) as [|x F] eqn:EF.
      * destruct RH as [-> _]. cbn [bind]. rewrite Z.eqb_refl. destruct a as [[a g]|].
        -- cbn in AO. destruct AO as [A0 AN]. replace (set_lk s (s_lk s)) with s by (destruct s; reflexivity).
           assert (A' : agree L (malloc_node s a g) M).
           { intros j Hj. specialize (A j Hj). assert (NE : forall p, In p (L (hash j)) -> p <> a) by (intros p Hp ->; apply (islist_mapped _ _ _ a (i_list _ _ _ _ I _ (dom_hash j)) (or_intror Hp)), AN).
             destruct (M j) as [[u w]|]; [destruct A as (p & Hp & Ep); exists p; split; [exact Hp|]; unfold malloc_node; rewrite set_nd_ne by eauto; exact Ep|].
             intros p w Hp. unfold malloc_node. rewrite set_nd_ne by eauto. apply A, Hp. }
           destruct (link_new_ok L _ n M a i nm t (fresh L s n a g I A0 AN) A' Hi' Mi) as (s' & E & G). exists 0, s'. split; [exact E|]. split; [left; reflexivity|]. cbn [Z.eqb]. exact G.
        -- eexists _, _. split; [reflexivity|]. split; [right; auto|]. cbn. replace (set_lk s (s_lk s)) with s by (destruct s; reflexivity). exists L. split; [apply (inv_mono _ _ _ n); [exact I|lia]|exact A].
      * destruct RH as [_ _].
        destruct (take _ L s n (-1) [] x F I dom_free EF) as (h1 & E1 & I1).
        assert (RH : list_remove_head (s_lk s) FREE = Ok (x, h1)).
        { unfold list_remove_head. destruct (C42_queries _ _ _ IF Z0) as (Q & _). rewrite Q. cbn [bind]. rewrite (ld_next_nx _ _ _ (first_next _ _ _ IF)). cbn [bind hd]. rewrite E1. reflexivity. }
        rewrite RH. cbn [bind]. destruct (Z.eqb_spec x 0) as [->|_]; [exfalso; apply Z0; right; left; reflexivity|].
        destruct (link_new_ok _ _ n M x i nm t I1 (agree_free L s M _ h1 A) Hi' Mi) as (s' & E & G). exists 0, s'. split; [exact E|]. split; [left; reflexivity|]. cbn [Z.eqb]. exact G.
    + destruct (Z.eqb_spec r 0); [contradiction|]. cbn [negb]. rewrite Ev. eexists 0, _. split; [reflexivity|]. split; [left; reflexivity|]. cbn [Z.eqb].
      destruct (i_fld _ _ _ _ I (hash i) r (dom_hash i) (proj1 (hash_dom i)) Hr) as (v' & Ev' & _ & _ & Ln). rewrite Ev in Ev'. injection Ev' as <-. rewrite (upd_name_cut _ nm Ln), Ei. exists L. split.
      * apply (inv_mono _ _ _ n); [|lia]. apply (rewrite_node _ L s n r v); auto; cbn; apply cut63_len.
      * apply (agree_rewrite L s n M r i t _ v); auto.
Qed.

(** ** netifs_hash_fini *)
Lemma drain_ok : forall l L s n k fuel, inv [] L s n -> dom k -> L k = l -> (length l <= fuel)%nat ->
  exists s', drain fuel s (bucket k) = Ok (Some (l, s')) /\ inv [] (Lset L k []) s' n /\ (forall p, s_nd s' p = if in_dec Z.eq_dec p l then None else s_nd s p).
Proof.
  induction l as [|x l IH]; intros L s n k fuel I Hk E Hf; pose proof (i_list _ _ _ _ I k Hk) as IL;
    assert (Z0 : ~ In 0 (bucket k :: L k)) by (intros [Q|Q]; [unfold dom, bucket in *; lia|]; apply (proj1 (i_addr _ _ _ _ I k 0 Hk Q) eq_refl));
    rewrite E in IL, Z0.
  - destruct (C42_remove_head _ _ _ IL Z0) as [R _]. exists (set_lk s (s_lk s)). assert (Q : set_lk s (s_lk s) = s) by (destruct s; reflexivity). rewrite Q.
    split; [destruct fuel; cbn [drain]; rewrite R; cbn [bind]; rewrite Z.eqb_refl, Q; reflexivity|]. split; [|intros p; reflexivity].
    destruct I as [I1 I2 I3 I4 I5 I6 I7 I8 I9]. assert (LE : forall j, Lset L k [] j = L j) by (intros j; unfold Lset; destruct (Z.eqb_spec j k); [subst; auto|reflexivity]).
    constructor; intros; rewrite ?LE in *; eauto.
    + rewrite I5. split; intros [H|(j & Hj & H)]; auto; right; exists j; rewrite ?LE in *; auto.
    + contradiction.
  - destruct fuel as [|fuel]; [cbn in Hf; lia|].
    destruct (take _ L s n k [] x l I Hk E) as (h1 & E1 & I1). cbn [app] in I1.
    assert (RH : list_remove_head (s_lk s) (bucket k) = Ok (x, h1)).
    { unfold list_remove_head. destruct (C42_queries _ _ _ IL Z0) as (Q & _). rewrite Q. cbn [bind]. rewrite (ld_next_nx _ _ _ (first_next _ _ _ IL)). cbn [bind hd]. rewrite E1. reflexivity. }
    cbn [drain]. rewrite RH. cbn [bind]. destruct (Z.eqb_spec x 0) as [->|_]; [exfalso; apply Z0; right; left; reflexivity|].
    destruct (release _ _ n x I1) as (s2 & -> & I2 & N2). cbn [bind].
    destruct (IH _ s2 n k fuel I2 Hk (Lset_eq _ _ _) ltac:(cbn in Hf; lia)) as (s3 & -> & I3 & N3). cbn [bind]. exists s3. split; [reflexivity|]. split.
    + destruct I3 as [J1 J2 J3 J4 J5 J6 J7 J8 J9]. assert (LE : forall j, Lset (Lset L k l) k [] j = Lset L k [] j) by (intros j; unfold Lset; destruct (Z.eqb_spec j k); reflexivity).
      constructor; intros; rewrite <- ?LE in *; eauto.
      * rewrite J5. split; intros [H|(j & Hj & H)]; auto; right; exists j; rewrite <- ?LE in *; auto.
      * contradiction.
    + intros p. rewrite N3. destruct (in_dec Z.eq_dec p l) as [H|H]; destruct (in_dec Z.eq_dec p (x :: l)) as [H'|H']; try reflexivity.
      * exfalso. apply H'. right. exact H.
      * rewrite N2. cbn. destruct (Z.eqb_spec p x); [reflexivity|]. exfalso. destruct H' as [Q|Q]; [congruence|contradiction].
      * rewrite N2. cbn. destruct (Z.eqb_spec p x); [exfalso; apply H'; left; auto|reflexivity].
Qed.
Lemma inv_ext X L L' s n : inv X L s n -> (forall k, L' k = L k) -> inv X L' s n.
Proof.
  intros [J1 J2 J3 J4 J5 J6 J7 J8 J9] E. constructor; intros; rewrite ?E in *; eauto.
  - rewrite J5. split; intros [H|(j & Hj & H)]; auto; right; exists j; rewrite ?E in *; auto.
  - destruct (J6 p H) as (A & B & C & D). repeat split; auto. intros k Hk. rewrite E. auto.
Qed.
Lemma drain_all_ok : forall ks L s n fuel, inv [] L s n -> Forall dom ks -> NoDup ks -> (n <= fuel)%nat ->
  exists s', drain_all fuel s (map bucket ks) = Ok (Some (concat (map L ks), s')) /\ inv [] (fun k => if in_dec Z.eq_dec k ks then [] else L k) s' n /\
  (forall p, s_nd s' p = if in_dec Z.eq_dec p (concat (map L ks)) then None else s_nd s p).
Proof.
  induction ks as [|k ks IH]; intros L s n fuel I D ND Hf.
  - exists s. split; [reflexivity|]. split; [exact I|]. intros p. reflexivity.
  - apply Forall_cons_iff in D as [Dk D]. apply NoDup_cons_iff in ND as [Nk ND]. cbn [map drain_all concat].
    destruct (drain_ok (L k) L s n k fuel I Dk eq_refl ltac:(pose proof (i_len _ _ _ _ I k Dk); lia)) as (s1 & -> & I1 & N1). cbn [bind].
    destruct (IH _ s1 n fuel I1 D ND Hf) as (s2 & -> & I2 & N2). cbn [bind]. exists s2.
    assert (EM : map (Lset L k []) ks = map L ks) by (apply map_ext_in; intros j Hj; apply Lset_ne; intros ->; contradiction). rewrite EM in *.
    split; [reflexivity|]. split.
    + apply (inv_ext _ _ _ _ _ I2). intros j. destruct (in_dec Z.eq_dec j (k :: ks)) as [H|H], (in_dec Z.eq_dec j ks) as [H'|H']; try reflexivity.
      * destruct H as [<-|H]; [rewrite Lset_eq; reflexivity|contradiction].
      * exfalso. apply H. right. exact H'.
      * rewrite Lset_ne; [reflexivity|]. intros ->. apply H. left. reflexivity.
    + intros p. rewrite N2, N1. destruct (in_dec Z.eq_dec p (concat (map L ks))) as [H|H], (in_dec Z.eq_dec p (L k)) as [H'|H'], (in_dec Z.eq_dec p (L k ++ concat (map L ks))) as [Q|Q]; try reflexivity; rewrite in_app_iff in Q; tauto.
Qed.
Definition ks17 : list Z := map Z.of_nat (seq 0 16) ++ [-1].
Lemma heads17 : buckets ++ [FREE] = map bucket ks17. Proof. reflexivity. Qed.
Lemma dom17 k : dom k <-> In k ks17.
Proof. unfold dom, ks17. rewrite in_app_iff, in_map_iff. cbn [In]. split.
  - intros H. destruct (Z.eq_dec k (-1)); [right; auto|]. left. exists (Z.to_nat k). rewrite in_seq. lia.
  - intros [(j & <- & H)|[<-|[]]]; [rewrite in_seq in H|]; lia.
Qed.
Lemma nodup17 : NoDup ks17.
Proof. unfold ks17. repeat (constructor; [cbn; intros H; repeat (destruct H as [H|H]; [discriminate|]); exact H|]). constructor. Qed.
Lemma nodup_concat L s n : inv [] L s n -> forall ks, Forall dom ks -> NoDup ks -> NoDup (concat (map L ks)).
Proof.
  intros I. induction ks as [|k ks IH]; intros D ND; [constructor|]. apply Forall_cons_iff in D as [Dk D]. apply NoDup_cons_iff in ND as [Nk ND]. cbn [map concat].
  assert (NA : forall (a b : list Z), NoDup a -> NoDup b -> (forall x, In x a -> ~ In x b) -> NoDup (a ++ b)).
  { clear. induction a as [|x a IH]; intros b Na Nb H; [exact Nb|]. apply NoDup_cons_iff in Na as [N1 N2]. cbn. constructor; [rewrite in_app_iff; intros [Q|Q]; [contradiction|apply (H x); [left; reflexivity|exact Q]]|]. apply IH; auto. intros y Hy. apply H. right. exact Hy. }
  apply NA; [destruct (i_list _ _ _ _ I k Dk) as [Q _]; apply NoDup_cons_iff in Q; apply Q|apply IH; assumption|].
  intros x Hx H. apply in_concat in H as (l & Hl & Hxl). apply in_map_iff in Hl as (j & <- & Hj). apply Nk. replace k with j; [exact Hj|]. rewrite Forall_forall in D. apply (i_disj _ _ _ _ I j k x (D j Hj) Dk Hxl Hx).
Qed.

Lemma start_good s : netifs_init start = Ok s -> good s fempty 0.
Proof.
  intros E. unfold netifs_init in E. destruct (init_heads (s_lk start) buckets) as [h| |] eqn:Eh; try discriminate. cbn in E. injection E as <-.
  assert (G : forall ks h h', init_heads h (map bucket ks) = Ok h' -> NoDup ks -> Forall dom ks -> (forall k, dom k -> mapped h (bucket k)) ->
    (forall k, In k ks -> islist h' (bucket k) []) /\ same_but (map bucket ks) h h' /\ (forall k, dom k -> mapped h' (bucket k))).
  { clear. induction ks as [|k ks IH]; intros h h' E ND D M.
    - cbn in E. injection E as <-. split; [intros ? []|]. split; [intros p _; reflexivity|exact M].
    - apply Forall_cons_iff in D as [Dk D]. apply NoDup_cons_iff in ND as [Nk ND]. cbn [map init_heads] in E. destruct (C42_init h (bucket k) (M k Dk)) as (h1 & E1 & I1 & S1). rewrite E1 in E. cbn [bind] in E.
      assert (M1 : forall j, dom j -> mapped h1 (bucket j)). { intros j Hj. destruct (Z.eq_dec j k) as [->|N]; [apply (islist_mapped _ _ _ _ I1); left; reflexivity|]. unfold mapped. rewrite S1; [apply M, Hj|]. intros [Q|[]]. unfold bucket in Q. lia. }
      destruct (IH h1 h' E ND D M1) as (A & B & C). assert (NI : ~ In (bucket k) (map bucket ks)) by (intros Q; apply in_map_iff in Q as (j & Ej & Hj); apply Nk; replace k with j; [exact Hj|unfold bucket in Ej; lia]).
      split; [|split; [|exact C]].
      + intros j [<-|Hj]; [|auto]. apply (islist_frame _ _ _ _ _ B I1). intros p [<-|[]]. exact NI.
      + intros p Hp. rewrite (B p), (S1 p); auto; intros Q; apply Hp; cbn; [destruct Q as [Q|[]]; auto|auto]. }
  assert (MH : forall k, dom k -> mapped (s_lk start) (bucket k)).
  { intros k Hk. unfold mapped, start, bucket, FREE. cbn [s_lk]. destruct (Z.eqb_spec (100 + k) 99); [discriminate|]. unfold dom in Hk. destruct (Z.leb_spec 100 (100 + k)), (Z.ltb_spec (100 + k) 116); cbn; try discriminate; lia. }
  change buckets with (map bucket (map Z.of_nat (seq 0 16))) in Eh. destruct (G _ _ _ Eh) as (A & B & C).
  { pose proof nodup17 as Q. unfold ks17 in Q. clear -Q. induction (map Z.of_nat (seq 0 16)) as [|a l IH]; [constructor|]. cbn in Q. apply NoDup_cons_iff in Q as [N1 N2]. constructor; [intros H; apply N1, in_or_app; left; exact H|auto]. }
  { apply Forall_forall. intros k Hk. apply dom17. apply in_or_app. left. exact Hk. }
  { exact MH. }
  exists (fun _ => []). split; [|intros i Hi; cbn; intros ? ? []].
  constructor; cbn [set_lk s_lk s_nd]; try (intros; contradiction); try (intros; cbn; lia).
  - intros k Hk. destruct (proj1 (in_app_iff _ _ _) (proj1 (dom17 k) Hk)) as [H|[<-|[]]]; [apply A, H|]. change (bucket (-1)) with FREE.
    assert (FH : h FREE = Some (FREE, FREE)). { rewrite (B FREE); [reflexivity|]. intros Q. apply in_map_iff in Q as (j & Ej & Hj). apply in_map_iff in Hj as (m & <- & _). unfold bucket, FREE in Ej. lia. }
    split; [constructor; [intros []|constructor]|]. cbn. unfold edge, nx, pv. rewrite FH. auto.
  - cbn. intros p. split; [congruence|intros [[]|(k & _ & [])]].
  - intros p Hp. left. destruct (in_dec Z.eq_dec p (map bucket (map Z.of_nat (seq 0 16)))) as [H|H]; [apply in_map_iff in H as (j & <- & Hj); apply bucket_head, dom17, in_or_app; left; exact Hj|].
    rewrite (B p H) in Hp. unfold start in Hp. cbn [s_lk] in Hp. unfold FREE in Hp. unfold ishead. destruct (Z.eqb_spec p 99); [lia|]. destruct ((100 <=? p) && (p <? 116)) eqn:Q; [lia|congruence].
Qed.

Lemma fini_ok s M n fuel : good s M n -> (n <= fuel)%nat ->
  exists l s', netifs_fini fuel s = Ok (Some (l, s')) /\ NoDup l /\ (forall p, In p l <-> s_nd s p <> None) /\ (forall p, s_nd s' p = None) /\ good s' fempty n.
Proof.
  intros (L & I & A) Hf. assert (D : Forall dom ks17) by (apply Forall_forall; intros k; apply dom17).
  destruct (drain_all_ok ks17 L s n fuel I D nodup17 Hf) as (s' & E & I' & N). exists (concat (map L ks17)), s'. unfold netifs_fini. rewrite heads17.
  assert (IN : forall p, In p (concat (map L ks17)) <-> s_nd s p <> None).
  { intros p. rewrite (i_nd _ _ _ _ I p), in_concat. split.
    - intros (l & Hl & Hp). apply in_map_iff in Hl as (k & <- & Hk). right. exists k. split; [apply dom17, Hk|exact Hp].
    - intros [[]|(k & Hk & Hp)]. exists (L k). split; [apply in_map_iff; exists k; split; [reflexivity|apply dom17, Hk]|exact Hp]. }
  split; [exact E|]. split; [apply (nodup_concat L s n I ks17 D nodup17)|]. split; [exact IN|]. split.
  - intros p. rewrite N. destruct (in_dec Z.eq_dec p (concat (map L ks17))) as [H|H]; [reflexivity|]. destruct (s_nd s p) eqn:Q; [|reflexivity]. exfalso. apply H, IN. congruence.
  - eexists. split; [exact I'|]. intros i Hi. unfold fempty. intros p v. destruct (in_dec Z.eq_dec (hash i) ks17) as [H|H]; [intros []|]. exfalso. apply H, dom17, dom_hash.
Qed.

Lemma hist_good s M n : hist s M n -> good s M n.
Proof.
  induction 1 as [s E|s M n o fuel r s' H IH OK Hf E|s M n fuel l s' H IH Hf E].
  - apply start_good, E.
  - destruct o as [i|i nm t a]; cbn [nexec] in E.
    + destruct (del_ok s M n i fuel IH (proj1 OK) Hf) as (r' & s2 & E' & _ & G). rewrite E in E'. injection E' as -> ->. exact G.
    + destruct (upd_ok s M n i nm t a fuel IH OK Hf) as (r' & s2 & E' & _ & G). rewrite E in E'. injection E' as -> ->. exact G.
  - destruct (fini_ok s M n fuel IH Hf) as (l' & s2 & E' & _ & _ & _ & G). rewrite E in E'. injection E' as -> ->. exact G.
Qed.

(** ** C45 *)
(** Every call returns, with the answer the map requires. *)
Theorem C45_answers : forall s M n o fuel, hist s M n -> op_ok s o -> (n <= fuel)%nat ->
  exists r s', nexec fuel s o = Ok (Some (r, s')) /\ answer M o r.
Proof.
  intros s M n o fuel H OK Hf. apply hist_good in H. destruct o as [i|i nm t a].
  - destruct (del_ok s M n i fuel H (proj1 OK) Hf) as (r & s' & E & A & _). eauto.
  - destruct (upd_ok s M n i nm t a fuel H OK Hf) as (r & s' & E & A & _). eauto.
Qed.
Print Assumptions C45_answers.
(** A lookup returns exactly what the map holds. *)
Theorem C45_lookup : forall s M n i fuel, hist s M n -> -2147483648 <= i < 2147483648 -> (n <= fuel)%nat ->
  netif_by_index fuel s i = Ok (Some (if i <? 0 then None else option_map (fun e => {| if_index := i; if_type := snd e; if_name := fst e |}) (M i))).
Proof.
  intros s M n i fuel H Hi Hf. apply hist_good in H as (L & I & A). unfold netif_by_index. destruct (Z.ltb_spec i 0); [reflexivity|]. assert (Hi' : 0 <= i < 2147483648) by lia.
  destruct (node_by_index_ok _ L s n i fuel I Hi' Hf) as (r & -> & D). cbn [bind]. destruct D as [[-> D]|(N0 & Hr & v & Ev & Ei)].
  - rewrite (agree_found _ L s n M i I A Hi' D). reflexivity.
  - destruct (Z.eqb_spec r 0); [contradiction|]. rewrite Ev, (agree_at _ L s n M i r v I A Hi' Hr Ev Ei). cbn. rewrite <- Ei. destruct v; reflexivity.
Qed.
Print Assumptions C45_lookup.
(** Unsubscribing frees every node exactly once and leaves an empty cache. *)
Theorem C45_fini : forall s M n fuel, hist s M n -> (n <= fuel)%nat ->
  exists l s', netifs_fini fuel s = Ok (Some (l, s')) /\ NoDup l /\ (forall p, In p l <-> s_nd s p <> None) /\ (forall p, s_nd s' p = None).
Proof. intros s M n fuel H Hf. destruct (fini_ok s M n fuel (hist_good _ _ _ H) Hf) as (l & s' & A & B & C & D & _). eauto 6. Qed.
Print Assumptions C45_fini.
(** Memory is taken from malloc only when every node in existence holds an entry of the map. *)
Theorem C45_reuse : forall s M n i nm t fuel s', hist s M n -> op_ok s (OUpd i nm t None) -> (n <= fuel)%nat ->
  nexec fuel s (OUpd i nm t None) = Ok (Some (- AOSL_ENOMEM, s')) ->
  forall p, s_nd s p <> None -> exists v, s_nd s p = Some v /\ M (if_index v) = Some (if_name v, if_type v).
Proof.
  intros s M n i nm t fuel s' H OK Hf E p Hp. apply hist_good in H as (L & I & A). destruct (proj1 (i_nd _ _ _ _ I p) Hp) as [[]|(k & Hk & Hin)].
  destruct (Z.eq_dec k (-1)) as [->|N].
  - exfalso. cbn [nexec] in E. destruct OK as [Hi _]. cbn in Hi. unfold upd_netif in E. destruct (Z.ltb_spec i 0); [discriminate|]. assert (Hi' : 0 <= i < 2147483648) by lia.
    destruct (node_by_index_ok _ L s n i fuel I Hi' Hf) as (r & Er & D). rewrite Er in E. cbn [bind] in E. destruct D as [[-> D]|(N0 & Hr & v & Ev & Ei)].
    + rewrite Z.eqb_refl in E. cbn [negb] in E. pose proof (i_list _ _ _ _ I (-1) dom_free) as IF. change (bucket (-1)) with FREE in IF.
      assert (Z0 : ~ In 0 (FREE :: L (-1))) by (intros [Q|Q]; [discriminate|]; apply (proj1 (i_addr _ _ _ _ I (-1) 0 dom_free Q) eq_refl)).
      pose proof (C42_remove_head _ _ _ IF Z0) as RH. destruct (L (-1)) as [|x F] eqn:EF; [contradiction|]. destruct RH as [(h' & RH & _) _]. rewrite RH in E. cbn [bind] in E.
      destruct (Z.eqb_spec x 0) as [->|_]; [apply Z0; right; left; reflexivity|]. unfold link_new in E. cbn [set_lk s_nd] in E. destruct (s_nd s x); [|discriminate]. cbn zeta in E.
      match type of E with bind ?a _ = _ => destruct a end; cbn in E; discriminate.
    + destruct (Z.eqb_spec r 0); [contradiction|]. rewrite Ev in E. discriminate.
  - assert (H0 : 0 <= k) by (unfold dom in Hk; lia). destruct (i_fld _ _ _ _ I k p Hk H0 Hin) as (v & Ev & Hv & Eh & _). exists v. split; [exact Ev|]. rewrite <- Eh in Hin. apply (agree_at _ L s n M _ p v I A Hv Hin Ev eq_refl).
Qed.
Print Assumptions C45_reuse.

(** ** Example: two interfaces in one bucket, a deletion, and a node reused in another. *)
Definition junk : netif := {| if_index := 77; if_type := 7; if_name := [1] |}.
Definition prog : list nop := [OUpd 2 (Some [101; 116; 104]) 1 (Some (200, junk)); OUpd 18 None 2 (Some (201, junk)); OUpd 2 (Some [119]) 9 None; ODel 2; ODel 2; OUpd 5 (Some (repeat 65 80)) 3 None].
Fixpoint runs (s : nst) (l : list nop) : outcome (option (list Z * nst)) :=
  match l with [] => Ok (Some ([], s)) | o :: l => let* r := nexec 9 s o in match r with None => Ok None | Some (x, s) => let* y := runs s l in match y with None => Ok None | Some (xs, s) => Ok (Some (x :: xs, s)) end end end.
Example netifs_run : (let* s := netifs_init start in let* r := runs s prog in match r with None => UB | Some (xs, s) =>
  let* a := netif_by_index 9 s 2 in let* b := netif_by_index 9 s 18 in let* c := netif_by_index 9 s 5 in
  let* f := netifs_fini 9 s in Ok (xs, a, b, c, option_map fst f) end) =
  Ok ([0; 0; 0; 0; - AOSL_ENOENT; 0], Some None, Some (Some {| if_index := 18; if_type := 2; if_name := [] |}), Some (Some {| if_index := 5; if_type := 3; if_name := repeat 65 63 |}), Some [201; 200]).
Proof. vm_compute. reflexivity. Qed.
(** The hypotheses of the theorems are met by this history. *)
Definition sinit : nst := match netifs_init start with Ok s => s | _ => start end.
Definition sone : nst := match nexec 9 sinit (OUpd 2 (Some [101; 116; 104]) 1 (Some (200, junk))) with Ok (Some (_, s)) => s | _ => start end.
Example netifs_hist : hist sone (after fempty (OUpd 2 (Some [101; 116; 104]) 1 (Some (200, junk))) 0) 1 /\ op_ok sone (ODel 2).
Proof.
  split; [|split; [cbn; lia|exact Logic.I]]. apply (hist_op sinit fempty 0 _ 9); [apply hist_init; reflexivity| |lia|reflexivity].
  split; [cbn; lia|]. cbn. split; [discriminate|reflexivity].
Qed.
