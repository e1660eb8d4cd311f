(** * Invariant of the model of the context of a running function. *)
From Coq Require Import Permutation.
From Verif Require Import Base Fctx.

(** ** Specification *)
(** The functions begun and not ended, the innermost first. *)
Fixpoint running (h : list event) : list call :=
  match h with
  | [] => []
  | EBegin k _ _ _ _ :: h' => k :: running h'
  | EEnd _ _ :: h' => tl (running h')
  | EDone _ _ _ _ :: h' => running h'
  end.

(** ** Invariant *)
Definition ctxof (l : list call) : ctx :=
  match l with [] => ctx0 | k :: _ => mkCtx (k_done k) (map k_obj l) (enc (k_data k) (k_len k)) (k_buf k) end.
Definition locof (k : call) : locals := mkLoc (k_done k) (k_ref k) (k_obj k) (enc (k_data k) (k_len k)) (k_buf k).
Definition small (k : call) : Prop := (if k_data k then Z.of_nat (k_len k) <= 8192 else Z.of_nat (k_len k) <= 68).
Definition istail (k : call) : bool := match k_tail k with Some _ => true | None => false end.
Definition own (kd : kind) : option nat := match kd with KInvoke o => o | KFinal o => o | KPromise => None end.
(** The block of the request that is being processed, and whether it is a marker. *)
Fixpoint bown (l : list act) : option (nat * bool) :=
  match l with
  | [] => None
  | a :: l' => match l' with [] => match own (a_kind a) with Some b => Some (b, istail (a_call a)) | None => None end | _ => bown l' end
  end.
Definition ptrok (lib : nat -> bool) (nb : nat) (bo : option (nat * bool)) (p : ptr) : Prop :=
  match p with
  | None => True
  | Some (b, o) => (lib b = false /\ (b < nb)%nat) \/ exists t, bo = Some (b, t) /\ (t = true -> (4 <= o)%nat)
  end.
Definition refok (k : call) : Prop := match k_obj k with RNull => id_invalid (k_ref k) = true | RObj i => i = k_ref k | RFree => True end.
Definition tailok (m : nat -> option (list Z)) (k : call) (kd : kind) : Prop :=
  match k_tail k with
  | None => True
  | Some d => s64 d = d /\ k_done k = MPQ_INVALID /\ k_data k = false /\ (4 <= k_len k)%nat /\
      exists b w, own kd = Some b /\ m b = Some w /\ nth_error w 1 = Some (u64 d) /\ length w = k_len k
  end.
Definition kindok (k : call) (kd : kind) : Prop := match kd with KPromise => k_data k = false | KFinal _ => k_done k = MPQ_INVALID | KInvoke _ => True end.
Fixpoint wf (m : nat -> option (list Z)) (lib : nat -> bool) (nb : nat) (l : list act) : Prop :=
  match l with
  | [] => True
  | a :: l' => let k := a_call a in
      a_prev a = ctxof (map a_call l') /\ a_loc a = locof k /\ small k /\ refok k /\ get m (k_buf k) (k_len k) <> None /\
      match own (a_kind a) with
      | Some b => l' = [] /\ k_buf k = Some (b, 0%nat) /\ lib b = true /\ (b < nb)%nat
      | None => ptrok lib nb (bown l') (k_buf k)
      end /\ tailok m k (a_kind a) /\
      kindok k (a_kind a) /\ wf m lib nb l'
  end.
Definition fok (m : nat -> option (list Z)) (lib : nat -> bool) (nb : nat) (f : fo) : Prop :=
  let k := f_call f in
  f_done f = k_done k /\ f_ref f = k_ref k /\ f_argc f = enc (k_data k) (k_len k) /\ f_argv f = k_buf k /\ small k /\ k_rerun k = false /\
  match f_own f with
  | Some b => k_own k = true /\ k_buf k = Some (b, 0%nat) /\ lib b = true /\ (b < nb)%nat /\ m b = Some (k_words k) /\ length (k_words k) = k_len k /\
      match k_tail k with None => True | Some d => s64 d = d /\ k_done k = MPQ_INVALID /\ k_data k = false /\ (4 <= k_len k)%nat /\ nth_error (k_words k) 1 = Some (u64 d) end
  | None => k_own k = false /\ k_tail k = None /\ ptrok lib nb None (k_buf k) /\ get m (k_buf k) (k_len k) <> None
  end.
Definition qown (q : list fo) : list nat := flat_map (fun f => match f_own f with Some b => [b] | None => [] end) q.
Definition aown (l : list act) : list nat := match bown l with Some (b, _) => [b] | None => [] end.
(** A marker that has just begun still has its items. *)
Definition fresh (s : state) : Prop :=
  match s_acts s, s_tr s with
  | a :: _, EBegin k _ _ _ _ :: _ => k = a_call a -> forall d b, k_tail k = Some d -> own (a_kind a) = Some b -> s_mem s b = Some (k_words k)
  | _, _ => True
  end.
Record inv (s : state) : Prop := {
  i_ctx : s_ctx s = ctxof (map a_call (s_acts s));
  i_run : running (s_tr s) = map a_call (s_acts s);
  i_wf : wf (s_mem s) (s_lib s) (s_nb s) (s_acts s);
  i_q : Forall (fok (s_mem s) (s_lib s) (s_nb s)) (s_q s);
  i_nd : NoDup (aown (s_acts s) ++ qown (s_q s));
  i_nb : forall b, s_mem s b <> None -> (b < s_nb s)%nat;
  i_fresh : fresh s }.

(** ** Facts on the encoding *)
Lemma enc_argv n : enc false n = Z.of_nat n. Proof. unfold enc. apply Z.div_mul. lia. Qed.
Lemma land_lo n : (0 <= n < DATA_BIT) -> Z.land n 2147483647 = n /\ Z.land n DATA_BIT = 0.
Proof.
  intros H. unfold DATA_BIT in *. split.
  - change 2147483647 with (Z.ones 31). rewrite Z.land_ones by lia. apply Z.mod_small. lia.
  - change 2147483648 with (2 ^ 31). apply Z.bits_inj'. intros i Hi. rewrite Z.land_spec, Z.bits_0, Z.pow2_bits_eqb by lia.
    destruct (Z.eqb_spec 31 i) as [<-|]; [|apply andb_false_r]. rewrite andb_true_r. apply Z.testbit_false; [lia|]. rewrite Z.div_small by lia. reflexivity.
Qed.
Lemma dec_enc (d : bool) (n : nat) : (if d then Z.of_nat n <= 8192 else Z.of_nat n <= 68) -> dec (enc d n) = Z.of_nat n /\ is_data (enc d n) = d.
Proof.
  intros H. unfold dec, is_data. destruct d.
  - unfold enc. rewrite !Z.land_lor_distr_l. destruct (land_lo (Z.of_nat n)) as [-> ->]; [unfold DATA_BIT; lia|].
    change (Z.land DATA_BIT 2147483647) with 0. rewrite Z.lor_0_r. split; reflexivity.
  - rewrite enc_argv. destruct (land_lo (Z.of_nat n)) as [-> ->]; [unfold DATA_BIT; lia|]. split; reflexivity.
Qed.
Lemma fits_small (d : bool) (n : nat) : fits d n = true -> if d then Z.of_nat n <= 8192 else Z.of_nat n <= 64.
Proof. unfold fits, DATA_MAX, ARGC_MAX. destruct d; intros H; apply Z.leb_le in H; exact H. Qed.

(** ** Memory *)
Lemma upd_eq {A} (f : nat -> A) k v : upd f k v k = v. Proof. unfold upd. rewrite Nat.eqb_refl. reflexivity. Qed.
Lemma upd_ne {A} (f : nat -> A) k v x : x <> k -> upd f k v x = f x. Proof. unfold upd. intros H. apply Nat.eqb_neq in H. rewrite H. reflexivity. Qed.
(** m' keeps what the pointers of l need. *)
Definition keeps (m m' : nat -> option (list Z)) (P : nat -> Prop) : Prop := forall b l, P b -> m b = Some l -> exists l', m' b = Some l' /\ length l' = length l.
Lemma get_keeps m m' (P : nat -> Prop) p n : keeps m m' P -> match p with Some (b, _) => P b | None => True end -> get m p n <> None -> get m' p n <> None.
Proof.
  intros K Hp. unfold get. destruct (n =? 0)%nat; [auto|]. destruct p as [[b o]|]; [|auto]. destruct (m b) as [l|] eqn:E; [|tauto].
  destruct (K b l Hp E) as (l' & -> & ->). destruct (_ <=? _)%nat; [discriminate|tauto].
Qed.
Definition rel (lib : nat -> bool) (nb : nat) (l : list act) (b : nat) : Prop := (lib b = false /\ (b < nb)%nat) \/ exists t, bown l = Some (b, t).
Lemma bown_tl a l : l <> [] -> bown (a :: l) = bown l. Proof. destruct l; [congruence|reflexivity]. Qed.
Lemma wf_mem m m' lib nb l :
  wf m lib nb l -> keeps m m' (rel lib nb l) ->
  (forall b w, bown l = Some (b, true) -> m b = Some w -> exists w', m' b = Some w' /\ length w' = length w /\ nth_error w' 1 = nth_error w 1) ->
  wf m' lib nb l.
Proof.
  induction l as [|a l IH]; [auto|]. cbn [wf]. intros (A & B & C & D & E & F & G & H & W) K T.
  assert (KL : l <> [] -> keeps m m' (rel lib nb l)). { intros N. intros b x [R|R]; apply K; [left; exact R|right; rewrite bown_tl by exact N; exact R]. }
  repeat (split; [assumption|]). split; [|split; [assumption|split; [|split; [assumption|]]]].
  - apply (get_keeps m m' (rel lib nb (a :: l))); [exact K| |exact E]. destruct (k_buf (a_call a)) as [[b o]|]; [|exact I].
    destruct (own (a_kind a)) as [b'|] eqn:Eo.
    + destruct F as (-> & X & _). inversion X; subst. right. exists (istail (a_call a)). cbn. rewrite Eo. reflexivity.
    + destruct F as [F|(t & F & _)]; [left; exact F|]. right. exists t. rewrite bown_tl; [exact F|]. destruct l; [discriminate|congruence].
  - unfold tailok in *. destruct (k_tail (a_call a)) as [d|] eqn:Et; [|exact I]. destruct G as (G1 & G2 & G3 & G4 & b & w & G5 & G6 & G7 & G8).
    repeat (split; [assumption|]). rewrite G5 in F. destruct F as (-> & _). destruct (T b w) as (w' & X1 & X2 & X3).
    { cbn. rewrite G5. unfold istail. rewrite Et. reflexivity. } { exact G6. }
    exists b, w'. rewrite X2, X3. auto.
  - destruct l as [|a' l]; [exact I|]. apply IH; [exact W|apply KL; discriminate|]. intros b w X. apply T. rewrite bown_tl by discriminate. exact X.
Qed.
Lemma wf_lib m lib lib' nb nb' l : wf m lib nb l -> (nb <= nb')%nat -> (forall b, (b < nb)%nat -> lib' b = lib b) -> wf m lib' nb' l.
Proof.
  intros W N L. revert W. induction l as [|a l IH]; [auto|]. cbn [wf]. intros (A & B & C & D & E & F & G & H & W).
  repeat (split; [assumption|]). split; [|split; [assumption|split; [assumption|]]].
  - destruct (own (a_kind a)) as [b|] eqn:Eo.
    + destruct F as (-> & F1 & F2 & F3). rewrite L by exact F3. repeat split; auto. lia.
    + unfold ptrok in *. destruct (k_buf (a_call a)) as [[b o]|]; [|exact I]. destruct F as [[F1 F2]|F]; [left; rewrite L by exact F2; split; [exact F1|lia]|right; exact F].
  - apply IH, W.
Qed.
Lemma wf_bown m lib nb l b t : wf m lib nb l -> bown l = Some (b, t) -> (b < nb)%nat /\ lib b = true.
Proof.
  induction l as [|a l IH]; [discriminate|]. cbn [wf]. intros (A & B & C & D & E & F & G & H & W) X.
  destruct l as [|a' l]; [|rewrite bown_tl in X by discriminate; apply IH; assumption].
  cbn in X. destruct (own (a_kind a)) as [b'|]; [|discriminate]. inversion X; subst. tauto.
Qed.
Lemma fok_mem m m' lib nb f :
  fok m lib nb f -> keeps m m' (fun b => lib b = false /\ (b < nb)%nat) -> (forall b, f_own f = Some b -> m' b = m b) -> fok m' lib nb f.
Proof.
  unfold fok. intros (A & B & C & D & E & E' & F) K O. repeat (split; [assumption|]). destruct (f_own f) as [b|].
  - rewrite (O b eq_refl). exact F.
  - destruct F as (F1 & F2 & F3 & F4). repeat (split; [assumption|]). apply (get_keeps m m' (fun b => lib b = false /\ (b < nb)%nat)); [exact K| |exact F4].
    unfold ptrok in F3. destruct (k_buf (f_call f)) as [[b o]|]; [|exact I]. destruct F3 as [F3|(t & F3 & _)]; [exact F3|discriminate].
Qed.
Lemma fok_lib m lib lib' nb nb' f : fok m lib nb f -> (nb <= nb')%nat -> (forall b, (b < nb)%nat -> lib' b = lib b) -> fok m lib' nb' f.
Proof.
  unfold fok. intros (A & B & C & D & E & E' & F) N L. repeat (split; [assumption|]). destruct (f_own f) as [b|].
  - destruct F as (F1 & F2 & F3 & F4 & F5). rewrite L by exact F4. repeat (split; [assumption || lia|]). exact F5.
  - destruct F as (F1 & F2 & F3 & F4). repeat (split; [assumption|]). split; [|assumption].
    unfold ptrok in *. destruct (k_buf (f_call f)) as [[b o]|]; [|exact I]. destruct F3 as [[F3 F5]|(t & F3 & _)]; [left; rewrite L by exact F5; split; [exact F3|lia]|discriminate].
Qed.

(** ** Preservation *)
Lemma in_qown b q m lib nb : Forall (fok m lib nb) q -> In b (qown q) -> (b < nb)%nat /\ lib b = true.
Proof.
  intros F H. unfold qown in H. apply in_flat_map in H. destruct H as (f & Hf & Hb). rewrite Forall_forall in F. specialize (F f Hf). unfold fok in F.
  destruct (f_own f) as [b'|]; [|destruct Hb]. destruct Hb as [<-|[]]. tauto.
Qed.
Lemma in_aown b l : In b (aown l) <-> exists t, bown l = Some (b, t).
Proof. unfold aown. destruct (bown l) as [[b' t]|]; cbn; split; [intros [<-|[]]; eauto|intros (t' & X); inversion X; auto|intros []|intros (t' & X); discriminate]. Qed.
Lemma own_in q f b : In f q -> f_own f = Some b -> In b (qown q).
Proof. intros H E. apply in_flat_map. exists f. rewrite E. cbn. auto. Qed.

Lemma inv_alloc s l v : inv s ->
  inv (mkSt (s_ctx s) (s_acts s) (upd (s_mem s) (s_nb s) (Some l)) (upd (s_lib s) (s_nb s) v) (S (s_nb s)) (s_q s) (s_tr s)).
Proof.
  intros [A B C D E F G]. assert (U : forall b, (b < s_nb s)%nat -> upd (s_mem s) (s_nb s) (Some l) b = s_mem s b) by (intros b Hb; apply upd_ne; lia).
  split; cbn [s_ctx s_acts s_mem s_lib s_nb s_q s_tr]; auto.
  - apply wf_lib with (lib := s_lib s) (nb := s_nb s); [|lia|intros b Hb; apply upd_ne; lia].
    apply wf_mem with (m := s_mem s); [exact C| |].
    + intros b x _ Hx. rewrite U by (apply F; congruence). eauto.
    + intros b w _ Hx. rewrite U by (apply F; congruence). eauto.
  - rewrite Forall_forall in *. intros f Hf. specialize (D f Hf). apply fok_lib with (lib := s_lib s) (nb := s_nb s); [|lia|intros b Hb; apply upd_ne; lia].
    apply fok_mem with (m := s_mem s); [exact D| |].
    + intros b x _ Hx. rewrite U by (apply F; congruence). eauto.
    + intros b Hb. apply U. unfold fok in D. rewrite Hb in D. tauto.
  - intros b Hb. destruct (Nat.eq_dec b (s_nb s)) as [->|N]; [lia|]. rewrite upd_ne in Hb by exact N. apply F in Hb. lia.
  - unfold fresh in *. cbn [s_ctx s_acts s_mem s_lib s_nb s_q s_tr]. destruct (s_acts s) as [|a r] eqn:Ea; [exact I|]. destruct (s_tr s) as [|[k o ac av it| |] h]; try exact I.
    intros Hk d b T O. rewrite U; [apply (G Hk d b T O)|]. cbn [wf] in C. rewrite O in C. tauto.
Qed.
Lemma inv_push s f : inv s -> fok (s_mem s) (s_lib s) (s_nb s) f ->
  (forall b, f_own f = Some b -> ~ In b (aown (s_acts s) ++ qown (s_q s))) ->
  inv (mkSt (s_ctx s) (s_acts s) (s_mem s) (s_lib s) (s_nb s) (s_q s ++ [f]) (s_tr s)).
Proof.
  intros [A B C D E F G] H N. split; cbn [s_ctx s_acts s_mem s_lib s_nb s_q s_tr]; auto.
  - apply Forall_app. auto.
  - unfold qown. rewrite flat_map_app. cbn [flat_map]. rewrite app_nil_r. destruct (f_own f) as [b|]; [|rewrite app_nil_r; exact E].
    rewrite app_assoc. apply (Permutation_NoDup (Permutation_cons_append _ b)). constructor; [apply N; reflexivity|exact E].
Qed.
Lemma nb_fresh s : inv s -> ~ In (s_nb s) (aown (s_acts s) ++ qown (s_q s)).
Proof.
  intros [A B C D E F G] X. apply in_app_or in X. destruct X as [X|X].
  - apply in_aown in X. destruct X as (t & X). apply (wf_bown _ _ _ _ _ _ C) in X. lia.
  - apply (in_qown _ _ _ _ _ D) in X. lia.
Qed.
Lemma inv_enter s kd l k items : inv s -> l = locof k -> small k -> refok k -> get (s_mem s) (k_buf k) (k_len k) <> None ->
  match own kd with
  | Some b => s_acts s = [] /\ k_buf k = Some (b, 0%nat) /\ s_lib s b = true /\ (b < s_nb s)%nat /\ ~ In b (qown (s_q s)) /\
              (forall d, k_tail k = Some d -> s_mem s b = Some (k_words k))
  | None => ptrok (s_lib s) (s_nb s) (bown (s_acts s)) (k_buf k)
  end -> tailok (s_mem s) k kd -> kindok k kd -> inv (enter kd l k items s).
Proof.
  intros [A B C D E F G] -> Sm R Gt O T P. unfold enter. split; cbn [s_ctx s_acts s_mem s_lib s_nb s_q s_tr map a_call running]; auto.
  - unfold ctxof, locof. cbn [l_done l_obj l_argc l_argv map]. f_equal. f_equal. rewrite A. unfold ctxof. destruct (map a_call (s_acts s)); reflexivity.
  - rewrite B. reflexivity.
  - cbn [wf a_prev a_loc a_kind a_call]. repeat (split; [assumption || reflexivity|]). split; [|auto].
    destruct (own kd) as [b|]; [|exact O]. destruct O as (-> & O1 & O2 & O3 & O4 & O5). auto.
  - unfold aown in *. destruct (own kd) as [b|] eqn:Eo.
    + destruct O as (Ea & O1 & O2 & O3 & O4 & O5). rewrite Ea in *. cbn [bown a_kind] in *. rewrite Eo. cbn in *. constructor; assumption.
    + destruct (s_acts s) as [|a r] eqn:Ea; [cbn [bown a_kind]; rewrite Eo; exact E|]. rewrite bown_tl by discriminate. exact E.
  - unfold fresh. cbn [s_ctx s_acts s_mem s_lib s_nb s_q s_tr a_kind]. intros _ d b Tk Ob. rewrite Ob in O. destruct O as (_ & _ & _ & _ & _ & O). apply (O d Tk).
Qed.
Lemma inv_pop s a rest items : inv s -> s_acts s = a :: rest ->
  inv (mkSt (a_prev a) rest (s_mem s) (s_lib s) (s_nb s) (s_q s) (EEnd (a_call a) items :: s_tr s)).
Proof.
  intros [A B C D E F G] Ha. rewrite Ha in *. cbn [wf] in C. destruct C as (C1 & C2 & C3 & C4 & C5 & C6 & C7 & C8 & C9).
  split; cbn [s_ctx s_acts s_mem s_lib s_nb s_q s_tr running]; auto.
  - rewrite B. reflexivity.
  - unfold aown in *. destruct rest as [|a' r]; [|rewrite bown_tl in E by discriminate; exact E]. cbn [bown] in *.
    destruct (own (a_kind a)); [|exact E]. cbn in *. inversion E. assumption.
  - unfold fresh. cbn. destruct rest; exact I.
Qed.
Lemma inv_emit s dq r d it : inv s -> inv (emit (EDone dq r d it) s).
Proof. intros [A B C D E F G]. split; cbn; auto. unfold fresh. cbn. destruct (s_acts s); exact I. Qed.
Lemma inv_free s o : inv s -> (forall b, o = Some b -> s_acts s = [] /\ s_lib s b = true /\ ~ In b (qown (s_q s))) -> inv (free o s).
Proof.
  intros V H. unfold free. destruct o as [b|]; [|exact V]. destruct (H b eq_refl) as (Ha & Hl & Hq). destruct V as [A B C D E F G].
  split; cbn [s_ctx s_acts s_mem s_lib s_nb s_q s_tr]; auto.
  - rewrite Ha. exact I.
  - rewrite Forall_forall in *. intros f Hf. apply fok_mem with (m := s_mem s); [apply D, Hf| |].
    + intros b' x [X _] Hx. rewrite upd_ne by congruence. eauto.
    + intros b' Ho. apply upd_ne. intros ->. apply Hq. eapply own_in; eassumption.
  - intros b' Hb. apply F. intros X. apply Hb. unfold upd. destruct (_ =? _)%nat; congruence.
  - unfold fresh. cbn. rewrite Ha. exact I.
Qed.

Lemma s64_u64 d : s64 (u64 d) = s64 d.
Proof. unfold s64, u64, wrap_signed. rewrite Z.mod_mod by lia. reflexivity. Qed.
Lemma get_some_len m b o n l : get m (Some (b, o)) n = Some l -> (0 < n)%nat -> exists w, m b = Some w /\ (o + n <= length w)%nat /\ l = firstn n (skipn o w).
Proof.
  unfold get. intros H N. destruct (Nat.eqb_spec n 0); [lia|]. destruct (m b) as [w|]; [|discriminate]. destruct (Nat.leb_spec (o + n) (length w)); [|discriminate].
  inversion H. eauto.
Qed.
Lemma get_whole m b l n : m b = Some l -> length l = n -> get m (Some (b, 0%nat)) n = Some l.
Proof.
  intros H <-. unfold get. rewrite H. destruct (Nat.eqb_spec (length l) 0) as [E|E]; [destruct l; [reflexivity|discriminate]|].
  cbn [Nat.add]. rewrite Nat.leb_refl. cbn [skipn]. rewrite firstn_all. reflexivity.
Qed.
Lemma get_len m p n l : get m p n = Some l -> length l = n.
Proof.
  unfold get. destruct (Nat.eqb_spec n 0) as [->|]; [intros H; inversion H; reflexivity|]. destruct p as [[b o]|]; [|discriminate].
  destruct (m b) as [w|]; [|discriminate]. destruct (Nat.leb_spec (o + n) (length w)); [|discriminate]. intros X; inversion X.
  rewrite firstn_length, skipn_length. lia.
Qed.
Lemma nth_error_firstn_lt {A} n : forall (l : list A) i, (i < n)%nat -> nth_error (firstn n l) i = nth_error l i.
Proof. induction n as [|n IH]; intros l i H; [lia|]. destruct l as [|x l]; [reflexivity|]. destruct i as [|i]; [reflexivity|]. cbn [firstn nth_error]. apply IH. lia. Qed.
Lemma nth_error_skip {A} n : forall (l : list A) i, nth_error (skipn n l) i = nth_error l (n + i).
Proof. induction n as [|n IH]; intros l i; [reflexivity|]. destruct l as [|x l]; [destruct i; reflexivity|]. apply IH. Qed.
Lemma put_len m b o v w : m b = Some w -> (o < length w)%nat -> exists w', put m b o v b = Some w' /\ length w' = length w /\ (forall i, i <> o -> nth_error w' i = nth_error w i) /\ nth_error w' o = Some v.
Proof.
  intros H L. unfold put. rewrite H, upd_eq. eexists. split; [reflexivity|].
  assert (X : length (firstn o w) = o) by (rewrite firstn_length; lia). split.
  - rewrite app_length, X. cbn [length]. rewrite skipn_length. lia.
  - split.
    + intros i Hi. destruct (Nat.lt_ge_cases i o).
      * rewrite nth_error_app1 by lia. rewrite nth_error_firstn_lt by lia. reflexivity.
      * rewrite nth_error_app2 by lia. rewrite X. replace (i - o)%nat with (S (i - S o))%nat by lia. cbn [nth_error]. rewrite nth_error_skip. f_equal. lia.
    + rewrite nth_error_app2, X by lia. rewrite Nat.sub_diag. reflexivity.
Qed.
Lemma put_other m b o v b' : b' <> b -> put m b o v b' = m b'.
Proof. intros N. unfold put. destruct (m b); [apply upd_ne, N|reflexivity]. Qed.

Lemma resolve_ok k alive : refok (with_obj k (resolve (k_ref k) alive)).
Proof. unfold refok, with_obj, resolve. cbn. destruct (id_invalid (k_ref k)) eqn:E; [reflexivity|destruct alive; [reflexivity|exact I]]. Qed.
Lemma inv_write s a rest b o i v : inv s -> s_acts s = a :: rest -> k_tail (a_call a) = None -> l_argv (a_loc a) = Some (b, o) -> (i < k_len (a_call a))%nat ->
  inv (mkSt (s_ctx s) (s_acts s) (put (s_mem s) b (o + i) v) (s_lib s) (s_nb s) (s_q s) (s_tr s)).
Proof.
  intros [A B C D E F G] Ha Ht Hp Hi. pose proof C as W. rewrite Ha in C. cbn [wf] in C. destruct C as (C1 & C2 & C3 & C4 & C5 & C6 & C7 & C8 & C9).
  rewrite C2 in Hp. cbn [locof l_argv] in Hp. rewrite Hp in *.
  destruct (get (s_mem s) (Some (b, o)) (k_len (a_call a))) as [it|] eqn:Eg; [|congruence]. apply get_some_len in Eg; [|lia]. destruct Eg as (w & Hw & Lw & _).
  destruct (put_len (s_mem s) b (o + i) v w Hw) as (w' & Pw & Lw' & Nw & _); [lia|].
  (* the block is not one of the queue's *)
  assert (Nq : ~ In b (qown (s_q s))).
  { intros X. destruct (own (a_kind a)) as [b'|] eqn:Eo.
    - destruct C6 as (-> & Y & _). inversion Y; subst b'. unfold aown in E. rewrite Ha in E. cbn [bown] in E. rewrite Eo in E. cbn in E. inversion E. contradiction.
    - destruct C6 as [[Y _]|(t & Y & _)].
      + apply (in_qown _ _ _ _ _ D) in X. destruct X. congruence.
      + unfold aown in E. rewrite Ha in E. rewrite bown_tl in E by (destruct rest; [discriminate|congruence]). rewrite Y in E. cbn in E. inversion E. contradiction. }
  split; cbn [s_ctx s_acts s_mem s_lib s_nb s_q s_tr]; auto.
  - apply wf_mem with (m := s_mem s); [exact W| |].
    + intros b' x _ Hx. destruct (Nat.eq_dec b' b) as [->|N]; [exists w'; split; [exact Pw|congruence]|rewrite put_other by exact N; eauto].
    + intros b' x Hb Hx. destruct (Nat.eq_dec b' b) as [->|N]; [|rewrite put_other by exact N; eauto].
      exists w'. split; [exact Pw|]. assert (x = w) by congruence. subst x. split; [exact Lw'|]. apply Nw.
      (* the offset is at least 4 *)
      rewrite Ha in Hb. destruct (own (a_kind a)) as [b'|] eqn:Eo.
      * destruct C6 as (-> & _). cbn [bown] in Hb. rewrite Eo in Hb. inversion Hb as [[X1 X2]]. unfold istail in X2. rewrite Ht in X2. discriminate.
      * destruct rest as [|a' r]; [cbn [bown] in Hb; rewrite Eo in Hb; discriminate|]. rewrite bown_tl in Hb by discriminate.
        destruct C6 as [[Y _]|(t & Y & Z4)].
        -- assert (X := wf_bown _ _ _ _ _ _ C9 Hb). destruct X. congruence.
        -- assert (t = true) by congruence. subst t. specialize (Z4 eq_refl). lia.
  - rewrite Forall_forall in *. intros f Hf. apply fok_mem with (m := s_mem s); [apply D, Hf| |].
    + intros b' x _ Hx. destruct (Nat.eq_dec b' b) as [->|N]; [exists w'; split; [exact Pw|congruence]|rewrite put_other by exact N; eauto].
    + intros b' Ho. apply put_other. intros ->. apply Nq. eapply own_in; eassumption.
  - intros b' Hb. apply F. destruct (Nat.eq_dec b' b) as [->|N]; [congruence|]. rewrite put_other in Hb by exact N. exact Hb.
  - unfold fresh in *. cbn [s_ctx s_acts s_mem s_lib s_nb s_q s_tr]. rewrite Ha in *. destruct (s_tr s) as [|[k o' ac av x| |] h]; try exact I.
    intros -> d b' T. congruence.
Qed.
Lemma inv_uwrite s b l l' : inv s -> s_lib s b = false -> s_mem s b = Some l -> length l' = length l ->
  inv (mkSt (s_ctx s) (s_acts s) (upd (s_mem s) b (Some l')) (s_lib s) (s_nb s) (s_q s) (s_tr s)).
Proof.
  intros [A B C D E F G] Hl Hm Hn. split; cbn [s_ctx s_acts s_mem s_lib s_nb s_q s_tr]; auto.
  - apply wf_mem with (m := s_mem s); [exact C| |].
    + intros b' x _ Hx. destruct (Nat.eq_dec b' b) as [->|N]; [rewrite upd_eq; eexists; split; [reflexivity|congruence]|rewrite upd_ne by exact N; eauto].
    + intros b' x Hb Hx. apply (wf_bown _ _ _ _ _ _ C) in Hb. rewrite upd_ne by (destruct Hb; congruence). eauto.
  - rewrite Forall_forall in *. intros f Hf. specialize (D f Hf). apply fok_mem with (m := s_mem s); [exact D| |].
    + intros b' x _ Hx. destruct (Nat.eq_dec b' b) as [->|N]; [rewrite upd_eq; eexists; split; [reflexivity|congruence]|rewrite upd_ne by exact N; eauto].
    + intros b' Ho. apply upd_ne. unfold fok in D. rewrite Ho in D. destruct D as (_ & _ & _ & _ & _ & _ & _ & _ & X & _). congruence.
  - intros b' Hb. apply F. destruct (Nat.eq_dec b' b) as [->|N]; [congruence|]. rewrite upd_ne in Hb by exact N. exact Hb.
  - unfold fresh in *. cbn [s_ctx s_acts s_mem s_lib s_nb s_q s_tr]. destruct (s_acts s) as [|a r] eqn:Ea; [exact I|]. destruct (s_tr s) as [|[k o' ac av x| |] h]; try exact I.
    intros Hk d b' T O. rewrite upd_ne; [apply (G Hk d b' T O)|]. cbn [wf] in C. rewrite O in C. destruct C as (_ & _ & _ & _ & _ & (_ & _ & X & _) & _). congruence.
Qed.
Lemma inv_leave s a rest dal items : inv s -> s_acts s = a :: rest -> inv (leave dal items a rest s).
Proof.
  intros V Ha. pose proof (inv_pop s a rest items V Ha) as V1. destruct V as [A B C D E F G]. rewrite Ha in C. cbn [wf] in C.
  destruct C as (C1 & C2 & C3 & C4 & C5 & C6 & C7 & C8 & C9).
  assert (Fr : forall o b, own (a_kind a) = o -> o = Some b -> rest = [] /\ s_lib s b = true /\ ~ In b (qown (s_q s))).
  { intros o b <- Ho. rewrite Ho in C6. destruct C6 as (-> & _ & X & _). repeat split; auto. intros Y. unfold aown in E. rewrite Ha in E. cbn [bown] in E. rewrite Ho in E.
    cbn in E. inversion E. contradiction. }
  unfold leave. cbv zeta.
  assert (En : forall own', own (a_kind a) = own' -> (negb (id_invalid (l_done (a_loc a))) && negb (is_free (l_obj (a_loc a))) = true) ->
     inv (enter (KFinal own') (mkLoc MPQ_INVALID (l_ref (a_loc a)) RFree (l_argc (a_loc a)) (l_argv (a_loc a))) (rerun_of (a_call a)) items
       (mkSt (a_prev a) rest (s_mem s) (s_lib s) (s_nb s) (s_q s) (EEnd (a_call a) items :: s_tr s)))).
  { intros own' Eo Ow. assert (Nt : k_tail (a_call a) = None).
    { destruct (k_tail (a_call a)) as [d|] eqn:Et; [|reflexivity]. unfold tailok in C7. rewrite Et in C7. destruct C7 as (_ & X & _). rewrite C2 in Ow. cbn [locof l_done] in Ow.
      rewrite X in Ow. discriminate. }
    apply inv_enter; cbn [own s_mem s_lib s_nb s_acts s_q rerun_of k_buf k_len k_tail]; auto.
    - rewrite C2. reflexivity.
    - exact I.
    - destruct own' as [b|].
      + destruct (Fr (Some b) b Eo eq_refl) as (R1 & R2 & R3). rewrite Eo in C6. destruct C6 as (_ & C6 & _ & C6'). repeat split; auto. rewrite Nt. discriminate.
      + rewrite Eo in C6. exact C6.
    - unfold tailok. cbn [rerun_of k_tail]. rewrite Nt. exact I.
    - reflexivity. }
  destruct (a_kind a) as [o|o|] eqn:Ek; cbn [own] in *.
  - destruct (negb (id_invalid (l_done (a_loc a))) && negb (is_free (l_obj (a_loc a)))) eqn:Ow; [destruct dal|].
    + apply inv_free; [apply inv_emit, V1|]. intros b Hb. apply (Fr o b eq_refl Hb).
    + apply (En o eq_refl eq_refl).
    + apply inv_free; [exact V1|]. intros b Hb. apply (Fr o b eq_refl Hb).
  - apply inv_free; [exact V1|]. intros b Hb. apply (Fr o b eq_refl Hb).
  - destruct (negb (id_invalid (l_done (a_loc a))) && negb (is_free (l_obj (a_loc a)))) eqn:Ow; [destruct dal|].
    + apply inv_emit, V1.
    + apply (En None eq_refl eq_refl).
    + exact V1.
Qed.
Lemma inv_step s s' : inv s -> step s s' -> inv s'.
Proof.
  intros V H. destruct H as [s l|s b l l' H1 H2 H3|s dq ref data p n items H1 H2|s dq ref p n items cnt name f H0 H1 H2|s ref data p n items H1 H2 H3
    |s f q' alive items H1 H2 H3|s ref data p n alive items H1 H2 H3 H4|s a rest d b o w items x1 x2 x3 x4 tr' H1 H0 H2 H3 H4 H5|s a rest b o i v H1 H2 H3 H4|s a rest dal items H1 H2].
  - apply inv_alloc, V.
  - eapply inv_uwrite; eassumption.
  - cbv zeta. refine (inv_push _ _ (inv_alloc s items true V) _ _).
    + unfold fok. cbn. apply fits_small in H1. repeat (split; [reflexivity|]). split; [unfold small; cbn; destruct data; lia|]. rewrite !upd_eq. rewrite (get_len _ _ _ _ H2). repeat split; auto.
    + cbn. intros b Hb. inversion Hb; subst. apply nb_fresh, V.
  - cbv zeta. refine (inv_push _ _ (inv_alloc s _ true V) _ _).
    + apply fits_small in H1. pose proof (get_len _ _ _ _ H2) as L. unfold fok. cbn [f_call f_done f_ref f_argc f_argv f_own k_done k_ref k_data k_len k_buf k_rerun k_own k_tail k_words s_mem s_lib s_nb]. rewrite !upd_eq.
      repeat (split; [reflexivity|]). split; [unfold small; cbn [k_data k_len]; lia|]. repeat (split; [reflexivity || lia|]). split; [cbn [length]; lia|]. repeat split; auto. lia.
    + cbn. intros b Hb. inversion Hb; subst. apply nb_fresh, V.
  - cbv zeta. apply inv_push; [exact V| |discriminate]. apply fits_small in H1. unfold fok. cbn. repeat (split; [reflexivity|]). split; [unfold small; cbn; destruct data; lia|].
    repeat (split; [reflexivity|]). split; [|congruence]. unfold user_ptr, ptrok in *. destruct p as [[b o]|]; auto.
  - pose proof V as [A B C D E F G]. rewrite H2 in D. inversion D as [|f0 q0 Df Dq]; subst f0 q0. unfold fok in Df. destruct Df as (D1 & D2 & D3 & D4 & D5 & D6 & D7).
    assert (V1 : inv (mkSt (s_ctx s) (s_acts s) (s_mem s) (s_lib s) (s_nb s) q' (s_tr s))).
    { split; cbn [s_ctx s_acts s_mem s_lib s_nb s_q s_tr]; auto. rewrite H2 in E. rewrite H1 in *. cbn in *. destruct (f_own f); cbn in E; [inversion E|]; assumption. }
    apply inv_enter; cbn [s_mem s_lib s_nb s_acts s_q with_obj k_buf k_len k_tail k_words]; auto.
    + rewrite D1, D2, D3, D4. reflexivity.
    + rewrite D2. apply resolve_ok.
    + rewrite <- D4. congruence.
    + cbn [own]. destruct (f_own f) as [b|] eqn:Ef.
      * destruct D7 as (Q1 & Q2 & Q3 & Q4 & Q5 & Q6 & Q7). repeat (split; [assumption|]). split; [|auto]. rewrite H2, H1 in E. cbn in E. rewrite Ef in E. cbn in E. inversion E. assumption.
      * destruct D7 as (_ & _ & Q & _). rewrite H1. exact Q.
    + unfold tailok. cbn [with_obj k_tail k_done k_data k_len own]. destruct (k_tail (f_call f)) as [d|]; [|exact I]. destruct (f_own f) as [b|]; [|destruct D7 as (_ & X & _); discriminate].
      destruct D7 as (Q1 & Q2 & Q3 & Q4 & Q5 & Q6 & Q7 & Q8 & Q9 & Q10 & Q11). repeat (split; [assumption|]). exists b, (k_words (f_call f)). auto.
    + exact I.
  - apply inv_enter; cbn [own k_buf k_len k_tail k_words k_data]; auto.
    + apply fits_small in H1. unfold small. cbn. destruct data; lia.
    + apply (resolve_ok (mkCall MPQ_INVALID ref RNull data n p items false false None) alive).
    + congruence.
    + unfold passable, user_ptr in H3. destruct p as [[b o]|]; [|exact I]. destruct H3 as [H3|H3]; [left; exact H3|].
      destruct (s_acts s) as [|a r] eqn:Ea; [destruct H3|]. pose proof (i_wf _ V) as W. rewrite Ea in W. cbn [wf] in W. destruct W as (_ & _ & _ & _ & _ & C6 & C7 & _ & C9).
      destruct (k_buf (a_call a)) as [[b' o']|]; [|destruct H3]. destruct H3 as [-> Ho]. unfold not_marker in H4. rewrite Ea in H4. destruct (own (a_kind a)) as [b''|] eqn:Eo.
      * destruct C6 as (-> & X & _). inversion X; subst. right. exists false. cbn [bown]. rewrite Eo. unfold istail. rewrite H4. split; [reflexivity|discriminate].
      * destruct C6 as [C6|(t & C6 & Z4)]; [left; exact C6|]. right. exists t. rewrite bown_tl by (destruct r; [discriminate|congruence]). split; [exact C6|]. intros T. specialize (Z4 T). lia.
    + exact I.
    + exact I.
  - pose proof (i_wf _ V) as W. rewrite H1 in W. cbn [wf] in W. destruct W as (_ & C2 & C3 & C4 & C5 & C6 & C7 & _ & _).
    unfold tailok in C7. rewrite H2 in C7. destruct C7 as (T1 & T2 & T3 & T4 & b' & w' & T5 & T6 & T7 & T8). rewrite T5 in C6. destruct C6 as (-> & X & L1 & L2).
    rewrite C2 in *. cbn [locof l_argv l_argc l_ref l_obj l_done] in *. rewrite X in H3. inversion H3; subst b' o. assert (w' = w) by congruence. subst w'.
    unfold small in C3. rewrite T3 in *.
    apply inv_enter; cbn [own k_buf k_len k_tail k_words k_data s_acts]; auto.
    + unfold locof. cbn [k_done k_ref k_obj k_data k_len k_buf]. f_equal.
      * cbn [Nat.add]. erewrite nth_error_nth by exact T7. rewrite s64_u64. exact T1.
      * destruct (dec_enc false (k_len (a_call a)) C3) as [-> _]. rewrite enc_argv. unfold u64. rewrite Z.mod_small by lia. lia.
    + unfold small. cbn. lia.
    + congruence.
    + right. exists true. rewrite H1. cbn [bown]. rewrite T5. unfold istail. rewrite H2. split; [reflexivity|]. intros _. cbn. lia.
    + exact I.
    + reflexivity.
  - eapply inv_write; eassumption.
  - apply inv_leave; assumption.
Qed.
Lemma inv_init : inv init.
Proof. split; cbn; auto; try constructor. intros b H. congruence. Qed.
Lemma inv_reach s : reach s -> inv s.
Proof. induction 1 as [|s s' R IH H]; [exact inv_init|eapply inv_step; eassumption]. Qed.
