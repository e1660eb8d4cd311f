(** * C33: packets from a stream and datagrams; C50: listening sockets *)
From Verif Require Import Base Iofdr.
Ltac Zify.zify_post_hook ::= Z.div_mod_to_equations.

(** ** Specification *)
(** How a checker cuts a sequence of bytes into packets: at each point it sees all the bytes that follow and names the length of the first packet, asks for more, or finds an error. *)
Inductive fstat := Wait (r : list Z) | Bad (e : Z).
Inductive framing (chk : list Z -> Z) : list Z -> list (list Z) -> fstat -> Prop :=
| F_none : framing chk [] [] (Wait [])
| F_wait r : r <> [] -> chk r = 0 -> framing chk r [] (Wait r)
| F_bad r : r <> [] -> chk r < 0 -> framing chk r [] (Bad (chk r))
| F_over r : r <> [] -> Z.of_nat (length r) < chk r -> framing chk r [] (Bad (- AOSL_EINVAL))
| F_pkt p r ps st : p <> [] -> chk (p ++ r) = Z.of_nat (length p) -> framing chk r ps st -> framing chk (p ++ r) (p :: ps) st.
(** A checker of a packet format: it does not name more than it sees, and further bytes do not change what it found. *)
Definition sound_chk (chk : list Z -> Z) : Prop := forall l, l <> [] -> chk l <= Z.of_nat (length l) /\ (chk l <> 0 -> forall l', chk (l ++ l') = chk l).
(** The packets passed to the data callback (a callback with 0 bytes tells the end of the stream). *)
Definition packets (s : rst) : list (list Z) := filter (fun p => negb (length p =? 0)%nat) (map fst (out s)).
Definition delivered (s : rst) : list Z := concat (map fst (out s)).

(** ** The buffer *)
Definition geom (E : env) (s : rst) : Prop := length (mem s) = bufsize E /\ (rd s <= tl s <= bufsize E)%nat.
Lemma data_length E s : geom E s -> length (data s) = (tl s - rd s)%nat.
Proof. intros [L R]. unfold data. rewrite firstn_length, skipn_length. lia. Qed.
Lemma skipn_skipn {A} k o (l : list A) : skipn k (skipn o l) = skipn (o + k) l.
Proof. revert l. induction o; intros l; [reflexivity|]. destruct l; [rewrite !skipn_nil; reflexivity|]. cbn [skipn Nat.add]. apply IHo. Qed.
Lemma data_advance E s n : geom E s -> (n <= tl s - rd s)%nat -> data (advance s n) = skipn n (data s) /\ geom E (advance s n).
Proof. intros [L R] B. split; [|split; cbn; [exact L|lia]]. unfold data, advance. cbn [rd tl mem]. rewrite skipn_firstn_comm, skipn_skipn. f_equal. lia. Qed.
Lemma move_spec E s : geom E s -> data (move E s) = data s /\ geom E (move E s) /\ extra (move E s) = extra s /\ rr0 (move E s) = rr0 s /\ armed (move E s) = armed s /\ rclosed (move E s) = rclosed s /\ out (move E s) = out s /\ evs (move E s) = evs s /\ src (move E s) = src s /\ asked (move E s) = asked s.
Proof.
  intros G. unfold move. destruct (better_move E s); [|repeat split; auto; apply G]. pose proof (data_length E s G) as DL. destruct G as [L R].
  split; [unfold data at 1; cbn [rd tl mem skipn]; rewrite Nat.sub_0_r, firstn_app, DL, Nat.sub_diag, <- DL, firstn_all; cbn [firstn]; apply app_nil_r|]. split; [split; cbn [mem rd tl]; [rewrite app_length, skipn_length; lia|lia]|]. repeat split.
Qed.
Lemma store_spec E s bs x sr a : geom E s -> (length bs <= bufsize E - tl s)%nat -> data (store s bs x sr a) = data s ++ bs /\ geom E (store s bs x sr a).
Proof.
  intros [L R] B. split.
  - unfold data, store. cbn [rd tl mem]. rewrite skipn_app. rewrite firstn_length, L. replace (rd s - Nat.min (tl s) (bufsize E))%nat with 0%nat by lia. rewrite skipn_O. rewrite skipn_firstn_comm. rewrite app_assoc. rewrite firstn_app. rewrite firstn_all2; [|rewrite app_length, firstn_length, skipn_length; lia]. replace (tl s + length bs - rd s - length (firstn (tl s - rd s) (skipn (rd s) (mem s)) ++ bs))%nat with 0%nat by (rewrite app_length, firstn_length, skipn_length; lia). cbn [firstn]. apply app_nil_r.
  - split; cbn [store mem rd tl]; [|lia]. rewrite !app_length, firstn_length, skipn_length. lia.
Qed.
(** What stays the same while packets are taken from the buffer. *)
Definition same (s s' : rst) : Prop := src s' = src s /\ asked s' = asked s /\ armed s' = armed s /\ extra s' = extra s.
Lemma same_refl s : same s s. Proof. repeat split. Qed.
Lemma same_trans a b c : same a b -> same b c -> same a c. Proof. unfold same. intuition congruence. Qed.

(** ** Any callbacks *)
Definition took (s s' : rst) (ps : list (list Z)) : Prop :=
  map fst (out s') = map fst (out s) ++ ps /\ (rclosed s' = false -> concat ps ++ data s' = data s) /\ exists r, concat ps ++ r = data s.
Lemma took_nil s s' : out s' = out s -> data s' = data s -> took s s' [].
Proof. intros O D. split; [rewrite O, app_nil_r; reflexivity|]. split; [intros _; exact D|exists (data s); reflexivity]. Qed.
Lemma took_trans a b c p q : rclosed b = false -> took a b p -> took b c q -> took a c (p ++ q).
Proof.
  intros B (O1 & D1 & _) (O2 & D2 & r & R2). split; [rewrite O2, O1, app_assoc; reflexivity|]. specialize (D1 B). split; [intros C; rewrite concat_app, <- app_assoc, (D2 C); exact D1|exists r; rewrite concat_app, <- app_assoc, R2; exact D1].
Qed.
Lemma data_cb E s : data (cb E s) = data s. Proof. reflexivity. Qed.
Lemma geom_cb E s : geom E s -> geom E (cb E s). Proof. exact (fun H => H). Qed.

Lemma deliver_spec E s err : geom E s -> rclosed s = false -> 0 <= err <= Z.of_nat (tl s - rd s) -> (e_chk E = None -> err = Z.of_nat (tl s - rd s)) -> forall s' h, deliver E s err = (s', h) ->
  geom E s' /\ same s s' /\ evs s' = evs s /\ (exists ps, took s s' ps) /\ (h = Again -> rclosed s' = false /\ (tl s' - rd s' < tl s - rd s)%nat /\ 0 < err) /\
  (h = GoRead -> rclosed s' = false /\ (e_chk E = None -> data s' = [] /\ rr0 s' = false) /\ (e_chk E <> None -> rr0 s' = false /\ err = 0 /\ data s' = data s)) /\
  (forall z, h = Ret z -> rclosed s' = true \/ e_chk E <> None /\ rr0 s' = true) /\ (rr0 s = false -> rr0 s' = false) /\ (h = Again -> rr0 s' = false).
Proof.
  intros G C RG DG s' h EQ. pose proof (data_length E s G) as DL. unfold deliver in EQ. destruct ((0 <? err) || rr0 s) eqn:B.
  - set (s1 := cb E (add_out s (firstn (Z.to_nat err) (data s)))) in *. set (p := firstn (Z.to_nat err) (data s)) in *.
    assert (O1 : map fst (out s1) = map fst (out s) ++ [p]) by (unfold s1; cbn; rewrite map_app; reflexivity).
    assert (PD : concat [p] ++ skipn (Z.to_nat err) (data s) = data s) by (cbn; rewrite app_nil_r; apply firstn_skipn).
    assert (G1 : geom E s1) by exact G.
    destruct (rclosed s1) eqn:C1.
    + assert (s' = s1 /\ h = Ret 0) as [-> ->] by (split; congruence). repeat split; try discriminate; try apply G; auto.
      exists [p]. split; [exact O1|]. split; [congruence|]. exists (skipn (Z.to_nat err) (data s)). exact PD.
    + destruct (data_advance E s1 (Z.to_nat err) G1) as [DA GA]; [cbn; lia|]. change (data s1) with (data s) in DA. set (s2 := advance s1 (Z.to_nat err)) in *.
      assert (T2 : forall s3, out s3 = out s2 -> data s3 = data s2 -> took s s3 [p]) by (intros s3 O3 D3; split; [rewrite O3; exact O1|]; split; [intros _; rewrite D3, DA; exact PD|exists (skipn (Z.to_nat err) (data s)); exact PD]).
      assert (R2 : rr0 s2 = rr0 s) by reflexivity. rewrite R2 in EQ. destruct (rr0 s) eqn:RR.
      * destruct (e_chk E) as [f|] eqn:EC.
        -- assert (s' = s2 /\ h = Ret 0) as [-> ->] by (split; congruence). repeat split; try discriminate; try apply GA; auto. exists [p]. apply T2; reflexivity. intros z _. right. split; [discriminate|exact R2].
        -- assert (s' = set_rr0 s2 false /\ h = GoRead) as [-> ->] by (split; congruence). repeat split; try discriminate; try apply GA; auto; try congruence.
           ++ exists [p]. apply T2; reflexivity.
           ++ change (data (set_rr0 s2 false)) with (data s2). rewrite DA. apply length_zero_iff_nil. rewrite skipn_length. specialize (DG eq_refl). lia.
      * destruct (Z.eqb_spec err 0) as [Z0|NZ]; [subst err; cbn in B; discriminate|].
        assert (s' = s2 /\ h = Again) as [-> ->] by (split; congruence). split; [exact GA|]. split; [exact (same_refl s)|]. split; [reflexivity|]. split; [exists [p]; apply T2; reflexivity|]. split; [intros _; split; [exact C1|cbn; lia]|]. split; [discriminate|]. split; [discriminate|]. split; auto.
  - apply orb_false_iff in B as [B1 B2]. apply Z.ltb_ge in B1. assert (err = 0) by lia. subst err. rewrite B2 in EQ. cbn [Z.eqb] in EQ. assert (s' = s /\ h = GoRead) as [-> ->] by (split; congruence).
    split; [exact G|]. split; [apply same_refl|]. split; [reflexivity|]. split; [exists []; apply took_nil; reflexivity|]. split; [discriminate|]. split; [intros _; split; [exact C|]; split; [intros N; split; [apply length_zero_iff_nil; specialize (DG N); lia|exact B2]|auto]|]. split; [discriminate|]. split; auto.
Qed.
Definition wants (E : env) (d : list Z) : Prop := match e_chk E with None => d = [] | Some f => d = [] \/ exists k, f k d = 0 end.
Lemma one_spec E s : geom E s -> rclosed s = false -> forall s' h, one E s = (s', h) ->
  geom E s' /\ same s s' /\ (exists ps, took s s' ps) /\ (h = Again -> rclosed s' = false /\ (tl s' - rd s' < tl s - rd s)%nat) /\
  (h = GoRead -> rclosed s' = false /\ wants E (data s') /\ rr0 s' = false) /\ (forall z, h = Ret z -> rclosed s' = true \/ e_chk E <> None /\ rr0 s' = true) /\ (rr0 s = false -> rr0 s' = false) /\ (h = Again -> rr0 s' = false).
Proof.
  intros G C s' h EQ. pose proof (data_length E s G) as DL. unfold one in EQ. destruct (e_chk E) as [f|] eqn:EC.
  - destruct (Z.ltb_spec 0 (Z.of_nat (tl s - rd s))) as [P|P].
    + set (err := f (cbs s) (data s)) in *. set (s1 := cb E s) in *. destruct (rclosed s1) eqn:C1.
      * assert (s' = s1 /\ h = Ret 0) as [-> ->] by (split; congruence). split; [exact G|]. split; [exact (same_refl s)|]. split; [exists []; apply took_nil; reflexivity|]. split; [discriminate|]. split; [discriminate|]. split; [auto|]. split; [auto|discriminate].
      * destruct ((err <? 0) || (Z.of_nat (tl s - rd s) <? err)) eqn:B.
        -- set (e := if err <? 0 then err else - AOSL_EINVAL) in *. assert (s' = event_close E s1 e) by congruence. assert (exists z, h = Ret z) as [z ->] by (eexists; symmetry; apply (f_equal snd EQ)). subst s'. split; [exact G|]. split; [exact (same_refl s)|]. split; [exists []; apply took_nil; reflexivity|]. split; [discriminate|]. split; [discriminate|]. split; [auto|]. split; [auto|discriminate].
        -- apply orb_false_iff in B as [B1 B2]. apply Z.ltb_ge in B1, B2. destruct (deliver_spec E s1 err G C1) with (s' := s') (h := h) as (H1 & H2 & _ & (ps & H3) & H4 & H5 & H6 & H7 & H8); [cbn; lia|congruence|exact EQ|].
           split; [exact H1|]. split; [exact H2|]. split; [exists ps; exact H3|]. split; [intros X; destruct (H4 X) as (? & ? & _); auto|]. split; [|split; [intros z X; destruct (H6 z X) as [|[_ ?]]; [auto|right; split; [discriminate|assumption]]|split; assumption]]. intros X. destruct (H5 X) as (X1 & _ & X3). split; [exact X1|]. destruct X3 as (X3 & X4 & X5); [congruence|]. split; [|exact X3]. unfold wants. rewrite EC. right. exists (cbs s). rewrite X5. exact X4.
    + assert (Z.of_nat (tl s - rd s) = 0) as LZ by lia. rewrite LZ in *. destruct (deliver_spec E s 0 G C) with (s' := s') (h := h) as (H1 & H2 & _ & (ps & H3) & H4 & H5 & H6 & H7 & H8); [lia|congruence|exact EQ|].
      split; [exact H1|]. split; [exact H2|]. split; [exists ps; exact H3|]. split; [intros X; destruct (H4 X) as (? & ? & _); auto|]. split; [|split; [intros z X; destruct (H6 z X) as [|[_ ?]]; [auto|right; split; [discriminate|assumption]]|split; assumption]]. intros X. destruct (H5 X) as (X1 & _ & X3). split; [exact X1|]. destruct X3 as (X3 & X4 & X5); [congruence|]. split; [|exact X3]. unfold wants. rewrite EC. left. rewrite X5. apply length_zero_iff_nil. lia.
  - destruct (deliver_spec E s (Z.of_nat (tl s - rd s)) G C ltac:(lia) ltac:(auto) s' h EQ) as (H1 & H2 & _ & (ps & H3) & H4 & H5 & H6 & H7 & H8).
    split; [exact H1|]. split; [exact H2|]. split; [exists ps; exact H3|]. split; [intros X; destruct (H4 X) as (? & ? & _); auto|]. split; [|split; [intros z X; destruct (H6 z X) as [|[N _]]; [auto|congruence]|split; assumption]]. intros X. destruct (H5 X) as (X1 & X2 & _). destruct (X2 EC) as [X3 X4]. split; [exact X1|]. split; [|exact X4]. unfold wants. rewrite EC. exact X3.
Qed.
Lemma inner_spec fuel : forall E s, geom E s -> rclosed s = false -> (tl s - rd s < fuel)%nat -> forall s' o, inner fuel E s = (s', o) ->
  geom E s' /\ same s s' /\ (exists ps, took s s' ps) /\ (o = None -> rclosed s' = false /\ wants E (data s') /\ rr0 s' = false) /\ (forall z, o = Some z -> rclosed s' = true \/ e_chk E <> None /\ rr0 s' = true) /\ (rr0 s = false -> rr0 s' = false).
Proof.
  induction fuel as [|k IH]; intros E s G C L s' o EQ; [lia|]. cbn [inner] in EQ. destruct (one E s) as [s1 h] eqn:ON. destruct (one_spec E s G C s1 h ON) as (H1 & H2 & (ps & H3) & H4 & H5 & H6 & H7 & H8). destruct h as [| |z].
  - destruct (H4 eq_refl) as [C1 L1]. destruct (IH E s1 H1 C1 ltac:(lia) s' o EQ) as (I1 & I2 & (qs & I3) & I4 & I5 & I6). split; [exact I1|]. split; [exact (same_trans _ _ _ H2 I2)|]. split; [exists (ps ++ qs); exact (took_trans _ _ _ _ _ C1 H3 I3)|]. split; [exact I4|]. split; [exact I5|auto].
  - assert (s' = s1 /\ o = None) as [-> ->] by (split; congruence). split; [exact H1|]. split; [exact H2|]. split; [exists ps; exact H3|]. split; [intros _; exact (H5 eq_refl)|]. split; [discriminate|exact H7].
  - assert (s' = s1 /\ o = Some z) as [-> ->] by (split; congruence). split; [exact H1|]. split; [exact H2|]. split; [exists ps; exact H3|]. split; [discriminate|]. split; [intros z' _; exact (H6 z eq_refl)|exact H7].
Qed.

(** One call of the reading function, step by step: [P] holds before each emptying of the buffer. *)
Definition no_msg (r : rres) : Prop := match r with RMsg _ _ => False | _ => True end.
Definition accounted (w : list Z) (s : rst) : Prop := (rclosed s = false -> delivered s ++ data s ++ src s = w) /\ exists r, delivered s ++ r = w.
Lemma delivered_took s s' ps : took s s' ps -> delivered s' = delivered s ++ concat ps.
Proof. intros (O & _). unfold delivered. rewrite O, concat_app. reflexivity. Qed.
Lemma accounted_took w s s' ps : rclosed s = false -> accounted w s -> took s s' ps -> src s' = src s -> accounted w s'.
Proof.
  intros C (A & _) T SR. specialize (A C). pose proof (delivered_took _ _ _ T) as D. destruct T as (_ & T2 & r & T3). split.
  - intros C'. rewrite D, SR, <- app_assoc. rewrite <- A. f_equal. rewrite app_assoc. f_equal. exact (T2 C').
  - exists (r ++ src s). rewrite D, <- app_assoc, <- A. f_equal. rewrite app_assoc. f_equal. exact T3.
Qed.
Definition arm_ok (E : env) (s : rst) : Prop := rclosed s = false -> armed s = true \/ e_chk E <> None /\ rr0 s = true.
Lemma read_spec script : forall E w s, Forall no_msg script -> geom E s -> rclosed s = false -> accounted w s -> let s' := fst (read_data E s script) in geom E s' /\ accounted w s' /\ arm_ok E s'.
Proof.
  induction script as [|r script IH]; intros E w s NM G C A s'; unfold s'; cbn [read_data]; destruct (inner (S (S (tl s - rd s))) E s) as [s1 o] eqn:IN; destruct (inner_spec (S (S (tl s - rd s))) E s G C ltac:(lia) s1 o IN) as (G1 & S1 & (ps & T1) & N1 & Z1 & _); assert (A1 : accounted w s1) by (apply (accounted_took w s s1 ps C A T1); apply S1).
  all: destruct o as [z|]; [cbn [fst]; split; [exact G1|]; split; [exact A1|]; intros C1; destruct (Z1 z eq_refl) as [|X]; [congruence|right; exact X]|].
  all: destruct (N1 eq_refl) as (C1 & W1 & R1); destruct (move_spec E s1 G1) as (MD & MG & _ & MR & _ & MC & MO & _ & MS & _); set (s2 := move E s1) in *; set (space := (bufsize E - tl s2)%nat) in *.
  all: assert (A2 : accounted w s2) by (unfold accounted, delivered in *; rewrite MD, MC, MO, MS; exact A1).
  all: assert (NO : geom E (nothing s2 space) /\ accounted w (nothing s2 space) /\ arm_ok E (nothing s2 space)) by (split; [exact MG|]; split; [exact A2|]; intros _; left; reflexivity).
  - exact NO.
  - inversion NM as [|? ? M1 M2]; subst.
    assert (ST : forall bs x sr, (length bs <= space)%nat -> bs ++ sr = src s2 -> let s3 := store s2 bs x sr space in geom E s3 /\ rclosed s3 = false /\ accounted w s3).
    { intros bs x sr LB EQ s3. destruct (store_spec E s2 bs x sr space MG LB) as [SD SG]. split; [exact SG|]. split; [cbn; congruence|]. unfold accounted in *. unfold s3. rewrite SD. cbn [store rclosed src]. change (delivered (store s2 bs x sr space)) with (delivered s2). rewrite <- app_assoc, EQ. exact A2. }
    destruct r as [n|bs x| |e].
    + destruct (Nat.eqb_spec space 0); [destruct (ST [] (extra s2) (src s2) ltac:(cbn; lia) eq_refl) as (X1 & X2 & X3); exact (IH E w _ M2 X1 X2 X3)|]. destruct (firstn (Nat.min n space) (src s2)) as [|b bs] eqn:FN; [exact NO|].
      assert (LB : (length (b :: bs) <= space)%nat) by (rewrite <- FN, firstn_length; lia). assert (SK : skipn (length (b :: bs)) (src s2) = skipn (Nat.min n space) (src s2)) by (rewrite <- FN, firstn_length; destruct (Nat.le_ge_cases (Nat.min n space) (length (src s2))); [f_equal; lia|rewrite !skipn_all2 by lia; reflexivity]). destruct (ST (b :: bs) (extra s2) (skipn (length (b :: bs)) (src s2)) LB) as (X1 & X2 & X3); [rewrite SK, <- FN; apply firstn_skipn|]. exact (IH E w _ M2 X1 X2 X3).
    + destruct M1.
    + destruct (ST [] (extra s2) (src s2) ltac:(cbn; lia) eq_refl) as (X1 & X2 & X3). exact (IH E w _ M2 X1 X2 X3).
    + destruct (e =? - AOSL_EAGAIN); [exact NO|]. cbn [fst]. split; [exact MG|]. split; [split; [discriminate|exact (proj2 A2)]|intros X; discriminate].
Qed.
Lemma run_spec es : forall E w s, Forall (fun e => Forall no_msg (script_of e)) es -> geom E s -> accounted w s -> arm_ok E s -> geom E (rrun E s es) /\ accounted w (rrun E s es) /\ arm_ok E (rrun E s es).
Proof.
  induction es as [|e es IH]; intros E w s NM G A M; [auto|]. inversion NM as [|? ? N1 N2]; subst. change (rrun E s (e :: es)) with (rrun E (rstep E s e) es). unfold rstep. destruct (rclosed s) eqn:C; [apply (IH E w s N2); auto|].
  destruct e as [sc|sc]; cbn [script_of] in N1.
  - destruct (armed s); [|apply (IH E w s N2); auto]. destruct (read_spec sc E w (disarm s) N1 G C A) as (X1 & X2 & X3). apply (IH E w _ N2); auto.
  - destruct (read_spec sc E w s N1 G C A) as (X1 & X2 & X3). apply (IH E w _ N2); auto.
Qed.
Lemma init_ok E m w : length m = bufsize E -> geom E (r_init m w) /\ accounted w (r_init m w) /\ arm_ok E (r_init m w).
Proof. intros L. split; [split; cbn; [exact L|lia]|]. split; [split; [intros _; reflexivity|exists w; reflexivity]|intros _; left; reflexivity]. Qed.

(** ** C33 *)
(** Whatever the callbacks do and however the stream arrives: nothing is accessed outside the buffer; the bytes passed to the data callback, then what waits, then what has not been read, are the stream; and a beginning of the stream if the descriptor was closed. *)
Theorem C33_conserved : forall E m w es s, length m = bufsize E -> Forall (fun e => Forall no_msg (script_of e)) es -> s = rrun E (r_init m w) es ->
  (rclosed s = false -> delivered s ++ data s ++ src s = w) /\ exists rest, delivered s ++ rest = w.
Proof. intros E m w es s L NM ->. destruct (init_ok E m w L) as (G & A & M). destruct (run_spec es E w _ NM G A M) as (_ & X & _). exact X. Qed.
Theorem C33_in_buffer : forall E m w es s, length m = bufsize E -> Forall (fun e => Forall no_msg (script_of e)) es -> s = rrun E (r_init m w) es ->
  length (mem s) = bufsize E /\ (rd s <= tl s <= bufsize E)%nat.
Proof. intros E m w es s L NM ->. destruct (init_ok E m w L) as (G & A & M). destruct (run_spec es E w _ NM G A M) as (X & _ & _). exact X. Qed.
(** An open descriptor keeps being polled for data until the end of the stream has been reported. *)
Theorem C33_polled : forall E m w es s, length m = bufsize E -> Forall (fun e => Forall no_msg (script_of e)) es -> s = rrun E (r_init m w) es -> rclosed s = false -> armed s = true \/ e_chk E <> None /\ rr0 s = true.
Proof. intros E m w es s L NM ->. destruct (init_ok E m w L) as (G & A & M). destruct (run_spec es E w _ NM G A M) as (_ & _ & X). exact X. Qed.

(** ** The cutting into packets is a function of the bytes *)
Lemma framing_total chk : forall n w, (length w <= n)%nat -> exists ps st, framing chk w ps st.
Proof.
  induction n as [|n IH]; intros w L; (destruct w as [|b w]; [exists [], (Wait []); constructor|]); [cbn in L; lia|].
  set (l := b :: w) in *. assert (NE : l <> []) by discriminate. destruct (Z.lt_trichotomy (chk l) 0) as [N|[N|N]]; [exists [], (Bad (chk l)); apply F_bad; auto|exists [], (Wait l); apply F_wait; auto|].
  destruct (Z_lt_le_dec (Z.of_nat (length l)) (chk l)) as [O|O]; [eexists _, _; apply F_over; auto|].
  destruct (IH (skipn (Z.to_nat (chk l)) l)) as (ps & st & F); [rewrite skipn_length; cbn [l length] in *; lia|]. exists (firstn (Z.to_nat (chk l)) l :: ps), st. rewrite <- (firstn_skipn (Z.to_nat (chk l)) l) at 1. apply F_pkt; [|rewrite firstn_skipn, firstn_length; lia|exact F]. intros X. apply (f_equal (@length Z)) in X. rewrite firstn_length in X. cbn [length l] in *. lia.
Qed.
Lemma framing_inv chk w ps st : framing chk w ps st -> (w = [] /\ ps = [] /\ st = Wait []) \/ (w <> [] /\ (chk w = 0 /\ ps = [] /\ st = Wait w \/ chk w < 0 /\ ps = [] /\ st = Bad (chk w) \/ Z.of_nat (length w) < chk w /\ ps = [] /\ st = Bad (- AOSL_EINVAL) \/ exists p r ps', p <> [] /\ w = p ++ r /\ chk w = Z.of_nat (length p) /\ ps = p :: ps' /\ framing chk r ps' st)).
Proof.
  intros F. destruct F as [|r N Z|r N Z|r N Z|p r ps st N Z F]; [left; auto|right; split; [exact N|left; auto]|right; split; [exact N|right; left; auto]|right; split; [exact N|right; right; left; auto]|right]. split; [destruct p; [congruence|discriminate]|]. right. right. right. exists p, r, ps. auto.
Qed.
Lemma nonempty_len (q : list Z) : q <> [] -> (0 < length q)%nat. Proof. destruct q; [congruence|cbn; lia]. Qed.
Lemma framing_det chk w ps st : framing chk w ps st -> forall ps' st', framing chk w ps' st' -> ps' = ps /\ st' = st.
Proof.
  intros F. induction F as [|r N Z|r N Z|r N Z|p r ps st N Z F IH]; intros ps' st' F'; apply framing_inv in F' as [(W & -> & ->)|(W & [(Z' & -> & ->)|[(Z' & -> & ->)|[(Z' & -> & ->)|(p' & r' & qs & P1 & P2 & P3 & -> & P5)]]])]; try congruence; auto; try lia.
  all: try (exfalso; pose proof (nonempty_len _ N); try pose proof (nonempty_len _ P1); subst; rewrite ?app_length in *; lia).
  { destruct p; [congruence|discriminate]. }
  assert (H : length p = length p') by lia. assert (p' = p /\ r' = r) as [-> ->].
  { clear - H P2. revert p' H P2. induction p as [|a p IHp]; intros [|b p'] H P2; try discriminate; [auto|]. cbn [app] in P2. assert (a = b /\ p ++ r = p' ++ r') as [-> P] by (split; congruence). cbn in H. destruct (IHp p' ltac:(lia) P) as [-> ->]. auto. }
  destruct (IH _ _ P5) as [-> ->]. auto.
Qed.
Lemma framing_app chk w ps r : sound_chk chk -> framing chk w ps (Wait r) -> forall l ps' st, framing chk (r ++ l) ps' st -> framing chk (w ++ l) (ps ++ ps') st.
Proof.
  intros SC F. remember (Wait r) as st0 eqn:ES. induction F as [|r0 N Z|r0 N Z|r0 N Z|p r0 ps st N Z F IH]; intros l ps' st1 F'; try discriminate.
  - assert (r = []) by congruence. subst r. exact F'.
  - assert (r = r0) by congruence. subst r0. exact F'.
  - rewrite <- app_assoc. cbn [app]. apply F_pkt; [exact N| |exact (IH ES l ps' st1 F')]. assert (NE : p ++ r0 <> []) by (destruct p; [congruence|discriminate]). destruct (SC _ NE) as [_ ST]. rewrite app_assoc, ST; [exact Z|]. rewrite Z. destruct p; [congruence|cbn [length]; lia].
Qed.
Lemma framing_bad_app chk w ps e l : sound_chk chk -> framing chk w ps (Bad e) -> framing chk (w ++ l) ps (Bad e).
Proof.
  intros SC F. remember (Bad e) as st0 eqn:ES. induction F as [|r0 N Z|r0 N Z|r0 N Z|p r0 ps st N Z F IH]; try discriminate.
  - destruct (SC _ N) as [_ ST]. assert (CE : chk (r0 ++ l) = chk r0) by (apply ST; lia). rewrite <- CE. apply F_bad; [destruct r0; [congruence|discriminate]|lia].
  - destruct (SC _ N) as [LE _]. lia.
  - rewrite <- app_assoc. apply F_pkt; [exact N| |exact (IH ES)]. assert (NE : p ++ r0 <> []) by (destruct p; [congruence|discriminate]). destruct (SC _ NE) as [_ ST]. rewrite app_assoc, ST; [exact Z|]. rewrite Z. destruct p; [congruence|cbn [length]; lia].
Qed.

(** ** A checker that looks only at the bytes, and callbacks that do not close *)
Definition pure_env (max : nat) (chk : list Z -> Z) : env := mkE max (Some (fun _ => chk)) (fun _ => false).
Definition packets_of (o : list (list Z * Z)) : list (list Z) := filter (fun p => negb (length p =? 0)%nat) (map fst o).
Lemma packets_of_app a b : packets_of (a ++ b) = packets_of a ++ packets_of b. Proof. unfold packets_of. rewrite map_app. apply filter_app. Qed.
Lemma packets_of_one p x : p <> [] -> packets_of [(p, x)] = [p]. Proof. destruct p; [congruence|reflexivity]. Qed.
Definition ended (s : rst) (st : fstat) : Prop := match st with Wait r => rclosed s = false /\ data s = r /\ evs s = [] | Bad e => rclosed s = true /\ evs s = [s32 e] end.
Lemma inner_pure fuel : forall max chk s, geom (pure_env max chk) s -> rclosed s = false -> rr0 s = false -> evs s = [] -> (tl s - rd s < fuel)%nat -> forall ps st, framing chk (data s) ps st ->
  forall s' o, inner fuel (pure_env max chk) s = (s', o) -> packets s' = packets s ++ ps /\ ended s' st /\ (o = None <-> exists r, st = Wait r).
Proof.
  induction fuel as [|k IH]; intros max chk s G C R EV L ps st F s' o EQ; [lia|]. cbn [inner] in EQ. pose proof (data_length _ s G) as DL. unfold one in EQ. cbn [pure_env e_chk] in EQ.
  apply framing_inv in F as [(W & -> & ->)|(W & F)].
  - rewrite W in DL. cbn in DL. rewrite <- DL in EQ. cbn [Z.of_nat Z.ltb Z.compare] in EQ. unfold deliver in EQ. rewrite R in EQ. cbn in EQ. assert (s' = s /\ o = None) as [-> ->] by (split; congruence). rewrite app_nil_r. split; [reflexivity|]. split; [cbn; auto|]. split; [intros _; exists []; reflexivity|reflexivity].
  - assert (LP : (0 < length (data s))%nat) by (destruct (data s); [congruence|cbn; lia]). destruct (Z.ltb_spec 0 (Z.of_nat (tl s - rd s))) as [_|X]; [|lia]. set (s1 := cb (pure_env max chk) s) in *. assert (C1 : rclosed s1 = false) by (unfold s1; cbn; rewrite C; reflexivity). rewrite C1 in EQ. rewrite <- DL in EQ.
    destruct F as [(Z & -> & ->)|[(Z & -> & ->)|[(Z & -> & ->)|(p & r & qs & P1 & P2 & P3 & -> & P5)]]].
    + rewrite Z in EQ. destruct (Z.ltb_spec (Z.of_nat (length (data s))) 0); [lia|]. cbn [Z.ltb Z.compare orb] in EQ. unfold deliver in EQ. change (rr0 s1) with (rr0 s) in EQ. rewrite R in EQ. cbn [Z.ltb Z.compare orb Z.eqb] in EQ. assert (s' = s1 /\ o = None) as [-> ->] by (split; congruence). rewrite app_nil_r. split; [reflexivity|]. split; [cbn; auto|]. split; [intros _; eexists; reflexivity|reflexivity].
    + destruct (Z.ltb_spec (chk (data s)) 0); [|lia]. cbn [orb] in EQ. assert (s' = event_close (pure_env max chk) s1 (chk (data s))) by congruence. assert (exists z, o = Some z) as [z ->] by (eexists; symmetry; apply (f_equal snd EQ)). subst s'. rewrite app_nil_r. split; [reflexivity|]. split; [cbn; rewrite EV; auto|]. split; [discriminate|intros [? ?]; discriminate].
    + destruct (Z.ltb_spec (chk (data s)) 0); [lia|]. destruct (Z.ltb_spec (Z.of_nat (length (data s))) (chk (data s))); [|lia]. cbn [orb] in EQ. assert (s' = event_close (pure_env max chk) s1 (- AOSL_EINVAL)) by congruence. assert (exists z, o = Some z) as [z ->] by (eexists; symmetry; apply (f_equal snd EQ)). subst s'. rewrite app_nil_r. split; [reflexivity|]. split; [cbn [ended rclosed event_close evs cb s1]; rewrite EV; auto|]. split; [discriminate|intros [? ?]; discriminate].
    + assert (LPP : (0 < length p)%nat) by (destruct p; [congruence|cbn; lia]). assert (LW : length (data s) = (length p + length r)%nat) by (rewrite P2, app_length; reflexivity). rewrite P3 in EQ. destruct (Z.ltb_spec (Z.of_nat (length p)) 0); [lia|]. destruct (Z.ltb_spec (Z.of_nat (length (data s))) (Z.of_nat (length p))); [lia|]. cbn [orb] in EQ. unfold deliver in EQ. destruct (Z.ltb_spec 0 (Z.of_nat (length p))); [|lia]. cbn [orb] in EQ. rewrite Nat2Z.id in EQ. change (data s1) with (data s) in EQ.
      set (s2 := cb (pure_env max chk) (add_out s1 (firstn (length p) (data s)))) in *. assert (C2 : rclosed s2 = false) by (unfold s2; cbn; rewrite C; reflexivity). rewrite C2 in EQ. destruct (data_advance (pure_env max chk) s2 (length p) G) as [DA GA]; [cbn; lia|]. change (data s2) with (data s) in DA. set (s3 := advance s2 (length p)) in *. change (rr0 s3) with (rr0 s) in EQ. rewrite R in EQ. destruct (Z.eqb_spec (Z.of_nat (length p)) 0); [lia|].
      assert (DR : data s3 = r) by (rewrite DA, P2, skipn_app, Nat.sub_diag, skipn_all; reflexivity). rewrite <- DR in P5. destruct (IH max chk s3 GA C2 R EV ltac:(cbn; lia) qs st P5 s' o EQ) as (X1 & X2 & X3). split; [|split; [exact X2|exact X3]]. rewrite X1. unfold packets at 1. cbn [s3 advance out s2 cb add_out s1]. change (filter (fun p0 => negb (length p0 =? 0)%nat) (map fst (out s ++ [(firstn (length p) (data s), extra s)])) ++ qs = packets s ++ p :: qs). fold (packets_of (out s ++ [(firstn (length p) (data s), extra s)])). rewrite packets_of_app, P2, firstn_app, Nat.sub_diag, firstn_all. cbn [firstn]. rewrite app_nil_r, packets_of_one by exact P1. rewrite <- app_assoc. reflexivity.
Qed.
Lemma inner_eof k max chk s : geom (pure_env max chk) s -> rclosed s = false -> rr0 s = true -> (data s = [] \/ chk (data s) = 0) -> forall s' o, inner (S k) (pure_env max chk) s = (s', o) -> o = Some 0 /\ packets s' = packets s /\ rclosed s' = false /\ data s' = data s /\ evs s' = evs s /\ rr0 s' = true /\ src s' = src s.
Proof.
  intros G C R D s' o EQ. cbn [inner] in EQ. pose proof (data_length _ s G) as DL. unfold one in EQ. cbn [pure_env e_chk] in EQ.
  assert (K : forall s1 : rst, geom (pure_env max chk) s1 -> rclosed s1 = false -> rr0 s1 = true -> deliver (pure_env max chk) s1 0 = (advance (cb (pure_env max chk) (add_out s1 [])) 0, Ret 0)) by (intros s1 G1 C1 R1; unfold deliver; rewrite R1; cbn [Z.ltb Z.compare orb Z.to_nat firstn]; cbn [cb rclosed add_out pure_env e_close]; rewrite C1; cbn [orb]; change (rr0 (advance _ 0)) with (rr0 s1); rewrite R1; reflexivity).
  assert (PK : forall s1 : rst, packets (advance (cb (pure_env max chk) (add_out s1 [])) 0) = packets s1) by (intros s1; unfold packets; cbn [advance cb add_out out]; rewrite map_app, filter_app; cbn; apply app_nil_r).
  destruct (Z.ltb_spec 0 (Z.of_nat (tl s - rd s))) as [P|P].
  - assert (D0 : chk (data s) = 0) by (destruct D as [D|D]; [rewrite D in DL; cbn in DL; lia|exact D]). rewrite D0 in EQ. assert (C1 : rclosed (cb (pure_env max chk) s) = false) by (cbn; rewrite C; reflexivity). rewrite C1 in EQ. destruct (Z.ltb_spec (Z.of_nat (tl s - rd s)) 0); [lia|]. cbn [Z.ltb Z.compare orb] in EQ. rewrite (K (cb (pure_env max chk) s) G C1 R) in EQ. assert (s' = advance (cb (pure_env max chk) (add_out (cb (pure_env max chk) s) [])) 0 /\ o = Some 0) as [-> ->] by (split; congruence). split; [reflexivity|]. split; [rewrite PK; reflexivity|]. split; [cbn; rewrite C; reflexivity|]. split; [unfold data; cbn; rewrite Nat.add_0_r; reflexivity|]. auto.
  - assert (Z.of_nat (tl s - rd s) = 0) as LZ by lia. rewrite LZ, (K _ G C R) in EQ. assert (s' = advance (cb (pure_env max chk) (add_out s [])) 0 /\ o = Some 0) as [-> ->] by (split; congruence). split; [reflexivity|]. split; [apply PK|]. split; [cbn; rewrite C; reflexivity|]. split; [unfold data; cbn; rewrite Nat.add_0_r; reflexivity|]. auto.
Qed.

(** The bytes received so far and how they were cut. *)
Definition framed (chk : list Z -> Z) (w : list Z) (s : rst) : Prop :=
  exists recv st, recv ++ src s = w /\ framing chk recv (packets s) st /\ ended s st.
(** Before the buffer is emptied: cutting what is in it continues the cutting of what was received; or the end of the stream was seen. *)
Definition entry (chk : list Z -> Z) (w : list Z) (s : rst) : Prop :=
  rclosed s = false /\ evs s = [] /\ exists recv, recv ++ src s = w /\ (forall ps st, framing chk (data s) ps st -> framing chk recv (packets s ++ ps) st) /\
  (rr0 s = true -> framing chk recv (packets s) (Wait (data s)) /\ (data s = [] \/ chk (data s) = 0)).
Definition takes_only (r : rres) : Prop := match r with RMsg _ _ => False | RErr e => e = - AOSL_EAGAIN | _ => True end.
Lemma wait_entry chk recv ps r : framing chk recv ps (Wait r) -> r = [] \/ chk r = 0.
Proof. intros F. remember (Wait r) as st eqn:E. induction F; try discriminate; [left; congruence|right; congruence|auto]. Qed.
Lemma read_pure script : forall max chk w s, sound_chk chk -> Forall takes_only script -> geom (pure_env max chk) s -> entry chk w s -> let s' := fst (read_data (pure_env max chk) s script) in geom (pure_env max chk) s' /\ framed chk w s'.
Proof.
  induction script as [|r script IH]; intros max chk w s SC TO G (C & EV & recv & RW & CONT & EOF) s'; unfold s'; cbn [read_data]; destruct (inner (S (S (tl s - rd s))) (pure_env max chk) s) as [s1 o] eqn:IN; destruct (inner_spec (S (S (tl s - rd s))) (pure_env max chk) s G C ltac:(lia) s1 o IN) as (G1 & S1 & _ & N1 & _ & _).
  all: destruct (rr0 s) eqn:RR; [destruct (EOF eq_refl) as (F0 & D0); destruct (inner_eof _ max chk s G C RR D0 s1 o IN) as (-> & PK & C1 & D1 & E1 & _ & SR); cbn [fst]; split; [exact G1|]; exists recv, (Wait (data s)); rewrite PK, SR; split; [exact RW|]; split; [exact F0|]; cbn; rewrite C1, D1, E1; auto|].
  all: destruct (framing_total chk _ (data s) (le_n _)) as (ps & st & F); destruct (inner_pure (S (S (tl s - rd s))) max chk s G C RR EV ltac:(lia) ps st F s1 o IN) as (PK & EN & WT); pose proof (CONT ps st F) as FR; destruct S1 as (SR & _).
  all: destruct o as [z|]; [cbn [fst]; split; [exact G1|]; exists recv, st; rewrite PK, SR; split; [exact RW|]; split; [exact FR|exact EN]|].
  all: destruct (proj1 WT eq_refl) as [r0 ->]; cbn [ended] in EN; destruct EN as (C1 & D1 & E1); destruct (N1 eq_refl) as (_ & _ & R1); destruct (move_spec (pure_env max chk) s1 G1) as (MD & MG & _ & MR & _ & MC & MO & ME & MS & _); set (s2 := move (pure_env max chk) s1) in *; set (space := (bufsize (pure_env max chk) - tl s2)%nat) in *.
  all: assert (P2 : packets s2 = packets s ++ ps) by (unfold packets at 1; rewrite MO; exact PK).
  all: assert (NO : geom (pure_env max chk) (nothing s2 space) /\ framed chk w (nothing s2 space)) by (split; [exact MG|]; exists recv, (Wait r0); change (packets (nothing s2 space)) with (packets s2); change (src (nothing s2 space)) with (src s2); rewrite P2, MS, SR; split; [exact RW|]; split; [exact FR|]; cbn [ended]; change (data (nothing s2 space)) with (data s2); cbn [nothing rclosed evs]; rewrite MC, MD, ME; auto).
  - exact NO.
  - pose proof (Forall_inv TO) as T1. pose proof (Forall_inv_tail TO) as T2. subst r0.
    assert (ST : forall bs x sr, (length bs <= space)%nat -> bs ++ sr = src s2 -> let s3 := store s2 bs x sr space in geom (pure_env max chk) s3 /\ entry chk w s3).
    { intros bs x sr LB EQ s3. destruct (store_spec (pure_env max chk) s2 bs x sr space MG LB) as [SD SG]. split; [exact SG|]. unfold s3. split; [cbn; congruence|]. split; [cbn; congruence|]. exists (recv ++ bs). change (packets (store s2 bs x sr space)) with (packets s2). change (src (store s2 bs x sr space)) with sr. rewrite SD, P2, MD. split; [rewrite <- app_assoc, EQ, MS, SR; exact RW|]. split.
      - intros ps' st' F'. exact (framing_app chk recv (packets s ++ ps) (data s1) SC FR bs ps' st' F').
      - cbn [store rr0]. destruct bs as [|b bs]; cbn [length Nat.eqb]; [|rewrite MR, R1; discriminate]. intros _. rewrite !app_nil_r. split; [exact FR|]. exact (wait_entry chk _ _ _ FR). }
    destruct r as [n|bs x| |e]; cbn [takes_only] in T1.
    + destruct (Nat.eqb_spec space 0); [destruct (ST [] (extra s2) (src s2) ltac:(cbn; lia) eq_refl) as (X1 & X2); exact (IH max chk w _ SC T2 X1 X2)|]. destruct (firstn (Nat.min n space) (src s2)) as [|b bs] eqn:FN; [exact NO|].
      assert (LB : (length (b :: bs) <= space)%nat) by (rewrite <- FN, firstn_length; lia). assert (SK : skipn (length (b :: bs)) (src s2) = skipn (Nat.min n space) (src s2)) by (rewrite <- FN, firstn_length; destruct (Nat.le_ge_cases (Nat.min n space) (length (src s2))); [f_equal; lia|rewrite !skipn_all2 by lia; reflexivity]). destruct (ST (b :: bs) (extra s2) (skipn (length (b :: bs)) (src s2)) LB) as (X1 & X2); [rewrite SK, <- FN; apply firstn_skipn|]. exact (IH max chk w _ SC T2 X1 X2).
    + destruct T1.
    + destruct (ST [] (extra s2) (src s2) ltac:(cbn; lia) eq_refl) as (X1 & X2). exact (IH max chk w _ SC T2 X1 X2).
    + subst e. rewrite Z.eqb_refl. exact NO.
Qed.
Lemma entry_of_framed chk w s : rclosed s = false -> framed chk w s -> entry chk w s.
Proof.
  intros C (recv & st & RW & F & EN). destruct st as [r|e]; cbn [ended] in EN; [|destruct EN; congruence]. destruct EN as (_ & D & E). split; [exact C|]. split; [exact E|]. exists recv. split; [exact RW|]. rewrite D. split; [|intros _; split; [exact F|exact (wait_entry _ _ _ _ F)]].
  intros ps st F'. destruct (wait_entry _ _ _ _ F) as [->|Z0]; apply framing_inv in F' as [(W & -> & ->)|(W & CASES)].
  - rewrite app_nil_r. exact F.
  - congruence.
  - subst r. rewrite app_nil_r, <- W. exact F.
  - destruct CASES as [(_ & -> & ->)|[(Z' & _)|[(Z' & _)|(p & r' & qs & P1 & _ & P3 & _)]]]; [rewrite app_nil_r; exact F|lia|lia|]. pose proof (nonempty_len p P1). lia.
Qed.
Lemma run_pure es : forall max chk w s, sound_chk chk -> Forall (fun e => Forall takes_only (script_of e)) es -> geom (pure_env max chk) s -> framed chk w s -> framed chk w (rrun (pure_env max chk) s es).
Proof.
  induction es as [|e es IH]; intros max chk w s SC TO G F; [exact F|]. inversion TO as [|? ? T1 T2]; subst. change (rrun (pure_env max chk) s (e :: es)) with (rrun (pure_env max chk) (rstep (pure_env max chk) s e) es). unfold rstep. destruct (rclosed s) eqn:C; [apply IH; auto|]. pose proof (entry_of_framed chk w s C F) as EN.
  destruct e as [sc|sc]; cbn [script_of] in T1.
  - destruct (armed s); [|apply IH; auto]. destruct (read_pure sc max chk w (disarm s) SC T1 G EN) as [X1 X2]. apply IH; auto.
  - destruct (read_pure sc max chk w s SC T1 G EN) as [X1 X2]. apply IH; auto.
Qed.

(** However the stream [w] is split into reads and events: the packets passed to the data callback are exactly those that cutting the bytes received so far from the front gives; what is left waits in the buffer, or a wrong packet has been reported once and the descriptor closed. *)
Theorem C33_framing : forall max chk m w es s, sound_chk chk -> length m = (2 * max)%nat -> Forall (fun e => Forall takes_only (script_of e)) es -> s = rrun (pure_env max chk) (r_init m w) es ->
  exists recv st, recv ++ src s = w /\ framing chk recv (packets s) st /\
    match st with Wait r => rclosed s = false /\ data s = r /\ evs s = [] | Bad e => rclosed s = true /\ evs s = [s32 e] end.
Proof.
  intros max chk m w es s SC L TO ->. apply (run_pure es max chk w (r_init m w) SC TO).
  - split; cbn; [exact L|lia].
  - exists [], (Wait []). split; [reflexivity|]. split; [constructor|]. cbn. auto.
Qed.
(** Two receivers of the same stream, with any buffer sizes, splittings and schedules, deliver the same packets once each has read it all or has given it up as wrong. *)
Theorem C33_chunking : forall chk w max1 m1 es1 max2 m2 es2, sound_chk chk -> length m1 = (2 * max1)%nat -> length m2 = (2 * max2)%nat ->
  Forall (fun e => Forall takes_only (script_of e)) es1 -> Forall (fun e => Forall takes_only (script_of e)) es2 ->
  let s1 := rrun (pure_env max1 chk) (r_init m1 w) es1 in let s2 := rrun (pure_env max2 chk) (r_init m2 w) es2 in
  (src s1 = [] \/ rclosed s1 = true) -> (src s2 = [] \/ rclosed s2 = true) -> packets s1 = packets s2 /\ rclosed s1 = rclosed s2 /\ evs s1 = evs s2.
Proof.
  intros chk w max1 m1 es1 max2 m2 es2 SC L1 L2 T1 T2 s1 s2 D1 D2.
  assert (K : forall max m es s, length m = (2 * max)%nat -> Forall (fun e => Forall takes_only (script_of e)) es -> s = rrun (pure_env max chk) (r_init m w) es -> src s = [] \/ rclosed s = true -> exists st, framing chk w (packets s) st /\ rclosed s = (match st with Wait _ => false | Bad _ => true end) /\ evs s = (match st with Wait _ => [] | Bad e => [s32 e] end)).
  { intros max m es s L T E D. destruct (C33_framing max chk m w es s SC L T E) as (recv & st & RW & F & EN). destruct st as [r|e].
    - destruct EN as (C & _ & EV). destruct D as [D|D]; [|congruence]. rewrite D, app_nil_r in RW. subst recv. exists (Wait r). auto.
    - destruct EN as (C & EV). exists (Bad e). rewrite <- RW. split; [apply framing_bad_app; assumption|auto]. }
  destruct (K max1 m1 es1 s1 L1 T1 eq_refl D1) as (st1 & F1 & C1 & E1). destruct (K max2 m2 es2 s2 L2 T2 eq_refl D2) as (st2 & F2 & C2 & E2). destruct (framing_det chk w _ _ F1 _ _ F2) as [HP HS]. subst st2. rewrite C1, C2, E1, E2. auto.
Qed.

(** ** The end of the stream is reported only if it is there *)
Definition fits (E : env) : Prop := match e_chk E with Some f => forall k l, length l = bufsize E -> f k l <> 0 | None => False end.
Definition no_end (r : rres) : Prop := match r with RTake _ | RErr _ => True | _ => False end.
Definition nonempty_out (s : rst) : Prop := Forall (fun p => fst p <> []) (out s).
Lemma deliver_nonempty E s err s' h : geom E s -> rr0 s = false -> err <= Z.of_nat (tl s - rd s) -> nonempty_out s -> deliver E s err = (s', h) -> nonempty_out s'.
Proof.
  intros G R L N EQ. pose proof (data_length E s G) as DL. unfold deliver in EQ. rewrite R, orb_false_r in EQ. destruct (Z.ltb_spec 0 err) as [P|P].
  - assert (N1 : Forall (fun p : list Z * Z => fst p <> []) (out s ++ [(firstn (Z.to_nat err) (data s), extra s)])).
    { apply Forall_app. split; [exact N|]. constructor; [|constructor]. cbn. intros X. apply (f_equal (@length Z)) in X. rewrite firstn_length in X. cbn in X. lia. }
    set (s1 := cb E (add_out s (firstn (Z.to_nat err) (data s)))) in *. destruct (rclosed s1); [assert (s' = s1) by congruence; subst; exact N1|]. change (rr0 (advance s1 (Z.to_nat err))) with (rr0 s) in EQ. rewrite R in EQ. destruct (err =? 0); assert (s' = advance s1 (Z.to_nat err)) by congruence; subst s'; exact N1.
  - destruct (err =? 0); assert (s' = s) by congruence; subst s'; exact N.
Qed.
Lemma inner_nonempty fuel : forall E s, geom E s -> rclosed s = false -> rr0 s = false -> nonempty_out s -> nonempty_out (fst (inner fuel E s)).
Proof.
  induction fuel as [|k IH]; intros E s G C R N; [exact N|]. cbn [inner]. destruct (one E s) as [s1 h] eqn:ON. destruct (one_spec E s G C s1 h ON) as (H1 & _ & _ & H4 & _ & _ & H7 & _).
  assert (N1 : nonempty_out s1).
  { unfold one in ON. destruct (e_chk E) as [f|]; [|apply (deliver_nonempty E s (Z.of_nat (tl s - rd s)) s1 h G R (Z.le_refl _) N ON)]. destruct (0 <? Z.of_nat (tl s - rd s)); [|apply (deliver_nonempty E s (Z.of_nat (tl s - rd s)) s1 h G R (Z.le_refl _) N ON)].
    destruct (rclosed (cb E s)); [assert (s1 = cb E s) by congruence; subst; exact N|]. destruct (_ || _) eqn:B in ON; [|apply orb_false_iff in B as [_ B]; apply Z.ltb_ge in B; apply (deliver_nonempty E (cb E s) _ s1 h G R B N ON)]. assert (X := f_equal fst ON). cbn [fst] in X. subst s1. exact N. }
  destruct h as [| |z]; [|exact N1|exact N1]. destruct (H4 eq_refl) as [C1 _]. apply IH; auto.
Qed.
Lemma space_left E s : env_ok E -> fits E -> geom E s -> wants E (data s) -> (1 <= bufsize E - tl (move E s))%nat.
Proof.
  intros EO FI G W. pose proof (data_length E s G) as DL. destruct G as [_ G]. unfold fits, wants, env_ok, move, better_move, bufsize in *. destruct (e_chk E) as [f|]; [|destruct FI].
  assert (LT : (tl s - rd s < 2 * e_max E)%nat) by (destruct W as [W|[k W]]; [rewrite W in DL; cbn [length] in DL; lia|]; destruct (Nat.eq_dec (tl s - rd s) (2 * e_max E)) as [X|X]; [exfalso; apply (FI k (data s)); [lia|exact W]|lia]).
  destruct (Nat.ltb_spec (2 * e_max E - tl s) 1024) as [L|L]; [cbn [orb tl]; lia|]. cbn [orb]. match goal with |- context [if ?b then _ else _] => destruct b end; cbn [tl]; lia.
Qed.
Lemma read_no_end script : forall E s, env_ok E -> fits E -> Forall no_end script -> geom E s -> rclosed s = false -> rr0 s = false -> nonempty_out s -> Forall (fun n => (1 <= n)%nat) (asked s) ->
  let s' := fst (read_data E s script) in geom E s' /\ rr0 s' = false /\ nonempty_out s' /\ Forall (fun n => (1 <= n)%nat) (asked s').
Proof.
  induction script as [|r script IH]; intros E s EO FI NE G C R N AS s'; unfold s'; cbn [read_data]; pose proof (inner_nonempty (S (S (tl s - rd s))) E s G C R N) as N1; destruct (inner (S (S (tl s - rd s))) E s) as [s1 o] eqn:IN; destruct (inner_spec (S (S (tl s - rd s))) E s G C ltac:(lia) s1 o IN) as (G1 & (SR & SA & _) & _ & O1 & _ & R1); specialize (R1 R); cbn [fst] in N1; rewrite <- SA in AS.
  all: destruct o as [z|]; [cbn [fst]; auto|].
  all: destruct (O1 eq_refl) as (C1 & W1 & _); pose proof (data_length E s1 G1) as DL; destruct (move_spec E s1 G1) as (MD & MG & _ & MR & _ & MC & MO & _ & MS & MA).
  all: pose proof (space_left E s1 EO FI G1 W1) as SP.
  all: set (s2 := move E s1) in *; set (space := (bufsize E - tl s2)%nat) in *; assert (AS2 : Forall (fun n => (1 <= n)%nat) (asked s2 ++ [space])) by (rewrite MA; apply Forall_app; split; [exact AS|repeat constructor; exact SP]).
  all: assert (N2 : nonempty_out s2) by (unfold nonempty_out; rewrite MO; exact N1); assert (NO : geom E (nothing s2 space) /\ rr0 (nothing s2 space) = false /\ nonempty_out (nothing s2 space) /\ Forall (fun n => (1 <= n)%nat) (asked (nothing s2 space))) by (split; [exact MG|]; split; [cbn; congruence|]; split; [exact N2|exact AS2]).
  - exact NO.
  - pose proof (Forall_inv NE) as T1. pose proof (Forall_inv_tail NE) as T2. destruct r as [n|bs x| |e]; cbn [no_end] in T1; try contradiction.
    + destruct (Nat.eqb_spec space 0); [lia|]. destruct (firstn (Nat.min n space) (src s2)) as [|b bs] eqn:FN; [exact NO|]. assert (LB : (length (b :: bs) <= space)%nat) by (rewrite <- FN, firstn_length; lia). destruct (store_spec E s2 (b :: bs) (extra s2) (skipn (length (b :: bs)) (src s2)) space MG LB) as [SD SG]. apply IH; auto; cbn; congruence.
    + destruct (e =? - AOSL_EAGAIN); [exact NO|]. destruct NO as (X1 & X2 & X3 & X4). cbn [fst]. auto.
Qed.
(** If the checker always finds something in a full buffer (packets fit in twice the maximal size), every read asks for at least one byte, and the data callback never gets 0 bytes, unless a read says that the stream has ended. *)
Theorem C33_no_false_end : forall E m w es s, env_ok E -> fits E -> length m = bufsize E -> Forall (fun e => Forall no_end (script_of e)) es -> s = rrun E (r_init m w) es ->
  Forall (fun n => (1 <= n)%nat) (asked s) /\ Forall (fun p => fst p <> []) (out s).
Proof.
  intros E m w es s EO FI L NE ->. assert (K : forall es s, Forall (fun e => Forall no_end (script_of e)) es -> geom E s -> rr0 s = false -> nonempty_out s -> Forall (fun n => (1 <= n)%nat) (asked s) -> Forall (fun n => (1 <= n)%nat) (asked (rrun E s es)) /\ nonempty_out (rrun E s es)).
  { clear es NE. induction es as [|e es IH]; intros s NE G R N A; [auto|]. pose proof (Forall_inv NE) as T1. pose proof (Forall_inv_tail NE) as T2. change (rrun E s (e :: es)) with (rrun E (rstep E s e) es). unfold rstep. destruct (rclosed s) eqn:C; [auto|]. destruct e as [sc|sc]; cbn [script_of] in T1.
    - destruct (armed s); [|auto]. destruct (read_no_end sc E (disarm s) EO FI T1 G C R N A) as (X1 & X2 & X3 & X4). auto.
    - destruct (read_no_end sc E s EO FI T1 G C R N A) as (X1 & X2 & X3 & X4). auto. }
  apply (K es (r_init m w) NE); [split; cbn; [exact L|lia]|reflexivity|constructor|constructor].
Qed.

(** ** Datagrams *)
Definition msgs (ms : list (list Z * Z)) : list rres := map (fun p => RMsg (fst p) (snd p)) ms.
Definition cut (max : nat) (p : list Z * Z) : list Z * Z := (firstn max (fst p), snd p).
(** What has been read and not been passed on. *)
Definition pendm (s : rst) : list (list Z * Z) := if rr0 s then [([], extra s)] else match data s with [] => [] | d => [(d, extra s)] end.
Lemma inner_dgram k E s : e_chk E = None -> geom E s -> rclosed s = false -> (rr0 s = true -> data s = []) -> forall s' o, inner (S (S k)) E s = (s', o) ->
  geom E s' /\ evs s' = evs s /\ out s' = out s ++ pendm s /\ (rclosed s' = false -> o = None /\ data s' = [] /\ rr0 s' = false) /\ (rclosed s' = true -> (exists z, o = Some z) /\ exists j, e_close E j = true).
Proof.
  intros EC G C RD s' o EQ. pose proof (data_length E s G) as DL.
  assert (EMPTY : forall k s1, geom E s1 -> data s1 = [] -> rr0 s1 = false -> inner (S k) E s1 = (s1, None)).
  { intros k0 s1 G1 D1 R1. pose proof (data_length E s1 G1) as DL1. rewrite D1 in DL1. cbn in DL1. cbn [inner]. unfold one. rewrite EC. rewrite <- DL1. unfold deliver. rewrite R1. cbn. reflexivity. }
  destruct (rr0 s) eqn:R.
  - specialize (RD eq_refl). assert (PM : pendm s = [([], extra s)]) by (unfold pendm; rewrite R; reflexivity). rewrite RD in DL. cbn in DL. cbn [inner] in EQ. unfold one in EQ. rewrite EC, <- DL in EQ. unfold deliver in EQ. rewrite R in EQ. cbn [Z.of_nat Z.ltb Z.compare orb Z.to_nat firstn] in EQ. set (s1 := cb E (add_out s [])) in *. destruct (rclosed s1) eqn:C1.
    + assert (s' = s1 /\ o = Some 0) as [-> ->] by (split; congruence). split; [exact G|]. split; [reflexivity|]. split; [rewrite PM; reflexivity|]. split; [congruence|]. intros _. split; [eexists; reflexivity|]. exists (cbs s). unfold s1 in C1. cbn in C1. rewrite C in C1. exact C1.
    + change (rr0 (advance s1 0)) with (rr0 s) in EQ. rewrite R, EC in EQ. assert (s' = set_rr0 (advance s1 0) false /\ o = None) as [-> ->] by (split; congruence). destruct (data_advance E s1 0 G ltac:(lia)) as [DA GA]. split; [exact GA|]. split; [reflexivity|]. split; [rewrite PM; reflexivity|]. split; [intros _; split; [reflexivity|]; split; [|reflexivity]; change (data (set_rr0 (advance s1 0) false)) with (data (advance s1 0)); rewrite DA; exact RD|]. intros X. change (rclosed s1 = true) in X. congruence.
  - destruct (data s) as [|b d] eqn:D.
    + rewrite (EMPTY (S k) s G D R) in EQ. assert (s' = s /\ o = None) as [-> ->] by (split; congruence). split; [exact G|]. split; [reflexivity|]. split; [unfold pendm; rewrite R, D, app_nil_r; reflexivity|]. split; [auto|congruence].
    + assert (PM : pendm s = [(b :: d, extra s)]) by (unfold pendm; rewrite R, D; reflexivity). cbn [inner] in EQ. change (match one E s with (s0, Again) => inner (S k) E s0 | (s0, GoRead) => (s0, None) | (s0, Ret z) => (s0, Some z) end = (s', o)) in EQ. unfold one in EQ. rewrite EC in EQ. rewrite <- DL in EQ. unfold deliver in EQ. rewrite D in EQ. rewrite R in EQ. destruct (Z.ltb_spec 0 (Z.of_nat (length (b :: d)))) as [P|P]; [|cbn [length] in P; lia]. cbn [orb] in EQ. rewrite Nat2Z.id, firstn_all in EQ. set (s1 := cb E (add_out s (b :: d))) in *. destruct (rclosed s1) eqn:C1.
      * assert (s' = s1 /\ o = Some 0) as [-> ->] by (split; congruence). split; [exact G|]. split; [reflexivity|]. split; [rewrite PM; reflexivity|]. split; [congruence|]. intros _. split; [eexists; reflexivity|]. exists (cbs s). unfold s1 in C1. cbn in C1. rewrite C in C1. exact C1.
      * change (rr0 (advance s1 (length (b :: d)))) with (rr0 s) in EQ. rewrite R in EQ. destruct (Z.eqb_spec (Z.of_nat (length (b :: d))) 0) as [X|_]; [cbn [length] in X; lia|]. destruct (data_advance E s1 (length (b :: d)) G) as [DA GA]; [change (tl s1 - rd s1)%nat with (tl s - rd s)%nat; lia|]. change (data s1) with (data s) in DA. rewrite D, skipn_all in DA. rewrite (EMPTY k _ GA DA R) in EQ. assert (s' = advance s1 (length (b :: d)) /\ o = None) as [-> ->] by (split; congruence). split; [exact GA|]. split; [reflexivity|]. split; [rewrite PM; reflexivity|]. split; [intros _; split; [reflexivity|]; split; [exact DA|exact R]|]. intros X. change (rclosed s1 = true) in X. congruence.
Qed.
Lemma read_dgram ms : forall E s t, e_chk E = None -> geom E s -> rclosed s = false -> (rr0 s = true -> data s = []) -> t = [] \/ (exists e, t = [RErr e] /\ e <> - AOSL_EAGAIN) ->
  let s' := fst (read_data E s (msgs ms ++ t)) in geom E s' /\ exists rest, out s' ++ rest = out s ++ pendm s ++ map (cut (e_max E)) ms /\
    (rclosed s' = false -> rest = [] /\ pendm s' = [] /\ armed s' = true /\ rr0 s' = false /\ evs s' = evs s) /\
    (forall e, t = [RErr e] -> rclosed s' = true /\ ((forall k, e_close E k = false) -> rest = [] /\ evs s' = evs s ++ [s32 e])).
Proof.
  induction ms as [|m ms IH]; intros E s t EC G C RD TT s'; unfold s'; clear s'.
  - cbn [msgs map app]. assert (UNF : read_data E s t = match inner (S (S (tl s - rd s))) E s with (s, Some z) => (s, z) | (s, None) => let s := move E s in let space := (bufsize E - tl s)%nat in match t with RErr e :: _ => (event_close E (nothing s space) e, s32 e) | _ => (nothing s space, 0) end end).
    { destruct TT as [->|(e & -> & NE)]; cbn [read_data]; destruct (inner (S (S (tl s - rd s))) E s) as [s1 [z|]]; try reflexivity. cbn zeta. rewrite (proj2 (Z.eqb_neq _ _) NE). reflexivity. }
    rewrite UNF. clear UNF. destruct (inner (S (S (tl s - rd s))) E s) as [s1 o] eqn:IN. destruct (inner_dgram _ E s EC G C RD s1 o IN) as (G1 & EV & O1 & OP & CL).
    destruct (rclosed s1) eqn:C1.
    + destruct (CL eq_refl) as ([z ->] & j & J). cbn [fst]. split; [exact G1|]. exists []. rewrite !app_nil_r. split; [exact O1|]. split; [congruence|]. intros e ET. split; [exact C1|]. intros NC. rewrite NC in J. discriminate.
    + destruct (OP eq_refl) as (-> & D1 & R1). cbn zeta. destruct (move_spec E s1 G1) as (MD & MG & _ & MR & _ & MC & MO & ME & MS & _). destruct TT as [->|(e & -> & NE)]; cbn [fst].
      * split; [exact MG|]. exists []. rewrite !app_nil_r. split; [cbn; rewrite MO; exact O1|]. split; [|intros e X; discriminate]. intros _. split; [reflexivity|]. split; [unfold pendm; cbn [nothing rr0]; rewrite MR, R1; change (data (nothing (move E s1) _)) with (data (move E s1)); rewrite MD, D1; reflexivity|]. split; [reflexivity|]. split; [cbn; congruence|]. cbn. congruence.
      * split; [exact MG|]. exists []. rewrite !app_nil_r. split; [cbn; rewrite MO; exact O1|]. split; [discriminate|]. intros e0 X. assert (e0 = e) by congruence. subst e0. split; [reflexivity|]. intros _. split; [reflexivity|]. cbn. rewrite ME, EV. reflexivity.
  - change (msgs (m :: ms) ++ t) with (RMsg (fst m) (snd m) :: (msgs ms ++ t)). cbn [read_data]. destruct (inner (S (S (tl s - rd s))) E s) as [s1 o] eqn:IN. destruct (inner_dgram _ E s EC G C RD s1 o IN) as (G1 & EV & O1 & OP & CL). destruct (rclosed s1) eqn:C1.
    + destruct (CL eq_refl) as ([z ->] & j & J). cbn [fst]. split; [exact G1|]. exists (map (cut (e_max E)) (m :: ms)). split; [rewrite O1, <- app_assoc; reflexivity|]. split; [congruence|]. intros e ET. split; [exact C1|]. intros NC. rewrite NC in J. discriminate.
    + destruct (OP eq_refl) as (-> & D1 & R1). destruct (move_spec E s1 G1) as (MD & MG & _ & MR & _ & MC & MO & ME & MS & _). pose proof (data_length E s1 G1) as DL. rewrite D1 in DL. cbn in DL. assert (TL : tl (move E s1) = 0%nat) by (unfold move, better_move; rewrite EC; cbn [tl]; lia). assert (SP : (bufsize E - tl (move E s1))%nat = e_max E) by (rewrite TL; unfold bufsize; rewrite EC; lia). rewrite SP. set (s2 := move E s1) in *. set (bs := firstn (e_max E) (fst m)) in *.
      destruct (store_spec E s2 bs (snd m) (src s2) (e_max E) MG) as [SD SG]; [rewrite SP; unfold bs; rewrite firstn_length; lia|]. rewrite MD, D1 in SD. cbn [app] in SD. set (s3 := store s2 bs (snd m) (src s2) (e_max E)) in *.
      assert (R3 : rr0 s3 = (length bs =? 0)%nat) by (unfold s3; cbn [store rr0]; destruct (length bs =? 0)%nat; congruence).
      assert (P3 : pendm s3 = [cut (e_max E) m]) by (unfold pendm; rewrite R3, SD; change (extra s3) with (snd m); unfold cut; fold bs; destruct bs; reflexivity).
      destruct (IH E s3 t EC SG) as (X1 & rest & X2 & X3 & X4); [cbn; congruence|rewrite R3, SD; destruct bs; [reflexivity|discriminate]|exact TT|]. split; [exact X1|]. exists rest. split; [rewrite X2, P3; change (out s3) with (out s2); rewrite MO, O1, <- app_assoc; reflexivity|]. assert (EV3 : evs s3 = evs s) by (change (evs s3) with (evs s2); congruence). rewrite EV3 in X3, X4. split; assumption.
Qed.
Definition dgram_ev (e : rev) (ms : list (list Z * Z)) : Prop := script_of e = msgs ms.
(** Without a checker every message read is passed on once, in order, with its sender, a message of 0 bytes too; a message longer than the maximal size is cut to it. *)
Theorem C33_datagrams : forall E m es mss s, e_chk E = None -> length m = e_max E -> Forall2 dgram_ev es mss -> s = rrun E (r_init m []) es ->
  exists rest, out s ++ rest = map (cut (e_max E)) (concat mss) /\ (rclosed s = false -> rest = []).
Proof.
  intros E m es mss s EC L F ->. assert (K : forall es mss s, Forall2 dgram_ev es mss -> geom E s -> (rclosed s = false -> pendm s = [] /\ armed s = true /\ rr0 s = false) -> exists rest, out (rrun E s es) ++ rest = out s ++ map (cut (e_max E)) (concat mss) /\ (rclosed (rrun E s es) = false -> rest = [])).
  { clear es mss F. intros es mss s F. revert s. induction F as [|e ms es mss H F IH]; intros s G OP; [exists []; cbn; rewrite !app_nil_r; auto|]. change (rrun E s (e :: es)) with (rrun E (rstep E s e) es). cbn [concat]. rewrite map_app. unfold rstep. destruct (rclosed s) eqn:C.
    - destruct (IH s G) as (rest & X1 & X2); [congruence|]. assert (CC : forall es, rrun E s es = s) by (intros es0; induction es0 as [|e0 es0 IHe]; [reflexivity|]; change (rrun E s (e0 :: es0)) with (rrun E (rstep E s e0) es0); unfold rstep; rewrite C; exact IHe). rewrite CC in *. exists (map (cut (e_max E)) ms ++ map (cut (e_max E)) (concat mss)). split; [reflexivity|congruence].
    - destruct (OP eq_refl) as (PM & AR & R0). assert (DN : data s = []) by (unfold pendm in PM; rewrite R0 in PM; destruct (data s); [reflexivity|discriminate]).
      assert (STEP : forall s1, geom E s1 -> rclosed s1 = false -> rr0 s1 = false -> data s1 = [] -> out s1 = out s -> exists rest, out (rrun E (fst (read_data E s1 (script_of e))) es) ++ rest = out s ++ map (cut (e_max E)) ms ++ map (cut (e_max E)) (concat mss) /\ (rclosed (rrun E (fst (read_data E s1 (script_of e))) es) = false -> rest = [])).
      { intros s1 G1 C1 R1 D1 O1. rewrite H. rewrite <- (app_nil_r (msgs ms)). destruct (read_dgram ms E s1 [] EC G1 C1 ltac:(congruence) ltac:(auto)) as (Y1 & rest & Y2 & Y3 & _). set (s2 := fst (read_data E s1 (msgs ms ++ []))) in *. assert (PM1 : pendm s1 = []) by (unfold pendm; rewrite R1, D1; reflexivity). rewrite PM1, O1 in Y2. cbn [app] in Y2. destruct (IH s2 Y1) as (rest2 & X1 & X2); [intros C2; destruct (Y3 C2) as (_ & ? & ? & ? & _); auto|].
        destruct (rclosed s2) eqn:C2.
        - assert (CC : forall es, rrun E s2 es = s2) by (intros es0; induction es0 as [|e0 es0 IHe]; [reflexivity|]; change (rrun E s2 (e0 :: es0)) with (rrun E (rstep E s2 e0) es0); unfold rstep; rewrite C2; exact IHe). rewrite CC in *. exists (rest ++ map (cut (e_max E)) (concat mss)). split; [rewrite app_assoc, Y2, <- app_assoc; reflexivity|congruence].
        - destruct (Y3 eq_refl) as (-> & _). rewrite app_nil_r in Y2. exists rest2. split; [rewrite X1, Y2, <- app_assoc; reflexivity|exact X2]. }
      destruct e as [sc|sc]; cbn [script_of] in *; [rewrite AR; apply (STEP (disarm s)); auto|apply (STEP s); auto]. }
  destruct (K es mss (r_init m []) F) as (rest & X1 & X2); [split; cbn; [unfold bufsize; rewrite EC; exact L|lia]|intros _; repeat split|]. exists rest. split; [exact X1|exact X2].
Qed.

(** ** C50: a listening socket *)
(** It is claimed that a listening socket added to a queue goes on accepting connections.  The read function of a listening socket reports every failing accept, and so the would-block that ends a series, as EHAL; that closes the socket: after the first readability event, with any number of connections waiting, it is closed (if the callbacks have not closed it, with one EHAL event after all the waiting connections were passed on). *)
Theorem C50_refuted : forall E m conns e s, e_chk E = None -> length m = e_max E -> script_of e = accept_reads conns -> s = rstep E (r_init m []) e ->
  rclosed s = true /\ ((forall k, e_close E k = false) -> out s = map (fun c => (firstn (e_max E) c, 0)) conns /\ evs s = [- (AOSL_EBASE + 1000)]) /\
  forall es, rrun E s es = s.
Proof.
  intros E m conns e s EC L SC ES.
  assert (AR : accept_reads conns = msgs (map (fun c => (c, 0)) conns) ++ [RErr (- (AOSL_EBASE + 1000))]) by (unfold accept_reads, msgs; rewrite map_map; reflexivity).
  assert (K : forall s0, geom E s0 -> rclosed s0 = false -> rr0 s0 = false -> data s0 = [] -> out s0 = [] -> evs s0 = [] -> let s := fst (read_data E s0 (script_of e)) in rclosed s = true /\ ((forall k, e_close E k = false) -> out s = map (fun c => (firstn (e_max E) c, 0)) conns /\ evs s = [- (AOSL_EBASE + 1000)])).
  { intros s0 G C R D O V s'. unfold s'. rewrite SC, AR. destruct (read_dgram (map (fun c => (c, 0)) conns) E s0 [RErr (- (AOSL_EBASE + 1000))] EC G C ltac:(congruence)) as (_ & rest & X2 & _ & X4); [right; eexists; split; [reflexivity|unfold AOSL_EAGAIN, AOSL_EBASE; lia]|]. destruct (X4 _ eq_refl) as [X5 X6]. split; [exact X5|]. intros NC. destruct (X6 NC) as [-> X7]. rewrite app_nil_r in X2. split; [rewrite X2, O; unfold pendm; rewrite R, D; cbn [app]; rewrite map_map; reflexivity|rewrite X7, V; reflexivity]. }
  assert (GI : geom E (r_init m [])) by (split; cbn; [unfold bufsize; rewrite EC; exact L|lia]).
  assert (M : rclosed s = true /\ ((forall k, e_close E k = false) -> out s = map (fun c => (firstn (e_max E) c, 0)) conns /\ evs s = [- (AOSL_EBASE + 1000)])) by (subst s; unfold rstep; cbn [r_init rclosed armed]; destruct e as [sc|sc]; cbn [script_of] in *; apply K; auto).
  destruct M as [M1 M2]. split; [exact M1|]. split; [exact M2|]. intros es. induction es as [|e0 es IH]; [reflexivity|]. change (rrun E s (e0 :: es)) with (rrun E (rstep E s e0) es). unfold rstep. rewrite M1. exact IH.
Qed.

(** What does hold of C50: the connections waiting at the first readability event are passed to the callback one by one, each at most once and in order, and all of them if no callback closes the socket; nothing else is passed on. *)
Theorem C50_first_series_partial : forall E m conns e s, e_chk E = None -> length m = e_max E -> script_of e = accept_reads conns -> s = rstep E (r_init m []) e ->
  exists n, out s = map (fun c => (firstn (e_max E) c, 0)) (firstn n conns) /\ ((forall k, e_close E k = false) -> firstn n conns = conns).
Proof.
  intros E m conns e s EC L SC ES.
  assert (AR : accept_reads conns = msgs (map (fun c => (c, 0)) conns) ++ [RErr (- (AOSL_EBASE + 1000))]) by (unfold accept_reads, msgs; rewrite map_map; reflexivity).
  assert (K : forall s0, geom E s0 -> rclosed s0 = false -> rr0 s0 = false -> data s0 = [] -> out s0 = [] -> evs s0 = [] -> let s := fst (read_data E s0 (script_of e)) in exists rest, out s ++ rest = map (fun c => (firstn (e_max E) c, 0)) conns).
  { intros s0 G C R D O V s'. unfold s'. rewrite SC, AR. destruct (read_dgram (map (fun c => (c, 0)) conns) E s0 [RErr (- (AOSL_EBASE + 1000))] EC G C ltac:(congruence)) as (_ & rest & X2 & _ & X4); [right; eexists; split; [reflexivity|unfold AOSL_EAGAIN, AOSL_EBASE; lia]|]. exists rest. rewrite X2, O. unfold pendm. rewrite R, D. cbn [app]. rewrite map_map. reflexivity. }
  assert (GI : geom E (r_init m [])) by (split; cbn; [unfold bufsize; rewrite EC; exact L|lia]).
  assert (M : exists rest, out s ++ rest = map (fun c => (firstn (e_max E) c, 0)) conns) by (subst s; unfold rstep; cbn [r_init rclosed armed]; destruct e as [sc|sc]; cbn [script_of] in *; apply K; auto).
  destruct M as [rest M]. exists (length (out s)). split.
  - rewrite <- firstn_map, <- M, firstn_app, Nat.sub_diag, firstn_all. cbn. rewrite app_nil_r. reflexivity.
  - intros NC. destruct (C50_refuted E m conns e s EC L SC ES) as (_ & X & _). destruct (X NC) as [-> _]. rewrite map_length. apply firstn_all.
Qed.

(** ** Concrete cases *)
(** A checker of packets with a length byte in front. *)
Definition lenchk (l : list Z) : Z := match l with [] => 0 | n :: r => if n <? 0 then -5 else if Z.of_nat (length r) <? n then 0 else n + 1 end.
Example lenchk_sound : sound_chk lenchk.
Proof.
  intros [|n r] N; [congruence|]. cbn [lenchk length app]. destruct (Z.ltb_spec n 0); [split; [lia|reflexivity]|]. destruct (Z.ltb_spec (Z.of_nat (length r)) n); [split; [lia|congruence]|]. split; [lia|]. intros _ l'. rewrite app_length. destruct (Z.ltb_spec (Z.of_nat (length r + length l')) n); [lia|reflexivity].
Qed.
Example lenchk_framing : framing lenchk [1; 9; 2; 8; 7; 3; 1] [[1; 9]; [2; 8; 7]] (Wait [3; 1]).
Proof. apply (F_pkt lenchk [1; 9] [2; 8; 7; 3; 1]); [discriminate|reflexivity|]. apply (F_pkt lenchk [2; 8; 7] [3; 1]); [discriminate|reflexivity|]. apply F_wait; [discriminate|reflexivity]. Qed.
Example ex_chunks : forall k, In k [[RTake 7]; [RTake 1; RTake 1; RTake 1; RTake 1; RTake 1; RTake 1; RTake 1]; [RTake 3; RTake 9]] -> packets (rrun (pure_env 8 lenchk) (r_init (repeat 0 16) [1; 9; 2; 8; 7; 3; 1]) [EPoll k]) = [[1; 9]; [2; 8; 7]].
Proof. intros k [<-|[<-|[<-|[]]]]; reflexivity. Qed.
(** A packet longer than twice the maximal size: the full buffer is reported as the end of the stream. *)
Example ex_oversized : map fst (out (rrun (pure_env 2 lenchk) (r_init (repeat 0 4) [9; 1; 2; 3; 4; 5; 6; 7; 8; 9]) [EPoll [RTake 20; RTake 20]])) = [[]]. Proof. reflexivity. Qed.
Example ex_dgram : out (rrun (mkE 3 None (fun _ => false)) (r_init [0; 0; 0] []) [EPoll (msgs [([1; 2], 7); ([], 8); ([1; 2; 3; 4], 9)])]) = [([1; 2], 7); ([], 8); ([1; 2; 3], 9)]. Proof. reflexivity. Qed.
Example ex_fits : fits (pure_env 200 lenchk) <-> forall l, length l = 400%nat -> lenchk l <> 0. Proof. unfold fits, pure_env, bufsize. cbn [e_chk e_max]. change (2 * 200)%nat with 400%nat. split; [intros H l; apply (H 0%nat)|intros H _; exact H]. Qed.
(** A format with packets of 2 bytes. *)
Example ex_fits2 : env_ok (pure_env 1024 (fun l => if (length l <? 2)%nat then 0 else 2)) /\ fits (pure_env 1024 (fun l => if (length l <? 2)%nat then 0 else 2)).
Proof. split; [apply le_n|]. intros k l H. unfold bufsize in H. cbn [pure_env e_chk e_max] in H. destruct (Nat.ltb_spec (length l) 2); [lia|discriminate]. Qed.

Print Assumptions C33_conserved.
Print Assumptions C33_in_buffer.
Print Assumptions C33_polled.
Print Assumptions C33_framing.
Print Assumptions C33_chunking.
Print Assumptions C33_no_false_end.
Print Assumptions C33_datagrams.
Print Assumptions C50_refuted.
Print Assumptions C50_first_series_partial.
