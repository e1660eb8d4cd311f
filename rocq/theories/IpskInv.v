(** * Invariants of Ipsk.v. *)
From Verif Require Import Base Route PropRoute Ipsk IpskSpec.
From Verif Require Arith.

Lemma setn_same {A} (f : nat -> A) n x : setn f n x n = x. Proof. unfold setn. rewrite Nat.eqb_refl. reflexivity. Qed.
Lemma setn_other {A} (f : nat -> A) n x k : k <> n -> setn f n x k = f k. Proof. intros H. unfold setn. destruct (Nat.eqb_spec k n); congruence. Qed.
Lemma setp_same p n m x : setp p n m x n m = x. Proof. unfold setp. rewrite Nat.eqb_refl. destruct m; reflexivity. Qed.
Lemma setp_fam p n m x i : i <> m -> setp p n m x n i = p n i. Proof. intros H. unfold setp. rewrite Nat.eqb_refl. destruct m, i; cbn; congruence. Qed.
Lemma setp_other p n m x k i : k <> n -> setp p n m x k i = p k i. Proof. intros H. unfold setp. destruct (Nat.eqb_spec k n); [congruence|reflexivity]. Qed.

(** ** The cache *)
Record icache (v6 : bool) (s : st) : Prop := { ic : exists l, hist v6 (rts s) (known v6 (log s)) l }.
(** A look reports what the library last saw. *)
Definition look_ok (v6 : bool) (e : ev) (h : list ev) : Prop :=
  match e with ELook _ a b => (a = true <-> fst (known v6 h) <> None) /\ (b = true <-> snd (known v6 h) <> None) | _ => True end.
Fixpoint allok (P : ev -> list ev -> Prop) (h : list ev) : Prop := match h with [] => True | e :: r => P e r /\ allok P r end.
Lemma allok_at P l1 e l2 : allok P (l1 ++ e :: l2) -> P e l2.
Proof. induction l1 as [|x l1 IH]; cbn; intros [H K]; auto. Qed.

(** ** The calls *)
(** The events of the running call so far. *)
Definition sofar (v6 : bool) (n : nat) (s : st) : Prop :=
  match pcs s n with
  | Idle => True
  | Look ty pr => exists f4 f6, mine n (log s) = [ECall n (Create ty pr) (eno s n) f4 f6]
  | Mk4 ty pr a b => exists f4 f6, mine n (log s) = [ELook n a b; ECall n (Create ty pr) (eno s n) f4 f6] /\ pair s n V4 = -1 /\ pair s n V6 = -1
  | Mk6 ty pr b k => exists f4 f6 a l, mine n (log s) = rev l ++ [ELook n a b; ECall n (Create ty pr) (eno s n) f4 f6] /\ opens n V4 ty pr a l (pair s n V4) k /\ pair s n V6 = -1
  | B4 a4 a6 => mine n (log s) = [ECall n (Bind a4 a6) (eno s n) (pair s n V4) (pair s n V6)]
  | B6 a6 k => exists a4 e l, mine n (log s) = rev l ++ [ECall n (Bind a4 a6) e (pair s n V4) (pair s n V6)] /\ binds n true (pair s n V4) a4 l e (eno s n) k
  | X4 => mine n (log s) = [ECall n Close (eno s n) (pair s n V4) (pair s n V6)]
  | X6 => exists f4 l, mine n (log s) = rev l ++ [ECall n Close (eno s n) f4 (pair s n V6)] /\ closes n true f4 l (pair s n V4)
  end.
Definition ret_ok (v6 : bool) (e : ev) (h : list ev) : Prop :=
  match e with
  | ERet n r e' f4' f6' => exists c e f4 f6 l, mine n h = rev l ++ [ECall n c e f4 f6] /\ finished v6 n c e f4 f6 l r e' f4' f6'
  | _ => True
  end.
Record inv (v6 : bool) (s : st) : Prop := {
  i_cache : exists l, hist v6 (rts s) (known v6 (log s)) l;
  i_look : allok (look_ok v6) (log s);
  i_pc : forall n, sofar v6 n s;
  i_ret : allok (ret_ok v6) (log s) }.

Lemma mine_skip n e h : is_by n e = false -> mine n (e :: h) = mine n h.
Proof. intros H. cbn. rewrite H. reflexivity. Qed.
Lemma sofar_ext v6 n s s' : pcs s' n = pcs s n -> pair s' n V4 = pair s n V4 -> pair s' n V6 = pair s n V6 -> (pcs s n <> Idle -> eno s' n = eno s n) -> mine n (log s') = mine n (log s) -> sofar v6 n s -> sofar v6 n s'.
Proof.
  intros H1 H2 H3 H4 H5. unfold sofar. rewrite H1, H2, H3, H5. destruct (pcs s n); rewrite ?H4 by discriminate; auto.
Qed.
Lemma sofar_idle v6 n s : pcs s n = Idle -> sofar v6 n s.
Proof. unfold sofar. intros ->. exact I. Qed.
Lemma set_err_spec n err s : ker (set_err n err s) = ker s /\ rts (set_err n err s) = rts s /\ pair (set_err n err s) = pair s /\ pcs (set_err n err s) = pcs s /\ log (set_err n err s) = log s /\
  eno (set_err n err s) n = errno_after err (eno s n) /\ (forall k, k <> n -> eno (set_err n err s) k = eno s k).
Proof.
  unfold set_err, errno_after. destruct (fst _); cbn; repeat split; try reflexivity; [apply setn_same|]. intros k H. apply setn_other, H.
Qed.
Lemma isbad_f f : isbad f = false <-> f <> -1.
Proof. unfold isbad, NOFD. destruct (Z.eqb_spec f (-1)); split; congruence. Qed.
Lemma count_number k : 0 <= k -> count k = number k.
Proof. intros H. unfold count, number. destruct (Z.gtb_spec k 0), (Z.eqb_spec k 0); lia. Qed.
Lemma opens_k n m ty pr w l f k : opens n m ty pr w l f k -> k = 0 \/ k = 1.
Proof. unfold opens. destruct w; intuition. Qed.
Lemma binds_k n u f a l e e' k : binds n u f a l e e' k -> k = 0 \/ k = 1.
Proof. intros [(_ & _ & _ & err & _ & [H|H])|H]; intuition. Qed.

Lemma look_cache v6 s l : hist v6 (rts s) (known v6 (log s)) l ->
  (rt_valid v6 (d4 (get_curr (rts s))) = true <-> fst (known v6 (log s)) <> None) /\ (v6 && rt_valid v6 (d6 (get_curr (rts s))) = true <-> snd (known v6 (log s)) <> None).
Proof.
  intros H. assert (R : read v6 (get_curr (rts s)) = known v6 (log s) /\ okdef v6 (get_curr (rts s))).
  { apply hist_inv in H. destruct H. unfold get_curr in *. destruct (curr (rts s)); auto. }
  destruct R as [R [O4 O6]]. rewrite <- R. unfold read, read1. cbn [fst snd]. split.
  - destruct (rt_valid v6 (d4 _)); split; congruence.
  - destruct v6; cbn [andb].
    + destruct (rt_valid true (d6 _)); split; congruence.
    + pose proof (okrt_off _ O6) as K. unfold read1 in K. destruct (rt_valid false (d6 _)); [discriminate|]. split; congruence.
Qed.

(** What a step of pair [n] leaves alone. *)
Definition quiet_ev (e : ev) : Prop := match e with ERefresh _ | EClear => False | _ => True end.
Lemma own_step v6 s s' n evs :
  inv v6 s -> rts s' = rts s -> log s' = evs ++ log s -> Forall (fun e => quiet_ev e /\ is_by n e = true) evs ->
  (forall k, k <> n -> pcs s' k = pcs s k /\ eno s' k = eno s k /\ pair s' k V4 = pair s k V4 /\ pair s' k V6 = pair s k V6) ->
  allok (look_ok v6) (evs ++ log s) -> allok (ret_ok v6) (evs ++ log s) -> sofar v6 n s' -> inv v6 s'.
Proof.
  intros IV H1 H2 HE HF HL HR HN. constructor.
  - destruct (i_cache _ _ IV) as [l H]. exists l. rewrite H1, H2. replace (known v6 (evs ++ log s)) with (known v6 (log s)); [exact H|].
    clear - HE. induction HE as [|e r [Q _] _ IH]; cbn; [reflexivity|]. destruct e; try exact IH; destruct Q.
  - rewrite H2. exact HL.
  - intros k. destruct (Nat.eq_dec k n) as [->|D]; [exact HN|]. destruct (HF k D) as (A & B & C & E). apply (sofar_ext v6 k s); auto; [|apply (i_pc _ _ IV)].
    rewrite H2. clear - HE D. induction HE as [|e r [_ Q] _ IH]; cbn; [reflexivity|]. unfold is_by in *. destruct (caller e) as [c|]; [|discriminate]. apply Nat.eqb_eq in Q. subst c.
    destruct (Nat.eqb_spec n k); [congruence|]. exact IH.
  - rewrite H2. exact HR.
Qed.
Lemma env_step v6 s s' e :
  inv v6 s -> rts s' = rts s -> log s' = e :: log s -> quiet_ev e -> caller e = None -> pcs s' = pcs s -> (forall k, pcs s k <> Idle -> eno s' k = eno s k /\ pair s' k V4 = pair s k V4 /\ pair s' k V6 = pair s k V6) -> inv v6 s'.
Proof.
  intros IV H1 H2 Q C H3 H4. constructor.
  - destruct (i_cache _ _ IV) as [l H]. exists l. rewrite H1, H2. destruct e; try exact H; destruct Q.
  - rewrite H2. cbn. split; [destruct e; try exact I; discriminate|apply (i_look _ _ IV)].
  - intros k. destruct (pcs s k) eqn:E; [apply sofar_idle; rewrite H3; exact E|..].
    all: destruct (H4 k ltac:(congruence)) as (A & B & D); apply (sofar_ext v6 k s); try congruence; [rewrite H2; unfold mine, is_by; rewrite C; reflexivity|apply (i_pc _ _ IV)].
  - rewrite H2. cbn. split; [destruct e; try exact I; discriminate|apply (i_ret _ _ IV)].
Qed.

Lemma mine_own n e h : is_by n e = true -> (forall n c a b d, e <> ECall n c a b d) -> mine n (e :: h) = e :: mine n h.
Proof. intros H K. cbn. rewrite H. destruct e; try reflexivity. destruct (K n0 c e f4 f6 eq_refl). Qed.

Ltac some H := match type of H with Some ?a = Some ?b => assert (a = b) by congruence; clear H; subst b end.
Ltac others := intros ?k ?D; unfold ret, note, to, with_pair, with_ker, with_eno; cbn; rewrite ?setn_other, ?setp_other by congruence; auto.
Ltac byn := repeat (apply Forall_cons; [split; [exact I|unfold is_by; cbn; apply Nat.eqb_refl]|]); apply Forall_nil.

Lemma inv_step v6 s l s' : inv v6 s -> sane l -> step v6 s l = Some s' -> inv v6 s'.
Proof.
  intros IV SA H. destruct l as [n c|n|n|n r|n err|n late|n e|n m|fd|fd|fd|fd|fd|f g1 g2 o| ]; cbn [step] in H.
  - pose proof (i_pc _ _ IV n) as PN. destruct (pcs s n) eqn:P; try discriminate. some H.
    apply (own_step v6 s _ n [ECall n c (eno s n) (pair s n V4) (pair s n V6)] IV).
    + destruct c; reflexivity.
    + destruct c; reflexivity.
    + byn.
    + destruct c; others.
    + cbn. split; [exact I|apply (i_look _ _ IV)].
    + cbn. split; [exact I|apply (i_ret _ _ IV)].
    + unfold sofar. destruct c; unfold to, note; cbn; rewrite setn_same; unfold is_by; cbn; rewrite Nat.eqb_refl; eauto.
  - pose proof (i_pc _ _ IV n) as PN. unfold sofar in PN. destruct (pcs s n) eqn:P; try discriminate. some H. destruct PN as (f4 & f6 & M). destruct (i_cache _ _ IV) as [l IC].
    apply (own_step v6 s _ n [ELook n (rt_valid v6 (d4 (get_curr (rts s)))) (v6 && rt_valid v6 (d6 (get_curr (rts s))))] IV); try reflexivity.
    + byn.
    + others.
    + cbn [app allok]. split; [|apply (i_look _ _ IV)]. apply (look_cache v6 s l IC).
    + cbn [app allok]. split; [exact I|apply (i_ret _ _ IV)].
    + unfold sofar, to, note, with_pair. cbn [pcs log pair eno]. rewrite setn_same, mine_own, M; [|unfold is_by; cbn; apply Nat.eqb_refl|discriminate].
      exists f4, f6. rewrite setp_same, setp_fam, setp_same by discriminate. auto.
  - destruct (todo v6 s n) eqn:TD; [discriminate|]. unfold todo in TD. pose proof (i_pc _ _ IV n) as PN. unfold sofar in PN. destruct (pcs s n) eqn:P; try discriminate; some H.
    + destruct PN as (f4 & f6 & M & A4 & A6). subst a.
      apply (own_step v6 s _ n [] IV); try reflexivity; [byn|others|apply (i_look _ _ IV)|apply (i_ret _ _ IV)|].
      unfold sofar, to. cbn [pcs log pair eno]. rewrite setn_same. exists f4, f6, false, []. rewrite M, A4. cbn. auto.
    + destruct PN as (f4 & f6 & a & l & M & O4 & A6). subst b. pose proof (opens_k _ _ _ _ _ _ _ _ O4) as K.
      apply (own_step v6 s _ n [ERet n (count k) (eno s n) (pair s n V4) (pair s n V6)] IV); try reflexivity; [byn|others|cbn; split; [exact I|apply (i_look _ _ IV)]| |].
      * cbn [app allok]. split; [|apply (i_ret _ _ IV)]. exists (Create ty pr), (eno s n), f4, f6, (ELook n a false :: l). split; [rewrite M; cbn [rev]; rewrite <- app_assoc; reflexivity|].
        exists a, false, l, [], k, 0. rewrite app_nil_r, Z.add_0_r, A6. split; [reflexivity|]. split; [exact O4|]. split; [cbn; auto|]. split; [apply count_number; lia|reflexivity].
      * apply sofar_idle. unfold ret, to. cbn. apply setn_same.
    + apply (own_step v6 s _ n [] IV); try reflexivity; [byn|others|apply (i_look _ _ IV)|apply (i_ret _ _ IV)|].
      unfold sofar, to. cbn [pcs log pair eno]. rewrite setn_same. exists a4, (eno s n), []. split; [exact PN|]. right. split; [|auto].
      intros (_ & F & G). apply isbad_f in F. rewrite F in TD. apply Z.eqb_neq in G. rewrite G in TD. discriminate.
    + destruct PN as (a4 & e & l & M & B). pose proof (binds_k _ _ _ _ _ _ _ _ B) as K.
      apply (own_step v6 s _ n [ERet n (count k) (eno s n) (pair s n V4) (pair s n V6)] IV); try reflexivity; [byn|others|cbn; split; [exact I|apply (i_look _ _ IV)]| |].
      * cbn [app allok]. split; [|apply (i_ret _ _ IV)]. exists (Bind a4 a6), e, (pair s n V4), (pair s n V6), l. split; [exact M|].
        exists l, [], (eno s n), k, 0. rewrite app_nil_r, Z.add_0_r. split; [reflexivity|]. split; [exact B|]. split; [|split; [apply count_number; lia|auto]].
        right. split; [|auto]. intros (U & F & G). rewrite U in TD. apply isbad_f in F. rewrite F in TD. apply Z.eqb_neq in G. rewrite G in TD. discriminate.
      * apply sofar_idle. unfold ret, to. cbn. apply setn_same.
    + apply (own_step v6 s _ n [] IV); try reflexivity; [byn|others|apply (i_look _ _ IV)|apply (i_ret _ _ IV)|].
      unfold sofar, to. cbn [pcs log pair eno]. rewrite setn_same. exists (pair s n V4), []. split; [exact PN|]. right. split; [|auto].
      intros (_ & F). apply isbad_f in F. rewrite F in TD. discriminate.
    + destruct PN as (f4 & l & M & B).
      apply (own_step v6 s _ n [ERet n 0 (eno s n) (pair s n V4) (pair s n V6)] IV); try reflexivity; [byn|others|cbn; split; [exact I|apply (i_look _ _ IV)]| |].
      * cbn [app allok]. split; [|apply (i_ret _ _ IV)]. exists Close, (eno s n), f4, (pair s n V6), l. split; [exact M|].
        exists l, []. rewrite app_nil_r. split; [reflexivity|]. split; [exact B|]. split; [|reflexivity].
        right. split; [|auto]. intros (U & F). rewrite U in TD. apply isbad_f in F. rewrite F in TD. discriminate.
      * apply sofar_idle. unfold ret, to. cbn. apply setn_same.
  - destruct (todo v6 s n) eqn:TD; [|discriminate]. cbn [negb] in H. unfold todo in TD. pose proof (i_pc _ _ IV n) as PN. unfold sofar in PN. destruct (pcs s n) eqn:P; try discriminate.
    + subst a. destruct PN as (f4 & f6 & M & A4 & A6). unfold open in H. destruct r as [fd|].
      * destruct (_ || _) eqn:G in H; [discriminate|]. some H. apply orb_false_iff in G. destruct G as [G _]. apply Z.ltb_ge in G.
        apply (own_step v6 s _ n [EOpen n V4 (af V4) fd ty pr] IV); try reflexivity; [byn|others|cbn; split; [exact I|apply (i_look _ _ IV)]|cbn; split; [exact I|apply (i_ret _ _ IV)]|].
        unfold sofar, to, note, with_pair, with_ker. cbn [pcs log pair eno]. rewrite setn_same, mine_own, M; [|unfold is_by; cbn; apply Nat.eqb_refl|discriminate].
        rewrite setp_same, setp_fam by discriminate. exists f4, f6, true, [EOpen n V4 (af V4) fd ty pr]. split; [reflexivity|]. split; [right; auto|exact A6].
      * some H.
        apply (own_step v6 s _ n [ENoOpen n V4 (af V4) ty pr] IV); try reflexivity; [byn|others|cbn; split; [exact I|apply (i_look _ _ IV)]|cbn; split; [exact I|apply (i_ret _ _ IV)]|].
        unfold sofar, to, note. cbn [pcs log pair eno]. rewrite setn_same, mine_own, M; [|unfold is_by; cbn; apply Nat.eqb_refl|discriminate].
        exists f4, f6, true, [ENoOpen n V4 (af V4) ty pr]. split; [reflexivity|]. split; [left; auto|exact A6].
    + subst b. destruct PN as (f4 & f6 & a & l & M & O4 & A6). pose proof (opens_k _ _ _ _ _ _ _ _ O4) as K. unfold open in H. destruct r as [fd|].
      * destruct (_ || _) eqn:G in H; [discriminate|]. some H. apply orb_false_iff in G. destruct G as [G _]. apply Z.ltb_ge in G.
        apply (own_step v6 s _ n [ERet n (count (k + 1)) (eno s n) (pair s n V4) fd; EOpen n V6 (af V6) fd ty pr] IV); try reflexivity; [|byn|others|cbn; split; [exact I|split; [exact I|apply (i_look _ _ IV)]]| |].
        -- unfold ret, to, note, with_pair, with_ker. cbn [log pair eno]. rewrite setp_same, setp_fam by discriminate. reflexivity.
        -- cbn [app allok]. split; [|split; [exact I|apply (i_ret _ _ IV)]]. exists (Create ty pr), (eno s n), f4, f6, (ELook n a true :: l ++ [EOpen n V6 (af V6) fd ty pr]).
           split; [rewrite mine_own, M by (try discriminate; unfold is_by; cbn; apply Nat.eqb_refl); cbn [rev]; rewrite rev_app_distr; cbn [rev app]; rewrite <- app_assoc; reflexivity|].
           exists a, true, l, [EOpen n V6 (af V6) fd ty pr], k, 1. split; [reflexivity|]. split; [exact O4|]. split; [right; auto|]. split; [apply count_number; lia|reflexivity].
        -- apply sofar_idle. unfold ret, to. cbn. apply setn_same.
      * some H.
        apply (own_step v6 s _ n [ERet n (count (k + 0)) (eno s n) (pair s n V4) (pair s n V6); ENoOpen n V6 (af V6) ty pr] IV); try reflexivity; [byn|others|cbn; split; [exact I|split; [exact I|apply (i_look _ _ IV)]]| |].
        -- cbn [app allok]. split; [|split; [exact I|apply (i_ret _ _ IV)]]. exists (Create ty pr), (eno s n), f4, f6, (ELook n a true :: l ++ [ENoOpen n V6 (af V6) ty pr]).
           split; [rewrite mine_own, M by (try discriminate; unfold is_by; cbn; apply Nat.eqb_refl); cbn [rev]; rewrite rev_app_distr; cbn [rev app]; rewrite <- app_assoc; reflexivity|].
           exists a, true, l, [ENoOpen n V6 (af V6) ty pr], k, 0. split; [reflexivity|]. split; [exact O4|]. split; [left; auto|]. split; [apply count_number; lia|reflexivity].
        -- apply sofar_idle. unfold ret, to. cbn. apply setn_same.
  - destruct (todo v6 s n) eqn:TD; [|discriminate]. cbn [negb] in H. unfold todo in TD. pose proof (i_pc _ _ IV n) as PN. unfold sofar in PN. destruct (pcs s n) eqn:P; try discriminate.
    + apply andb_prop in TD. destruct TD as [TD1 TD2]. apply negb_true_iff, isbad_f in TD1. apply negb_true_iff, Z.eqb_neq in TD2.
      destruct (bind1 n V4 a4 err s) as [s1 k] eqn:B. some H. unfold bind1 in B. set (s0 := note (EBind n (pair s n V4) a4 err) s) in B.
      destruct (set_err_spec n err s0) as (E1 & E2 & E3 & E4 & E5 & E6 & E7).
      assert (Q : rts s1 = rts s /\ pair s1 = pair s /\ pcs s1 = pcs s /\ log s1 = EBind n (pair s n V4) a4 err :: log s /\ (forall k, k <> n -> eno s1 k = eno s k) /\
        (err = 0 /\ eno s1 n = eno s n /\ k = 1 \/ err <> 0 /\ eno s1 n = errno_after err (eno s n) /\ k = 0)).
      { destruct (Z.eqb_spec err 0); injection B as <- <-; [cbn; auto 10|]. rewrite E2, E3, E4, E5, E6. split; [reflexivity|]. split; [reflexivity|]. split; [reflexivity|]. split; [reflexivity|]. split; [exact E7|right; auto]. }
      destruct Q as (Q1 & Q2 & Q3 & Q4 & Q5 & Q6). clear B E1 E2 E3 E4 E5 E6 E7 s0.
      apply (own_step v6 s _ n [EBind n (pair s n V4) a4 err] IV); [exact Q1|exact Q4|byn| |cbn; split; [exact I|apply (i_look _ _ IV)]|cbn; split; [exact I|apply (i_ret _ _ IV)]|].
      * intros j D. cbn. rewrite setn_other, Q3, Q2, Q5 by assumption. auto.
      * unfold sofar, to. cbn [pcs log pair eno]. rewrite setn_same, Q4, Q2, mine_own, PN; [|unfold is_by; cbn; apply Nat.eqb_refl|discriminate].
        exists a4, (eno s n), [EBind n (pair s n V4) a4 err]. split; [reflexivity|]. left. split; [reflexivity|]. split; [exact TD1|]. split; [exact TD2|]. exists err. auto.
    + apply andb_prop in TD. destruct TD as [TD0 TD]. apply andb_prop in TD. destruct TD as [TD1 TD2]. apply negb_true_iff, isbad_f in TD1. apply negb_true_iff, Z.eqb_neq in TD2.
      destruct PN as (a4 & e & l & M & B4).
      destruct (bind1 n V6 a6 err s) as [s1 k'] eqn:B. some H. unfold bind1 in B. set (s0 := note (EBind n (pair s n V6) a6 err) s) in B.
      destruct (set_err_spec n err s0) as (E1 & E2 & E3 & E4 & E5 & E6 & E7).
      assert (Q : rts s1 = rts s /\ pair s1 = pair s /\ pcs s1 = pcs s /\ log s1 = EBind n (pair s n V6) a6 err :: log s /\ (forall k, k <> n -> eno s1 k = eno s k) /\
        (err = 0 /\ eno s1 n = eno s n /\ k' = 1 \/ err <> 0 /\ eno s1 n = errno_after err (eno s n) /\ k' = 0)).
      { destruct (Z.eqb_spec err 0); injection B as <- <-; [cbn; auto 10|]. rewrite E2, E3, E4, E5, E6. split; [reflexivity|]. split; [reflexivity|]. split; [reflexivity|]. split; [reflexivity|]. split; [exact E7|right; auto]. }
      destruct Q as (Q1 & Q2 & Q3 & Q4 & Q5 & Q6). clear B E1 E2 E3 E4 E5 E6 E7 s0.
      pose proof (binds_k _ _ _ _ _ _ _ _ B4) as K4.
      apply (own_step v6 s _ n [ERet n (count (k + k')) (eno s1 n) (pair s n V4) (pair s n V6); EBind n (pair s n V6) a6 err] IV); [exact Q1|cbn; rewrite Q4, Q2; reflexivity|byn| |cbn; split; [exact I|split; [exact I|apply (i_look _ _ IV)]]| |].
      * intros j D. cbn. rewrite setn_other, Q3, Q2, Q5 by assumption. auto.
      * cbn [app allok]. split; [|split; [exact I|apply (i_ret _ _ IV)]]. exists (Bind a4 a6), e, (pair s n V4), (pair s n V6), (l ++ [EBind n (pair s n V6) a6 err]).
        split; [rewrite mine_own, M by (try discriminate; unfold is_by; cbn; apply Nat.eqb_refl); rewrite rev_app_distr; reflexivity|].
        exists l, [EBind n (pair s n V6) a6 err], (eno s n), k, k'. split; [reflexivity|]. split; [exact B4|]. split; [|split; [apply count_number; lia|auto]].
        left. split; [exact TD0|]. split; [exact TD1|]. split; [exact TD2|]. exists err. auto.
      * apply sofar_idle. cbn. apply setn_same.
  - destruct (todo v6 s n) eqn:TD; [|discriminate]. cbn [negb] in H. unfold todo in TD. pose proof (i_pc _ _ IV n) as PN. unfold sofar in PN. destruct (pcs s n) eqn:P; try discriminate.
    + apply negb_true_iff, isbad_f in TD. destruct (close1 n V4 late s) as [s1|] eqn:B; [|discriminate]. some H.
      assert (Q : exists e, (e = EClose n (pair s n V4) \/ e = EDefer n (pair s n V4) \/ e = EBadf n (pair s n V4)) /\ log s1 = e :: log s /\ rts s1 = rts s /\ pcs s1 = pcs s /\ eno s1 = eno s /\ pair s1 = setp (pair s) n V4 NOFD).
      { unfold close1 in B. destruct (look _ _) as [e|], late; try discriminate B; [destruct (e_q e); [|discriminate B]| |]; injection B as <-; cbn; eexists; (split; [|split; [reflexivity|auto]]); auto. }
      destruct Q as (e & QE & Q1 & Q2 & Q3 & Q4 & Q5). clear B.
      assert (QB : is_by n e = true /\ quiet_ev e /\ (forall n c a b d, e <> ECall n c a b d) /\ (forall h, look_ok v6 e h /\ ret_ok v6 e h)).
      { destruct QE as [QX|[QX|QX]]; rewrite ?QX; (split; [unfold is_by; cbn; apply Nat.eqb_refl|]; split; [exact I|]; split; [discriminate|]; intros; split; exact I). }
      destruct QB as (QB1 & QB2 & QB3 & QB4).
      apply (own_step v6 s _ n [e] IV); [exact Q2|exact Q1|constructor; [auto|constructor]| |cbn; split; [apply QB4|apply (i_look _ _ IV)]|cbn; split; [apply QB4|apply (i_ret _ _ IV)]|].
      * intros j D. cbn. rewrite setn_other, Q3, Q4, Q5, !setp_other by assumption. auto.
      * unfold sofar, to. cbn [pcs log pair eno]. rewrite setn_same, Q1, Q4, Q5, mine_own, PN, setp_same, setp_fam by (try assumption; discriminate).
        exists (pair s n V4), [e]. split; [reflexivity|]. left. split; [reflexivity|]. split; [exact TD|]. split; [destruct QE as [QX|[QX|QX]]; rewrite ?QX; auto|reflexivity].
    + apply andb_prop in TD. destruct TD as [TD0 TD]. apply negb_true_iff, isbad_f in TD. destruct (close1 n V6 late s) as [s1|] eqn:B; [|discriminate]. some H.
      destruct PN as (f4 & l & M & C4).
      assert (Q : exists e, (e = EClose n (pair s n V6) \/ e = EDefer n (pair s n V6) \/ e = EBadf n (pair s n V6)) /\ log s1 = e :: log s /\ rts s1 = rts s /\ pcs s1 = pcs s /\ eno s1 = eno s /\ pair s1 = setp (pair s) n V6 NOFD).
      { unfold close1 in B. destruct (look _ _) as [e|], late; try discriminate B; [destruct (e_q e); [|discriminate B]| |]; injection B as <-; cbn; eexists; (split; [|split; [reflexivity|auto]]); auto. }
      destruct Q as (e & QE & Q1 & Q2 & Q3 & Q4 & Q5). clear B.
      assert (QB : is_by n e = true /\ quiet_ev e /\ (forall n c a b d, e <> ECall n c a b d) /\ (forall h, look_ok v6 e h /\ ret_ok v6 e h)).
      { destruct QE as [QX|[QX|QX]]; rewrite ?QX; (split; [unfold is_by; cbn; apply Nat.eqb_refl|]; split; [exact I|]; split; [discriminate|]; intros; split; exact I). }
      destruct QB as (QB1 & QB2 & QB3 & QB4).
      apply (own_step v6 s _ n [ERet n 0 (eno s n) (pair s n V4) (-1); e] IV); [exact Q2|cbn; rewrite Q1, Q4, Q5, setp_same, setp_fam by discriminate; reflexivity| | |cbn; split; [exact I|split; [apply QB4|apply (i_look _ _ IV)]]| |].
      * constructor; [split; [exact I|unfold is_by; cbn; apply Nat.eqb_refl]|]. constructor; [auto|constructor].
      * intros j D. cbn. rewrite setn_other, Q3, Q4, Q5, !setp_other by assumption. auto.
      * cbn [app allok]. split; [|split; [apply QB4|apply (i_ret _ _ IV)]]. exists Close, (eno s n), f4, (pair s n V6), (l ++ [e]).
        split; [rewrite mine_own, M by assumption; rewrite rev_app_distr; reflexivity|].
        exists l, [e]. split; [reflexivity|]. split; [exact C4|]. split; [|reflexivity]. left. split; [exact TD0|]. split; [exact TD|]. split; [destruct QE as [QX|[QX|QX]]; rewrite ?QX; auto|reflexivity].
      * apply sofar_idle. cbn. apply setn_same.
  - destruct (pcs s n) eqn:P; try discriminate. some H. apply (own_step v6 s _ n [] IV); try reflexivity; [byn|others|apply (i_look _ _ IV)|apply (i_ret _ _ IV)|apply sofar_idle; exact P].
  - destruct (pcs s n) eqn:P; try discriminate. some H. apply (env_step v6 s _ (EForget n m) IV); try reflexivity. intros k K. unfold note, with_pair. cbn. rewrite !setp_other by congruence. auto.
  - destruct (_ || _) in H; [discriminate|]. some H. apply (env_step v6 s _ (EOther fd) IV); try reflexivity. auto.
  - destruct (look fd (ker s)) as [[x [o|] q]|] in H; try discriminate. some H. apply (env_step v6 s _ (EOtherClose fd) IV); try reflexivity. auto.
  - destruct (look fd (ker s)) as [e|] in H; try discriminate. destruct (e_q e) in H; try discriminate. some H. apply (env_step v6 s _ (EAdd fd) IV); try reflexivity. auto.
  - destruct (look fd (ker s)) as [e|] in H; try discriminate. destruct (e_q e) in H; try discriminate. some H. apply (env_step v6 s _ (EDel fd) IV); try reflexivity. auto.
  - destruct (look fd (ker s)) as [e|] in H; try discriminate. destruct (e_q e) in H; try discriminate. some H. apply (env_step v6 s _ (EQclose fd) IV); try reflexivity. auto.
  - some H. constructor.
    + destruct (i_cache _ _ IV) as [l IC]. exists (if is_up (seen v6 o) then Some (seen v6 o) else l). cbn. apply (h_check v6 (rts s) (known v6 (log s)) l f g1 g2 o IC SA).
    + cbn. split; [exact I|apply (i_look _ _ IV)].
    + intros k. apply (sofar_ext v6 k s); auto. apply (i_pc _ _ IV).
    + cbn. split; [exact I|apply (i_ret _ _ IV)].
  - some H. constructor.
    + exists None. cbn. apply h_init.
    + cbn. split; [exact I|apply (i_look _ _ IV)].
    + intros k. apply (sofar_ext v6 k s); auto. apply (i_pc _ _ IV).
    + cbn. split; [exact I|apply (i_ret _ _ IV)].
Qed.
Lemma inv_init v6 r : inv v6 (init r).
Proof. constructor; cbn; auto. exists None. apply h_init. Qed.
Lemma inv_reach v6 s : reach v6 s -> inv v6 s.
Proof. induction 1; [apply inv_init|]. eapply inv_step; eauto. Qed.
Lemma lreach_reach v6 s : lreach v6 s -> reach v6 s.
Proof. induction 1; [constructor|]. econstructor; eauto. Qed.
