(** * Invariants of the model of network event subscription (Netev.v). *)
From Verif Require Import Base Route Netev NetevSpec.

Fixpoint ushape (l : list frame) : bool :=
  match l with
  | FUser :: r => match r with [] => true | [FMsgs _ _] => true | FSubR _ :: r' => ushape r' | _ => false end
  | _ => false
  end.
Definition cfr (c : frame) : bool := match c with FCreate _ | FBind _ _ | FAdd _ _ | FFail _ _ => true | _ => false end.
Definition fof (c : frame) : option fn := match c with FCreate f | FBind f _ | FAdd f _ => Some f | _ => None end.
Definition holds (own : Z -> option owner) (c : frame) : Prop :=
  match c with
  | FBind _ n | FAdd _ n => own n = Some OLib /\ 0 <= n
  | FFail n k => k = 1%nat \/ (k = 2%nat /\ own n = Some OLib)
  | _ => True end.

Inductive okl (s : st) (q : nat) : list frame -> Prop :=
| ok_nil : okl s q []
| ok_user u : ushape u = true -> okl s q u
| ok_msgs f k : okl s q [FMsgs f k]
| ok_chkm f f' k : okl s q [FCheck f; FMsgs f' k]
| ok_chks f f' u : ushape u = true -> okl s q (FCheck f :: FSubR f' :: u)
| ok_subr f u : ushape u = true -> okl s q (FSubR f :: u)
| ok_evt f n : att s n = Some (q, f) -> okl s q [FEvt f n]
| ok_csub c f u : cfr c = true -> ushape u = true -> lock s = Some q -> subq s = None -> holds (own s) c -> (fof c = None \/ fof c = Some f) -> okl s q (c :: FSub f :: u)
| ok_crec c f : cfr c = true -> subq s = Some q -> netf s = Some f -> (fof c = None \/ fof c = Some f) -> (forall n, att s n = None) -> holds (own s) c -> okl s q [c].

Definition creating (n : Z) (l : list frame) : Prop :=
  match l with FBind _ m :: _ | FAdd _ m :: _ => m = n | FFail m k :: _ => m = n /\ k = 2%nat | _ => False end.

Record inv (s : st) : Prop := {
  i_hold : match subq s, netf s with Some q, Some f => holder (log s) = Some (q, f) | None, None => holder (log s) = None | _, _ => False end;
  i_att : forall n q f, att s n = Some (q, f) -> subq s = Some q /\ netf s = Some f /\ nlfd s = n /\ own s n = Some OLib /\ alive s q = true /\ 0 <= n;
  i_stk : forall q, okl s q (stk s q);
  i_alive : forall q, stk s q <> [] -> alive s q = true;
  i_own : forall n, own s n = Some OLib -> (exists a, att s n = Some a) \/ exists q, creating n (stk s q);
  i_lock : forall q, lock s = Some q -> exists c f u, stk s q = c :: FSub f :: u }.

Lemma okl_other s s' q l : okl s q l -> (forall n f, att s n = Some (q, f) -> subq s = Some q) ->
  (lock s = Some q -> subq s = None -> lock s' = Some q /\ subq s' = None /\ forall n, own s n = Some OLib -> own s' n = Some OLib) ->
  (subq s = Some q -> subq s' = Some q /\ netf s' = netf s /\ ((forall n, att s n = None) -> (forall n, att s' n = None) /\ forall n, own s n = Some OLib -> own s' n = Some OLib) /\
     forall n f, att s n = Some (q, f) -> att s' n = Some (q, f)) -> okl s' q l.
Proof.
  intros H A L R. destruct H as [|u U|f k|f f' k|f f' u U|f u U|f n E|c f u C U LK SQ HO FO|c f C SQ NF FO NA HO]; try (now constructor); try (now apply ok_chkm); try (now apply ok_chks); try (now apply ok_subr); try (now apply ok_msgs).
  - apply ok_evt. apply R; [eapply A; eassumption|assumption].
  - destruct (L LK SQ) as (A1 & A2 & A3). apply ok_csub; auto. destruct c; cbn in *; try exact HO; intuition.
  - destruct (R SQ) as (A1 & A2 & A3 & A4). destruct (A3 NA) as [A5 A6]. eapply ok_crec; eauto; try congruence. destruct c; cbn in *; try exact HO; intuition.
Qed.
Lemma okl_ext s s' q l : okl s q l -> lock s' = lock s -> subq s' = subq s -> netf s' = netf s -> att s' = att s -> own s' = own s -> okl s' q l.
Proof.
  intros H E1 E2 E3 E4 E5.
  destruct H as [|u U|f k|f f' k|f f' u U|f u U|f n E|c f u C U LK SQ HO FO|c f C SQ NF FO NA HO]; try (now constructor); try (now apply ok_chkm); try (now apply ok_chks); try (now apply ok_subr); try (now apply ok_msgs).
  - apply ok_evt. congruence.
  - apply ok_csub; auto; congruence.
  - eapply ok_crec; eauto; try congruence.
Qed.

(** Reading of the stack of a thread. *)
Lemma okl_user s q r : okl s q (FUser :: r) -> ushape (FUser :: r) = true.
Proof. inversion 1; subst; auto; cbn in *; discriminate. Qed.
Lemma ushape_top u : ushape u = true -> exists r, u = FUser :: r.
Proof. destruct u as [|[] r]; cbn; try discriminate. eauto. Qed.
Lemma okl_create s q c b : cfr c = true -> okl s q (c :: b) ->
  (exists f u, b = FSub f :: u /\ ushape u = true /\ lock s = Some q /\ subq s = None /\ holds (own s) c /\ (fof c = None \/ fof c = Some f)) \/
  (exists f, b = [] /\ subq s = Some q /\ netf s = Some f /\ (fof c = None \/ fof c = Some f) /\ (forall n, att s n = None) /\ holds (own s) c).
Proof.
  intros C. inversion 1; subst; try (cbn in C; discriminate).
  - match goal with U : ushape _ = true |- _ => apply ushape_top in U; destruct U as [r U]; injection U as -> -> end. cbn in C. discriminate.
  - left. eauto 10.
  - right. eauto 10.
Qed.
Definition okl_create2 s q c b (K : okl s q (c :: b)) (C : cfr c = true) := okl_create s q c b C K.
Lemma okl_below s q c b : okl s q (c :: b) -> match c with FUser | FMsgs _ _ | FSubR _ | FCheck _ => True | _ => False end ->
  okl s q b /\ (match c with FMsgs _ _ => b = [] | FCheck _ => (exists f k, b = [FMsgs f k]) \/ (exists f u, b = FSubR f :: u /\ ushape u = true) | _ => True end).
Proof.
  inversion 1; subst; intros T; try (destruct T; fail); try (cbn in *; discriminate).
  - match goal with U : ushape _ = true |- _ => pose proof U as U'; apply ushape_top in U'; destruct U' as [r U']; injection U' as -> ->; cbn in U end.
    split; [|trivial]. destruct r as [|x r]; [apply ok_nil|]. destruct x; try discriminate; [now apply ok_subr|]. destruct r; [apply ok_msgs|discriminate].
  - split; [apply ok_nil|reflexivity].
  - split; [apply ok_msgs|eauto].
  - split; [apply ok_subr; assumption|right; eauto].
  - split; [apply ok_user; assumption|trivial].
  - destruct c; cbn in *; try discriminate; destruct T.
  - destruct c; cbn in *; try discriminate; destruct T.
Qed.

(** No two threads create a socket at the same time, and none is attached meanwhile. *)
Lemma creating_mode s q n : inv s -> creating n (stk s q) ->
  own s n = Some OLib /\ (forall m, att s m = None) /\ ((lock s = Some q /\ subq s = None) \/ subq s = Some q).
Proof.
  intros IV C. pose proof (i_stk _ IV q) as K. destruct (stk s q) as [|c b] eqn:E; [destruct C|].
  assert (CF : cfr c = true) by (destruct c; cbn in C; try reflexivity; destruct C).
  destruct (okl_create _ _ _ _ CF K) as [(f & u & -> & U & L & SQ & HO & _)|(f & -> & SQ & NF & _ & NA & HO)].
  - split; [|split; [|left; auto]].
    + destruct c; cbn in C, HO; try destruct C; subst; try destruct HO as [HO|HO]; try tauto; lia.
    + intros m. destruct (att s m) as [[q' f']|] eqn:A; [|reflexivity]. apply (i_att _ IV) in A. destruct A as (A & _). congruence.
  - split; [|split; [assumption|right; auto]].
    destruct c; cbn in C, HO; try destruct C; subst; try destruct HO as [HO|HO]; try tauto; lia.
Qed.

Lemma sett_stk q l s x : stk (sett q l s) x = if (x =? q)%nat then l else stk s x.
Proof. reflexivity. Qed.

(** A step that changes only the stack of q and the log. *)
Definition quiet (e : event) : bool := match e with EOn _ _ | EUnsub _ true _ => false | _ => true end.
Lemma inv_stack s q l r lg : inv s -> okl s q l -> (l <> [] -> alive s q = true) -> (forall n, creating n (stk s q) -> creating n l) ->
  (lock s = Some q -> exists c f u, l = c :: FSub f :: u) -> holder lg = holder (log s) ->
  inv (mkS (own s) (att s) (subq s) (netf s) (nlfd s) (lock s) r (fun x => if (x =? q)%nat then l else stk s x) (alive s) lg).
Proof.
  intros IV O A C LK HL. constructor; cbn.
  - rewrite HL. apply IV.
  - apply IV.
  - intros x. destruct (x =? q)%nat eqn:E; [apply Nat.eqb_eq in E; subst x|]; apply (okl_ext s); try reflexivity; [exact O|apply IV].
  - intros x. destruct (x =? q)%nat eqn:E; [apply Nat.eqb_eq in E; subst x; exact A|apply IV].
  - intros n Hn. destruct (i_own _ IV n Hn) as [H|[x H]]; [left; exact H|right]. exists x. destruct (x =? q)%nat eqn:E; [apply Nat.eqb_eq in E; subst x; auto|exact H].
  - intros x Hx. destruct (x =? q)%nat eqn:E; [apply Nat.eqb_eq in E; subst x; auto|apply IV; auto].
Qed.
Lemma inv_note s e : inv s -> quiet e = true -> inv (note e s).
Proof.
  intros IV Q. constructor; [|apply IV| |apply IV|apply IV|apply IV].
  - assert (HL : holder (log (note e s)) = holder (log s)) by (destruct e as [| | |? [] ?| | | |]; cbn in *; try discriminate; reflexivity). rewrite HL. apply IV.
  - intros q. apply (okl_ext s); try reflexivity. apply IV.
Qed.
Lemma okl_vac s s' x l : inv s -> okl s x l -> lock s <> Some x \/ subq s <> None -> subq s <> Some x -> okl s' x l.
Proof.
  intros IV K L SQ. eapply okl_other; [exact K| | |].
  - intros n f A. apply (i_att _ IV) in A. tauto.
  - intros E1 E2. destruct L as [L|L]; contradiction.
  - intros E. contradiction.
Qed.
Lemma eqb_neq x q : (x =? q)%nat = false -> x <> q.
Proof. intros E. apply Nat.eqb_neq, E. Qed.
Ltac split_q x q := destruct (x =? q)%nat eqn:?E; [match goal with E : (x =? q)%nat = true |- _ => apply Nat.eqb_eq in E; subst x end|match goal with E : (x =? q)%nat = false |- _ => let D := fresh "Dq" in pose proof (eqb_neq _ _ E) as D end].
Lemma lock_create s q : inv s -> lock s = Some q -> forall r, stk s q = FUser :: r -> False.
Proof. intros IV L r E. destruct (i_lock _ IV q L) as (c & f & u & E2). pose proof (i_stk _ IV q) as K. rewrite E2 in K. rewrite E in E2. injection E2 as <- E2. subst r. apply okl_user in K. cbn in K. discriminate. Qed.
Lemma free_none s : free s = true -> lock s = None.
Proof. unfold free. destruct (lock s); [discriminate|reflexivity]. Qed.
Lemma finish_inv s q ok b s0 :
  (* s0 is the state before the frame on top of b has gone *)
  inv s0 -> (exists c, cfr c = true /\ stk s0 q = c :: b) ->
  (forall x, x <> q -> stk s x = stk s0 x) -> subq s = subq s0 -> netf s = netf s0 -> lock s = lock s0 -> alive s = alive s0 -> holder (log s) = holder (log s0) ->
  (ok = true -> exists n f, fof (hd FUser (stk s0 q)) = Some f /\ 0 <= n /\ att s n = Some (q, f) /\ own s n = Some OLib /\ nlfd s = n /\ (forall m, m <> n -> att s m = att s0 m) /\ (forall m, own s m = Some OLib -> own s0 m = Some OLib /\ (creating m (stk s0 q) -> m = n))) ->
  (ok = false -> (forall m, att s m = None) /\ forall m, own s m = Some OLib -> own s0 m = Some OLib /\ ~ creating m (stk s0 q)) ->
  inv (finish q ok b s).
Proof.
  intros IV (c & C & E) ST SQ NF LK AL HL OK KO.
  pose proof (i_stk _ IV q) as K. rewrite E in K. destruct (okl_create _ _ _ _ C K) as [(f & u & -> & U & L & SQ0 & HO & FO)|(f & -> & SQ0 & NF0 & FO & NA & HO)]; cbn [finish].
  - assert (NA : forall m, att s0 m = None).
    { intros m. destruct (att s0 m) as [[q' f']|] eqn:A; [|reflexivity]. apply (i_att _ IV) in A. destruct A as (A & _). congruence. }
    destruct ok.
    + destruct (OK eq_refl) as (n & g & FG & Nn & A & O & Fd & AO & OO). rewrite E in FG. cbn [hd] in FG. assert (g = f) by (destruct FO; congruence). subst g.
      constructor; cbn.
      * reflexivity.
      * intros m x g. destruct (Z.eq_dec m n) as [->|D]; [intros A'; rewrite A in A'; assert (x = q) by congruence; assert (g = f) by congruence; subst|rewrite AO by auto; rewrite NA; discriminate].
        repeat (split; [auto; fail|]). split; [|auto]. rewrite AL. apply IV. rewrite E. discriminate.
      * intros x. split_q x q; [apply ok_chks; exact U|]. rewrite ST by auto. eapply okl_vac; [exact IV|apply IV| |congruence]. left. congruence.
      * intros x. split_q x q; [intros _; rewrite AL; apply IV; rewrite E; discriminate|rewrite AL, ST by auto; apply IV].
      * intros m Om. destruct (OO m Om) as [O0 Cr]. destruct (i_own _ IV m O0) as [[a X]|[x X]]; [rewrite NA in X; discriminate|].
        destruct (creating_mode _ _ _ IV X) as (_ & _ & [[L' _]|S']); [|congruence]. assert (x = q) by congruence. subst x. left. rewrite (Cr X). eauto.
      * discriminate.
    + destruct (KO eq_refl) as (NA' & OO). constructor; cbn.
      * rewrite SQ, NF, HL. apply IV.
      * intros m x g A. rewrite NA' in A. discriminate.
      * intros x. split_q x q; [apply ok_user; exact U|]. rewrite ST by auto. eapply okl_vac; [exact IV|apply IV| |congruence]. left. congruence.
      * intros x. split_q x q; [intros _; rewrite AL; apply IV; rewrite E; discriminate|rewrite AL, ST by auto; apply IV].
      * intros m Om. destruct (OO m Om) as [O0 Cr]. destruct (i_own _ IV m O0) as [[a X]|[x X]]; [rewrite NA in X; discriminate|].
        destruct (creating_mode _ _ _ IV X) as (_ & _ & [[L' _]|S']); [|congruence]. assert (x = q) by congruence. subst x. contradiction.
      * discriminate.
  - assert (NL : lock s0 <> Some q).
    { intros L. destruct (i_lock _ IV q L) as (c' & f' & u & E2). rewrite E in E2. discriminate. }
    destruct ok.
    + destruct (OK eq_refl) as (n & g & FG & Nn & A & O & Fd & AO & OO). rewrite E in FG. cbn [hd] in FG. assert (g = f) by (destruct FO; congruence). subst g.
      constructor; cbn.
      * rewrite SQ, NF, HL. apply IV.
      * intros m x g. destruct (Z.eq_dec m n) as [->|D]; [intros A'; rewrite A in A'; assert (x = q) by congruence; assert (g = f) by congruence; subst|rewrite AO by auto; rewrite NA; discriminate].
        split; [congruence|]. split; [congruence|]. repeat (split; [auto; fail|]). split; [|auto]. rewrite AL. apply IV. rewrite E. discriminate.
      * intros x. split_q x q; [apply ok_nil|]. rewrite ST by auto. eapply okl_vac; [exact IV|apply IV| |congruence]. right. congruence.
      * intros x. split_q x q; [intros []; reflexivity|rewrite AL, ST by auto; apply IV].
      * intros m Om. destruct (OO m Om) as [O0 Cr]. destruct (i_own _ IV m O0) as [[a X]|[x X]]; [rewrite NA in X; discriminate|].
        destruct (creating_mode _ _ _ IV X) as (_ & _ & [[L' S']|S']); [congruence|]. assert (x = q) by congruence. subst x. left. rewrite (Cr X). eauto.
      * intros x Hx. rewrite LK in Hx. split_q x q; [contradiction|rewrite ST by auto; apply IV; auto].
    + destruct (KO eq_refl) as (NA' & OO). constructor; cbn.
      * rewrite SQ, NF, HL. apply IV.
      * intros m x g A. rewrite NA' in A. discriminate.
      * intros x. split_q x q; [apply ok_nil|]. rewrite ST by auto. eapply okl_vac; [exact IV|apply IV| |congruence]. right. congruence.
      * intros x. split_q x q; [intros []; reflexivity|rewrite AL, ST by auto; apply IV].
      * intros m Om. destruct (OO m Om) as [O0 Cr]. destruct (i_own _ IV m O0) as [[a X]|[x X]]; [rewrite NA in X; discriminate|].
        destruct (creating_mode _ _ _ IV X) as (_ & _ & [[L' S']|S']); [congruence|]. assert (x = q) by congruence. subst x. contradiction.
      * intros x Hx. rewrite LK in Hx. split_q x q; [contradiction|rewrite ST by auto; apply IV; auto].
Qed.
Ltac some H := injection H as <-.
Lemma inv_step v6 s l s' : inv s -> step v6 s l = Some s' -> inv s'.
Proof.
  intros IV H. destruct l as [q|q| |q f|q|q r|q ok|q ok|q|q g1 g2 o|q|q n k|q|q n|q|q|n|n]; cbn [step] in H.
  - (* LFun *) destruct (stk s q) eqn:E; [|discriminate]. destruct (alive s q) eqn:A; [|discriminate]. some H.
    apply (inv_stack s q); auto; [apply ok_user; reflexivity|rewrite E; intros n []|]. intros L. destruct (i_lock _ IV q L) as (c & f & u & E2). congruence.
  - (* LRet *) destruct (stk s q) as [|c b] eqn:E; [discriminate|]. destruct c; try discriminate. some H.
    pose proof (i_stk _ IV q) as K. rewrite E in K. apply (inv_stack s q); auto.
    + eapply okl_below; [exact K|exact Logic.I].
    + intros _. apply IV. rewrite E. discriminate.
    + rewrite E. intros n [].
    + intros L. destruct (lock_create _ _ IV L _ E).
  - (* LOut *) some H. apply inv_note; auto.
  - (* LSub *) destruct (stk s q) as [|c b] eqn:E; [discriminate|]. destruct c; try discriminate. destruct (free s) eqn:F; [|discriminate]. apply free_none in F.
    destruct (subq s) as [q'|] eqn:SQ.
    + some H. apply inv_note; auto.
    + some H. pose proof (i_stk _ IV q) as K. rewrite E in K. pose proof (okl_user _ _ _ K) as U. constructor; cbn.
      * apply IV.
      * apply IV.
      * intros x. split_q x q; [apply ok_csub; auto; exact Logic.I|]. eapply okl_vac; [exact IV|apply IV| |]; [left|]; congruence.
      * intros x. split_q x q; [intros _; apply IV; rewrite E; discriminate|apply IV].
      * intros n On. destruct (i_own _ IV n On) as [X|[x X]]; [left; exact X|right]. exists x. split_q x q; [rewrite E in X; destruct X|exact X].
      * intros x [= <-]. rewrite Nat.eqb_refl. eauto.
  - (* LUnsub *) destruct (stk s q) as [|c b] eqn:E; [discriminate|]. destruct c; try discriminate. destruct (free s) eqn:F; [|discriminate]. apply free_none in F.
    assert (NO : forall bb, inv (note (EUnsub q false bb) s)) by (intros bb; apply inv_note; auto).
    destruct (subq s) as [q'|] eqn:SQ; [|some H; apply NO]. destruct (q' =? q)%nat eqn:Q; [|some H; apply NO]. apply Nat.eqb_eq in Q. subst q'. clear NO. some H.
    assert (NC : forall x n, creating n (stk s x) -> False).
    { intros x n X. destruct (creating_mode _ _ _ IV X) as (_ & _ & [[L _]|S']); [congruence|]. assert (x = q) by congruence. subst x. rewrite E in X. destruct X. }
    assert (K : forall t, stk t = stk s -> alive t = alive s -> lock t = None -> (forall n, att t n = None) -> (forall n, own t n <> Some OLib) ->
                inv (note (EUnsub q true (in_msgs b)) (setsub None None t))).
    { intros t T1 T2 T3 T4 T5. constructor; cbn.
      - reflexivity.
      - intros n x f A. rewrite T4 in A. discriminate.
      - intros x. rewrite T1. destruct (Nat.eq_dec x q) as [->|D].
        + rewrite E. apply ok_user. pose proof (i_stk _ IV q) as K. rewrite E in K. eapply okl_user, K.
        + eapply okl_vac; [exact IV|apply IV| |]; [left|]; congruence.
      - rewrite T1, T2. apply IV.
      - intros n On. destruct (T5 n On).
      - rewrite T3. discriminate. }
    assert (AT : forall n a, att s n = Some a -> nlfd s = n /\ 0 <= n).
    { intros n [x f] A. apply (i_att _ IV) in A. tauto. }
    assert (OW : forall n, own s n = Some OLib -> nlfd s = n /\ 0 <= n).
    { intros n On. destruct (i_own _ IV n On) as [[a A]|[x X]]; [eapply AT, A|destruct (NC _ _ X)]. }
    unfold unsub. destruct (nlfd s =? -1) eqn:Fd; [apply Z.eqb_eq in Fd|apply Z.eqb_neq in Fd]; apply K; cbn; auto.
    + intros n. destruct (att s n) as [a|] eqn:A; [|reflexivity]. apply AT in A. lia.
    + intros n On. apply OW in On. lia.
    + intros n. destruct (n =? nlfd s) eqn:D; [reflexivity|apply Z.eqb_neq in D]. destruct (att s n) as [a|] eqn:A; [|reflexivity]. apply AT in A. lia.
    + intros n. destruct (n =? nlfd s) eqn:D; [discriminate|apply Z.eqb_neq in D]. intros On. apply OW in On. lia.
  - (* LSock *) destruct (stk s q) as [|c b] eqn:E; [discriminate|]. destruct c as [| | | | | |f| | |]; try discriminate. pose proof (i_stk _ IV q) as K. rewrite E in K.
    assert (NA : forall m, att s m = None).
    { destruct (okl_create2 _ _ _ _ K eq_refl) as [(f1 & u & -> & U & L & SQ0 & HO & FO)|(f1 & -> & SQ0 & NF0 & FO & NA & HO)]; [|exact NA].
      intros m. destruct (att s m) as [[q' f']|] eqn:A; [|reflexivity]. apply (i_att _ IV) in A. destruct A as (A & _). congruence. }
    destruct r as [n|].
    + destruct (0 <=? n) eqn:Nn; [|discriminate]. apply Z.leb_le in Nn. destruct (own s n) eqn:On; [discriminate|]. some H. constructor; cbn.
      * apply IV.
      * intros m x g A. rewrite NA in A. discriminate.
      * intros x. split_q x q.
        -- destruct (okl_create2 _ _ _ _ K eq_refl) as [(f1 & u & -> & U & L & SQ0 & HO & FO)|(f1 & -> & SQ0 & NF0 & FO & _ & HO)].
           ++ apply ok_csub; cbn; auto. rewrite Z.eqb_refl. auto.
           ++ apply (ok_crec _ _ _ f1); cbn; auto. rewrite Z.eqb_refl. auto.
        -- destruct (okl_create2 _ _ _ _ K eq_refl) as [(f1 & u & -> & U & L & SQ0 & HO & FO)|(f1 & -> & SQ0 & NF0 & FO & _ & HO)];
             (eapply okl_vac; [exact IV|apply IV| |congruence]); [left|right]; congruence.
      * intros x. split_q x q; [intros _; apply IV; rewrite E; discriminate|apply IV].
      * intros m. destruct (m =? n) eqn:D; [apply Z.eqb_eq in D; subst m; intros _; right; exists q; rewrite Nat.eqb_refl; reflexivity|].
        intros Om. destruct (i_own _ IV m Om) as [X|[x X]]; [left; exact X|right]. exists x. split_q x q; [rewrite E in X; destruct X|exact X].
      * intros x Hx. destruct (i_lock _ IV x Hx) as (c & f' & u & X). split_q x q; [rewrite E in X; injection X as <- ->; eauto|eauto].
    + some H. apply (finish_inv _ _ _ _ s); cbn; auto; [eexists; split; [|exact E]; reflexivity|discriminate|]. rewrite E. cbn. auto.
  - (* LBind *) destruct (stk s q) as [|c b] eqn:E; [discriminate|]. destruct c as [| | | | | | |f n| |]; try discriminate. some H. pose proof (i_stk _ IV q) as K. rewrite E in K.
    assert (G : forall c lg, cfr c = true -> holds (own s) c -> (fof c = None \/ fof c = Some f) -> creating n (c :: b) -> holder lg = holder (log s) ->
                inv (mkS (own s) (att s) (subq s) (netf s) (nlfd s) (lock s) (rts s) (fun x => if (x =? q)%nat then c :: b else stk s x) (alive s) lg)).
    { intros c lg C HO FO CR HL. apply (inv_stack s q); auto.
      - destruct (okl_create2 _ _ _ _ K eq_refl) as [(f1 & u & -> & U & L & SQ0 & HO1 & FO1)|(f1 & -> & SQ0 & NF0 & FO1 & NA & HO1)]; cbn in FO1.
        + apply ok_csub; auto. destruct FO1 as [FO1|FO1]; [discriminate|]. destruct FO; [auto|right; congruence].
        + apply (ok_crec _ _ _ f1); auto. destruct FO1 as [FO1|FO1]; [discriminate|]. destruct FO; [auto|right; congruence].
      - intros _. apply IV. rewrite E. discriminate.
      - rewrite E. intros m M. cbn in M. subst m. exact CR.
      - intros L. destruct (i_lock _ IV q L) as (c' & f' & u & X). rewrite E in X. injection X as <- ->. eauto. }
    assert (HN : own s n = Some OLib /\ 0 <= n) by (destruct (okl_create2 _ _ _ _ K eq_refl) as [(f1 & u & -> & U & L & SQ0 & HO1 & FO1)|(f1 & -> & SQ0 & NF0 & FO1 & NA & HO1)]; exact HO1).
    destruct ok; apply G; cbn; auto. right. split; [reflexivity|tauto].
  - (* LAdd *) destruct (stk s q) as [|c b] eqn:E; [discriminate|]. destruct c as [| | | | | | | |f n|]; try discriminate. some H. pose proof (i_stk _ IV q) as K. rewrite E in K.
    assert (HN : own s n = Some OLib /\ 0 <= n) by (destruct (okl_create2 _ _ _ _ K eq_refl) as [(f1 & u & -> & U & L & SQ0 & HO1 & FO1)|(f1 & -> & SQ0 & NF0 & FO1 & NA & HO1)]; exact HO1).
    destruct ok.
    + apply (finish_inv _ _ _ _ s); cbn; auto; [eexists; split; [|exact E]; reflexivity| |discriminate]. intros _. exists n, f. rewrite E, Z.eqb_refl. cbn. repeat (split; [tauto|]). split.
      * intros m D. apply Z.eqb_neq in D. rewrite D. reflexivity.
      * intros m Om. auto.
    + apply (inv_stack s q); auto.
      * destruct (okl_create2 _ _ _ _ K eq_refl) as [(f1 & u & -> & U & L & SQ0 & HO1 & FO1)|(f1 & -> & SQ0 & NF0 & FO1 & NA & HO1)].
        -- apply ok_csub; cbn; auto. right. tauto.
        -- apply (ok_crec _ _ _ f1); cbn; auto. right. tauto.
      * intros _. apply IV. rewrite E. discriminate.
      * rewrite E. intros m M. cbn in M. subst m. cbn. auto.
      * intros L. destruct (i_lock _ IV q L) as (c' & f' & u & X). rewrite E in X. injection X as <- ->. eauto.
  - (* LClose *) destruct (stk s q) as [|c b] eqn:E; [discriminate|]. destruct c as [| | | | | | | | |n k]; try discriminate. pose proof (i_stk _ IV q) as K. rewrite E in K.
    assert (NA : forall m, att s m = None).
    { destruct (okl_create2 _ _ _ _ K eq_refl) as [(f1 & u & -> & U & L & SQ0 & HO & FO)|(f1 & -> & SQ0 & NF0 & FO & NA & HO)]; [|exact NA].
      intros m. destruct (att s m) as [[q' f']|] eqn:A; [|reflexivity]. apply (i_att _ IV) in A. destruct A as (A & _). congruence. }
    destruct k as [|[|k]]; [discriminate| |].
    + some H. apply (finish_inv _ _ _ _ s); cbn; auto; [eexists; split; [|exact E]; reflexivity|discriminate|]. intros _. split.
      * intros m. destruct (m =? n); auto.
      * intros m. destruct (m =? n) eqn:D; [discriminate|]. intros Om. split; [exact Om|]. rewrite E. cbn. lia.
    + some H. assert (k = O) by (destruct (okl_create2 _ _ _ _ K eq_refl) as [(f1 & u & -> & U & L & SQ0 & HO & FO)|(f1 & -> & SQ0 & NF0 & FO & _ & HO)]; cbn in HO; lia). subst k. constructor; cbn.
      * apply IV.
      * intros m x g A. exfalso. destruct (m =? n); [discriminate|]. rewrite NA in A. discriminate.
      * intros x. split_q x q.
        -- destruct (okl_create2 _ _ _ _ K eq_refl) as [(f1 & u & -> & U & L & SQ0 & HO & FO)|(f1 & -> & SQ0 & NF0 & FO & _ & HO)].
           ++ apply ok_csub; cbn; auto.
           ++ apply (ok_crec _ _ _ f1); cbn; auto. intros m. destruct (m =? n); auto.
        -- destruct (okl_create2 _ _ _ _ K eq_refl) as [(f1 & u & -> & U & L & SQ0 & HO & FO)|(f1 & -> & SQ0 & NF0 & FO & _ & HO)];
             (eapply okl_vac; [exact IV|apply IV| |congruence]); [left|right]; congruence.
      * intros x. split_q x q; [intros _; apply IV; rewrite E; discriminate|apply IV].
      * intros m. destruct (m =? n) eqn:D; [discriminate|]. apply Z.eqb_neq in D. intros Om. destruct (i_own _ IV m Om) as [X|[x X]]; [left; exact X|right]. exists x. split_q x q; [|exact X].
        rewrite E in X. cbn in X. lia.
      * intros x Hx. destruct (i_lock _ IV x Hx) as (c & f' & u & X). split_q x q; [rewrite E in X; injection X as <- ->; eauto|eauto].
  - (* LCheck *) destruct (stk s q) as [|c b] eqn:E; [discriminate|]. destruct c; try discriminate. destruct (free s) eqn:F; [|discriminate]. apply free_none in F.
    destruct (check v6 true g1 g2 o (rts s)) as [r t]. some H. pose proof (i_stk _ IV q) as K. rewrite E in K. destruct (okl_below _ _ _ _ K Logic.I) as [B1 B2].
    apply (inv_stack s q); auto.
    + destruct r; [|exact B1]. apply ok_user. destruct B2 as [(f' & k & ->)|(f' & u & -> & U)]; [reflexivity|exact U].
    + intros _. apply IV. rewrite E. discriminate.
    + rewrite E. intros n [].
    + congruence.
  - (* LSubRet *) destruct (stk s q) as [|c b] eqn:E; [discriminate|]. destruct c; try discriminate. some H. pose proof (i_stk _ IV q) as K. rewrite E in K. destruct (okl_below _ _ _ _ K Logic.I) as [B1 B2].
    apply (inv_stack s q); auto.
    + intros _. apply IV. rewrite E. discriminate.
    + rewrite E. intros n [].
    + intros L. destruct (i_lock _ IV q L) as (c' & f' & u & X). rewrite E in X. injection X as <- ->. inversion B1; subst; try (cbn in *; discriminate).
  - (* LData *) destruct (stk s q) eqn:E; [|discriminate]. destruct (att s n) as [[q' f]|] eqn:A; [|discriminate]. destruct (q' =? q)%nat eqn:Q; [|discriminate]. apply Nat.eqb_eq in Q. subst q'. some H.
    apply (inv_stack s q); auto; [apply ok_msgs|intros _; apply (i_att _ IV) in A; tauto|rewrite E; intros m []|]. intros L. destruct (i_lock _ IV q L) as (c & f' & u & E2). congruence.
  - (* LMsg *) destruct (stk s q) as [|c b] eqn:E; [discriminate|]. destruct c as [| | | |f k| | | | |]; try discriminate. pose proof (i_stk _ IV q) as K. rewrite E in K. destruct (okl_below _ _ _ _ K Logic.I) as [_ ->].
    assert (NL : lock s <> Some q) by (intros L; destruct (i_lock _ IV q L) as (c' & f' & u & X); rewrite E in X; discriminate).
    destruct k; some H; apply (inv_stack s q); auto; try contradiction; try (rewrite E; intros m []); try (intros _; apply IV; rewrite E; discriminate); [apply ok_nil|apply ok_chkm].
  - (* LErr *) destruct (stk s q) eqn:E; [|discriminate]. destruct (att s n) as [[q' f]|] eqn:A; [|discriminate]. destruct (q' =? q)%nat eqn:Q; [|discriminate]. apply Nat.eqb_eq in Q. subst q'. some H.
    apply (inv_stack s q); auto; [apply ok_evt, A|intros _; apply (i_att _ IV) in A; tauto|rewrite E; intros m []|]. intros L. destruct (i_lock _ IV q L) as (c & f' & u & E2). congruence.
  - (* LEvt *) destruct (stk s q) as [|c b] eqn:E; [discriminate|]. destruct c as [| | | | |f n| | | |]; try discriminate. some H. pose proof (i_stk _ IV q) as K. rewrite E in K.
    assert (X : b = [] /\ att s n = Some (q, f)).
    { inversion K; subst; try (cbn in *; discriminate); auto. }
    destruct X as [-> A]. pose proof (i_att _ IV _ _ _ A) as (A1 & A2 & A3 & A4 & A5 & A6).
    assert (NA : forall m, (if m =? n then None else att s m) = None).
    { intros m. destruct (m =? n) eqn:D; [reflexivity|apply Z.eqb_neq in D]. destruct (att s m) as [[x g]|] eqn:B; [|reflexivity]. apply (i_att _ IV) in B. destruct B as (_ & _ & B & _). congruence. }
    constructor; cbn.
    + apply IV.
    + intros m x g B. rewrite NA in B. discriminate.
    + intros x. split_q x q; [apply (ok_crec _ _ _ f); cbn; auto|]. eapply okl_vac; [exact IV|apply IV| |congruence]. right. congruence.
    + intros x. split_q x q; [intros _; auto|apply IV].
    + intros m. destruct (m =? n) eqn:D; [discriminate|]. intros Om. destruct (i_own _ IV m Om) as [X|[x X]]; [left; exact X|right]. exists x. split_q x q; [rewrite E in X; destruct X|exact X].
    + intros x Hx. destruct (i_lock _ IV x Hx) as (c & f' & u & X). split_q x q; [rewrite E in X; discriminate|eauto].
  - (* LDestroy *) destruct (stk s q) eqn:E; [|discriminate]. destruct (alive s q) eqn:A; [|discriminate]. some H.
    set (mine := fun n => match att s n with Some (q', _) => (q' =? q)%nat | None => false end).
    assert (MN : forall n, mine n = true -> exists f, att s n = Some (q, f)).
    { intros n. unfold mine. destruct (att s n) as [[x f]|]; [|discriminate]. intros Q. apply Nat.eqb_eq in Q. subst x. eauto. }
    constructor; cbn; fold mine.
    + apply IV.
    + intros n x f. fold (mine n). destruct (mine n) eqn:M; [discriminate|]. intros B. assert (x <> q) by (intros ->; unfold mine in M; rewrite B, Nat.eqb_refl in M; discriminate).
      apply Nat.eqb_neq in H. rewrite H. apply IV, B.
    + intros x. destruct (Nat.eq_dec x q) as [->|D]; [rewrite E; apply ok_nil|]. eapply okl_other; [apply IV| | |]; cbn.
      * intros n f B. apply (i_att _ IV) in B. tauto.
      * intros L SQ. repeat (split; [assumption|]). intros n On. fold (mine n). destruct (mine n) eqn:M; [|exact On]. apply MN in M. destruct M as [f M]. apply (i_att _ IV) in M. destruct M as (M & _). congruence.
      * intros SQ. repeat (split; [auto; fail|]). split.
        -- intros NA. split; intros n; fold (mine n); [destruct (mine n); auto|]. intros On. destruct (mine n) eqn:M; [|exact On]. apply MN in M. destruct M as [f M]. rewrite NA in M. discriminate.
        -- intros n f B. fold (mine n). destruct (mine n) eqn:M; [|exact B]. apply MN in M. destruct M as [g M]. congruence.
    + intros x. destruct (x =? q)%nat eqn:Q; [apply Nat.eqb_eq in Q; subst x; congruence|apply IV].
    + intros n. fold (mine n). destruct (mine n) eqn:M; [discriminate|]. intros On. destruct (i_own _ IV n On) as [X|X]; auto.
    + apply IV.
  - (* LOpen *) destruct (0 <=? n); [|discriminate]. destruct (own s n) eqn:On; [discriminate|]. some H.
    assert (OM : forall m, (own (setown n (Some OApp) s) m = Some OLib <-> own s m = Some OLib)).
    { intros m. cbn. destruct (m =? n) eqn:D; [apply Z.eqb_eq in D; subst m; rewrite On; split; discriminate|tauto]. }
    constructor; [apply IV| | |apply IV| |apply IV].
    + intros m x f B. rewrite OM. apply IV, B.
    + intros x. eapply okl_other; [apply IV| | |]; [intros m f B; apply (i_att _ IV) in B; tauto| |].
      * intros L SQ. repeat (split; [assumption|]). intros m. apply OM.
      * intros SQ. repeat (split; [auto; fail|]). split; [|auto]. intros NA. split; [exact NA|]. intros m. apply OM.
    + intros m Om. apply OM in Om. apply IV, Om.
  - (* LAppClose *) destruct (own s n) as [[]|] eqn:On; [|discriminate|discriminate]. some H.
    assert (OM : forall m, (own (setown n None s) m = Some OLib <-> own s m = Some OLib)).
    { intros m. cbn. destruct (m =? n) eqn:D; [apply Z.eqb_eq in D; subst m; rewrite On; split; discriminate|tauto]. }
    constructor; [apply IV| | |apply IV| |apply IV].
    + intros m x f B. rewrite OM. apply IV, B.
    + intros x. eapply okl_other; [apply IV| | |]; [intros m f B; apply (i_att _ IV) in B; tauto| |].
      * intros L SQ. repeat (split; [assumption|]). intros m. apply OM.
      * intros SQ. repeat (split; [auto; fail|]). split; [|auto]. intros NA. split; [exact NA|]. intros m. apply OM.
    + intros m Om. apply OM in Om. apply IV, Om.
Qed.
Lemma inv_init : inv init.
Proof. constructor; cbn; try reflexivity; try discriminate. intros q. apply ok_nil. Qed.
Lemma inv_run v6 ls : forall s s', inv s -> run v6 s ls = Some s' -> inv s'.
Proof. induction ls as [|l ls IH]; intros s s' IV; cbn [run]; [intros [= <-]; exact IV|]. destruct (step v6 s l) eqn:E; [|discriminate]. apply IH. eapply inv_step; eauto. Qed.
Lemma inv_reach v6 ls s : reach v6 ls s -> inv s.
Proof. apply inv_run, inv_init. Qed.
