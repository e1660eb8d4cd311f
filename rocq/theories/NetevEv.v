(** * What each entry of the history says about the history before it (Netev.v). *)
From Verif Require Import Base Route PropRoute Netev NetevSpec NetevInv.

(** The routes have not been looked at since the last subscription. *)
Fixpoint fresh (l : list event) : bool :=
  match l with [] => false | EOn _ _ :: _ => true | ELook _ _ _ _ :: _ => false | _ :: l => fresh l end.
Definition first_event (v6 : bool) (o : obs) : option net_ev := if is_up (seen v6 o) then Some NET_UP else None.
Definition ev_ok (v6 : bool) (l : list event) (e : event) : Prop :=
  match e with
  | EOn _ _ => holder l = None
  | ESub q f ROk => In (EOn q f) l
  | ESub _ _ RExist => holder l <> None
  | ESub _ _ RFail => holder l = None
  | EUnsub q true _ => exists f, holder l = Some (q, f)
  | EUnsub q false _ => forall f, holder l <> Some (q, f)
  | ELook q f o r => In (EOn q f) l /\ (outside l -> holder l = Some (q, f)) /\ (outside l -> fresh l = true -> real o -> r = first_event v6 o)
  | EClosed _ _ o => granted l -> o = Some OLib
  | _ => True
  end.
Fixpoint allok (v6 : bool) (l : list event) : Prop := match l with [] => True | e :: l => ev_ok v6 l e /\ allok v6 l end.
Lemma allok_at v6 l1 e l2 : allok v6 (l1 ++ e :: l2) -> ev_ok v6 l2 e.
Proof. induction l1 as [|x l1 IH]; cbn; tauto. Qed.

Lemma holder_in l q f : holder l = Some (q, f) -> In (EOn q f) l.
Proof.
  induction l as [|e l IH]; cbn; [discriminate|]. destruct e as [| | |x [] b| | | |]; try (intros H; right; apply IH; exact H); [intros [= -> ->]; left; reflexivity|discriminate].
Qed.
Lemma granted_tl n l : granted (n ++ l) -> granted l.
Proof. intros G o r H. apply (G o r). apply in_or_app. auto. Qed.
Lemma outside_tl n l : outside (n ++ l) -> outside l.
Proof. intros G q H. apply (G q). apply in_or_app. auto. Qed.

Lemma first_ev v6 g1 g2 o r : real o -> ev_of (fst (check v6 true g1 g2 o (route_clear r))) = first_event v6 o.
Proof.
  intros R. pose proof (C44_event v6 _ _ _ g1 g2 o (h_init v6 r) R) as H. unfold first_event.
  assert (ND : ~ up down) by (intros U; apply U; reflexivity).
  destruct (fst (check v6 true g1 g2 o (route_clear r))) as [[[e a] b]|]; cbn [ev_of].
  - destruct e; [destruct H as [H _]|destruct H as [H _]|destruct H as [H _]|destruct H as [H _]|destruct H as [H _]; contradiction]; inversion H; subst; try contradiction; try discriminate.
    rewrite (proj2 (is_up_up _)); [reflexivity|assumption].
  - inversion H as [| | | |E]. rewrite <- E. reflexivity.
Qed.

Definition carries (c : frame) : option fn := match c with FCheck f | FMsgs f _ | FSubR f => Some f | _ => None end.
Definition looks (c : frame) : option fn := match c with FCheck f | FMsgs f _ => Some f | _ => None end.
Definition failing (l : list frame) : bool := match l with FFail _ _ :: _ => true | _ => false end.
Definition watched (s : st) (q : nat) : Prop := (exists f, att s (nlfd s) = Some (q, f)) \/ (exists c, stk s q = [c] /\ cfr c = true).
Record inv2 (v6 : bool) (s : st) : Prop := {
  j_ok : allok v6 (log s);
  j_frm : forall q c f, In c (stk s q) -> carries c = Some f -> In (EOn q f) (log s);
  j_out : outside (log s) -> forall q c f, In c (stk s q) -> looks c = Some f -> subq s = Some q /\ netf s = Some f;
  j_clear : outside (log s) -> subq s = None \/ fresh (log s) = true -> exists r, rts s = route_clear r;
  j_nofail : granted (log s) -> forall q, failing (stk s q) = false;
  j_watch : granted (log s) -> forall q, subq s = Some q -> alive s q = true -> watched s q }.

Definition dull (e : event) : bool := match e with EOn _ _ | ELook _ _ _ _ => false | _ => true end.
Lemma fresh_dull n l : forallb dull n = true -> fresh (n ++ l) = fresh l.
Proof. induction n as [|e n IH]; cbn; [reflexivity|]. rewrite andb_true_iff. intros [D N]. rewrite <- IH by exact N. destruct e; try discriminate; reflexivity. Qed.

Lemma inv2_keep v6 s s' q l new : inv2 v6 s -> (forall x, stk s' x = if (x =? q)%nat then l else stk s x) -> log s' = new ++ log s -> allok v6 (log s') ->
  rts s' = rts s -> subq s' = subq s -> netf s' = netf s ->
  (forall c, In c l -> (exists c', In c' (stk s q) /\ looks c = looks c' /\ carries c = carries c') \/ (looks c = None /\ carries c = None) \/
     (exists f, looks c = Some f /\ carries c = Some f /\ subq s = Some q /\ netf s = Some f /\ In (EOn q f) (log s))) ->
  forallb dull new = true ->
  (granted (log s') -> failing l = false) ->
  (granted (log s') -> forall x, subq s = Some x -> alive s' x = true -> watched s' x) -> inv2 v6 s'.
Proof.
  intros J ST LG OK RT SQ NF FR DU FA WA. constructor; auto.
  - intros x c f. rewrite ST, LG. split_q x q; intros H C; apply in_or_app; right.
    + destruct (FR c H) as [(c' & I' & _ & C')|[[_ C']|(g & _ & C' & _ & _ & I')]]; [|congruence|].
      * eapply (j_frm _ _ J); [exact I'|congruence].
      * assert (g = f) by congruence. subst g. exact I'.
    + eapply (j_frm _ _ J); eassumption.
  - rewrite LG. intros O x c f. rewrite ST, SQ, NF. apply outside_tl in O. split_q x q; intros H C.
    + destruct (FR c H) as [(c' & I' & C' & _)|[[C' _]|(g & C' & _ & A & B & I')]]; [|congruence|].
      * eapply (j_out _ _ J O); [exact I'|congruence].
      * assert (g = f) by congruence. subst g. auto.
    + eapply (j_out _ _ J O); eassumption.
  - rewrite LG. intros O. apply outside_tl in O. rewrite fresh_dull, RT, SQ by exact DU. apply (j_clear _ _ J O).
  - intros G x. rewrite ST. destruct (x =? q)%nat; [exact (FA G)|]. apply (j_nofail _ _ J). rewrite LG in G. eapply granted_tl, G.
  - intros G x SX. apply (WA G). congruence.
Qed.
Lemma inv_holder_some s q f : inv s -> subq s = Some q -> netf s = Some f -> holder (log s) = Some (q, f).
Proof. intros IV A B. pose proof (i_hold _ IV) as H. rewrite A, B in H. exact H. Qed.
Lemma inv_netf s q : inv s -> subq s = Some q -> exists f, netf s = Some f /\ holder (log s) = Some (q, f).
Proof. intros IV A. pose proof (i_hold _ IV) as H. rewrite A in H. destruct (netf s) as [f|]; [eauto|destruct H]. Qed.
Lemma inv_none s : inv s -> subq s = None -> holder (log s) = None.
Proof. intros IV A. pose proof (i_hold _ IV) as H. rewrite A in H. destruct (netf s) as [f|]; [destruct H|exact H]. Qed.
Lemma inv_holder s q f : inv s -> holder (log s) = Some (q, f) -> subq s = Some q /\ netf s = Some f.
Proof. intros IV A. pose proof (i_hold _ IV) as H. rewrite A in H. destruct (subq s), (netf s); try contradiction; try discriminate. split; congruence. Qed.

(** The end of a creation that failed. *)
Lemma inv2_failed v6 s s0 q b new : inv s0 -> inv2 v6 s0 -> (exists c, cfr c = true /\ stk s0 q = c :: b) ->
  (forall x, x <> q -> stk s x = stk s0 x) -> rts s = rts s0 -> subq s = subq s0 -> netf s = netf s0 -> alive s = alive s0 -> log s = new ++ log s0 -> allok v6 (log s) -> forallb dull new = true -> holder (log s) = holder (log s0) ->
  (granted (log s) -> is_re b = false) -> inv2 v6 (finish q false b s).
Proof.
  intros IV J (c & C & E) ST RT SQ NF AL LG OK DU HL GR. pose proof (i_stk _ IV q) as K. rewrite E in K.
  destruct (okl_create _ _ _ _ C K) as [(f & u & -> & U & L & SQ0 & HO & FO)|(f & -> & SQ0 & NF0 & FO & NA & HO)]; cbn [finish].
  - apply (inv2_keep v6 s0 _ q u (ESub q f RFail :: new)); cbn; auto.
    + intros x. split_q x q; auto.
    + rewrite LG. reflexivity.
    + split; [|exact OK]. rewrite HL. apply inv_none; auto.
    + intros c' H. left. exists c'. rewrite E. cbn. auto.
    + intros _. apply ushape_top in U. destruct U as [r ->]. reflexivity.
    + intros _ x X. congruence.
  - apply (inv2_keep v6 s0 _ q [] new); cbn; auto.
    + intros x. split_q x q; auto.
    + intros c' [].
    + intros G. cbn in GR. apply GR in G. discriminate.
Qed.

Lemma watched_other s s' q l : (forall x, stk s' x = if (x =? q)%nat then l else stk s x) -> att s' = att s -> nlfd s' = nlfd s -> (forall c, stk s q = [c] -> cfr c = true -> exists c', l = [c'] /\ cfr c' = true) ->
  forall x, watched s x -> watched s' x.
Proof.
  intros ST A N K x [[f W]|[c [W C]]]; [left; exists f; congruence|right]. rewrite ST. split_q x q; [eauto|eauto].
Qed.

Lemma inv2_step v6 s l s' : inv s -> inv2 v6 s -> step v6 s l = Some s' -> inv2 v6 s'.
Proof.
  intros IV J H. pose proof (inv_step v6 s l s' IV H) as IV'. destruct l as [q|q| |q f|q|q r|q ok|q ok|q|q g1 g2 o|q|q n k|q|q n|q|q|n|n]; cbn [step] in H.
  - (* LFun *) destruct (stk s q) eqn:E; [|discriminate]. destruct (alive s q) eqn:A; [|discriminate]. some H.
    apply (inv2_keep v6 s _ q [FUser] []); auto; try apply J; try reflexivity.
    + intros c [<-|[]]. auto.
    + intros G x SX AX. eapply (watched_other s); [reflexivity|reflexivity|reflexivity| |apply (j_watch _ _ J G x SX AX)]. rewrite E. discriminate.
  - (* LRet *) destruct (stk s q) as [|c b] eqn:E; [discriminate|]. destruct c; try discriminate. some H.
    pose proof (i_stk _ IV q) as K. rewrite E in K. apply okl_user in K.
    apply (inv2_keep v6 s _ q b []); auto; try apply J; try reflexivity.
    + intros c H. left. exists c. rewrite E. cbn. auto.
    + intros _. destruct b as [|[] b]; try reflexivity. cbn in K. discriminate.
    + intros G x SX AX. eapply (watched_other s); [reflexivity|reflexivity|reflexivity| |apply (j_watch _ _ J G x SX AX)]. rewrite E. intros c [= <- ->]. discriminate.
  - (* LOut *) some H. apply (inv2_keep v6 s _ 0%nat (stk s 0%nat) [EOut]); auto; try reflexivity.
    + intros x. split_q x 0%nat; auto.
    + split; [exact Logic.I|apply J].
    + eauto 6.
    + intros G. apply (j_nofail _ _ J). eapply (granted_tl [_]), G.
    + intros G x SX AX. apply (granted_tl [_]) in G. apply (j_watch _ _ J G x SX AX).
  - (* LSub *) destruct (stk s q) as [|c b] eqn:E; [discriminate|]. destruct c; try discriminate. destruct (free s) eqn:F; [|discriminate]. apply free_none in F.
    destruct (subq s) as [q'|] eqn:SQ; some H.
    + destruct (inv_netf _ _ IV SQ) as (g & NF & HO).
      apply (inv2_keep v6 s _ q (stk s q) [ESub q f RExist]); auto; try reflexivity.
      * intros x. split_q x q; auto.
      * split; [cbn; congruence|apply J].
      * eauto 6.
      * intros G. apply (j_nofail _ _ J). eapply (granted_tl [_]), G.
      * intros G x SX AX. apply (granted_tl [_]) in G. apply (j_watch _ _ J G x SX AX).
    + apply (inv2_keep v6 s _ q (FCreate f :: FSub f :: FUser :: b) []); auto; try apply J; try reflexivity.
      * intros c [<-|[<-|H]]; [auto|auto|]. left. exists c. rewrite E. auto.
      * intros G x SX. congruence.
  - (* LUnsub *) destruct (stk s q) as [|c b] eqn:E; [discriminate|]. destruct c; try discriminate. destruct (free s) eqn:F; [|discriminate]. apply free_none in F.
    assert (NO : subq s <> Some q -> inv2 v6 (note (EUnsub q false (in_msgs b)) s)).
    { intros D. apply (inv2_keep v6 s _ q (stk s q) [EUnsub q false (in_msgs b)]); auto; try reflexivity.
      - intros x. split_q x q; auto.
      - split; [|apply J]. intros f HO. apply (inv_holder _ _ _ IV) in HO. destruct HO. contradiction.
      - eauto 6.
      - intros G. apply (j_nofail _ _ J). eapply (granted_tl [_]), G.
      - intros G x SX AX. apply (granted_tl [_]) in G. apply (j_watch _ _ J G x SX AX). }
    destruct (subq s) as [q'|] eqn:SQ; [|some H; apply NO; congruence]. destruct (q' =? q)%nat eqn:Q; [apply Nat.eqb_eq in Q|some H; apply NO; apply Nat.eqb_neq in Q; congruence]. subst q'. clear NO. some H.
    pose proof (i_stk _ IV q) as K. rewrite E in K. apply okl_user in K.
    destruct (inv_netf _ _ IV SQ) as (f & NF & HO).
    assert (OKC : forall n, granted (log s) -> nlfd s = n -> own s n = Some OLib).
    { intros n G <-. destruct (j_watch _ _ J G q SQ) as [[g W]|[c [W C]]].
      - apply IV. rewrite E. discriminate.
      - apply (i_att _ IV) in W. tauto.
      - rewrite E in W. injection W as <- ->. discriminate. }
    assert (G : forall t, stk t = stk s -> (exists new, log t = new ++ log s /\ (new = [] \/ exists n o, new = [EClosed q n o])) -> allok v6 (log t) -> inv2 v6 (note (EUnsub q true (in_msgs b)) (setsub None None (setrts (route_clear (rts t)) t)))).
    { intros t T1 (new & T2 & T3) T4. assert (HL : holder (log t) = holder (log s)) by (rewrite T2; destruct T3 as [->|(n & o & ->)]; reflexivity).
      constructor; cbn.
      - split; [|exact T4]. exists f. congruence.
      - intros x c g. rewrite T1, T2. intros X C. right. apply in_or_app. right. eapply (j_frm _ _ J); eassumption.
      - intros O x c g. rewrite T1. intros X C. exfalso. assert (O' : outside (log s)) by (apply (outside_tl [_]) in O; rewrite T2 in O; eapply outside_tl, O).
        destruct (j_out _ _ J O' _ _ _ X C) as [A _]. assert (x = q) by congruence. subst x. rewrite E in X.
        assert (IM : in_msgs b = false).
        { destruct (in_msgs b) eqn:B; [|reflexivity]. exfalso. apply (O q). left. reflexivity. }
        (* the only frames below a user's function that look are those of a delivery *)
        destruct X as [<-|X]; [discriminate|]. clear -K IM X C. assert (UU : forall u, ushape u = true -> in_msgs u = false -> In c u -> False).
        { intros u. remember (length u) as m eqn:Em. assert (Lm : (length u <= m)%nat) by lia. clear Em. revert u Lm. induction m as [|m IH]; intros u Lm U M X0.
          - destruct u; [discriminate U|cbn in Lm; lia].
          - destruct u as [|[] u]; try discriminate U. cbn in M. destruct X0 as [<-|X0]; [discriminate|]. destruct u as [|y u]; [destruct X0|]. cbn in U. destruct y; try discriminate U.
            + cbn in M. destruct X0 as [<-|X0]; [discriminate|]. apply (IH u); auto. cbn in Lm. lia.
            + cbn in M. discriminate. }
        apply (UU (FUser :: b)); auto. right. exact X.
      - eauto.
      - intros GR x. rewrite T1. apply (j_nofail _ _ J). apply (granted_tl [_]) in GR. rewrite T2 in GR. eapply granted_tl, GR.
      - discriminate. }
    unfold unsub. destruct (nlfd s =? -1) eqn:Fd; apply G; auto.
    + exists []. auto.
    + apply J.
    + exists [EClosed q (nlfd s) (own s (nlfd s))]. cbn. eauto.
    + cbn. split; [|apply J]. intros GR. apply OKC; auto.
  - (* LSock *) destruct (stk s q) as [|c b] eqn:E; [discriminate|]. destruct c as [| | | | | |f| | |]; try discriminate. pose proof (i_stk _ IV q) as K. rewrite E in K.
    destruct r as [n|].
    + destruct (0 <=? n) eqn:Nn; [|discriminate]. destruct (own s n) eqn:On; [discriminate|]. some H.
      apply (inv2_keep v6 s _ q (FBind f n :: b) []); auto; try apply J; try reflexivity.
      * intros c [<-|H]; [auto|]. left. exists c. rewrite E. cbn. auto.
      * intros G x SX AX. eapply (watched_other s); [reflexivity|reflexivity|reflexivity| |apply (j_watch _ _ J G x SX AX)]. rewrite E. intros c [= <- ->] _. eauto.
    + some H. apply (inv2_failed v6 _ s q b [EFail false (is_re b)]); auto; cbn; try reflexivity.
      * eexists; split; [|exact E]; reflexivity.
      * split; [exact Logic.I|apply J].
      * intros G. destruct (G false (is_re b)); cbn; auto.
  - (* LBind *) destruct (stk s q) as [|c b] eqn:E; [discriminate|]. destruct c as [| | | | | | |f n| |]; try discriminate. some H. destruct ok.
    + apply (inv2_keep v6 s _ q (FAdd f n :: b) []); auto; try apply J; try reflexivity.
      * intros c [<-|H]; [auto|]. left. exists c. rewrite E. cbn. auto.
      * intros G x SX AX. eapply (watched_other s); [reflexivity|reflexivity|reflexivity| |apply (j_watch _ _ J G x SX AX)]. rewrite E. intros c [= <- ->] _. eauto.
    + apply (inv2_keep v6 s _ q (FFail n 2 :: b) [EFail true (is_re b)]); auto; try reflexivity.
      * split; [exact Logic.I|apply J].
      * intros c [<-|H]; [auto|]. left. exists c. rewrite E. cbn. auto.
      * intros G. destruct (G true (is_re b)); [cbn; auto|discriminate].
      * intros G. destruct (G true (is_re b)); [cbn; auto|discriminate].
  - (* LAdd *) destruct (stk s q) as [|c b] eqn:E; [discriminate|]. destruct c as [| | | | | | | |f n|]; try discriminate. some H. pose proof (i_stk _ IV q) as K. rewrite E in K. destruct ok.
    + destruct (okl_create2 _ _ _ _ K eq_refl) as [(f1 & u & -> & U & L & SQ0 & HO1 & FO1)|(f1 & -> & SQ0 & NF0 & FO1 & NA & HO1)]; cbn [finish] in *.
      * assert (HN : holder (log s) = None) by (apply inv_none; auto).
        constructor; cbn.
        -- split; [exact HN|apply J].
        -- intros x c g. split_q x q; intros X C.
           ++ destruct X as [<-|[<-|X]]; [injection C as <-; auto|injection C as <-; auto|]. right. eapply (j_frm _ _ J); [rewrite E; cbn; eauto|exact C].
           ++ right. eapply (j_frm _ _ J); eassumption.
        -- intros O x c g. apply (outside_tl [_]) in O. split_q x q; intros X C.
           ++ destruct X as [<-|[<-|X]]; [injection C as <-; auto|discriminate C|]. exfalso. destruct (j_out _ _ J O q c g) as [A _]; [rewrite E; cbn; auto|exact C|congruence].
           ++ exfalso. destruct (j_out _ _ J O x c g) as [A _]; [exact X|exact C|congruence].
        -- intros O _. apply (outside_tl [_]) in O. apply (j_clear _ _ J O). auto.
        -- intros G x. apply (granted_tl [_]) in G. destruct (x =? q)%nat; [reflexivity|apply (j_nofail _ _ J G)].
        -- intros G x [= <-] _. left. cbn. rewrite Z.eqb_refl. eauto.
      * apply (inv2_keep v6 s _ q [] []); auto; try apply J; try reflexivity.
        -- intros c [].
        -- intros G x SX AX. assert (x = q) by congruence. subst x. left. cbn. rewrite Z.eqb_refl. eauto.
    + apply (inv2_keep v6 s _ q (FFail n 2 :: b) [EFail true (is_re b)]); auto; try reflexivity.
      * split; [exact Logic.I|apply J].
      * intros c [<-|H]; [auto|]. left. exists c. rewrite E. cbn. auto.
      * intros G. destruct (G true (is_re b)); [cbn; auto|discriminate].
      * intros G. destruct (G true (is_re b)); [cbn; auto|discriminate].
  - (* LClose *) destruct (stk s q) as [|c b] eqn:E; [discriminate|]. destruct c as [| | | | | | | | |n k]; try discriminate.
    assert (NG : ~ granted (log s)) by (intros G; pose proof (j_nofail _ _ J G q) as X; rewrite E in X; discriminate).
    destruct k as [|[|k]]; [discriminate| |].
    + some H. apply (inv2_failed v6 _ s q b [EClosed q n (own s n)]); auto; cbn; try reflexivity.
      * eexists; split; [|exact E]; reflexivity.
      * split; [intros G; contradiction|apply J].
      * intros G. apply (granted_tl [_]) in G. contradiction.
    + some H. apply (inv2_keep v6 s _ q (FFail n (S k) :: b) [EClosed q n (own s n)]); auto; try reflexivity.
      * split; [intros G; contradiction|apply J].
      * intros c [<-|H]; [auto|]. left. exists c. rewrite E. cbn. auto.
      * intros G. apply (granted_tl [_]) in G. contradiction.
      * intros G. apply (granted_tl [_]) in G. contradiction.
  - (* LCheck *) destruct (stk s q) as [|c b] eqn:E; [discriminate|]. destruct c; try discriminate. destruct (free s) eqn:F; [|discriminate]. apply free_none in F.
    destruct (check v6 true g1 g2 o (rts s)) as [r t] eqn:CK. some H.
    pose proof (i_stk _ IV q) as K. rewrite E in K. destruct (okl_below _ _ _ _ K Logic.I) as [B1 B2].
    assert (IO : outside (log s) -> subq s = Some q /\ netf s = Some f) by (intros O; eapply (j_out _ _ J O); [rewrite E; left; reflexivity|reflexivity]).
    assert (FR : forall c x, In c (if (x =? q)%nat then match r with Some _ => FUser :: b | None => b end else stk s x) -> c = FUser \/ In c (stk s x)).
    { intros c x. split_q x q; [|auto]. rewrite E. destruct r; cbn; tauto || (intros [<-|X]; auto). }
    constructor; cbn.
    + split; [|apply J]. split; [eapply (j_frm _ _ J); [rewrite E; left; reflexivity|reflexivity]|]. split.
      * intros O. destruct (IO O). apply inv_holder_some; auto.
      * intros O FS R. destruct (j_clear _ _ J O (or_intror FS)) as [r0 RC]. rewrite RC in CK. rewrite <- (first_ev v6 g1 g2 o r0 R), CK. reflexivity.
    + intros x c g X C. apply FR in X. destruct X as [->|X]; [discriminate|]. right. eapply (j_frm _ _ J); eassumption.
    + intros O x c g X C. apply FR in X. destruct X as [->|X]; [discriminate|]. apply (outside_tl [_]) in O. eapply (j_out _ _ J O); eassumption.
    + intros O [SN|X]; [|discriminate]. apply (outside_tl [_]) in O. destruct (IO O). congruence.
    + intros G x. apply (granted_tl [_]) in G. split_q x q; [|apply (j_nofail _ _ J G)]. destruct B2 as [(f' & k & ->)|(f' & u & -> & U)]; destruct r; reflexivity.
    + intros G x SX AX. apply (granted_tl [_]) in G. eapply (watched_other s); [reflexivity|reflexivity|reflexivity| |apply (j_watch _ _ J G x SX AX)]. rewrite E. intros c [= <- _]. discriminate.
  - (* LSubRet *) destruct (stk s q) as [|c b] eqn:E; [discriminate|]. destruct c as [| |f| | | | | | |]; try discriminate. some H.
    apply (inv2_keep v6 s _ q b [ESub q f ROk]); auto; try reflexivity.
    + split; [|apply J]. cbn. eapply (j_frm _ _ J); [rewrite E; left; reflexivity|reflexivity].
    + intros c H. left. exists c. rewrite E. cbn. auto.
    + intros _. pose proof (i_stk _ IV q) as K. rewrite E in K. inversion K; subst; try (cbn in *; discriminate).
      match goal with U : ushape b = true |- _ => apply ushape_top in U; destruct U as [r ->]; reflexivity end.
    + intros G x SX AX. apply (granted_tl [_]) in G. eapply (watched_other s); [reflexivity|reflexivity|reflexivity| |apply (j_watch _ _ J G x SX AX)]. rewrite E. intros c [= <- _]. discriminate.
  - (* LData *) destruct (stk s q) eqn:E; [|discriminate]. destruct (att s n) as [[q' f]|] eqn:A; [|discriminate]. destruct (q' =? q)%nat eqn:Q; [|discriminate]. apply Nat.eqb_eq in Q. subst q'. some H.
    pose proof (i_att _ IV _ _ _ A) as (A1 & A2 & _).
    apply (inv2_keep v6 s _ q [FMsgs f k] []); auto; try apply J; try reflexivity.
    + intros c [<-|[]]. right. right. exists f. repeat (split; [auto; fail|]). apply holder_in, inv_holder_some; auto.
    + intros G x SX AX. eapply (watched_other s); [reflexivity|reflexivity|reflexivity| |apply (j_watch _ _ J G x SX AX)]. rewrite E. discriminate.
  - (* LMsg *) destruct (stk s q) as [|c b] eqn:E; [discriminate|]. destruct c as [| | | |f k| | | | |]; try discriminate. pose proof (i_stk _ IV q) as K. rewrite E in K. destruct (okl_below _ _ _ _ K Logic.I) as [_ ->].
    destruct k; some H.
    + apply (inv2_keep v6 s _ q [] []); auto; try apply J; try reflexivity.
      * intros c [].
      * intros G x SX AX. eapply (watched_other s); [reflexivity|reflexivity|reflexivity| |apply (j_watch _ _ J G x SX AX)]. rewrite E. intros c [= <-]. discriminate.
    + apply (inv2_keep v6 s _ q [FCheck f; FMsgs f k] []); auto; try apply J; try reflexivity.
      * intros c [<-|[<-|[]]]; left; eexists; rewrite E; (split; [left; reflexivity|auto]).
      * intros G x SX AX. eapply (watched_other s); [reflexivity|reflexivity|reflexivity| |apply (j_watch _ _ J G x SX AX)]. rewrite E. intros c [= <-]. discriminate.
  - (* LErr *) destruct (stk s q) eqn:E; [|discriminate]. destruct (att s n) as [[q' f]|] eqn:A; [|discriminate]. destruct (q' =? q)%nat eqn:Q; [|discriminate]. apply Nat.eqb_eq in Q. subst q'. some H.
    apply (inv2_keep v6 s _ q [FEvt f n] []); auto; try apply J; try reflexivity.
    + intros c [<-|[]]. auto.
    + intros G x SX AX. eapply (watched_other s); [reflexivity|reflexivity|reflexivity| |apply (j_watch _ _ J G x SX AX)]. rewrite E. discriminate.
  - (* LEvt *) destruct (stk s q) as [|c b] eqn:E; [discriminate|]. destruct c as [| | | | |f n| | | |]; try discriminate. some H. pose proof (i_stk _ IV q) as K. rewrite E in K.
    assert (X : b = [] /\ att s n = Some (q, f)).
    { inversion K; subst; try (cbn in *; discriminate); auto. }
    destruct X as [-> A]. pose proof (i_att _ IV _ _ _ A) as (A1 & A2 & A3 & A4 & A5 & A6).
    apply (inv2_keep v6 s _ q [FCreate f] [EClosed q n (own s n)]); auto; try reflexivity.
    + split; [intros _; exact A4|apply J].
    + intros c [<-|[]]. auto.
    + intros G x SX AX. assert (x = q) by congruence. subst x. right. exists (FCreate f). cbn. rewrite Nat.eqb_refl. auto.
  - (* LDestroy *) destruct (stk s q) eqn:E; [|discriminate]. destruct (alive s q) eqn:A; [|discriminate]. some H.
    apply (inv2_keep v6 s _ q [] [EDead q]); auto; try reflexivity.
    + intros x. cbn. split_q x q; auto.
    + split; [exact Logic.I|apply J].
    + intros c [].
    + intros G x SX. cbn. destruct (x =? q)%nat eqn:Q; [discriminate|]. intros AX. apply (granted_tl [_]) in G.
      destruct (j_watch _ _ J G x SX AX) as [[f W]|W]; [left; exists f|right; exact W]. cbn. rewrite W, Q. reflexivity.
  - (* LOpen *) destruct (0 <=? n); [|discriminate]. destruct (own s n) eqn:On; [discriminate|]. some H. destruct J. constructor; auto.
  - (* LAppClose *) destruct (own s n) as [[]|] eqn:On; [|discriminate|discriminate]. some H. destruct J. constructor; auto.
Qed.
Lemma inv2_init v6 : inv2 v6 init.
Proof. constructor; cbn; auto; try discriminate; try (intros q c f []; fail); try contradiction. intros _ _. eexists. reflexivity. Qed.
Lemma inv2_run v6 ls : forall s s', inv s -> inv2 v6 s -> run v6 s ls = Some s' -> inv2 v6 s'.
Proof. induction ls as [|l ls IH]; intros s s' IV J; cbn [run]; [intros [= <-]; exact J|]. destruct (step v6 s l) eqn:E; [|discriminate]. apply IH; [eapply inv_step; eauto|eapply inv2_step; eauto]. Qed.
Lemma inv2_reach v6 ls s : reach v6 ls s -> inv2 v6 s.
Proof. apply inv2_run; [apply inv_init|apply inv2_init]. Qed.
