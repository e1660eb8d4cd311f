(** * C73: subscription to network events. *)
From Verif Require Import Base Route PropRoute Netev NetevSpec NetevInv NetevEv.

(** ** At most one subscriber in the whole process *)
(** A subscription takes effect only while nobody is subscribed. *)
Theorem C73_one : forall v6 ls s l1 q f l2, reach v6 ls s -> log s = l1 ++ EOn q f :: l2 -> holder l2 = None.
Proof. intros v6 ls s l1 q f l2 R E. pose proof (j_ok _ _ (inv2_reach _ _ _ R)) as K. rewrite E in K. apply allok_at in K. exact K. Qed.
Print Assumptions C73_one.
(** A call is refused with EEXIST exactly if somebody is subscribed; otherwise it goes on to ask the system for a socket. *)
Theorem C73_refused : forall v6 ls s q f s', reach v6 ls s -> step v6 s (LSub q f) = Some s' ->
  match holder (log s) with
  | Some _ => log s' = ESub q f RExist :: log s
  | None => log s' = log s /\ exists r, stk s' q = FCreate f :: FSub f :: r
  end.
Proof.
  intros v6 ls s q f s' R H. pose proof (inv_reach _ _ _ R) as IV. cbn [step] in H. destruct (stk s q) as [|[] r]; try discriminate. destruct (free s); [|discriminate].
  destruct (subq s) as [x|] eqn:SQ; some H.
  - destruct (inv_netf _ _ IV SQ) as (g & _ & ->). reflexivity.
  - rewrite (inv_none _ IV SQ). split; [reflexivity|]. cbn. rewrite Nat.eqb_refl. eauto.
Qed.
Print Assumptions C73_refused.
(** A call that returns 0 has subscribed, and one that fails otherwise than with EEXIST has changed nothing: nobody was subscribed. *)
Theorem C73_result : forall v6 ls s l1 q f r l2, reach v6 ls s -> log s = l1 ++ ESub q f r :: l2 ->
  match r with ROk => In (EOn q f) l2 | RExist => holder l2 <> None | RFail => holder l2 = None end.
Proof. intros v6 ls s l1 q f r l2 R E. pose proof (j_ok _ _ (inv2_reach _ _ _ R)) as K. rewrite E in K. apply allok_at in K. destruct r; exact K. Qed.
Print Assumptions C73_result.
(** Only the subscriber's queue ends the subscription; any other call is refused. *)
Theorem C73_owner : forall v6 ls s l1 q ok i l2, reach v6 ls s -> log s = l1 ++ EUnsub q ok i :: l2 -> (ok = true <-> exists f, holder l2 = Some (q, f)).
Proof.
  intros v6 ls s l1 q ok i l2 R E. pose proof (j_ok _ _ (inv2_reach _ _ _ R)) as K. rewrite E in K. apply allok_at in K. destruct ok; cbn in K; [tauto|]. split; [discriminate|]. intros [f F]. destruct (K f F).
Qed.
Print Assumptions C73_owner.
(** The call that subscribes always ends: the thread that holds the lock is never blocked. *)
Theorem C73_no_block : forall v6 ls s q, reach v6 ls s -> lock s = Some q -> exists ls' s', (length ls' <= 2)%nat /\ run v6 s ls' = Some s' /\ lock s' = None.
Proof.
  intros v6 ls s q R L. pose proof (inv_reach _ _ _ R) as IV. destruct (i_lock _ IV q L) as (c & f & u & E). pose proof (i_stk _ IV q) as K. rewrite E in K.
  assert (C : cfr c = true) by (inversion K; subst; auto; try (cbn in *; discriminate); match goal with U : ushape _ = true |- _ => destruct c; cbn in U; discriminate end).
  destruct (okl_create _ _ _ _ C K) as [(f1 & u1 & E1 & U & _ & SQ & HO & FO)|(f1 & E1 & _)]; [|discriminate]. injection E1 as <- <-.
  destruct c as [| | | | | |g|g n|g n|n k]; try discriminate C; cbn in HO.
  - exists [LSock q None], (finish q false (FSub f :: u) (note (EFail false false) s)). cbn [run step]. rewrite E. cbn. auto.
  - exists [LBind q true; LAdd q true]. cbn [run step]. rewrite E. cbn [stk sett]. rewrite Nat.eqb_refl. eexists. split; [cbn; lia|]. split; [reflexivity|reflexivity].
  - exists [LAdd q true]. cbn [run step]. rewrite E. eexists. split; [cbn; lia|]. split; reflexivity.
  - destruct HO as [->|[-> _]].
    + exists [LClose q]. cbn [run step]. rewrite E. eexists. split; [cbn; lia|]. split; reflexivity.
    + exists [LClose q; LClose q]. cbn [run step]. rewrite E. cbn [stk sett]. rewrite Nat.eqb_refl. eexists. split; [cbn; lia|]. split; reflexivity.
Qed.
Print Assumptions C73_no_block.

(** ** The callback *)
(** It is called only on the thread of the queue that subscribed with it. *)
Theorem C73_thread : forall v6 ls s l1 x q f e l2, reach v6 ls s -> log s = l1 ++ x :: l2 -> called x q f e -> In (EOn q f) l2.
Proof. intros v6 ls s l1 x q f e l2 R E [o ->]. pose proof (j_ok _ _ (inv2_reach _ _ _ R)) as K. rewrite E in K. apply allok_at in K. apply K. Qed.
Print Assumptions C73_thread.
(** It is called only while it is subscribed, if no callback that arriving data led to has unsubscribed before. *)
Theorem C73_callback_partial : forall v6 ls s l1 x q f e l2, reach v6 ls s -> log s = l1 ++ x :: l2 -> called x q f e -> outside l2 -> holder l2 = Some (q, f).
Proof. intros v6 ls s l1 x q f e l2 R E [o ->] O. pose proof (j_ok _ _ (inv2_reach _ _ _ R)) as K. rewrite E in K. apply allok_at in K. apply K, O. Qed.
Print Assumptions C73_callback_partial.
(** Its first call, before the call that subscribes returns: exactly if the network is up, and with UP. *)
Lemma holder_skip l2 q' f' l3 q f : (forall e, In e l2 -> forall a b, e <> EOn a b) -> holder (l2 ++ EOn q' f' :: l3) = Some (q, f) -> q' = q /\ f' = f.
Proof.
  induction l2 as [|e l2 IH]; cbn; [intros _ [= -> ->]; auto|]. intros N. assert (N' : forall e0, In e0 l2 -> forall a b, e0 <> EOn a b) by (intros e0 H; apply N; auto).
  destruct e as [| | |? [] ?| | | |]; try apply (IH N'); [|discriminate]. exfalso. eapply N; [left; reflexivity|reflexivity].
Qed.
Lemma fresh_skip l2 q f l3 : (forall e, In e l2 -> (forall a b, e <> EOn a b) /\ (forall a b c d, e <> ELook a b c d)) -> fresh (l2 ++ EOn q f :: l3) = true.
Proof.
  induction l2 as [|e l2 IH]; cbn; [reflexivity|]. intros N. specialize (IH (fun e0 H => N e0 (or_intror H))). destruct (N e (or_introl eq_refl)) as [_ B].
  destruct e; try assumption; [reflexivity|]. exfalso. eapply B. reflexivity.
Qed.
Theorem C73_first_partial : forall v6 ls s l1 q f o r l2 q' f' l3, reach v6 ls s -> log s = l1 ++ ELook q f o r :: l2 ++ EOn q' f' :: l3 ->
  (forall e, In e l2 -> (forall a b, e <> EOn a b) /\ (forall a b c d, e <> ELook a b c d)) -> outside (l2 ++ EOn q' f' :: l3) -> real o ->
  q' = q /\ f' = f /\ (up (seen v6 o) -> r = Some NET_UP) /\ (~ up (seen v6 o) -> r = None).
Proof.
  intros v6 ls s l1 q f o r l2 q' f' l3 R E N O RO. pose proof (j_ok _ _ (inv2_reach _ _ _ R)) as K. rewrite E in K. apply allok_at in K. destruct K as (_ & K1 & K2).
  destruct (holder_skip l2 q' f' l3 q f) as [-> ->]; [intros e H; apply N, H|apply K1, O|]. split; [reflexivity|]. split; [reflexivity|].
  rewrite (K2 O (fresh_skip _ _ _ _ N) RO). unfold first_event. rewrite <- is_up_up. destruct (is_up (seen v6 o)); split; congruence.
Qed.
Print Assumptions C73_first_partial.

(** Every look at the routes leads to the event that is due (C44) given what was seen before, since the start or the last unsubscription. *)
Fixpoint saw (v6 : bool) (l : list event) : net :=
  match l with [] => down | EUnsub _ true _ :: _ => down | ELook _ _ o _ :: _ => seen v6 o | _ :: l => saw v6 l end.
Fixpoint saw_up (v6 : bool) (l : list event) : option net :=
  match l with
  | [] => None | EUnsub _ true _ :: _ => None
  | ELook _ _ o _ :: l => if is_up (seen v6 o) then Some (seen v6 o) else saw_up v6 l
  | _ :: l => saw_up v6 l end.
Definition all_real (l : list event) : Prop := forall q f o r, In (ELook q f o r) l -> real o.
Lemma all_real_tl n l : all_real (n ++ l) -> all_real l.
Proof. intros A q f o r H. apply (A q f o r), in_or_app. auto. Qed.
Definition bland (e : event) : bool := match e with EUnsub _ true _ | ELook _ _ _ _ => false | _ => true end.
Lemma saw_bland v6 n l : forallb bland n = true -> saw v6 (n ++ l) = saw v6 l /\ saw_up v6 (n ++ l) = saw_up v6 l.
Proof. induction n as [|e n IH]; cbn; [auto|]. rewrite andb_true_iff. intros [D N]. destruct (IH N) as [<- <-]. destruct e as [| | |? [] ?| | | |]; try discriminate; auto. Qed.
(** What one step does to the routes and the history. *)
Lemma step_rts v6 s l s' : step v6 s l = Some s' ->
  (rts s' = rts s /\ exists n, log s' = n ++ log s /\ forallb bland n = true) \/
  (exists q i n, rts s' = route_clear (rts s) /\ log s' = EUnsub q true i :: n ++ log s /\ forallb bland n = true) \/
  (exists q f g1 g2 o, stk s q = FCheck f :: tl (stk s q) /\ rts s' = snd (check v6 true g1 g2 o (rts s)) /\ log s' = ELook q f o (ev_of (fst (check v6 true g1 g2 o (rts s)))) :: log s).
Proof.
  intros H.
  assert (FN : forall q ok b t, rts (finish q ok b t) = rts t /\ exists new, log (finish q ok b t) = new ++ log t /\ forallb bland new = true).
  { intros q ok b t. destruct b as [|[] b]; cbn [finish]; try (split; [reflexivity|exists []; split; reflexivity]). destruct ok; (split; [reflexivity|eexists [_]; split; reflexivity]). }
  destruct l as [x|x| |x g|x|x r|x ok|x ok|x|x g1 g2 o|x|x n k|x|x n|x|x|n|n]; cbn [step] in H.
  - destruct (stk s x); [|discriminate]. destruct (alive s x); [|discriminate]. some H. left. split; [reflexivity|exists []; split; reflexivity].
  - destruct (stk s x) as [|[] b]; try discriminate. some H. left. split; [reflexivity|exists []; split; reflexivity].
  - some H. left. split; [reflexivity|eexists [_]; split; reflexivity].
  - destruct (stk s x) as [|[] b]; try discriminate. destruct (free s); [|discriminate]. destruct (subq s); some H; left; (split; [reflexivity|]); [eexists [_]|exists []]; split; reflexivity.
  - destruct (stk s x) as [|[] b]; try discriminate. destruct (free s); [|discriminate].
    assert (NO : forall t, note (EUnsub x false (in_msgs b)) s = t -> rts t = rts s /\ exists n, log t = n ++ log s /\ forallb bland n = true) by (intros t <-; split; [reflexivity|eexists [_]; split; reflexivity]).
    destruct (subq s) as [y|]; [|some H; left; apply NO; reflexivity]. destruct (y =? x)%nat; [|some H; left; apply NO; reflexivity]. some H. right. left. exists x, (in_msgs b).
    unfold unsub. destruct (nlfd s =? -1); [exists []|eexists [_]]; (split; [reflexivity|split; reflexivity]).
  - destruct (stk s x) as [|[] b]; try discriminate. destruct r as [n|].
    + destruct (0 <=? n); [|discriminate]. destruct (own s n); [discriminate|]. some H. left. split; [reflexivity|exists []; split; reflexivity].
    + some H. left. destruct (FN x false b (note (EFail false (is_re b)) s)) as (A & w & W & B). split; [rewrite A; reflexivity|]. exists (w ++ [EFail false (is_re b)]). rewrite W, <- app_assoc, forallb_app, B. split; reflexivity.
  - destruct (stk s x) as [|[] b]; try discriminate. destruct ok; some H; left; (split; [reflexivity|]); [exists []|eexists [_]]; split; reflexivity.
  - destruct (stk s x) as [|[] b]; try discriminate. destruct ok; some H; left.
    + match goal with |- context [finish ?q ?k ?b ?t] => destruct (FN q k b t) as (A & w & W & B) end. split; [rewrite A; reflexivity|]. exists w. rewrite W. split; [reflexivity|exact B].
    + split; [reflexivity|]. eexists [_]; split; reflexivity.
  - destruct (stk s x) as [|[] b]; try discriminate. destruct k as [|[|k]]; [discriminate| |]; some H; left.
    + match goal with |- context [finish ?q ?k ?b ?t] => destruct (FN q k b t) as (A & w & W & B) end. split; [rewrite A; reflexivity|]. eexists (w ++ [_]). rewrite W, <- app_assoc, forallb_app, B. split; reflexivity.
    + split; [reflexivity|]. eexists [_]; split; reflexivity.
  - destruct (stk s x) as [|[] b] eqn:E; try discriminate. destruct (free s); [|discriminate]. destruct (check v6 true g1 g2 o (rts s)) as [r t] eqn:CK. some H. right. right. exists x, f, g1, g2, o. rewrite E, CK. auto.
  - destruct (stk s x) as [|[] b]; try discriminate. some H. left. split; [reflexivity|eexists [_]; split; reflexivity].
  - destruct (stk s x); [|discriminate]. destruct (att s n) as [[y g]|]; [|discriminate]. destruct (y =? x)%nat; [|discriminate]. some H. left. split; [reflexivity|exists []; split; reflexivity].
  - destruct (stk s x) as [|[] b]; try discriminate. destruct k; some H; left; (split; [reflexivity|exists []; split; reflexivity]).
  - destruct (stk s x); [|discriminate]. destruct (att s n) as [[y g]|]; [|discriminate]. destruct (y =? x)%nat; [|discriminate]. some H. left. split; [reflexivity|exists []; split; reflexivity].
  - destruct (stk s x) as [|[] b]; try discriminate. some H. left. split; [reflexivity|eexists [_]; split; reflexivity].
  - destruct (stk s x); [|discriminate]. destruct (alive s x); [|discriminate]. some H. left. split; [reflexivity|eexists [_]; split; reflexivity].
  - destruct (0 <=? n); [|discriminate]. destruct (own s n); [discriminate|]. some H. left. split; [reflexivity|exists []; split; reflexivity].
  - destruct (own s n) as [[]|]; try discriminate. some H. left. split; [reflexivity|exists []; split; reflexivity].
Qed.
Definition right_event (v6 : bool) (l : list event) (o : obs) (r : option net_ev) : Prop :=
  match r with
  | Some RT_CNT_CHANGED => up (saw v6 l) /\ seen v6 o = saw v6 l
  | _ => due (saw v6 l) (saw_up v6 l) (seen v6 o) r
  end.
Lemma events_run v6 ls : forall s s', run v6 s ls = Some s' -> 
  (all_real (log s) -> hist v6 (rts s) (saw v6 (log s)) (saw_up v6 (log s))) ->
  (forall l1 q f o r l2, log s = l1 ++ ELook q f o r :: l2 -> all_real (ELook q f o r :: l2) -> right_event v6 l2 o r) ->
  (forall l1 q f o r l2, log s' = l1 ++ ELook q f o r :: l2 -> all_real (ELook q f o r :: l2) -> right_event v6 l2 o r).
Proof.
  induction ls as [|l ls IH]; intros s s'; cbn [run]; [intros [= <-]; auto|]. destruct (step v6 s l) as [s1|] eqn:E; [|discriminate]. intros R HI EV. apply (IH s1 s' R); clear IH R s'.
  - intros AR. destruct (step_rts _ _ _ _ E) as [(A & n & L & B)|[(q & i & n & A & L & B)|(q & f & g1 & g2 & o & _ & A & L)]]; rewrite A, L in *.
    + destruct (saw_bland v6 n (log s) B) as [-> ->]. apply HI. eapply all_real_tl, AR.
    + cbn. apply h_init.
    + cbn. apply (h_check v6 _ _ _ true g1 g2 o (HI (all_real_tl [_] _ AR))). eapply AR. left. reflexivity.
  - intros l1 q f o r l2 EQ AR. destruct (step_rts _ _ _ _ E) as [(A & n & L & B)|[(x & i & n & A & L & B)|(x & g & g1 & g2 & o' & _ & A & L)]].
    + rewrite L in EQ. assert (X : exists l1', l1 = n ++ l1').
      { clear -EQ B. revert l1 EQ B. induction n as [|e n IH]; intros l1 EQ B; [exists l1; reflexivity|]. destruct l1 as [|e1 l1]; cbn [app] in EQ; [assert (e = ELook q f o r) by congruence; subst e; discriminate B|]. assert (e1 = e) by congruence. subst e1. assert (EQ' : n ++ log s = l1 ++ ELook q f o r :: l2) by congruence. clear EQ. rename EQ' into EQ. cbn in B. apply andb_true_iff in B. destruct B as [_ B]. destruct (IH l1 EQ B) as [w ->]. exists w. reflexivity. }
      destruct X as [l1' ->]. rewrite <- app_assoc in EQ. apply app_inv_head in EQ. eapply EV; eassumption.
    + rewrite L in EQ. destruct l1 as [|e1 l1]; cbn in EQ; [discriminate|]. injection EQ as <- EQ.
      assert (X : exists l1', l1 = n ++ l1').
      { clear -EQ B. revert l1 EQ B. induction n as [|e n IH]; intros l1 EQ B; [exists l1; reflexivity|]. destruct l1 as [|e1 l1]; cbn [app] in EQ; [assert (e = ELook q f o r) by congruence; subst e; discriminate B|]. assert (e1 = e) by congruence. subst e1. assert (EQ' : n ++ log s = l1 ++ ELook q f o r :: l2) by congruence. clear EQ. rename EQ' into EQ. cbn in B. apply andb_true_iff in B. destruct B as [_ B]. destruct (IH l1 EQ B) as [w ->]. exists w. reflexivity. }
      destruct X as [l1' ->]. rewrite <- app_assoc in EQ. apply app_inv_head in EQ. eapply EV; eassumption.
    + rewrite L in EQ. destruct l1 as [|e1 l1]; cbn in EQ; injection EQ; [intros EQ1 EQ2 EQ3 EQ4 EQ5; subst|intros EQ1 _; eapply EV; eassumption].
      assert (RO : real o) by (eapply AR; left; reflexivity). pose proof (C44_event v6 _ _ _ g1 g2 o (HI (all_real_tl [_] _ AR)) RO) as K. unfold right_event.
      destruct (fst (check v6 true g1 g2 o (rts s))) as [[[e a] b]|]; cbn [ev_of]; [|exact K]. destruct e; try apply K. split; apply K.
Qed.
Theorem C73_events : forall v6 ls s l1 q f o r l2, reach v6 ls s -> log s = l1 ++ ELook q f o r :: l2 -> all_real (ELook q f o r :: l2) -> right_event v6 l2 o r.
Proof.
  intros v6 ls s l1 q f o r l2 R. apply (events_run v6 ls init s R); [intros _; apply h_init|]. intros l0 q0 f0 o0 r0 l3 E. destruct l0; discriminate.
Qed.
Print Assumptions C73_events.

Lemma log_step v6 s l s' : step v6 s l = Some s' -> exists new, log s' = new ++ log s.
Proof.
  intros H.
  assert (FN : forall q ok b t, exists new, log (finish q ok b t) = new ++ log t).
  { intros q ok b t. destruct b as [|[] b]; cbn [finish]; try (exists []; reflexivity). destruct ok; eexists [_]; reflexivity. }
  assert (UN : forall q t, exists new, log (unsub q t) = new ++ log t).
  { intros q t. unfold unsub. destruct (nlfd t =? -1); [exists []; reflexivity|eexists [_]; reflexivity]. }
  destruct l; cbn [step] in H;
    repeat match type of H with
           | match ?x with _ => _ end = _ => destruct x; try discriminate H
           end; some H;
    try match goal with b : bool |- _ => destruct b end;
    try (exists []; reflexivity); try (eexists [_]; reflexivity);
    try (match goal with |- context [finish ?q ?ok ?b ?t] => destruct (FN q ok b t) as [w W]; rewrite W; cbn [log note setfd setatt close setown]; first [exists w; reflexivity|eexists (w ++ [_]); rewrite <- app_assoc; reflexivity] end).
  all: cbn [log note]; destruct (UN q s) as [w W]; rewrite W; eexists (_ :: w); reflexivity.
Qed.
(** The call that subscribes returns only after the routes have been looked at for its callback. *)
Definition untold (l : list frame) : list frame := match l with FCheck _ :: FSubR _ :: u => u | _ => l end.
Definition done (lg : list event) (q : nat) (f : fn) : Prop := exists o r, In (ELook q f o r) lg.
Definition seen_inv (s : st) : Prop :=
  (forall q f, In (FSubR f) (untold (stk s q)) -> done (log s) q f) /\ (forall q f g u, stk s q = FCheck f :: FSubR g :: u -> f = g).
Lemma done_app n l q f : done l q f -> done (n ++ l) q f.
Proof. intros (o & r & H). exists o, r. apply in_or_app. auto. Qed.
(** Steps that bring in no new frame of this kind. *)
Lemma seen_keep s s' : seen_inv s -> (exists n, log s' = n ++ log s) ->
  (forall x f, In (FSubR f) (untold (stk s' x)) -> In (FSubR f) (untold (stk s x)) \/ done (log s') x f) ->
  (forall x f g u, stk s' x = FCheck f :: FSubR g :: u -> f = g) -> seen_inv s'.
Proof. intros [A B] [n L] H1 H2. split; [|exact H2]. intros x f X. destruct (H1 x f X) as [Y|Y]; [|exact Y]. rewrite L. apply done_app, A, Y. Qed.
Lemma seen_step v6 s l s' : inv s -> seen_inv s -> step v6 s l = Some s' -> seen_inv s'.
Proof.
  intros IV SI H. pose proof (log_step _ _ _ _ H) as LG. pose proof SI as [SA SB].
  assert (ONE : forall q l', (forall x, stk s' x = if (x =? q)%nat then l' else stk s x) -> (forall f, In (FSubR f) (untold l') -> In (FSubR f) (untold (stk s q)) \/ done (log s') q f) ->
            (forall f g u, l' = FCheck f :: FSubR g :: u -> f = g) -> seen_inv s').
  { intros q l' ST H1 H2. apply (seen_keep s); auto.
    - intros x f. rewrite ST. split_q x q; auto.
    - intros x f g u. rewrite ST. split_q x q; [apply H2|apply SB]. }
  assert (SAME : (forall x, stk s' x = stk s x) -> seen_inv s').
  { intros ST. apply (seen_keep s); auto; intros x f; rewrite ST; auto. apply SB. }
  assert (NU : forall u, ushape u = true -> untold u = u) by (intros u U; apply ushape_top in U; destruct U as [r ->]; reflexivity).
  destruct l as [x|x| |x g|x|x r|x ok|x ok|x|x g1 g2 o|x|x n k|x|x n|x|x|n|n]; cbn [step] in H.
  - destruct (stk s x) eqn:E; [|discriminate]. destruct (alive s x); [|discriminate]. some H. apply (ONE x [FUser]); [reflexivity|cbn; intuition discriminate|discriminate].
  - destruct (stk s x) as [|c b] eqn:E; [discriminate|]. destruct c; try discriminate. some H. pose proof (i_stk _ IV x) as K. rewrite E in K. apply okl_user in K. apply (ONE x b); [reflexivity| |].
    + intros f X. left. rewrite E. cbn. destruct b as [|y b]; [destruct X|]. cbn in K. destruct y; try discriminate K; cbn in X; auto.
    + intros f g u ->. cbn in K. discriminate.
  - some H. apply SAME. reflexivity.
  - destruct (stk s x) as [|c b] eqn:E; [discriminate|]. destruct c; try discriminate. destruct (free s); [|discriminate]. destruct (subq s); some H; [apply SAME; reflexivity|].
    apply (ONE x (FCreate g :: FSub g :: FUser :: b)); [reflexivity| |discriminate]. intros f X. rewrite E. cbn in *. left. intuition discriminate.
  - destruct (stk s x) as [|c b] eqn:E; [discriminate|]. destruct c; try discriminate. destruct (free s); [|discriminate].
    destruct (subq s) as [y|]; [|some H; apply SAME; reflexivity]. destruct (y =? x)%nat; some H; [|apply SAME; reflexivity]. apply SAME. intros z. unfold unsub. destruct (nlfd s =? -1); reflexivity.
  - destruct (stk s x) as [|c b] eqn:E; [discriminate|]. destruct c as [| | | | | |f| | |]; try discriminate. pose proof (i_stk _ IV x) as K. rewrite E in K. destruct r as [n|].
    + destruct (0 <=? n); [|discriminate]. destruct (own s n); [discriminate|]. some H. apply (ONE x (FBind f n :: b)); [reflexivity| |discriminate]. intros f0 X. rewrite E. left. cbn in *. intuition discriminate.
    + some H. destruct (okl_create2 _ _ _ _ K eq_refl) as [(f1 & u & -> & U & _)|(f1 & -> & _)]; cbn [finish] in *.
      * apply (ONE x u); [reflexivity| |]. { intros f0. rewrite NU by exact U. rewrite E. cbn. auto. } intros a b c ->. discriminate U.
      * apply (ONE x []); [reflexivity|intros f0 []|discriminate].
  - destruct (stk s x) as [|c b] eqn:E; [discriminate|]. destruct c as [| | | | | | |f n| |]; try discriminate. destruct ok; some H.
    + apply (ONE x (FAdd f n :: b)); [reflexivity| |discriminate]. intros f0 X. rewrite E. left. cbn in *. intuition discriminate.
    + apply (ONE x (FFail n 2 :: b)); [reflexivity| |discriminate]. intros f0 X. rewrite E. left. cbn in *. intuition discriminate.
  - destruct (stk s x) as [|c b] eqn:E; [discriminate|]. destruct c as [| | | | | | | |f n|]; try discriminate. pose proof (i_stk _ IV x) as K. rewrite E in K. destruct ok; some H.
    + destruct (okl_create2 _ _ _ _ K eq_refl) as [(f1 & u & -> & U & _)|(f1 & -> & _)]; cbn [finish] in *.
      * apply (ONE x (FCheck f1 :: FSubR f1 :: u)); [reflexivity| |intros a b c [= <- <- <-]; reflexivity]. intros f0 X. rewrite E. left. cbn in *. auto.
      * apply (ONE x []); [reflexivity|intros f0 []|discriminate].
    + apply (ONE x (FFail n 2 :: b)); [reflexivity| |discriminate]. intros f0 X. rewrite E. left. cbn in *. intuition discriminate.
  - destruct (stk s x) as [|c b] eqn:E; [discriminate|]. destruct c as [| | | | | | | | |n k]; try discriminate. pose proof (i_stk _ IV x) as K. rewrite E in K. destruct k as [|[|k]]; [discriminate| |]; some H.
    + destruct (okl_create2 _ _ _ _ K eq_refl) as [(f1 & u & -> & U & _)|(f1 & -> & _)]; cbn [finish] in *.
      * apply (ONE x u); [reflexivity| |]. { intros f0. rewrite NU by exact U. rewrite E. cbn. auto. } intros a b c ->. discriminate U.
      * apply (ONE x []); [reflexivity|intros f0 []|discriminate].
    + apply (ONE x (FFail n (S k) :: b)); [reflexivity| |discriminate]. intros f0 X. rewrite E. left. cbn in *. intuition discriminate.
  - destruct (stk s x) as [|c b] eqn:E; [discriminate|]. destruct c as [| | |f| | | | | |]; try discriminate. destruct (free s); [|discriminate]. destruct (check v6 true g1 g2 o (rts s)) as [r t]. some H.
    pose proof (i_stk _ IV x) as K. rewrite E in K. destruct (okl_below _ _ _ _ K Logic.I) as [_ B2].
    apply (ONE x (match r with Some _ => FUser :: b | None => b end)); [reflexivity| |].
    + intros f0 X. assert (Y : In (FSubR f0) b) by (destruct r; [destruct X as [X|X]; [discriminate|exact X]|]; destruct B2 as [(g & k & ->)|(g & u & -> & U)]; exact X).
      destruct B2 as [(g & k & ->)|(g & u & -> & U)]; [destruct Y as [Y|[]]; discriminate|]. pose proof (SB _ _ _ _ E) as FG. subst g. destruct Y as [[= ->]|Y].
      * right. exists o, (ev_of r). left. reflexivity.
      * left. rewrite E. exact Y.
    + intros a c d X. destruct r; [discriminate|]. subst b. destruct B2 as [(g & k & B2)|(g & u & B2 & U)]; discriminate.
  - destruct (stk s x) as [|c b] eqn:E; [discriminate|]. destruct c as [| |f| | | | | | |]; try discriminate. some H. pose proof (i_stk _ IV x) as K. rewrite E in K.
    assert (U : ushape b = true) by (inversion K; subst; try (cbn in *; discriminate); assumption).
    apply (ONE x b); [reflexivity| |]. { intros f0. rewrite NU by exact U. rewrite E. cbn. auto. } intros a c d ->. discriminate U.
  - destruct (stk s x) eqn:E; [|discriminate]. destruct (att s n) as [[y g]|]; [|discriminate]. destruct (y =? x)%nat; [|discriminate]. some H. apply (ONE x [FMsgs g k]); [reflexivity|cbn; intuition discriminate|discriminate].
  - destruct (stk s x) as [|c b] eqn:E; [discriminate|]. destruct c as [| | | |f k| | | | |]; try discriminate. pose proof (i_stk _ IV x) as K. rewrite E in K. destruct (okl_below _ _ _ _ K Logic.I) as [_ ->]. destruct k; some H.
    + apply (ONE x []); [reflexivity|intros f0 []|discriminate].
    + apply (ONE x [FCheck f; FMsgs f k]); [reflexivity|cbn; intuition discriminate|discriminate].
  - destruct (stk s x) eqn:E; [|discriminate]. destruct (att s n) as [[y g]|]; [|discriminate]. destruct (y =? x)%nat; [|discriminate]. some H. apply (ONE x [FEvt g n]); [reflexivity|cbn; intuition discriminate|discriminate].
  - destruct (stk s x) as [|c b] eqn:E; [discriminate|]. destruct c as [| | | | |f n| | | |]; try discriminate. some H. apply (ONE x (FCreate f :: b)); [reflexivity| |discriminate]. intros f0 X. rewrite E. left. cbn in *. intuition discriminate.
  - destruct (stk s x) eqn:E; [|discriminate]. destruct (alive s x); [|discriminate]. some H. apply SAME. reflexivity.
  - destruct (0 <=? n); [|discriminate]. destruct (own s n); [discriminate|]. some H. apply SAME. reflexivity.
  - destruct (own s n) as [[]|]; try discriminate. some H. apply SAME. reflexivity.
Qed.
Lemma told_run v6 ls : forall s s', inv s -> seen_inv s -> run v6 s ls = Some s' ->
  (forall l1 q f l2, log s = l1 ++ ESub q f ROk :: l2 -> done l2 q f) -> (forall l1 q f l2, log s' = l1 ++ ESub q f ROk :: l2 -> done l2 q f).
Proof.
  induction ls as [|l ls IH]; intros s s' IV SI; cbn [run]; [intros [= <-]; auto|]. destruct (step v6 s l) as [s1|] eqn:E; [|discriminate]. intros R T. apply (IH s1 s'); auto; [eapply inv_step; eauto|eapply seen_step; eauto|].
  intros l1 q f l2 EQ. destruct (log_step _ _ _ _ E) as [n L].
  (* the return of the call is the only step that makes this entry, and it makes only this one *)
  assert (X : (forall a b, ~ In (ESub a b ROk) n) \/ exists a b, n = [ESub a b ROk] /\ stk s a = FSubR b :: tl (stk s a)).
  { clear -L E. assert (FN : forall q b t, (exists new, log (finish q false b t) = new ++ log t /\ forall x y, ~ In (ESub x y ROk) new) /\ exists new, log (finish q true b t) = new ++ log t /\ forall x y, ~ In (ESub x y ROk) new).
    { intros q b t. destruct b as [|[] b]; cbn [finish]; (split; [|]); try (exists []; split; [reflexivity|intros x y []]; fail); (eexists [_]; split; [reflexivity|intros x y [X|[]]; discriminate]). }
    assert (IT : forall m, log s1 = m ++ log s -> n = m) by (intros m M; rewrite M in L; apply app_inv_tail in L; congruence).
    destruct l as [x|x| |x g|x|x r|x ok|x ok|x|x g1 g2 o|x|x m k|x|x m|x|x|m|m]; cbn [step] in E;
      repeat match type of E with match ?z with _ => _ end = _ => let Q := fresh "Q" in destruct z eqn:Q; try discriminate E end; some E;
      try (left; rewrite (IT [] eq_refl); intros a b []; fail);
      try (left; eapply eq_ind_r with (P := fun n => forall a b, ~ In (ESub a b ROk) n); [|eapply (IT [_]); reflexivity]; intros a b [X|[]]; discriminate).
    all: try (left; unfold unsub in *; match goal with IT : context [nlfd ?s0 =? -1] |- _ => destruct (nlfd s0 =? -1) end;
              (eapply eq_ind_r with (P := fun n => forall a b, ~ In (ESub a b ROk) n); [|match goal with IT : forall m, _ -> _ = m |- _ => first [eapply (IT [_]); reflexivity|eapply (IT [_; _]); reflexivity] end]; intros a b X; cbn in X; intuition discriminate)).
    all: try (right; match goal with Q : stk _ ?x0 = FSubR ?f0 :: _ |- _ => exists x0, f0; split; [match goal with IT : forall m, _ -> _ = m |- _ => apply (IT [_]); reflexivity end|rewrite Q; reflexivity] end).
    all: left.
    all: try match goal with IT : context [if ?k then _ else _] |- _ => destruct k end.
    all: try (eapply eq_ind_r with (P := fun n => forall a b, ~ In (ESub a b ROk) n); [|match goal with IT : forall m, _ -> _ = m |- _ => first [eapply (IT []); reflexivity|eapply (IT [_]); reflexivity] end]; intros a b X; cbn in X; intuition discriminate).
    all: match goal with FN : _, IT : context [log (finish ?q ?k ?b ?t)] |- _ => destruct (FN q b t) as [(w1 & W1 & B1) (w2 & W2 & B2)]; first [rewrite W1 in IT|rewrite W2 in IT]; cbn [log note close setfd setatt setown] in IT end.
    all: eapply eq_ind_r with (P := fun n => forall a b, ~ In (ESub a b ROk) n); [|match goal with IT : forall m, _ -> _ = m |- _ => first [eapply IT; reflexivity|eapply (IT (_ ++ [_])); rewrite <- app_assoc; reflexivity] end].
    all: intros a b X; try (apply in_app_or in X; destruct X as [X|X]);
      try match goal with B : forall x y, ~ In _ ?w, X : In _ ?w |- _ => eapply B, X end; cbn in X; intuition discriminate. }
  rewrite L in EQ. destruct X as [N|(a & b & -> & ST)].
  - assert (X : exists l1', l1 = n ++ l1').
    { clear -EQ N. revert l1 EQ N. induction n as [|e n IH]; intros l1 EQ N; [exists l1; reflexivity|]. destruct l1 as [|e1 l1]; cbn [app] in EQ.
      - exfalso. apply (N q f). left. congruence.
      - assert (e1 = e) by congruence. subst e1. assert (EQ' : n ++ log s = l1 ++ ESub q f ROk :: l2) by congruence. destruct (IH l1 EQ') as [w ->]; [intros a b H; apply (N a b); right; exact H|]. exists w. reflexivity. }
    destruct X as [l1' ->]. rewrite <- app_assoc in EQ. apply app_inv_head in EQ. eapply T, EQ.
  - destruct l1 as [|e1 l1]; cbn [app] in EQ.
    + assert (a = q) by congruence. assert (b = f) by congruence. assert (log s = l2) by congruence. subst. apply (proj1 SI). rewrite ST. left. reflexivity.
    + eapply (T l1). congruence.
Qed.
Theorem C73_told : forall v6 ls s l1 q f l2, reach v6 ls s -> log s = l1 ++ ESub q f ROk :: l2 -> exists o r, In (ELook q f o r) l2.
Proof.
  intros v6 ls s l1 q f l2 R. apply (told_run v6 ls init s inv_init); [|exact R|].
  - split; [intros x g []|discriminate].
  - intros l0 q0 f0 l3 E. destruct l0; discriminate.
Qed.
Print Assumptions C73_told.

(** ** The descriptors *)
(** When nobody is subscribed, or the subscriber's queue is destroyed, and no call that subscribes is under way, the library has
    no descriptor of its own open. *)
Theorem C73_released : forall v6 ls s, reach v6 ls s -> (forall q f, holder (log s) = Some (q, f) -> alive s q = false) -> (forall q f, ~ In (FSub f) (stk s q)) -> forall n, own s n <> Some OLib.
Proof.
  intros v6 ls s R H N n On. pose proof (inv_reach _ _ _ R) as IV.
  assert (SQ : forall x, subq s = Some x -> alive s x = false).
  { intros x SQ. destruct (inv_netf _ _ IV SQ) as (g & _ & X). eapply H, X. }
  destruct (i_own _ IV n On) as [[[x f] A]|[x X]].
  - apply (i_att _ IV) in A. destruct A as (A & _ & _ & _ & B & _). apply SQ in A. congruence.
  - assert (AX : alive s x = true) by (apply (i_alive _ IV); intros E; rewrite E in X; destruct X).
    destruct (creating_mode _ _ _ IV X) as (_ & _ & [[L _]|S']); [|apply SQ in S'; congruence]. destruct (i_lock _ IV x L) as (c & f & u & E). apply (N x f). rewrite E. cbn. auto.
Qed.
Print Assumptions C73_released.
(** The library closes only what it has opened, if the system never refuses a socket after opening it nor when one is replaced. *)
Theorem C73_closes_partial : forall v6 ls s l1 q n o l2, reach v6 ls s -> log s = l1 ++ EClosed q n o :: l2 -> granted l2 -> o = Some OLib.
Proof. intros v6 ls s l1 q n o l2 R E G. pose proof (j_ok _ _ (inv2_reach _ _ _ R)) as K. rewrite E in K. apply allok_at in K. exact (K G). Qed.
Print Assumptions C73_closes_partial.
(** Under the same condition a subscriber whose queue is idle is listening: there is a socket, opened by the library and attached
    to the subscriber's queue, on which a report of the system leads to looking at the routes for its callback. *)
Theorem C73_watch_partial : forall v6 ls s q f k, reach v6 ls s -> granted (log s) -> holder (log s) = Some (q, f) -> alive s q = true -> stk s q = [] ->
  exists n s', own s n = Some OLib /\ run v6 s [LData q n (S k); LMsg q] = Some s' /\ stk s' q = [FCheck f; FMsgs f k].
Proof.
  intros v6 ls s q f k R G H A E. pose proof (inv_reach _ _ _ R) as IV. destruct (inv_holder _ _ _ IV H) as [SQ NF].
  destruct (j_watch _ _ (inv2_reach _ _ _ R) G q SQ A) as [[g W]|[c [W _]]]; [|congruence]. pose proof (i_att _ IV _ _ _ W) as (_ & NF' & _ & O & _). assert (g = f) by congruence. subst g.
  exists (nlfd s). cbn [run step]. rewrite E, W, Nat.eqb_refl. cbn [stk sett]. rewrite Nat.eqb_refl. eexists. split; [exact O|]. split; [reflexivity|]. cbn. rewrite Nat.eqb_refl. reflexivity.
Qed.
Print Assumptions C73_watch_partial.

(** ** Where the code does not keep to it *)
(** Once the subscriber's queue is gone, it stays the subscriber for ever: nobody can subscribe or unsubscribe any more. *)
Lemma dead_step v6 s l s' q f : inv s -> subq s = Some q -> netf s = Some f -> alive s q = false -> step v6 s l = Some s' -> subq s' = Some q /\ netf s' = Some f /\ alive s' q = false.
Proof.
  intros IV SQ NF A H.
  assert (NS : stk s q = []) by (destruct (stk s q) eqn:E; [reflexivity|]; rewrite (i_alive _ IV q) in A; [discriminate|rewrite E; discriminate]).
  assert (NC : forall x c b, stk s x = c :: b -> cfr c = true -> exists f', b = [] /\ subq s = Some x /\ netf s = Some f').
  { intros x c b E C. pose proof (i_stk _ IV x) as K. rewrite E in K. destruct (okl_create _ _ _ _ C K) as [(f1 & u & -> & U & L & SQ0 & HO & FO)|(f1 & -> & SQ0 & NF0 & FO & NA & HO)]; [congruence|]. eauto. }
  destruct l as [x|x| |x g|x|x r|x ok|x ok|x|x g1 g2 o|x|x n k|x|x n|x|x|n|n]; cbn [step] in H.
  - destruct (stk s x); [|discriminate]. destruct (alive s x); [|discriminate]. some H. auto.
  - destruct (stk s x) as [|[] b]; try discriminate. some H. auto.
  - some H. auto.
  - destruct (stk s x) as [|[] b]; try discriminate. destruct (free s); [|discriminate]. rewrite SQ in H. some H. auto.
  - destruct (stk s x) as [|[] b] eqn:E; try discriminate. destruct (free s); [|discriminate]. rewrite SQ in H. destruct (q =? x)%nat eqn:Q; [apply Nat.eqb_eq in Q; subst x; congruence|]. some H. auto.
  - destruct (stk s x) as [|[] b] eqn:E; try discriminate. destruct (NC x _ _ E eq_refl) as (f' & -> & SX & _). assert (x = q) by congruence. subst x. congruence.
  - destruct (stk s x) as [|[] b] eqn:E; try discriminate. destruct (NC x _ _ E eq_refl) as (f' & -> & SX & _). assert (x = q) by congruence. subst x. congruence.
  - destruct (stk s x) as [|[] b] eqn:E; try discriminate. destruct (NC x _ _ E eq_refl) as (f' & -> & SX & _). assert (x = q) by congruence. subst x. congruence.
  - destruct (stk s x) as [|[] b] eqn:E; try discriminate. destruct (NC x _ _ E eq_refl) as (f' & -> & SX & _). assert (x = q) by congruence. subst x. congruence.
  - destruct (stk s x) as [|[] b]; try discriminate. destruct (free s); [|discriminate]. destruct (check v6 true g1 g2 o (rts s)) as [r t]. some H. auto.
  - destruct (stk s x) as [|[] b]; try discriminate. some H. auto.
  - destruct (stk s x); [|discriminate]. destruct (att s n) as [[y g]|]; [|discriminate]. destruct (y =? x)%nat; [|discriminate]. some H. auto.
  - destruct (stk s x) as [|[] b]; try discriminate. destruct k; some H; auto.
  - destruct (stk s x); [|discriminate]. destruct (att s n) as [[y g]|]; [|discriminate]. destruct (y =? x)%nat; [|discriminate]. some H. auto.
  - destruct (stk s x) as [|[] b]; try discriminate. some H. auto.
  - destruct (stk s x); [|discriminate]. destruct (alive s x); [|discriminate]. some H. cbn. destruct (q =? x)%nat; auto.
  - destruct (0 <=? n); [|discriminate]. destruct (own s n); [discriminate|]. some H. auto.
  - destruct (own s n) as [[]|]; try discriminate. some H. auto.
Qed.
Lemma dead_run v6 ls : forall s s' q f, inv s -> subq s = Some q -> netf s = Some f -> alive s q = false -> run v6 s ls = Some s' -> holder (log s') = Some (q, f).
Proof.
  induction ls as [|l ls IH]; intros s s' q f IV SQ NF A; cbn [run].
  - intros [= <-]. apply inv_holder_some; auto.
  - destruct (step v6 s l) eqn:E; [|discriminate]. destruct (dead_step _ _ _ _ _ _ IV SQ NF A E) as (A1 & A2 & A3). apply IH; auto. eapply inv_step; eauto.
Qed.

(** Runs. *)
Definition end_of (v6 : bool) (ls : list label) : st := match run v6 init ls with Some s => s | None => init end.
Lemma end_run v6 ls : match run v6 init ls with Some _ => true | None => false end = true -> reach v6 ls (end_of v6 ls).
Proof. unfold reach, end_of. destruct (run v6 init ls); [reflexivity|discriminate]. Qed.
Definition d0 : def_rt := init_def_rt.
(** q subscribes with f, the system gives the socket n and reports the routes o; then the function of the user returns. *)
Definition subscribe (q : nat) (f : fn) (n : Z) (o : obs) (cb : bool) : list label :=
  [LFun q; LSub q f; LSock q (Some n); LBind q true; LAdd q true; LCheck q d0 d0 o] ++ (if cb then [LRet q] else []) ++ [LSubRet q; LRet q].

Theorem C73_dead_refuted :
  (exists ls s, reach true ls s /\ holder (log s) = Some (0%nat, 7%nat) /\ In (EDead 0) (log s) /\ granted (log s) /\ outside (log s)) /\
  forall v6 ls s q f, reach v6 ls s -> holder (log s) = Some (q, f) -> alive s q = false ->
  forall ls' s', run v6 s ls' = Some s' -> holder (log s') = Some (q, f) /\
    forall x g s'', step v6 s' (LSub x g) = Some s'' -> log s'' = ESub x g RExist :: log s'.
Proof.
  split.
  - exists (subscribe 0 7%nat 3 o4 true ++ [LDestroy 0]), (end_of true (subscribe 0 7%nat 3 o4 true ++ [LDestroy 0])). split; [apply end_run; vm_compute; reflexivity|].
    split; [vm_compute; reflexivity|]. split; [vm_compute; auto|]. split; [intros a b|intros q]; vm_compute; intuition discriminate.
  - intros v6 ls s q f R H A ls' s' R'. pose proof (inv_reach _ _ _ R) as IV. destruct (inv_holder _ _ _ IV H) as [SQ NF].
    pose proof (dead_run v6 ls' s s' q f IV SQ NF A R') as D. split; [exact D|]. intros x g s'' S1. cbn [step] in S1. destruct (stk s' x) as [|[] r]; try discriminate. destruct (free s'); [|discriminate].
    destruct (inv_holder _ _ _ (inv_run _ _ _ _ IV R') D) as [SQ' _]. rewrite SQ' in S1. some S1. reflexivity.
Qed.
Print Assumptions C73_dead_refuted.
(** A callback that unsubscribes while it is told of one message is called again for the next message of the same datagram. *)
Theorem C73_callback_refuted : exists ls s l1 x e l2, reach true ls s /\ log s = l1 ++ x :: l2 /\ called x 0 7%nat e /\ holder l2 = None /\ granted (log s).
Proof.
  set (ls := subscribe 0 7%nat 3 o4 true ++ [LData 0 3 2; LMsg 0; LCheck 0 d0 d0 o0; LUnsub 0; LRet 0; LMsg 0; LCheck 0 d0 d0 o4]).
  exists ls, (end_of true ls), []. do 3 eexists. split; [apply end_run; vm_compute; reflexivity|].
  split; [vm_compute; reflexivity|]. split; [eexists; reflexivity|]. split; [reflexivity|]. intros a b. vm_compute. intuition discriminate.
Qed.
Print Assumptions C73_callback_refuted.
(** After that the next subscriber is not told that the network is up. *)
Theorem C73_first_refuted : exists ls s q f o l2, reach true ls s /\ log s = ELook q f o None :: EOn q f :: l2 /\ up (seen true o) /\ real o.
Proof.
  set (ls := subscribe 0 7%nat 3 o4 true ++ [LData 0 3 2; LMsg 0; LCheck 0 d0 d0 o0; LUnsub 0; LRet 0; LMsg 0; LCheck 0 d0 d0 o4; LRet 0; LMsg 0] ++
             [LFun 1; LSub 1 8%nat; LSock 1 (Some 3); LBind 1 true; LAdd 1 true; LCheck 1 d0 d0 o4]).
  exists ls, (end_of true ls), 1%nat, 8%nat, o4. eexists. split; [apply end_run; vm_compute; reflexivity|]. split; [vm_compute; reflexivity|].
  split; [intros X; vm_compute in X; discriminate|]. intros x [X|X]; vm_compute in X; [injection X as <-; vm_compute; discriminate|discriminate].
Qed.
Print Assumptions C73_first_refuted.
(** A descriptor of the application is closed: by the second of the two calls of close after the system refused to bind the socket,
    and by unsubscribing after the system refused to replace a broken socket. *)
Theorem C73_closes_refuted :
  (exists ls s n l2, reach true ls s /\ log s = ESub 0 7%nat RFail :: EClosed 0 n (Some OApp) :: l2) /\
  (exists ls s n i l2, reach true ls s /\ log s = EUnsub 0 true i :: EClosed 0 n (Some OApp) :: l2).
Proof.
  split.
  - set (ls := [LFun 0; LSub 0 7%nat; LSock 0 (Some 3); LBind 0 false; LClose 0; LOpen 3; LClose 0]).
    exists ls, (end_of true ls), 3. eexists. split; [apply end_run; vm_compute; reflexivity|]. vm_compute. reflexivity.
  - set (ls := subscribe 0 7%nat 3 o4 true ++ [LErr 0 3; LEvt 0; LSock 0 None; LOpen 3; LFun 0; LUnsub 0]).
    exists ls, (end_of true ls), 3. do 2 eexists. split; [apply end_run; vm_compute; reflexivity|]. vm_compute. reflexivity.
Qed.
Print Assumptions C73_closes_refuted.
(** When a broken socket could not be replaced, the subscriber is told of nothing any more, whatever happens, until it unsubscribes. *)
Definition deaf (q : nat) (f : fn) (s : st) : Prop :=
  subq s = Some q /\ netf s = Some f /\ (forall n, att s n = None) /\ (stk s q = [] \/ stk s q = [FUser]).
Lemma deaf_step v6 s l s' q f : inv s -> deaf q f s -> step v6 s l = Some s' ->
  exists new, log s' = new ++ log s /\ ((exists i, In (EUnsub q true i) new) \/ (deaf q f s' /\ forall g o r, ~ In (ELook q g o r) new)).
Proof.
  intros IV (SQ & NF & NA & ST) H.
  assert (NC : forall x c b, stk s x = c :: b -> cfr c = true -> False).
  { intros x c b E C. pose proof (i_stk _ IV x) as K. rewrite E in K. destruct (okl_create _ _ _ _ C K) as [(f1 & u & -> & U & L & SQ0 & HO & FO)|(f1 & -> & SQ0 & NF0 & FO & _ & HO)]; [congruence|].
    assert (x = q) by congruence. subst x. destruct ST as [ST|ST]; rewrite ST in E; [discriminate|]. injection E as <-. discriminate. }
  assert (KEEP : forall t new, subq t = subq s -> netf t = netf s -> att t = att s -> (stk t q = [] \/ stk t q = [FUser]) -> log t = new ++ log s -> (forall g o r, ~ In (ELook q g o r) new) ->
            exists new, log t = new ++ log s /\ ((exists i, In (EUnsub q true i) new) \/ (deaf q f t /\ forall g o r, ~ In (ELook q g o r) new))).
  { intros t new T1 T2 T3 T4 T5 T6. exists new. split; [exact T5|]. right. split; [|exact T6]. unfold deaf. rewrite T1, T2, T3. auto. }
  assert (OTH : forall x b c, stk s x = c :: b -> c <> FUser -> x <> q) by (intros x b c E C ->; destruct ST as [ST|ST]; congruence).
  assert (SAME : forall x b c l, stk s x = c :: b -> c <> FUser -> (if (q =? x)%nat then l else stk s q) = [] \/ (if (q =? x)%nat then l else stk s q) = [FUser]).
  { intros x b c l0 E C. apply OTH in E; auto. assert (Q : (q =? x)%nat = false) by (apply Nat.eqb_neq; auto). rewrite Q. exact ST. }
  destruct l as [x|x| |x g|x|x r|x ok|x ok|x|x g1 g2 o|x|x n k|x|x n|x|x|n|n]; cbn [step] in H.
  - destruct (stk s x) eqn:E; [|discriminate]. destruct (alive s x); [|discriminate]. some H. apply (KEEP _ []); auto. cbn. destruct (q =? x)%nat; auto.
  - destruct (stk s x) as [|[] b] eqn:E; try discriminate. some H. apply (KEEP _ []); auto. cbn. destruct (q =? x)%nat eqn:Q; [|auto]. apply Nat.eqb_eq in Q. subst x. left. destruct ST as [ST|ST]; rewrite ST in E; [discriminate|]. congruence.
  - some H. apply (KEEP _ [EOut]); auto. cbn. intuition discriminate.
  - destruct (stk s x) as [|[] b] eqn:E; try discriminate. destruct (free s); [|discriminate]. rewrite SQ in H. some H. eapply (KEEP _ [_]); [reflexivity|reflexivity|reflexivity|auto|reflexivity|]. cbn. intuition discriminate.
  - destruct (stk s x) as [|[] b] eqn:E; try discriminate. destruct (free s); [|discriminate]. rewrite SQ in H. destruct (q =? x)%nat eqn:Q.
    + apply Nat.eqb_eq in Q. subst x. some H. unfold unsub. destruct (nlfd s =? -1); [eexists [_]|eexists [_; _]]; (split; [reflexivity|left; exists (in_msgs b); left; reflexivity]).
    + some H. eapply (KEEP _ [_]); [reflexivity|reflexivity|reflexivity|auto|reflexivity|]. cbn. intuition discriminate.
  - destruct (stk s x) as [|[] b] eqn:E; try discriminate. destruct (NC x _ _ E eq_refl).
  - destruct (stk s x) as [|[] b] eqn:E; try discriminate. destruct (NC x _ _ E eq_refl).
  - destruct (stk s x) as [|[] b] eqn:E; try discriminate. destruct (NC x _ _ E eq_refl).
  - destruct (stk s x) as [|[] b] eqn:E; try discriminate. destruct (NC x _ _ E eq_refl).
  - destruct (stk s x) as [|[] b] eqn:E; try discriminate. destruct (free s); [|discriminate]. destruct (check v6 true g1 g2 o (rts s)) as [r t]. some H. eapply (KEEP _ [_]); [reflexivity|reflexivity|reflexivity|cbn; eapply SAME; [exact E|discriminate]|reflexivity|].
    assert (D : x <> q) by (eapply OTH; [exact E|discriminate]). cbn. intros g o' r' [X|[]]. congruence.
  - destruct (stk s x) as [|[] b] eqn:E; try discriminate. some H. eapply (KEEP _ [_]); [reflexivity|reflexivity|reflexivity|cbn; eapply SAME; [exact E|discriminate]|reflexivity|]. cbn. intuition discriminate.
  - destruct (stk s x); [|discriminate]. rewrite NA in H. discriminate.
  - destruct (stk s x) as [|[] b] eqn:E; try discriminate. destruct k; some H; (apply (KEEP _ []); auto; cbn; eapply SAME; [exact E|discriminate]).
  - destruct (stk s x); [|discriminate]. rewrite NA in H. discriminate.
  - destruct (stk s x) as [|c b] eqn:E; [discriminate|]. destruct c as [| | | | |g n| | | |]; try discriminate. exfalso. pose proof (i_stk _ IV x) as K. rewrite E in K. inversion K; subst; try (cbn in *; discriminate).
    match goal with A : att s n = _ |- _ => rewrite NA in A; discriminate end.
  - destruct (stk s x); [|discriminate]. destruct (alive s x); [|discriminate]. some H. exists [EDead x]. split; [reflexivity|]. right. split; [|cbn; intuition discriminate].
    repeat (split; [assumption|]). split; [|exact ST]. intros n. cbn. rewrite NA. reflexivity.
  - destruct (0 <=? n); [|discriminate]. destruct (own s n); [discriminate|]. some H. apply (KEEP _ []); auto.
  - destruct (own s n) as [[]|]; try discriminate. some H. apply (KEEP _ []); auto.
Qed.
Lemma deaf_run v6 q f ls : forall s s', inv s -> deaf q f s -> run v6 s ls = Some s' ->
  exists new, log s' = new ++ log s /\ ((exists i, In (EUnsub q true i) new) \/ (forall g o r, ~ In (ELook q g o r) new)).
Proof.
  induction ls as [|l ls IH]; intros s s' IV D; cbn [run].
  - intros [= <-]. exists []. split; [reflexivity|]. right. intros g o r [].
  - destruct (step v6 s l) as [s1|] eqn:E; [|discriminate]. intros R. destruct (deaf_step _ _ _ _ _ _ IV D E) as (n1 & L1 & H1). pose proof (inv_step _ _ _ _ IV E) as IV1.
    destruct H1 as [[i H1]|[D1 H1]].
    + assert (X : exists n2, log s' = n2 ++ log s1).
      { clear -R. revert s1 R. induction ls as [|l ls IH]; intros s1; cbn [run]; [intros [= <-]; exists []; reflexivity|]. destruct (step v6 s1 l) as [s2|] eqn:E; [|discriminate]. intros R. destruct (IH s2 R) as [n2 N2]. destruct (log_step _ _ _ _ E) as [n3 N3].
        exists (n2 ++ n3). rewrite N2, N3, app_assoc. reflexivity. }
      destruct X as [n2 L2]. exists (n2 ++ n1). rewrite L2, L1, app_assoc. split; [reflexivity|]. left. exists i. apply in_or_app. auto.
    + destruct (IH s1 s' IV1 D1 R) as (n2 & L2 & H2). exists (n2 ++ n1). rewrite L2, L1, app_assoc. split; [reflexivity|]. destruct H2 as [[i H2]|H2]; [left; exists i; apply in_or_app; auto|]. right. intros g o r X. apply in_app_or in X. destruct X as [X|X]; [eapply H2, X|eapply H1, X].
Qed.
Definition broken : list label := subscribe 0 7%nat 3 o4 true ++ [LErr 0 3; LEvt 0; LSock 0 None].
Theorem C73_watch_refuted : exists s, reach true broken s /\ holder (log s) = Some (0%nat, 7%nat) /\ alive s 0%nat = true /\ stk s 0%nat = [] /\
  forall ls s', run true s ls = Some s' -> exists new, log s' = new ++ log s /\ ((exists i, In (EUnsub 0 true i) new) \/ (forall g o r, ~ In (ELook 0 g o r) new)).
Proof.
  assert (R : reach true broken (end_of true broken)) by (apply end_run; vm_compute; reflexivity).
  exists (end_of true broken). split; [exact R|]. split; [vm_compute; reflexivity|]. split; [vm_compute; reflexivity|]. split; [vm_compute; reflexivity|].
  intros ls s' R'. apply (deaf_run true 0 7%nat ls (end_of true broken) s'); [exact (inv_reach _ _ _ R)| |exact R'].
  assert (SQ : subq (end_of true broken) = Some 0%nat) by (vm_compute; reflexivity). assert (NF : netf (end_of true broken) = Some 7%nat) by (vm_compute; reflexivity).
  assert (ST : stk (end_of true broken) 0%nat = []) by (vm_compute; reflexivity). assert (FD : nlfd (end_of true broken) = 3) by (vm_compute; reflexivity). assert (AT : att (end_of true broken) 3 = None) by (vm_compute; reflexivity).
  split; [exact SQ|]. split; [exact NF|]. split; [|left; exact ST]. intros n. destruct (att (end_of true broken) n) as [[x g]|] eqn:A; [|reflexivity].
  apply (i_att _ (inv_reach _ _ _ R)) in A as A'. destruct A' as (_ & _ & A' & _). assert (n = 3) by congruence. subst n. congruence.
Qed.
Print Assumptions C73_watch_refuted.

(** ** Cases *)
(** Two queues: 0 subscribes and is told UP, 1 is refused both ways, a report arrives and 0 is told DOWN, 0 unsubscribes, 1 subscribes. *)
Definition example : list label :=
  subscribe 0 7%nat 3 o4 true ++ [LFun 1; LSub 1 8%nat; LUnsub 1; LRet 1; LOpen 4; LData 0 3 1; LMsg 0; LCheck 0 d0 d0 o0; LRet 0; LMsg 0; LFun 0; LUnsub 0; LRet 0] ++ subscribe 1 8%nat 3 o0 false.
Example example_run : log (end_of true example) =
  [ESub 1 8%nat ROk; ELook 1 8%nat o0 None; EOn 1 8%nat; EUnsub 0 true false; EClosed 0 3 (Some OLib); ELook 0 7%nat o0 (Some NET_DOWN); EUnsub 1 false false; ESub 1 8%nat RExist;
   ESub 0 7%nat ROk; ELook 0 7%nat o4 (Some NET_UP); EOn 0 7%nat].
Proof. vm_compute. reflexivity. Qed.
Example example_reach : reach true example (end_of true example) /\ outside (log (end_of true example)) /\ granted (log (end_of true example)).
Proof. split; [apply end_run; vm_compute; reflexivity|]. rewrite example_run. split; [intros q|intros a b]; cbn; intuition discriminate. Qed.
(** C73_watch_partial's hypotheses: after the subscription of 1. *)
Example example_watch : holder (log (end_of true example)) = Some (1%nat, 8%nat) /\ alive (end_of true example) 1%nat = true /\ stk (end_of true example) 1%nat = [].
Proof. vm_compute. auto. Qed.
(** C73_no_block's and C73_released's. *)
Example example_lock : lock (end_of true [LFun 0; LSub 0 7%nat; LSock 0 (Some 3)]) = Some 0%nat.
Proof. vm_compute. reflexivity. Qed.
Definition gone : list label := subscribe 0 7%nat 3 o4 true ++ [LErr 0 3; LEvt 0; LSock 0 (Some 5); LBind 0 true; LAdd 0 true; LFun 0; LUnsub 0; LRet 0].
Example example_released : reach true gone (end_of true gone) /\ holder (log (end_of true gone)) = None /\ own (end_of true gone) 5 = None /\ (forall q f, ~ In (FSub f) (stk (end_of true gone) q)).
Proof.
  assert (R : reach true gone (end_of true gone)) by (apply end_run; vm_compute; reflexivity). split; [exact R|]. split; [vm_compute; reflexivity|]. split; [vm_compute; reflexivity|].
  intros q f X. assert (L : lock (end_of true gone) = None) by (vm_compute; reflexivity). pose proof (i_stk _ (inv_reach _ _ _ R) q) as K. revert X.
  destruct K as [|u U|g k|g g' k|g g' u U|g u U|g n E|c g u C U LK SQ HO FO|c g C SQ NF FO NA HO]; cbn; try (intuition discriminate).
  - clear -U. remember (length u) as m eqn:Em. assert (Lm : (length u <= m)%nat) by lia. clear Em. revert u Lm U. induction m as [|m IH]; intros u Lm U X; [destruct u; [discriminate|cbn in Lm; lia]|].
    destruct u as [|[] u]; try discriminate U. destruct X as [X|X]; [discriminate|]. destruct u as [|y u]; [destruct X|]. cbn in U. destruct y; try discriminate U.
    + destruct X as [X|X]; [discriminate|]. apply (IH u); auto. cbn in Lm. lia.
    + destruct u; [|discriminate]. destruct X as [X|[]]. discriminate.
  - assert (NU : forall u, ushape u = true -> ~ In (FSub f) u).
    { clear. intros u. remember (length u) as m eqn:Em. assert (Lm : (length u <= m)%nat) by lia. clear Em. revert u Lm. induction m as [|m IH]; intros u Lm U X; [destruct u; [discriminate|cbn in Lm; lia]|].
      destruct u as [|[] u]; try discriminate U. destruct X as [X|X]; [discriminate|]. destruct u as [|y u]; [destruct X|]. cbn in U. destruct y; try discriminate U.
      + destruct X as [X|X]; [discriminate|]. apply (IH u); auto. cbn in Lm. lia.
      + destruct u; [|discriminate]. destruct X as [X|[]]. discriminate. }
    intros [X|[X|X]]; [discriminate|discriminate|]. exact (NU u U X).
  - assert (NU : forall u, ushape u = true -> ~ In (FSub f) u).
    { clear. intros u. remember (length u) as m eqn:Em. assert (Lm : (length u <= m)%nat) by lia. clear Em. revert u Lm. induction m as [|m IH]; intros u Lm U X; [destruct u; [discriminate|cbn in Lm; lia]|].
      destruct u as [|[] u]; try discriminate U. destruct X as [X|X]; [discriminate|]. destruct u as [|y u]; [destruct X|]. cbn in U. destruct y; try discriminate U.
      + destruct X as [X|X]; [discriminate|]. apply (IH u); auto. cbn in Lm. lia.
      + destruct u; [|discriminate]. destruct X as [X|[]]. discriminate. }
    intros [X|X]; [discriminate|]. exact (NU u U X).
Qed.
