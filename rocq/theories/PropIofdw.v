(** * C32: writing through a queue's descriptor *)
From Verif Require Import Base Iofdw.
Ltac Zify.zify_post_hook ::= Z.div_mod_to_equations.

(** ** Specification *)
(** Every byte with the extra arguments (flags, address) it was written with. *)
Definition labelled (l : list (list Z * Z)) : list (Z * Z) := flat_map (fun p => map (fun b => (b, snd p)) (fst p)) l.
(** What waits in the descriptor. *)
Definition pending (s : wst) : list (list Z * Z) := map (fun b => (skipn (n_off b) (n_data b), n_extra b)) (wq s).
(** What a call with result [r] has handed over: everything if it returns the length, nothing on an error, except that on ENOMEM a beginning may have gone out. *)
Definition takes (c : list Z * Z * Z) (t : list Z * Z) : Prop :=
  let '(buf, x, r) := c in snd t = x /\
  (r = Z.of_nat (length buf) /\ fst t = buf \/ r <> Z.of_nat (length buf) /\ fst t = [] \/ r = - AOSL_ENOMEM /\ exists k, (0 < k < length buf)%nat /\ fst t = firstn k buf).
(** No allocation fails. *)
Definition mem_ok (e : wev) : Prop := match e with ECall _ _ _ _ mem => mem = true | _ => True end.
Definition is_write (e : wev) : Prop := match e with ECall Send _ _ _ _ => False | _ => True end.

(** ** Invariant *)
Fixpoint nsum (l : list node) : Z := match l with [] => 0 | b :: r => Z.of_nat (length (n_data b)) + nsum r end.
Definition inv (s : wst) : Prop := total s = nsum (wq s) /\ nsum (wq s) <= FD_MAX_WBUF_SIZE /\ Forall (fun b => (n_off b <= length (n_data b))%nat) (wq s).
Lemma nsum_nonneg l : 0 <= nsum l. Proof. induction l; cbn [nsum]; lia. Qed.
Lemma nsum_app a b : nsum (a ++ b) = nsum a + nsum b. Proof. induction a; cbn [nsum app]; lia. Qed.
Lemma labelled_app a b : labelled (a ++ b) = labelled a ++ labelled b. Proof. apply flat_map_app. Qed.
Lemma labelled_split k (bs : list Z) x r : labelled ((firstn k bs, x) :: (skipn k bs, x) :: r) = labelled ((bs, x) :: r).
Proof. unfold labelled. cbn [flat_map fst snd]. rewrite app_assoc, <- map_app, firstn_skipn. reflexivity. Qed.
Lemma inv_init nr : inv (w_init nr). Proof. repeat split; cbn; auto. unfold FD_MAX_WBUF_SIZE. lia. Qed.
Lemma skipn_skipn k o (l : list Z) : skipn k (skipn o l) = skipn (o + k) l.
Proof. revert l. induction o; intros l; [reflexivity|]. destruct l; [rewrite !skipn_nil; reflexivity|]. cbn [skipn Nat.add]. apply IHo. Qed.
Lemma skipn_min k (l : list Z) o : skipn (o + Nat.min k (length l - o)) l = skipn k (skipn o l).
Proof. rewrite skipn_skipn. destruct (Nat.le_ge_cases k (length l - o)); [rewrite Nat.min_l by lia; f_equal; lia|rewrite Nat.min_r by lia; rewrite !skipn_all2 by lia; reflexivity]. Qed.
Lemma firstn_min k (l : list Z) : firstn (Nat.min k (length l)) l = firstn k l.
Proof. destruct (Nat.le_ge_cases k (length l)); [rewrite Nat.min_l by lia; reflexivity|rewrite Nat.min_r by lia; rewrite firstn_all, firstn_all2 by lia; reflexivity]. Qed.

Definition wout (s s' : wst) (bytes : list (list Z * Z)) : Prop :=
  inv s' /\ exists lost, (closed s' = false -> lost = []) /\ labelled (sent s') ++ labelled (pending s') ++ lost = labelled (sent s) ++ labelled (pending s) ++ labelled bytes.
Lemma queue_it_spec s buf x done mem s' r : inv s -> closed s = false -> (done <= length buf)%nat -> nsum (wq s) + Z.of_nat (length buf) <= FD_MAX_WBUF_SIZE -> queue_it s buf x done mem = (s', r) ->
  closed s' = false /\ sent s' = sent s /\ armed s' = armed s /\ inv s' /\ (mem = true /\ r = Z.of_nat (length buf) /\ pending s' = pending s ++ [(skipn done buf, x)] \/ mem = false /\ s' = s /\ r = - AOSL_ENOMEM).
Proof.
  intros (T & B & F) C D L E. unfold queue_it in E. destruct mem; injection E as <- <-; [|repeat split; auto]. cbn. split; [exact C|]. split; [reflexivity|]. split; [reflexivity|]. pose proof (nsum_nonneg (wq s)). pose proof (skipn_length done buf) as SL. split.
  - split; [|split]; cbn [wq total w_add].
    + rewrite nsum_app. cbn [nsum n_data]. unfold u64. rewrite T. rewrite Z.mod_small; [lia|]. unfold FD_MAX_WBUF_SIZE in *. lia.
    + rewrite nsum_app. cbn [nsum n_data]. lia.
    + apply Forall_app. split; [exact F|]. constructor; [cbn; lia|constructor].
  - left. split; [reflexivity|]. split; [reflexivity|]. unfold pending, w_add. cbn [wq]. rewrite map_app. reflexivity.
Qed.
Lemma space_spec s len : inv s -> (w_space s <? len) = false -> 0 <= len -> nsum (wq s) + len <= FD_MAX_WBUF_SIZE.
Proof.
  intros (T & B & _) E L. apply Z.ltb_ge in E. unfold w_space in E. pose proof (nsum_nonneg (wq s)). destruct (Z.ltb_spec (total s) FD_MAX_WBUF_SIZE); [|lia]. unfold u64 in E. rewrite Z.mod_small in E; unfold FD_MAX_WBUF_SIZE in *; lia.
Qed.
Lemma do_write_spec s c buf x h mem s' r : inv s -> closed s = false -> do_write s c buf x h mem = (s', r) ->
  inv s' /\ closed s' = false /\ exists t, takes (buf, x, r) t /\ (mem = true -> r = Z.of_nat (length buf) /\ fst t = buf \/ r <> Z.of_nat (length buf) /\ fst t = []) /\ labelled (sent s') ++ labelled (pending s') = labelled (sent s) ++ labelled (pending s) ++ labelled [t].
Proof.
  intros I C E. unfold do_write in E. assert (NIL : forall r0, r0 <> Z.of_nat (length buf) -> exists t, takes (buf, x, r0) t /\ (mem = true -> r0 = Z.of_nat (length buf) /\ fst t = buf \/ r0 <> Z.of_nat (length buf) /\ fst t = []) /\ labelled (sent s) ++ labelled (pending s) = labelled (sent s) ++ labelled (pending s) ++ labelled [t]).
  { intros r0 N. exists ([], x). cbn [takes fst snd]. split; [auto|]. split; [auto|]. cbn. rewrite app_nil_r. reflexivity. }
  destruct (Z.ltb_spec FD_MAX_WBUF_SIZE (Z.of_nat (length buf))); [injection E as <- <-; split; [exact I|]; split; [exact C|]; apply NIL; unfold AOSL_EMSGSIZE, AOSL_EBASE; lia|].
  destruct (w_space s <? Z.of_nat (length buf)) eqn:SP; [injection E as <- <-; split; [exact I|]; split; [exact C|]; apply NIL; unfold AOSL_EAGAIN, AOSL_EBASE; lia|].
  pose proof (space_spec s _ I SP ltac:(lia)) as ROOM.
  destruct (match wq s with [] => notready s | _ => true end) eqn:Q.
  - destruct (queue_it_spec s buf x 0 mem s' r I C ltac:(lia) ROOM E) as (C' & S' & _ & I' & [(-> & -> & P)|(-> & -> & ->)]); (split; [exact I'|]; split; [exact C'|]).
    + exists (buf, x). cbn [takes fst snd]. split; [auto|]. split; [auto|]. rewrite S', P, labelled_app. reflexivity.
    + apply NIL. unfold AOSL_ENOMEM, AOSL_EBASE. lia.
  - assert (WN : wq s = []) by (destruct (wq s); [reflexivity|discriminate]). assert (PN : pending s = []) by (unfold pending; rewrite WN; reflexivity).
    set (s1 := match h with HN n => took s (firstn n buf) x | HErr _ => s end) in *. set (s2 := match c with Write => set_armed s1 | Send => s1 end) in *.
    assert (A : wq s2 = wq s /\ total s2 = total s /\ closed s2 = false /\ sent s2 = match h with HN n => sent s ++ [(firstn n buf, x)] | HErr _ => sent s end) by (unfold s2, s1; destruct c, h; cbn; auto). destruct A as (A1 & A2 & A3 & A4).
    assert (I2 : inv s2) by (unfold inv in *; rewrite A1, A2; exact I). assert (P2 : pending s2 = []) by (unfold pending; rewrite A1, WN; reflexivity).
    destruct h as [n|e].
    + rewrite PN. cbn [labelled flat_map app]. destruct (Nat.eqb_spec (Nat.min n (length buf)) 0) as [M0|M0].
      * injection E as <- <-. split; [exact I2|]. split; [exact A3|]. assert (FN : firstn n buf = []) by (rewrite <- firstn_min, M0; reflexivity). exists ([], x). cbn [takes fst snd]. split; [split; [reflexivity|]|split; [intros _|]].
        -- destruct buf; [left; auto|right; left; split; [cbn; lia|reflexivity]].
        -- destruct buf; [left; auto|right; split; [cbn; lia|reflexivity]].
        -- rewrite A4, P2, FN, labelled_app. cbn. rewrite !app_nil_r. reflexivity.
      * destruct (Nat.ltb_spec (Nat.min n (length buf)) (length buf)) as [LT|GE].
        -- assert (NB : Nat.min n (length buf) = n) by lia. rewrite NB in *. assert (ROOM2 : nsum (wq s2) + Z.of_nat (length buf) <= FD_MAX_WBUF_SIZE) by (rewrite A1; exact ROOM). destruct (queue_it_spec s2 buf x n mem s' r I2 A3 ltac:(lia) ROOM2 E) as (C' & S' & _ & I' & [(-> & -> & P)|(-> & -> & ->)]); (split; [exact I'|]; split; [exact C'|]).
           ++ exists (buf, x). cbn [takes fst snd]. split; [auto|]. split; [auto|]. rewrite S', P, A4, P2. cbn [app]. rewrite labelled_app, <- app_assoc, <- labelled_app. cbn [app]. rewrite labelled_split. reflexivity.
           ++ exists (firstn n buf, x). cbn [takes fst snd]. split; [split; [reflexivity|]; right; right; split; [reflexivity|]; exists n; split; [lia|reflexivity]|]. split; [discriminate|]. rewrite A4, P2, labelled_app. cbn. rewrite !app_nil_r. reflexivity.
        -- injection E as <- <-. split; [exact I2|]. split; [exact A3|]. exists (buf, x). cbn [takes fst snd]. split; [auto|]. split; [auto|]. rewrite A4, P2, labelled_app, firstn_all2 by lia. cbn. rewrite !app_nil_r. reflexivity.
    + injection E as <- <-. split; [exact I2|]. split; [exact A3|]. rewrite A4. destruct (NIL (hal_errno e)) as (t & T1 & T2 & T3); [unfold hal_errno, AOSL_EAGAIN, AOSL_EBASE; repeat match goal with |- context [if ?b then _ else _] => destruct b end; lia|]. exists t. split; [exact T1|]. split; [exact T2|]. rewrite P2. rewrite PN in *. exact T3.
Qed.
Lemma flush_spec fuel : forall s hs, inv s -> closed s = false -> (length (wq s) < fuel)%nat -> wout s (fst (flush fuel s hs)) [] /\ armed (fst (flush fuel s hs)) = (match wq s with [] => armed s | _ => true end) /\ (ready_ev s <= ready_ev (fst (flush fuel s hs)))%nat.
Proof.
  induction fuel as [|k IH]; intros s hs I C L; [lia|]. cbn [flush]. destruct (wq s) as [|b r] eqn:W; cbn [length] in L.
  - cbn [fst armed ready_ev]. split; [|split; [reflexivity|lia]]. split; [unfold inv in *; cbn; rewrite W in I; exact I|]. exists []. split; [auto|]. unfold pending. cbn [sent wq]. rewrite W. cbn. rewrite !app_nil_r. reflexivity.
  - destruct (match hs with h :: t => (h, t) | [] => (HErr (-2001), []) end) as [h hs'] eqn:HH.
    destruct h as [n|e].
    + set (m := Nat.min n (length (n_data b) - n_off b)). cbn [n_off n_data n_extra]. cbn [set_armed took total notready armed closed sent errs ready_ev].
      assert (PB : pending s = (skipn (n_off b) (n_data b), n_extra b) :: map (fun b => (skipn (n_off b) (n_data b), n_extra b)) r) by (unfold pending; rewrite W; reflexivity).
      destruct I as (T & B & F). rewrite W in *. inversion F as [|? ? Fb Fr]; subst.
      assert (MM : firstn m (skipn (n_off b) (n_data b)) = firstn n (skipn (n_off b) (n_data b))) by (unfold m; rewrite <- (skipn_length (n_off b)); apply firstn_min).
      destruct (Nat.ltb_spec (n_off b + m) (length (n_data b))).
      * cbn [fst armed ready_ev]. split; [|split; [reflexivity|lia]]. split; [split; [|split]; cbn [wq total nsum n_data]; [exact T|exact B|constructor; [cbn; lia|exact Fr]]|]. exists []. split; [auto|]. rewrite PB. unfold pending. cbn [wq sent map n_off n_data n_extra]. unfold m at 2. rewrite skipn_min, labelled_app, <- app_assoc. f_equal. cbn [app]. rewrite !app_nil_r. rewrite <- labelled_app. cbn [app]. rewrite MM, labelled_split. reflexivity.
      * cbn [w_remove wq n_data]. set (s1 := mkW r _ _ _ _ _ _ _). pose proof (nsum_nonneg r). assert (I1 : inv s1).
        { split; [|split]; cbn [s1 wq total]; [|cbn [nsum] in B; lia|exact Fr]. unfold u64. rewrite T. cbn [nsum]. cbn [nsum] in B. rewrite Z.mod_small; unfold FD_MAX_WBUF_SIZE in *; lia. }
        destruct (IH s1 hs' I1 C ltac:(cbn; lia)) as ((Iv & lost & LC & LE) & AR & RE). split; [|split; [rewrite AR; cbn [s1 wq armed]; destruct r; reflexivity|exact RE]]. split; [exact Iv|]. exists lost. split; [exact LC|]. rewrite LE, PB. cbn [s1 sent]. unfold pending. cbn [s1 wq]. rewrite labelled_app, <- app_assoc. f_equal. rewrite !app_nil_r. rewrite MM.
        assert (MN : firstn n (skipn (n_off b) (n_data b)) = skipn (n_off b) (n_data b)) by (apply firstn_all2; rewrite skipn_length; unfold m in *; lia). rewrite MN. rewrite <- labelled_app. reflexivity.
    + destruct (hal_errno e =? - AOSL_EAGAIN); cbn [negb fst].
      * cbn [set_armed armed ready_ev]. split; [|split; [reflexivity|lia]]. split; [exact I|]. exists []. split; [auto|]. cbn. rewrite !app_nil_r. reflexivity.
      * cbn [close_f set_armed armed ready_ev]. split; [|split; [reflexivity|lia]]. split; [repeat split; cbn; auto; unfold FD_MAX_WBUF_SIZE; lia|]. exists (labelled (pending s)). cbn [close_f set_armed closed sent]. split; [discriminate|]. cbn. rewrite app_nil_r. reflexivity.
Qed.
Lemma write_data_spec s hs : inv s -> closed s = false -> wout s (write_data s hs) [] /\ armed (write_data s hs) = (match wq s with [] => armed s | _ => true end).
Proof. intros I C. unfold write_data. set (s0 := mkW _ _ false _ _ _ _ _). destruct (flush_spec (S (length (wq s))) s0 hs I C ltac:(cbn; lia)) as (H & A & _). split; [exact H|exact A]. Qed.
Lemma closed_run es : forall s, closed s = true -> exists ts, fst (wrun s es) = s /\ Forall2 takes (snd (wrun s es)) ts /\ labelled ts = [] /\ Forall (fun c => snd c = - AOSL_EINVAL) (snd (wrun s es)).
Proof.
  induction es as [|e es IH]; intros s C; [exists []; cbn; split; [reflexivity|]; split; [constructor|]; split; [reflexivity|constructor]|]. cbn [wrun]. unfold wstep. rewrite C. destruct (IH s C) as (ts & E1 & F & L & G). destruct (wrun s es) as [s' log]. cbn [fst snd] in *.
  destruct e as [c buf x h mem|hs|hs|]; try (exists ts; solve [auto]). exists (([], x) :: ts). split; [exact E1|]. split; [|split; [exact L|constructor; [reflexivity|exact G]]]. constructor; [|exact F]. cbn. split; [reflexivity|]. right. left. split; [unfold AOSL_EINVAL, AOSL_EBASE; lia|reflexivity].
Qed.
Lemma run_spec es : forall s, inv s -> closed s = false -> exists ts, Forall2 takes (snd (wrun s es)) ts
    /\ (Forall mem_ok es -> Forall2 (fun c t => snd c = Z.of_nat (length (fst (fst c))) /\ fst t = fst (fst c) \/ snd c <> Z.of_nat (length (fst (fst c))) /\ fst t = []) (snd (wrun s es)) ts)
    /\ wout s (fst (wrun s es)) ts.
Proof.
  induction es as [|e es IH]; intros s I C.
  - exists []. cbn. split; [constructor|]. split; [constructor|]. split; [exact I|]. exists []. split; [auto|]. cbn. rewrite !app_nil_r. reflexivity.
  - cbn [wrun]. destruct (wstep s e) as [s1 o] eqn:E. unfold wstep in E. rewrite C in E.
    assert (K : forall bytes (P : Prop), wout s s1 bytes -> (closed s1 = true -> labelled (sent s1) ++ labelled (pending s1) = labelled (sent s) \/ True) -> exists ts, Forall2 takes (snd (wrun s1 es)) ts
        /\ (Forall mem_ok es -> Forall2 (fun c t => snd c = Z.of_nat (length (fst (fst c))) /\ fst t = fst (fst c) \/ snd c <> Z.of_nat (length (fst (fst c))) /\ fst t = []) (snd (wrun s1 es)) ts)
        /\ wout s (fst (wrun s1 es)) (bytes ++ ts)).
    { intros bytes _ (I1 & lost & LC & LE) _. destruct (closed s1) eqn:C1.
      - destruct (closed_run es s1 C1) as (ts & E1 & F & L & G). exists ts. split; [exact F|]. split.
        + intros _. clear - F G L. revert L G. induction F as [|c t cs ts T F IH]; intros L G; [constructor|]. inversion G; subst. cbn [labelled flat_map] in L. apply app_eq_nil in L as [L1 L2]. constructor; [|apply IH; assumption]. right. split; [rewrite H1; unfold AOSL_EINVAL, AOSL_EBASE; lia|]. destruct t as [tb tx]. cbn [fst snd] in *. destruct tb; [reflexivity|discriminate].
        + rewrite E1. split; [exact I1|]. exists lost. split; [congruence|]. rewrite LE, labelled_app, L, app_nil_r. reflexivity.
      - rewrite (LC eq_refl), app_nil_r in LE. destruct (IH s1 I1 C1) as (ts & F & M & (I2 & lost2 & LC2 & LE2)). exists ts. split; [exact F|]. split; [exact M|]. split; [exact I2|]. exists lost2. split; [exact LC2|]. rewrite LE2, labelled_app, app_assoc, LE, <- !app_assoc. reflexivity. }
    destruct e as [c buf x h mem|hs|hs|].
    + destruct (do_write s c buf x h mem) as [s2 r] eqn:D. injection E as <- <-. destruct (do_write_spec s c buf x h mem s2 r I C D) as (I2 & C2 & t & T & MT & LE). destruct (K [t] True) as (ts & F & M & W); [split; [exact I2|]; exists []; split; [auto|]; rewrite app_nil_r; exact LE|auto|]. destruct (wrun s2 es) as [s' log]. cbn [fst snd] in *. exists (t :: ts). split; [constructor; assumption|]. split; [|exact W]. intros MO. inversion MO; subst. constructor; [cbn [fst snd]; apply MT; assumption|apply M; assumption].
    + assert (W1 : wout s s1 []).
      { destruct (armed s); injection E as <- _; [|split; [exact I|]; exists []; split; [auto|]; cbn; rewrite !app_nil_r; reflexivity]. destruct (write_data_spec (disarm s) hs I C) as [W _]. exact W. }
      assert (o = None) by (destruct (armed s); injection E as _ <-; reflexivity). subst o. destruct (K [] True W1 ltac:(auto)) as (ts & F & M & W). destruct (wrun s1 es) as [s' log]. cbn [fst snd] in *. exists ts. split; [exact F|]. split; [|exact W]. intros MO. inversion MO; subst. auto.
    + injection E as <- <-. destruct (write_data_spec s hs I C) as [W1 _]. destruct (K [] True W1 ltac:(auto)) as (ts & F & M & W). destruct (wrun (write_data s hs) es) as [s' log]. cbn [fst snd] in *. exists ts. split; [exact F|]. split; [|exact W]. intros MO. inversion MO; subst. auto.
    + injection E as <- <-. set (s1 := mkW _ _ _ _ _ _ _ _) in *. assert (W1 : wout s s1 []) by (split; [repeat split; cbn; auto; unfold FD_MAX_WBUF_SIZE; lia|]; exists (labelled (pending s)); split; [discriminate|]; cbn; rewrite app_nil_r; reflexivity). destruct (K [] True W1 ltac:(auto)) as (ts & F & M & W). destruct (wrun s1 es) as [s' log]. cbn [fst snd] in *. exists ts. split; [exact F|]. split; [|exact W]. intros MO. inversion MO; subst. auto.
Qed.

(** ** C32: the bytes that reach the socket *)
(** The calls that returned the length they were given, in order, with what they handed over. *)
Definition accepted (log : list (list Z * Z * Z)) : list (list Z * Z) :=
  flat_map (fun c => let '(buf, x, r) := c in if r =? Z.of_nat (length buf) then [(buf, x)] else []) log.

(** For every sequence of calls and poll results: what the socket took and what still waits is, byte for byte and in order, what the calls handed over; only a descriptor that is closed drops what waited. *)
Theorem C32_stream : forall nr es s log, wrun (w_init nr) es = (s, log) ->
  exists ts lost, Forall2 takes log ts /\ (closed s = false -> lost = []) /\ labelled (sent s) ++ labelled (pending s) ++ lost = labelled ts.
Proof.
  intros nr es s log E. destruct (run_spec es (w_init nr) (inv_init nr) eq_refl) as (ts & F & _ & _ & lost & LC & LE). rewrite E in *. cbn [fst snd] in *. exists ts, lost. split; [exact F|]. split; [exact LC|]. exact LE.
Qed.
Theorem C32_no_loss : forall nr es s log, Forall mem_ok es -> wrun (w_init nr) es = (s, log) ->
  exists lost, (closed s = false -> lost = []) /\ labelled (sent s) ++ labelled (pending s) ++ lost = labelled (accepted log).
Proof.
  intros nr es s log MO E. destruct (run_spec es (w_init nr) (inv_init nr) eq_refl) as (ts & F & M & _ & lost & LC & LE). rewrite E in *. cbn [fst snd] in *. exists lost. split; [exact LC|]. rewrite LE. cbn [sent w_init pending wq map labelled flat_map app]. specialize (M MO). clear - F M.
  revert M. induction F as [|c t cs ts T F IH]; intros M; [reflexivity|]. inversion M as [|? ? ? ? M1 M2]; subst. destruct c as [[buf x] r]. destruct t as [tb tx]. cbn [takes fst snd] in *. destruct T as [-> _]. cbn [accepted flat_map]. fold (accepted cs). rewrite labelled_app, <- (IH M2). cbn [labelled flat_map]. f_equal. destruct M1 as [[-> ->]|[N ->]]; [rewrite Z.eqb_refl; cbn; rewrite app_nil_r; reflexivity|]. rewrite (proj2 (Z.eqb_neq _ _) N). reflexivity.
Qed.
(** A descriptor that was not closed with nothing waiting: the socket has got exactly the accepted writes. *)
Theorem C32_complete : forall nr es s log, Forall mem_ok es -> wrun (w_init nr) es = (s, log) -> closed s = false -> pending s = [] -> labelled (sent s) = labelled (accepted log).
Proof. intros nr es s log MO E C P. destruct (C32_no_loss nr es s log MO E) as (lost & LC & LE). rewrite (LC C), P in LE. cbn in LE. rewrite !app_nil_r in LE. exact LE. Qed.

Lemma run_inv nr es : inv (fst (wrun (w_init nr) es)).
Proof. destruct (run_spec es (w_init nr) (inv_init nr) eq_refl) as (ts & _ & _ & I & _). exact I. Qed.
(** The memory held by what waits, counting a buffer of which a part went out whole. *)
Definition held (s : wst) : Z := nsum (wq s).
Lemma pending_held s : inv s -> Z.of_nat (length (labelled (pending s))) <= held s.
Proof.
  intros _. unfold held, pending. induction (wq s) as [|b r IH]; [reflexivity|]. cbn [map labelled flat_map nsum fst snd]. rewrite app_length, map_length, skipn_length. fold (labelled (map (fun b => (skipn (n_off b) (n_data b), n_extra b)) r)). lia.
Qed.
Theorem C32_bound : forall nr es, let s := fst (wrun (w_init nr) es) in held s <= 131072 /\ Z.of_nat (length (labelled (pending s))) <= held s.
Proof. intros nr es s. pose proof (run_inv nr es) as I. split; [destruct I as (_ & B & _); exact B|apply pending_held; exact I]. Qed.

(** When a call is refused: more than 128 KB never fits; otherwise with nothing waiting the socket decides; with something waiting (or a connection under way) the call is accepted exactly if it fits beside what is held, and it never reaches the socket before what waits. *)
Theorem C32_refusals : forall nr es s c buf x h mem, s = fst (wrun (w_init nr) es) -> closed s = false ->
  let '(s', r) := wstep s (ECall c buf x h mem) in
  (131072 < Z.of_nat (length buf) <-> r = Some (- AOSL_EMSGSIZE)) /\
  (r = Some (- AOSL_EAGAIN) -> s' = s /\ (Z.of_nat (length buf) > 131072 - held s) \/ wq s = [] /\ h = HErr (-2001)) /\
  (wq s <> [] -> mem = true -> (r = Some (Z.of_nat (length buf)) <-> Z.of_nat (length buf) <= 131072 - held s) /\ sent s' = sent s) /\
  (wq s = [] -> notready s = false -> mem = true -> Z.of_nat (length buf) <= 131072 -> r = Some (match h with HErr e => hal_errno e | HN n => if (n =? 0)%nat then 0 else Z.of_nat (length buf) end)).
Proof.
  intros nr es s c buf x h mem ES C. assert (I : inv s) by (rewrite ES; apply run_inv). clear ES. unfold wstep. rewrite C. destruct (do_write s c buf x h mem) as [s' r] eqn:E.
  assert (SPC : w_space s = 131072 - held s).
  { destruct I as (T & B & _). unfold w_space, held. pose proof (nsum_nonneg (wq s)). rewrite T. unfold FD_MAX_WBUF_SIZE in *. destruct (Z.ltb_spec (nsum (wq s)) 131072); [unfold u64; rewrite Z.mod_small; lia|lia]. }
  unfold do_write in E. rewrite SPC in E. change FD_MAX_WBUF_SIZE with 131072 in E. assert (HB : 0 <= held s <= 131072) by (destruct I as (_ & B & _); pose proof (nsum_nonneg (wq s)); unfold held, FD_MAX_WBUF_SIZE in *; lia).
  assert (QI : forall s0 d s1 r1, queue_it s0 buf x d mem = (s1, r1) -> r1 = (if mem then Z.of_nat (length buf) else - AOSL_ENOMEM) /\ sent s1 = sent s0) by (unfold queue_it; intros s0 d s1 r1 Q; destruct mem; (split; [congruence|]); assert (EQ := f_equal fst Q); cbn [fst] in EQ; subst; reflexivity).
  assert (HE : forall e, hal_errno e <> - AOSL_EMSGSIZE /\ hal_errno e < 0) by (intros e; unfold hal_errno, AOSL_EAGAIN, AOSL_EMSGSIZE, AOSL_EBASE; repeat match goal with |- context [if ?b then _ else _] => destruct b end; lia).
  assert (HA : forall e, hal_errno e = - AOSL_EAGAIN -> e = -2001) by (intros e; unfold hal_errno, AOSL_EAGAIN, AOSL_EBASE; destruct (Z.eqb_spec e (-2002)); [lia|]; destruct (Z.eqb_spec e (-2001)); [auto|]; destruct (Z.eqb_spec e (-2003)); lia).
  assert (WE : forall w, held w = nsum (wq w)) by reflexivity. assert (CN : - AOSL_EMSGSIZE < 0 /\ - AOSL_EAGAIN < 0 /\ - AOSL_ENOMEM < 0 /\ AOSL_EMSGSIZE <> AOSL_EAGAIN /\ AOSL_EMSGSIZE <> AOSL_ENOMEM /\ AOSL_ENOMEM <> AOSL_EAGAIN) by (unfold AOSL_EAGAIN, AOSL_EMSGSIZE, AOSL_ENOMEM, AOSL_EBASE; lia). destruct CN as (c1 & c2 & c3 & c4 & c5 & c6).
  assert (SI : forall a b : Z, Some a = Some b <-> a = b) by (intros; split; congruence). rewrite !SI.
  destruct (Z.ltb_spec 131072 (Z.of_nat (length buf))) as [G|L]; [assert (s' = s) by congruence; subst s'; assert (r = - AOSL_EMSGSIZE) by congruence; subst r; clear E; repeat match goal with |- _ /\ _ => split | |- _ <-> _ => split | |- _ -> _ => intro end; rewrite ?SI in *; try lia; try reflexivity; try (left; split; [reflexivity|]; lia)|].
  destruct (Z.ltb_spec (131072 - held s) (Z.of_nat (length buf))) as [G2|L2].
  { assert (s' = s) by congruence; subst s'; assert (r = - AOSL_EAGAIN) by congruence; subst r; clear E. split; [split; [lia|intros Q; lia]|]. split; [intros _; left; split; [reflexivity|lia]|]. split; [intros _ _; split; [split; lia|reflexivity]|]. intros W _ _ _. exfalso. unfold held in G2. rewrite W in G2. cbn [nsum] in G2. lia. }
  destruct (match wq s with [] => notready s | _ => true end) eqn:Q.
  - destruct (QI _ _ _ _ E) as [-> SE]. split; [split; [lia|destruct mem; intros; lia]|]. split; [destruct mem; intros; lia|]. split; [intros _ ->; split; [split; auto; lia|exact SE]|]. intros W N _ _. rewrite W in Q. congruence.
  - assert (W : wq s = []) by (destruct (wq s); [reflexivity|discriminate]).
    set (s2 := match c with Write => _ | Send => _ end) in E. destruct h as [n|e].
    + destruct (Nat.eqb_spec (Nat.min n (length buf)) 0) as [Z0|NZ].
      * assert (s' = s2) by congruence; subst s'; assert (r = 0) by congruence; subst r; clear E. split; [split; lia|]. split; [lia|]. split; [congruence|]. intros _ _ _ _. rewrite ?SI. destruct (Nat.eqb_spec n 0); [reflexivity|lia].
      * assert (R : r = (if mem then Z.of_nat (length buf) else - AOSL_ENOMEM) \/ r = Z.of_nat (length buf)) by (destruct (_ <? _)%nat in E; [left; exact (proj1 (QI _ _ _ _ E))|right; congruence]).
        split; [split; [lia|]; destruct R as [->| ->]; [destruct mem|]; lia|]. split; [destruct R as [->| ->]; [destruct mem|]; lia|]. split; [congruence|]. intros _ _ -> _. rewrite ?SI. destruct (Nat.eqb_spec n 0); [lia|]. destruct R; assumption.
    + assert (s' = s2) by congruence; subst s'; assert (r = hal_errno e) by congruence; subst r; clear E. destruct (HE e). split; [split; [lia|congruence]|]. split; [intros X; right; split; [exact W|f_equal; auto]|]. split; [congruence|]. intros _ _ _ _. reflexivity.
Qed.

(** A socket with room takes everything: one writability event empties the queue in order, and the user is told. *)
Lemma flush_all fuel : forall s N k, inv s -> (length (wq s) < fuel)%nat -> (length (wq s) <= k)%nat -> 131072 <= Z.of_nat N ->
  let s' := fst (flush fuel s (repeat (HN N) k)) in wq s' = [] /\ closed s' = closed s /\ labelled (sent s') = labelled (sent s) ++ labelled (pending s) /\ ready_ev s' = S (ready_ev s).
Proof.
  induction fuel as [|f IH]; intros s N k I LF LK LN; [lia|]. cbn [flush]. destruct (wq s) as [|b r] eqn:W; cbn [length] in *.
  - cbn [fst wq closed sent ready_ev]. split; [reflexivity|]. split; [reflexivity|]. split; [|reflexivity]. unfold pending. rewrite W. cbn. rewrite app_nil_r. reflexivity.
  - destruct k as [|k]; [lia|]. cbn [repeat]. destruct I as (T & B & F). rewrite W in *. cbn [nsum] in *. inversion F as [|? ? Fb Fr]; subst. pose proof (nsum_nonneg r). unfold FD_MAX_WBUF_SIZE in B.
    set (L := (length (n_data b) - n_off b)%nat). assert (ML : Nat.min N L = L) by (unfold L; lia). rewrite ML. cbn [n_off n_data set_armed took total notready armed closed sent errs ready_ev n_extra]. destruct (Nat.ltb_spec (n_off b + L) (length (n_data b))); [unfold L in *; lia|]. cbn [w_remove wq n_data].
    set (s1 := mkW r _ _ _ _ _ _ _). assert (I1 : inv s1).
    { split; [|split; [cbn [s1 wq]; unfold FD_MAX_WBUF_SIZE; lia|exact Fr]]. cbn [s1 total wq]. unfold u64. rewrite T. rewrite Z.mod_small; lia. }
    destruct (IH s1 N k I1 ltac:(cbn; lia) ltac:(cbn; lia) LN) as (H1 & H2 & H3 & H4). split; [exact H1|]. split; [exact H2|]. split; [|exact H4]. rewrite H3. cbn [s1 sent]. unfold pending. cbn [s1 wq]. rewrite W. cbn [map]. rewrite labelled_app, <- app_assoc. f_equal. rewrite <- labelled_app. cbn [app]. unfold L. rewrite firstn_all2 by (rewrite skipn_length; lia). reflexivity.
Qed.
Theorem C32_flush : forall nr es s N k, s = fst (wrun (w_init nr) es) -> closed s = false -> armed s = true -> 131072 <= Z.of_nat N -> (length (wq s) <= k)%nat ->
  forall e, e = EPoll (repeat (HN N) k) \/ e = EEpoll (repeat (HN N) k) -> let s' := fst (wstep s e) in
  pending s' = [] /\ closed s' = false /\ labelled (sent s') = labelled (sent s) ++ labelled (pending s) /\ ready_ev s' = S (ready_ev s).
Proof.
  intros nr es s N k ES C A LN LK e HE. assert (I : inv s) by (rewrite ES; apply run_inv).
  assert (K : forall s0, wq s0 = wq s -> total s0 = total s -> closed s0 = false -> sent s0 = sent s -> ready_ev s0 = ready_ev s -> let s' := write_data s0 (repeat (HN N) k) in pending s' = [] /\ closed s' = false /\ labelled (sent s') = labelled (sent s) ++ labelled (pending s) /\ ready_ev s' = S (ready_ev s)).
  { intros s0 W T C0 S0 R0. unfold write_data. set (s1 := mkW _ _ false _ _ _ _ _). assert (I1 : inv s1) by (unfold inv; cbn [s1 wq total]; rewrite W, T; exact I). destruct (flush_all (S (length (wq s0))) s1 N k I1 ltac:(cbn; lia) ltac:(cbn [s1 wq]; rewrite W; lia) LN) as (H1 & H2 & H3 & H4). split; [unfold pending; rewrite H1; reflexivity|]. split; [rewrite H2; exact C0|]. split; [rewrite H3; cbn [s1 sent]; rewrite S0; unfold pending; cbn [s1 wq]; rewrite W; reflexivity|rewrite H4; cbn [s1 ready_ev]; rewrite R0; reflexivity]. }
  destruct HE as [-> | ->]; unfold wstep; rewrite C; [rewrite A|]; cbn [fst]; apply K; auto.
Qed.

(** With aosl_write, whatever waits is waited for: the poll and select back ends ask for writability. *)
Lemma write_armed es : forall s, Forall is_write es -> closed s = false -> inv s -> (notready s = true -> armed s = true) -> (wq s <> [] -> armed s = true) -> let s' := fst (wrun s es) in closed s' = false -> pending s' <> [] -> armed s' = true.
Proof.
  assert (NR : forall fuel s hs, notready (fst (flush fuel s hs)) = notready s).
  { induction fuel as [|k IH]; intros s hs; [reflexivity|]. cbn [flush]. destruct (wq s) as [|b r]; [reflexivity|]. destruct (match hs with h :: t => (h, t) | [] => _ end) as [h hs']. destruct h as [n|e]; [|destruct (negb _); reflexivity]. cbn zeta. destruct (_ <? _)%nat; [reflexivity|]. rewrite IH. reflexivity. }
  induction es as [|e es IH]; intros s WR C I N A s' C' P.
  - cbn in *. apply A. unfold pending, s' in P. cbn in P. destruct (wq s); [destruct (P eq_refl)|discriminate].
  - inversion WR as [|? ? W1 W2]; subst. unfold s' in *. clear s'. cbn [wrun] in *. destruct (wstep s e) as [s1 o] eqn:E. assert (FS : fst (let '(s2, log) := wrun s1 es in (s2, match e, o with ECall _ buf x _ _, Some z => (buf, x, z) :: log | _, _ => log end)) = fst (wrun s1 es)) by (destruct (wrun s1 es); reflexivity). rewrite FS in *. clear FS.
    destruct (closed s1) eqn:C1; [destruct (closed_run es s1 C1) as (ts & E1 & _); rewrite E1 in C'; congruence|].
    unfold wstep in E. rewrite C in E. destruct e as [c buf x h mem|hs|hs|].
    + destruct (do_write s c buf x h mem) as [s2 r] eqn:D. assert (s2 = s1) by congruence. subst s2. pose proof (do_write_spec s c buf x h mem s1 r I C D) as (I1 & _). destruct c; [|destruct W1].
      assert (AA : (notready s1 = true -> armed s1 = true) /\ (wq s1 <> [] -> armed s1 = true)).
      { unfold do_write in D. assert (SAME : forall s0 d s2 r0, queue_it s0 buf x d mem = (s2, r0) -> armed s2 = armed s0 /\ notready s2 = notready s0) by (unfold queue_it; intros s0 d s2 r0 Q; destruct mem; assert (s2 = _) by (symmetry; exact (f_equal fst Q)); subst; auto).
        destruct (_ <? _) in D; [assert (s1 = s) by congruence; subst; auto|]. destruct (_ <? _) in D; [assert (s1 = s) by congruence; subst; auto|].
        destruct (match wq s with [] => notready s | _ => true end) eqn:Q; [destruct (SAME _ _ _ _ D) as [SA SN]; rewrite SA, SN; split; [exact N|]; intros _; destruct (wq s); [auto|apply A; discriminate]|].
        set (s2 := match h with HN n => took s (firstn n buf) x | HErr _ => s end) in D. assert (AR : armed (set_armed s2) = true) by reflexivity. destruct h as [n|e]; [|assert (s1 = set_armed s2) by congruence; subst s1; auto]. destruct (_ =? 0)%nat in D; [assert (s1 = set_armed s2) by congruence; subst s1; auto|]. destruct (_ <? _)%nat in D; [|assert (s1 = set_armed s2) by congruence; subst s1; auto]. destruct (SAME _ _ _ _ D) as [SA SN]. rewrite SA. auto. }
      destruct AA. exact (IH s1 W2 C1 I1 H H0 C' P).
    + destruct (armed s) eqn:AS.
      * assert (s1 = write_data (disarm s) hs) by congruence. destruct (write_data_spec (disarm s) hs I C) as ((I1 & lost & LC & LE) & A1). rewrite <- H in *. apply (IH s1 W2 C1 I1).
        -- intros X. exfalso. rewrite H in X. unfold write_data in X. rewrite NR in X. discriminate.
        -- intros X. rewrite A1. cbn [disarm wq armed]. destruct (wq s) as [|b r] eqn:Ws; [|reflexivity]. exfalso. apply X. rewrite H. unfold write_data. cbn [disarm wq]. rewrite Ws. reflexivity.
        -- exact C'.
        -- exact P.
      * assert (s1 = s) by congruence. subst s1. exact (IH s W2 C I ltac:(rewrite AS; exact N) ltac:(rewrite AS; exact A) C' P).
    + assert (s1 = write_data s hs) by congruence. destruct (write_data_spec s hs I C) as ((I1 & lost & LC & LE) & A1). rewrite <- H in *. apply (IH s1 W2 C1 I1); [| |exact C'|exact P].
      * intros X. exfalso. rewrite H in X. unfold write_data in X. rewrite NR in X. discriminate.
      * intros X. rewrite A1. destruct (wq s) as [|b r] eqn:Ws; [|reflexivity]. exfalso. apply X. rewrite H. unfold write_data. rewrite Ws. reflexivity.
    + assert (C1' : closed s1 = true) by (assert (s1 = mkW [] 0 (notready s) (armed s) true (sent s) (errs s) (ready_ev s)) by congruence; subst; reflexivity). congruence.
Qed.
Theorem C32_armed : forall nr es s, Forall is_write es -> s = fst (wrun (w_init nr) es) -> closed s = false -> pending s <> [] -> armed s = true.
Proof. intros nr es s W -> C P. exact (write_armed es (w_init nr) W eq_refl (inv_init nr) ltac:(auto) ltac:(auto) C P). Qed.
(** Hence after any aosl_write calls, if the socket has room, the poll back end's next event sends all that waits. *)
Theorem C32_progress : forall nr es s N k, Forall is_write es -> s = fst (wrun (w_init nr) es) -> closed s = false -> pending s <> [] -> 131072 <= Z.of_nat N -> (length (wq s) <= k)%nat ->
  let s' := fst (wstep s (EPoll (repeat (HN N) k))) in pending s' = [] /\ closed s' = false /\ labelled (sent s') = labelled (sent s) ++ labelled (pending s).
Proof. intros nr es s N k W E C P LN LK. destruct (C32_flush nr es s N k E C (C32_armed nr es s W E C P) LN LK _ (or_introl eq_refl)) as (H1 & H2 & H3 & _). auto. Qed.

(** aosl_send does not ask for writability: with the poll and select back ends the rest of a partial send then waits for ever, however many further sends and poll rounds follow.  The claim that what was accepted is sent is false there. *)
Definition poll_or_send (e : wev) : Prop := match e with ECall _ _ _ _ _ => True | EPoll _ => True | _ => False end.
Lemma stalled es : forall s, Forall poll_or_send es -> closed s = false -> armed s = false -> wq s <> [] -> let s' := fst (wrun s es) in sent s' = sent s /\ closed s' = false /\ exists r, wq s' = wq s ++ r.
Proof.
  induction es as [|e es IH]; intros s PS C A W; [split; [reflexivity|]; split; [exact C|]; exists []; cbn; rewrite app_nil_r; reflexivity|]. inversion PS as [|? ? P1 P2]; subst. cbn [wrun]. unfold wstep. rewrite C. destruct e as [c buf x h mem|hs|hs|]; try (destruct P1).
  - assert (K : exists s1 o r, do_write s c buf x h mem = (s1, o) /\ sent s1 = sent s /\ closed s1 = false /\ armed s1 = false /\ wq s1 = wq s ++ r).
    { unfold do_write. destruct (_ <? _); [exists s, (- AOSL_EMSGSIZE), []; rewrite app_nil_r; auto|]. destruct (_ <? _); [exists s, (- AOSL_EAGAIN), []; rewrite app_nil_r; auto|]. assert (M : match wq s with [] => notready s | _ => true end = true) by (destruct (wq s); [destruct (W eq_refl)|reflexivity]). rewrite M. unfold queue_it. destruct mem; [|exists s, (- AOSL_ENOMEM), []; rewrite app_nil_r; auto]. eexists _, _, [_]. split; [reflexivity|]. cbn. auto. }
    destruct K as (s1 & o & r & -> & S1 & C1 & A1 & W1). destruct (IH s1 P2 C1 A1) as (H1 & H2 & r2 & H3); [rewrite W1; intros X; apply app_eq_nil in X as [X _]; auto|]. destruct (wrun s1 es) as [s2 log]. cbn [fst] in *. split; [congruence|]. split; [exact H2|]. exists (r ++ r2). rewrite H3, W1, app_assoc. reflexivity.
  - rewrite A. destruct (IH s P2 C A W) as (H1 & H2 & r & H3). destruct (wrun s es). cbn [fst] in *. split; [exact H1|]. split; [exact H2|]. exists r. exact H3.
Qed.
Theorem C32_send_stall_refuted : exists es s log, wrun (w_init false) es = (s, log) /\ log = [([1; 2; 3], 0, 3)] /\ closed s = false /\ sent s = [([1], 0)] /\ pending s = [([2; 3], 0)] /\
  forall es', Forall poll_or_send es' -> sent (fst (wrun s es')) = [([1], 0)] /\ exists r, wq (fst (wrun s es')) = wq s ++ r.
Proof.
  exists [EPoll []; ECall Send [1; 2; 3] 0 (HN 1) true]. eexists _, _. split; [reflexivity|]. split; [reflexivity|]. split; [reflexivity|]. split; [reflexivity|]. split; [reflexivity|].
  intros es' P. destruct (stalled es' (mkW [mkN [2; 3] 0 0] 2 false false false [([1], 0)] [] 1) P eq_refl eq_refl ltac:(discriminate)) as (H1 & _ & H3). split; [exact H1|exact H3].
Qed.
(** A call may report ENOMEM although a part of its bytes has gone out: "an error means that nothing was written" is false. *)
Theorem C32_enomem_refuted : exists es s, wrun (w_init false) es = (s, [([1; 2; 3], 0, - AOSL_ENOMEM)]) /\ sent s = [([1], 0)] /\ pending s = [] /\ closed s = false.
Proof. exists [ECall Write [1; 2; 3] 0 (HN 1) false]. eexists. split; [reflexivity|]. repeat split. Qed.

(** Sockets that take a message whole or not at all (datagrams): what they took is exactly the accepted messages, boundaries and addresses kept. *)
Definition whole (h : hal) : Prop := match h with HN n => 131072 <= Z.of_nat n | HErr _ => True end.
Definition dgram (e : wev) : Prop := match e with ECall _ buf _ h mem => whole h /\ mem = true /\ buf <> [] | EPoll hs | EEpoll hs => Forall whole hs | EClose => True end.
Definition fresh (s : wst) : Prop := inv s /\ Forall (fun b => n_off b = O /\ n_data b <> []) (wq s).
Lemma dgram_flush fuel : forall s hs, fresh s -> closed s = false -> Forall whole hs -> let s' := fst (flush fuel s hs) in fresh s' /\ exists lost, (closed s' = false -> lost = []) /\ sent s' ++ pending s' ++ lost = sent s ++ pending s.
Proof.
  induction fuel as [|k IH]; intros s hs (I & FR) C WH.
  - cbn. split; [split; assumption|]. exists []. rewrite app_nil_r. auto.
  - cbn [flush]. destruct (wq s) as [|b r] eqn:W.
    + cbn [fst]. split; [split; [unfold inv in *; cbn [wq total]; rewrite W in I; exact I|exact FR]|]. exists []. split; [auto|]. cbn [sent]. unfold pending. cbn [wq]. rewrite W. cbn [map app]. rewrite ?app_nil_r. reflexivity.
    + destruct (match hs with h :: t => (h, t) | [] => (HErr (-2001), []) end) as [h hs'] eqn:HH. assert (WW : whole h /\ Forall whole hs') by (destruct hs as [|h0 t]; [assert (h = HErr (-2001) /\ hs' = []) as [-> ->] by (split; congruence); cbn; auto|inversion WH; subst; assert (h0 = h /\ t = hs') as [-> ->] by (split; congruence); auto]). destruct WW as [WW WR].
      destruct I as (T & B & F). rewrite W in *. cbn [nsum] in *. inversion F as [|? ? Fb Fr]; subst. inversion FR as [|? ? [O0 NE] FRr]; subst. pose proof (nsum_nonneg r). unfold FD_MAX_WBUF_SIZE in *.
      destruct h as [n|e].
      * cbn [whole] in WW. assert (ML : Nat.min n (length (n_data b) - n_off b) = length (n_data b)) by lia. rewrite ML. cbn [n_off n_data set_armed took total notready armed closed sent errs ready_ev n_extra]. destruct (Nat.ltb_spec (n_off b + length (n_data b)) (length (n_data b))); [lia|]. cbn [w_remove wq n_data].
        set (s1 := mkW r _ _ _ _ _ _ _). assert (I1 : inv s1) by (split; [cbn [s1 total wq]; unfold u64; rewrite T, Z.mod_small; lia|split; [cbn [s1 wq]; unfold FD_MAX_WBUF_SIZE; lia|exact Fr]]).
        destruct (IH s1 hs' (conj I1 FRr) C WR) as (H1 & lost & LC & LE). split; [exact H1|]. exists lost. split; [exact LC|]. rewrite LE. cbn [s1 sent]. unfold pending. cbn [s1 wq]. rewrite W. cbn [map]. rewrite <- app_assoc. cbn [app]. rewrite O0. cbn [skipn]. rewrite firstn_all. reflexivity.
      * destruct (hal_errno e =? - AOSL_EAGAIN); cbn [negb fst].
        -- split; [split; [unfold inv; cbn; rewrite W; repeat split; assumption|cbn; rewrite W; exact FR]|]. exists []. split; [auto|]. rewrite app_nil_r. reflexivity.
        -- split; [split; [repeat split; cbn; auto; unfold FD_MAX_WBUF_SIZE; lia|constructor]|]. exists (pending s). split; [discriminate|]. cbn. rewrite ?app_nil_r. reflexivity.
Qed.
Lemma dgram_write s c buf x h s' r : fresh s -> closed s = false -> whole h -> buf <> [] -> do_write s c buf x h true = (s', r) -> fresh s' /\ closed s' = false /\ sent s' ++ pending s' = sent s ++ pending s ++ accepted [(buf, x, r)].
Proof.
  intros (I & FR) C WH NB E. pose proof (do_write_spec s c buf x h true s' r I C E) as (I' & C' & _). unfold do_write in E. pose proof (run_inv false []) as _.
  assert (LB : (0 < length buf)%nat) by (destruct buf; [congruence|cbn; lia]).
  assert (REF : forall e, e < 0 -> accepted [(buf, x, e)] = []) by (intros e L; cbn [accepted flat_map]; destruct (Z.eqb_spec e (Z.of_nat (length buf))); [lia|reflexivity]).
  assert (ACC : accepted [(buf, x, Z.of_nat (length buf))] = [(buf, x)]) by (cbn [accepted flat_map]; rewrite Z.eqb_refl; reflexivity).
  destruct (Z.ltb_spec FD_MAX_WBUF_SIZE (Z.of_nat (length buf))) as [|LE]; [assert (s' = s /\ r = - AOSL_EMSGSIZE) as [-> ->] by (split; congruence); split; [split; assumption|]; split; [exact C|]; rewrite REF, app_nil_r by (unfold AOSL_EMSGSIZE, AOSL_EBASE; lia); reflexivity|].
  destruct (_ <? _) in E; [assert (s' = s /\ r = - AOSL_EAGAIN) as [-> ->] by (split; congruence); split; [split; assumption|]; split; [exact C|]; rewrite REF, app_nil_r by (unfold AOSL_EAGAIN, AOSL_EBASE; lia); reflexivity|].
  destruct (match wq s with [] => notready s | _ => true end) eqn:Q.
  - unfold queue_it in E. assert (s' = w_add s (mkN (skipn 0 buf) 0 x) /\ r = Z.of_nat (length buf)) as [ES ->] by (split; congruence). split; [split; [exact I'|]|split; [exact C'|]].
    + rewrite ES. cbn [w_add wq]. apply Forall_app. split; [exact FR|]. constructor; [cbn; auto|constructor].
    + rewrite ACC, ES. cbn [w_add sent]. unfold pending. cbn [w_add wq]. rewrite map_app. reflexivity.
  - assert (WN : wq s = []) by (destruct (wq s); [reflexivity|discriminate]).
    set (s1 := match h with HN n => took s (firstn n buf) x | HErr _ => s end) in *. set (s2 := match c with Write => set_armed s1 | Send => s1 end) in *.
    assert (A : wq s2 = wq s /\ sent s2 = match h with HN n => sent s ++ [(firstn n buf, x)] | HErr _ => sent s end) by (unfold s2, s1; destruct c, h; cbn; auto). destruct A as (A1 & A4). assert (PN : pending s = [] /\ pending s2 = []) by (unfold pending; rewrite A1, WN; auto). destruct PN as [PN PN2].
    destruct h as [n|e].
    + cbn [whole] in WH. unfold FD_MAX_WBUF_SIZE in LE. rewrite (Nat.min_r n) in E by lia. destruct (Nat.eqb_spec (length buf) 0); [lia|]. destruct (Nat.ltb_spec (length buf) (length buf)); [lia|]. assert (s' = s2 /\ r = Z.of_nat (length buf)) as [-> ->] by (split; congruence). split; [split; [exact I'|rewrite A1; exact FR]|]. split; [exact C'|]. rewrite ACC, A4, PN, PN2, firstn_all2 by lia. cbn. rewrite app_nil_r. reflexivity.
    + assert (s' = s2 /\ r = hal_errno e) as [-> ->] by (split; congruence). split; [split; [exact I'|rewrite A1; exact FR]|]. split; [exact C'|]. rewrite A4, PN, PN2, REF; [reflexivity|]. unfold hal_errno, AOSL_EAGAIN, AOSL_EBASE. repeat match goal with |- context [if ?b then _ else _] => destruct b end; lia.
Qed.
Lemma closed_accepted es : forall s, closed s = true -> accepted (snd (wrun s es)) = [].
Proof.
  induction es as [|e es IH]; intros s C; [reflexivity|]. cbn [wrun]. unfold wstep. rewrite C. specialize (IH s C). destruct (wrun s es) as [s' log]. cbn [snd] in *. destruct e as [c buf x h mem|hs|hs|]; cbn [snd]; auto. cbn [accepted flat_map]. destruct (Z.eqb_spec (- AOSL_EINVAL) (Z.of_nat (length buf))); [unfold AOSL_EINVAL, AOSL_EBASE in *; lia|]. exact IH.
Qed.
Lemma dgram_run es : forall s, Forall dgram es -> fresh s -> closed s = false -> let s' := fst (wrun s es) in exists lost, (closed s' = false -> lost = []) /\ sent s' ++ pending s' ++ lost = sent s ++ pending s ++ accepted (snd (wrun s es)).
Proof.
  induction es as [|e es IH]; intros s D FR C; [exists []; cbn; rewrite !app_nil_r; auto|]. inversion D as [|? ? D1 D2]; subst. cbn [wrun]. destruct (wstep s e) as [s1 o] eqn:E.
  assert (K : forall acc lost0, fresh s1 -> (closed s1 = false -> lost0 = []) -> sent s1 ++ pending s1 ++ lost0 = sent s ++ pending s ++ acc -> exists lost, (closed (fst (wrun s1 es)) = false -> lost = []) /\ sent (fst (wrun s1 es)) ++ pending (fst (wrun s1 es)) ++ lost = sent s ++ pending s ++ acc ++ accepted (snd (wrun s1 es))).
  { intros acc lost0 F1 L0 E0. destruct (closed s1) eqn:C1.
    - destruct (closed_run es s1 C1) as (ts & E1 & _). rewrite (closed_accepted es s1 C1), E1, app_nil_r. exists lost0. split; [congruence|exact E0].
    - destruct (IH s1 D2 F1 C1) as (lost & LC & LE). exists lost. split; [exact LC|]. rewrite LE. rewrite (L0 eq_refl), app_nil_r in E0. rewrite app_assoc, E0, <- !app_assoc. reflexivity. }
  unfold wstep in E. rewrite C in E. destruct e as [c buf x h mem|hs|hs|]; cbn [dgram] in D1.
  - destruct D1 as (WH & -> & NB). destruct (do_write s c buf x h true) as [s2 r] eqn:DW. assert (s2 = s1 /\ o = Some r) as [-> ->] by (split; congruence). destruct (dgram_write s c buf x h s1 r FR C WH NB DW) as (F1 & C1 & E1). destruct (K (accepted [(buf, x, r)]) [] F1 ltac:(auto) ltac:(rewrite app_nil_r; exact E1)) as (lost & LC & LE). destruct (wrun s1 es) as [s' log]. cbn [fst snd] in *. exists lost. split; [exact LC|]. rewrite LE. f_equal. f_equal. change ((buf, x, r) :: log) with ([(buf, x, r)] ++ log). unfold accepted. rewrite flat_map_app. reflexivity.
  - assert (W1 : fresh s1 /\ exists lost, (closed s1 = false -> lost = []) /\ sent s1 ++ pending s1 ++ lost = sent s ++ pending s).
    { destruct (armed s); [assert (s1 = write_data (disarm s) hs) by congruence; subst s1|assert (s1 = s) by congruence; subst s1; split; [exact FR|]; exists []; rewrite app_nil_r; auto]. exact (dgram_flush (S (length (wq s))) (mkW (wq s) (total s) false false (closed s) (sent s) (errs s) (ready_ev s)) hs FR C D1). }
    destruct W1 as (F1 & lost & LC & LE). assert (o = None) by (destruct (armed s); congruence). subst o. destruct (K [] lost F1 LC ltac:(rewrite app_nil_r; exact LE)) as (l2 & LC2 & LE2). destruct (wrun s1 es) as [s' log]. cbn [fst snd] in *. exists l2. auto.
  - assert (s1 = write_data s hs) by congruence. destruct (dgram_flush (S (length (wq s))) (mkW (wq s) (total s) false (armed s) (closed s) (sent s) (errs s) (ready_ev s)) hs FR C D1) as (F1 & lost & LC & LE). unfold write_data in H. rewrite <- H in *. assert (o = None) by congruence. subst o. destruct (K [] lost F1 LC ltac:(rewrite app_nil_r; exact LE)) as (l2 & LC2 & LE2). destruct (wrun s1 es) as [s' log]. cbn [fst snd] in *. exists l2. auto.
  - assert (s1 = mkW [] 0 (notready s) (armed s) true (sent s) (errs s) (ready_ev s)) by congruence. assert (o = None) by congruence. subst o. destruct (K [] (pending s)) as (l2 & LC2 & LE2); [subst s1; split; [repeat split; cbn; auto; unfold FD_MAX_WBUF_SIZE; lia|constructor]|subst s1; discriminate|subst s1; cbn; rewrite app_nil_r; reflexivity|]. destruct (wrun s1 es) as [s' log]. cbn [fst snd] in *. exists l2. auto.
Qed.
Theorem C32_datagrams : forall nr es s log, Forall dgram es -> wrun (w_init nr) es = (s, log) ->
  exists lost, (closed s = false -> lost = []) /\ sent s ++ pending s ++ lost = accepted log.
Proof. intros nr es s log D E. destruct (dgram_run es (w_init nr) D (conj (inv_init nr) (Forall_nil _)) eq_refl) as (lost & LC & LE). rewrite E in *. exists lost. split; [exact LC|exact LE]. Qed.

(** ** Concrete cases *)
Example ex_stream : wrun (w_init true) [ECall Send [1; 2; 3] 7 (HN 9) true; ECall Write [4; 5] 0 (HN 9) true; EPoll [HN 2]; EPoll [HN 5; HErr (-2001)]; EPoll [HN 1]; EPoll [HN 1]] =
  (mkW [] 0 false true false [([1; 2], 7); ([3], 7); ([4], 0); ([5], 0)] [] 1, [([1; 2; 3], 7, 3); ([4; 5], 0, 2)]). Proof. reflexivity. Qed.
Example ex_dgram : Forall dgram [ECall Send [1; 2] 7 (HErr (-2001)) true; EPoll []] /\ fst (wrun (w_init false) [ECall Write [9] 0 (HN (Z.to_nat 131072)) true]) = mkW [] 0 false true false [([9], 0)] [] 0.
Proof. split; [constructor; [cbn; repeat split; discriminate|constructor; [constructor|constructor]]|]. reflexivity. Qed.
Example ex_write : Forall is_write [ECall Write [1; 2; 3] 0 (HN 2) true] /\ pending (fst (wrun (w_init false) [EPoll []; ECall Write [1; 2; 3] 0 (HN 2) true])) = [([3], 0)] /\ armed (fst (wrun (w_init false) [EPoll []; ECall Write [1; 2; 3] 0 (HN 2) true])) = true.
Proof. repeat split. constructor; [exact Logic.I|constructor]. Qed.

Print Assumptions C32_stream.
Print Assumptions C32_no_loss.
Print Assumptions C32_complete.
Print Assumptions C32_bound.
Print Assumptions C32_refusals.
Print Assumptions C32_flush.
Print Assumptions C32_armed.
Print Assumptions C32_progress.
Print Assumptions C32_send_stall_refuted.
Print Assumptions C32_enomem_refuted.
Print Assumptions C32_datagrams.
