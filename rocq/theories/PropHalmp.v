(** * C63: asking the system for readiness *)
From Verif Require Import Base Arith ArithProof Halmp.

(** ** Specification *)
(** An event is in a mask. *)
Definition has (m bit : Z) : bool := negb (Z.land m bit =? 0).
(** What a history of calls (operation, descriptor, events, result; newest first) asks for: the events of the last successful addition or change, nothing after a removal. *)
Inductive call := Call (op fd : Z) (ev : option Z) (ret : Z).
Fixpoint asked (fd : Z) (h : list call) : option Z :=
  match h with
  | [] => None
  | Call op f ev ret :: h => if (f =? fd) && (ret =? 0) then (if op =? CTL_DEL then None else ev) else asked fd h
  end.
(** Sets of registrations after a history of calls. *)
Inductive after : list call -> eset -> Prop :=
| F_new : after [] []
| F_call h s op fd ev : after h s -> after (Call op fd ev (snd (hal_epoll_ctl s op fd ev)) :: h) (fst (hal_epoll_ctl s op fd ev)).

(** ** Bits *)
Lemma has_lor m n b : (exists k, 0 <= k /\ b = 2 ^ k) -> has (Z.lor m n) b = (has m b || has n b)%bool.
Proof.
  intros (k & K & ->). unfold has. rewrite Z.land_lor_distr_l.
  assert (P : forall x, Z.land x (2 ^ k) = if Z.testbit x k then 2 ^ k else 0).
  { intros x. apply Z.bits_inj'. intros i I0. rewrite Z.land_spec, Z.pow2_bits_eqb by lia. destruct (Z.eqb_spec k i) as [->|N].
    - rewrite Bool.andb_true_r. destruct (Z.testbit x i); [rewrite Z.pow2_bits_true by lia; reflexivity|rewrite Z.bits_0; reflexivity].
    - rewrite Bool.andb_false_r. destruct (Z.testbit x k); [rewrite Z.pow2_bits_false by lia; reflexivity|rewrite Z.bits_0; reflexivity]. }
  rewrite !P. assert (0 < 2 ^ k) by (apply Z.pow_pos_nonneg; lia).
  destruct (Z.testbit m k), (Z.testbit n k); rewrite ?Z.lor_diag, ?Z.lor_0_l, ?Z.lor_0_r; cbn [orb]; apply Bool.eq_true_iff_eq; rewrite ?Bool.negb_true_iff, ?Z.eqb_neq; split; intros; try lia; try discriminate; try reflexivity.
  all: destruct (Z.eqb_spec (2 ^ k) 0); try lia; try reflexivity; cbn in *; congruence.
Qed.
Lemma has_land m n b : (exists k, 0 <= k /\ b = 2 ^ k) -> has (Z.land m n) b = (has m b && has n b)%bool.
Proof.
  intros (k & K & ->). unfold has.
  assert (P : forall x, Z.land x (2 ^ k) = if Z.testbit x k then 2 ^ k else 0).
  { intros x. apply Z.bits_inj'. intros i I0. rewrite Z.land_spec, Z.pow2_bits_eqb by lia. destruct (Z.eqb_spec k i) as [->|N].
    - rewrite Bool.andb_true_r. destruct (Z.testbit x i); [rewrite Z.pow2_bits_true by lia; reflexivity|rewrite Z.bits_0; reflexivity].
    - rewrite Bool.andb_false_r. destruct (Z.testbit x k); [rewrite Z.pow2_bits_false by lia; reflexivity|rewrite Z.bits_0; reflexivity]. }
  rewrite !P. rewrite Z.land_spec. assert (0 < 2 ^ k) by (apply Z.pow_pos_nonneg; lia).
  destruct (Z.testbit m k), (Z.testbit n k); cbn [andb]; destruct (Z.eqb_spec (2 ^ k) 0); try lia; reflexivity.
Qed.
Definition bit (b : Z) : Prop := exists k, 0 <= k /\ b = 2 ^ k.
Lemma bits : bit A_IN /\ bit A_OUT /\ bit A_ERR /\ bit A_HUP /\ bit A_ET /\ bit E_IN /\ bit E_OUT /\ bit E_ERR /\ bit E_HUP /\ bit E_ET.
Proof. repeat split; [exists 0|exists 1|exists 2|exists 3|exists 4|exists 0|exists 2|exists 3|exists 4|exists 31]; split; try reflexivity; lia. Qed.
Lemma has_or_if src dst a b x : bit x -> has (or_if src dst (a, b)) x = (has dst x || (has src a && has b x))%bool.
Proof. intros X. unfold or_if. cbn [fst snd]. unfold has at 3. destruct (Z.land src a =? 0); cbn [negb andb]; [rewrite Bool.orb_false_r; reflexivity|]. apply has_lor. exact X. Qed.
Ltac bt := first [apply bits|exact (proj1 bits)|destruct bits as (?&?&?&?&?&?&?&?&?&?); assumption].
Ltac hb := repeat match goal with |- context [has ?c ?d] => let v := eval vm_compute in (has c d) in match v with true => change (has c d) with true | false => change (has c d) with false end end; rewrite ?Bool.andb_true_r, ?Bool.andb_false_r, ?Bool.orb_false_r, ?Bool.orb_false_l.

Lemma conv_ctl m : has (conv tab_ctl m 0) E_IN = has m A_IN /\ has (conv tab_ctl m 0) E_OUT = has m A_OUT /\ has (conv tab_ctl m 0) E_ERR = has m A_ERR /\ has (conv tab_ctl m 0) E_HUP = has m A_HUP /\ has (conv tab_ctl m 0) E_ET = has m A_ET.
Proof.
  destruct bits as (B1 & B2 & B3 & B4 & B5 & B6 & B7 & B8 & B9 & B10). unfold conv, tab_ctl. cbn [fold_left]. repeat apply conj; rewrite !has_or_if by assumption; hb; reflexivity.
Qed.
Lemma conv_wait m d : has (conv tab_wait m d) A_IN = (has d A_IN || has m E_IN)%bool /\ has (conv tab_wait m d) A_OUT = (has d A_OUT || has m E_OUT)%bool /\ has (conv tab_wait m d) A_ERR = (has d A_ERR || has m E_ERR)%bool /\ has (conv tab_wait m d) A_HUP = (has d A_HUP || has m E_HUP)%bool.
Proof.
  destruct bits as (B1 & B2 & B3 & B4 & B5 & B6 & B7 & B8 & B9 & B10). unfold conv, tab_wait. cbn [fold_left]. repeat apply conj; rewrite !has_or_if by assumption; hb; reflexivity.
Qed.
Lemma conv_poll m d : has (conv tab_poll m d) E_IN = (has d E_IN || has m A_IN)%bool /\ has (conv tab_poll m d) E_OUT = (has d E_OUT || has m A_OUT)%bool.
Proof.
  destruct bits as (B1 & B2 & B3 & B4 & B5 & B6 & B7 & B8 & B9 & B10). unfold conv, tab_poll. cbn [fold_left]. repeat apply conj; rewrite !has_or_if by assumption; hb; reflexivity.
Qed.
Lemma conv_pollr m d : has (conv tab_pollr m d) A_IN = (has d A_IN || has m E_IN)%bool /\ has (conv tab_pollr m d) A_OUT = (has d A_OUT || has m E_OUT)%bool /\ has (conv tab_pollr m d) A_ERR = has d A_ERR /\ has (conv tab_pollr m d) A_HUP = has d A_HUP.
Proof.
  destruct bits as (B1 & B2 & B3 & B4 & B5 & B6 & B7 & B8 & B9 & B10). unfold conv, tab_pollr. cbn [fold_left]. repeat apply conj; rewrite !has_or_if by assumption; hb; reflexivity.
Qed.

(** ** epoll *)
Lemma lookup_remove s fd x : lookup (remove s fd) x = if x =? fd then None else lookup s x.
Proof.
  unfold lookup, remove. induction s as [|[a b] s IH]; cbn; [destruct (x =? fd); reflexivity|].
  destruct (Z.eqb_spec a fd) as [A|A]; cbn.
  - rewrite IH. destruct (Z.eqb_spec x fd) as [B|B]; [reflexivity|]. destruct (Z.eqb_spec a x); [congruence|reflexivity].
  - destruct (Z.eqb_spec a x) as [B|B]; [|exact IH]. destruct (Z.eqb_spec x fd); [congruence|reflexivity].
Qed.
Lemma lookup_cons s fd e d x : lookup ((fd, (e, d)) :: s) x = if x =? fd then Some (e, d) else lookup s x.
Proof. unfold lookup. cbn. rewrite (Z.eqb_sym fd x). destruct (x =? fd); reflexivity. Qed.
(** The system's registrations are what the history asks for. *)
Lemma after_lookup h s : after h s -> forall x, lookup s x = match asked x h with Some ev => Some (conv tab_ctl ev 0, x) | None => None end.
Proof.
  induction 1 as [|h s op fd ev A IH]; intros x; [reflexivity|]. cbn [asked].
  assert (NOP : forall r, r <> 0 -> lookup s x = match (if (fd =? x) && (r =? 0) then (if op =? CTL_DEL then None else ev) else asked x h) with Some ev => Some (conv tab_ctl ev 0, x) | None => None end).
  { intros r R. destruct (Z.eqb_spec r 0); [contradiction|]. rewrite Bool.andb_false_r. apply IH. }
  assert (DEL : op = CTL_DEL -> lookup (fst (sys_ctl s EPOLL_CTL_DEL fd 0 0)) x = match (if (fd =? x) && (snd (sys_ctl s EPOLL_CTL_DEL fd 0 0) =? 0) then (if op =? CTL_DEL then None else ev) else asked x h) with Some ev => Some (conv tab_ctl ev 0, x) | None => None end).
  { intros ->. cbn [sys_ctl]. unfold sys_ctl. cbn [Z.eqb EPOLL_CTL_DEL EPOLL_CTL_ADD EPOLL_CTL_MOD Pos.eqb]. destruct (lookup s fd) as [p|] eqn:L; cbn [fst snd]; [|apply NOP; lia].
    rewrite lookup_remove. cbn [Z.eqb]. rewrite (Z.eqb_sym fd x), Bool.andb_true_r. destruct (x =? fd); [reflexivity|apply IH]. }
  unfold hal_epoll_ctl. destruct ev as [events|].
  - set (m := conv tab_ctl events 0) in *. destruct (Z.eqb_spec op CTL_ADD) as [->|N1].
    { unfold sys_ctl. cbn [Z.eqb EPOLL_CTL_ADD Pos.eqb]. destruct (lookup s fd) as [p|] eqn:L; cbn [fst snd]; [apply NOP; lia|]. rewrite lookup_cons. cbn [Z.eqb]. rewrite (Z.eqb_sym fd x), Bool.andb_true_r. destruct (Z.eqb_spec x fd) as [->|N]; [reflexivity|apply IH]. }
    destruct (Z.eqb_spec op CTL_MOD) as [->|N2].
    { unfold sys_ctl. cbn [Z.eqb EPOLL_CTL_ADD EPOLL_CTL_MOD Pos.eqb]. destruct (lookup s fd) as [p|] eqn:L; cbn [fst snd]; [|apply NOP; lia]. rewrite lookup_cons, lookup_remove. cbn [Z.eqb]. rewrite (Z.eqb_sym fd x), Bool.andb_true_r. destruct (Z.eqb_spec x fd) as [->|N]; [reflexivity|apply IH]. }
    destruct (Z.eqb_spec op CTL_DEL) as [->|N3]; [|apply NOP; cbn; lia].
    unfold sys_ctl. cbn [Z.eqb EPOLL_CTL_DEL EPOLL_CTL_ADD EPOLL_CTL_MOD Pos.eqb]. destruct (lookup s fd) as [p|] eqn:L; cbn [fst snd]; [|apply NOP; lia].
    rewrite lookup_remove. cbn [Z.eqb]. rewrite (Z.eqb_sym fd x), Bool.andb_true_r. destruct (x =? fd); [reflexivity|apply IH].
  - destruct (Z.eqb_spec op CTL_DEL) as [->|N]; [apply DEL; reflexivity|apply NOP; cbn; lia].
Qed.

(** The calls do what they say: an addition succeeds exactly for a descriptor that is not registered, a change or removal exactly for one that is. *)
Theorem C63_epoll_ctl h s op fd ev : after h s -> (op = CTL_DEL \/ ev <> None) ->
  snd (hal_epoll_ctl s op fd ev) = (if op =? CTL_ADD then (match asked fd h with None => 0 | Some _ => -1 end)
    else if (op =? CTL_MOD) || (op =? CTL_DEL) then (match asked fd h with None => -1 | Some _ => 0 end) else -1).
Proof.
  intros A E. assert (L := after_lookup h s A fd). unfold hal_epoll_ctl, sys_ctl. destruct ev as [events|].
  - destruct (Z.eqb_spec op CTL_ADD) as [->|N1]; [cbn [Z.eqb EPOLL_CTL_ADD Pos.eqb]; rewrite L; destruct (asked fd h); reflexivity|].
    destruct (Z.eqb_spec op CTL_MOD) as [->|N2]; [cbn [Z.eqb EPOLL_CTL_ADD EPOLL_CTL_MOD Pos.eqb orb]; rewrite L; destruct (asked fd h); reflexivity|].
    destruct (Z.eqb_spec op CTL_DEL) as [->|N3]; [cbn [Z.eqb EPOLL_CTL_ADD EPOLL_CTL_MOD EPOLL_CTL_DEL Pos.eqb orb]; rewrite L; destruct (asked fd h); reflexivity|reflexivity].
  - destruct E as [->|E]; [|congruence]. cbn [Z.eqb CTL_DEL CTL_ADD CTL_MOD EPOLL_CTL_ADD EPOLL_CTL_MOD EPOLL_CTL_DEL Pos.eqb orb]. rewrite L. destruct (asked fd h); reflexivity.
Qed.

(** The answer of the system: for each of some registered descriptors what is ready. *)
Definition answer (s : eset) (ready : Z -> Z) (fds : list Z) (n : list (Z * Z)) : Prop :=
  Forall2 (fun fd e => exists reg, lookup s fd = Some reg /\ e = sys_event reg (ready fd)) fds n.
Lemma hal_fill_nth n : forall l l', hal_fill n l = Ok l' -> length l' = length l /\ forall i e, nth_error n i = Some e -> exists old, nth_error l i = Some old /\ nth_error l' i = Some (fst e, conv tab_wait (snd e) (snd old)).
Proof.
  induction n as [|[d e] n IH]; intros l l' H; cbn in H; [injection H as <-; split; [reflexivity|]; intros [|i] e E; discriminate|].
  destruct l as [|[a old] l]; [discriminate|]. destruct (hal_fill n l) as [r| |] eqn:F; try discriminate. injection H as <-. destruct (IH l r F) as [L P]. split; [cbn; lia|].
  intros [|i] x E; cbn in *; [|apply P; exact E]. injection E as <-. exists (a, old). split; reflexivity.
Qed.
Lemma hal_fill_ok n : forall l, (length n <= length l)%nat -> exists l', hal_fill n l = Ok l'.
Proof. induction n as [|[d e] n IH]; intros l H; cbn; [eauto|]. destruct l as [|[a o] l]; cbn in H; [lia|]. destruct (IH l ltac:(lia)) as [l' ->]. cbn. eauto. Qed.

(** After any history of calls, with a cleared array of entries: every entry names a registered descriptor and its flags are exactly what is ready and asked for, errors and hang-ups always being reported. *)
Theorem C63_epoll_exact h s ready fds n evlist : after h s -> answer s ready fds n -> (length n <= length evlist)%nat -> (forall e, In e evlist -> snd e = 0) ->
  exists l, hal_epoll_wait (Got n) evlist = Ok (l, Z.of_nat (length fds)) /\ length l = length evlist /\
  forall i fd, nth_error fds i = Some fd -> exists ev flags, asked fd h = Some ev /\ nth_error l i = Some (fd, flags) /\
    has flags A_IN = (has ev A_IN && has (ready fd) E_IN)%bool /\ has flags A_OUT = (has ev A_OUT && has (ready fd) E_OUT)%bool /\
    has flags A_ERR = has (ready fd) E_ERR /\ has flags A_HUP = has (ready fd) E_HUP.
Proof.
  intros A R L C. destruct (hal_fill_ok n evlist L) as [l F]. exists l. unfold hal_epoll_wait. rewrite F. assert (LN : length fds = length n) by (clear -R; induction R; cbn; congruence). rewrite LN. split; [reflexivity|].
  destruct (hal_fill_nth n evlist l F) as [LL P]. split; [exact LL|]. intros i fd I0.
  assert (X : exists e reg, nth_error n i = Some e /\ lookup s fd = Some reg /\ e = sys_event reg (ready fd)).
  { clear -R I0. revert i I0. induction R as [|a e fds n H R IH]; intros i I0; [destruct i; discriminate|]. destruct i as [|i]; cbn in *; [|apply IH; exact I0]. injection I0 as <-. destruct H as (reg & H1 & H2). eauto. }
  destruct X as (e & reg & X1 & X2 & X3). rewrite (after_lookup h s A fd) in X2. destruct (asked fd h) as [ev|]; [|discriminate]. assert (RG : reg = (conv tab_ctl ev 0, fd)) by congruence. subst reg. clear X2. destruct (P i e X1) as (old & O1 & O2).
  exists ev. eexists. split; [reflexivity|]. split; [rewrite O2, X3; reflexivity|].
  assert (O3 : snd old = 0) by (apply C; eapply nth_error_In; exact O1). rewrite O3. cbn [snd sys_event fst].
  match goal with |- context [Z.land ?x ?y] => set (m := Z.land x y) end.
  destruct (conv_wait m 0) as (W1 & W2 & W3 & W4). destruct (conv_ctl ev) as (D1 & D2 & D3 & D4 & _).
  change (snd (sys_event (conv tab_ctl ev 0, fd) (ready fd))) with m.
  destruct bits as (B1 & B2 & B3 & B4 & B5 & B6 & B7 & B8 & B9 & B10).
  rewrite W1, W2, W3, W4. unfold m. rewrite !has_land, !has_lor, D1, D2, D3, D4 by assumption. hb. repeat apply conj; try reflexivity; rewrite ?Bool.orb_true_r, ?Bool.orb_false_r, ?Bool.andb_true_r; solve [reflexivity|apply Bool.andb_comm].
Qed.
(** Without a cleared array old flags are reported again. *)
Theorem C63_epoll_stale_refuted : exists h s ready evlist l flags, after h s /\ answer s ready [3] [(3, E_IN)] /\ hal_epoll_wait (Got [(3, E_IN)]) evlist = Ok (l, 1) /\ nth_error l 0 = Some (3, flags) /\ has flags A_HUP = true /\ has (ready 3) E_HUP = false.
Proof.
  exists [Call CTL_ADD 3 (Some A_IN) 0], [(3, (1, 3))], (fun _ => E_IN), [(0, A_HUP)], [(3, 9)], 9. split; [apply (F_call [] [] CTL_ADD 3 (Some A_IN)); constructor|]. split; [constructor; [|constructor]; exists (1, 3); split; reflexivity|]. repeat split.
Qed.

(** ** poll *)
Lemma hal_poll_nth fds : forall junk ready i f j, nth_error fds i = Some f -> nth_error junk i = Some j -> nth_error (hal_poll fds junk ready) i = Some (back f (sys_poll ready (n_fd f j))).
Proof. induction fds as [|a fds IH]; intros [|b junk] ready [|i] f j F J; cbn in *; try discriminate; [congruence|apply IH; assumption]. Qed.
Lemma hal_poll_len fds : forall junk ready, length junk = length fds -> length (hal_poll fds junk ready) = length fds.
Proof. induction fds as [|a fds IH]; intros [|b junk] ready L; cbn in *; try lia. rewrite IH; lia. Qed.

(** Whatever the stack holds: what is asked for and ready is reported, and what is reported is ready. *)
Theorem C63_poll_ready fds junk ready i f : length junk = length fds -> nth_error fds i = Some f -> p_revents f = 0 ->
  exists r, nth_error (hal_poll fds junk ready) i = Some (mkP (p_fd f) (p_events f) r) /\
  (has (p_events f) A_IN = true -> has (ready (p_fd f)) E_IN = true -> has r A_IN = true) /\ (has (p_events f) A_OUT = true -> has (ready (p_fd f)) E_OUT = true -> has r A_OUT = true) /\
  (has r A_IN = true -> has (ready (p_fd f)) E_IN = true) /\ (has r A_OUT = true -> has (ready (p_fd f)) E_OUT = true).
Proof.
  intros L F Z0. destruct (nth_error junk i) as [j|] eqn:J; [|apply nth_error_None in J; assert (nth_error fds i <> None) by congruence; apply nth_error_Some in H; lia].
  eexists. split; [rewrite (hal_poll_nth fds junk ready i f j F J); reflexivity|]. rewrite Z0.
  match goal with |- context [conv tab_pollr ?x 0] => set (m := x) end. destruct (conv_pollr m 0) as (W1 & W2 & _). destruct (conv_poll (p_events f) j) as (D1 & D2).
  destruct bits as (B1 & B2 & B3 & B4 & B5 & B6 & B7 & B8 & B9 & B10). rewrite W1, W2. unfold m, sys_poll, n_fd. cbn [fst snd]. rewrite !has_land, !has_lor, D1, D2 by assumption. hb.
  repeat apply conj; intros; repeat match goal with H : _ = true |- _ => rewrite H end; rewrite ?Bool.orb_true_r; try reflexivity; apply andb_prop in H; tauto.
Qed.
(** If the stack holds no event bits there, exactly what is asked for and ready is reported. *)
Theorem C63_poll_exact_partial fds junk ready i f j : length junk = length fds -> nth_error fds i = Some f -> nth_error junk i = Some j -> p_revents f = 0 -> has j E_IN = false -> has j E_OUT = false ->
  exists r, nth_error (hal_poll fds junk ready) i = Some (mkP (p_fd f) (p_events f) r) /\
  has r A_IN = (has (p_events f) A_IN && has (ready (p_fd f)) E_IN)%bool /\ has r A_OUT = (has (p_events f) A_OUT && has (ready (p_fd f)) E_OUT)%bool.
Proof.
  intros L F J Z0 J1 J2. eexists. split; [rewrite (hal_poll_nth fds junk ready i f j F J); reflexivity|]. rewrite Z0.
  match goal with |- context [conv tab_pollr ?x 0] => set (m := x) end. destruct (conv_pollr m 0) as (W1 & W2 & _). destruct (conv_poll (p_events f) j) as (D1 & D2).
  destruct bits as (B1 & B2 & B3 & B4 & B5 & B6 & B7 & B8 & B9 & B10). rewrite W1, W2. unfold m, sys_poll, n_fd. cbn [fst snd]. rewrite !has_land, !has_lor, D1, D2, J1, J2 by assumption. hb.
  split; apply Bool.andb_comm.
Qed.
(** The code does not clear it: a descriptor may be reported as writable although nobody asked. *)
Theorem C63_poll_junk_refuted : exists f ready j r, p_revents f = 0 /\ has (p_events f) A_OUT = false /\ hal_poll [f] [j] ready = [mkP (p_fd f) (p_events f) r] /\ has r A_OUT = true.
Proof. exists (mkP 7 A_IN 0), (fun _ => E_OUT), E_OUT, A_OUT. repeat split. Qed.
(** Errors and hang-ups are never reported by the poll variant. *)
Theorem C63_poll_hangup_refuted fds junk ready i f : length junk = length fds -> nth_error fds i = Some f -> p_revents f = 0 ->
  exists r, nth_error (hal_poll fds junk ready) i = Some (mkP (p_fd f) (p_events f) r) /\ has r A_ERR = false /\ has r A_HUP = false.
Proof.
  intros L F Z0. destruct (nth_error junk i) as [j|] eqn:J; [|apply nth_error_None in J; assert (nth_error fds i <> None) by congruence; apply nth_error_Some in H; lia].
  eexists. split; [rewrite (hal_poll_nth fds junk ready i f j F J); reflexivity|]. rewrite Z0. match goal with |- context [conv tab_pollr ?x 0] => destruct (conv_pollr x 0) as (_ & _ & W3 & W4) end. rewrite W3, W4. split; reflexivity.
Qed.

(** ** select *)
Lemma nth_upd (s : fdset) i j b : (i < length s)%nat -> nth_error (upd s i b) j = if Nat.eqb j i then Some b else nth_error s j.
Proof.
  revert i j. induction s as [|a s IH]; intros i j L; cbn in L; [lia|]. destruct i as [|i]; cbn; [destruct j; reflexivity|]. destruct j as [|j]; cbn; [reflexivity|]. apply IH. lia.
Qed.
Lemma upd_len (s : fdset) i b : length (upd s i b) = length s.
Proof. revert i. induction s as [|a s IH]; intros [|i]; cbn; auto. Qed.
Lemma fdset_of_isset fds : forall s s', length s = 1024%nat -> fdset_of fds s = Ok s' -> length s' = 1024%nat /\
  forall fd, 0 <= fd < 1024 -> exists b, nth_error s (Z.to_nat fd) = Some b /\ fdset_isset s' fd = Ok (b || existsb (Z.eqb fd) fds)%bool.
Proof.
  induction fds as [|x fds IH]; intros s s' L H; cbn in H.
  - injection H as <-. split; [exact L|]. intros fd F. destruct (nth_error s (Z.to_nat fd)) as [b|] eqn:E; [|apply nth_error_None in E; lia]. exists b. split; [reflexivity|]. unfold fdset_isset. destruct (Z.ltb_spec fd 0); [lia|]. destruct (Z.leb_spec FD_SETSIZE fd); [unfold FD_SETSIZE in *; lia|]. cbn [orb]. rewrite E. cbn. rewrite Bool.orb_false_r. reflexivity.
  - unfold fdset_set, fdset_put in H. destruct (Z.ltb_spec x 0); [discriminate|]. destruct (Z.leb_spec FD_SETSIZE x); [discriminate|]. cbn [orb] in H. unfold FD_SETSIZE in *.
    destruct (IH (upd s (Z.to_nat x) true) s' ltac:(rewrite upd_len; exact L) H) as [L' P]. split; [exact L'|]. intros fd F. destruct (P fd F) as (b & B1 & B2). rewrite nth_upd in B1 by lia.
    destruct (nth_error s (Z.to_nat fd)) as [b0|] eqn:E; [|apply nth_error_None in E; lia]. exists b0. split; [reflexivity|]. rewrite B2. cbn [existsb]. destruct (Nat.eqb_spec (Z.to_nat fd) (Z.to_nat x)) as [Q|Q].
    + assert (fd = x) by lia. subst. rewrite Z.eqb_refl. assert (b = true) by congruence. subst. cbn. rewrite Bool.orb_true_r. reflexivity.
    + destruct (Z.eqb_spec fd x); [subst; congruence|]. assert (b = b0) by congruence. subst. reflexivity.
Qed.
(** The sets passed to select hold exactly the descriptors put in, as long as all are below 1024. *)
Theorem C63_select_sets_partial fds : (forall fd, In fd fds -> 0 <= fd < 1024) -> exists s, fdset_of fds fdset_zero = Ok s /\ forall fd, 0 <= fd < 1024 -> exists b, fdset_isset s fd = Ok b /\ (b = true <-> In fd fds).
Proof.
  intros H. assert (E : exists s, fdset_of fds fdset_zero = Ok s).
  { generalize fdset_zero. induction fds as [|x fds IH]; intros s; cbn; [eauto|]. assert (X := H x (or_introl eq_refl)). unfold fdset_set, fdset_put, FD_SETSIZE. destruct (Z.ltb_spec x 0); [lia|]. destruct (Z.leb_spec 1024 x); [lia|]. cbn [orb bind]. apply IH. intros y Y. apply H. right. exact Y. }
  destruct E as [s E]. exists s. split; [exact E|]. destruct (fdset_of_isset fds fdset_zero s (repeat_length _ _) E) as [_ P]. intros fd F. destruct (P fd F) as (b & B1 & B2). eexists. split; [exact B2|].
  assert (b = false). { unfold fdset_zero in B1. assert (I0 := nth_error_In _ _ B1). apply repeat_spec in I0. exact I0. } subst b. cbn [orb]. rewrite existsb_exists. split; [intros (y & Y1 & Y2)|intros I0; exists fd; split; [exact I0|apply Z.eqb_refl]]. apply Z.eqb_eq in Y2. subst. exact Y1.
Qed.
(** Putting a descriptor in or taking it out changes the answer for this one and no other. *)
Theorem C63_select_edit_partial s fd : length s = 1024%nat -> 0 <= fd < 1024 ->
  exists a c, fdset_set s fd = Ok a /\ fdset_clr s fd = Ok c /\ length a = 1024%nat /\ length c = 1024%nat /\
    fdset_isset a fd = Ok true /\ fdset_isset c fd = Ok false /\
    forall g, g <> fd -> fdset_isset a g = fdset_isset s g /\ fdset_isset c g = fdset_isset s g.
Proof.
  intros L F. assert (G : forall b, fdset_put s fd b = Ok (upd s (Z.to_nat fd) b)).
  { intros b. unfold fdset_put, FD_SETSIZE. destruct (Z.ltb_spec fd 0); [lia|]. destruct (Z.leb_spec 1024 fd); [lia|]. reflexivity. }
  assert (R : forall b g, fdset_isset (upd s (Z.to_nat fd) b) g = if g =? fd then Ok b else fdset_isset s g).
  { intros b g. unfold fdset_isset, FD_SETSIZE. destruct (Z.eqb_spec g fd) as [->|N].
    - destruct (Z.ltb_spec fd 0); [lia|]. destruct (Z.leb_spec 1024 fd); [lia|]. cbn [orb]. rewrite nth_upd by lia. rewrite Nat.eqb_refl. reflexivity.
    - destruct (Z.ltb_spec g 0); [reflexivity|]. destruct (Z.leb_spec 1024 g); [reflexivity|]. cbn [orb]. rewrite nth_upd by lia. destruct (Nat.eqb_spec (Z.to_nat g) (Z.to_nat fd)); [lia|reflexivity]. }
  exists (upd s (Z.to_nat fd) true), (upd s (Z.to_nat fd) false). unfold fdset_set, fdset_clr. rewrite !G, !upd_len, !R, !Z.eqb_refl.
  do 2 (split; [reflexivity|]). do 2 (split; [exact L|]). do 2 (split; [reflexivity|]). intros g N. rewrite !R. destruct (Z.eqb_spec g fd); [congruence|]. auto.
Qed.
(** A descriptor of 1024 or more is written outside the set. *)
Theorem C63_select_big_fd_refuted s fd : 1024 <= fd -> fdset_set s fd = UB.
Proof. intros H. unfold fdset_set, fdset_put, FD_SETSIZE. destruct (Z.leb_spec 1024 fd); [|lia]. rewrite Bool.orb_true_r. reflexivity. Qed.
(** The timeout of select is the given time; a negative one is for ever. *)
Theorem C63_timeval t : match timeval t with None => t < 0 | Some (s, us) => 0 <= t /\ s * 1000000 + us = t * 1000 /\ 0 <= us < 1000000 /\ 0 <= s end.
Proof. unfold timeval. destruct (Z.ltb_spec t 0); [assumption|]. rewrite Z.quot_div_nonneg, Z.rem_mod_nonneg by lia. assert (M := Z.mod_pos_bound t 1000 ltac:(lia)). assert (D := Z.div_mod t 1000 ltac:(lia)). assert (0 <= t / 1000) by (apply Z.div_pos; lia). lia. Qed.

(** ** Errors and retries *)
(** A failed call gives a negative value, EINTR its own one. *)
Theorem C63_errno e : 0 < e -> errno_convert e < 0 /\ (errno_convert e = HAL_EINTR <-> e = 4) /\ (errno_convert e = HAL_EAGAIN <-> e = 11) /\ (errno_convert e = HAL_EINPROGRESS <-> e = 115).
Proof.
  intros H. unfold errno_convert, HAL_EINTR, HAL_EAGAIN, HAL_EINPROGRESS, EHAL. destruct (Z.eqb_spec e 0); [lia|]. destruct (Z.eqb_spec e 11); [lia|]. destruct (Z.eqb_spec e 4); [lia|]. destruct (Z.eqb_spec e 115); lia.
Qed.
Fixpoint monotone (t0 : Z) (l : list Z) : Prop := match l with [] => True | x :: l => t0 <= x /\ monotone x l end.
Lemma tries_zero clock : forall ts i r, nth_error (tries 0 ts clock) i = Some r -> r = 0.
Proof. induction clock as [|n c IH]; intros ts i r; cbn [tries]; [destruct i; discriminate|]. change (0 <? 0) with false. cbn [andb]. destruct i as [|i]; cbn; [intros [= <-]; reflexivity|apply IH]. Qed.
Lemma tries_neg clock : forall T ts i r, - 2147483648 <= T < 0 -> nth_error (tries T ts clock) i = Some r -> r = T.
Proof.
  induction clock as [|n c IH]; intros T ts i r H; cbn [tries]; [destruct i; discriminate|]. assert (E : (0 <? T) = false) by lia. rewrite E. cbn [andb]. destruct i as [|i]; [cbn; intros [= <-]; apply s32_id; lia|]. cbn [nth_error]. apply IH. exact H.
Qed.
(** However often signals interrupt the wait, each repetition is given exactly the time that remains of the original timeout. *)
Theorem C63_deadline clock : forall T ts i now, 0 < T < 2147483648 -> 0 <= ts -> monotone ts clock -> (forall x, In x clock -> x < 2 ^ 62) -> nth_error clock i = Some now ->
  nth_error (tries T ts clock) i = Some (Z.max 0 (T - (now - ts))).
Proof.
  induction clock as [|n c IH]; intros T ts i now HT HS M B I0; [destruct i; discriminate|]. cbn [tries]. destruct M as [M1 M2]. assert (Bn := B n (or_introl eq_refl)).
  assert (E : (0 <? T) = true) by lia. rewrite E. rewrite (s64_id (n - ts)) by lia. rewrite (s64_id (T - (n - ts))) by lia. cbn [andb].
  destruct (Z.ltb_spec (T - (n - ts)) 0) as [L|L].
  - destruct i as [|i]; cbn [nth_error] in *; [injection I0 as <-; f_equal; rewrite Z.max_l by lia; reflexivity|].
    destruct (nth_error (tries 0 n c) i) as [r|] eqn:R.
    + rewrite (tries_zero c n i r R). f_equal. assert (n <= now). { clear -M2 I0. revert n i M2 I0. induction c as [|a c IH]; intros n i M2 I0; [destruct i; discriminate|]. destruct M2 as [A1 A2]. destruct i as [|i]; cbn in I0; [congruence|]. assert (a <= now) by (eapply IH; eauto). lia. } lia.
    + exfalso. apply nth_error_None in R. assert (LE : forall T ts c, length (tries T ts c) = length c) by (intros T0 ts0 c0; revert T0 ts0; induction c0; intros; cbn; auto). rewrite LE in R. assert (nth_error c i <> None) by congruence. apply nth_error_Some in H. lia.
  - destruct i as [|i]; cbn [nth_error] in *; [injection I0 as <-; f_equal; rewrite s32_id by lia; lia|].
    assert (n <= now). { clear -M2 I0. revert n i M2 I0. induction c as [|a c IH]; intros n i M2 I0; [destruct i; discriminate|]. destruct M2 as [A1 A2]. destruct i as [|i]; cbn in I0; [congruence|]. assert (a <= now) by (eapply IH; eauto). lia. }
    destruct (Z.eq_dec (T - (n - ts)) 0) as [Q|Q].
    + rewrite Q. destruct (nth_error (tries 0 n c) i) as [r|] eqn:R; [rewrite (tries_zero c n i r R); f_equal; lia|].
      exfalso. apply nth_error_None in R. assert (LE : forall T ts c, length (tries T ts c) = length c) by (intros T0 ts0 c0; revert T0 ts0; induction c0; intros; cbn; auto). rewrite LE in R. assert (nth_error c i <> None) by congruence. apply nth_error_Some in H0. lia.
    + rewrite (IH (T - (n - ts)) n i now); [f_equal; lia|lia|lia|exact M2|intros x X; apply B; right; exact X|exact I0].
Qed.
(** No timeout is no timeout each time, and 0 stays 0. *)
Theorem C63_no_deadline clock T ts i now : nth_error clock i = Some now -> T = -1 \/ T = 0 -> nth_error (tries T ts clock) i = Some T.
Proof.
  intros I0 H. assert (LE : forall T ts c, length (tries T ts c) = length c) by (intros T0 ts0 c0; revert T0 ts0; induction c0; intros; cbn; auto).
  destruct (nth_error (tries T ts clock) i) as [r|] eqn:R; [|apply nth_error_None in R; rewrite LE in R; assert (nth_error clock i <> None) by congruence; apply nth_error_Some in H0; lia].
  destruct H as [->| ->]; [rewrite (tries_neg clock (-1) ts i r ltac:(lia) R)|rewrite (tries_zero clock ts i r R)]; reflexivity.
Qed.
(** A timeout of 2^31 ms (24.9 days) or more, up to 2^32 - 1, becomes no timeout: the timer that is due then is not noticed. *)
Theorem C63_long_timeout_refuted T ts : 2147483648 <= T < 4294967296 -> 0 <= ts < 2 ^ 62 -> exists t, tries T ts [ts] = [t] /\ t < 0.
Proof.
  intros H1 H2. cbn [tries]. assert (E : (0 <? T) = true) by lia. rewrite E. rewrite Z.sub_diag, (s64_id 0) by lia. rewrite Z.sub_0_r, (s64_id T) by lia. destruct (Z.ltb_spec T 0); [lia|]. cbn [andb]. eexists. split; [reflexivity|].
  unfold s32, wrap_signed. rewrite Z.mod_small by lia. change (4294967296 / 2) with 2147483648. cbv zeta. destruct (_ <=? _) eqn:Q; lia.
Qed.

(** Concrete cases: register 3 for reading, 4 for both, change 3, remove 4. *)
Definition e_ctl (s : eset) (c : Z * Z * option Z) : eset := fst (hal_epoll_ctl s (fst (fst c)) (snd (fst c)) (snd c)).
Example C63_nonvacuous : (exists h s, after h s /\ asked 3 h = Some 3 /\ asked 4 h = None /\ answer s (fun _ => 29) [3] [(3, 29)]) /\
  hal_epoll_wait (Got [(3, 29)]) [(0, 0); (0, 0)] = Ok ([(3, 15); (0, 0)], 1) /\ tries 100 1000 [1000; 1030; 1120; 1130] = [100; 70; 0; 0] /\
  monotone 1000 [1000; 1030; 1120; 1130] /\ timeval 2500 = Some (2, 500000).
Proof.
  split.
  - exists [Call CTL_DEL 4 None 0; Call CTL_MOD 3 (Some 3) 0; Call CTL_ADD 4 (Some 3) 0; Call CTL_ADD 3 (Some 1) 0]. exists [(3, (5, 3))]. split.
    + apply (F_call _ [(3, (5, 3)); (4, (5, 4))] CTL_DEL 4 None). apply (F_call _ [(4, (5, 4)); (3, (1, 3))] CTL_MOD 3 (Some 3)). apply (F_call _ [(3, (1, 3))] CTL_ADD 4 (Some 3)). apply (F_call _ [] CTL_ADD 3 (Some 1)). constructor.
    + split; [reflexivity|]. split; [reflexivity|]. constructor; [|constructor]. exists (5, 3). split; reflexivity.
  - repeat split; vm_compute; discriminate.
Qed.

Print Assumptions C63_epoll_ctl. Print Assumptions C63_epoll_exact. Print Assumptions C63_epoll_stale_refuted. Print Assumptions C63_poll_ready. Print Assumptions C63_poll_exact_partial. Print Assumptions C63_poll_junk_refuted. Print Assumptions C63_poll_hangup_refuted.
Print Assumptions C63_select_sets_partial. Print Assumptions C63_select_edit_partial. Print Assumptions C63_select_big_fd_refuted. Print Assumptions C63_timeval. Print Assumptions C63_errno. Print Assumptions C63_deadline. Print Assumptions C63_no_deadline. Print Assumptions C63_long_timeout_refuted.
