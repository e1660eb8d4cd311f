(** * C53: the multiplexing loops. *)
From Verif Require Import Base Iomp.

(** ** Specification *)
(** A descriptor that the system reports readable or writable. *)
Definition ready (x : desc * rv) : bool := r_in (snd x) || r_out (snd x).
Definition entry (x : desc * rv) : pev := mkEv (d_fd (fst x)) (r_in (snd x)) (r_out (snd x)).
(** Everything there is to report, in the order of the list: the wake-up pipe,
    then the ready descriptors, each with exactly what is ready. *)
Definition reports (piper : Z) (r0 : rv) (l : list (desc * rv)) : list pev :=
  (if r_in r0 then [mkEv piper true false] else []) ++ map entry (filter ready l).
(** The descriptors afterwards if the first k ready ones have been reported: those
    lose the flags that were reported, the others keep theirs. *)
Fixpoint after (k : nat) (l : list (desc * rv)) : list desc :=
  match l with
  | [] => []
  | x :: l' =>
      match k, ready x with
      | S k', true => mkD (d_fd (fst x)) (d_in (fst x) && negb (r_in (snd x))) (d_out (fst x) && negb (r_out (snd x))) :: after k' l'
      | _, _ => fst x :: after k l'
      end
  end.
(** poll()'s contract: it returns the number of entries with something in them. *)
Definition nonzero (r : rv) : bool := r_in r || r_out r || r_other r.
Definition poll_count (rs : list rv) : Z := Z.of_nat (length (filter nonzero rs)).
(** select()'s contract: it returns the number of members of the two sets. *)
Definition b2n (b : bool) : nat := if b then 1%nat else 0%nat.
Fixpoint members (fs : list desc) (rd wr : Z -> bool) : nat :=
  match fs with [] => 0%nat | f :: fs' => (b2n (rd (d_fd f)) + b2n (wr (d_fd f)) + members fs' rd wr)%nat end.
Definition sel_rv (rd wr : Z -> bool) (f : desc) : rv := mkRv (rd (d_fd f)) (wr (d_fd f)) false.

(** ** Proof *)
Definition blank : pev := mkEv (-1) false false.
Definition nready (l : list (desc * rv)) : nat := length (filter ready l).
Lemma after_0 l : after 0 l = map fst l.
Proof. induction l as [|x l IH]; cbn; [reflexivity|]. rewrite IH. reflexivity. Qed.
Lemma after_none k l : nready l = 0%nat -> after k l = map fst l.
Proof.
  unfold nready. induction l as [|x l IH]; cbn; [reflexivity|]. destruct (ready x) eqn:R; [discriminate|]. intros H. rewrite (IH H). destruct k; reflexivity.
Qed.
Lemma upd_app {A} (u : list A) x y v : upd (u ++ x :: v) (length u) y = u ++ y :: v.
Proof. induction u as [|a u IH]; cbn; [reflexivity|]. rewrite IH. reflexivity. Qed.
Lemma nth_app {A} (u : list A) x v : nth_error (u ++ x :: v) (length u) = Some x.
Proof. induction u as [|a u IH]; cbn; auto. Qed.
Lemma firstn_pre {A} (u v : list A) n : length u = n -> firstn n (u ++ v) = u.
Proof. intros <-. rewrite firstn_app, Nat.sub_diag, firstn_all. cbn. apply app_nil_r. Qed.

Lemma scan_ok l : forall u err, (length u < MAXEV)%nat -> (length u + nready l <= err)%nat ->
  exists n ev', scan (map fst l) (map (fun x => (d_fd (fst x), snd x)) l) (u ++ repeat blank (MAXEV - length u)) (length u) err
    = Ok (after (MAXEV - length u) l, ev', n) /\ firstn n ev' = firstn MAXEV (u ++ map entry (filter ready l)) /\ n = Nat.min MAXEV (length u + nready l).
Proof.
  induction l as [|[f r] l IH]; intros u err Lu Le.
  - cbn [map scan filter after]. exists (length u), (u ++ repeat blank (MAXEV - length u)). split; [reflexivity|]. split; [|change (nready []) with 0%nat; rewrite Nat.add_0_r, Nat.min_r; lia].
    rewrite firstn_pre by reflexivity. rewrite app_nil_r. rewrite firstn_all2; [reflexivity|lia].
  - cbn [map scan fst snd]. rewrite Z.eqb_refl. cbn [negb].
    assert (Rp : repeat blank (MAXEV - length u) = blank :: repeat blank (MAXEV - S (length u))).
    { replace (MAXEV - length u)%nat with (S (MAXEV - S (length u))) by lia. reflexivity. }
    rewrite Rp, nth_app. cbn [blank p_in p_out p_fd orb].
    unfold nready in *. cbn [filter]. change (ready (f, r)) with (r_in r || r_out r) in *. cbn [filter] in Le. change (ready (f, r)) with (r_in r || r_out r) in Le.
    destruct (r_in r || r_out r) eqn:R.
    + rewrite upd_app. cbn [length map] in *. change (mkEv (d_fd f) (r_in r) (r_out r)) with (entry (f, r)).
      set (u1 := u ++ [entry (f, r)]). assert (Lu1 : length u1 = S (length u)) by (unfold u1; rewrite app_length; cbn; lia).
      assert (E1 : forall v, u ++ entry (f, r) :: v = u1 ++ v) by (intros v; unfold u1; rewrite <- app_assoc; reflexivity). rewrite !E1.
      assert (Ea : after (MAXEV - length u) ((f, r) :: l) = mkD (d_fd f) (d_in f && negb (r_in r)) (d_out f && negb (r_out r)) :: after (MAXEV - length u1) l).
      { replace (MAXEV - length u)%nat with (S (MAXEV - length u1)) by lia. cbn [after]. change (ready (f, r)) with (r_in r || r_out r). rewrite R. reflexivity. }
      rewrite Ea. destruct (err <=? S (length u))%nat eqn:B1; cbn [orb].
      * apply Nat.leb_le in B1. assert (N0 : nready l = 0%nat) by (unfold nready; lia).
        exists (S (length u)). eexists. split; [rewrite (after_none _ l N0); reflexivity|].
        unfold nready in N0. destruct (filter ready l) eqn:Fl; [|discriminate]. cbn [map length]. rewrite app_nil_r, <- Lu1, firstn_pre by reflexivity.
        split; [rewrite firstn_all2 by lia; reflexivity|]. lia.
      * destruct (MAXEV <=? S (length u))%nat eqn:B2; cbn [orb].
        -- apply Nat.leb_le in B2. exists (S (length u)). eexists. split; [replace (MAXEV - length u1)%nat with 0%nat by lia; rewrite after_0; reflexivity|].
           rewrite <- Lu1, firstn_pre by reflexivity. split; [|lia]. symmetry. apply firstn_pre. lia.
        -- apply Nat.leb_gt in B1, B2. destruct (IH u1 err ltac:(lia) ltac:(lia)) as (n & ev' & S1 & S2 & S3). rewrite Lu1 in S1.
           exists n, ev'. rewrite S1. cbn [bind]. rewrite Lu1. split; [reflexivity|]. split; [exact S2|]. lia.
    + apply orb_false_elim in R. destruct R as [R1 R2]. rewrite R1, R2. cbn [orb negb]. rewrite upd_app. change (mkEv (-1) false false) with blank. rewrite <- Rp.
      rewrite !andb_true_r. assert (Ed : mkD (d_fd f) (d_in f) (d_out f) = f) by (destruct f; reflexivity). rewrite Ed.
      assert (Ea : after (MAXEV - length u) ((f, r) :: l) = f :: after (MAXEV - length u) l).
      { cbn [after]. change (ready (f, r)) with (r_in r || r_out r). rewrite R1, R2. destruct (MAXEV - length u)%nat; reflexivity. }
      rewrite Ea. destruct (err <=? length u)%nat eqn:B1; cbn [orb].
      * apply Nat.leb_le in B1. assert (N0 : nready l = 0%nat) by (unfold nready; lia). exists (length u). eexists. split; [rewrite (after_none _ l N0); reflexivity|].
        unfold nready in N0. destruct (filter ready l) eqn:Fl; [|discriminate]. cbn [map length]. rewrite app_nil_r, firstn_pre by reflexivity.
        split; [rewrite firstn_all2 by lia; reflexivity|]. lia.
      * assert (B2 : (MAXEV <=? length u)%nat = false) by (apply Nat.leb_gt; lia). rewrite B2. cbn [orb].
        destruct (IH u err Lu ltac:(lia)) as (n & ev' & S1 & S2 & S3). exists n, ev'. rewrite S1. cbn [bind]. split; [reflexivity|]. split; assumption.
Qed.
Lemma pipe_shape piper r : exists u, pipe_ev piper r cleared = (u ++ repeat blank (MAXEV - length u), length u) /\ u = (if r_in r then [mkEv piper true false] else []) /\ (length u <= 1)%nat.
Proof.
  unfold pipe_ev. destruct (r_in r).
  - exists [mkEv piper true false]. repeat split; auto.
  - exists []. repeat split; auto.
Qed.
Lemma comb_map (fs : list desc) : forall rs : list rv, length rs = length fs -> map fst (combine fs rs) = fs /\ combine (map d_fd fs) rs = map (fun x => (d_fd (fst x), snd x)) (combine fs rs).
Proof.
  induction fs as [|f fs IH]; intros [|r rs] L; try discriminate; cbn; [auto|]. destruct (IH rs ltac:(cbn in L; lia)) as [A B]. rewrite A, B. auto.
Qed.
Lemma nready_le l : forall (fs : list desc) rs, l = combine fs rs -> (nready l <= length (filter nonzero rs))%nat.
Proof.
  induction l as [|x l IH]; intros fs rs E; [cbn; lia|]. destruct fs as [|f fs], rs as [|r rs]; try discriminate. cbn in E.
  assert (x = (f, r) /\ l = combine fs rs) as [-> E2] by (split; congruence). specialize (IH fs rs E2). unfold nready in *. cbn [filter]. change (ready (f, r)) with (r_in r || r_out r). unfold nonzero at 1.
  destruct (r_in r || r_out r) eqn:A; cbn [orb length]; [lia|]. destruct (r_other r); cbn [length]; lia.
Qed.

(** ** Theorems *)
(** os_mp_wait_poll reports, in order and up to 64, exactly the wake-up pipe and
    the descriptors that poll() found ready, each with exactly what is ready;
    the descriptors it reports lose just the reported flags, all others are as
    before; it never leaves its arrays and never triggers BUG_ON. *)
Theorem C53_poll_exact piper fs r0 rs : (length fs <= POLL_MAX_FDS)%nat -> length rs = length fs -> poll_count (r0 :: rs) > 0 ->
  let l := combine fs rs in
  let ev := firstn MAXEV (reports piper r0 l) in
  wait_poll piper fs (r0 :: rs) (poll_count (r0 :: rs)) = Ok (after (MAXEV - b2n (r_in r0)) l, ev, Z.of_nat (length ev)).
Proof.
  intros L1 L2 C l ev. unfold wait_poll. replace (POLL_MAX_FDS <? length fs)%nat with false by (symmetry; apply Nat.ltb_ge; exact L1).
  replace (poll_count (r0 :: rs) <=? 0) with false by lia. cbn [asked map fst combine].
  rewrite map_map. cbn [fst]. change (map (fun x => d_fd x) fs) with (map d_fd fs). destruct (comb_map fs rs L2) as [A B]. rewrite B. cbn [combine]. rewrite Z.eqb_refl. cbn [negb].
  destruct (pipe_shape piper r0) as (u & P & Eu & Lu). rewrite P. fold l.
  assert (Lu2 : length u = b2n (r_in r0)) by (rewrite Eu; destruct (r_in r0); reflexivity).
  assert (Le : (length u + nready l <= Z.to_nat (poll_count (r0 :: rs)))%nat).
  { unfold poll_count. rewrite Nat2Z.id. cbn [filter]. pose proof (nready_le l fs rs eq_refl). unfold nonzero at 1. rewrite Lu2. destruct (r_in r0); cbn [orb b2n length]; [lia|]. destruct (r_out r0 || r_other r0); cbn [length]; lia. }
  destruct (scan_ok l u _ ltac:(unfold MAXEV; lia) Le) as (n & ev' & S1 & S2 & S3). fold l in A. rewrite A in S1. rewrite S1. cbn [bind]. rewrite S2, Lu2.
  assert (Er : u ++ map entry (filter ready l) = reports piper r0 l) by (unfold reports; rewrite Eu; reflexivity). rewrite Er. fold ev. f_equal. f_equal.
  unfold ev. rewrite firstn_length, <- Er, app_length, map_length, S3. reflexivity.
Qed.
(** So nothing is lost when at most 64 things are ready. *)
Theorem C53_poll_complete piper fs r0 rs : (length fs <= POLL_MAX_FDS)%nat -> length rs = length fs -> poll_count (r0 :: rs) > 0 -> (length (reports piper r0 (combine fs rs)) <= MAXEV)%nat ->
  exists fs', wait_poll piper fs (r0 :: rs) (poll_count (r0 :: rs)) = Ok (fs', reports piper r0 (combine fs rs), Z.of_nat (length (reports piper r0 (combine fs rs)))) /\
    fs' = map (fun x => mkD (d_fd (fst x)) (d_in (fst x) && negb (r_in (snd x))) (d_out (fst x) && negb (r_out (snd x)))) (combine fs rs).
Proof.
  intros L1 L2 C L3. pose proof (C53_poll_exact piper fs r0 rs L1 L2 C) as H. cbn zeta in H. rewrite firstn_all2 in H by exact L3. eexists. split; [exact H|].
  assert (G : forall l k, (nready l <= k)%nat -> after k l = map (fun x => mkD (d_fd (fst x)) (d_in (fst x) && negb (r_in (snd x))) (d_out (fst x) && negb (r_out (snd x)))) l).
  { induction l as [|[f r] l IH]; intros k Hk; [reflexivity|]. unfold nready in *. cbn [filter after map fst snd] in *. change (ready (f, r)) with (r_in r || r_out r) in *. destruct (r_in r || r_out r) eqn:R.
    - cbn [length] in Hk. destruct k as [|k]; [lia|]. rewrite IH by lia. reflexivity.
    - apply orb_false_elim in R. destruct R as [R1 R2]. rewrite R1, R2. cbn [negb]. rewrite !andb_true_r.
      replace (match k with 0%nat | _ => f :: after k l end) with (f :: after k l) by (destruct k; reflexivity). rewrite IH by exact Hk. destruct f; reflexivity. }
  apply G. unfold reports in L3. rewrite app_length, map_length in L3. unfold nready, b2n. destruct (r_in r0); cbn [length] in L3; lia.
Qed.
(** The select() version does the same, given the sets that select() leaves. *)
Lemma scan_sel_scan rd wr fs : forall ev i err, scan_sel fs rd wr ev i err = scan fs (map (fun f => (d_fd f, sel_rv rd wr f)) fs) ev i err.
Proof.
  induction fs as [|f fs IH]; intros ev i err; [reflexivity|]. cbn [scan_sel map scan]. rewrite Z.eqb_refl. cbn [negb sel_rv r_in r_out].
  destruct (nth_error ev i) as [e|]; [|reflexivity]. destruct (_ || _)%bool; [reflexivity|]. rewrite IH. reflexivity.
Qed.
Theorem C53_select_exact piper fs rd wr : let l := map (fun f => (f, sel_rv rd wr f)) fs in
  let err := Z.of_nat (b2n (rd piper) + members fs rd wr) in
  let ev := firstn MAXEV (reports piper (mkRv (rd piper) false false) l) in
  err > 0 -> wait_select piper fs rd wr err = Ok (after (MAXEV - b2n (rd piper)) l, ev, Z.of_nat (length ev)).
Proof.
  intros l err ev C. unfold wait_select. replace (err <=? 0) with false by lia.
  destruct (pipe_shape piper (mkRv (rd piper) false false)) as (u & P & Eu & Lu). rewrite P. cbn [r_in] in Eu.
  assert (Lu2 : length u = b2n (rd piper)) by (rewrite Eu; destruct (rd piper); reflexivity).
  assert (A : map fst l = fs) by (unfold l; rewrite map_map; cbn; apply map_id).
  assert (B : map (fun x => (d_fd (fst x), snd x)) l = map (fun f => (d_fd f, sel_rv rd wr f)) fs) by (unfold l; rewrite map_map; reflexivity).
  assert (Le : (length u + nready l <= Z.to_nat err)%nat).
  { unfold err. rewrite Nat2Z.id, Lu2. enough (nready l <= members fs rd wr)%nat by lia. unfold l. clear. induction fs as [|f fs IH]; [cbn; lia|]. unfold nready in *. cbn [map filter members].
    change (ready (f, sel_rv rd wr f)) with (rd (d_fd f) || wr (d_fd f)). destruct (rd (d_fd f)), (wr (d_fd f)); cbn [orb length b2n]; lia. }
  rewrite scan_sel_scan, <- B. rewrite <- A at 1. destruct (scan_ok l u _ ltac:(unfold MAXEV; lia) Le) as (n & ev' & S1 & S2 & S3). rewrite S1. cbn [bind]. rewrite S2, Lu2.
  assert (Er : u ++ map entry (filter ready l) = reports piper (mkRv (rd piper) false false) l) by (unfold reports; rewrite Eu; reflexivity). rewrite Er. fold ev. f_equal. f_equal.
  unfold ev. rewrite firstn_length, <- Er, app_length, map_length, S3. reflexivity.
Qed.
(** A hang-up does not overtake data: when epoll reports POLLIN and POLLHUP
    together the data is read first, and the descriptor is closed only then. *)
Theorem C53_hup_after_data e w r : p_in e = true -> disp_epoll e false true w r <> [AHup] /\
  forall pre post, disp_epoll e false true w r = pre ++ AHup :: post -> In ARead pre /\ post = [].
Proof.
  intros Hi. unfold disp_epoll. rewrite Hi. destruct (p_out e), w, r; cbn; split; try discriminate;
  intros pre post E; destruct pre as [|a [|b [|c [|d pre]]]]; cbn in E; try discriminate;
  repeat match goal with H : _ :: _ = _ :: _ |- _ => injection H; clear H; intros; subst end; cbn; auto; try discriminate.
Qed.

(** Each step of the dispatch happens exactly when the ones before have not failed (a failed write
    or read has already closed the descriptor, so that it is not closed twice). *)
Theorem C53_steps_exact e hup w r : let l := disp_epoll e false hup w r in
  (In AWrite l <-> p_out e = true) /\ (In ARead l <-> p_in e = true /\ (p_out e = true -> w = true)) /\
  (In AHup l <-> hup = true /\ (p_out e = true -> w = true) /\ (p_in e = true -> r = true)) /\ ~ In AError l /\ NoDup l.
Proof.
  unfold disp_epoll. destruct (p_out e), (p_in e), hup, w, r; cbn; intuition (try discriminate; try congruence); repeat constructor; cbn; intuition discriminate.
Qed.

(** ** Departures *)
(** More than 1024 descriptors on one queue: the wait fails and the loop aborts
    the process, although each of them was accepted. *)
Theorem C53_too_many_abort_refuted piper fs rs err : (POLL_MAX_FDS < length fs)%nat -> round (wait_poll piper fs rs err) = Aborted.
Proof. intros H. unfold wait_poll. apply Nat.ltb_lt in H. rewrite H. reflexivity. Qed.
(** Starvation: if the first 64 descriptors are ready at every call, no descriptor
    behind them is ever reported or changed, however often the loop goes round -
    at each call the events are those of the first 64. *)
Theorem C53_starvation_refuted piper fs r0 rs k : (length fs <= POLL_MAX_FDS)%nat -> length rs = length fs -> (MAXEV <= k)%nat ->
  (forall j, (j < MAXEV)%nat -> exists x, nth_error (combine fs rs) j = Some x /\ ready x = true) ->
  exists fs' ev n, wait_poll piper fs (r0 :: rs) (poll_count (r0 :: rs)) = Ok (fs', ev, n) /\ nth_error fs' k = nth_error fs k /\
    forall e, In e ev -> e = mkEv piper true false \/ In e (map entry (firstn MAXEV (combine fs rs))).
Proof.
  intros L1 L2 Hk Hr. set (l := combine fs rs) in *.
  assert (C : poll_count (r0 :: rs) > 0).
  { destruct (Hr 0%nat ltac:(unfold MAXEV; lia)) as (x & Hx & Rx). unfold poll_count. assert (N : (0 < nready l)%nat).
    { unfold nready. assert (I : In x (filter ready l)) by (apply filter_In; split; [eapply nth_error_In; eassumption|exact Rx]). destruct (filter ready l); [destruct I|cbn; lia]. }
    pose proof (nready_le l fs rs eq_refl). cbn [filter]. destruct (nonzero r0); cbn [length]; lia. }
  pose proof (C53_poll_exact piper fs r0 rs L1 L2 C) as H. cbn zeta in H. fold l in H. do 3 eexists. split; [exact H|].
  assert (F : forall m l, (forall j, (j < m)%nat -> exists x, nth_error l j = Some x /\ ready x = true) -> filter ready l = firstn m l ++ filter ready (skipn m l)).
  { induction m as [|m IH]; intros l0 Hl; [reflexivity|]. destruct (Hl 0%nat ltac:(lia)) as (x & Hx & Rx). destruct l0 as [|y l0]; [discriminate|]. cbn in Hx. assert (y = x) by congruence. subst y.
    cbn [filter firstn skipn app]. rewrite Rx. f_equal. apply IH. intros j Hj. apply (Hl (S j)). lia. }
  assert (G : forall l0 c j, (c <= j)%nat -> (forall i, (i < c)%nat -> exists x, nth_error l0 i = Some x /\ ready x = true) -> nth_error (after c l0) j = nth_error (map fst l0) j).
  { induction l0 as [|x l0 IH]; intros c j Hj Hc; [reflexivity|]. destruct c as [|c]; [rewrite after_0; reflexivity|].
    destruct (Hc 0%nat ltac:(lia)) as (y & Hy & Ry). cbn in Hy. assert (x = y) by congruence. subst y. cbn [after]. rewrite Ry. destruct j as [|j]; [lia|]. cbn. apply IH; [lia|]. intros i Hi. apply (Hc (S i)). lia. }
  split.
  - rewrite G; [fold l; unfold l; rewrite (proj1 (comb_map fs rs L2)); reflexivity|lia|]. intros i Hi. apply Hr. lia.
  - intros e He. unfold reports in He. rewrite (F MAXEV l Hr) in He. rewrite map_app in He.
    assert (Lf : length (map entry (firstn MAXEV l)) = MAXEV).
    { rewrite map_length, firstn_length. destruct (Hr 63%nat ltac:(unfold MAXEV; lia)) as (x & Hx & _). assert (63 < length l)%nat by (apply nth_error_Some; congruence). unfold MAXEV. lia. }
    destruct (r_in r0); cbn [app] in He.
    + change (firstn MAXEV (mkEv piper true false :: map entry (firstn MAXEV l) ++ map entry (filter ready (skipn MAXEV l)))) with (mkEv piper true false :: firstn 63 (map entry (firstn MAXEV l) ++ map entry (filter ready (skipn MAXEV l)))) in He.
      destruct He as [He|He]; [left; congruence|right]. rewrite firstn_app in He. replace (63 - length (map entry (firstn MAXEV l)))%nat with 0%nat in He by (rewrite Lf; reflexivity). cbn [firstn] in He. rewrite app_nil_r in He.
      rewrite <- (firstn_skipn 63 (map entry (firstn MAXEV l))). apply in_or_app. left. exact He.
    + right. rewrite (firstn_pre _ _ MAXEV Lf) in He. exact He.
Qed.
(** A descriptor of which poll() reports only an error or a hang-up is never
    reported to the user, and nothing changes: the next poll() returns at once
    again, for ever. *)
Theorem C53_hangup_ignored_refuted piper fs rs : (length fs <= POLL_MAX_FDS)%nat -> length rs = length fs -> (forall r, In r rs -> r_in r = false /\ r_out r = false) -> (exists r, In r rs /\ r_other r = true) ->
  wait_poll piper fs (mkRv false false false :: rs) (poll_count (mkRv false false false :: rs)) = Ok (fs, [], 0).
Proof.
  intros L1 L2 Hr (r & Hi & Ho). assert (C : poll_count (mkRv false false false :: rs) > 0).
  { unfold poll_count. cbn [filter nonzero r_in r_out r_other orb]. assert (I : In r (filter nonzero rs)) by (apply filter_In; split; [exact Hi|unfold nonzero; rewrite Ho; apply orb_true_r]). destruct (filter nonzero rs); [destruct I|cbn [length]; lia]. }
  pose proof (C53_poll_exact piper fs (mkRv false false false) rs L1 L2 C) as H. cbn zeta in H.
  assert (F : filter ready (combine fs rs) = []).
  { assert (G : forall x, In x (combine fs rs) -> ready x = false) by (intros [f x] Hx; apply in_combine_r in Hx; destruct (Hr x Hx) as [A B]; unfold ready; cbn; rewrite A, B; reflexivity).
    clear - G. induction (combine fs rs) as [|x l IH]; [reflexivity|]. cbn. rewrite (G x) by (left; reflexivity). apply IH. intros y Hy. apply G. right. exact Hy. }
  assert (N : nready (combine fs rs) = 0%nat) by (unfold nready; rewrite F; reflexivity).
  rewrite (after_none _ _ N), (proj1 (comb_map fs rs L2)) in H. unfold reports in H. rewrite F in H. exact H.
Qed.
(** With epoll an error is handled before the data: what is still to be read is
    dropped. *)
Theorem C53_error_drops_data_refuted e hup w r : p_in e = true -> disp_epoll e true hup w r = [AError].
Proof. reflexivity. Qed.

(** ** The hypotheses are met *)
Example poll_case : wait_poll 9 [mkD 4 true true; mkD 5 true false; mkD 7 false true] [mkRv true false false; mkRv true true false; mkRv false false true; mkRv false true false] 4
  = Ok ([mkD 4 false false; mkD 5 true false; mkD 7 false false], [mkEv 9 true false; mkEv 4 true true; mkEv 7 false true], 3).
Proof. reflexivity. Qed.
Example poll_case_hyp : poll_count [mkRv true false false; mkRv true true false; mkRv false false true; mkRv false true false] = 4. Proof. reflexivity. Qed.
Example sel_case : wait_select 9 [mkD 4 true true; mkD 5 true false] (fun z => z =? 4) (fun z => z =? 4) 2 = Ok ([mkD 4 false false; mkD 5 true false], [mkEv 4 true true], 1).
Proof. reflexivity. Qed.
Definition many : list desc := map (fun n => mkD (Z.of_nat n) true false) (seq 10 70).
Example starve_case : forall j, (j < MAXEV)%nat -> exists x, nth_error (combine many (repeat (mkRv true false false) 70)) j = Some x /\ ready x = true.
Proof. intros j Hj. unfold MAXEV in Hj. do 64 (destruct j as [|j]; [eexists; split; reflexivity|]). lia. Qed.
Print Assumptions C53_poll_exact. Print Assumptions C53_poll_complete. Print Assumptions C53_select_exact. Print Assumptions C53_hup_after_data.
Print Assumptions C53_too_many_abort_refuted. Print Assumptions C53_starvation_refuted. Print Assumptions C53_hangup_ignored_refuted. Print Assumptions C53_error_drops_data_refuted.
Print Assumptions C53_steps_exact.
