(** * C44: network change events. *)
From Verif Require Import Base Route.

(** ** Specification *)
(** The default route of one family: interface, its type, gateway address.  The state of the
    network: a route or none for each family. *)
Definition route := (Z * Z * list Z)%type.
Definition net := (option route * option route)%type.
Definition down : net := (None, None).
Definition up (n : net) : Prop := n <> down.

(** The state reported by the kernel (a route without gateway has gateway 0, an unknown
    interface has type -1); IPv6 counts only if configured. *)
Definition seen1 (zero : list Z) (o : obs1) : route := (o_oif o, match o_type o with Some t => t | None => -1 end, match o_gw o with Some a => a | None => zero end).
Definition seen (v6 : bool) (o : obs) : net :=
  (option_map (seen1 [0; 0; 0; 0]) (ob4 o), if v6 then option_map (seen1 [0; 0; 0; 0; 0; 0; 0; 0; 0; 0; 0; 0; 0; 0; 0; 0]) (ob6 o) else None).
(** Interface indexes reported by the kernel are not negative. *)
Definition real (o : obs) : Prop := forall x, ob4 o = Some x \/ ob6 o = Some x -> 0 <= o_oif x.

(** What the subscriber reads from a structure passed to it. *)
Definition read1 (v6 : bool) (r : rt) : option route := if rt_valid v6 r then Some (r_idx r, r_type r, r_addr r) else None.
Definition read (v6 : bool) (d : def_rt) : net := (read1 v6 (d4 d), read1 v6 (d6 d)).

(** Histories since AOSL's initialisation: the state last seen, and the last state seen in which the network was up, if any. *)
Definition is_up (n : net) : bool := match n with (None, None) => false | _ => true end.
Inductive hist (v6 : bool) : rst -> net -> option net -> Prop :=
| h_init s : hist v6 (route_clear s) down None
| h_check s p l f g1 g2 o : hist v6 s p l -> real o ->
    hist v6 (snd (check v6 f g1 g2 o s)) (seen v6 o) (if is_up (seen v6 o) then Some (seen v6 o) else l)
| h_clear s p l : hist v6 s p l -> hist v6 (route_clear s) down None.

(** The event due when the network goes from [p] to [n], [l] being the last good state. *)
Inductive due (p : net) (l : option net) (n : net) : option net_ev -> Prop :=
| due_switch : up p -> up n -> n <> p -> due p l n (Some NET_SWITCH)
| due_down : up p -> ~ up n -> due p l n (Some NET_DOWN)
| due_up : ~ up p -> up n -> l = None \/ l = Some n -> due p l n (Some NET_UP)
| due_changed b : ~ up p -> up n -> l = Some b -> b <> n -> due p l n (Some NET_UP_CHANGED)
| due_none : p = n -> due p l n None.
(** The states passed with the event. *)
Definition told (v6 : bool) (p : net) (l : option net) (n : net) (e : net_ev * def_rt * def_rt) : Prop :=
  match e with
  | (NET_SWITCH, a, b) | (RT_CNT_CHANGED, a, b) => read v6 a = p /\ read v6 b = n
  | (NET_UP_CHANGED, a, b) => Some (read v6 a) = l /\ read v6 b = n
  | (NET_UP, a, _) => read v6 a = n
  | (NET_DOWN, a, b) => read v6 a = down /\ read v6 b = down
  end.

(** ** Proofs *)
Lemma addr_eqb_eq a b : addr_eqb a b = true <-> a = b.
Proof. revert b. induction a as [|x a IH]; intros [|y b]; cbn; try (split; congruence). rewrite andb_true_iff, Z.eqb_eq, IH. split; [intros [-> ->]; reflexivity|intros [= -> ->]; auto]. Qed.
(** Structures as the code keeps them. *)
Definition okrt (v6 : bool) (af : Z) (r : rt) : Prop := (r_idx r = -1 /\ r_fam r = AF_UNSPEC) \/ (0 <= r_idx r /\ r_fam r = af /\ (af = AF_INET \/ (v6 = true /\ af = AF_INET6))).
Definition okdef (v6 : bool) (d : def_rt) : Prop := okrt v6 AF_INET (d4 d) /\ okrt v6 AF_INET6 (d6 d).
Lemma okrt_valid v6 af r : okrt v6 af r -> rt_valid v6 r = negb (r_idx r <? 0).
Proof. intros [[A B]|(A & B & [C|[C D]])]; unfold rt_valid; rewrite ?A; [reflexivity| |]; destruct (Z.ltb_spec (r_idx r) 0); try lia; rewrite B, ?C, ?D; reflexivity. Qed.
Lemma same_rt_read v6 af a b : okrt v6 af a -> okrt v6 af b -> same_rt v6 a b = true <-> read1 v6 a = read1 v6 b.
Proof.
  intros A B. unfold read1, same_rt. rewrite (okrt_valid _ _ _ A), (okrt_valid _ _ _ B).
  destruct A as [[A1 A2]|(A1 & A2 & A3)], B as [[B1 B2]|(B1 & B2 & B3)].
  - rewrite A1, B1. cbn. tauto.
  - rewrite A1. destruct (Z.ltb_spec (r_idx b) 0); [lia|]. cbn [andb negb]. destruct (Z.eqb_spec (-1) (r_idx b)); [lia|]. cbn. split; discriminate.
  - rewrite B1. destruct (Z.ltb_spec (r_idx a) 0); [lia|]. cbn [andb negb]. destruct (Z.eqb_spec (r_idx a) (-1)); [lia|]. cbn. split; discriminate.
  - destruct (Z.ltb_spec (r_idx a) 0); [lia|]. destruct (Z.ltb_spec (r_idx b) 0); [lia|]. cbn [andb negb].
    destruct (Z.eqb_spec (r_idx a) (r_idx b)) as [E|E]; cbn [negb]; [|split; [discriminate|intros [= Q]; contradiction]].
    destruct (Z.eqb_spec (r_type a) (r_type b)) as [E2|E2]; cbn [negb]; [|split; [discriminate|intros [= Q1 Q2]; contradiction]].
    assert (IP : ip_equal v6 a b = addr_eqb (r_addr a) (r_addr b)). { unfold ip_equal. rewrite A2, B2, Z.eqb_refl. cbn [negb]. destruct A3 as [->|[-> ->]]; reflexivity. }
    rewrite IP, addr_eqb_eq, E, E2. split; [intros ->; reflexivity|intros [= Q]; exact Q].
Qed.
Lemma okrt_off r : okrt false AF_INET6 r -> read1 false r = None.
Proof. intros A. unfold read1. rewrite (okrt_valid _ _ _ A). destruct A as [[-> _]|(_ & _ & [Q|[Q _]])]; [reflexivity|discriminate|discriminate]. Qed.
Lemma same_def_read v6 a b : okdef v6 a -> okdef v6 b -> same_def_rt v6 a b = true <-> read v6 a = read v6 b.
Proof.
  intros [A4 A6] [B4 B6]. unfold same_def_rt, read. destruct (same_rt v6 (d4 a) (d4 b)) eqn:E4; cbn [negb].
  - apply (same_rt_read v6 AF_INET) in E4; auto. rewrite E4. destruct v6; cbn [andb].
    + destruct (same_rt true (d6 a) (d6 b)) eqn:E6; cbn [negb].
      * apply (same_rt_read true AF_INET6) in E6; auto. rewrite E6. tauto.
      * split; [discriminate|]. intros [= Q]. apply (same_rt_read true AF_INET6) in Q; auto. congruence.
    + rewrite (okrt_off _ A6), (okrt_off _ B6). tauto.
  - split; [discriminate|]. intros [= Q _]. apply (same_rt_read v6 AF_INET) in Q; auto. congruence.
Qed.
Lemma valid_read v6 d : def_rt_valid v6 d = is_up (read v6 d).
Proof. unfold def_rt_valid, is_up, read, read1. destruct (rt_valid v6 (d4 d)), (rt_valid v6 (d6 d)); reflexivity. Qed.
Lemma is_up_up n : is_up n = true <-> up n.
Proof. unfold is_up, up, down. destruct n as [[]  []]; split; congruence. Qed.
Lemma invalid_read v6 d : read v6 (invalidate d) = down.
Proof. reflexivity. Qed.

Lemma af_get_ok v6 af o r : (forall x, o = Some x -> 0 <= o_oif x) -> (af = AF_INET \/ (v6 = true /\ af = AF_INET6)) ->
  okrt v6 af (fst (af_get af o r)) /\ read1 v6 (fst (af_get af o r)) = option_map (seen1 (repeat 0 (if af =? AF_INET then 4%nat else 16%nat))) o /\ snd (af_get af o r) = (match o with Some _ => 1 | None => 0 end).
Proof.
  intros R C. destruct o as [o|]; cbn [af_get fst snd option_map].
  - assert (K : okrt v6 af (fst (af_get af (Some o) r))) by (right; cbn; split; [apply R; reflexivity|auto]). cbn [af_get fst] in K. split; [exact K|]. split; [|reflexivity]. unfold read1. rewrite (okrt_valid _ _ _ K). cbn [r_idx r_type r_addr].
    specialize (R o eq_refl). destruct (Z.ltb_spec (o_oif o) 0); [lia|]. reflexivity.
  - split; [left; split; reflexivity|]. split; reflexivity.
Qed.
Lemma os_get_ok v6 o d : real o -> okrt v6 AF_INET6 (d6 d) ->
  okdef v6 (fst (os_get_def_rt v6 o d)) /\ read v6 (fst (os_get_def_rt v6 o d)) = seen v6 o /\ (snd (os_get_def_rt v6 o d) >? 0) = is_up (seen v6 o).
Proof.
  intros R O. destruct (af_get_ok v6 AF_INET (ob4 o) (d4 d) ltac:(intros x H; apply R; auto) ltac:(auto)) as (A1 & A2 & A3). unfold os_get_def_rt.
  destruct (af_get AF_INET (ob4 o) (d4 d)) as [r4 g4]. cbn [fst snd] in A1, A2, A3. destruct v6.
  - destruct (af_get_ok true AF_INET6 (ob6 o) (d6 d) ltac:(intros x H; apply R; auto) ltac:(auto)) as (B1 & B2 & B3).
    destruct (af_get AF_INET6 (ob6 o) (d6 d)) as [r6 g6]. cbn [fst snd d4 d6] in *. split; [split; assumption|]. split; [unfold read, seen; cbn [d4 d6]; rewrite A2, B2; reflexivity|].
    rewrite A3, B3. unfold seen, is_up. destruct (ob4 o), (ob6 o); reflexivity.
  - cbn [fst snd d4 d6] in *. split; [split; assumption|]. split; [unfold read, seen; cbn [d4 d6]; rewrite A2, (okrt_off _ O); reflexivity|]. rewrite A3. unfold seen, is_up. destruct (ob4 o); reflexivity.
Qed.

Record rinv (v6 : bool) (s : rst) (p : net) (l : option net) : Prop := {
  ri0 : okdef v6 (rts0 s); ri1 : okdef v6 (rts1 s); ril : okdef v6 (lastv s);
  ric : read v6 (get_curr s) = p;
  rilast : match l with Some n => read v6 (lastv s) = n /\ up n | None => read v6 (lastv s) = down end }.
Lemma check_ok v6 s p l f g1 g2 o : rinv v6 s p l -> real o ->
  rinv v6 (snd (check v6 f g1 g2 o s)) (seen v6 o) (if is_up (seen v6 o) then Some (seen v6 o) else l) /\
  (f = true -> match fst (check v6 f g1 g2 o s) with
   | None => due p l (seen v6 o) None
   | Some (RT_CNT_CHANGED, a, b) => up p /\ seen v6 o = p /\ read v6 a = p /\ read v6 b = seen v6 o
   | Some (e, a, b) => due p l (seen v6 o) (Some e) /\ told v6 p l (seen v6 o) (e, a, b)
   end) /\ (f = false -> fst (check v6 f g1 g2 o s) = None).
Proof.
  intros [I0 I1 IL IC IR] R. assert (ON : okdef v6 (get_new s)) by (unfold get_new; destruct (curr s); assumption). assert (OC : okdef v6 (get_curr s)) by (unfold get_curr; destruct (curr s); assumption).
  destruct (os_get_ok v6 o (get_new s) R (proj2 ON)) as (A1 & A2 & A3). unfold check. destruct (os_get_def_rt v6 o (get_new s)) as [new n] eqn:Eos. cbn [fst snd] in A1, A2, A3. rewrite A3, valid_read, IC.
  assert (LV : lastv (put_new s new) = lastv s) by (unfold put_new; destruct (curr s); reflexivity). rewrite LV, valid_read.
  assert (G : forall s', s' = switch (put_new s new) \/ s' = switch (put_last (put_new s new) new) -> okdef v6 (rts0 s') /\ okdef v6 (rts1 s') /\ read v6 (get_curr s') = seen v6 o).
  { intros s' [->| ->]; unfold switch, put_last, put_new, get_curr; destruct (curr s); cbn; auto. }
  destruct (is_up (seen v6 o)) eqn:EU; cbn [fst snd].
  - split; [|split; [|intros ->; reflexivity]].
    + destruct (G _ (or_intror eq_refl)) as (G0 & G1 & G2). constructor; auto; cbn [switch put_last lastv]; auto. split; [exact A2|]. apply is_up_up, EU.
    + intros ->. destruct (is_up p) eqn:EP.
      * destruct (same_def_rt v6 new (get_curr s)) eqn:ES; cbn [negb].
        -- apply (same_def_read v6) in ES; auto. rewrite A2, IC in ES. destruct (same_cnt new (get_curr s)); cbn [negb]; [apply due_none; congruence|]. split; [apply is_up_up, EP|]. rewrite A2. auto.
        -- split; [|cbn; auto]. apply due_switch; [apply is_up_up, EP|apply is_up_up, EU|]. intros Q. assert (same_def_rt v6 new (get_curr s) = true) by (apply (same_def_read v6); auto; congruence). congruence.
      * assert (NP : ~ up p) by (rewrite <- is_up_up; congruence). destruct l as [b|].
        -- destruct IR as [IR UB']. rewrite IR. rewrite (proj2 (is_up_up b) UB'). cbn [andb]. destruct (same_def_rt v6 new (lastv s)) eqn:ES; cbn [negb].
           ++ apply (same_def_read v6) in ES; auto. rewrite A2, IR in ES. split; [|cbn; auto]. apply due_up; [exact NP|apply is_up_up, EU|right; congruence].
           ++ split; [|cbn; rewrite IR; auto]. apply (due_changed p (Some b) (seen v6 o) b); [exact NP|apply is_up_up, EU|reflexivity|]. intros Q. assert (same_def_rt v6 new (lastv s) = true) by (apply (same_def_read v6); auto; congruence). congruence.
        -- rewrite IR. cbn [is_up down andb]. split; [|cbn; auto]. apply due_up; [exact NP|apply is_up_up, EU|left; reflexivity].
  - assert (SD : ~ up (seen v6 o)) by (rewrite <- is_up_up; congruence). split; [|split; [|intros ->; reflexivity]].
    + destruct (G _ (or_introl eq_refl)) as (G0 & G1 & G2). constructor; auto; cbn [switch lastv]; rewrite LV; auto.
    + intros ->. destruct (is_up p) eqn:EP.
      * split; [apply due_down; [apply is_up_up, EP|exact SD]|]. split; reflexivity.
      * apply due_none. unfold is_up, seen in *. destruct p as [[] []]; try discriminate. destruct (option_map _ (ob4 o)); [discriminate|]. match type of EU with context [if v6 then ?a else ?b] => destruct (if v6 then a else b) end; [discriminate|reflexivity].
Qed.
Lemma clear_ok v6 s : rinv v6 (route_clear s) down None.
Proof. assert (K : okdef v6 init_def_rt) by (split; left; split; reflexivity). constructor; cbn [route_clear rts0 rts1 lastv]; auto; unfold get_curr; cbn; destruct (curr s); reflexivity. Qed.
Lemma hist_inv v6 s p l : hist v6 s p l -> rinv v6 s p l.
Proof. induction 1; [apply clear_ok| |apply clear_ok]. apply (check_ok v6 s p l f g1 g2 o IHhist H0). Qed.

(** ** C44 *)
(** Apart from RT_CNT_CHANGED, the event delivered is the one that is due, and it carries the old and
    the new state; a count event is delivered only while the network is up and unchanged. *)
Theorem C44_event : forall v6 s p l g1 g2 o, hist v6 s p l -> real o ->
  match fst (check v6 true g1 g2 o s) with
  | None => due p l (seen v6 o) None
  | Some (RT_CNT_CHANGED, a, b) => up p /\ seen v6 o = p /\ read v6 a = p /\ read v6 b = seen v6 o
  | Some (e, a, b) => due p l (seen v6 o) (Some e) /\ told v6 p l (seen v6 o) (e, a, b)
  end.
Proof. intros v6 s p l g1 g2 o H R. apply (proj1 (proj2 (check_ok v6 s p l true g1 g2 o (hist_inv _ _ _ _ H) R)) eq_refl). Qed.
Print Assumptions C44_event.
(** At most one event is due. *)
Theorem C44_event_unique : forall p l n e e', due p l n e -> due p l n e' -> e = e'.
Proof.
  intros p l n e e' H H'. inversion H; inversion H'; subst; try reflexivity; try congruence; try contradiction; exfalso.
  all: repeat match goal with H : _ \/ _ |- _ => destruct H end; try congruence; try contradiction.
Qed.
Print Assumptions C44_event_unique.

Lemma last_cons {A} (m : list A) : forall a p, last (a :: m) p = last m a.
Proof. induction m as [|b m IH]; intros a p; [reflexivity|]. change (last (a :: b :: m) p) with (last (b :: m) p). rewrite (IH b p), (IH b a). reflexivity. Qed.
(** What a subscriber knows who believes the events. *)
Definition learn (v6 : bool) (k : net) (e : option (net_ev * def_rt * def_rt)) : net :=
  match e with
  | Some (NET_DOWN, _, _) => down
  | Some (NET_UP, a, _) => read v6 a
  | Some (NET_UP_CHANGED, _, b) | Some (NET_SWITCH, _, b) => read v6 b
  | Some (RT_CNT_CHANGED, _, _) | None => k
  end.
(** The monitor fed with a sequence of observations. *)
Fixpoint watch (v6 : bool) (s : rst) (k : net) (os : list (def_rt * def_rt * obs)) : rst * net :=
  match os with
  | [] => (s, k)
  | (g1, g2, o) :: os => watch v6 (snd (check v6 true g1 g2 o s)) (learn v6 k (fst (check v6 true g1 g2 o s))) os
  end.
(** The events determine the state: after any sequence of observations following the subscription, the subscriber
    knows the state last observed. *)
Theorem C44_events_tell_state : forall v6 s os, Forall (fun x => real (snd x)) os ->
  snd (watch v6 (route_clear s) down os) = last (map (fun x => seen v6 (snd x)) os) down.
Proof.
  intros v6 s os. assert (G : forall os s p l, hist v6 s p l -> Forall (fun x => real (snd x)) os -> snd (watch v6 s p os) = last (map (fun x => seen v6 (snd x)) os) p).
  { clear. induction os as [|[[g1 g2] o] os IH]; intros s p l H F; [reflexivity|]. apply Forall_cons_iff in F as [R F]. cbn [snd] in R. cbn [watch map].
    assert (E : learn v6 p (fst (check v6 true g1 g2 o s)) = seen v6 o).
    { pose proof (C44_event v6 s p l g1 g2 o H R) as Q. destruct (fst (check v6 true g1 g2 o s)) as [[[[] a] b]|]; cbn [learn]; try (destruct Q as [Q1 Q2]; cbn in Q2).
      - inversion Q1; subst. destruct (is_up (seen v6 o)) eqn:X; [apply is_up_up in X; contradiction|]. unfold is_up in X. destruct (seen v6 o) as [[] []]; try discriminate. reflexivity.
      - exact Q2. - apply Q2. - apply Q2. - symmetry. apply Q2. - inversion Q; auto. }
    rewrite E. cbn [snd]. rewrite (IH _ _ _ (h_check v6 s p l true g1 g2 o H R) F). symmetry. apply last_cons. }
  intros F. apply (G os _ _ None (h_init v6 s) F).
Qed.
Print Assumptions C44_events_tell_state.
(** aosl_network_is_down tells whether the last observation had no route. *)
Theorem C44_network_is_down : forall v6 s p l, hist v6 s p l -> (network_is_down v6 s = true <-> p = down).
Proof.
  intros v6 s p l H. apply hist_inv in H. unfold network_is_down. rewrite valid_read, (ric _ _ _ _ H). unfold is_up, down. destruct p as [[] []]; cbn; split; congruence.
Qed.
Print Assumptions C44_network_is_down.
(** aosl_is_mobile_net succeeds exactly for a family with a route. *)
Theorem C44_is_mobile_net : forall v6 s p l, hist v6 s p l ->
  (is_mobile_net v6 AF_INET s <> None <-> fst p <> None) /\ (is_mobile_net v6 AF_INET6 s <> None <-> snd p <> None) /\
  (forall af, af <> AF_INET -> af <> AF_INET6 -> is_mobile_net v6 af s = None).
Proof.
  intros v6 s p l H. apply hist_inv in H. assert (OC : okdef v6 (get_curr s)) by (unfold get_curr; destruct (curr s); apply H). destruct OC as [O4 O6]. rewrite <- (ric _ _ _ _ H). unfold is_mobile_net, read. cbn [fst snd].
  split; [|split].
  - cbn [Z.eqb AF_INET Pos.eqb]. change (AF_INET =? AF_INET) with true. cbn iota. unfold read1. rewrite (okrt_valid _ _ _ O4). destruct O4 as [[-> ->]|(A & -> & _)]; [cbn; tauto|]. destruct (Z.ltb_spec (r_idx (d4 (get_curr s))) 0); [lia|]. cbn. split; discriminate.
  - change (AF_INET6 =? AF_INET) with false. change (AF_INET6 =? AF_INET6) with true. cbn iota. unfold read1. rewrite (okrt_valid _ _ _ O6). destruct O6 as [[-> ->]|(A & -> & [Q|[-> _]])]; [destruct v6; cbn; tauto|discriminate|]. destruct (Z.ltb_spec (r_idx (d6 (get_curr s))) 0); [lia|]. cbn. split; discriminate.
  - intros af N4 N6. destruct (Z.eqb_spec af AF_INET); [contradiction|]. destruct (Z.eqb_spec af AF_INET6); [contradiction|]. rewrite andb_false_r. reflexivity.
Qed.
Print Assumptions C44_is_mobile_net.

(** The number of default routes of a family, as far as it is reported (at most 2). *)
Definition count (o : option obs1) : Z := match o with Some x => if o_cnt x >? 2 then 2 else o_cnt x | None => 0 end.
Lemma off_untouched v6 s p l : hist v6 s p l -> v6 = false -> r_cnt (d6 (rts0 s)) = r_cnt (d6 (rts1 s)).
Proof.
  intros H ->. cut (d6 (rts0 s) = init_rt /\ d6 (rts1 s) = init_rt); [intros [-> ->]; reflexivity|]. induction H as [s|s p l f g1 g2 o H [A B] R|s p l H _]; [split; reflexivity| |split; reflexivity].
  unfold check, os_get_def_rt. destruct (af_get AF_INET (ob4 o) (d4 (get_new s))) as [r4 g4]. destruct (g4 + 0 >? 0); cbn [snd]; unfold switch, put_last, put_new, get_new; destruct (curr s); cbn; auto.
Qed.
(** RT_CNT_CHANGED is delivered exactly when the reported number of routes changed, provided every configured
    family has a route before and after; missing: families without a route, see the next theorem. *)
Theorem C44_count_event_partial : forall v6 s p l g1 g2 o' h1 h2 o, hist v6 s p l -> real o' -> real o ->
  ob4 o' <> None -> ob4 o <> None -> (v6 = true -> ob6 o' <> None /\ ob6 o <> None) -> seen v6 o = seen v6 o' ->
  ((exists a b, fst (check v6 true h1 h2 o (snd (check v6 true g1 g2 o' s))) = Some (RT_CNT_CHANGED, a, b)) <->
   (count (ob4 o) <> count (ob4 o') \/ (v6 = true /\ count (ob6 o) <> count (ob6 o')))).
Proof.
  intros v6 s p l g1 g2 o' h1 h2 o H R' R P4' P4 P6 E. pose proof (off_untouched v6 s p l H) as P6off. pose proof (hist_inv _ _ _ _ H) as I.
  pose proof (check_ok v6 s p l true g1 g2 o' I R') as [I1 _].
  set (s1 := snd (check v6 true g1 g2 o' s)) in *.
  assert (ON : okdef v6 (get_new s)) by (unfold get_new; destruct (curr s); apply I).
  destruct (os_get_ok v6 o' (get_new s) R' (proj2 ON)) as (A1 & A2 & A3).
  assert (EC : get_curr s1 = fst (os_get_def_rt v6 o' (get_new s))).
  { unfold s1, check. destruct (os_get_def_rt v6 o' (get_new s)) as [new n]. cbn [fst snd]. destruct (n >? 0); cbn [snd]; unfold get_curr, switch, put_last, put_new; destruct (curr s); reflexivity. }
  assert (EN : get_new s1 = get_curr s).
  { unfold s1, check. destruct (os_get_def_rt v6 o' (get_new s)) as [new n]. cbn [fst snd]. destruct (n >? 0); cbn [snd]; unfold get_curr, get_new, switch, put_last, put_new; destruct (curr s); reflexivity. }
  assert (U : is_up (seen v6 o') = true) by (unfold is_up, seen; destruct (ob4 o'); [reflexivity|congruence]).
  assert (OC : okdef v6 (get_curr s)) by (unfold get_curr; destruct (curr s); apply I).
  destruct (os_get_ok v6 o (get_curr s) R (proj2 OC)) as (B1 & B2 & B3).
  unfold check at 1. rewrite EN, valid_read, EC, A2, U. destruct (os_get_def_rt v6 o (get_curr s)) as [new n] eqn:Eos. cbn [fst snd] in B1, B2, B3. rewrite B3, E, U. cbn [fst].
  assert (SD : same_def_rt v6 new (fst (os_get_def_rt v6 o' (get_new s))) = true) by (apply (same_def_read v6); auto; congruence). rewrite SD. cbn [negb].
  assert (C : same_cnt new (fst (os_get_def_rt v6 o' (get_new s))) = (count (ob4 o) =? count (ob4 o')) && (negb v6 || (count (ob6 o) =? count (ob6 o')))).
  { unfold os_get_def_rt in *. destruct (ob4 o) as [x|]; [|congruence]. destruct (ob4 o') as [x'|]; [|congruence]. cbn [af_get] in *. destruct v6.
    - destruct (P6 eq_refl) as [Q1 Q2]. destruct (ob6 o) as [y|]; [|congruence]. destruct (ob6 o') as [y'|]; [|congruence]. cbn [af_get fst] in *. injection Eos as <- <-. reflexivity.
    - cbn [fst] in *. injection Eos as <- <-. unfold same_cnt. cbn [d4 d6 r_cnt count negb orb]. rewrite andb_true_r.
      replace (r_cnt (d6 (get_curr s)) =? r_cnt (d6 (get_new s))) with true; [apply andb_true_r|]. symmetry. apply Z.eqb_eq. unfold get_curr, get_new. destruct (curr s); rewrite (P6off eq_refl); reflexivity. }
  rewrite C. destruct (Z.eqb_spec (count (ob4 o)) (count (ob4 o'))) as [Q4|Q4], (Z.eqb_spec (count (ob6 o)) (count (ob6 o'))) as [Q6|Q6]; destruct v6; cbn [andb orb negb]; split; try (intros (a & b & Q); discriminate Q); try (intros [Q|[Q1 Q2]]; congruence); try (intros _; eauto; fail); eauto.
Qed.
Print Assumptions C44_count_event_partial.

(** An IPv6 route comes and goes; then the same observation twice more delivers RT_CNT_CHANGED although nothing changed:
    the count of the absent family is left over from the observation before the last. *)
Definition o46 : obs := {| ob4 := Some {| o_oif := 1; o_type := Some 1; o_cnt := 1; o_gw := Some [10; 0; 0; 1] |}; ob6 := Some {| o_oif := 1; o_type := Some 1; o_cnt := 1; o_gw := None |} |}.
Definition o4 : obs := {| ob4 := ob4 o46; ob6 := None |}.
Definition step (o : obs) (s : rst) : rst := snd (check true true init_def_rt init_def_rt o s).
Theorem C44_nothing_when_unchanged_refuted : exists s p l, hist true s p l /\ real o4 /\ p = seen true o4 /\
  exists s0 q m, hist true s0 q m /\ s = step o4 s0 /\
  exists a b, fst (check true true init_def_rt init_def_rt o4 s) = Some (RT_CNT_CHANGED, a, b).
Proof.
  assert (R4 : real o4) by (intros x [[= <-]|Q]; [cbn; lia|discriminate]). assert (R46 : real o46) by (intros x [[= <-]|[= <-]]; cbn; lia).
  pose (s0 := route_clear {| rts0 := init_def_rt; rts1 := init_def_rt; lastv := init_def_rt; curr := false |}).
  exists (step o4 (step o46 s0)), (seen true o4), (Some (seen true o4)). split; [|split; [exact R4|split; [reflexivity|]]].
  - apply (h_check true _ (seen true o46) (Some (seen true o46)) true init_def_rt init_def_rt o4); [|exact R4]. apply (h_check true s0 down None true init_def_rt init_def_rt o46); [apply h_init|exact R46].
  - exists (step o46 s0), (seen true o46), (Some (seen true o46)). split; [apply (h_check true s0 down None true init_def_rt init_def_rt o46); [apply h_init|exact R46]|]. split; [reflexivity|]. vm_compute. eauto.
Qed.
Print Assumptions C44_nothing_when_unchanged_refuted.

(** ** Example: up, switch, down, up again elsewhere. *)
Definition o4b : obs := {| ob4 := Some {| o_oif := 2; o_type := None; o_cnt := 3; o_gw := None |}; ob6 := None |}.
Definition o0 : obs := {| ob4 := None; ob6 := None |}.
Definition evs := fix go (s : rst) (os : list obs) : list (option net_ev) :=
  match os with [] => [] | o :: os => option_map (fun e => fst (fst e)) (fst (check true true init_def_rt init_def_rt o s)) :: go (step o s) os end.
Example route_run : evs (route_clear {| rts0 := init_def_rt; rts1 := init_def_rt; lastv := init_def_rt; curr := false |}) [o0; o4; o4; o4b; o0; o0; o4; o0; o4] =
  [None; Some NET_UP; None; Some NET_SWITCH; Some NET_DOWN; None; Some NET_UP_CHANGED; Some NET_DOWN; Some NET_UP].
Proof. vm_compute. reflexivity. Qed.
