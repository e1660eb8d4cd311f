(** * Who holds which descriptor, in Ipsk.v. *)
From Verif Require Import Base Route PropRoute Ipsk IpskSpec IpskInv.

Lemma look_cons e k fd : look fd (e :: k) = if e_fd e =? fd then Some e else look fd k.
Proof. reflexivity. Qed.
Lemma look_fd fd k e : look fd k = Some e -> e_fd e = fd.
Proof. unfold look. intros H. apply find_some in H. apply Z.eqb_eq, H. Qed.
Lemma drop_cons x e k : drop x (e :: k) = if e_fd e =? x then drop x k else e :: drop x k.
Proof. unfold drop. cbn [filter]. destruct (e_fd e =? x); reflexivity. Qed.
Lemma setq_cons x b e k : setq x b (e :: k) = (if e_fd e =? x then En x (e_own e) b else e) :: setq x b k.
Proof. reflexivity. Qed.
Lemma look_drop x k fd : look fd (drop x k) = if x =? fd then None else look fd k.
Proof.
  induction k as [|e k IH]; [cbn; destruct (x =? fd); reflexivity|]. rewrite drop_cons, look_cons. destruct (Z.eqb_spec (e_fd e) x) as [E|E]; rewrite ?look_cons, IH.
  - rewrite E. destruct (x =? fd); reflexivity.
  - destruct (Z.eqb_spec (e_fd e) fd), (Z.eqb_spec x fd); congruence.
Qed.
Lemma look_setq x b k fd : look fd (setq x b k) = if x =? fd then option_map (fun e => En x (e_own e) b) (look fd k) else look fd k.
Proof.
  induction k as [|e k IH]; [cbn; destruct (x =? fd); reflexivity|]. rewrite setq_cons, !look_cons, IH. destruct (Z.eqb_spec (e_fd e) x) as [E|E]; cbn [e_fd].
  - rewrite E. destruct (x =? fd); reflexivity.
  - destruct (Z.eqb_spec (e_fd e) fd), (Z.eqb_spec x fd); try reflexivity; congruence.
Qed.

(** The kernel's table is what the history says. *)
Definition own_of (o : option entry) : option (option (nat * fam)) := option_map e_own o.
Definition q_of (o : option entry) : bool := match o with Some e => e_q e | None => false end.
Record kinv (s : st) : Prop := {
  k_own : forall fd, owner (log s) fd = own_of (look fd (ker s));
  k_q : forall fd, queued (log s) fd = q_of (look fd (ker s));
  k_pos : forall fd e, look fd (ker s) = Some e -> 0 <= fd }.

(** What a step does to the table, and the event that says so. *)
Inductive kstep (s s' : st) : Prop :=
| ks_same evs : ker s' = ker s -> log s' = evs ++ log s -> Forall (fun e => match e with EOpen _ _ _ _ _ _ | EOther _ | EClose _ _ | EOtherClose _ | EQclose _ | EAdd _ | EDel _ => False | _ => True end) evs -> kstep s s'
| ks_open n m d fd ty pr evs : 0 <= fd -> look fd (ker s) = None -> ker s' = En fd (Some (n, m)) false :: ker s -> log s' = evs ++ EOpen n m d fd ty pr :: log s -> Forall (fun e => match e with ERet _ _ _ _ _ => True | _ => False end) evs -> kstep s s'
| ks_other fd : 0 <= fd -> look fd (ker s) = None -> ker s' = En fd None false :: ker s -> log s' = EOther fd :: log s -> kstep s s'
| ks_close fd e evs : ker s' = drop fd (ker s) -> log s' = evs ++ e :: log s -> (exists n, e = EClose n fd) \/ e = EOtherClose fd \/ e = EQclose fd -> Forall (fun e => match e with ERet _ _ _ _ _ => True | _ => False end) evs -> kstep s s'
| ks_queue fd b : look fd (ker s) <> None -> ker s' = setq fd b (ker s) -> log s' = (if b then EAdd fd else EDel fd) :: log s -> kstep s s'.

Lemma kinv_kstep s s' : kinv s -> kstep s s' -> kinv s'.
Proof.
  intros [K1 K2 K3] [evs A B C|n m d fd ty pr evs P N A B C|fd P N A B|fd e evs A B E C|fd b N A B].
  - assert (Q : forall x, owner (log s') x = owner (log s) x /\ queued (log s') x = queued (log s) x).
    { intros x. rewrite B. clear - C. induction C as [|e r Q _ IH]; cbn; [auto|]. destruct e; try exact IH; destruct Q. }
    constructor; intros x; rewrite A; [rewrite (proj1 (Q x))|rewrite (proj2 (Q x))|]; auto. apply K3.
  - assert (Q : forall x, owner (log s') x = owner (EOpen n m d fd ty pr :: log s) x /\ queued (log s') x = queued (EOpen n m d fd ty pr :: log s) x).
    { intros x. rewrite B. clear - C. induction C as [|e r Q _ IH]; cbn [app]; [auto|]. destruct e; try exact IH; destruct Q. }
    constructor; intros x; rewrite A, look_cons; cbn [e_fd]; [rewrite (proj1 (Q x))|rewrite (proj2 (Q x))|]; cbn [owner queued].
    + destruct (fd =? x); auto.
    + destruct (fd =? x); auto.
    + destruct (Z.eqb_spec fd x); [intros; congruence|apply K3].
  - constructor; intros x; rewrite A, look_cons; rewrite ?B; cbn [e_fd owner queued].
    + destruct (fd =? x); auto.
    + destruct (fd =? x); auto.
    + destruct (Z.eqb_spec fd x); [intros; congruence|apply K3].
  - assert (Q : forall x, owner (log s') x = owner (e :: log s) x /\ queued (log s') x = queued (e :: log s) x).
    { intros x. rewrite B. clear - C. induction C as [|y r Q _ IH]; cbn [app]; [auto|]. destruct y; try exact IH; destruct Q. }
    assert (R : forall x, owner (e :: log s) x = (if fd =? x then None else owner (log s) x) /\ queued (e :: log s) x = (if fd =? x then false else queued (log s) x)).
    { intros x. destruct E as [[n ->]|[-> | ->]]; cbn; auto. }
    constructor; intros x; rewrite A, look_drop; [rewrite (proj1 (Q x)), (proj1 (R x))|rewrite (proj2 (Q x)), (proj2 (R x))|].
    + destruct (fd =? x); auto.
    + destruct (fd =? x); auto.
    + destruct (fd =? x); [discriminate|apply K3].
  - constructor; intros x; rewrite A, look_setq; rewrite ?B.
    + replace (owner _ x) with (owner (log s) x) by (destruct b; reflexivity). rewrite K1. destruct (fd =? x); [|reflexivity]. destruct (look x (ker s)); reflexivity.
    + destruct (Z.eqb_spec fd x) as [<-|D].
      * destruct (look fd (ker s)); [|congruence]. destruct b; cbn; rewrite Z.eqb_refl; reflexivity.
      * destruct b; cbn; destruct (Z.eqb_spec fd x); try congruence; apply K2.
    + destruct (Z.eqb_spec fd x) as [<-|D]; [|apply K3]. destruct (look fd (ker s)) eqn:G; [|congruence]. intros ? _. apply (K3 _ _ G).
Qed.

Lemma look_none fd k : ((fd <? 0) || match look fd k with Some _ => true | None => false end) = false -> 0 <= fd /\ look fd k = None.
Proof. intros H. apply orb_false_iff in H. destruct H as [H1 H2]. apply Z.ltb_ge in H1. destruct (look fd k); [discriminate|auto]. Qed.
Ltac fa := repeat (apply Forall_cons; [exact I|]); apply Forall_nil.
Lemma set_err_ker n err s : ker (set_err n err s) = ker s /\ log (set_err n err s) = log s /\ pair (set_err n err s) = pair s /\ pcs (set_err n err s) = pcs s.
Proof. destruct (set_err_spec n err s) as (A & _ & B & C & D & _). auto. Qed.
Lemma bind1_ker n m a err s s' k : bind1 n m a err s = (s', k) -> ker s' = ker s /\ log s' = EBind n (pair s n m) a err :: log s /\ pair s' = pair s /\ pcs s' = pcs s.
Proof.
  unfold bind1. intros H. destruct (err =? 0); injection H as <- _; [cbn; auto|].
  destruct (set_err_ker n err (note (EBind n (pair s n m) a err) s)) as (-> & -> & -> & ->). cbn. auto.
Qed.

Lemma step_kstep v6 s l s' : step v6 s l = Some s' -> kstep s s'.
Proof.
  intros H. destruct l as [n c|n|n|n r|n err|n late|n e|n m|fd|fd|fd|fd|fd|f g1 g2 o| ]; cbn [step] in H.
  - destruct (pcs s n); try discriminate. some H. apply (ks_same _ _ [ECall n c (eno s n) (pair s n V4) (pair s n V6)]); destruct c; try reflexivity; fa.
  - destruct (pcs s n) eqn:P; try discriminate. some H. eapply (ks_same _ _ [_]); try reflexivity. fa.
  - destruct (todo v6 s n); [discriminate|]. destruct (pcs s n) eqn:P; try discriminate; some H; first [apply (ks_same _ _ []); [reflexivity|reflexivity|fa]|eapply (ks_same _ _ [_]); [reflexivity|reflexivity|fa]].
  - destruct (todo v6 s n); [|discriminate]. cbn [negb] in H. destruct (pcs s n) eqn:P; try discriminate; unfold open in H; (destruct r as [fd|]; [destruct (_ || _) eqn:G in H; [discriminate|]; apply look_none in G; destruct G as [G1 G2]|]); some H.
    + eapply (ks_open _ _ n V4 _ fd _ _ []); try eassumption; try reflexivity. fa.
    + eapply (ks_same _ _ [_]); try reflexivity. fa.
    + eapply (ks_open _ _ n V6 _ fd _ _ [_]); try eassumption; try reflexivity. fa.
    + eapply (ks_same _ _ [_; _]); try reflexivity. fa.
  - destruct (todo v6 s n); [|discriminate]. cbn [negb] in H. destruct (pcs s n) eqn:P; try discriminate.
    + destruct (bind1 n V4 a4 err s) as [s1 k] eqn:B. some H. apply bind1_ker in B. destruct B as (B1 & B2 & _). eapply (ks_same _ _ [_]); [exact B1|exact B2|fa].
    + destruct (bind1 n V6 a6 err s) as [s1 k'] eqn:B. some H. apply bind1_ker in B. destruct B as (B1 & B2 & _). eapply (ks_same _ _ [_; _]); [exact B1|cbn; rewrite B2; reflexivity|fa].
  - destruct (todo v6 s n); [|discriminate]. cbn [negb] in H. destruct (pcs s n) eqn:P; try discriminate; unfold close1 in H.
    + destruct (look (pair s n V4) (ker s)) as [e|] eqn:L, late; try discriminate H; [destruct (e_q e); [|discriminate]| |]; some H.
      * eapply (ks_same _ _ [_]); try reflexivity. fa.
      * eapply (ks_close _ _ (pair s n V4) _ []); [reflexivity|reflexivity|left; eauto|fa].
      * eapply (ks_same _ _ [_]); try reflexivity. fa.
    + destruct (look (pair s n V6) (ker s)) as [e|] eqn:L, late; try discriminate H; [destruct (e_q e); [|discriminate]| |]; some H.
      * eapply (ks_same _ _ [_; _]); try reflexivity. fa.
      * eapply (ks_close _ _ (pair s n V6) _ [_]); [reflexivity|reflexivity|left; eauto|fa].
      * eapply (ks_same _ _ [_; _]); try reflexivity. fa.
  - destruct (pcs s n); try discriminate. some H. apply (ks_same _ _ []); try reflexivity. fa.
  - destruct (pcs s n); try discriminate. some H. eapply (ks_same _ _ [_]); try reflexivity. fa.
  - destruct (_ || _) eqn:G in H; [discriminate|]. apply look_none in G. destruct G. some H. eapply ks_other; try eassumption; reflexivity.
  - destruct (look fd (ker s)) as [[x [o|] q]|] in H; try discriminate. some H. eapply (ks_close _ _ fd _ []); [reflexivity|reflexivity|auto|fa].
  - destruct (look fd (ker s)) as [e|] eqn:L in H; try discriminate. destruct (e_q e) in H; try discriminate. some H. apply (ks_queue _ _ fd true); [congruence|reflexivity|reflexivity].
  - destruct (look fd (ker s)) as [e|] eqn:L in H; try discriminate. destruct (e_q e) in H; try discriminate. some H. apply (ks_queue _ _ fd false); [congruence|reflexivity|reflexivity].
  - destruct (look fd (ker s)) as [e|] in H; try discriminate. destruct (e_q e) in H; try discriminate. some H. eapply (ks_close _ _ fd _ []); [reflexivity|reflexivity|auto|fa].
  - some H. eapply (ks_same _ _ [_]); try reflexivity. fa.
  - some H. eapply (ks_same _ _ [_]); try reflexivity. fa.
Qed.
Lemma kinv_reach v6 s : reach v6 s -> kinv s.
Proof.
  induction 1; [constructor; cbn; intros; try reflexivity; discriminate|]. eapply kinv_kstep; [eassumption|]. eapply step_kstep. eassumption.
Qed.

(** ** Correct use *)
Definition good (k : list entry) (p : nat -> fam -> Z) : Prop :=
  (forall n m, p n m <> -1 -> own_of (look (p n m) k) = Some (Some (n, m))) /\
  (forall fd n m, own_of (look fd k) = Some (Some (n, m)) -> p n m = fd \/ q_of (look fd k) = true) /\
  (forall fd e, look fd k = Some e -> 0 <= fd).
Lemma setp_at p n m x a b : setp p n m x a b = p a b \/ (a = n /\ b = m /\ setp p n m x a b = x).
Proof. unfold setp. destruct (Nat.eqb_spec a n), b, m; cbn; auto. Qed.
Lemma setp_ne p n m x a b : (a, b) <> (n, m) -> setp p n m x a b = p a b.
Proof. intros H. destruct (setp_at p n m x a b) as [|(-> & -> & _)]; [assumption|congruence]. Qed.
Lemma good_ext k p p' : (forall n m, p' n m = p n m) -> good k p -> good k p'.
Proof. intros E (A & B & C). split; [intros n m; rewrite !E; apply A|]. split; [intros fd n m; rewrite E; apply B|exact C]. Qed.
Lemma good_open k p n m fd : good k p -> 0 <= fd -> look fd k = None -> p n m = -1 -> good (En fd (Some (n, m)) false :: k) (setp p n m fd).
Proof.
  intros (A & B & C) F L N. split; [|split].
  - intros a b H. rewrite look_cons. cbn [e_fd]. destruct (setp_at p n m fd a b) as [E|(-> & -> & E)].
    + rewrite E in *. destruct (Z.eqb_spec fd (p a b)) as [G|G]; [|apply A, H]. pose proof (A a b H) as K. rewrite <- G, L in K. discriminate.
    + rewrite E, Z.eqb_refl. reflexivity.
  - intros x a b H. rewrite look_cons in *. cbn [e_fd] in *. destruct (Z.eqb_spec fd x) as [G|G].
    + cbn in H. injection H as <- <-. left. rewrite setp_same. exact G.
    + destruct (B x a b H) as [K|K]; [|auto]. left. destruct (setp_at p n m fd a b) as [E|(-> & -> & E)]; [congruence|]. destruct (look x k) as [e|] eqn:Q; [|discriminate]. apply C in Q. lia.
  - intros x e H. rewrite look_cons in H. cbn [e_fd] in H. destruct (Z.eqb_spec fd x); [lia|apply (C _ _ H)].
Qed.
Lemma good_release k p n m : good k p -> p n m <> -1 -> good (drop (p n m) k) (setp p n m (-1)).
Proof.
  intros (A & B & C) N. split; [|split].
  - intros a b H. rewrite look_drop. destruct (setp_at p n m (-1) a b) as [E|(-> & -> & E)]; [|congruence]. rewrite E in *.
    destruct (Z.eqb_spec (p n m) (p a b)) as [G|G]; [|apply A, H]. pose proof (A _ _ H) as K. pose proof (A _ _ N) as K'. rewrite G, K in K'. injection K' as -> ->. rewrite setp_same in E. congruence.
  - intros x a b H. rewrite look_drop in *. destruct (Z.eqb_spec (p n m) x) as [G|G]; [discriminate|]. destruct (B x a b H) as [K|K]; [|auto]. left.
    destruct (setp_at p n m (-1) a b) as [E|(-> & -> & E)]; congruence.
  - intros x e H. rewrite look_drop in H. destruct (p n m =? x); [discriminate|apply (C _ _ H)].
Qed.
Lemma good_let k p n m : good k p -> p n m = -1 \/ q_of (look (p n m) k) = true -> good k (setp p n m (-1)).
Proof.
  intros (A & B & C) N. split; [|split]; [| |exact C].
  - intros a b H. destruct (setp_at p n m (-1) a b) as [E|(-> & -> & E)]; [|congruence]. rewrite E in *. apply A, H.
  - intros x a b H. destruct (B x a b H) as [K|K]; [|auto]. destruct (setp_at p n m (-1) a b) as [E|(-> & -> & E)]; [left; congruence|].
    destruct N as [N|N]; [left; congruence|right; congruence].
Qed.
Lemma good_other k p fd : good k p -> 0 <= fd -> look fd k = None -> good (En fd None false :: k) p.
Proof.
  intros (A & B & C) F L. split; [|split].
  - intros a b H. rewrite look_cons. cbn [e_fd]. destruct (Z.eqb_spec fd (p a b)) as [G|G]; [|apply A, H]. pose proof (A a b H) as K. rewrite <- G, L in K. discriminate.
  - intros x a b H. rewrite look_cons in *. cbn [e_fd] in *. destruct (fd =? x); [discriminate|apply B, H].
  - intros x e H. rewrite look_cons in H. cbn [e_fd] in H. destruct (Z.eqb_spec fd x); [lia|apply (C _ _ H)].
Qed.
Lemma good_drop k p fd : good k p -> (forall n m, p n m <> -1 -> p n m <> fd) -> good (drop fd k) p.
Proof.
  intros (A & B & C) N. split; [|split].
  - intros a b H. rewrite look_drop. destruct (Z.eqb_spec fd (p a b)) as [G|G]; [destruct (N a b H); congruence|apply A, H].
  - intros x a b H. rewrite look_drop in *. destruct (fd =? x); [discriminate|apply B, H].
  - intros x e H. rewrite look_drop in H. destruct (fd =? x); [discriminate|apply (C _ _ H)].
Qed.
Lemma good_setq k p fd b : good k p -> (b = true \/ forall n m, own_of (look fd k) = Some (Some (n, m)) -> p n m = fd) -> good (setq fd b k) p.
Proof.
  intros (A & B & C) N. assert (O : forall x, own_of (look x (setq fd b k)) = own_of (look x k)).
  { intros x. rewrite look_setq. destruct (fd =? x); [|reflexivity]. destruct (look x k); reflexivity. }
  split; [|split].
  - intros n m H. rewrite O. apply A, H.
  - intros x n m H. rewrite O in H. rewrite look_setq. destruct (Z.eqb_spec fd x) as [<-|G]; [|apply B, H]. destruct N as [->|N]; [|left; apply N, H]. right. destruct (look fd k); [reflexivity|discriminate].
  - intros x e H. rewrite look_setq in H. destruct (fd =? x); [|apply (C _ _ H)]. destruct (look x k) eqn:G; [apply (C _ _ G)|discriminate].
Qed.

Record linv (s : st) : Prop := {
  l_good : good (ker s) (pair s);
  l_look : forall n ty pr, pcs s n = Look ty pr -> pair s n V4 = -1 /\ pair s n V6 = -1 }.
(** An event of closing is judged by what happened before. *)
Definition close_ok (e : ev) (h : list ev) : Prop :=
  match e with
  | EClose n fd => exists m, owner h fd = Some (Some (n, m))
  | EDefer n fd => queued h fd = true /\ exists m, owner h fd = Some (Some (n, m))
  | EBadf _ _ => False
  | _ => True
  end.
Lemma look_keep s s' n : (forall k, k <> n -> pcs s' k = pcs s k /\ pair s' k V4 = pair s k V4 /\ pair s' k V6 = pair s k V6) -> (forall ty pr, pcs s' n = Look ty pr -> pair s' n V4 = -1 /\ pair s' n V6 = -1) ->
  linv s -> forall k ty pr, pcs s' k = Look ty pr -> pair s' k V4 = -1 /\ pair s' k V6 = -1.
Proof.
  intros F N L k ty pr H. destruct (Nat.eq_dec k n) as [->|D]; [apply (N _ _ H)|]. destruct (F k D) as (A & B & C). rewrite A in H. rewrite B, C. apply (l_look _ L _ _ _ H).
Qed.
Ltac oth := intros ?k ?D; unfold ret, note, to, with_pair, with_ker, with_eno; cbn [pcs pair]; rewrite ?setn_other, ?setp_other by congruence; auto.
Ltac noLook := intros ?ty0 ?pr0 ?Q; unfold ret, to in Q; cbn [pcs] in Q; rewrite setn_same in Q; discriminate.

Lemma linv_step v6 s l s' : inv v6 s -> kinv s -> linv s -> allok close_ok (log s) -> lawful s l -> step v6 s l = Some s' -> linv s' /\ allok close_ok (log s').
Proof.
  intros IV KV LV AL LA H. destruct l as [n c|n|n|n r|n err|n late|n e|n m|fd|fd|fd|fd|fd|f g1 g2 o| ]; cbn [step] in H.
  - destruct (pcs s n) eqn:P; try discriminate. some H. split; [|destruct c; cbn; auto]. constructor; [destruct c; apply (l_good _ LV)|].
    destruct c as [ty pr|a4 a6| ]; (apply (look_keep s _ n); [oth| |exact LV]); [intros ty0 pr0 Q; exact LA|noLook|noLook].
  - destruct (pcs s n) eqn:P; try discriminate. some H. destruct (l_look _ LV _ _ _ P) as [A4 A6]. split; [|cbn; auto]. constructor; [|apply (look_keep s _ n); [oth|noLook|exact LV]].
    apply (good_ext _ (pair s)); [|apply (l_good _ LV)]. intros a b. unfold to, note, with_pair. cbn [pair].
    destruct (setp_at (setp (pair s) n V4 NOFD) n V6 NOFD a b) as [E|(-> & -> & E)]; rewrite E; [|auto]. destruct (setp_at (pair s) n V4 NOFD a b) as [E'|(-> & -> & E')]; rewrite E'; auto.
  - destruct (todo v6 s n); [discriminate|]. destruct (pcs s n) eqn:P; try discriminate; some H; (split; [|cbn; auto]); (constructor; [apply (l_good _ LV)|apply (look_keep s _ n); [oth|noLook|exact LV]]).
  - destruct (todo v6 s n) eqn:TD; [|discriminate]. cbn [negb] in H. pose proof (i_pc _ _ IV n) as PN. unfold sofar in PN. destruct (pcs s n) eqn:P; try discriminate; unfold open in H; (destruct r as [fd|]; [destruct (_ || _) eqn:G in H; [discriminate|]; apply look_none in G; destruct G as [G1 G2]|]); some H; (split; [|cbn; auto]); (constructor; [|apply (look_keep s _ n); [oth|noLook|exact LV]]); try apply (l_good _ LV).
    + destruct PN as (f4 & f6 & M & A4 & A6). apply good_open; auto. apply (l_good _ LV).
    + destruct PN as (f4 & f6 & a & l & M & A4 & A6). apply good_open; auto. apply (l_good _ LV).
  - destruct (todo v6 s n); [|discriminate]. cbn [negb] in H. destruct (pcs s n) eqn:P; try discriminate.
    + destruct (bind1 n V4 a4 err s) as [s1 k] eqn:B. some H. apply bind1_ker in B. destruct B as (B1 & B2 & B3 & B4). split; [|cbn; rewrite B2; cbn; auto]. constructor; [cbn; rewrite B1, B3; apply (l_good _ LV)|].
      apply (look_keep s _ n); [|noLook|exact LV]. intros j D. cbn. rewrite setn_other, B4, B3 by assumption. auto.
    + destruct (bind1 n V6 a6 err s) as [s1 k'] eqn:B. some H. apply bind1_ker in B. destruct B as (B1 & B2 & B3 & B4). split; [|cbn; rewrite B2; cbn; auto]. constructor; [cbn; rewrite B1, B3; apply (l_good _ LV)|].
      apply (look_keep s _ n); [|noLook|exact LV]. intros j D. cbn. rewrite setn_other, B4, B3 by assumption. auto.
  - destruct (todo v6 s n) eqn:TD; [|discriminate]. cbn [negb] in H. unfold todo in TD. pose proof (l_good _ LV) as GD. destruct (pcs s n) eqn:P; try discriminate; unfold close1 in H.
    + apply negb_true_iff, isbad_f in TD. pose proof (proj1 GD n V4 TD) as OW. destruct (look (pair s n V4) (ker s)) as [e|] eqn:L; [|discriminate]. destruct late; [destruct (e_q e) eqn:EQ; [|discriminate]|]; some H.
      * split; [constructor; [|apply (look_keep s _ n); [oth|noLook|exact LV]]; apply good_let; [exact GD|right; change (q_of (look (pair s n V4) (ker s)) = true); rewrite L; exact EQ]|].
        cbn. split; [|exact AL]. split; [rewrite (k_q _ KV), L; exact EQ|exists V4; rewrite (k_own _ KV), L; exact OW].
      * split; [constructor; [|apply (look_keep s _ n); [oth|noLook|exact LV]]; apply good_release; [exact GD|exact TD]|].
        cbn. split; [|exact AL]. exists V4; rewrite (k_own _ KV), L; exact OW.
    + apply andb_prop in TD. destruct TD as [_ TD]. apply negb_true_iff, isbad_f in TD. pose proof (proj1 GD n V6 TD) as OW. destruct (look (pair s n V6) (ker s)) as [e|] eqn:L; [|discriminate]. destruct late; [destruct (e_q e) eqn:EQ; [|discriminate]|]; some H.
      * split; [constructor; [|apply (look_keep s _ n); [oth|noLook|exact LV]]; apply good_let; [exact GD|right; change (q_of (look (pair s n V6) (ker s)) = true); rewrite L; exact EQ]|].
        cbn. split; [exact I|]. split; [|exact AL]. split; [rewrite (k_q _ KV), L; exact EQ|exists V6; rewrite (k_own _ KV), L; exact OW].
      * split; [constructor; [|apply (look_keep s _ n); [oth|noLook|exact LV]]; apply good_release; [exact GD|exact TD]|].
        cbn. split; [exact I|]. split; [|exact AL]. exists V6; rewrite (k_own _ KV), L; exact OW.
  - destruct (pcs s n) eqn:P; try discriminate. some H. split; [|exact AL]. constructor; [apply (l_good _ LV)|apply (l_look _ LV)].
  - destruct (pcs s n) eqn:P; try discriminate. some H. split; [|cbn; auto]. constructor.
    + apply good_let; [apply (l_good _ LV)|]. destruct LA as [LA|LA]; [auto|right]. rewrite <- (k_q _ KV). exact LA.
    + apply (look_keep s _ n); [oth| |exact LV]. intros ty pr Q. cbn in Q. congruence.
  - destruct (_ || _) eqn:G in H; [discriminate|]. apply look_none in G. destruct G as [G1 G2]. some H. split; [|cbn; auto]. constructor; [apply good_other; auto; apply (l_good _ LV)|apply (l_look _ LV)].
  - destruct (look fd (ker s)) as [[x [o|] q]|] eqn:G in H; try discriminate. some H. split; [|cbn; auto]. constructor; [|apply (l_look _ LV)]. apply good_drop; [apply (l_good _ LV)|].
    intros n m N E. change (pair s n m = fd) in E. pose proof (proj1 (l_good _ LV) n m N) as K. rewrite E, G in K. discriminate.
  - destruct (look fd (ker s)) as [e|] eqn:L in H; try discriminate. destruct (e_q e) in H; try discriminate. some H. split; [|cbn; auto]. constructor; [|apply (l_look _ LV)]. apply good_setq; [apply (l_good _ LV)|auto].
  - destruct (look fd (ker s)) as [e|] eqn:L in H; try discriminate. destruct (e_q e) eqn:EQ in H; try discriminate. some H. split; [|cbn; auto]. constructor; [|apply (l_look _ LV)]. apply good_setq; [apply (l_good _ LV)|right].
    intros n m O. destruct LA as [LA|(n' & m' & LA)]; [rewrite (k_own _ KV) in LA; congruence|]. assert (N : pair s n' m' <> -1) by (apply (k_pos _ KV) in L; lia).
    pose proof (proj1 (l_good _ LV) n' m' N) as K. rewrite LA, O in K. injection K as -> ->. exact LA.
  - destruct (look fd (ker s)) as [e|] eqn:L in H; try discriminate. destruct (e_q e) in H; try discriminate. some H. split; [|cbn; auto]. constructor; [|apply (l_look _ LV)]. apply good_drop; [apply (l_good _ LV)|]. intros n m _. apply LA.
  - some H. split; [|cbn; auto]. constructor; [apply (l_good _ LV)|apply (l_look _ LV)].
  - some H. split; [|cbn; auto]. constructor; [apply (l_good _ LV)|apply (l_look _ LV)].
Qed.
Lemma linv_reach v6 s : lreach v6 s -> linv s /\ allok close_ok (log s).
Proof.
  induction 1 as [r|s l s' R [IH1 IH2] SA LA H]; [split; [|exact I]; constructor; [split; [intros n m K; destruct (K eq_refl)|split; intros; discriminate]|intros; discriminate]|].
  pose proof (lreach_reach _ _ R) as RR. eapply linv_step; eauto; [eapply inv_reach|eapply kinv_reach]; eassumption.
Qed.
