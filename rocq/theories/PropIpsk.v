(** * C74: dual-stack socket pairs. *)
From Verif Require Import Base Route PropRoute Ipsk IpskSpec IpskInv IpskKer.
From Verif Require Arith.

(** ** What a call does *)
(** Every call of the three, in every execution, is a finished one in the sense of the specification: what it asked the system
    for, in order, what it left in the pair, what it returned, what errno is. *)
Theorem C74_call : forall v6 s l1 n r e f4 f6 l2, reach v6 s -> log s = l1 ++ ERet n r e f4 f6 :: l2 ->
  exists c e0 g4 g6 l, rev (mine n l2) = ECall n c e0 g4 g6 :: l /\ finished v6 n c e0 g4 g6 l r e f4 f6.
Proof.
  intros v6 s l1 n r e f4 f6 l2 R E. pose proof (i_ret _ _ (inv_reach _ _ R)) as K. rewrite E in K. apply allok_at in K. destruct K as (c & e0 & g4 & g6 & l & M & F).
  exists c, e0, g4, g6, l. split; [rewrite M, rev_app_distr, rev_involutive; reflexivity|exact F].
Qed.
Print Assumptions C74_call.
(** A family is tried exactly if the library last saw a default route for it; both are judged at the same moment. *)
Theorem C74_look : forall v6 s l1 n a b l2, reach v6 s -> log s = l1 ++ ELook n a b :: l2 ->
  (a = true <-> fst (known v6 l2) <> None) /\ (b = true <-> snd (known v6 l2) <> None).
Proof. intros v6 s l1 n a b l2 R E. pose proof (i_look _ _ (inv_reach _ _ R)) as K. rewrite E in K. apply allok_at in K. exact K. Qed.
Print Assumptions C74_look.
(** The result of a creation is the number of sockets the pair holds afterwards, or -1 if that is none; then nothing stays open that it opened. *)
Definition held (f4 f6 : Z) : Z := (if f4 =? -1 then 0 else 1) + (if f6 =? -1 then 0 else 1).
Lemma opens_held n m ty pr w l f k : opens n m ty pr w l f k -> k = if f =? -1 then 0 else 1.
Proof. unfold opens. intros H. destruct w; [destruct H as [(_ & -> & ->)|(_ & F & ->)]|destruct H as (_ & -> & ->)]; try reflexivity. destruct (Z.eqb_spec f (-1)); [lia|reflexivity]. Qed.
Theorem C74_created : forall v6 s l1 n r e f4 f6 l2 ty pr e0 g4 g6 l, reach v6 s -> log s = l1 ++ ERet n r e f4 f6 :: l2 -> rev (mine n l2) = ECall n (Create ty pr) e0 g4 g6 :: l ->
  r = number (held f4 f6) /\ (r = -1 -> forall m d fd t p, ~ In (EOpen n m d fd t p) l) /\
  (forall m d fd t p, In (EOpen n m d fd t p) l <-> d = af m /\ fd = match m with V4 => f4 | V6 => f6 end /\ fd <> -1 /\ t = ty /\ p = pr).
Proof.
  intros v6 s l1 n r e f4 f6 l2 ty pr e0 g4 g6 l R E M. destruct (C74_call _ _ _ _ _ _ _ _ _ R E) as (c & e1 & h4 & h6 & l' & M' & F). rewrite M in M'. injection M' as <- <- <- <- <-.
  destruct F as (a & b & l4 & l6 & k4 & k6 & -> & O4 & O6 & -> & _).
  assert (IF : forall m d fd t p, In (EOpen n m d fd t p) (ELook n a b :: l4 ++ l6) <-> d = af m /\ fd = match m with V4 => f4 | V6 => f6 end /\ fd <> -1 /\ t = ty /\ p = pr).
  { intros m d fd t p. split.
    - intros [H|H]; [discriminate|]. apply in_app_iff in H. unfold opens in O4, O6. destruct H as [H|H].
      + destruct a; [destruct O4 as [(-> & _)|(-> & F & _)]|destruct O4 as (-> & _)]; try (destruct H as [H|H]; [discriminate|destruct H]); [|destruct H].
        destruct H as [H|[]]. injection H as <- <- <- <- <-. repeat (split; [reflexivity||lia|]). reflexivity.
      + destruct b; [destruct O6 as [(-> & _)|(-> & F & _)]|destruct O6 as (-> & _)]; try (destruct H as [H|H]; [discriminate|destruct H]); [|destruct H].
        destruct H as [H|[]]. injection H as <- <- <- <- <-. repeat (split; [reflexivity||lia|]). reflexivity.
    - intros (-> & -> & N & -> & ->). right. apply in_app_iff. unfold opens in O4, O6. destruct m.
      + left. destruct a; [destruct O4 as [(_ & X & _)|(-> & _)]|destruct O4 as (_ & X & _)]; [contradiction|left; reflexivity|contradiction].
      + right. destruct b; [destruct O6 as [(_ & X & _)|(-> & _)]|destruct O6 as (_ & X & _)]; [contradiction|left; reflexivity|contradiction]. }
  rewrite (opens_held _ _ _ _ _ _ _ _ O4), (opens_held _ _ _ _ _ _ _ _ O6). split; [reflexivity|]. split; [|exact IF].
  intros Q m d fd t p H. apply IF in H. destruct H as (_ & -> & N & _). unfold number in Q. destruct m, (Z.eqb_spec f4 (-1)), (Z.eqb_spec f6 (-1)); cbn in Q; try contradiction; discriminate.
Qed.
Print Assumptions C74_created.
(** After a close the pair holds no descriptor. *)
Theorem C74_emptied : forall s l1 n r e f4 f6 l2 e0 g4 g6 l, reach true s -> log s = l1 ++ ERet n r e f4 f6 :: l2 -> rev (mine n l2) = ECall n Close e0 g4 g6 :: l ->
  f4 = -1 /\ f6 = -1 /\ e = e0.
Proof.
  intros s l1 n r e f4 f6 l2 e0 g4 g6 l R E M. destruct (C74_call _ _ _ _ _ _ _ _ _ R E) as (c & e1 & h4 & h6 & l' & M' & F). rewrite M in M'. injection M' as <- <- <- <- <-.
  destruct F as (l4 & l6 & -> & C4 & C6 & ->). assert (K : forall f l f', closes n true f l f' -> f' = -1).
  { intros f l f' [(_ & _ & _ & K)|(N & _ & ->)]; [exact K|]. destruct (Z.eq_dec f (-1)); [assumption|]. destruct N. auto. }
  split; [apply (K _ _ _ C4)|]. split; [apply (K _ _ _ C6)|reflexivity].
Qed.
Print Assumptions C74_emptied.

(** ** Descriptors, in correct use *)
(** What a pair holds is an open socket, made for this member of this pair. *)
Theorem C74_holds : forall v6 s n m, lreach v6 s -> pair s n m <> -1 -> owner (log s) (pair s n m) = Some (Some (n, m)).
Proof. intros v6 s n m R H. destruct (linv_reach _ _ R) as [LV _]. rewrite (k_own _ (kinv_reach _ _ (lreach_reach _ _ R))). apply (proj1 (l_good _ LV)), H. Qed.
Print Assumptions C74_holds.
(** No leak: an open socket made for a pair is held by it, or by a queue. *)
Theorem C74_no_leak : forall v6 s fd n m, lreach v6 s -> owner (log s) fd = Some (Some (n, m)) -> pair s n m = fd \/ queued (log s) fd = true.
Proof.
  intros v6 s fd n m R H. destruct (linv_reach _ _ R) as [LV _]. pose proof (kinv_reach _ _ (lreach_reach _ _ R)) as KV. rewrite (k_own _ KV) in H. rewrite (k_q _ KV).
  apply (proj1 (proj2 (l_good _ LV))), H.
Qed.
Print Assumptions C74_no_leak.
(** A close closes an open socket made for the pair, never anything else, never one that is closed already. *)
Theorem C74_own_only : forall v6 s l1 n fd l2, lreach v6 s -> log s = l1 ++ EClose n fd :: l2 -> exists m, owner l2 fd = Some (Some (n, m)).
Proof. intros v6 s l1 n fd l2 R E. destruct (linv_reach _ _ R) as [_ K]. rewrite E in K. apply allok_at in K. exact K. Qed.
Print Assumptions C74_own_only.
Theorem C74_left_to_queue : forall v6 s l1 n fd l2, lreach v6 s -> log s = l1 ++ EDefer n fd :: l2 -> queued l2 fd = true.
Proof. intros v6 s l1 n fd l2 R E. destruct (linv_reach _ _ R) as [_ K]. rewrite E in K. apply allok_at in K. apply K. Qed.
Print Assumptions C74_left_to_queue.
Theorem C74_no_bad_close : forall v6 s n fd, lreach v6 s -> ~ In (EBadf n fd) (log s).
Proof. intros v6 s n fd R H. destruct (linv_reach _ _ R) as [_ K]. apply in_split in H. destruct H as (l1 & l2 & E). rewrite E in K. apply allok_at in K. exact K. Qed.
Print Assumptions C74_no_bad_close.
(** Two pairs never hold the same descriptor. *)
Theorem C74_apart : forall v6 s n m n' m', lreach v6 s -> pair s n m <> -1 -> pair s n m = pair s n' m' -> n = n' /\ m = m'.
Proof.
  intros v6 s n m n' m' R H E. pose proof (C74_holds _ _ _ _ R H) as A. assert (H' : pair s n' m' <> -1) by congruence. pose proof (C74_holds _ _ _ _ R H') as B. rewrite E, B in A. injection A as <- <-. auto.
Qed.
Print Assumptions C74_apart.

(** ** What the code does otherwise *)
Definition run (v6 : bool) : list label -> st -> option st := fix go ls s := match ls with [] => Some s | l :: r => match step v6 s l with Some s' => go r s' | None => None end end.
Lemma run_reach v6 ls : forall s s', reach v6 s -> Forall sane ls -> run v6 ls s = Some s' -> reach v6 s'.
Proof.
  induction ls as [|l ls IH]; intros s s' R F H; [cbn in H; some H; exact R|]. cbn in H. destruct (step v6 s l) as [s1|] eqn:E; [|discriminate].
  inversion F; subst. apply (IH s1 s'); auto. econstructor; eauto.
Qed.
Definition r0 : rst := route_clear {| rts0 := init_def_rt; rts1 := init_def_rt; lastv := init_def_rt; curr := false |}.
Lemma real46 : real o46. Proof. intros x [H|H]; cbn in H; injection H as <-; cbn; lia. Qed.
Ltac san := repeat (apply Forall_cons; [first [exact real46|exact I]|]); apply Forall_nil.
Ltac reached := match goal with |- reach ?v (match run _ ?ls ?s with Some _ => _ | None => _ end) => apply (run_reach v ls s); [constructor|san|vm_compute; reflexivity] end.
Definition end_of (ls : list label) : st := match run true ls (init r0) with Some s => s | None => init r0 end.
Lemma end_reach ls : Forall sane ls -> run true ls (init r0) <> None -> reach true (end_of ls).
Proof. intros F H. unfold end_of. destruct (run true ls (init r0)) as [s|] eqn:E; [|congruence]. apply (run_reach true ls (init r0)); auto. constructor. Qed.

(** The header promises 0 for success; a creation or a binding never returns 0. *)
Theorem C74_zero_refuted :
  (forall v6 s l1 n r e f4 f6 l2 c e0 g4 g6 l, reach v6 s -> log s = l1 ++ ERet n r e f4 f6 :: l2 -> rev (mine n l2) = ECall n c e0 g4 g6 :: l -> c <> Close -> r <> 0) /\
  exists s e0 l2 e f4 f6, reach true s /\ log s = ERet 0 2 e f4 f6 :: l2 /\ exists l, rev (mine 0 l2) = ECall 0%nat (Create 1 0) e0 (-1) (-1) :: l /\ f4 <> -1 /\ f6 <> -1.
Proof.
  split.
  - intros v6 s l1 n r e f4 f6 l2 c e0 g4 g6 l R E M N. destruct (C74_call _ _ _ _ _ _ _ _ _ R E) as (c' & e1 & h4 & h6 & l' & M' & F). rewrite M in M'. injection M' as <- <- <- <- <-.
    assert (K : forall k, number k <> 0) by (intros k; unfold number; destruct (Z.eqb_spec k 0); lia).
    destruct c as [ty pr|a4 a6| ]; [|..|congruence].
    + destruct F as (a & b & l4 & l6 & k4 & k6 & _ & _ & _ & -> & _). apply K.
    + destruct F as (l4 & l6 & e1 & k4 & k6 & _ & _ & _ & -> & _). apply K.
  - exists (end_of [LRefresh false init_def_rt init_def_rt o46; LCall 0 (Create 1 0); LLook 0; LSock 0 (Some 5); LSock 0 (Some 6)]). do 5 eexists.
    split; [apply end_reach; [san|vm_compute; discriminate]|]. split; [vm_compute; reflexivity|]. eexists. split; [vm_compute; reflexivity|]. split; discriminate.
Qed.
Print Assumptions C74_zero_refuted.
(** A creation never sets errno, so after a failure it tells nothing; a binding that binds nothing because nothing matches does
    not either, and one that succeeds for one family may leave an errno. *)
Theorem C74_errno_refuted :
  (forall v6 s l1 n r e f4 f6 l2 ty pr e0 g4 g6 l, reach v6 s -> log s = l1 ++ ERet n r e f4 f6 :: l2 -> rev (mine n l2) = ECall n (Create ty pr) e0 g4 g6 :: l -> e = e0) /\
  (exists s e l2, reach true s /\ log s = ERet 0 (-1) e (-1) (-1) :: l2 /\ e = 0) /\
  (exists s e l2 f4 f6 a4 a6 l, reach true s /\ log s = ERet 0 1 e f4 f6 :: l2 /\ rev (mine 0 l2) = ECall 0%nat (Bind a4 a6) 0 f4 f6 :: l /\ e <> 0).
Proof.
  split; [|split].
  - intros v6 s l1 n r e f4 f6 l2 ty pr e0 g4 g6 l R E M. destruct (C74_call _ _ _ _ _ _ _ _ _ R E) as (c' & e1 & h4 & h6 & l' & M' & F). rewrite M in M'. injection M' as <- <- <- <- <-.
    destruct F as (a & b & l4 & l6 & k4 & k6 & _ & _ & _ & _ & F). exact F.
  - exists (end_of [LRefresh false init_def_rt init_def_rt o46; LCall 0 (Create 1 0); LLook 0; LSock 0 None; LSock 0 None]). do 2 eexists.
    split; [apply end_reach; [san|vm_compute; discriminate]|]. split; [vm_compute; reflexivity|reflexivity].
  - exists (end_of [LRefresh false init_def_rt init_def_rt o46; LCall 0 (Create 1 0); LLook 0; LSock 0 (Some 5); LSock 0 (Some 6); LCall 0 (Bind (2, []) (10, [])); LBind 0 (-1); LBind 0 0]). do 7 eexists.
    split; [apply end_reach; [san|vm_compute; discriminate]|]. split; [vm_compute; reflexivity|]. split; [vm_compute; reflexivity|discriminate].
Qed.
Print Assumptions C74_errno_refuted.
(** Without a subscriber to network events nothing is ever created, whatever the network is: the cache of routes stays empty. *)
Theorem C74_unsubscribed_refuted : forall v6 s l1 n r e f4 f6 l2 ty pr e0 g4 g6 l, reach v6 s -> (forall o, ~ In (ERefresh o) (log s)) ->
  log s = l1 ++ ERet n r e f4 f6 :: l2 -> rev (mine n l2) = ECall n (Create ty pr) e0 g4 g6 :: l -> r = -1 /\ f4 = -1 /\ f6 = -1.
Proof.
  intros v6 s l1 n r e f4 f6 l2 ty pr e0 g4 g6 l R N E M. destruct (C74_call _ _ _ _ _ _ _ _ _ R E) as (c' & e1 & h4 & h6 & l' & M' & F). rewrite M in M'. injection M' as <- <- <- <- <-.
  destruct F as (a & b & l4 & l6 & k4 & k6 & EL & O4 & O6 & -> & _).
  assert (MI : forall x h, In x (mine n h) -> In x h). { clear. intros x h. induction h as [|y h IH]; cbn; [auto|]. destruct (is_by n y); [|auto]. destruct y; cbn; intuition. }
  assert (IL : In (ELook n a b) l2) by (apply MI, in_rev; rewrite M, EL; right; left; reflexivity).
  apply in_split in IL. destruct IL as (m1 & m2 & EM). assert (EL' : log s = (l1 ++ ERet n (number (k4 + k6)) e f4 f6 :: m1) ++ ELook n a b :: m2) by (rewrite E, EM, <- app_assoc; reflexivity).
  destruct (C74_look _ _ _ _ _ _ _ R EL') as [A B].
  assert (KN : known v6 m2 = down). { assert (Q : forall o, ~ In (ERefresh o) m2) by (intros o H; apply (N o); rewrite EL'; apply in_app_iff; right; right; exact H). clear - Q. induction m2 as [|x m2 IH]; [reflexivity|].
    assert (IH' : known v6 m2 = down) by (apply IH; intros o H; apply (Q o); right; exact H). destruct x; try exact IH'; try reflexivity. destruct (Q o). left. reflexivity. }
  rewrite KN in A, B. cbn in A, B. destruct a; [destruct (proj1 A eq_refl eq_refl)|]. destruct b; [destruct (proj1 B eq_refl eq_refl)|].
  destruct O4 as (_ & -> & ->), O6 as (_ & -> & ->). auto.
Qed.
Print Assumptions C74_unsubscribed_refuted.
(** A socket that its queue closed (the peer hung up) while the pair still names it: closing the pair closes whatever has the number by now. *)
Theorem C74_stale_refuted : exists s l2, reach true s /\ log s = EClose 0 5 :: l2 /\ owner l2 5 = Some None.
Proof.
  exists (end_of [LRefresh false init_def_rt init_def_rt o46; LCall 0 (Create 1 0); LLook 0; LSock 0 (Some 5); LSock 0 None; LAdd 5; LQclose 5; LOther 5; LCall 0 Close; LClose 0 false]). eexists.
  split; [apply end_reach; [san|vm_compute; discriminate]|]. split; vm_compute; reflexivity.
Qed.
Print Assumptions C74_stale_refuted.
(** A creation into a pair that holds sockets loses them. *)
Theorem C74_again_refuted : exists s, reach true s /\ owner (log s) 5 = Some (Some (0%nat, V4)) /\ queued (log s) 5 = false /\ forall n m, pair s n m <> 5.
Proof.
  exists (end_of [LRefresh false init_def_rt init_def_rt o46; LCall 0 (Create 1 0); LLook 0; LSock 0 (Some 5); LSock 0 None; LCall 0 (Create 1 0); LLook 0; LSock 0 (Some 7); LSock 0 None]).
  split; [apply end_reach; [san|vm_compute; discriminate]|]. split; [vm_compute; reflexivity|]. split; [vm_compute; reflexivity|].
  intros n m. destruct n as [|n]; [destruct m; vm_compute; discriminate|]. destruct m; vm_compute; discriminate.
Qed.
Print Assumptions C74_again_refuted.

(** ** A correct execution with a queue that ends, a refresh, another program's descriptors *)
Fixpoint lrun (ls : list label) (s : st) : Prop := match ls with [] => True | l :: r => sane l /\ lawful s l /\ match step true s l with Some s' => lrun r s' | None => False end end.
Lemma lrun_reach ls : forall s, lreach true s -> lrun ls s -> exists s', run true ls s = Some s' /\ lreach true s'.
Proof.
  induction ls as [|l ls IH]; intros s R H; [exists s; split; [reflexivity|exact R]|]. cbn in H. destruct H as (A & B & H). cbn. destruct (step true s l) as [s1|] eqn:E; [|destruct H].
  apply IH; [|exact H]. econstructor; eauto.
Qed.
Definition good_use : list label :=
  [LRefresh false init_def_rt init_def_rt o46; LOther 3; LCall 0 (Create 1 0); LLook 0; LSock 0 (Some 5); LSock 0 (Some 6); LCall 0 (Bind (2, [1]) (0, [])); LBind 0 0; LSkip 0; LAdd 5;
   LClear; LCall 1 (Create 2 17); LLook 1; LSkip 1; LSkip 1; LCall 0 Close; LClose 0 true; LClose 0 false; LQclose 5; LOther 5; LCall 0 Close; LSkip 0; LSkip 0].
Example C74_good_use : lrun good_use (init r0).
Proof.
  unfold good_use. cbn [lrun]. repeat match goal with |- _ /\ _ => split | |- sane _ => first [exact I|exact real46] | |- lawful _ (LQclose _) => intros n m; destruct n as [|[|n]], m; vm_compute; discriminate
    | |- lawful _ _ => first [exact I|split; vm_compute; reflexivity] | |- True => exact I | |- match step true ?s ?l with _ => _ end => let x := eval vm_compute in (step true s l) in change (step true s l) with x; cbv beta iota end.
Qed.
