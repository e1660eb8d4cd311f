(** * C38: socket addresses between IPv4 and IPv6 *)
From Verif Require Import Base Ipv6.
Ltac Zify.zify_post_hook ::= Z.div_mod_to_equations.

(** ** Specification: socket addresses by their fields. *)
Definition bytes (n : nat) (l : list Z) : Prop := length l = n /\ Forall (fun b => 0 <= b <= 255) l.
(** [m] is the memory of an IPv4 socket address with the port bytes [port] and the address bytes [a]; the other 20 bytes are [rest]. *)
Definition sa4 (m port a rest : list Z) : Prop := m = [2; 0] ++ port ++ a ++ rest /\ bytes 2 port /\ bytes 4 a /\ bytes 20 rest.
(** An IPv6 one with the flow information, address and scope bytes. *)
Definition sa6 (m port flow a scope : list Z) : Prop := m = [10; 0] ++ port ++ flow ++ a ++ scope /\ bytes 2 port /\ bytes 4 flow /\ bytes 16 a /\ bytes 4 scope.
Definition mapped96 : list Z := [0; 0; 0; 0; 0; 0; 0; 0; 0; 0; 255; 255].
Definition nat96 : list Z := [0; 100; 255; 155; 0; 0; 0; 0; 0; 0; 0; 0].
(** The prefix that a queue uses to make IPv6 addresses. *)
Definition use (p : prefix) : list Z := match p with Some b => b | None => nat96 end.
Definition pfx_ok (p : prefix) : Prop := match p with Some b => bytes 12 b | None => True end.

(** ** Lemmas *)
Lemma le4 a b c d : 0 <= a <= 255 -> 0 <= b <= 255 -> 0 <= c <= 255 -> 0 <= d <= 255 -> forall n, 0 <= n -> (le [a; b; c; d] = n <-> a = n mod 256 /\ b = n / 256 mod 256 /\ c = n / 65536 mod 256 /\ d = n / 16777216).
Proof. intros A B C D n N. cbn [le]. lia. Qed.
Lemma bytes_inv n x l : bytes (S n) (x :: l) -> 0 <= x <= 255 /\ bytes n l.
Proof. intros [L F]. inversion F; subst. split; [assumption|split; [cbn in L; lia|assumption]]. Qed.
Lemma bytes_nil n : ~ bytes (S n) []. Proof. intros [L _]. discriminate. Qed.
Ltac explode H := repeat match type of H with
  | bytes (S _) ?l => destruct l as [|? l]; [exfalso; exact (bytes_nil _ H)|let B := fresh "B" in apply bytes_inv in H; destruct H as [B H]]
  | bytes O ?l => destruct l; [clear H|exfalso; destruct H as [H _]; discriminate H]
  end.
Lemma v4mapped_iff a : bytes 16 a -> v4mapped a = true <-> firstn 12 a = mapped96.
Proof.
  intros H. explode H. unfold v4mapped, w32, slice. cbn [Nat.mul Nat.add skipn firstn]. rewrite Z.eqb_eq, !Z.lor_eq_0_iff, Z.lxor_eq_0_iff. change (be32 65535) with 4294901760. rewrite !le4 by (assumption || lia). unfold mapped96.
  split.
  - intros [[A B'] C']. cbn in A, B', C'. decompose [and] A. decompose [and] B'. decompose [and] C'. subst. reflexivity.
  - intros [= -> -> -> -> -> -> -> -> -> -> -> ->]. cbn. intuition.
Qed.
Lemma nat64_iff a : bytes 16 a -> nat64 a = true <-> firstn 12 a = nat96.
Proof.
  intros H. explode H. unfold nat64, w32, slice. cbn [Nat.mul Nat.add skipn firstn]. rewrite Z.eqb_eq, !Z.lor_eq_0_iff, Z.lxor_eq_0_iff. change (be32 6619035) with 2617205760. rewrite !le4 by (assumption || lia). unfold nat96.
  split.
  - intros [[A B'] C']. cbn in A, B', C'. decompose [and] A. decompose [and] B'. decompose [and] C'. subst. reflexivity.
  - intros [= -> -> -> -> -> -> -> -> -> -> -> ->]. cbn. intuition.
Qed.
Lemma mem_eq_iff a b n : mem_eq a b n = true <-> firstn n a = firstn n b.
Proof. unfold mem_eq. destruct (list_eq_dec _ _ _); intuition discriminate. Qed.
Lemma bytes_firstn n l : bytes n l -> firstn n l = l. Proof. intros [L _]. rewrite <- L. apply firstn_all. Qed.
Lemma compat_iff p a : bytes 16 a -> pfx_ok p -> v4_compatible p a = true <-> firstn 12 a = mapped96 \/ firstn 12 a = nat96 \/ p = Some (firstn 12 a).
Proof.
  intros H P. unfold v4_compatible. destruct p as [b|].
  - cbn in P. unfold prefix_equal96. destruct (mem_eq a b 12) eqn:E.
    + apply mem_eq_iff in E. rewrite (bytes_firstn 12 b P) in E. split; [|auto]. intros _. right. right. congruence.
    + rewrite orb_true_iff, v4mapped_iff, nat64_iff by assumption. split; [intuition|]. intros [A|[A|A]]; auto. assert (b = firstn 12 a) by congruence. subst b. exfalso. assert (mem_eq a (firstn 12 a) 12 = true) by (apply mem_eq_iff; rewrite firstn_firstn; reflexivity). congruence.
  - rewrite orb_true_iff, v4mapped_iff, nat64_iff by assumption. intuition discriminate.
Qed.

Ltac byt := split; [reflexivity|repeat (apply Forall_cons; [first [assumption | lia]|]); apply Forall_nil].
(** ** Theorems *)
(** From IPv4 to IPv6: the same port, the queue's prefix (NAT64 if there is none) followed by the IPv4 address, no flow information and no scope. *)
Theorem C38_from_ipv4 p junk m port a rest : pfx_ok p -> length junk = 28%nat -> sa4 m port a rest -> sa6 (from_ipv4 p junk m) port [0; 0; 0; 0] (use p ++ a) [0; 0; 0; 0].
Proof.
  intros P J (-> & HP & HA & HR). assert (E0 : store junk 0 (repeat 0 28) = repeat 0 28) by (unfold store; rewrite skipn_all2 by (rewrite repeat_length; lia); reflexivity). unfold from_ipv4. rewrite E0.
  explode HP. explode HA. split; [|split; [byt|split; [byt|split; [|byt]]]].
  - destruct p as [b|]; [|reflexivity]. cbn in P. explode P. reflexivity.
  - destruct p as [b|]; [cbn in P; explode P|]; cbn [use]; unfold nat96; cbn [app]; byt.
Qed.

(** From IPv6 to IPv4: exactly the mapped addresses, the NAT64 addresses and those with the queue's prefix, to the last four bytes with the same port and zeros behind; every other address is refused and the destination left alone. *)
Theorem C38_to_ipv4 p dst m port flow a scope : pfx_ok p -> length dst = 28%nat -> sa6 m port flow a scope ->
  (firstn 12 a = mapped96 \/ firstn 12 a = nat96 \/ p = Some (firstn 12 a) -> to_ipv4 p dst m = (0, [2; 0] ++ port ++ skipn 12 a ++ repeat 0 8 ++ skipn 16 dst))
  /\ (~ (firstn 12 a = mapped96 \/ firstn 12 a = nat96 \/ p = Some (firstn 12 a)) -> to_ipv4 p dst m = (-1, dst)).
Proof.
  intros P J (-> & HP & HF & HA & HS). pose proof (compat_iff p a HA P) as C.
  assert (S16 : slice ([10; 0] ++ port ++ flow ++ a ++ scope) 8 16 = a) by (explode HP; explode HF; explode HA; explode HS; reflexivity).
  assert (FM : family ([10; 0] ++ port ++ flow ++ a ++ scope) = 10) by (explode HP; reflexivity).
  assert (SC : sk_compatible p ([10; 0] ++ port ++ flow ++ a ++ scope) = v4_compatible p a) by (unfold sk_compatible; rewrite FM, S16; reflexivity).
  unfold to_ipv4. rewrite SC. split; intros H.
  - apply C in H. rewrite H. cbn [negb]. f_equal. explode HP. explode HF. explode HA. explode HS. do 28 (destruct dst as [|? dst]; [discriminate J|]). destruct dst; [|discriminate J]. reflexivity.
  - destruct (v4_compatible p a); [exfalso; apply H, C; reflexivity|reflexivity].
Qed.

(** There and back on a queue whose prefix is the same at both times: the address and port again. *)
Theorem C38_roundtrip p j1 j2 m port a rest : pfx_ok p -> length j1 = 28%nat -> length j2 = 28%nat -> sa4 m port a rest ->
  to_ipv4 p j2 (from_ipv4 p j1 m) = (0, [2; 0] ++ port ++ a ++ repeat 0 8 ++ skipn 16 j2).
Proof.
  intros P J1 J2 S. pose proof (C38_from_ipv4 p j1 m port a rest P J1 S) as S6. pose proof (proj1 (C38_to_ipv4 p j2 _ _ _ _ _ P J2 S6)) as T. rewrite T.
  - do 3 f_equal. destruct p as [b|]; [cbn in P; explode P|]; destruct S as (_ & _ & HA & _); explode HA; reflexivity.
  - destruct p as [b|]; [right; right; cbn in P; explode P; reflexivity|right; left; reflexivity].
Qed.
(** Without a prefix when the IPv6 address is made, the way back works on every queue, whatever its prefix. *)
Theorem C38_nat64_roundtrip p j1 j2 m port a rest : pfx_ok p -> length j1 = 28%nat -> length j2 = 28%nat -> sa4 m port a rest ->
  to_ipv4 p j2 (from_ipv4 None j1 m) = (0, [2; 0] ++ port ++ a ++ repeat 0 8 ++ skipn 16 j2).
Proof.
  intros P J1 J2 S. pose proof (C38_from_ipv4 None j1 m port a rest Logic.I J1 S) as S6. pose proof (proj1 (C38_to_ipv4 p j2 _ _ _ _ _ P J2 S6)) as T. rewrite T by (right; left; reflexivity).
  do 3 f_equal. 
Qed.
(** An IPv6 address that is translatable and was made with the queue's own prefix comes back from IPv4 as itself. *)
Theorem C38_back_and_forth p j1 j2 m port a : pfx_ok p -> length j1 = 28%nat -> length j2 = 28%nat -> bytes 28 j2 -> sa6 m port [0; 0; 0; 0] a [0; 0; 0; 0] -> firstn 12 a = use p -> from_ipv4 p j1 (snd (to_ipv4 p j2 m)) = m.
Proof.
  intros P J1 J2 B2 S U. pose proof (proj1 (C38_to_ipv4 p j2 _ _ _ _ _ P J2 S)) as T. rewrite T by (destruct p; [right; right; f_equal; exact (eq_sym U)|right; left; exact U]). cbn [snd].
  destruct S as (-> & HP & HF & HA & HS).
  assert (S4 : sa4 ([2; 0] ++ port ++ skipn 12 a ++ repeat 0 8 ++ skipn 16 j2) port (skipn 12 a) (repeat 0 8 ++ skipn 16 j2)).
  { split; [reflexivity|]. split; [exact HP|]. destruct HA as [LA FA], B2 as [L2 F2]. split; split.
    - rewrite skipn_length. lia.
    - rewrite <- (firstn_skipn 12 a) in FA. apply Forall_app in FA as [_ FA]. exact FA.
    - rewrite app_length, skipn_length, repeat_length. lia.
    - apply Forall_app. split; [cbn [repeat]; repeat (apply Forall_cons; [lia|]); apply Forall_nil|]. rewrite <- (firstn_skipn 16 j2) in F2. apply Forall_app in F2 as [_ F2]. exact F2. }
  destruct (C38_from_ipv4 p j1 _ _ _ _ P J1 S4) as (E & _). rewrite E, <- U, firstn_skipn. reflexivity.
Qed.

(** The prefix after any history of settings since the queue was made: of those since the last clearing, the last one that is neither mapped nor NAT64 and for which memory was there when it was needed. *)
Definition keep (x : option (list Z)) : Prop := match x with Some a => firstn 12 a <> mapped96 /\ firstn 12 a <> nat96 | None => True end.
Definition hist_ok (h : list (option (list Z) * bool)) : Prop := Forall (fun x => match fst x with Some a => bytes 16 a | None => True end) h.
Lemma set_prefix_keep p a mem : bytes 16 a -> keep (Some a) -> mem = true \/ p <> None -> set_prefix p (Some a) mem = Some (firstn 12 a).
Proof.
  intros B [K1 K2] M. unfold set_prefix. assert (E : v4mapped a || nat64 a = false) by (apply orb_false_iff; split; [destruct (v4mapped a) eqn:E; [apply v4mapped_iff in E; [contradiction|exact B]|reflexivity]|destruct (nat64 a) eqn:E; [apply nat64_iff in E; [contradiction|exact B]|reflexivity]]).
  rewrite E. cbn [negb]. destruct p; [reflexivity|]. destruct mem; [reflexivity|]. destruct M; [discriminate|congruence].
Qed.
Lemma set_prefix_skip p a mem : bytes 16 a -> ~ keep (Some a) -> set_prefix p (Some a) mem = p.
Proof.
  intros B K. unfold set_prefix. assert (E : v4mapped a || nat64 a = true).
  { destruct (v4mapped a) eqn:E1; [reflexivity|]. destruct (nat64 a) eqn:E2; [reflexivity|]. exfalso. apply K. split; intros H; [apply (v4mapped_iff a B) in H|apply (nat64_iff a B) in H]; congruence. }
  rewrite E. reflexivity.
Qed.
Definition run (h : list (option (list Z) * bool)) : prefix := fold_left (fun p x => set_prefix p (fst x) (snd x)) h None.
Lemma run_snoc h x : run (h ++ [x]) = set_prefix (run h) (fst x) (snd x). Proof. unfold run. rewrite fold_left_app. reflexivity. Qed.
Theorem C38_prefix_last h1 a h2 : hist_ok (h1 ++ (Some a, true) :: h2) -> keep (Some a) -> Forall (fun x => match fst x with Some b => ~ keep (Some b) | None => False end) h2 -> run (h1 ++ (Some a, true) :: h2) = Some (firstn 12 a).
Proof.
  intros H K F. induction h2 as [|x h2 IH] using rev_ind.
  - rewrite run_snoc. apply Forall_app in H as [_ H]. inversion H; subst. apply set_prefix_keep; auto.
  - apply Forall_app in F as [F Fx]. inversion Fx as [|? ? Kx _]; subst. rewrite app_comm_cons, app_assoc in H |- *. apply Forall_app in H as [H Hx]. inversion Hx as [|? ? Bx _]; subst. rewrite run_snoc, (IH H F). destruct x as [[b|] mem]; [|contradiction]. apply set_prefix_skip; assumption.
Qed.
Theorem C38_prefix_cleared h1 h2 mem : hist_ok (h1 ++ (None, mem) :: h2) -> Forall (fun x => match fst x with Some b => ~ keep (Some b) | None => True end) h2 -> run (h1 ++ (None, mem) :: h2) = None.
Proof.
  intros H F. induction h2 as [|x h2 IH] using rev_ind; [rewrite run_snoc; reflexivity|].
  apply Forall_app in F as [F Fx]. inversion Fx as [|? ? Kx _]; subst. rewrite app_comm_cons, app_assoc in H |- *. apply Forall_app in H as [H Hx]. inversion Hx as [|? ? Bx _]; subst. rewrite run_snoc, (IH H F). destruct x as [[b|] m]; [apply set_prefix_skip; assumption|reflexivity].
Qed.

(** connect and sendto on a pair of sockets: the address handed to a socket is of that socket's family and stands for the destination; refused exactly when there is no socket or no translation. *)
Theorem C38_select p v4 v6 junk m : pfx_ok p -> length junk = 28%nat ->
  (forall port a rest, sa4 m port a rest ->
     match select p v4 v6 m junk with
     | Some (fd, d) => fd = v4 /\ v4 <> -1 /\ d = m \/ fd = v6 /\ v4 = -1 /\ v6 <> -1 /\ sa6 d port [0; 0; 0; 0] (use p ++ a) [0; 0; 0; 0]
     | None => v4 = -1 /\ v6 = -1
     end)
  /\ (forall port flow a scope, sa6 m port flow a scope ->
     match select p v4 v6 m junk with
     | Some (fd, d) => fd = v6 /\ v6 <> -1 /\ d = m \/ fd = v4 /\ v6 = -1 /\ v4 <> -1 /\ d = [2; 0] ++ port ++ skipn 12 a ++ repeat 0 8 ++ skipn 16 junk /\ (firstn 12 a = mapped96 \/ firstn 12 a = nat96 \/ p = Some (firstn 12 a))
     | None => v6 = -1 /\ (v4 = -1 \/ ~ (firstn 12 a = mapped96 \/ firstn 12 a = nat96 \/ p = Some (firstn 12 a)))
     end).
Proof.
  intros P J. split.
  - intros port a rest S. assert (F : family m = 2) by (destruct S as (-> & HP & _); explode HP; reflexivity). unfold select, bad. rewrite F. change (2 =? AF_INET) with true. cbn iota. destruct (Z.eqb_spec v4 (-1)); cbn [negb]; [|left; auto]. destruct (Z.eqb_spec v6 (-1)); cbn [negb]; [auto|]. right. split; [reflexivity|]. split; [assumption|]. split; [assumption|]. apply (C38_from_ipv4 p junk m port a rest P J S).
  - intros port flow a scope S. assert (F : family m = 10) by (destruct S as (-> & HP & _); explode HP; reflexivity). unfold select, bad. rewrite F. change (10 =? AF_INET) with false. change (10 =? AF_INET6) with true. cbn iota. destruct (Z.eqb_spec v6 (-1)); cbn [negb]; [|left; auto]. destruct (Z.eqb_spec v4 (-1)); cbn [negb]; [auto|].
    destruct (C38_to_ipv4 p junk m port flow a scope P J S) as [T1 T2]. assert (C : bytes 16 a) by (destruct S as (_ & _ & _ & C & _); exact C). pose proof (compat_iff p a C P) as CI. destruct (v4_compatible p a).
    + pose proof (proj1 CI eq_refl) as D. rewrite (T1 D). change (0 <? 0) with false. cbn iota. right. repeat split; auto; lia.
    + assert (D : ~ (firstn 12 a = mapped96 \/ firstn 12 a = nat96 \/ p = Some (firstn 12 a))) by (intros D; apply CI in D; discriminate). rewrite (T2 D). change (-1 <? 0) with true. cbn iota. auto.
Qed.

(** Comparing addresses: equal exactly when the families are and the address bytes are; ports do not matter. *)
Theorem C38_ip_equal_4 m port a rest m' port' a' rest' : sa4 m port a rest -> sa4 m' port' a' rest' -> ip_equal m m' = true <-> a = a'.
Proof.
  intros (-> & HP & HA & HR) (-> & HP' & HA' & HR').
  assert (S1 : slice ([2; 0] ++ port ++ a ++ rest) 4 4 = a) by (explode HP; explode HA; reflexivity).
  assert (S2 : slice ([2; 0] ++ port' ++ a' ++ rest') 4 4 = a') by (explode HP'; explode HA'; reflexivity).
  unfold ip_equal. rewrite S1, S2. replace (family ([2; 0] ++ port ++ a ++ rest)) with 2 by (explode HP; reflexivity). replace (family ([2; 0] ++ port' ++ a' ++ rest')) with 2 by (explode HP'; reflexivity). change (2 =? 2) with true. cbn [negb]. change (2 =? 0) with false. change (2 =? AF_INET) with true. cbn iota.
  rewrite Z.eqb_eq. split; [|intros ->; reflexivity]. clear S1 S2. explode HA. explode HA'. cbn [le]. intros E. repeat f_equal; lia.
Qed.
Theorem C38_ip_equal_6 m port f a s m' port' f' a' s' : sa6 m port f a s -> sa6 m' port' f' a' s' -> ip_equal m m' = true <-> a = a'.
Proof.
  intros (-> & HP & HF & HA & HR) (-> & HP' & HF' & HA' & HR'). pose proof (bytes_firstn _ _ HA) as E1. pose proof (bytes_firstn _ _ HA') as E2.
  assert (S1 : slice ([10; 0] ++ port ++ f ++ a ++ s) 8 16 = a) by (explode HP; explode HF; explode HA; explode HR; reflexivity).
  assert (S2 : slice ([10; 0] ++ port' ++ f' ++ a' ++ s') 8 16 = a') by (explode HP'; explode HF'; explode HA'; explode HR'; reflexivity).
  unfold ip_equal. rewrite S1, S2. replace (family ([10; 0] ++ port ++ f ++ a ++ s)) with 10 by (explode HP; reflexivity). replace (family ([10; 0] ++ port' ++ f' ++ a' ++ s')) with 10 by (explode HP'; reflexivity). change (10 =? 10) with true. cbn [negb]. change (10 =? 0) with false. change (10 =? AF_INET) with false. change (10 =? AF_INET6) with true. cbn iota.
  rewrite mem_eq_iff, E1, E2. reflexivity.
Qed.
Theorem C38_ip_equal_mixed m port a rest m' port' f' a' s' : sa4 m port a rest -> sa6 m' port' f' a' s' -> ip_equal m m' = false.
Proof. intros (-> & HP & _) (-> & HP' & _). explode HP. explode HP'. reflexivity. Qed.

(** Findings.  An IPv4 source is taken as translatable, but the address is read from where an IPv6 one would have it: 1.2.3.4 becomes 9.9.9.9 (bytes 20 to 23 of its memory). *)
Theorem C38_v4_source_misread : exists m dst, sa4 m [0; 80] [1; 2; 3; 4] (repeat 9 20) /\ to_ipv4 None dst m = (0, [2; 0; 0; 80; 9; 9; 9; 9] ++ repeat 0 20).
Proof. exists ([2; 0] ++ [0; 80] ++ [1; 2; 3; 4] ++ repeat 9 20), (repeat 0 28). split; [|reflexivity]. split; [reflexivity|]. cbn [repeat]. split; [byt|split; byt]. Qed.
(** An address made with one prefix is refused once the queue has another. *)
Theorem C38_changed_prefix_refused : exists p p' j m port a rest, pfx_ok p /\ pfx_ok p' /\ sa4 m port a rest /\ to_ipv4 p' j (from_ipv4 p j m) = (-1, j).
Proof.
  exists (Some [32; 1; 0; 0; 0; 0; 0; 0; 0; 0; 0; 0]), (Some [32; 2; 0; 0; 0; 0; 0; 0; 0; 0; 0; 0]), (repeat 0 28), ([2; 0] ++ [0; 80] ++ [1; 2; 3; 4] ++ repeat 0 20), [0; 80], [1; 2; 3; 4], (repeat 0 20).
  cbn [repeat pfx_ok]. split; [byt|]. split; [byt|]. split; [|reflexivity]. split; [reflexivity|]. split; [byt|split; byt].
Qed.
(** Setting the NAT64 prefix does not replace an earlier one. *)
Theorem C38_stale_prefix_kept : run [(Some (32 :: 1 :: repeat 0 14), true); (Some (nat96 ++ [0; 0; 0; 0]), true)] = Some (32 :: 1 :: repeat 0 10).
Proof. reflexivity. Qed.

(** A concrete case: 10.0.0.1 port 80 on a queue with prefix 2001:: . *)
Example ipv6_ex : let p := Some (32 :: 1 :: repeat 0 10) in let m := [2; 0] ++ [0; 80] ++ [10; 0; 0; 1] ++ repeat 7 20 in
  from_ipv4 p (repeat 5 28) m = [10; 0; 0; 80; 0; 0; 0; 0; 32; 1; 0; 0; 0; 0; 0; 0; 0; 0; 0; 0; 10; 0; 0; 1; 0; 0; 0; 0]
  /\ to_ipv4 p (repeat 5 28) (from_ipv4 p (repeat 5 28) m) = (0, [2; 0; 0; 80; 10; 0; 0; 1] ++ repeat 0 8 ++ repeat 5 12)
  /\ to_ipv4 None (repeat 5 28) (from_ipv4 p (repeat 5 28) m) = (-1, repeat 5 28).
Proof. repeat split. Qed.

Print Assumptions C38_from_ipv4.
Print Assumptions C38_to_ipv4.
Print Assumptions C38_roundtrip.
Print Assumptions C38_nat64_roundtrip.
Print Assumptions C38_back_and_forth.
Print Assumptions C38_prefix_last.
Print Assumptions C38_prefix_cleared.
Print Assumptions C38_select.
Print Assumptions C38_ip_equal_4.
Print Assumptions C38_ip_equal_6.
Print Assumptions C38_ip_equal_mixed.
