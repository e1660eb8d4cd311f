(** * C59: socket addresses of the Linux HAL; C60: asynchronous name resolution *)
From Verif Require Import Base Arith ArithSpec ArithProof Ipv6 PropIpv6 Dns.
Ltac Zify.zify_post_hook ::= Z.div_mod_to_equations.

(** ** Specification *)
(** An endpoint: the port number, and the bytes of the IPv4 address, or the bytes of flow information, IPv6 address and scope. *)
Inductive endpoint := V4 (port : Z) (ip : list Z) | V6 (port : Z) (flow ip scope : list Z).
(** A port number as it is on the network: high byte first. *)
Definition net16 (p : Z) : list Z := [p / 256; p mod 256].
(** [m] starts with the Linux struct sockaddr_in / is the struct sockaddr_in6 of the endpoint. *)
Definition denotes (m : list Z) (x : endpoint) : Prop :=
  match x with
  | V4 p ip => 0 <= p < 65536 /\ bytes 4 ip /\ exists rest, m = [2; 0] ++ net16 p ++ ip ++ rest
  | V6 p flow ip scope => 0 <= p < 65536 /\ bytes 4 flow /\ bytes 16 ip /\ bytes 4 scope /\ m = [10; 0] ++ net16 p ++ flow ++ ip ++ scope
  end.
(** The size of the system's structure. *)
Definition os_size (x : endpoint) : Z := match x with V4 _ _ => 16 | V6 _ _ _ _ => 28 end.
Definition af_of (x : endpoint) : Z := match x with V4 _ _ => 2 | V6 _ _ _ _ => 10 end.
Definition with_port (p : Z) (x : endpoint) : endpoint := match x with V4 _ ip => V4 p ip | V6 _ f ip s => V6 p f ip s end.
(** [bs]: the system's structure for [x], with nothing behind it that belongs to another structure. *)
Definition os_addr (bs : list Z) (x : endpoint) : Prop := denotes bs x /\ Z.of_nat (length bs) = os_size x.

(** ** Addresses *)
Lemma net16_bytes p : 0 <= p < 65536 -> bytes 2 (net16 p).
Proof. intros H. split; [reflexivity|]. repeat constructor; lia. Qed.
Lemma denotes_28_v4 m p ip : length m = 28%nat -> denotes m (V4 p ip) -> exists rest, m = [2; 0] ++ net16 p ++ ip ++ rest /\ length rest = 20%nat.
Proof. intros L (_ & [E _] & r & ->). exists r. split; [reflexivity|]. rewrite !app_length in L. cbn in L. lia. Qed.
Ltac exlen L r := repeat match type of L with
  | length _ = S _ => destruct r as [|? r]; [discriminate L|apply eq_add_S in L; match type of L with _ = ?k => change (length r = k) in L end]
  | length _ = O => destruct r; [clear L|discriminate L]
  end.

Ltac two p := let E := fresh "E" in assert (E : exists h l, net16 p = [h; l]) by (eexists; eexists; reflexivity); let h := fresh "h" in let l := fresh "l" in destruct E as (h & l & E); rewrite ?E in *.

(** Everything handed to the system by bind, connect and sendto is the structure of the endpoint, with zeros behind an IPv4 one, and its length. *)
Theorem C59_to_system a x : length a = 28%nat -> denotes a x ->
  denotes (fst (sys_addr a)) x /\ snd (sys_addr a) = os_size x /\ length (fst (sys_addr a)) = 28%nat
  /\ (forall p ip, x = V4 p ip -> skipn 8 (fst (sys_addr a)) = repeat 0 20).
Proof.
  intros L D. destruct x as [p ip|p fl ip sc].
  - destruct (denotes_28_v4 _ _ _ L D) as (r & -> & Lr). destruct D as (P & B & _). unfold denotes. two p. pose proof B as B'. explode B. exlen Lr r.
    split; [split; [assumption|split; [exact B'|eexists; reflexivity]]|]. split; [reflexivity|]. split; [reflexivity|]. intros _ _ _. reflexivity.
  - destruct D as (P & F & B & Sc & ->). unfold denotes. two p. pose proof F as F'. pose proof B as B'. pose proof Sc as Sc'. explode F. explode B. explode Sc.
    split; [split; [assumption|split; [exact F'|split; [exact B'|split; [exact Sc'|reflexivity]]]]|]. split; [reflexivity|]. split; [reflexivity|]. discriminate.
Qed.

(** Every other family is handed over as 28 zero bytes with the length 2^32 - 1. *)
Theorem C59_to_system_other a : family a <> 2 -> family a <> 10 -> sys_addr a = (repeat 0 28, 4294967295).
Proof.
  intros A B. unfold sys_addr, conv_addr_to_os, conv_domain_to_os. change AF_INET with 2. change AF_INET6 with 10.
  destruct (family a =? 2) eqn:E1; [lia|]. destruct (family a =? 10) eqn:E2; [lia|]. destruct (family a =? 0); reflexivity.
Qed.

(** What accept, recvfrom and getsockname report is the endpoint that the system filled in, whatever the caller's structure held before. *)
Theorem C59_from_system bs a x : length a = 28%nat -> os_addr bs x -> denotes (hal_peer bs a) x /\ length (hal_peer bs a) = 28%nat
  /\ (forall p ip, x = V4 p ip -> skipn 8 (hal_peer bs a) = skipn 8 a).
Proof.
  intros L (D & Lb). destruct x as [p ip|p fl ip sc]; cbn in Lb.
  - destruct D as (P & B & r & ->). unfold denotes. two p. pose proof B as B'. explode B. rewrite !app_length in Lb. cbn [length app] in Lb. assert (Lr : length r = 8%nat) by lia. clear Lb. exlen Lr r. exlen L a.
    split; [split; [assumption|split; [exact B'|eexists; reflexivity]]|]. split; [reflexivity|]. intros _ _ _. reflexivity.
  - destruct D as (P & F & B & Sc & ->). unfold denotes. two p. pose proof F as F'. pose proof B as B'. pose proof Sc as Sc'. explode F. explode B. explode Sc. exlen L a.
    split; [split; [assumption|split; [exact F'|split; [exact B'|split; [exact Sc'|reflexivity]]]]|]. split; [reflexivity|]. discriminate.
Qed.

(** An endpoint survives the way to the system and back. *)
Theorem C59_round_trip a b x : length a = 28%nat -> length b = 28%nat -> denotes a x ->
  denotes (hal_peer (firstn (Z.to_nat (os_size x)) (fst (sys_addr a))) b) x.
Proof.
  intros La Lb D. destruct (C59_to_system a x La D) as (D1 & _ & L1 & _). refine (proj1 (C59_from_system _ b x Lb _)).
  set (m := fst (sys_addr a)) in *. clearbody m. split; [|rewrite firstn_length; destruct x; cbn; lia].
  destruct x as [p ip|p fl ip sc]; cbn [os_size].
  - destruct (denotes_28_v4 _ _ _ L1 D1) as (r & -> & Lr). destruct D1 as (P & B & _). unfold denotes. two p. split; [assumption|split; [assumption|]]. explode B. eexists. reflexivity.
  - change (Z.to_nat 28) with 28%nat. rewrite firstn_all2 by lia. exact D1.
Qed.

(** An address of another family (an empty one after recvfrom on a stream socket) leaves the caller's structure as it was. *)
Theorem C59_from_system_other bs a : family (sys_filled bs) <> 2 -> family (sys_filled bs) <> 10 -> hal_peer bs a = a.
Proof.
  intros A B. unfold hal_peer, conv_addr_to_aosl. change OS_INET with 2. change OS_INET6 with 10.
  destruct (family _ =? 2) eqn:E1; [lia|]. destruct (family _ =? 10) eqn:E2; [lia|]. reflexivity.
Qed.

(** *** aosl_get_sockaddr *)
Lemma find_if_In l name os : find_if l name = Some os -> In (name, Some os) l /\ family os = 2.
Proof.
  induction l as [|(n, [o|]) l IH]; cbn [find_if]; intros H; [discriminate| |].
  - change OS_INET with 2 in H. destruct (family o =? 2) eqn:E; cbn [negb] in H; [|destruct (IH H); split; [right|]; assumption].
    destruct (list_eq_dec Z.eq_dec n name); cbn [negb] in H; [|destruct (IH H); split; [right|]; assumption].
    assert (o = os) by congruence. subst. split; [left; reflexivity|lia].
  - destruct (IH H). split; [right|]; assumption.
Qed.

(** When it returns 0 the result has an address of the interface of the default IPv4 route and the socket's own port, and the socket is an IPv4 one. *)
Theorem C59_get_sockaddr_partial bs routes rt4 ifas a a' x : length a = 28%nat -> os_addr bs x ->
  (forall l n os, ifas = Some l -> In (n, Some os) l -> family os = 2 -> exists p ip, denotes os (V4 p ip)) ->
  get_sockaddr (Some bs) routes rt4 ifas a = Ok (0, a') ->
  exists name l os port ip p0 ip0, rt4 = Some name /\ ifas = Some l /\ In (name, Some os) l /\ denotes os (V4 p0 ip) /\ x = V4 port ip0 /\ denotes a' (V4 port ip).
Proof.
  intros L OS W H. unfold get_sockaddr in H. destruct (C59_from_system bs ZEROS x eq_refl OS) as (D & LS & _). set (sock := hal_peer bs ZEROS) in *.
  unfold get_local_ip in H. destruct (routes =? 0); [cbn in H; discriminate|]. destruct rt4 as [name|]; [|cbn in H; discriminate]. destruct ifas as [l|]; [|cbn in H; discriminate].
  destruct (find_if l name) as [os|] eqn:F; [|cbn in H; discriminate]. cbn [bind] in H. change (negb (0 =? 0)) with false in H. cbn iota in H.
  destruct (find_if_In _ _ _ F) as (I1 & F1). destruct (W l name os eq_refl I1 F1) as (p0 & ip & Dos).
  set (b := store (store a 0 [AF_INET; 0]) 4 (slice os 4 4)) in *. destruct (family b =? family sock) eqn:E; cbn [negb] in H; [|discriminate].
  exists name, l, os. destruct x as [port ip0|port fl ip0 sc].
  - exists port, ip, p0, ip0. split; [reflexivity|]. split; [reflexivity|]. split; [assumption|]. split; [assumption|]. split; [reflexivity|].
    assert (a' = store b 2 (slice sock 2 2)) by congruence. subst a'.
    destruct D as (P & B0 & r & Es). destruct Dos as (P0 & B & r' & Eo). subst b. rewrite Es, Eo. split; [assumption|split; [assumption|]].
    two port. two p0. explode B. explode B0. exlen L a. eexists. reflexivity.
  - exfalso. destruct D as (P & Fl & B0 & Sc & Es). rewrite Es in E. destruct Dos as (P0 & B & r' & Eo). subst b. rewrite Eo in E.
    two p0. two port. explode B. exlen L a. discriminate E.
Qed.

Definition lo : list Z := [108; 111].
Definition eth0 : list Z := [101; 116; 104; 48].
Definition os4 (p : Z) (ip : list Z) : list Z := [2; 0] ++ net16 p ++ ip ++ repeat 0 8.
Definition ifs : list (list Z * option (list Z)) := [(lo, Some (os4 0 [127; 0; 0; 1])); (eth0, None); (eth0, Some (os4 0 [192; 168; 1; 7]))].

(** It is not the address that the socket is bound to: a socket bound to 127.0.0.1:8080 gets 192.168.1.7:8080. *)
Theorem C59_get_sockaddr_refuted : exists a', get_sockaddr (Some (os4 8080 [127; 0; 0; 1])) 1 (Some eth0) (Some ifs) ZEROS = Ok (0, a')
  /\ denotes a' (V4 8080 [192; 168; 1; 7]) /\ os_addr (os4 8080 [127; 0; 0; 1]) (V4 8080 [127; 0; 0; 1]).
Proof.
  eexists. split; [vm_compute; reflexivity|]. split; [split; [lia|split; [repeat constructor; lia|eexists; reflexivity]]|].
  split; [split; [lia|split; [repeat constructor; lia|eexists; reflexivity]]|reflexivity].
Qed.
(** A socket that has an IPv6 address fails, and the caller's structure has been changed nevertheless. *)
Theorem C59_get_sockaddr_ipv6_refuted : exists bs a', os_addr bs (V6 80 [0;0;0;0] (repeat 1 16) [0;0;0;0]) /\ get_sockaddr (Some bs) 1 (Some eth0) (Some ifs) ZEROS = Ok (-1, a') /\ a' <> ZEROS.
Proof.
  exists ([10; 0] ++ net16 80 ++ [0;0;0;0] ++ repeat 1 16 ++ [0;0;0;0]). eexists. split; [split; [|reflexivity]; repeat split; try (repeat constructor; lia); lia|]. split; [vm_compute; reflexivity|]. discriminate.
Qed.
(** When getifaddrs fails, an uninitialised pointer is followed. *)
Theorem C59_getifaddrs_refuted bs a routes name : routes <> 0 -> get_sockaddr (Some bs) routes (Some name) None a = UB.
Proof. intros R. unfold get_sockaddr, get_local_ip. destruct (routes =? 0) eqn:E; [lia|]. reflexivity. Qed.

Lemma port_net p : 0 <= p < 65536 -> port_bytes p = net16 p.
Proof.
  intros H. destruct (swab16_facts p H) as (B & _ & E). unfold port_bytes, cpu_to_be16, net16. set (v := swab16 p) in *. clearbody v.
  unfold be_bytes in E. cbn [le_bytes rev app] in E. assert (v mod 256 = p / 256 mod 256 /\ v / 256 mod 256 = p mod 256) by (split; congruence). f_equal; [lia|f_equal; lia].
Qed.
(** *** Addresses made from a port *)
(** aosl_bind_port_only binds to the wildcard address with that port, whatever was on the stack; aosl_ip_sk_addr_init_with_port makes the same address; aosl_ip_sk_addr_port reads the port back. *)
Definition any (af port : Z) : endpoint := if af =? 2 then V4 port [0;0;0;0] else V6 port [0;0;0;0] (repeat 0 16) [0;0;0;0].
Theorem C59_wildcard af port junk : length junk = 28%nat -> 0 <= port < 65536 -> af = 2 \/ af = 10 ->
  exists a, init_with_port junk af port = Some a /\ length a = 28%nat /\ denotes a (any af port) /\ bind_port_only junk af port = Some (sys_addr a).
Proof.
  intros L P F. unfold init_with_port, bind_port_only. rewrite port_net by assumption. destruct F as [-> | ->]; unfold any; cbn [Z.eqb Pos.eqb AF_INET AF_INET6]; unfold AF_INET, AF_INET6; cbn [Z.eqb Pos.eqb].
  - exlen L junk. eexists. split; [reflexivity|]. two port. split; [reflexivity|]. split; [unfold denotes; rewrite E; split; [assumption|split; [repeat constructor; lia|eexists; reflexivity]]|]. reflexivity.
  - exlen L junk. eexists. split; [reflexivity|]. two port. split; [reflexivity|]. split; [unfold denotes; rewrite E; split; [assumption|split; [repeat constructor; lia|split; [repeat constructor; lia|split; [repeat constructor; lia|reflexivity]]]]|]. reflexivity.
Qed.
Theorem C59_wildcard_other af port junk : af <> 2 -> af <> 10 -> init_with_port junk af port = None /\ bind_port_only junk af port = None.
Proof. intros A B. unfold init_with_port, bind_port_only, AF_INET, AF_INET6. destruct (af =? 2) eqn:E1; [lia|]. destruct (af =? 10) eqn:E2; [lia|]. auto. Qed.
Theorem C59_port a x : length a = 28%nat -> denotes a x -> addr_port a = match x with V4 p _ => p | V6 p _ _ _ => p end.
Proof.
  intros L D. assert (G : forall p, 0 <= p < 65536 -> cpu_to_be16 (le (net16 p)) = p).
  { intros p P. rewrite <- port_net by assumption. unfold port_bytes, cpu_to_be16. destruct (swab16_facts p P) as (B & I0 & _). cbn [le]. replace (_ + _) with (swab16 p) by lia. exact I0. }
  destruct x as [p ip|p fl ip sc].
  - destruct D as (P & B & r & ->). rewrite <- (G p P) at 2. reflexivity.
  - destruct D as (P & F & B & Sc & ->). rewrite <- (G p P) at 2. reflexivity.
Qed.

Example C59_nonvacuous : denotes ([2; 0] ++ net16 8080 ++ [10; 1; 2; 3] ++ repeat 7 20) (V4 8080 [10; 1; 2; 3]) /\
  sys_addr ([2; 0] ++ net16 8080 ++ [10; 1; 2; 3] ++ repeat 7 20) = ([2; 0; 31; 144; 10; 1; 2; 3] ++ repeat 0 20, 16).
Proof. split; [split; [lia|split; [repeat constructor; lia|eexists; reflexivity]]|]. vm_compute. reflexivity. Qed.

(** * C60 *)
(** ** Specification *)
(** The endpoints in an answer of the system's resolver, in order: entries without address, or of another family, do not count. *)
Inductive endpoints : list addrinfo -> list endpoint -> Prop :=
| E_nil : endpoints [] []
| E_skip ai l xs : ai_addr ai = None \/ ai_len ai = 0 \/ (ai_family ai <> 2 /\ ai_family ai <> 10) -> endpoints l xs -> endpoints (ai :: l) xs
| E_take ai l xs os x : ai_addr ai = Some os -> ai_len ai <> 0 -> ai_family ai = af_of x -> os_addr os x -> endpoints l xs -> endpoints (ai :: l) (x :: xs).
(** An entry of the caller's array tells of the endpoint with the requested port, socket type and protocol. *)
Definition describes (port type prot : Z) (e : skai) (x : endpoint) : Prop :=
  sk_af e = af_of x /\ sk_type e = type /\ sk_prot e = prot /\ length (sk_addr e) = 28%nat /\ denotes (sk_addr e) (with_port port x).
(** What the caller's array [arr] has become and the number reported: the first endpoints, as many as fit, at most 8; the rest of the array untouched. *)
Definition filled (port type prot : Z) (xs : list endpoint) (arr arr' : list skai) (n : Z) : Prop :=
  let k := Nat.min (Nat.min 8 (length xs)) (length arr) in
  n = Z.of_nat k /\ length arr' = length arr /\ Forall2 (describes port type prot) (firstn k arr') (firstn k xs) /\ skipn k arr' = skipn k arr.

(** ** Resolution *)
Lemma conv_os os x a : length a = 28%nat -> os_addr os x -> denotes (conv_addr_to_aosl os a) x /\ length (conv_addr_to_aosl os a) = 28%nat.
Proof.
  intros L O. destruct (C59_from_system os a x L O) as (D & LL & _).
  assert (E : conv_addr_to_aosl os a = hal_peer os a); [|rewrite E; split; assumption].
  destruct O as (D0 & Lb). clear D LL. destruct x as [p ip|p fl ip sc]; cbn [os_size] in Lb.
  - destruct D0 as (P & B & r & ->). two p. explode B. rewrite !app_length in Lb. cbn [length app] in Lb. assert (Lr : length r = 8%nat) by lia. clear Lb. exlen Lr r. exlen L a. reflexivity.
  - destruct D0 as (P & F & B & Sc & ->). two p. explode F. explode B. explode Sc. exlen L a. reflexivity.
Qed.
Lemma set_arr_ok {A} (arr : list A) i x : (i < length arr)%nat -> set_arr arr i x = Ok (firstn i arr ++ x :: skipn (S i) arr).
Proof. intros H. unfold set_arr. apply Nat.ltb_lt in H. rewrite H. reflexivity. Qed.
Lemma fam x : (af_of x =? 2) || (af_of x =? 10) = true. Proof. destruct x; reflexivity. Qed.

(** The slots of the local array: filled ones, then zeroed ones. *)
Definition slot (m : list Z) (x : endpoint) : Prop := denotes m x /\ length m = 28%nat.
Lemma host_loop_spec l xs : endpoints l xs -> forall done k n cap, cap = 8 -> n = Z.of_nat (length done) -> (length done + k = 8)%nat ->
  exists more, host_loop l (done ++ repeat ZEROS k) cap n = Ok (n + Z.of_nat (length more), done ++ more ++ repeat ZEROS (k - length more)) /\ Forall2 slot more (firstn k xs).
Proof.
  induction 1 as [|ai l xs Hs E IH|ai l xs os x A Ln F O E IH]; intros done k n cap -> -> K; cbn [host_loop].
  - exists []. rewrite Nat.sub_0_r, firstn_nil. cbn. split; [f_equal; f_equal; lia|constructor].
  - destruct (Z.of_nat (length done) <? 8) eqn:C; cbn [negb].
    + change OS_INET with 2. change OS_INET6 with 10.
      assert (G : match ai_addr ai with
                  | None => host_loop l (done ++ repeat ZEROS k) 8 (Z.of_nat (length done))
                  | Some os0 => if ai_len ai =? 0 then host_loop l (done ++ repeat ZEROS k) 8 (Z.of_nat (length done))
                      else if ((ai_family ai =? 2) || (ai_family ai =? 10))%bool then
                        let* a := get_arr (done ++ repeat ZEROS k) (Z.to_nat (Z.of_nat (length done))) in
                        let* addrs := set_arr (done ++ repeat ZEROS k) (Z.to_nat (Z.of_nat (length done))) (conv_addr_to_aosl os0 a) in
                        host_loop l addrs 8 (Z.of_nat (length done) + 1)
                      else host_loop l (done ++ repeat ZEROS k) 8 (Z.of_nat (length done))
                  end = host_loop l (done ++ repeat ZEROS k) 8 (Z.of_nat (length done))).
      { destruct (ai_addr ai); [|reflexivity]. destruct Hs as [D|[D|[D1 D2]]]; [discriminate|rewrite D; reflexivity|].
        destruct (ai_len ai =? 0); [reflexivity|]. apply Z.eqb_neq in D1, D2. rewrite D1, D2. reflexivity. }
      rewrite G. apply IH; auto.
    + exists []. assert (k = 0%nat) by lia. subst k. split; [|constructor]. cbn. f_equal. f_equal. lia.
  - destruct (Z.of_nat (length done) <? 8) eqn:C; cbn [negb].
    + rewrite A. apply Z.eqb_neq in Ln. rewrite Ln, F. change OS_INET with 2. change OS_INET6 with 10. rewrite fam, Nat2Z.id.
      destruct k as [|k]; [lia|]. unfold get_arr. rewrite nth_error_app2, Nat.sub_diag by lia. cbn [repeat nth_error bind].
      destruct (conv_os os x ZEROS eq_refl O) as (D & L). set (m := conv_addr_to_aosl os ZEROS) in *. clearbody m.
      rewrite set_arr_ok by (rewrite app_length; cbn; lia). cbn [bind]. rewrite firstn_app, Nat.sub_diag, firstn_O, app_nil_r, firstn_all.
      change (S (length done)) with (1 + length done)%nat. rewrite skipn_app. rewrite skipn_all2 by lia. replace (1 + length done - length done)%nat with 1%nat by lia. cbn [skipn app].
      destruct (IH (done ++ [m]) k (Z.of_nat (length done) + 1) 8 eq_refl) as (more & H & Fa); [rewrite app_length; cbn; lia..|].
      exists (m :: more). rewrite <- !app_assoc in H. cbn [app] in H. rewrite H. cbn [length firstn Nat.sub app]. split; [f_equal; f_equal; lia|]. constructor; [split; assumption|exact Fa].
    + exists []. assert (k = 0%nat) by lia. subst k. split; [|constructor]. cbn. f_equal. f_equal. lia.
Qed.

Lemma Forall2_len {A B} (R : A -> B -> Prop) l m : Forall2 R l m -> length l = length m.
Proof. induction 1; cbn; congruence. Qed.
Lemma put_port m x p : 0 <= p < 65536 -> slot m x -> slot (store m 2 (port_bytes p)) (with_port p x) /\ family (store m 2 (port_bytes p)) = af_of x.
Proof.
  intros P (D & L). rewrite port_net by assumption. destruct x as [p0 ip|p0 fl ip sc]; cbn [with_port af_of]; unfold slot.
  - destruct (denotes_28_v4 _ _ _ L D) as (r & -> & Lr). destruct D as (P0 & B & _). unfold denotes. two p. two p0. pose proof B as B'. explode B. exlen Lr r.
    split; [|reflexivity]. split; [|reflexivity]. split; [assumption|split; [exact B'|eexists; reflexivity]].
  - destruct D as (P0 & F & B & Sc & ->). unfold denotes. two p. two p0. pose proof F as F'. pose proof B as B'. pose proof Sc as Sc'. explode F. explode B. explode Sc.
    split; [|reflexivity]. split; [|reflexivity]. split; [assumption|split; [exact F'|split; [exact B'|split; [exact Sc'|reflexivity]]]].
Qed.

Lemma resolve_loop_spec ms xs : Forall2 slot ms xs -> forall port type prot done rest n cnt errno, 0 <= port < 65536 -> (length done + length ms <= 8)%nat ->
  n = Z.of_nat (length done) -> u32 cnt = Z.of_nat (length done + length rest) ->
  exists d r e', let k := Nat.min (length ms) (length rest) in
    resolve_loop ms port type prot n (done ++ rest) cnt errno = Ok (n + Z.of_nat k, done ++ d ++ r, e') /\
    Forall2 (describes port type prot) d (firstn k xs) /\ r = skipn k rest /\ length d = k /\
    e' = (if (length rest <? length ms)%nat then AOSL_ENOBUFS else errno).
Proof.
  induction 1 as [|m x ms xs M F IH]; intros port type prot done rest n cnt errno P L -> C; cbn [length] in *.
  - exists [], rest, errno. cbn. split; [f_equal; f_equal; f_equal; lia|]. repeat split. constructor.
  - cbn [resolve_loop]. destruct (put_port m x port P M) as ((D & LD) & FM). set (a := store m 2 (port_bytes port)) in *. clearbody a.
    unfold resolved_an_addr. rewrite C. replace (u32 (Z.of_nat (length done))) with (Z.of_nat (length done)) by (unfold u32; lia).
    destruct rest as [|r0 rest].
    + cbn [length]. destruct (Z.of_nat (length done) <? Z.of_nat (length done + 0)) eqn:E; [lia|]. cbn [bind]. change (-1 <? 0) with true. cbn iota.
      exists [], [], AOSL_ENOBUFS. cbn. split; [f_equal; f_equal; f_equal; lia|]. repeat split; constructor.
    + cbn [length] in *. destruct (Z.of_nat (length done) <? Z.of_nat (length done + S (length rest))) eqn:E; [|lia].
      rewrite Nat2Z.id, set_arr_ok by (rewrite app_length; cbn; lia). cbn [bind]. change (1 <? 0) with false. change (1 =? 0) with false. cbn iota.
      rewrite firstn_app, Nat.sub_diag, firstn_O, app_nil_r, firstn_all. change (S (length done)) with (1 + length done)%nat. rewrite skipn_app. rewrite skipn_all2 by lia. replace (1 + length done - length done)%nat with 1%nat by lia. cbn [skipn app].
      destruct (IH port type prot (done ++ [mkSk (family a) type prot a]) rest (Z.of_nat (length done) + 1) cnt errno P) as (d & r & e' & H & Fd & Hr & Hl & He); [rewrite app_length; cbn; lia|rewrite app_length; cbn; lia|rewrite app_length; cbn; rewrite C; lia|].
      exists (mkSk (family a) type prot a :: d), r, e'. rewrite <- !app_assoc in H. cbn [app] in H. rewrite H. cbn [Nat.min firstn skipn length].
      split; [f_equal; f_equal; f_equal; lia|]. split; [constructor; [|exact Fd]|].
      * repeat split; try assumption; exact FM.
      * split; [exact Hr|]. split; [lia|]. exact He.
Qed.

(** The resolution of a name, for every answer of the system's resolver and every array of less than 2^32 entries. *)
Theorem C60_entries_partial l xs port type prot arr cnt errno : endpoints l xs -> 0 <= port < 65536 -> cnt = Z.of_nat (length arr) -> cnt < 4294967296 ->
  exists n arr' e', hostbyname_do (Some l) port type prot arr cnt errno = Ok (n, arr', e') /\ filled port type prot xs arr arr' n /\
    e' = (if (length arr <? Nat.min 8 (length xs))%nat then AOSL_ENOBUFS else errno).
Proof.
  intros E P C B. unfold hostbyname_do, gethostbyname. destruct (host_loop_spec l xs E [] 8 0 8 eq_refl eq_refl eq_refl) as (more & H & F).
  change (repeat ZEROS MAX_DNS_RES_CNT) with ([] ++ repeat ZEROS 8). change (Z.of_nat MAX_DNS_RES_CNT) with 8. rewrite H. cbn [bind app].
  pose proof (Forall2_len _ _ _ F) as LF. rewrite firstn_length in LF. change (0 + Z.of_nat (length more)) with (Z.of_nat (length more)).
  destruct more as [|m0 ms0] eqn:Em.
  - cbn [length]. change (Z.of_nat 0 >? 0) with false. cbn iota. exists 0, arr, errno. split; [reflexivity|]. cbn [length] in LF. rewrite <- LF. split; [|reflexivity]. unfold filled. rewrite <- LF. cbn. repeat split. constructor.
  - rewrite <- Em in *. destruct (Z.of_nat (length more) >? 0) eqn:G; [|rewrite Em in G; cbn [length] in G; lia].
    rewrite Nat2Z.id. change MAX_DNS_RES_CNT with 8%nat. replace (Nat.min (length more) 8) with (length more) by lia. rewrite firstn_app, firstn_all, Nat.sub_diag, firstn_O, app_nil_r.
    destruct (resolve_loop_spec more (firstn 8 xs) F port type prot [] arr 0 cnt errno P) as (d & r & e' & HH & Fd & Hr & Hl & He); [cbn; lia|reflexivity|cbn; unfold u32; lia|].
    cbn [app] in HH. rewrite HH. exists (0 + Z.of_nat (Nat.min (length more) (length arr))), (d ++ r), e'. split; [reflexivity|]. rewrite LF in *. unfold filled. cbv zeta.
    assert (K : forall ys : list endpoint, firstn (Nat.min (Nat.min 8 (length xs)) (length arr)) (firstn 8 ys) = firstn (Nat.min (Nat.min 8 (length xs)) (length arr)) ys) by (intros; rewrite firstn_firstn; f_equal; lia).
    rewrite K in Fd. set (k := Nat.min (Nat.min 8 (length xs)) (length arr)) in *. split; [|exact He].
    split; [lia|]. split; [rewrite app_length, Hr, skipn_length; lia|]. rewrite firstn_app, skipn_app, Hl, Nat.sub_diag, firstn_O, app_nil_r. rewrite firstn_all2 by lia. rewrite skipn_all2 by lia. split; [exact Fd|]. cbn. exact Hr.
Qed.

(** A failing resolver gives no entry and changes nothing. *)
Theorem C60_not_found port type prot arr cnt errno : hostbyname_do None port type prot arr cnt errno = Ok (0, arr, errno).
Proof. reflexivity. Qed.

(** An array said to have a multiple of 2^32 entries gets none. *)
Theorem C60_entries_refuted l xs port type prot arr m errno : endpoints l xs -> 0 <= port < 65536 -> xs <> [] ->
  hostbyname_do (Some l) port type prot arr (m * 4294967296) errno = Ok (0, arr, AOSL_ENOBUFS).
Proof.
  intros E P N. unfold hostbyname_do, gethostbyname. destruct (host_loop_spec l xs E [] 8 0 8 eq_refl eq_refl eq_refl) as (more & H & F).
  change (repeat ZEROS MAX_DNS_RES_CNT) with ([] ++ repeat ZEROS 8). change (Z.of_nat MAX_DNS_RES_CNT) with 8. rewrite H. cbn [bind app].
  destruct xs as [|x xs]; [congruence|]. cbn [firstn] in F. inversion F as [|m0 y ms ys M F' A B]. subst. cbn [length].
  destruct (0 + Z.of_nat (S (length ms)) >? 0) eqn:G; [|lia]. replace (Z.to_nat (0 + Z.of_nat (S (length ms)))) with (S (length ms)) by lia.
  change MAX_DNS_RES_CNT with 8%nat. cbn [Nat.min firstn app resolve_loop]. unfold resolved_an_addr. change (u32 0) with 0.
  replace (u32 (m * 4294967296)) with 0 by (unfold u32; lia). change (0 <? 0) with false. cbn [bind]. change (-1 <? 0) with true. reflexivity.
Qed.

(** ** The asynchronous call *)
(** A well-formed call: as many arguments as announced, an array of the announced size, a port number. *)
Definition good (c : call) (arr : list skai) : Prop :=
  c_argc c = Z.of_nat (length (c_args c)) /\ 0 <= c_port c < 65536 /\ c_count c = Z.of_nat (length arr) /\ c_count c < 4294967296.
(** The answer of the resolver is one that getaddrinfo can give, with these endpoints. *)
Definition answer (gai : option (list addrinfo)) (xs : list endpoint) : Prop := match gai with None => xs = [] | Some l => endpoints l xs end.
(** The type and protocol of a TCP / UDP socket. *)
Definition type_of (tcp : bool) : Z := if tcp then 1 else 2.
Definition is_f (e : event) : bool := match e with EF _ _ _ _ _ => true | _ => false end.

Definition vec (c : call) : list Z := [c_host c; c_port c; c_type c; c_prot c; c_addrs c; c_count c; c_q c; c_f c; c_argc c] ++ c_args c.
Definition rep (c : call) (n : Z) : list Z := [c_host c; n; c_addrs c] ++ c_args c.
Definition resolved (c : call) (arr : list skai) gai n arr' : Prop := exists e e', hostbyname_do gai (c_port c) (c_type c) (c_prot c) arr (c_count c) e = Ok (n, arr', e').
Definition ran (c : call) (name : list Z) gai n arr' : list event := prefixes (c_q c) n arr' ++ [ELookup name gai; ERet 0 0].
Definition inv (c : call) (name : list Z) (arr : list skai) (s : state) : Prop :=
  s_name s = name /\
  match s_ph s with
  | PStart => s_tr s = [] /\ s_arr s = arr
  | PPool argv => argv = vec c /\ s_tr s = [ERet 0 0] /\ s_arr s = arr /\ c_argc c <= 55
  | PReply q f argv n => f = c_f c /\ q = c_q c /\ argv = rep c n /\ c_argc c <= 55 /\ exists gai, resolved c arr gai n (s_arr s) /\ s_tr s = ran c name gai n (s_arr s)
  | PQueued f argv => f = c_f c /\ exists n, argv = rep c n /\ c_argc c <= 55 /\ exists gai, resolved c arr gai n (s_arr s) /\ s_tr s = ran c name gai n (s_arr s)
  | PDone =>
      (exists e, s_tr s = [ERet (-1) e] /\ s_arr s = arr /\ (c_argc c > 64 -> e = AOSL_EPERM) /\ (56 <= c_argc c <= 64 -> e = AOSL_E2BIG)) \/
      (c_argc c <= 55 /\ exists w fo n gai, resolved c arr gai n (s_arr s) /\ s_tr s = EF (c_f c) w fo (rep c n) (s_arr s) :: ran c name gai n (s_arr s) /\ (w = OnPool -> fo = true))
  end.
Lemma inv_reach c name arr s : good c arr -> reachable false c name arr s -> inv c name arr s.
Proof.
  intros (Ga & Gp & _ & _). induction 1 as [|s s' R IH St]; [repeat split|]. destruct IH as (Nm & I0).
  assert (Eat : argc_refused (9 + c_argc c) = None <-> c_argc c <= 55) by (unfold argc_refused, ARGC_MAX; destruct (_ >? _) eqn:E; split; intros; (discriminate || reflexivity || lia)).
  destruct St as [Ph A|e Ph A Cs|Ph A B|n C Ph|argv gai n ar e e' Ph H q reply|q f argv n Ph A|q f argv n Ph|fo f argv Ph]; try rewrite Ph in I0; unfold inv; cbn [emit setPh setName s_ph s_name s_tr s_arr]; (split; [try exact Nm|]); try discriminate.
  - destruct I0 as (T0 & Ar). left. exists AOSL_EPERM. rewrite T0. unfold ARGC_MAX in *. repeat split; auto. lia.
  - destruct I0 as (T0 & Ar). left. exists e. rewrite T0. unfold ARGC_MAX in *. repeat split; auto; [lia|]. intros K. destruct Cs as [Cs|Cs].
    + unfold argc_refused in Cs. destruct (_ >? _) in Cs; congruence.
    + apply Eat in Cs. lia.
  - destruct I0 as (T0 & Ar). rewrite T0. split; [|split; [reflexivity|split; [assumption|apply Eat; assumption]]].
    unfold request_argv, vec. rewrite Ga, Nat2Z.id, firstn_all. reflexivity.
  - destruct I0 as (-> & T0 & Ar & Le). subst q reply. cbn [vec app nth skipn] in *. rewrite <- Ar.
    assert (Up : u16 (c_port c) = c_port c) by (unfold u16; lia). assert (Ut : s32 (c_type c) = c_type c /\ s32 (c_prot c) = c_prot c) by (unfold c_type, c_prot; destruct (c_tcp c); split; reflexivity). destruct Ut as (Ut & Uq). rewrite Up, Ut, Uq in H.
    split; [reflexivity|]. split; [reflexivity|]. split; [unfold reply_argv, rep; rewrite Ga, Nat2Z.id, firstn_all; reflexivity|]. split; [exact Le|].
    exists gai. split; [exists e, e'; exact H|]. rewrite T0, Nm. reflexivity.
  - destruct I0 as (-> & _ & -> & Le & G). split; [reflexivity|]. exists n. auto.
  - destruct I0 as (-> & _ & -> & Le & gai & Rs & T0). right. split; [exact Le|]. exists OnPool, true, n, gai. rewrite T0. auto.
  - destruct I0 as (-> & n & -> & Le & gai & Rs & T0). right. split; [exact Le|]. exists OnQ, fo, n, gai. rewrite T0. split; [exact Rs|]. split; [reflexivity|discriminate].
Qed.

Lemma prefixes_no_f q n ar : filter is_f (prefixes q n ar) = [].
Proof. unfold prefixes. generalize (filter (fun e => sk_af e =? AF_INET6) (firstn (Z.to_nat n) ar)). intros l. induction l as [|x l IH]; [reflexivity|exact IH]. Qed.
Lemma resolved_filled c arr gai n arr' xs : good c arr -> answer gai xs -> resolved c arr gai n arr' -> filled (c_port c) (type_of (c_tcp c)) (type_of (c_tcp c)) xs arr arr' n.
Proof.
  intros (Ga & Gp & Gc & Gl) A (e & e' & H). change (c_type c) with (type_of (c_tcp c)) in H. change (c_prot c) with (type_of (c_tcp c)) in H. destruct gai as [l|].
  - destruct (C60_entries_partial l xs (c_port c) (type_of (c_tcp c)) (type_of (c_tcp c)) arr (c_count c) e A Gp Gc Gl) as (n0 & a0 & e0 & H0 & F & _).
    assert (n0 = n) by congruence. assert (a0 = arr') by congruence. subst. exact F.
  - cbn in A. subst xs. rewrite C60_not_found in H. assert (n = 0) by congruence. assert (arr' = arr) by congruence. subst. unfold filled. cbn. repeat split. constructor.
Qed.

(** A finished call that returned 0 has run f exactly once, with the name, the number of results, the array and the caller's arguments in order; the name asked for is the caller's and the array holds the results. *)
Theorem C60_accepted s c name arr : good c arr -> reachable false c name arr s -> s_ph s = PDone -> In (ERet 0 0) (s_tr s) ->
  exists w fo n gai, filter is_f (s_tr s) = [EF (c_f c) w fo ([c_host c; n; c_addrs c] ++ c_args c) (s_arr s)] /\ (w = OnPool -> fo = true) /\
    In (ELookup name gai) (s_tr s) /\ (forall xs, answer gai xs -> filled (c_port c) (type_of (c_tcp c)) (type_of (c_tcp c)) xs arr (s_arr s) n).
Proof.
  intros G R Ph I0. destruct (inv_reach _ _ _ _ G R) as (_ & I1). rewrite Ph in I1. destruct I1 as [(e & T0 & _)|(_ & w & fo & n & gai & Rs & T0 & W)].
  - rewrite T0 in I0. destruct I0 as [I0|[]]. discriminate I0.
  - exists w, fo, n, gai. split; [|split; [exact W|split]].
    + rewrite T0. cbn [filter is_f]. f_equal. unfold ran. rewrite filter_app. cbn. rewrite app_nil_r. apply prefixes_no_f.
    + rewrite T0. right. unfold ran. apply in_or_app. right. left. reflexivity.
    + intros xs A. exact (resolved_filled _ _ _ _ _ _ G A Rs).
Qed.

(** A call that returned -1 never runs f, asks no resolver, and leaves the array alone. *)
Theorem C60_refused s c name arr e : good c arr -> reachable false c name arr s -> In (ERet (-1) e) (s_tr s) -> s_tr s = [ERet (-1) e] /\ s_arr s = arr.
Proof.
  intros G R I0. destruct (inv_reach _ _ _ _ G R) as (_ & I1).
  assert (Nr : forall n ar gai w fo a b f, ~ In (ERet (-1) e) (EF f w fo a b :: ran c name gai n ar) /\ ~ In (ERet (-1) e) (ran c name gai n ar)).
  { intros. assert (~ In (ERet (-1) e) (ran c name gai n ar)). { unfold ran, prefixes. rewrite in_app_iff, in_map_iff. intros [(x & K & _)|[K|[K|[]]]]; discriminate. } split; [|assumption]. intros [K|K]; [discriminate|auto]. }
  destruct (s_ph s).
  - destruct I1 as (T0 & _). rewrite T0 in I0. destruct I0.
  - destruct I1 as (_ & T0 & _). rewrite T0 in I0. destruct I0 as [I0|[]]; discriminate.
  - destruct I1 as (_ & _ & _ & _ & gai & _ & T0). rewrite T0 in I0. exfalso. exact (proj2 (Nr _ _ _ OnQ true [] [] 0) I0).
  - destruct I1 as (_ & n0 & _ & _ & gai & _ & T0). rewrite T0 in I0. exfalso. exact (proj2 (Nr _ _ _ OnQ true [] [] 0) I0).
  - destruct I1 as [(e0 & T0 & Ar & _)|(_ & w & fo & n & gai & _ & T0 & _)]; rewrite T0 in I0.
    + destruct I0 as [I0|[]]. assert (e0 = e) by congruence. subst. auto.
    + exfalso. exact (proj1 (Nr _ _ _ _ _ _ _ _) I0).
Qed.

(** f runs at most once, and never before the call has returned 0. *)
Theorem C60_at_most_once s c name arr : good c arr -> reachable false c name arr s -> (length (filter is_f (s_tr s)) <= 1)%nat /\ (filter is_f (s_tr s) <> [] -> In (ERet 0 0) (s_tr s)).
Proof.
  intros G R. destruct (inv_reach _ _ _ _ G R) as (_ & I1).
  assert (Nr : forall n ar gai, filter is_f (ran c name gai n ar) = []). { intros. unfold ran. rewrite filter_app. cbn. rewrite app_nil_r. apply prefixes_no_f. }
  assert (Ri : forall n ar gai, In (ERet 0 0) (ran c name gai n ar)) by (intros; unfold ran; apply in_or_app; right; right; left; reflexivity).
  destruct (s_ph s).
  - destruct I1 as (T0 & _). rewrite T0. cbn. split; [lia|congruence].
  - destruct I1 as (_ & T0 & _). rewrite T0. cbn. split; [lia|congruence].
  - destruct I1 as (_ & _ & _ & _ & gai & _ & T0). rewrite T0, Nr. cbn. split; [lia|congruence].
  - destruct I1 as (_ & n0 & _ & _ & gai & _ & T0). rewrite T0, Nr. cbn. split; [lia|congruence].
  - destruct I1 as [(e0 & T0 & Ar & _)|(_ & w & fo & n & gai & _ & T0 & _)]; rewrite T0; cbn [filter is_f]; [cbn; split; [lia|congruence]|]. rewrite Nr. cbn [length]. split; [lia|]. intros _. right. apply Ri.
Qed.

(** A call with up to 55 arguments can always go on until f has run: whatever the resolver answers. *)
Theorem C60_progress s c name arr gai xs : good c arr -> reachable false c name arr s -> answer gai xs -> c_argc c <= 55 -> s_ph s <> PDone ->
  exists s', step false c s s' /\ (forall argv, s_ph s = PPool argv -> In (ELookup name gai) (s_tr s')).
Proof.
  intros G R A Le N. destruct (inv_reach _ _ _ _ G R) as (Nm & I1). assert (Ga : c_argc c = Z.of_nat (length (c_args c))) by apply G.
  destruct (s_ph s) as [|argv|q f argv n|f argv|] eqn:Ph; [| | | |congruence].
  - eexists. split; [apply S_accepted; [assumption|unfold ARGC_MAX; lia|unfold argc_refused, ARGC_MAX; destruct (_ >? _) eqn:E; [lia|reflexivity]]|]. discriminate.
  - destruct I1 as (-> & T0 & Ar & _). destruct G as (_ & Gp & Gc & Gl).
    assert (H : exists n ar e', hostbyname_do gai (u16 (c_port c)) (s32 (c_type c)) (s32 (c_prot c)) (s_arr s) (c_count c) 0 = Ok (n, ar, e')).
    { rewrite Ar. replace (u16 (c_port c)) with (c_port c) by (unfold u16; lia). destruct gai as [l|]; [|eexists; eexists; eexists; apply C60_not_found].
      destruct (C60_entries_partial l xs (c_port c) (s32 (c_type c)) (s32 (c_prot c)) arr (c_count c) 0 A Gp Gc Gl) as (n0 & a0 & e0 & H0 & _). eauto. }
    destruct H as (n & ar & e' & H). eexists. split; [apply (S_resolve false c s (vec c) gai n ar 0 e' Ph); exact H|]. intros _ _. cbn [s_tr]. apply in_or_app. right. left. rewrite Nm. reflexivity.
  - destruct I1 as (_ & _ & -> & _). eexists. split; [eapply S_reply_ok; [eassumption|]|discriminate]. unfold argc_refused, ARGC_MAX, rep. cbn [app length]. destruct (_ >? _) eqn:E; [lia|reflexivity].
  - eexists. split; [apply (S_run false c s true); eassumption|discriminate].
Qed.

(** 56 to 64 arguments pass the check of the call itself, but the call always fails. *)
Theorem C60_many_args_refuted s c name arr : good c arr -> 56 <= c_argc c <= 64 -> reachable false c name arr s -> s_tr s <> [] -> s_tr s = [ERet (-1) AOSL_E2BIG].
Proof.
  intros G Le R N. destruct (inv_reach _ _ _ _ G R) as (_ & I1). destruct (s_ph s).
  - destruct I1 as (T0 & _). congruence.
  - destruct I1 as (_ & _ & _ & K). lia.
  - destruct I1 as (_ & _ & _ & K & _). lia.
  - destruct I1 as (_ & n & _ & K & _). lia.
  - destruct I1 as [(e & T0 & _ & _ & K)|(K & _)]; [|lia]. rewrite T0, (K Le). reflexivity.
Qed.

(** The name is read when the pool gets to the request: a caller that reuses its buffer after the call has another name resolved. *)
Definition c0 : call := mkCall 4096 443 true 8192 2 65537 12288 2 [77; 78].
Definition arr0 : list skai := repeat (mkSk 0 0 0 ZEROS) 2.
Definition os6 (p : Z) (ip : list Z) : list Z := [10; 0] ++ net16 p ++ [0; 0; 0; 0] ++ ip ++ [0; 0; 0; 0].
Definition ip6 : list Z := [32; 1; 13; 184; 0; 0; 0; 0; 0; 0; 0; 0; 1; 2; 3; 4].
Definition gai0 : option (list addrinfo) := Some [mkAi 1 (Some (repeat 0 16)) 16; mkAi 10 (Some (os6 0 ip6)) 28; mkAi 2 None 0; mkAi 2 (Some (os4 0 [93; 184; 216; 34])) 16; mkAi 2 (Some (os4 0 [1; 1; 1; 1])) 16].
Lemma good0 : good c0 arr0. Proof. repeat split; reflexivity || (cbn; lia). Qed.
Lemma answer0 : answer gai0 [V6 0 [0;0;0;0] ip6 [0;0;0;0]; V4 0 [93; 184; 216; 34]; V4 0 [1; 1; 1; 1]].
Proof.
  cbn [answer gai0]. apply E_skip; [cbn; lia|]. eapply E_take; [reflexivity|cbn; lia|reflexivity| |apply E_skip; [cbn; auto|]].
  - split; [|reflexivity]. repeat split; try (repeat constructor; lia); lia.
  - eapply E_take; [reflexivity|cbn; lia|reflexivity| |eapply E_take; [reflexivity|cbn; lia|reflexivity| |apply E_nil]]; (split; [|reflexivity]); (split; [lia|split; [repeat constructor; lia|eexists; reflexivity]]).
Qed.
(** A run: the request, the overwritten name, the lookup, the reply. *)
Lemma run0 chg name name' : (chg = false -> name' = name) -> exists s arr', reachable chg c0 name arr0 s /\ s_ph s = PDone /\
  s_tr s = EF 12288 OnQ false [4096; 2; 8192; 77; 78] arr' :: [EPrefix 65537 ip6; ELookup name' gai0; ERet 0 0] /\ s_arr s = arr'.
Proof.
  intros C. set (argv := [4096; 443; 1; 1; 8192; 2; 65537; 12288; 2; 77; 78]).
  assert (R1 : reachable chg c0 name arr0 (mkSt (PPool argv) name arr0 [ERet 0 0])) by (eapply R_step; [apply R_init|apply (S_accepted chg c0 (init_state name arr0)); [reflexivity|cbn; unfold ARGC_MAX; lia|reflexivity]]).
  assert (R2 : reachable chg c0 name arr0 (mkSt (PPool argv) name' arr0 [ERet 0 0])).
  { destruct chg; [|rewrite (C eq_refl); exact R1]. eapply R_step; [exact R1|]. apply (S_overwrite true c0 (mkSt (PPool argv) name arr0 [ERet 0 0]) name' eq_refl). discriminate. }
  destruct (hostbyname_do gai0 443 1 1 arr0 2 0) as [((n, ar), e')| |] eqn:H; try (vm_compute in H; discriminate H).
  pose proof H as H'. vm_compute in H'. assert (n = 2) by congruence. subst n.
  eexists. exists ar. split; [|split; [|split]].
  - eapply R_step; [eapply R_step; [eapply R_step; [exact R2|]|]|].
    + apply (S_resolve chg c0 (mkSt (PPool argv) name' arr0 [ERet 0 0]) argv gai0 2 ar 0 e'); [reflexivity|exact H].
    + eapply S_reply_ok; reflexivity.
    + eapply (S_run chg c0 _ false); reflexivity.
  - reflexivity.
  - cbn [emit setPh s_tr s_arr]. f_equal. assert (E : prefixes 65537 2 ar = [EPrefix 65537 ip6]) by (injection H' as <- _; vm_compute; reflexivity). change (nth 6 argv 0) with 65537. rewrite E. reflexivity.
  - reflexivity.
Qed.
Theorem C60_name_refuted name other : exists s f arr', reachable true c0 name arr0 s /\ In (ELookup other gai0) (s_tr s) /\ In (ERet 0 0) (s_tr s) /\ In (EF f OnQ false [4096; 2; 8192; 77; 78] arr') (s_tr s)
  /\ (forall n g, In (ELookup n g) (s_tr s) -> n = other).
Proof.
  destruct (run0 true name other ltac:(discriminate)) as (s & ar & R & _ & T0 & _). exists s, 12288, ar. rewrite T0. split; [exact R|]. cbn [In]. split; [auto|]. split; [auto|]. split; [auto|].
  intros n g [K|[K|[K|[K|[]]]]]; congruence.
Qed.
(** The hypotheses of C60_accepted and C60_at_most_once are met by a run of a call with two arguments that fills both entries of its array. *)
Example C60_nonvacuous name : exists s, good c0 arr0 /\ reachable false c0 name arr0 s /\ s_ph s = PDone /\ In (ERet 0 0) (s_tr s) /\
  exists e1 e2, s_arr s = [e1; e2] /\ describes 443 1 1 e1 (V6 0 [0;0;0;0] ip6 [0;0;0;0]) /\ describes 443 1 1 e2 (V4 0 [93; 184; 216; 34]).
Proof.
  destruct (run0 false name name (fun _ => eq_refl)) as (s & ar & R & Ph & T0 & Ar). exists s. assert (I0 : In (ERet 0 0) (s_tr s)) by (rewrite T0; cbn; auto).
  split; [exact good0|]. split; [exact R|]. split; [exact Ph|]. split; [exact I0|].
  destruct (C60_accepted s c0 name arr0 good0 R Ph I0) as (w & fo & n & gai & F & W & L & D).
  assert (gai = gai0) by (rewrite T0 in L; cbn [In] in L; destruct L as [K|[K|[K|[K|[]]]]]; congruence). subst gai. destruct (D _ answer0) as (_ & Le & F2 & _). cbn in Le, F2.
  destruct (s_arr s) as [|e1 [|e2 [|? ?]]]; try discriminate Le. cbn in F2. inversion F2 as [|? ? ? ? D1 F3 X1 X2]; subst. inversion F3 as [|? ? ? ? D2 F4 X1 X2]; subst. exists e1, e2. auto.
Qed.

(** Every resolved IPv6 address becomes the queue's NAT64 prefix.  After a native IPv6 address was resolved, connecting an IPv4 socket of that queue to this address goes to the IPv4 address made of its last four bytes; and an IPv4 destination on an IPv6 socket goes to the resolved host's network. *)
Theorem C60_prefix_refuted p a6 m port flow scope v4 junk : bytes 16 a6 -> firstn 12 a6 <> mapped96 -> firstn 12 a6 <> nat96 -> v4 <> -1 -> length junk = 28%nat ->
  sa6 m port flow a6 scope ->
  set_prefix p (Some a6) true = Some (firstn 12 a6) /\
  exists rest, select (set_prefix p (Some a6) true) v4 (-1) m junk = Some (v4, [2; 0] ++ port ++ skipn 12 a6 ++ rest).
Proof.
  intros B N1 N2 V J M. assert (E : set_prefix p (Some a6) true = Some (firstn 12 a6)).
  { unfold set_prefix. destruct (v4mapped a6) eqn:E1; [apply v4mapped_iff in E1; [contradiction|assumption]|]. destruct (nat64 a6) eqn:E2; [apply nat64_iff in E2; [contradiction|assumption]|]. cbn [orb negb]. unfold slice. cbn [skipn]. destruct p; reflexivity. }
  split; [exact E|]. rewrite E. assert (PO : pfx_ok (Some (firstn 12 a6))) by (cbn; clear - B; explode B; cbn; split; [reflexivity|repeat (constructor; [assumption|]); constructor]).
  destruct (C38_to_ipv4 (Some (firstn 12 a6)) junk m port flow a6 scope PO J M) as (K & _). specialize (K (or_intror (or_intror eq_refl))).
  exists (repeat 0 8 ++ skipn 16 junk). unfold select. destruct M as (Em & _). assert (Fm : family m = 10) by (rewrite Em; reflexivity). rewrite Fm. change (10 =? AF_INET) with false. change (10 =? AF_INET6) with true. cbn iota.
  change (bad (-1)) with true. cbn [negb]. unfold bad. destruct (v4 =? -1) eqn:E4; [lia|]. cbn [negb]. rewrite K. change (0 <? 0) with false. reflexivity.
Qed.

Print Assumptions C59_wildcard. Print Assumptions C59_wildcard_other. Print Assumptions C59_port.
Print Assumptions C59_to_system. Print Assumptions C59_to_system_other. Print Assumptions C59_from_system. Print Assumptions C59_round_trip. Print Assumptions C59_from_system_other.
Print Assumptions C59_get_sockaddr_partial. Print Assumptions C59_get_sockaddr_refuted. Print Assumptions C59_get_sockaddr_ipv6_refuted. Print Assumptions C59_getifaddrs_refuted.
Print Assumptions C60_entries_partial. Print Assumptions C60_not_found. Print Assumptions C60_entries_refuted. Print Assumptions C60_accepted. Print Assumptions C60_refused. Print Assumptions C60_at_most_once.
Print Assumptions C60_progress. Print Assumptions C60_many_args_refuted. Print Assumptions C60_name_refuted. Print Assumptions C60_prefix_refuted.
