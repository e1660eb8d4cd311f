(** * C79: what aosl_set_socket_dscp, aosl_bind_device and aosl_bind_port_only ask of the system. *)
From Verif Require Import Base Skopt.

(** ** What is meant *)
(** The errno of the API that stands for a refusal of the system: EAGAIN, EINTR, EINPROGRESS, everything else. *)
Definition reported (e : Z) : Z := if e =? 11 then 1011 else if e =? 4 then 1004 else if e =? 115 then 1115 else 2000.
(** Exactly the call [c] is made; the result is that of the system, which answers with [e] (0: done). *)
Definition asks (c : call) (e : Z) (o : outcome) : Prop := o = (if e =? 0 then (0, None, [c]) else (- reported e, Some (reported e), [c])).
(** The call is refused as invalid and nothing is asked of the system. *)
Definition refused (o : outcome) : Prop := o = (-1, Some 1022, []).
(** The number whose bytes, the lowest first, are [l]; the highest first. *)
Fixpoint little (l : list Z) : Z := match l with [] => 0 | b :: r => b + 256 * little r end.
Definition big (l : list Z) : Z := little (rev l).
Definition octets (l : list Z) : Prop := Forall (fun b => 0 <= b < 256) l.
(** The text before the first NUL. *)
Fixpoint text (l : list Z) : list Z := match l with [] => [] | b :: r => if b =? 0 then [] else b :: text r end.

(** ** Proofs *)
Lemma finish_asks c e : 0 <= e -> asks c e (finish c e).
Proof.
  intros H. unfold asks, finish, errno_convert, reported. destruct (Z.eqb_spec e 0); [reflexivity|].
  destruct (Z.eqb_spec e 11); [reflexivity|]. destruct (Z.eqb_spec e 4); [reflexivity|]. destruct (Z.eqb_spec e 115); reflexivity.
Qed.
(** Quality of service: the octet of the traffic class has the value in its upper six bits and 0 in the other two. *)
Theorem C79_dscp fd af dscp e : 0 <= e ->
  ((af <> 2 /\ af <> 10) \/ dscp < 0 \/ 63 < dscp -> refused (set_socket_dscp fd af dscp e)) /\
  (0 <= dscp <= 63 -> af = 2 \/ af = 10 -> exists level opt data,
     asks (Setsockopt fd level opt data) e (set_socket_dscp fd af dscp e) /\
     (level, opt) = (if af =? 2 then (0, 1) else (41, 67)) /\ length data = 4%nat /\ octets data /\
     little data < 256 /\ little data / 4 = dscp /\ little data mod 4 = 0).
Proof.
  intros H. split.
  - intros R. unfold refused, set_socket_dscp, AOSL_AF_INET, AOSL_AF_INET6, einval, EINVAL.
    destruct (Z.eqb_spec af 2), (Z.eqb_spec af 10); cbn [negb andb]; try reflexivity; destruct (Z.ltb_spec dscp 0), (Z.ltb_spec 63 dscp); cbn [orb]; try reflexivity; lia.
  - intros D F. assert (T : Z.shiftl (dscp mod 256) 2 = 4 * dscp) by (rewrite Z.mod_small by lia; rewrite Z.shiftl_mul_pow2 by lia; change (2 ^ 2) with 4; lia).
    assert (L : length (int_bytes (4 * dscp)) = 4%nat /\ octets (int_bytes (4 * dscp)) /\ little (int_bytes (4 * dscp)) = 4 * dscp).
    { split; [reflexivity|]. split; [unfold octets, int_bytes; repeat constructor; apply Z.mod_pos_bound; lia|]. unfold int_bytes. cbn [little].
      rewrite (Z.mod_small (4 * dscp)) by lia. rewrite !Z.div_small by lia. change (0 mod 256) with 0. lia. }
    destruct L as (L1 & L2 & L3). unfold set_socket_dscp, AOSL_AF_INET, AOSL_AF_INET6. destruct (Z.ltb_spec dscp 0); [lia|]. destruct (Z.ltb_spec 63 dscp); [lia|]. rewrite T.
    exists (if af =? 2 then 0 else 41), (if af =? 2 then 1 else 67), (int_bytes (4 * dscp)). rewrite L3.
    destruct F as [-> | ->]; cbn [Z.eqb Pos.eqb negb andb orb]; (split; [apply finish_asks; exact H|]); (split; [reflexivity|]); (split; [exact L1|]); (split; [exact L2|]); (split; [lia|]);
      rewrite (Z.mul_comm 4); (split; [apply Z.div_mul; lia|apply Z.mod_mul; lia]).
Qed.
(** Every number of a port on every interface. *)
Theorem C79_port v6 fd af port e : 0 <= e -> 0 <= port < 65536 ->
  (af <> 2 -> (af = 10 -> v6 = false) -> refused (bind_port_only v6 fd af port e)) /\
  (af = 2 \/ (af = 10 /\ v6 = true) -> exists fam prt rest, asks (Bind fd (fam ++ prt ++ rest)) e (bind_port_only v6 fd af port e) /\
     length fam = 2%nat /\ little fam = af /\ length prt = 2%nat /\ octets prt /\ big prt = port /\
     length rest = (if af =? 2 then 12%nat else 24%nat) /\ Forall (fun b => b = 0) rest).
Proof.
  intros H P. split.
  - intros N1 N2. unfold refused, bind_port_only, AOSL_AF_INET, AOSL_AF_INET6. destruct (Z.eqb_spec af 2); [lia|]. destruct (Z.eqb_spec af 10) as [A|A]; [rewrite (N2 A)|rewrite andb_false_r]; reflexivity.
  - assert (S : length (net_short port) = 2%nat /\ octets (net_short port) /\ big (net_short port) = port).
    { split; [reflexivity|]. split; [unfold octets, net_short; repeat constructor; apply Z.mod_pos_bound; lia|]. unfold big, net_short. cbn [rev app little].
      rewrite (Z.mod_small (port / 256)) by (split; [apply Z.div_pos; lia|apply Z.div_lt_upper_bound; lia]). rewrite (Z.div_mod port 256) at 3 by lia. lia. }
    destruct S as (S1 & S2 & S3). intros F. exists [af; 0], (net_short port), (repeat 0 (if af =? 2 then 12 else 24)).
    destruct F as [-> | [-> ->]]; (split; [apply finish_asks; exact H|]); repeat (split; [first [reflexivity|exact S1|exact S2|exact S3]|]); cbn; repeat constructor.
Qed.
Lemma text_app n r : ~ In 0 n -> text (n ++ 0 :: r) = n.
Proof. induction n as [|a n IH]; intros N; [reflexivity|]. cbn [app text]. destruct (Z.eqb_spec a 0) as [A|A]; [exfalso; apply N; left; exact A|]. f_equal. apply IH. intros I. apply N. right. exact I. Qed.
(** A name of at most 15 bytes reaches the system whole; nothing is ever read or written beyond the request. *)
Theorem C79_device_partial fd name e : 0 <= e ->
  (name = None \/ name = Some [] -> refused (bind_device fd name e)) /\
  (forall n, name = Some n -> n <> [] -> ~ In 0 n -> exists data, asks (Setsockopt fd 1 25 data) e (bind_device fd name e) /\
     length data = 40%nat /\ (length (text data) <= 15)%nat /\ ((length n <= 15)%nat -> text data = n)).
Proof.
  intros H. split; [intros [-> | ->]; reflexivity|]. intros n -> NE NZ. exists (ifreq n). split.
  { destruct n; [congruence|]. apply finish_asks. exact H. }
  assert (L : (length (firstn 15 n) <= 15)%nat) by (rewrite firstn_length; lia).
  assert (T : text (ifreq n) = firstn 15 n).
  { unfold ifreq. destruct (40 - length (firstn 15 n))%nat eqn:E; [lia|]. cbn [repeat]. apply text_app. intros I. apply NZ. rewrite <- (firstn_skipn 15 n). apply in_or_app. left. exact I. }
  split; [unfold ifreq; rewrite app_length, repeat_length; lia|]. rewrite T. split; [exact L|]. intros S. apply firstn_all2. lia.
Qed.
(** The code is wrong for longer names: the system is asked for the device called by the first 15 bytes, whatever follows them. *)
Theorem C79_device_refuted : forall fd n x y e, length n = 15%nat -> ~ In 0 n ->
  bind_device fd (Some (n ++ x)) e = bind_device fd (Some (n ++ y)) e /\
  (0 <= e -> exists data, asks (Setsockopt fd 1 25 data) e (bind_device fd (Some (n ++ x)) e) /\ text data = n).
Proof.
  intros fd n x y e L NZ. assert (F : forall z, firstn 15 (n ++ z) = n) by (intros z; rewrite firstn_app, L, firstn_all2 by lia; cbn; apply app_nil_r).
  assert (B : forall z, bind_device fd (Some (n ++ z)) e = finish (Setsockopt fd SOL_SOCKET SO_BINDTODEVICE (ifreq n)) e).
  { intros z. destruct n as [|a n']; [discriminate L|]. set (n := a :: n') in *. change (bind_device fd (Some (n ++ z)) e) with (finish (Setsockopt fd SOL_SOCKET SO_BINDTODEVICE (ifreq (n ++ z))) e).
    unfold ifreq. rewrite F, firstn_all2 by lia. reflexivity. }
  rewrite !B. split; [reflexivity|]. intros H. exists (ifreq n). split; [apply finish_asks; exact H|]. unfold ifreq. rewrite firstn_all2 by lia. rewrite L. cbn [Nat.sub repeat]. apply text_app. exact NZ.
Qed.
(** Concrete cases: expedited forwarding (46) on IPv4, port 8080 on IPv6, "eth0", and a system that refuses with EPERM. *)
Example example_dscp : set_socket_dscp 7 2 46 0 = (0, None, [Setsockopt 7 0 1 [184; 0; 0; 0]]).
Proof. reflexivity. Qed.
Example example_port : bind_port_only true 7 10 8080 0 = (0, None, [Bind 7 ([10; 0; 31; 144] ++ repeat 0 24)]).
Proof. reflexivity. Qed.
Example example_dev : bind_device 7 (Some [101; 116; 104; 48]) 1 = (-2000, Some 2000, [Setsockopt 7 1 25 ([101; 116; 104; 48] ++ repeat 0 36)]).
Proof. reflexivity. Qed.
