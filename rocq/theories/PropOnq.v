(** * C43: arguments reach the target queue unchanged. *)
From Verif Require Import Base Onq ArithProof.

(** ** Specification *)
(** Values a caller can pass: 64 bit words, and the non-negative fd of an open descriptor. *)
Definition word (v : Z) : Prop := 0 <= v < 2 ^ 64.
Definition int (v : Z) : Prop := - 2 ^ 31 <= v < 2 ^ 31.
Definition openfd (v : Z) : Prop := 0 <= v < 2 ^ 31.
(** Errors are in the range of error numbers. *)
Definition wf_env (e : env) : Prop :=
  -4095 <= e_inst e <= 0 /\ -4095 <= e_listen e <= 0 /\ -4095 <= e_connect e <= 0 /\
  (forall n, e_call e = Some n -> 0 < n <= 4095).
(** Nothing in the environment refuses. *)
Definition willing (e : env) : Prop :=
  e_q e = true /\ e_call e = None /\ e_sigp e = false /\ e_exist e = false /\ e_nomem e = false /\
  e_inst e = 0 /\ e_listen e = 0 /\ e_connect e = 0.
(** The sizes and the data function pass the checks that are documented for registrations. *)
Definition good (maxp chk data : Z) : Prop := data <> 0 /\ maxp <= 4194304 /\ (chk <> 0 -> 1024 <= maxp).

(** ** Proofs *)
Lemma u64_word v : word v -> u64 v = v. Proof. unfold word, u64. intros. apply Z.mod_small. lia. Qed.
Lemma map_u64 l : Forall word l -> map u64 l = l.
Proof. induction 1 as [|v l H HF IH]; cbn; [reflexivity|]. rewrite (u64_word v H), IH. reflexivity. Qed.
Lemma int_round v : int v -> s32 (u64 v) = v.
Proof.
  unfold int, s32, wrap_signed, u64. intros H. set (m := v mod 18446744073709551616).
  assert (E : m = v \/ m = v + 18446744073709551616).
  { unfold m. destruct (Z_lt_dec v 0) as [N|N]; [right|left; apply Z.mod_small; lia]. symmetry. apply (Z.mod_unique_pos _ _ (-1)); lia. }
  assert (F : m mod 4294967296 = v mod 4294967296) by (destruct E as [-> | ->]; [reflexivity|]; replace (v + 18446744073709551616) with (v + 4294967296 * 4294967296) by lia; apply Z_mod_plus_full).
  transitivity (s32 v); [unfold s32, wrap_signed; rewrite F; reflexivity|apply s32_id; lia].
Qed.
Lemma poke_n_at done x r v : poke_n (done ++ x :: r) (length done) v = Ok (done ++ Some v :: r).
Proof. induction done as [|d done IH]; cbn; [reflexivity|]. rewrite IH. reflexivity. Qed.
Lemma poke_list_at vs : forall done n off, off = Z.of_nat (length done) -> (length vs <= n)%nat ->
  poke_list (done ++ repeat None n) off vs = Ok (done ++ map Some (map u64 vs) ++ repeat None (n - length vs)).
Proof.
  induction vs as [|v vs IH]; intros done n off -> L; cbn in *; [rewrite Nat.sub_0_r; reflexivity|]. destruct n as [|n]; [lia|]. unfold poke.
  destruct (Z.ltb_spec (Z.of_nat (length done)) 0); [lia|]. rewrite Nat2Z.id. cbn [repeat]. rewrite poke_n_at. cbn [bind].
  replace (done ++ Some (u64 v) :: repeat None n) with ((done ++ [Some (u64 v)]) ++ repeat None n) by (rewrite <- app_assoc; reflexivity).
  rewrite IH; [rewrite <- app_assoc; reflexivity|rewrite app_length; cbn; lia|lia].
Qed.
Lemma marshal fixed args : let n := Z.of_nat (length fixed) in
  (let* a := poke_list (alloca (n + Z.of_nat (length args))) 0 fixed in poke_list a n args) = Ok (map Some (map u64 fixed) ++ map Some (map u64 args)).
Proof.
  cbn zeta. unfold alloca. match goal with |- context [poke_list (repeat None ?k) 0 fixed] => change (repeat None k) with ([] ++ repeat (@None Z) k) end. rewrite (poke_list_at fixed []) by (cbn; lia). cbn [bind app].
  rewrite poke_list_at by (rewrite ?map_length; lia). replace (_ - _ - _)%nat with 0%nat by lia. cbn. rewrite app_nil_r. reflexivity.
Qed.
Lemma take_exact l r : take_words (Z.of_nat (length l)) (map Some l ++ r) = Ok l.
Proof.
  induction l as [|v l IH]; [destruct r; reflexivity|]. cbn [map app length take_words]. destruct (Z.eqb_spec (Z.of_nat (S (length l))) 0); [lia|].
  replace (Z.of_nat (S (length l)) - 1) with (Z.of_nat (length l)) by lia. rewrite IH. reflexivity.
Qed.
Lemma take_exact0 l : take_words (Z.of_nat (length l)) (map Some l) = Ok l.
Proof. rewrite <- (app_nil_r (map Some l)). apply take_exact. Qed.

(** What add_fd_argv does when the arguments are all there. *)
Lemma add_fd_spec e fd timeo maxp extra flags rd wr chk data event args : wf_env e -> openfd fd -> extra < 4096 ->
  exists r, add_fd_argv e fd timeo maxp extra flags rd wr chk data event (Z.of_nat (length args)) (map Some args) = Ok r /\
  (-4095 <= fst r < 0 /\ snd r = None \/
   fst r = 0 /\ snd r = Some (mkReg fd timeo maxp extra flags (dflt_read rd) (dflt_write wr) chk data event args)) /\
  (willing e -> good maxp chk data -> fst r = 0).
Proof.
  intros (W1 & _) F X. unfold add_fd_argv, openfd in *. rewrite take_exact0. cbn [bind].
  destruct (e_sigp e) eqn:E1; [eexists; split; [reflexivity|]; cbn; split; [left; split; [lia|reflexivity]|intros (?&?&?&?&?&?); congruence]|].
  destruct (negb (chk =? 0) && (maxp <? FD_MAX_PACKET_SIZE_MIN) || (FD_MAX_PACKET_SIZE_MAX <? maxp)) eqn:E2.
  { eexists; split; [reflexivity|]; cbn; split; [left; split; [lia|reflexivity]|]. intros _ (G1 & G2 & G3). unfold FD_MAX_PACKET_SIZE_MIN, FD_MAX_PACKET_SIZE_MAX in E2.
    destruct (Z.eqb_spec chk 0), (Z.ltb_spec maxp 1024), (Z.ltb_spec 4194304 maxp); cbn in E2; try discriminate; lia. }
  destruct (Z.leb_spec 4096 extra); [lia|].
  destruct (Z.eqb_spec data 0); [eexists; split; [reflexivity|]; cbn; split; [left; split; [lia|reflexivity]|intros _ (?&?); lia]|].
  destruct (Z.eqb_spec fd (-1)); [lia|]. cbn [negb andb].
  destruct (e_exist e) eqn:E3; [eexists; split; [reflexivity|]; cbn; split; [left; split; [lia|reflexivity]|intros (?&?&?&?&?&?); congruence]|].
  destruct (e_nomem e) eqn:E4; [eexists; split; [reflexivity|]; cbn; split; [left; split; [lia|reflexivity]|intros (?&?&?&?&?&?); congruence]|].
  destruct (Z.ltb_spec (e_inst e) 0); (eexists; split; [reflexivity|]; cbn; split; [|]).
  - left. split; [lia|reflexivity]. - intros (?&?&?&?&?&?&?). lia. - right. auto. - reflexivity.
Qed.
Lemma return_err_neg n g h : -4095 <= n < 0 -> return_err n g h = mkRes (-1) (Some (- n)) g h.
Proof.
  intros H. unfold return_err, u64. replace (-4095 mod 18446744073709551616) with (18446744073709551616 - 4095) by reflexivity.
  replace (n mod 18446744073709551616) with (18446744073709551616 + n) by (apply (Z.mod_unique_pos _ _ (-1)); lia). destruct (Z.leb_spec (18446744073709551616 - 4095) (18446744073709551616 + n)); [reflexivity|lia].
Qed.
Lemma return_err_pos n g h : 0 <= n <= 4095 -> return_err n g h = mkRes n None g h.
Proof.
  intros H. unfold return_err, u64. replace (-4095 mod 18446744073709551616) with (18446744073709551616 - 4095) by reflexivity.
  rewrite (Z.mod_small n) by lia. destruct (Z.leb_spec (18446744073709551616 - 4095) n); [lia|reflexivity].
Qed.
(** The call: refused, or the target gets all words. *)
Lemma call_spec e fixed args : wf_env e -> let n := Z.of_nat (length fixed) + Z.of_nat (length args) in
  let a := map Some (map u64 fixed) ++ map Some (map u64 args) in
  (exists k, call_argv e n a = Ok (inl k) /\ 0 < k <= 4095 /\ (64 < n /\ k = AOSL_E2BIG \/ e_call e <> None)) \/ call_argv e n a = Ok (inr (n, a)) /\ n <= 64 /\ e_call e = None.
Proof.
  intros (_ & _ & _ & W) n a. unfold call_argv, MPQ_ARGC_MAX. destruct (Z.ltb_spec 64 n); [left; eexists; split; [reflexivity|]; split; [cbn; lia|left; auto]|].
  destruct (e_call e) as [k|] eqn:E; [left; exists k; split; [reflexivity|]; split; [apply W; reflexivity|right; discriminate]|].
  assert (L : length a = Z.to_nat n) by (unfold a, n; rewrite app_length, !map_length; lia).
  right. destruct (e_here e); [auto|]. destruct (Z.ltb_spec (Z.of_nat (length a)) n); [lia|]. rewrite <- L, firstn_all. auto.
Qed.

(** The result delivers exactly this registration or reports an error without registering anything. *)
Definition exact_or_error (o : result) (g : reg) (h : list hcall) : Prop :=
  o_ret o = 0 /\ o_reg o = Some g /\ o_hal o = h \/
  o_ret o = -1 /\ o_reg o = None /\ (exists n, o_errno o = Some n /\ 0 < n <= 4095).
Definition delivered (o : result) (g : reg) : Prop := o_ret o = 0 /\ o_reg o = Some g.

Ltac early := eexists; split; [reflexivity|]; rewrite return_err_neg by (cbn; lia); cbn; split; [right; repeat split; eexists; split; [reflexivity|cbn; lia]|].

Ltac pk := unfold tail_of; cbn [map app peek Z.ltb Z.compare Z.to_nat];
  change (Pos.to_nat 1) with 1%nat; change (Pos.to_nat 2) with 2%nat; change (Pos.to_nat 3) with 3%nat; change (Pos.to_nat 4) with 4%nat; change (Pos.to_nat 5) with 5%nat;
  change (Pos.to_nat 6) with 6%nat; change (Pos.to_nat 7) with 7%nat; change (Pos.to_nat 8) with 8%nat; change (Pos.to_nat 9) with 9%nat;
  cbn [nth_error bind skipn fst snd].

(** C43: listening on another queue. *)
Theorem C43_listen_on_q : forall e err_addr fd backlog acc event args, wf_env e -> openfd fd -> int backlog -> word acc -> word event -> Forall word args ->
  exists o, aosl_mpq_listen_on_q e err_addr fd backlog acc event args = Ok o /\
  exact_or_error o (mkReg fd (-1) SIZEOF_ACCEPT_DATA 0 IOFD_SOCK_LISTEN DAccept (Fn 0) 0 acc event args) [HListen fd backlog] /\
  (willing e -> acc <> 0 -> Z.of_nat (length args) <= 59 -> delivered o (mkReg fd (-1) SIZEOF_ACCEPT_DATA 0 IOFD_SOCK_LISTEN DAccept (Fn 0) 0 acc event args)) /\
  (59 < Z.of_nat (length args) -> o_reg o = None).
Proof.
  intros e ea fd bl acc ev args W F B A1 A2 HA. unfold aosl_mpq_listen_on_q, exact_or_error, delivered.
  destruct (Z.ltb_spec MPQ_ARGC_MAX (Z.of_nat (length args))) as [G|G]; unfold MPQ_ARGC_MAX in G; [early; split; [lia|reflexivity]|].
  destruct (e_q e) eqn:Q; cbn [negb]; [|early; split; [intros (?&?); congruence|reflexivity]].
  pose proof (marshal [ea; fd; bl; acc; ev] args) as M. cbn [length] in M. change (Z.of_nat 5) with 5 in M.
  destruct (poke_list (alloca _) 0 _) as [a0| |] eqn:M0; try discriminate M. cbn [bind] in M |- *. rewrite M. cbn [bind].
  pose proof (call_spec e [ea; fd; bl; acc; ev] args W) as C. cbn [length] in C. change (Z.of_nat 5) with 5 in C.
  destruct C as [(k & C & K & Kx)|(C & K & Kx)]; rewrite C; cbn [bind].
  { eexists; split; [reflexivity|]. rewrite return_err_neg by lia. cbn. split; [right; repeat split; eexists; split; [reflexivity|lia]|]. split; [|reflexivity]. intros (? & ? & _) _ L. destruct Kx as [[? _]|?]; [lia|congruence]. }
  unfold target_q_listen. pk.
  unfold this_q_listen. rewrite (int_round fd), (int_round bl) by (unfold int, openfd in *; lia). rewrite (u64_word acc), (u64_word ev) by assumption.
  rewrite (map_u64 args HA). rewrite (u64_word (5 + _ - 5)) by (unfold word; lia). replace (5 + Z.of_nat (length args) - 5) with (Z.of_nat (length args)) by lia.
  pose proof W as (_ & W2 & _).
  destruct (Z.ltb_spec (e_listen e) 0) as [N|N].
  { eexists; split; [reflexivity|]. cbn [fst snd]. rewrite return_err_neg by lia. cbn. split; [right; repeat split; eexists; split; [reflexivity|lia]|]. split; [|reflexivity]. intros (?&?&?&?&?&?&?&?). lia. }
  destruct (add_fd_spec e fd (-1) SIZEOF_ACCEPT_DATA 0 IOFD_SOCK_LISTEN DAccept (Fn 0) 0 acc ev args W F ltac:(lia)) as (r & -> & R & RW). cbn [bind fst snd].
  eexists; split; [reflexivity|]. destruct R as [[R1 R2]|[R1 R2]]; rewrite R2.
  - rewrite return_err_neg by lia. cbn. split; [right; repeat split; eexists; split; [reflexivity|lia]|]. split; [|reflexivity]. intros Wi N0 _. specialize (RW Wi ltac:(unfold good, SIZEOF_ACCEPT_DATA; lia)). lia.
  - rewrite R1, return_err_pos by lia. cbn. split; [left; auto|]. split; [auto|lia].
Qed.
Print Assumptions C43_listen_on_q.

Ltac err3 := cbn; split; [right; repeat split; eexists; split; [reflexivity|cbn; lia]|].

(** C43: datagram sockets. *)
Theorem C43_dgram_on_q : forall e err_addr fd maxp data event args, wf_env e -> openfd fd -> word maxp -> word data -> word event -> Forall word args ->
  exists o, aosl_mpq_add_dgram_socket_on_q e err_addr fd maxp data event args = Ok o /\
  exact_or_error o (mkReg fd (-1) maxp SIZEOF_RECVFROM_ARGS 0 DRecvfrom DSendto 0 data event args) [] /\
  (willing e -> good maxp 0 data -> Z.of_nat (length args) <= 59 -> delivered o (mkReg fd (-1) maxp SIZEOF_RECVFROM_ARGS 0 DRecvfrom DSendto 0 data event args)) /\
  (59 < Z.of_nat (length args) -> o_reg o = None).
Proof.
  intros e ea fd mp data ev args W F B A1 A2 HA. unfold aosl_mpq_add_dgram_socket_on_q, exact_or_error, delivered.
  destruct (Z.ltb_spec MPQ_ARGC_MAX (Z.of_nat (length args))) as [G|G]; unfold MPQ_ARGC_MAX in G; [early; split; [lia|reflexivity]|].
  destruct (e_q e) eqn:Q; cbn [negb]; [|early; split; [intros (?&?); congruence|reflexivity]].
  pose proof (marshal [ea; fd; mp; data; ev] args) as M. cbn [length] in M. change (Z.of_nat 5) with 5 in M.
  destruct (poke_list (alloca _) 0 _) as [a0| |] eqn:M0; try discriminate M. cbn [bind] in M |- *. rewrite M. cbn [bind].
  pose proof (call_spec e [ea; fd; mp; data; ev] args W) as C. cbn [length] in C. change (Z.of_nat 5) with 5 in C.
  destruct C as [(k & C & K & Kx)|(C & K & Kx)]; rewrite C; cbn [bind].
  { eexists; split; [reflexivity|]. rewrite return_err_neg by lia. err3. split; [|reflexivity]. intros (? & ? & _) _ L. destruct Kx as [[? _]|?]; [lia|congruence]. }
  unfold target_q_dgram. pk.
  unfold this_q_dgram. rewrite (int_round fd) by (unfold int, openfd in *; lia). rewrite (u64_word mp), (u64_word data), (u64_word ev) by assumption.
  rewrite (map_u64 args HA). rewrite (u64_word (5 + _ - 5)) by (unfold word; lia). replace (5 + Z.of_nat (length args) - 5) with (Z.of_nat (length args)) by lia.
  destruct (add_fd_spec e fd (-1) mp SIZEOF_RECVFROM_ARGS 0 DRecvfrom DSendto 0 data ev args W F ltac:(reflexivity)) as (r & -> & R & RW). cbn [bind fst snd].
  eexists; split; [reflexivity|]. destruct R as [[R1 R2]|[R1 R2]]; rewrite R2.
  - rewrite return_err_neg by lia. err3. split; [|reflexivity]. intros Wi N0 _. specialize (RW Wi N0). lia.
  - rewrite R1, return_err_pos by lia. cbn. split; [left; auto|]. split; [auto|lia].
Qed.
Print Assumptions C43_dgram_on_q.

(** C43: stream sockets. *)
Theorem C43_stream_on_q : forall e err_addr fd maxp chk data event args, wf_env e -> openfd fd -> word maxp -> word chk -> word data -> word event -> Forall word args ->
  exists o, aosl_mpq_add_stream_socket_on_q e err_addr fd maxp chk data event args = Ok o /\
  exact_or_error o (mkReg fd (-1) maxp 0 0 DRecv DSend chk data event args) [] /\
  (willing e -> good maxp chk data -> Z.of_nat (length args) <= 58 -> delivered o (mkReg fd (-1) maxp 0 0 DRecv DSend chk data event args)) /\
  (58 < Z.of_nat (length args) -> o_reg o = None).
Proof.
  intros e ea fd mp chk data ev args W F B A0 A1 A2 HA. unfold aosl_mpq_add_stream_socket_on_q, exact_or_error, delivered.
  destruct (Z.ltb_spec MPQ_ARGC_MAX (Z.of_nat (length args))) as [G|G]; unfold MPQ_ARGC_MAX in G; [early; split; [lia|reflexivity]|].
  destruct (e_q e) eqn:Q; cbn [negb]; [|early; split; [intros (?&?); congruence|reflexivity]].
  pose proof (marshal [ea; fd; mp; chk; data; ev] args) as M. cbn [length] in M. change (Z.of_nat 6) with 6 in M.
  destruct (poke_list (alloca _) 0 _) as [a0| |] eqn:M0; try discriminate M. cbn [bind] in M |- *. rewrite M. cbn [bind].
  pose proof (call_spec e [ea; fd; mp; chk; data; ev] args W) as C. cbn [length] in C. change (Z.of_nat 6) with 6 in C.
  destruct C as [(k & C & K & Kx)|(C & K & Kx)]; rewrite C; cbn [bind].
  { eexists; split; [reflexivity|]. rewrite return_err_neg by lia. err3. split; [|reflexivity]. intros (? & ? & _) _ L. destruct Kx as [[? _]|?]; [lia|congruence]. }
  unfold target_q_stream. pk.
  unfold this_q_stream. rewrite (int_round fd) by (unfold int, openfd in *; lia). rewrite (u64_word mp), (u64_word chk), (u64_word data), (u64_word ev) by assumption.
  rewrite (map_u64 args HA). rewrite (u64_word (6 + _ - 6)) by (unfold word; lia). replace (6 + Z.of_nat (length args) - 6) with (Z.of_nat (length args)) by lia.
  destruct (add_fd_spec e fd (-1) mp 0 0 DRecv DSend chk data ev args W F ltac:(reflexivity)) as (r & -> & R & RW). cbn [bind fst snd].
  eexists; split; [reflexivity|]. destruct R as [[R1 R2]|[R1 R2]]; rewrite R2.
  - rewrite return_err_neg by lia. err3. split; [|reflexivity]. intros Wi N0 _. specialize (RW Wi N0). lia.
  - rewrite R1, return_err_pos by lia. cbn. split; [left; auto|]. split; [auto|lia].
Qed.
Print Assumptions C43_stream_on_q.

(** The read / write functions a registration of the user's functions ends with. *)
Definition user_read (f : Z) : fnp := if f =? 1 then DRead else Fn f.
Definition user_write (f : Z) : fnp := if f =? 1 then DWrite else Fn f.

(** C43: any descriptor.  A call that the queue refuses returns the positive
    error number instead of -1. *)
Theorem C43_add_fd_on_q : forall e err_addr fd maxp rd wr chk data event args, wf_env e -> openfd fd -> word maxp -> word rd -> word wr -> word chk -> word data -> word event -> Forall word args ->
  exists o, aosl_mpq_add_fd_on_q e err_addr fd maxp rd wr chk data event args = Ok o /\
  (exact_or_error o (mkReg fd (-1) maxp 0 0 (user_read rd) (user_write wr) chk data event args) [] \/
   o_reg o = None /\ o_errno o = None /\ 0 < o_ret o <= 4095) /\
  (willing e -> good maxp chk data -> Z.of_nat (length args) <= 56 -> delivered o (mkReg fd (-1) maxp 0 0 (user_read rd) (user_write wr) chk data event args)) /\
  (56 < Z.of_nat (length args) -> o_reg o = None).
Proof.
  intros e ea fd mp rd wr chk data ev args W F B B0 B1 A0 A1 A2 HA. unfold aosl_mpq_add_fd_on_q, exact_or_error, delivered.
  destruct (Z.ltb_spec MPQ_ARGC_MAX (Z.of_nat (length args))) as [G|G]; unfold MPQ_ARGC_MAX in G.
  { eexists; split; [reflexivity|]; rewrite return_err_neg by (cbn; lia); cbn; split; [left; right; repeat split; eexists; split; [reflexivity|cbn; lia]|]. split; [lia|reflexivity]. }
  destruct (e_q e) eqn:Q; cbn [negb].
  2:{ eexists; split; [reflexivity|]; rewrite return_err_neg by (cbn; lia); cbn; split; [left; right; repeat split; eexists; split; [reflexivity|cbn; lia]|]. split; [intros (?&?); congruence|reflexivity]. }
  pose proof (marshal [ea; fd; mp; rd; wr; chk; data; ev] args) as M. cbn [length] in M. change (Z.of_nat 8) with 8 in M.
  destruct (poke_list (alloca _) 0 _) as [a0| |] eqn:M0; try discriminate M. cbn [bind] in M |- *. rewrite M. cbn [bind].
  pose proof (call_spec e [ea; fd; mp; rd; wr; chk; data; ev] args W) as C. cbn [length] in C. change (Z.of_nat 8) with 8 in C.
  destruct C as [(k & C & K & Kx)|(C & K & Kx)]; rewrite C; cbn [bind].
  { eexists; split; [reflexivity|]. rewrite return_err_pos by lia. cbn. split; [right; repeat split; lia|]. split; [|reflexivity]. intros (? & ? & _) _ L. destruct Kx as [[? _]|?]; [lia|congruence]. }
  unfold target_q_add_fd. pk.
  rewrite (int_round fd) by (unfold int, openfd in *; lia). rewrite (u64_word mp), (u64_word rd), (u64_word wr), (u64_word chk), (u64_word data), (u64_word ev) by assumption.
  rewrite (map_u64 args HA). rewrite (u64_word (8 + _ - 8)) by (unfold word; lia). replace (8 + Z.of_nat (length args) - 8) with (Z.of_nat (length args)) by lia.
  destruct (add_fd_spec e fd (-1) mp 0 0 (Fn rd) (Fn wr) chk data ev args W F ltac:(reflexivity)) as (r & -> & R & RW). change (dflt_read (Fn rd)) with (user_read rd) in R. change (dflt_write (Fn wr)) with (user_write wr) in R. cbn [bind fst snd].
  eexists; split; [reflexivity|]. destruct R as [[R1 R2]|[R1 R2]]; rewrite R2.
  - rewrite return_err_neg by lia. cbn; split; [left; right; repeat split; eexists; split; [reflexivity|cbn; lia]|]. split; [|reflexivity]. intros Wi N0 _. specialize (RW Wi N0). lia.
  - rewrite R1, return_err_pos by lia. cbn. split; [left; left; auto|]. split; [auto|lia].
Qed.
Print Assumptions C43_add_fd_on_q.

(** C43: the calls for the caller's own queue. *)
Theorem C43_own_queue : forall e fd maxp rd wr chk data event args, wf_env e -> openfd fd -> Forall word args ->
  exists o, aosl_mpq_add_fd e fd maxp rd wr chk data event args = Ok o /\
  exact_or_error o (mkReg fd (-1) maxp 0 0 (user_read rd) (user_write wr) chk data event args) [] /\
  (willing e -> good maxp chk data -> Z.of_nat (length args) <= 64 -> delivered o (mkReg fd (-1) maxp 0 0 (user_read rd) (user_write wr) chk data event args)).
Proof.
  intros e fd mp rd wr chk data ev args W F HA. unfold aosl_mpq_add_fd, exact_or_error, delivered.
  destruct (Z.ltb_spec MPQ_ARGC_MAX (Z.of_nat (length args))) as [G|G]; unfold MPQ_ARGC_MAX in G; [eexists; split; [reflexivity|]; err3; lia|].
  destruct (e_q e) eqn:Q; cbn [negb]; [|eexists; split; [reflexivity|]; err3; intros (?&?); congruence].
  pose proof (marshal [] args) as M. cbn [length bind poke_list map app] in M. change (Z.of_nat 0) with 0 in M. rewrite Z.add_0_l in M. rewrite M. cbn [bind]. rewrite (map_u64 args HA).
  destruct (add_fd_spec e fd (-1) mp 0 0 (Fn rd) (Fn wr) chk data ev args W F ltac:(reflexivity)) as (r & -> & R & RW). change (dflt_read (Fn rd)) with (user_read rd) in R. change (dflt_write (Fn wr)) with (user_write wr) in R. cbn [bind fst snd].
  eexists; split; [reflexivity|]. destruct R as [[R1 R2]|[R1 R2]]; rewrite R2.
  - rewrite return_err_neg by lia. err3. intros Wi N0 _. specialize (RW Wi N0). lia.
  - rewrite R1, return_err_pos by lia. cbn. split; [left; auto|]. auto.
Qed.
Print Assumptions C43_own_queue.
(** C43: listening on the own queue. *)
Theorem C43_own_listen : forall e fd backlog acc event args, wf_env e -> openfd fd -> Forall word args ->
  exists o, aosl_mpq_listen e fd backlog acc event args = Ok o /\
  exact_or_error o (mkReg fd (-1) SIZEOF_ACCEPT_DATA 0 IOFD_SOCK_LISTEN DAccept (Fn 0) 0 acc event args) [HListen fd backlog] /\
  (willing e -> acc <> 0 -> Z.of_nat (length args) <= 64 -> delivered o (mkReg fd (-1) SIZEOF_ACCEPT_DATA 0 IOFD_SOCK_LISTEN DAccept (Fn 0) 0 acc event args)).
Proof.
  intros e fd bl acc ev args W F HA. unfold aosl_mpq_listen, exact_or_error, delivered.
  destruct (Z.ltb_spec MPQ_ARGC_MAX (Z.of_nat (length args))) as [G|G]; unfold MPQ_ARGC_MAX in G; [early; lia|].
  destruct (e_q e) eqn:Q; cbn [negb]; [|early; intros (?&?); congruence].
  pose proof (marshal [] args) as M. cbn [length bind poke_list map app] in M. change (Z.of_nat 0) with 0 in M. rewrite Z.add_0_l in M. rewrite M. cbn [bind]. rewrite (map_u64 args HA).
  unfold this_q_listen. pose proof W as (_ & W2 & _).
  destruct (Z.ltb_spec (e_listen e) 0) as [N|N].
  { eexists; split; [reflexivity|]. cbn [fst snd]. rewrite return_err_neg by lia. err3. intros (?&?&?&?&?&?&?&?). lia. }
  destruct (add_fd_spec e fd (-1) SIZEOF_ACCEPT_DATA 0 IOFD_SOCK_LISTEN DAccept (Fn 0) 0 acc ev args W F ltac:(lia)) as (r & -> & R & RW). cbn [bind fst snd].
  eexists; split; [reflexivity|]. destruct R as [[R1 R2]|[R1 R2]]; rewrite R2.
  - rewrite return_err_neg by lia. err3. intros Wi N0 _. specialize (RW Wi ltac:(unfold good, SIZEOF_ACCEPT_DATA; lia)). lia.
  - rewrite R1, return_err_pos by lia. cbn. split; [left; auto|]. auto.
Qed.
Print Assumptions C43_own_listen.

(** What a connection registers with given arguments. *)
Definition conn_reg (fd timeo maxp chk data event : Z) (args : list Z) : reg := mkReg fd timeo maxp 0 IOFD_NOT_READY DRecv DSend chk data event args.
Lemma connect_spec e fd dest timeo maxp chk data event args : wf_env e -> openfd fd ->
  exists r, this_q_connect e fd dest timeo maxp chk data event (Z.of_nat (length args)) (map Some args) = Ok r /\
  (-4095 <= fst (fst r) < 0 /\ snd (fst r) = None \/ fst (fst r) = 0 /\ snd (fst r) = Some (conn_reg fd timeo maxp chk data event args) /\ snd r = [HConnect fd dest]) /\
  (willing e -> good maxp chk data -> fst (fst r) = 0).
Proof.
  intros W F. unfold this_q_connect. destruct (add_fd_spec e fd timeo maxp 0 IOFD_NOT_READY DRecv DSend chk data event args W F ltac:(reflexivity)) as (r & -> & R & RW). cbn [bind].
  destruct W as (_ & _ & W3 & _). destruct R as [[R1 R2]|[R1 R2]].
  - destruct (Z.ltb_spec (fst r) 0); [|lia]. eexists; split; [reflexivity|]. cbn. split; [left; split; [lia|reflexivity]|]. intros A B. specialize (RW A B). lia.
  - destruct (Z.ltb_spec (fst r) 0); [lia|]. destruct (Z.ltb_spec (e_connect e) 0); (eexists; split; [reflexivity|]); cbn; rewrite ?R2.
    + split; [left; split; [lia|reflexivity]|]. intros (?&?&?&?&?&?&?&?). lia.
    + split; [right; auto|auto].
Qed.
(** C43: connecting on the own queue. *)
Theorem C43_own_connect : forall e fd dest timeo maxp chk data event args, wf_env e -> openfd fd -> Forall word args ->
  exists o, aosl_mpq_connect e fd dest timeo maxp chk data event args = Ok o /\
  exact_or_error o (conn_reg fd timeo maxp chk data event args) [HConnect fd dest] /\
  (willing e -> good maxp chk data -> Z.of_nat (length args) <= 64 -> delivered o (conn_reg fd timeo maxp chk data event args)).
Proof.
  intros e fd dest timeo mp chk data ev args W F HA. unfold aosl_mpq_connect, exact_or_error, delivered.
  destruct (Z.ltb_spec MPQ_ARGC_MAX (Z.of_nat (length args))) as [G|G]; unfold MPQ_ARGC_MAX in G; [early; lia|].
  destruct (e_q e) eqn:Q; cbn [negb]; [|early; intros (?&?); congruence].
  pose proof (marshal [] args) as M. cbn [length bind poke_list map app] in M. change (Z.of_nat 0) with 0 in M. rewrite Z.add_0_l in M. rewrite M. cbn [bind]. rewrite (map_u64 args HA).
  destruct (connect_spec e fd dest timeo mp chk data ev args W F) as (r & -> & R & RW). cbn [bind fst snd].
  eexists; split; [reflexivity|]. destruct R as [[R1 R2]|(R1 & R2 & R3)]; rewrite R2.
  - rewrite return_err_neg by lia. err3. intros Wi N0 _. specialize (RW Wi N0). lia.
  - rewrite R1, return_err_pos by lia. cbn. rewrite R3. split; [left; auto|]. auto.
Qed.
Print Assumptions C43_own_connect.

(** C43, refuted for connecting on another queue: whenever arguments are given
    and the connection is registered, the last argument is missing. *)
Lemma firstn_map_app_all (l : list Z) x : firstn (length l) (map Some (l ++ [x])) = map Some l.
Proof. rewrite map_app. rewrite firstn_app, map_length, Nat.sub_diag. cbn. rewrite app_nil_r. rewrite <- (map_length Some l). apply firstn_all. Qed.
Lemma connect_on_q_marshal ea fd dest timeo maxp chk data event args :
  (let* a := poke_list (alloca (9 + Z.of_nat (length args))) 0 [ea; fd; dest; timeo; maxp; chk; data; event] in poke_list a 9 args)
   = Ok (map Some (map u64 [ea; fd; dest; timeo; maxp; chk; data; event]) ++ None :: map Some (map u64 args)).
Proof.
  unfold alloca. match goal with |- context [poke_list (repeat None ?k) 0 ?f] => change (repeat None k) with ([] ++ repeat (@None Z) k); rewrite (poke_list_at f []) by (cbn [length]; lia) end.
  cbn [bind app length]. replace (Z.to_nat (9 + Z.of_nat (length args)) - 8)%nat with (1 + length args)%nat by lia. cbn [repeat Nat.add].
  match goal with |- poke_list (?d ++ None :: ?r) _ _ = _ => replace (d ++ None :: r) with ((d ++ [None]) ++ r) by (rewrite <- app_assoc; reflexivity) end.
  rewrite poke_list_at by (cbn; lia). replace (length args - length args)%nat with 0%nat by lia. cbn [repeat]. rewrite app_nil_r, <- app_assoc. reflexivity.
Qed.
Theorem C43_connect_on_q_refuted : forall e err_addr fd dest timeo maxp chk data event args last, wf_env e -> openfd fd -> word dest -> int timeo -> word maxp -> word chk -> word data -> word event ->
  Forall word args -> word last ->
  exists o, aosl_mpq_connect_on_q e err_addr fd dest timeo maxp chk data event (args ++ [last]) = Ok o /\
  exact_or_error o (conn_reg fd timeo maxp chk data event args) [HConnect fd dest] /\
  (willing e -> good maxp chk data -> Z.of_nat (length args) <= 55 -> delivered o (conn_reg fd timeo maxp chk data event args)).
Proof.
  intros e ea fd dest timeo mp chk data ev args last W F B B1 A0 A1 A2 A3 HA HL. unfold aosl_mpq_connect_on_q, exact_or_error, delivered.
  set (xs := args ++ [last]). assert (L : Z.of_nat (length xs) = Z.of_nat (length args) + 1) by (unfold xs; rewrite app_length; cbn; lia).
  destruct (Z.ltb_spec MPQ_ARGC_MAX (Z.of_nat (length xs))) as [G|G]; unfold MPQ_ARGC_MAX in G; [early; lia|].
  destruct (e_q e) eqn:Q; cbn [negb]; [|early; intros (?&?); congruence].
  pose proof (connect_on_q_marshal ea fd dest timeo mp chk data ev xs) as M.
  destruct (poke_list (alloca _) 0 _) as [a0| |] eqn:M0; try discriminate M. cbn [bind] in M |- *. rewrite M. cbn [bind].
  rewrite (map_u64 xs) by (unfold xs; apply Forall_app; auto).
  destruct W as (W1 & W2 & W3 & W4). pose proof (conj W1 (conj W2 (conj W3 W4)) : wf_env e) as W.
  destruct (Z_lt_dec 64 (8 + Z.of_nat (length xs))) as [G2|G2].
  { unfold call_argv, MPQ_ARGC_MAX. destruct (Z.ltb_spec 64 (8 + Z.of_nat (length xs))); [|lia]. cbn [bind]. early. lia. }
  destruct (e_call e) as [k|] eqn:EC.
  { unfold call_argv, MPQ_ARGC_MAX. destruct (Z.ltb_spec 64 (8 + Z.of_nat (length xs))); [lia|]. rewrite EC. specialize (W4 k eq_refl). cbn [bind]. eexists; split; [reflexivity|]. rewrite return_err_neg by lia. err3. intros (?&?&?). congruence. }
  (* in both cases the target passes argc - 1 words starting with the first argument *)
  assert (T : exists w, call_argv e (8 + Z.of_nat (length xs)) (map Some (map u64 [ea; fd; dest; timeo; mp; chk; data; ev]) ++ None :: map Some xs)
     = Ok (inr (8 + Z.of_nat (length xs), map Some (map u64 [ea; fd; dest; timeo; mp; chk; data; ev]) ++ None :: map Some args ++ w))).
  { unfold call_argv, MPQ_ARGC_MAX. destruct (Z.ltb_spec 64 (8 + Z.of_nat (length xs))); [lia|]. rewrite EC.
    destruct (e_here e); [exists [Some last]; unfold xs; rewrite map_app; reflexivity|]. rewrite app_length. cbn [length map]. rewrite map_length. destruct (Z.ltb_spec (Z.of_nat (8 + S (length xs))) (8 + Z.of_nat (length xs))); [lia|].
    exists []. rewrite app_nil_r. replace (Z.to_nat (8 + Z.of_nat (length xs))) with (9 + length args)%nat by lia. cbn [firstn app Nat.add]. unfold xs. rewrite firstn_map_app_all. reflexivity. }
  destruct T as (w & T). rewrite T. cbn [bind].
  unfold target_q_connect. pk. rewrite (int_round fd), (int_round timeo) by (unfold int, openfd in *; lia).
  rewrite (u64_word dest), (u64_word mp), (u64_word chk), (u64_word data), (u64_word ev) by assumption.
  rewrite (u64_word (8 + _ - 9)) by (unfold word; lia). replace (8 + Z.of_nat (length xs) - 9) with (Z.of_nat (length args)) by lia.
  destruct (connect_spec e fd dest timeo mp chk data ev args W F) as (r & HR & R & RW).
  assert (HR2 : this_q_connect e fd dest timeo mp chk data ev (Z.of_nat (length args)) (map Some args ++ w) = Ok r).
  { rewrite <- HR. unfold this_q_connect, add_fd_argv. rewrite take_exact, take_exact0. reflexivity. }
  rewrite HR2. cbn [bind fst snd].
  eexists; split; [reflexivity|]. destruct R as [[R1 R2]|(R1 & R2 & R3)]; rewrite R2.
  - rewrite return_err_neg by lia. err3. intros Wi N0 _. specialize (RW Wi N0). lia.
  - rewrite R1, return_err_pos by lia. cbn. rewrite R3. split; [left; auto|]. auto.
Qed.
Print Assumptions C43_connect_on_q_refuted.

(** C43, refuted: without arguments the count becomes 2^64 - 1 and memory behind
    the arguments is read. *)
Theorem C43_connect_on_q_none_refuted : forall e err_addr fd dest timeo maxp chk data event, willing e -> openfd fd -> word dest -> int timeo -> word maxp -> word chk -> word data -> word event ->
  good maxp chk data -> aosl_mpq_connect_on_q e err_addr fd dest timeo maxp chk data event [] = UB.
Proof.
  intros e ea fd dest timeo mp chk data ev (H1 & H2 & H3 & H4 & H5 & H6 & H7 & H8) F B B1 A0 A1 A2 A3 (G1 & G2 & G3). unfold aosl_mpq_connect_on_q. cbn [length Z.of_nat].
  change (MPQ_ARGC_MAX <? 0) with false. cbn iota. rewrite H1. cbn [negb].
  pose proof (connect_on_q_marshal ea fd dest timeo mp chk data ev []) as M. cbn [length Z.of_nat] in M.
  destruct (poke_list (alloca _) 0 _) as [a0| |] eqn:M0; try discriminate M. cbn [bind] in M |- *. rewrite M. cbn [bind].
  assert (T : exists w, call_argv e (8 + 0) (map Some (map u64 [ea; fd; dest; timeo; mp; chk; data; ev]) ++ None :: map Some (map u64 []))
     = Ok (inr (8, map Some (map u64 [ea; fd; dest; timeo; mp; chk; data; ev]) ++ w)) /\ (length w <= 1)%nat).
  { unfold call_argv. change (MPQ_ARGC_MAX <? 8 + 0) with false. cbn iota. rewrite H2. destruct (e_here e); [exists [None]; auto|]. exists []. split; [reflexivity|cbn; lia]. }
  destruct T as (w & T & Lw). rewrite T. cbn [bind]. unfold target_q_connect. pk. destruct w as [|x [|y w]]; [| |cbn in Lw; lia]; cbn [skipn];
    rewrite (int_round fd), (int_round timeo) by (unfold int, openfd in *; lia); rewrite (u64_word dest), (u64_word mp), (u64_word chk), (u64_word data), (u64_word ev) by assumption;
    unfold this_q_connect, add_fd_argv; rewrite H3;
    (replace (negb (chk =? 0) && (mp <? FD_MAX_PACKET_SIZE_MIN) || (FD_MAX_PACKET_SIZE_MAX <? mp)) with false by (unfold FD_MAX_PACKET_SIZE_MIN, FD_MAX_PACKET_SIZE_MAX; destruct (Z.eqb_spec chk 0), (Z.ltb_spec mp 1024), (Z.ltb_spec 4194304 mp); cbn; try reflexivity; lia));
    (replace (data =? 0) with false by (symmetry; apply Z.eqb_neq; exact G1)); (replace (fd =? -1) with false by (symmetry; apply Z.eqb_neq; unfold openfd in F; lia)); rewrite H4, H5; reflexivity.
Qed.
Print Assumptions C43_connect_on_q_none_refuted.

(** C43, refuted: with 57 to 64 arguments, which the argument check admits,
    adding a descriptor fails but returns a positive value. *)
Theorem C43_add_fd_too_many_refuted : forall e err_addr fd maxp rd wr chk data event args, wf_env e -> openfd fd -> e_q e = true -> 56 < Z.of_nat (length args) <= 64 ->
  aosl_mpq_add_fd_on_q e err_addr fd maxp rd wr chk data event args = Ok (mkRes AOSL_E2BIG None None []).
Proof.
  intros e ea fd mp rd wr chk data ev args W F Q L. unfold aosl_mpq_add_fd_on_q. destruct (Z.ltb_spec MPQ_ARGC_MAX (Z.of_nat (length args))) as [G|G]; unfold MPQ_ARGC_MAX in G; [lia|]. rewrite Q. cbn [negb].
  pose proof (marshal [ea; fd; mp; rd; wr; chk; data; ev] args) as M. cbn [length] in M. change (Z.of_nat 8) with 8 in M.
  destruct (poke_list (alloca _) 0 _) as [a0| |] eqn:M0; try discriminate M. cbn [bind] in M |- *. rewrite M. cbn [bind].
  unfold call_argv. unfold MPQ_ARGC_MAX. destruct (Z.ltb_spec 64 (8 + Z.of_nat (length args))); [|lia]. reflexivity.
Qed.
Print Assumptions C43_add_fd_too_many_refuted.

(** ** Examples *)
Definition fine (here : bool) : env := mkEnv true here None false false false 0 0 0.
Example fine_ok : wf_env (fine false) /\ willing (fine true). Proof. repeat split; cbn; try lia; discriminate. Qed.
Example stream_three : aosl_mpq_add_stream_socket_on_q (fine false) 777 5 2000 90 91 92 [1; 2; 3] = Ok (mkRes 0 None (Some (mkReg 5 (-1) 2000 0 0 DRecv DSend 90 91 92 [1; 2; 3])) []).
Proof. vm_compute. reflexivity. Qed.
Example connect_three : aosl_mpq_connect_on_q (fine false) 777 5 66 3000 2000 90 91 92 [1; 2; 3] = Ok (mkRes 0 None (Some (conn_reg 5 3000 2000 90 91 92 [1; 2])) [HConnect 5 66]).
Proof. vm_compute. reflexivity. Qed.
