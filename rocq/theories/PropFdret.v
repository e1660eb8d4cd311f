(** * C61: what the descriptor functions report *)
From Verif Require Import Base Arith ArithProof Fdret.

(** ** Specification *)
(** The report is honest: the operation's own result if it ran and succeeded; -1 and its errno if it ran and failed; -1 and some errno if it did not run. *)
Definition honest (r : res) : Prop :=
  match r_ran r with
  | Some n => (0 <= n -> r_ret r = n) /\ (n < 0 -> r_ret r = -1 /\ r_errno r = Some (- n))
  | None => r_ret r = -1 /\ exists e, r_errno r = Some e /\ 0 < e
  end.
(** Operations give a number of bytes or 0, or minus an errno. *)
Definition sane (v : env) : Prop := -4095 <= e_result v < 2147483648 /\ -4095 <= e_raw v < 2147483648.
(** The functions that turn a refusal into a positive value. *)
Definition positive (o : op) : bool := match o with Write | Send | Sendto | Close | DelFd | AddFdOnQ => true | _ => false end.
(** The target queue has room the first time, or later before the own queue is destroyed. *)
Definition room (v : env) : Prop := e_own v = true \/ exists i l, nth_error (e_looks v) i = Some l /\ l_count l < e_max v /\
  forall j m, (j < i)%nat -> nth_error (e_looks v) j = Some m -> e_nonblock v = false /\ l_term m = false.

Lemma rz e : -4095 <= e <= -1 -> return_err_z e = (Some (- e), -1).
Proof.
  intros H. unfold return_err_z. rewrite s64_id by lia. assert (E : IS_ERR_VALUE e = true) by (apply is_err_value_iff; unfold u64; lia).
  rewrite E. unfold set_error. rewrite s32_id by lia. reflexivity.
Qed.
Lemma rzp e : 0 <= e < 2 ^ 63 -> return_err_z e = (None, e).
Proof.
  intros H. unfold return_err_z. rewrite s64_id by lia. destruct (IS_ERR_VALUE e) eqn:E; [|reflexivity]. apply is_err_value_iff in E. unfold u64 in E. lia.
Qed.
Lemma ri e : -4095 <= e <= -1 -> return_err e = (Some (- e), -1). Proof. intros H. apply (proj1 (return_err_spec e) H). Qed.
Lemma rip e : 0 <= e < 2147483648 -> return_err e = (None, e). Proof. intros H. apply (proj2 (return_err_spec e)); lia. Qed.

Definition retf (f : Z -> option Z * Z) : Prop := (forall e, -4095 <= e <= -1 -> f e = (Some (- e), -1)) /\ (forall e, 0 <= e < 2147483648 -> f e = (None, e)).
Lemma retf_z : retf return_err_z. Proof. split; intros; [apply rz|apply rzp]; lia. Qed.
Lemma retf_i : retf return_err. Proof. split; [apply ri|apply rip]. Qed.

Lemma honest_ran f n b : retf f -> -4095 <= n < 2147483648 -> b = None -> honest (ret_of f (Some n) b n).
Proof.
  intros (N & P) H ->. unfold ret_of, honest. destruct (Z_lt_ge_dec n 0) as [L|L].
  - rewrite N by lia. cbn. split; [lia|auto].
  - rewrite P by lia. cbn. split; [auto|lia].
Qed.
Lemma honest_not f e b : retf f -> -4095 <= e <= -1 -> honest (ret_of f None b e).
Proof. intros (N & P) H. unfold ret_of, honest. rewrite N by lia. cbn. split; [reflexivity|]. exists (- e). split; [reflexivity|lia]. Qed.
Lemma add_f_refused ls m nb e : add_f ls m nb = Refused e -> e = - AOSL_EAGAIN \/ e = - AOSL_EINTR.
Proof. induction ls as [|l ls IH]; cbn; [discriminate|]. destruct (_ <? _); [discriminate|]. destruct nb; [intros [= <-]; auto|]. destruct (l_term l); [intros [= <-]; auto|exact IH]. Qed.
Lemma call_q_neg f v r : retf f -> sane v -> call_q f true v = Some r -> honest r.
Proof.
  intros R (S1 & _). unfold call_q. destruct (call_f _ _ _ _) as [|e|] eqn:E; [| |discriminate]; intros [= <-].
  - apply honest_ran; auto.
  - apply honest_not; [exact R|]. unfold call_f in E. destruct (e_own v); [discriminate|]. destruct (add_f_refused _ _ _ _ E) as [-> | ->]; vm_compute; split; discriminate.
Qed.
Lemma room_ran v : room v -> call_f (e_own v) (e_looks v) (e_max v) (e_nonblock v) = Ran.
Proof.
  intros [O|(i & l & H & L & B)]; unfold call_f; [rewrite O; reflexivity|]. destruct (e_own v); [reflexivity|]. revert i H B. induction (e_looks v) as [|a ls IH]; intros i H B; [destruct i; discriminate|].
  cbn [add_f]. destruct (l_count a <? e_max v) eqn:E; [reflexivity|]. destruct i as [|i]; [cbn in H; assert (a = l) by congruence; subst; lia|].
  destruct (B 0%nat a ltac:(lia) eq_refl) as (Nb & Tm). rewrite Nb, Tm. rewrite <- Nb. apply (IH i); [exact H|]. intros j m J K. apply (B (S j) m); [lia|exact K].
Qed.
Lemma call_q_room f v r : retf f -> sane v -> room v -> call_q f false v = Some r -> honest r.
Proof. intros R (S1 & _) Rm. unfold call_q. rewrite (room_ran v Rm). intros [= <-]. apply honest_ran; auto. Qed.

(** ** Theorems *)
(** Connecting, listening and adding sockets on another queue always report honestly. *)
Theorem C61_on_q o v r : positive o = false -> sane v -> api o v = Some r -> honest r.
Proof.
  intros P S. destruct o; try discriminate P; cbn [api]; (destruct (e_q v); [intros H; exact (call_q_neg _ _ _ retf_i S H)|intros [= <-]; apply honest_not; [exact retf_i|vm_compute; split; discriminate]]).
Qed.
(** The others do so while the target queue has room, or gets room. *)
Theorem C61_descriptors_partial o v r : sane v -> room v -> api o v = Some r -> honest r.
Proof.
  intros S Rm H. destruct (positive o) eqn:P; [|exact (C61_on_q o v r P S H)].
  assert (NI : honest (ret_of return_err_z None None (- AOSL_EINVAL)) /\ honest (ret_of return_err None None (- AOSL_EINVAL)) /\ honest (ret_of return_err None None (- AOSL_EBADF))) by (split; [|split]; (apply honest_not; [exact retf_i || exact retf_z|vm_compute; split; discriminate])).
  destruct NI as (N1 & N2 & N3).
  destruct o; try discriminate P; cbn [api] in H.
  all: try (destruct (e_f v); [|injection H as <-; first [assumption|apply honest_ran; [exact retf_i|apply S|reflexivity]]]).
  all: try (destruct (e_own v || e_q v)%bool; [|injection H as <-; assumption]).
  all: try (destruct (e_q v); [|injection H as <-; assumption]).
  all: first [exact (call_q_room _ _ _ retf_z S Rm H)|exact (call_q_room _ _ _ retf_i S Rm H)].
Qed.
(** A refusal of a full nonblocking queue looks like success: the functions return 1011, and nothing was done. *)
Theorem C61_refused_refuted o v l ls : positive o = true -> e_f v = true -> e_q v = true -> e_own v = false -> e_looks v = l :: ls -> e_max v <= l_count l -> e_nonblock v = true ->
  api o v = Some (mkRes None 1011 (Some 1011)).
Proof.
  intros P F Q O L M N. destruct o; try discriminate P; cbn [api]; rewrite ?F, ?Q, ?O; cbn [orb]; unfold call_q, call_f; rewrite O, L; cbn [add_f]; (destruct (l_count l <? e_max v) eqn:E; [lia|]); rewrite N; reflexivity.
Qed.
(** So does the destruction of the caller's own queue while it waits for room: 1004. *)
Theorem C61_interrupted_refuted o v l ls : positive o = true -> e_f v = true -> e_q v = true -> e_own v = false -> e_looks v = l :: ls -> e_max v <= l_count l -> e_nonblock v = false -> l_term l = true ->
  api o v = Some (mkRes None 1004 (Some 1004)).
Proof.
  intros P F Q O L M N T0. destruct o; try discriminate P; cbn [api]; rewrite ?F, ?Q, ?O; cbn [orb]; unfold call_q, call_f; rewrite O, L; cbn [add_f]; (destruct (l_count l <? e_max v) eqn:E; [lia|]); rewrite N, T0; reflexivity.
Qed.

(** A full nonblocking queue exists, and so do honest calls: a write of 10 bytes that runs, one that fails, one refused. *)
Definition v0 (ls : list look) (r : Z) : env := mkEnv true false true ls 100 true r 0.
Example C61_nonvacuous : room (v0 [mkLook 99 false] 10) /\ sane (v0 [mkLook 99 false] 10) /\ api Write (v0 [mkLook 99 false] 10) = Some (mkRes (Some 10) 10 None) /\
  api Write (v0 [mkLook 99 false] (- AOSL_EAGAIN)) = Some (mkRes (Some (-1011)) (-1) (Some 1011)) /\ api Write (v0 [mkLook 100 false] 10) = Some (mkRes None 1011 (Some 1011)) /\
  api ListenOnQ (v0 [mkLook 100 false] 0) = Some (mkRes None (-1) (Some 1011)).
Proof. split; [right; exists 0%nat, (mkLook 99 false); split; [reflexivity|split; [cbn; lia|intros; lia]]|]. split; [split; cbn; lia|]. repeat split. Qed.

Print Assumptions C61_on_q. Print Assumptions C61_descriptors_partial. Print Assumptions C61_refused_refuted. Print Assumptions C61_interrupted_refuted.
