(** * Executions of the queue model: witnesses for the theorems of PropMpq.v *)
From Verif Require Import Base Mpq MpqInv MpqLife MpqSpec MpqTrace MpqMore MpqComp MpqThms.

Ltac calc := vm_compute; reflexivity.
Ltac side :=
  first
  [ calc
  | left; split; calc | right; eexists; calc
  | repeat split; calc
  | vm_compute; tauto
  | vm_compute; intuition discriminate
  | intros _; vm_compute; discriminate
  | left; calc | right; calc ].
Ltac go c :=
  match goal with H : reachable ?s |- _ =>
    let Hn := fresh "Hn" in let st := fresh "st" in
    eassert (Hn : reachable _) by (eapply (R_step s); [exact H|eapply (c s); side]); clear H;
    match type of Hn with reachable ?x => set (st := x) in Hn end
  end.

Definition rq (i : nat) (d : option qid) (sy : bool) : req := mkReq i d sy false None.

Definition sleeping : Prop := exists s, reachable s /\ runs_queue 1%nat 0%nat 1 (hist s) /\ In 3%nat (q_blocked (s_q s 0%nat)).
Definition R0 := rq 0 (Some 1%nat) false.
Definition R1 := rq 1 None true.
Definition C0 := mkReq 2 None false true (Some 0%nat).
Definition R3 := rq 3 None false.
Definition R4 := rq 4 None false.
Definition R6 := rq 6 None false.
Definition story : list event :=
  [ECreate 0%nat 1%nat 1 false; ECreate 1%nat 2%nat 2 true;
   ECall 0%nat 0%nat R0; EAccept 0%nat 0%nat R0; EReturn 0%nat 0%nat R0 0;
   ECall 3%nat 0%nat R1;
   EStart 1%nat 0%nat R0 KLive; EEnd 1%nat 0%nat R0; ECall 1%nat 1%nat C0; EAccept 1%nat 1%nat C0; EReturn 1%nat 1%nat C0 0; EDone 0%nat R0;
   EAccept 3%nat 0%nat R1;
   EStart 1%nat 0%nat R1 KNull; EEnd 1%nat 0%nat R1; EDone 0%nat R1; EReturn 3%nat 0%nat R1 0;
   ECall 0%nat 1%nat R3; EAccept 0%nat 1%nat R3; EReturn 0%nat 1%nat R3 0;
   ECall 0%nat 1%nat R4; ERefuse 0%nat 1%nat R4 (- AOSL_EAGAIN); EReturn 0%nat 1%nat R4 (- AOSL_EAGAIN);
   EAddWait 0%nat 0%nat 5%nat; EGone 0%nat; EFini 0%nat;
   ECall 1%nat 0%nat R6; EAccept 1%nat 0%nat R6; EReturn 1%nat 0%nat R6 0;
   EDestroyed 0%nat; EWaitReturn 0%nat 0%nat 5%nat 0].
Example mpq_execution : sleeping /\ exists s, reachable s /\ hist s = story.
Proof.
  pose proof R_init as H.
  go (fun s => S_create s 1%nat 0%nat 1 false false).
  go (fun s => S_return s 1%nat [] 0%nat).
  go (fun s => S_init_ok s 1%nat 0%nat).
  go (fun s => S_create s 2%nat 1%nat 2 true false).
  go (fun s => S_return s 2%nat [] 0%nat).
  go (fun s => S_init_ok s 2%nat 1%nat).
  (* request 0 to queue 0, with a completion on queue 1 *)
  go (fun s => S_call s 0%nat 0%nat (rq 0 (Some 1%nat) false) false).
  go (fun s => S_get s 0%nat).
  go (fun s => S_check s 0%nat).
  go (fun s => S_add s 0%nat).
  go (fun s => S_nokick s 0%nat).
  go (fun s => S_put s 0%nat).
  (* a synchronous call to the full queue 0: the caller sleeps *)
  go (fun s => S_call s 3%nat 0%nat (rq 1 None true) false).
  go (fun s => S_get s 3%nat).
  go (fun s => S_check s 3%nat).
  go (fun s => S_add s 3%nat).
  split; [eexists; split; [eassumption|split; [exists false; vm_compute; tauto|vm_compute; tauto]]|].
  (* queue 0 runs request 0 *)
  go (fun s => S_check_head s 1%nat 0%nat).
  go (fun s => S_detach s 1%nat 0%nat).
  go (fun s => fun X Y => S_next s 1%nat 0%nat PhLoop true (rq 0 (Some 1%nat) false) [] KLive X Y).
  go (fun s => S_return s 1%nat [] 0%nat).
  go (fun s => S_ran s 1%nat 0%nat).
  go (fun s => S_done s 1%nat 0%nat).
  go (fun s => S_cget s 1%nat).
  go (fun s => S_add s 1%nat).
  go (fun s => S_nokick s 1%nat).
  go (fun s => S_put s 1%nat).
  go (fun s => S_dec s 1%nat 0%nat).
  go (fun s => S_not_sync s 1%nat 0%nat).
  go (fun s => fun X Y Z => S_signal s 1%nat 0%nat PhLoop 3%nat X Y Z).
  (* the caller gets its place; queue 0 runs request 1 *)
  go (fun s => S_wake s 3%nat).
  go (fun s => S_nokick s 3%nat).
  go (fun s => S_next_none s 1%nat 0%nat).
  go (fun s => S_timers s 1%nat 0%nat).
  go (fun s => fun X Y => S_stay s 1%nat 0%nat true false X Y).
  go (fun s => S_poll_t s 1%nat 0%nat).
  go (fun s => S_poll_k s 1%nat 0%nat).
  go (fun s => S_need s 1%nat 0%nat).
  go (fun s => S_ret s 1%nat 0%nat).
  go (fun s => S_count s 1%nat 0%nat).
  go (fun s => S_need0 s 1%nat 0%nat).
  go (fun s => S_k2 s 1%nat 0%nat).
  go (fun s => S_check_head s 1%nat 0%nat).
  go (fun s => S_detach s 1%nat 0%nat).
  go (fun s => fun X Y => S_next s 1%nat 0%nat PhLoop true (rq 1 None true) [] KNull X Y).
  go (fun s => S_return s 1%nat [] 0%nat).
  go (fun s => S_ran s 1%nat 0%nat).
  go (fun s => S_no_done s 1%nat 0%nat).
  go (fun s => S_dec s 1%nat 0%nat).
  go (fun s => S_set_sync s 1%nat 0%nat).
  go (fun s => S_nosignal s 1%nat 0%nat).
  go (fun s => S_sync s 3%nat).
  go (fun s => S_put s 3%nat).
  (* queue 1 is full with the completion and request 3; request 4 is refused *)
  go (fun s => S_call s 0%nat 1%nat (rq 3 None false) false).
  go (fun s => S_get s 0%nat).
  go (fun s => S_check s 0%nat).
  go (fun s => S_add s 0%nat).
  go (fun s => S_nokick s 0%nat).
  go (fun s => S_put s 0%nat).
  go (fun s => S_call s 0%nat 1%nat (rq 4 None false) false).
  go (fun s => S_get s 0%nat).
  go (fun s => S_check s 0%nat).
  go (fun s => S_add s 0%nat).
  go (fun s => S_put s 0%nat).
  (* thread 0 destroys queue 0 and waits *)
  go (fun s => S_destroy s 0%nat 0%nat true true false).
  go (fun s => S_dget s 0%nat).
  go (fun s => S_dcheck s 0%nat).
  go (fun s => S_add_wait s 0%nat).
  go (fun s => S_term s 0%nat).
  go (fun s => S_dnokick s 0%nat).
  go (fun s => S_nobcast s 0%nat).
  go (fun s => S_dput_wait s 0%nat).
  go (fun s => S_next_none s 1%nat 0%nat).
  go (fun s => S_timers s 1%nat 0%nat).
  go (fun s => S_exit s 1%nat 0%nat).
  go (fun s => S_uninst s 1%nat 0%nat).
  go (fun s => S_usage s 1%nat 0%nat).
  go (fun s => S_check_head s 1%nat 0%nat).
  go (fun s => S_fini s 1%nat 0%nat).
  (* the fini callback makes request 6 on its own queue *)
  go (fun s => S_call s 1%nat 0%nat (rq 6 None false) true).
  go (fun s => S_get_this s 1%nat).
  go (fun s => S_check s 1%nat).
  go (fun s => S_add s 1%nat).
  go (fun s => S_put_this s 1%nat).
  go (fun s => S_return s 1%nat [] 0%nat).
  go (fun s => S_clear s 1%nat 0%nat).
  go (fun s => S_free s 1%nat 0%nat).
  go (fun s => S_release s 1%nat 0%nat).
  go (fun s => S_dead s 1%nat 0%nat).
  go (fun s => S_waited s 0%nat).
  eexists; split; [eassumption|calc].
Qed.

(** The thread of queue 0 blocks; then a request is accepted and its byte is
    on the way. *)
Example mpq_blocked : exists s, reachable s /\ at_pc s 0%nat 1%nat (PPoll true) /\ q_pipe (s_q s 0%nat) = 0%nat /\
  In R0 (accepts 0%nat (hist s)) /\ ~ In R0 (starts 0%nat (hist s)).
Proof.
  pose proof R_init as H.
  go (fun s => S_create s 1%nat 0%nat 1 false false).
  go (fun s => S_return s 1%nat [] 0%nat). go (fun s => S_init_ok s 1%nat 0%nat).
  go (fun s => S_check_head s 1%nat 0%nat). go (fun s => S_timers s 1%nat 0%nat). go (fun s => fun X Y => S_stay s 1%nat 0%nat true false X Y).
  go (fun s => S_poll_t s 1%nat 0%nat). go (fun s => S_poll_k s 1%nat 0%nat). go (fun s => S_need s 1%nat 0%nat). go (fun s => S_ret s 1%nat 0%nat).
  go (fun s => S_count s 1%nat 0%nat). go (fun s => S_wait_set s 1%nat 0%nat).
  go (fun s => S_call s 0%nat 0%nat R0 false). go (fun s => S_get s 0%nat). go (fun s => S_check s 0%nat). go (fun s => S_add s 0%nat). 
  eexists; split; [eassumption|]. split; [repeat split; calc|]. split; [calc|]. split; [vm_compute; tauto|vm_compute; tauto].
Qed.
(** ... and the destroyer's byte. *)
Example mpq_blocked_destroy : exists s, reachable s /\ at_pc s 0%nat 1%nat (PPoll true) /\ q_pipe (s_q s 0%nat) = 0%nat /\ s_stack s 0%nat = [FDestroy 0%nat true false false 0 0%nat DKick].
Proof.
  pose proof R_init as H.
  go (fun s => S_create s 1%nat 0%nat 1 false false).
  go (fun s => S_return s 1%nat [] 0%nat). go (fun s => S_init_ok s 1%nat 0%nat).
  go (fun s => S_check_head s 1%nat 0%nat). go (fun s => S_timers s 1%nat 0%nat). go (fun s => fun X Y => S_stay s 1%nat 0%nat true false X Y).
  go (fun s => S_poll_t s 1%nat 0%nat). go (fun s => S_poll_k s 1%nat 0%nat). go (fun s => S_need s 1%nat 0%nat). go (fun s => S_ret s 1%nat 0%nat).
  go (fun s => S_count s 1%nat 0%nat). go (fun s => S_wait_set s 1%nat 0%nat).
  go (fun s => S_destroy s 0%nat 0%nat true false false). go (fun s => S_dget s 0%nat). go (fun s => S_dcheck s 0%nat). go (fun s => S_term s 0%nat).
  eexists; split; [eassumption|]. split; [repeat split; calc|]. split; calc.
Qed.
(** A completion whose queue does not exist (any more) is released in place. *)
Example mpq_free_run : exists s, reachable s /\ hist s =
  [ECreate 0%nat 1%nat 1 false; ECall 0%nat 0%nat R0; EAccept 0%nat 0%nat R0; EReturn 0%nat 0%nat R0 0;
   EStart 1%nat 0%nat R0 KLive; EEnd 1%nat 0%nat R0; ECall 1%nat 1%nat (mkReq 1 None false true (Some 0%nat));
   EFreeRun 1%nat 0%nat (mkReq 1 None false true (Some 0%nat)); EDone 0%nat R0].
Proof.
  pose proof R_init as H.
  go (fun s => S_create s 1%nat 0%nat 1 false false).
  go (fun s => S_return s 1%nat [] 0%nat). go (fun s => S_init_ok s 1%nat 0%nat).
  go (fun s => S_call s 0%nat 0%nat R0 false). go (fun s => S_get s 0%nat). go (fun s => S_check s 0%nat). go (fun s => S_add s 0%nat).
  go (fun s => S_nokick s 0%nat). go (fun s => S_put s 0%nat).
  go (fun s => S_check_head s 1%nat 0%nat). go (fun s => S_detach s 1%nat 0%nat). go (fun s => fun X Y => S_next s 1%nat 0%nat PhLoop true R0 [] KLive X Y).
  go (fun s => S_return s 1%nat [] 0%nat). go (fun s => S_ran s 1%nat 0%nat). go (fun s => S_done s 1%nat 0%nat).
  go (fun s => S_cget_fail s 1%nat). go (fun s => S_return s 1%nat [] 0%nat). go (fun s => S_dec s 1%nat 0%nat).
  eexists; split; [eassumption|calc].
Qed.
(** A synchronous call on the own queue. *)
Example mpq_inline : exists s, reachable s /\ hist s =
  [ECreate 0%nat 1%nat 1 false; ECall 1%nat 0%nat (rq 0 None true); EInline 1%nat 0%nat (rq 0 None true) KNull;
   EInlineEnd 1%nat 0%nat (rq 0 None true); EReturn 1%nat 0%nat (rq 0 None true) 0].
Proof.
  pose proof R_init as H.
  go (fun s => S_create s 1%nat 0%nat 1 false false).
  go (fun s => S_call s 1%nat 0%nat (rq 0 None true) false). go (fun s => S_get s 1%nat).
  go (fun s => fun X => S_inline s 1%nat [FUser] 0%nat (rq 0 None true) false true KNull X).
  go (fun s => S_return s 1%nat [FQueue 0%nat (rq 0 None true) false true 0 AInline; FUser] 0%nat). go (fun s => S_inline_end s 1%nat). go (fun s => S_put s 1%nat).
  eexists; split; [eassumption|calc].
Qed.

