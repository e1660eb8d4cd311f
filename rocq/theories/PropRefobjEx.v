(** * Reference objects: concrete histories, and what the library does not prevent. *)
From Verif Require Import Base Refobj RefobjSpec PropRefobj.

Definition see (T : nat) (ls : list label) : option (list ev * option failure) := option_map (fun s => (s_tr s, s_fail s)) (run T ls init).
Definition steps (t n : nat) : list label := repeat (LStep t) n.
(** aosl_ref_create on thread t, up to its return. *)
Definition create (t i : nat) (a rc cf : bool) : list label := [LCall t (CCreate i a rc cf); LStep t].

(** One thread: create, write, destroy; the hypotheses of C27_exactly_once, C27_after_last_user, C27_id_after_dtor, C28_none_starts, C28_not_found. *)
Definition life : list label := create 0 5 false true false ++ [LCall 0 (COp Write (1, 5)%nat)] ++ steps 0 2 ++ [LEnd 0] ++ steps 0 3 ++ [LCall 0 (CDestroy (1, 5)%nat true)] ++ steps 0 9 ++ [LEnd 0] ++ steps 0 3.
Example life_trace : see 1 life = Some ([ECreate 0 0 (1, 5)%nat; EBegin 0 0 (Some Write); EEnd 0 0 (Some Write); ERet 0 0 Write 0; EDes 0 0 true; EDtor 0 0; EDtorEnd 0 0; EId 0 5; EDesRet 0 0 true 0], None).
Proof. vm_compute. reflexivity. Qed.
Example life_quiet : exists s, run 1 life init = Some s /\ quiet s /\ gone (s_o s 0) = true.
Proof. eexists. split; [vm_compute; reflexivity|]. split; [|reflexivity]. intros [|t]; reflexivity. Qed.

(** Two threads: thread 1 holds the object while thread 0 destroys it; the destructor runs on thread 1, when it lets go; the index is then used again under another life number. *)
Definition held (cf : bool) : list label := create 0 5 false true cf ++ [LCall 1 (COp Hold (1, 5)%nat)] ++ steps 1 1 ++ [LCall 0 (CDestroy (1, 5)%nat true)] ++ steps 0 7.
Example held_trace : see 2 (held false ++ steps 0 3 ++ [LEnd 1] ++ steps 1 2 ++ [LEnd 1] ++ steps 1 3 ++ create 0 5 false false false) =
  Some ([ECreate 0 0 (1, 5)%nat; EBegin 1 0 (Some Hold); EDes 0 0 true; EDesRet 0 0 true 0; EEnd 1 0 (Some Hold); EDtor 1 0; EDtorEnd 1 0; EId 0 5; ERet 1 0 Hold 0; ECreate 0 1 (2, 5)%nat], None).
Proof. vm_compute. reflexivity. Qed.
(** With the caller-free option aosl_ref_destroy waits there, and the destructor runs on its thread. *)
Example caller_waits : run 2 (held true ++ steps 0 1) init = None.
Proof. vm_compute. reflexivity. Qed.
Example caller_trace : see 2 (held true ++ [LEnd 1] ++ steps 1 3 ++ steps 0 2) =
  Some ([ECreate 0 0 (1, 5)%nat; EBegin 1 0 (Some Hold); EDes 0 0 true; EEnd 1 0 (Some Hold); ERet 1 0 Hold 0; EDtor 0 0], None).
Proof. vm_compute. reflexivity. Qed.

(** A queue function with the live object makes aosl_ref_destroy wait; one that comes later gets the marker. *)
Definition queued : list label := create 0 5 false true false ++ [LCall 1 (CQueue (1, 5)%nat)] ++ steps 1 2 ++ [LCall 0 (CDestroy (1, 5)%nat false)] ++ steps 0 2.
Example queue_waits : run 2 (queued ++ steps 0 1) init = None.
Proof. vm_compute. reflexivity. Qed.
Example queue_trace : see 2 (queued ++ [LEnd 1] ++ steps 1 3 ++ steps 0 5 ++ [LCall 1 (CQueue (1, 5)%nat)] ++ steps 1 5 ++ [LEnd 1]) =
  Some ([ECreate 0 0 (1, 5)%nat; EQueue 1 (1, 5)%nat; EBegin 1 0 None; EDes 0 0 false; EEnd 1 0 None; EDesRet 0 0 false 0; EQueue 1 (1, 5)%nat; EMark 1 (1, 5)%nat], None).
Proof. vm_compute. reflexivity. Qed.
(** An object made asynchronous: its queue function is still running when aosl_ref_destroy has returned. *)
Example async_runs_on : see 2 (create 0 5 true true false ++ [LCall 1 (CQueue (1, 5)%nat)] ++ steps 1 2 ++ [LCall 0 (CDestroy (1, 5)%nat true)] ++ steps 0 10) =
  Some ([ECreate 0 0 (1, 5)%nat; EQueue 1 (1, 5)%nat; EBegin 1 0 None; EDes 0 0 true; EDesRet 0 0 true 0], None).
Proof. vm_compute. reflexivity. Qed.
(** Two deleting calls at once: the one that finds the id already taken away returns -EINVAL while the other still waits, and a callback is still running. *)
Example loser_returns : see 3 (create 0 5 false true false ++ [LCall 1 (CQueue (1, 5)%nat)] ++ steps 1 2 ++ [LCall 0 (CDestroy (1, 5)%nat true); LCall 2 (CDestroy (1, 5)%nat true)] ++ steps 0 3 ++ steps 2 4) =
  Some ([ECreate 0 0 (1, 5)%nat; EQueue 1 (1, 5)%nat; EBegin 1 0 None; EDes 0 0 true; EDes 2 0 true; EDesRet 2 0 true (- AOSL_EINVAL)], None).
Proof. vm_compute. reflexivity. Qed.

(** Writers exclude: thread 1 cannot lock while thread 0 writes, and is refused after aosl_ref_destroy. *)
Definition writing : list label := create 0 5 false true false ++ [LCall 0 (COp Write (1, 5)%nat)] ++ steps 0 2 ++ [LCall 1 (COp Read (1, 5)%nat)].
Example reader_waits : run 2 (writing ++ steps 1 1) init = None /\ see 2 writing = Some ([ECreate 0 0 (1, 5)%nat; EBegin 0 0 (Some Write)], None).
Proof. split; vm_compute; reflexivity. Qed.
Example reader_refused : see 2 (writing ++ [LEnd 0] ++ steps 0 3 ++ [LCall 0 (CDestroy (1, 5)%nat false)] ++ steps 0 7 ++ steps 1 5) =
  Some ([ECreate 0 0 (1, 5)%nat; EBegin 0 0 (Some Write); EEnd 0 0 (Some Write); ERet 0 0 Write 0; EDes 0 0 false; EDesRet 0 0 false 0; ERet 1 0 Read (- AOSL_EPERM)], None).
Proof. vm_compute. reflexivity. Qed.
(** Nested reading; a nested write aborts. *)
Definition nested : list label := create 0 5 false true false ++ [LCall 0 (COp Read (1, 5)%nat)] ++ steps 0 2 ++ [LCall 0 (COp Read (1, 5)%nat)] ++ steps 0 2.
Example nested_trace : see 1 nested = Some ([ECreate 0 0 (1, 5)%nat; EBegin 0 0 (Some Read); EBegin 0 0 (Some Read)], None).
Proof. vm_compute. reflexivity. Qed.
Example nested_write : see 1 (nested ++ [LCall 0 (COp Write (1, 5)%nat)] ++ steps 0 1) = Some ([ECreate 0 0 (1, 5)%nat; EBegin 0 0 (Some Read); EBegin 0 0 (Some Read)], Some Misuse).
Proof. vm_compute. reflexivity. Qed.
(** A queue function may write: its read lock is turned into the write lock and back. *)
Example queue_writes : see 1 (create 0 5 false true false ++ [LCall 0 (CQueue (1, 5)%nat)] ++ steps 0 2 ++ [LCall 0 (COp Write (1, 5)%nat)] ++ steps 0 4 ++ [LEnd 0] ++ steps 0 5 ++ [LEnd 0] ++ steps 0 3) =
  Some ([ECreate 0 0 (1, 5)%nat; EQueue 0 (1, 5)%nat; EBegin 0 0 None; EBegin 0 0 (Some Write); EEnd 0 0 (Some Write); ERet 0 0 Write 0; EEnd 0 0 None], None).
Proof. vm_compute. reflexivity. Qed.

(** ** Findings. *)
(** No call is refused, and no thread can go on. *)
Definition deadlocked (T : nat) (s : st) : Prop := s_fail s = None /\ (exists t, s_stk s t <> []) /\ forall l, exec T l s = None.
(** An aosl_ref_write callback that destroys its own object is not noticed (870-890 look only at read locks and queue functions): the thread waits for itself for ever. *)
Theorem C29_destroy_in_write_deadlock : exists s, reachable 1 s /\ deadlocked 1 s.
Proof.
  eexists. split; [exists (create 0 5 false true false ++ [LCall 0 (COp Write (1, 5)%nat)] ++ steps 0 2 ++ [LCall 0 (CDestroy (1, 5)%nat true)] ++ steps 0 3); vm_compute; reflexivity|].
  split; [reflexivity|]. split; [exists 0%nat; discriminate|]. intros [[|t] c|[|t]|[|t]]; reflexivity.
Qed.
Print Assumptions C29_destroy_in_write_deadlock.
(** Two queue functions of one object, each allowed on its own, that both call aosl_ref_write: the second to come aborts the program. *)
Theorem C29_two_queue_writers_abort : exists s, reachable 2 s /\ s_fail s = Some Misuse /\ s_tr s = [ECreate 0 0 (1, 5)%nat; EQueue 0 (1, 5)%nat; EBegin 0 0 None; EQueue 1 (1, 5)%nat; EBegin 1 0 None].
Proof.
  eexists. split; [exists (create 0 5 false true false ++ [LCall 0 (CQueue (1, 5)%nat)] ++ steps 0 2 ++ [LCall 1 (CQueue (1, 5)%nat)] ++ steps 1 2 ++ [LCall 0 (COp Write (1, 5)%nat); LStep 0; LCall 1 (COp Write (1, 5)%nat); LStep 1]); vm_compute; reflexivity|]. split; reflexivity.
Qed.
Print Assumptions C29_two_queue_writers_abort.
(** A queue function that calls a function of the same object on its own queue, which then writes: it waits for the read lock of the outer one. *)
Theorem C29_nested_queue_write_deadlock : exists s, reachable 1 s /\ deadlocked 1 s.
Proof.
  eexists. split; [exists (create 0 5 false true false ++ [LCall 0 (CQueue (1, 5)%nat)] ++ steps 0 2 ++ [LCall 0 (CQueue (1, 5)%nat)] ++ steps 0 2 ++ [LCall 0 (COp Write (1, 5)%nat)] ++ steps 0 2); vm_compute; reflexivity|].
  split; [reflexivity|]. split; [exists 0%nat; discriminate|]. intros [[|t] c|[|t]|[|t]]; reflexivity.
Qed.
Print Assumptions C29_nested_queue_write_deadlock.
