(** * Model of the multiplex queues: kernel/mpq.c 200-358 (ids, references,
    kicking), 371-491 (____add_f), 532-719 (running functions), 733-853
    (loop and destruction), 949-997 (thread entry), 1256-1294, 1322-1347,
    1639-1769 (destroy and wait), kernel/osmp.c 102-187 (poll protocol).

    Any number of queues and threads.  A thread is a stack of frames: user code
    (function bodies, callbacks, or the program itself) and API calls in
    progress; the thread of a queue runs the queue's loop when its stack is
    empty.  One transition is one action on shared memory, or one critical
    section of q->lock / the id table lock.  Memory is sequentially consistent.

    Simplifications:
    - ids are never reused here (their encoding and reuse is Idpool.v, C03);
    - out of memory is abort() (396-399) and not modelled; q_name, time stamps,
      statistics, the stack objects of aosl_mpq_resume are left out;
    - the outcome of mpq_invoke_refobj_get (568-612) is an arbitrary [kind]
      here; Refobj.v models it;
    - the condition variable wait_q is a POSIX one: a signal takes one sleeping
      thread, if any; sleeping threads may also wake up spuriously;
    - sync_obj of a synchronous call and the sync of a wait entry are a flag:
      the waiter continues when it is set (mutex + while loop, 451-458,
      1722-1726, 664-668, 846-849);
    - the poll step covers poll/epoll/select: it ends when there is a byte in
      the pipe, and may end at any time because of a timeout or another fd;
      AOSL_MPQ_FLAG_SIGP_EVENT is treated separately (MpqEvent.v);
    - timer callbacks, fd callbacks, init and fini are arbitrary user code;
    - queues made by aosl_mpq_current on foreign threads are not modelled. *)
From Verif Require Import Base.

Definition qid := nat.
Definition tid := nat.

(** struct q_func_obj, include/kernel/mp_queue.h; [r_id] names the request and
    [r_orig] says whose completion it is (both are ghosts). *)
Record req := mkReq { r_id : nat; r_done : option qid; r_sync : bool; r_nofail : bool; r_orig : option nat }.

(** What the function is given: NULL, the object, or AOSL_FREE_ONLY_OBJ. *)
Inductive kind := KNull | KLive | KFree.

(** Places inside the queue / call API calls: __add_func_args_qid 1322-1347,
    __add_or_invoke_f 1256-1294, ____add_f 371-491. *)
Inductive apc := AGet | ACheck | AAdd | AWait | AKick | AKickW | ASync | AInline | APut
| ACGet (* delivering a completion: __invoke_f 639 *).
(** Places inside mpq_destroy 1672-1691 and mpq_do_wait 1732-1759. *)
Inductive dpc := DGet | DCheck | DAddWait | DTerm | DKick | DKickW | DBcast | DPut | DWait.

(** [held]: the call holds a reference on the queue.  [w] names the wait entry. *)
Inductive frame :=
| FUser
| FQueue (q : qid) (r : req) (treat held : bool) (code : Z) (pc : apc)
| FDestroy (q : qid) (issue wait chk : bool) (code : Z) (w : nat) (pc : dpc).

(** Which of the three callers of __check_and_call_funcs: 775, 809, 825. *)
Inductive phase := PhLoop | PhUsage | PhFinal.

(** Places in the thread of the queue. *)
Inductive cpc :=
| PInit                                   (* 966 *)
| PCheck (ph : phase)                     (* 680 *)
| PDetach (ph : phase)                    (* 683-687 *)
| PNext (ph : phase) (did : bool)         (* 689 *)
| PRun (ph : phase) (r : req) (k : kind)  (* 633 *)
| PDone (ph : phase) (r : req) (k : kind) (* 635-650 *)
| PDec (ph : phase) (r : req)             (* 659-661 *)
| PSync (ph : phase) (r : req)            (* 663-668 *)
| PSignal (ph : phase)                    (* 695-698 *)
| PTimers                                 (* 779 *)
| PTerm                                   (* 783 *)
| PPollT (bl iof : bool) | PPollK (bl iof : bool)      (* osmp.c 125 *)
| PNeed (bl iof : bool) | PReT (bl iof : bool)         (* 126, 136 *)
| PCount (bl iof : bool) | PNeed0 (iof : bool) | PK2 (iof : bool)  (* 153, 159, 161 *)
| PWaitSet (bl : bool) | PPoll (bl : bool) | PNeed1 (sig : bool)   (* 107, 109, 111 *)
| PDrain | PDrainSub (n : nat)            (* mpq.c 288-307 *)
| PIofd                                   (* osmp.c 112 *)
| XUninst | XUsage                        (* mpq.c 805, 807 *)
| XFini | XClear                          (* 829, 832 *)
| XFree | XRelease (ws : list nat) | XDead. (* 839-841, 843-852 *)

(** struct mp_queue, include/kernel/mp_queue.h.  [q_refs] (ghost) lists the
    holders of references; [q_blocked] and [q_signalled] are the state of the
    condition variable wait_q; [q_batch] is the local "head" of
    __check_and_call_funcs. *)
Record queue := mkQueue {
  q_made : bool;
  q_max : Z;
  q_nonblock : bool;
  q_keep : bool;
  q_thread : tid;
  q_pend : list req;
  q_batch : list req;
  q_cnt : Z;
  q_blocked : list tid;
  q_signalled : list tid;
  q_waitc : Z;
  q_need : bool;
  q_pipe : nat;
  q_kick : Z;
  q_term : bool;
  q_exiting : bool;
  q_inst : bool;
  q_usage : Z;
  q_refs : list tid;
  q_waiters : list nat;
  q_freed : bool;
  q_pc : cpc }.

Definition w_nonblock (x : bool) (Q : queue) := mkQueue (q_made Q) (q_max Q) x (q_keep Q) (q_thread Q) (q_pend Q) (q_batch Q) (q_cnt Q) (q_blocked Q) (q_signalled Q) (q_waitc Q) (q_need Q) (q_pipe Q) (q_kick Q) (q_term Q) (q_exiting Q) (q_inst Q) (q_usage Q) (q_refs Q) (q_waiters Q) (q_freed Q) (q_pc Q).
Definition w_pend (x : list req) (Q : queue) := mkQueue (q_made Q) (q_max Q) (q_nonblock Q) (q_keep Q) (q_thread Q) x (q_batch Q) (q_cnt Q) (q_blocked Q) (q_signalled Q) (q_waitc Q) (q_need Q) (q_pipe Q) (q_kick Q) (q_term Q) (q_exiting Q) (q_inst Q) (q_usage Q) (q_refs Q) (q_waiters Q) (q_freed Q) (q_pc Q).
Definition w_batch (x : list req) (Q : queue) := mkQueue (q_made Q) (q_max Q) (q_nonblock Q) (q_keep Q) (q_thread Q) (q_pend Q) x (q_cnt Q) (q_blocked Q) (q_signalled Q) (q_waitc Q) (q_need Q) (q_pipe Q) (q_kick Q) (q_term Q) (q_exiting Q) (q_inst Q) (q_usage Q) (q_refs Q) (q_waiters Q) (q_freed Q) (q_pc Q).
Definition w_cnt (x : Z) (Q : queue) := mkQueue (q_made Q) (q_max Q) (q_nonblock Q) (q_keep Q) (q_thread Q) (q_pend Q) (q_batch Q) x (q_blocked Q) (q_signalled Q) (q_waitc Q) (q_need Q) (q_pipe Q) (q_kick Q) (q_term Q) (q_exiting Q) (q_inst Q) (q_usage Q) (q_refs Q) (q_waiters Q) (q_freed Q) (q_pc Q).
Definition w_blocked (x : list tid) (Q : queue) := mkQueue (q_made Q) (q_max Q) (q_nonblock Q) (q_keep Q) (q_thread Q) (q_pend Q) (q_batch Q) (q_cnt Q) x (q_signalled Q) (q_waitc Q) (q_need Q) (q_pipe Q) (q_kick Q) (q_term Q) (q_exiting Q) (q_inst Q) (q_usage Q) (q_refs Q) (q_waiters Q) (q_freed Q) (q_pc Q).
Definition w_signalled (x : list tid) (Q : queue) := mkQueue (q_made Q) (q_max Q) (q_nonblock Q) (q_keep Q) (q_thread Q) (q_pend Q) (q_batch Q) (q_cnt Q) (q_blocked Q) x (q_waitc Q) (q_need Q) (q_pipe Q) (q_kick Q) (q_term Q) (q_exiting Q) (q_inst Q) (q_usage Q) (q_refs Q) (q_waiters Q) (q_freed Q) (q_pc Q).
Definition w_waitc (x : Z) (Q : queue) := mkQueue (q_made Q) (q_max Q) (q_nonblock Q) (q_keep Q) (q_thread Q) (q_pend Q) (q_batch Q) (q_cnt Q) (q_blocked Q) (q_signalled Q) x (q_need Q) (q_pipe Q) (q_kick Q) (q_term Q) (q_exiting Q) (q_inst Q) (q_usage Q) (q_refs Q) (q_waiters Q) (q_freed Q) (q_pc Q).
Definition w_need (x : bool) (Q : queue) := mkQueue (q_made Q) (q_max Q) (q_nonblock Q) (q_keep Q) (q_thread Q) (q_pend Q) (q_batch Q) (q_cnt Q) (q_blocked Q) (q_signalled Q) (q_waitc Q) x (q_pipe Q) (q_kick Q) (q_term Q) (q_exiting Q) (q_inst Q) (q_usage Q) (q_refs Q) (q_waiters Q) (q_freed Q) (q_pc Q).
Definition w_pipe (x : nat) (Q : queue) := mkQueue (q_made Q) (q_max Q) (q_nonblock Q) (q_keep Q) (q_thread Q) (q_pend Q) (q_batch Q) (q_cnt Q) (q_blocked Q) (q_signalled Q) (q_waitc Q) (q_need Q) x (q_kick Q) (q_term Q) (q_exiting Q) (q_inst Q) (q_usage Q) (q_refs Q) (q_waiters Q) (q_freed Q) (q_pc Q).
Definition w_kick (x : Z) (Q : queue) := mkQueue (q_made Q) (q_max Q) (q_nonblock Q) (q_keep Q) (q_thread Q) (q_pend Q) (q_batch Q) (q_cnt Q) (q_blocked Q) (q_signalled Q) (q_waitc Q) (q_need Q) (q_pipe Q) x (q_term Q) (q_exiting Q) (q_inst Q) (q_usage Q) (q_refs Q) (q_waiters Q) (q_freed Q) (q_pc Q).
Definition w_term (x : bool) (Q : queue) := mkQueue (q_made Q) (q_max Q) (q_nonblock Q) (q_keep Q) (q_thread Q) (q_pend Q) (q_batch Q) (q_cnt Q) (q_blocked Q) (q_signalled Q) (q_waitc Q) (q_need Q) (q_pipe Q) (q_kick Q) x (q_exiting Q) (q_inst Q) (q_usage Q) (q_refs Q) (q_waiters Q) (q_freed Q) (q_pc Q).
Definition w_exiting (x : bool) (Q : queue) := mkQueue (q_made Q) (q_max Q) (q_nonblock Q) (q_keep Q) (q_thread Q) (q_pend Q) (q_batch Q) (q_cnt Q) (q_blocked Q) (q_signalled Q) (q_waitc Q) (q_need Q) (q_pipe Q) (q_kick Q) (q_term Q) x (q_inst Q) (q_usage Q) (q_refs Q) (q_waiters Q) (q_freed Q) (q_pc Q).
Definition w_inst (x : bool) (Q : queue) := mkQueue (q_made Q) (q_max Q) (q_nonblock Q) (q_keep Q) (q_thread Q) (q_pend Q) (q_batch Q) (q_cnt Q) (q_blocked Q) (q_signalled Q) (q_waitc Q) (q_need Q) (q_pipe Q) (q_kick Q) (q_term Q) (q_exiting Q) x (q_usage Q) (q_refs Q) (q_waiters Q) (q_freed Q) (q_pc Q).
Definition w_usage (x : Z) (Q : queue) := mkQueue (q_made Q) (q_max Q) (q_nonblock Q) (q_keep Q) (q_thread Q) (q_pend Q) (q_batch Q) (q_cnt Q) (q_blocked Q) (q_signalled Q) (q_waitc Q) (q_need Q) (q_pipe Q) (q_kick Q) (q_term Q) (q_exiting Q) (q_inst Q) x (q_refs Q) (q_waiters Q) (q_freed Q) (q_pc Q).
Definition w_refs (x : list tid) (Q : queue) := mkQueue (q_made Q) (q_max Q) (q_nonblock Q) (q_keep Q) (q_thread Q) (q_pend Q) (q_batch Q) (q_cnt Q) (q_blocked Q) (q_signalled Q) (q_waitc Q) (q_need Q) (q_pipe Q) (q_kick Q) (q_term Q) (q_exiting Q) (q_inst Q) (q_usage Q) x (q_waiters Q) (q_freed Q) (q_pc Q).
Definition w_waiters (x : list nat) (Q : queue) := mkQueue (q_made Q) (q_max Q) (q_nonblock Q) (q_keep Q) (q_thread Q) (q_pend Q) (q_batch Q) (q_cnt Q) (q_blocked Q) (q_signalled Q) (q_waitc Q) (q_need Q) (q_pipe Q) (q_kick Q) (q_term Q) (q_exiting Q) (q_inst Q) (q_usage Q) (q_refs Q) x (q_freed Q) (q_pc Q).
Definition w_freed (x : bool) (Q : queue) := mkQueue (q_made Q) (q_max Q) (q_nonblock Q) (q_keep Q) (q_thread Q) (q_pend Q) (q_batch Q) (q_cnt Q) (q_blocked Q) (q_signalled Q) (q_waitc Q) (q_need Q) (q_pipe Q) (q_kick Q) (q_term Q) (q_exiting Q) (q_inst Q) (q_usage Q) (q_refs Q) (q_waiters Q) x (q_pc Q).
Definition w_pc (x : cpc) (Q : queue) := mkQueue (q_made Q) (q_max Q) (q_nonblock Q) (q_keep Q) (q_thread Q) (q_pend Q) (q_batch Q) (q_cnt Q) (q_blocked Q) (q_signalled Q) (q_waitc Q) (q_need Q) (q_pipe Q) (q_kick Q) (q_term Q) (q_exiting Q) (q_inst Q) (q_usage Q) (q_refs Q) (q_waiters Q) (q_freed Q) x.

Inductive event :=
| ECreate (q : qid) (t : tid) (max : Z) (nb : bool)   (* the queue exists, run by thread t *)
| EFlag (q : qid) (nb : bool)                (* its non-blocking flag is changed *)
| EGone (q : qid)                            (* its id is no longer valid *)
| EFini (q : qid)                            (* its fini callback is called *)
| EDestroyed (q : qid)                       (* its memory is released *)
| ECall (t : tid) (q : qid) (r : req)        (* a queue / call request is made *)
| EAccept (t : tid) (q : qid) (r : req)      (* it is put into the queue *)
| ERefuse (t : tid) (q : qid) (r : req) (code : Z)
| EReturn (t : tid) (q : qid) (r : req) (code : Z)   (* the request call returns; 0 is success *)
| EStart (t : tid) (q : qid) (r : req) (k : kind)    (* its function is called, from the queue *)
| EEnd (t : tid) (q : qid) (r : req)                 (* and has returned *)
| EFreeRun (t : tid) (q : qid) (r : req)             (* release-only invocation in place of the completion r *)
| EDone (q : qid) (r : req)                          (* its place in the queue is free again *)
| EInline (t : tid) (q : qid) (r : req) (k : kind)   (* synchronous call on the own queue *)
| EInlineEnd (t : tid) (q : qid) (r : req)
| EAddWait (t : tid) (q : qid) (w : nat)             (* a waiter for the destruction *)
| EWaitReturn (t : tid) (q : qid) (w : nat) (code : Z).

(** [s_drv t]: the queue whose loop runs on thread t; [s_next]: fresh names;
    [s_sync], [s_rel]: requests / wait entries whose flag is set; [s_tr]: what
    happened, latest first. *)
Record state := mkState {
  s_q : qid -> queue; s_stack : tid -> list frame; s_drv : tid -> option qid;
  s_next : nat; s_sync : list nat; s_rel : list nat; s_tr : list event }.

Definition upd {A} (f : nat -> A) (k : nat) (v : A) : nat -> A := fun x => if (x =? k)%nat then v else f x.

Definition blank : queue := mkQueue false 0 false false 0%nat [] [] 0 [] [] 0 false 0%nat 0 false false false 0 [] [] false PInit.
Definition init_state : state := mkState (fun _ => blank) (fun _ => []) (fun _ => None) 0 [] [] [].

(** Thread t continues with stack [st], queue q becomes [Q], [es] happens. *)
Definition act (t : tid) (st : list frame) (q : qid) (Q : queue) (es : list event) (s : state) : state :=
  mkState (upd (s_q s) q Q) (upd (s_stack s) t st) (s_drv s) (s_next s) (s_sync s) (s_rel s) (es ++ s_tr s).
Definition set_drv (t : tid) (d : option qid) (s : state) : state :=
  mkState (s_q s) (s_stack s) (upd (s_drv s) t d) (s_next s) (s_sync s) (s_rel s) (s_tr s).
Definition next (s : state) : state :=
  mkState (s_q s) (s_stack s) (s_drv s) (S (s_next s)) (s_sync s) (s_rel s) (s_tr s).
Definition set_sync (n : nat) (s : state) : state :=
  mkState (s_q s) (s_stack s) (s_drv s) (s_next s) (n :: s_sync s) (s_rel s) (s_tr s).
Definition set_rel (n : nat) (s : state) : state :=
  mkState (s_q s) (s_stack s) (s_drv s) (s_next s) (s_sync s) (n :: s_rel s) (s_tr s).

(** THIS_MPQ () on thread t: set at 959, cleared at 832. *)
Definition this (s : state) (t : tid) : option qid :=
  match s_drv s t with
  | None => None
  | Some q => match q_pc (s_q s q) with XFree | XRelease _ | XDead => None | _ => Some q end
  end.
Definition is_this (s : state) (t : tid) (q : qid) : bool :=
  match this s t with Some q' => (q' =? q)%nat | None => false end.
(** "this_q != NULL && this_q->terminated", 478. *)
Definition own_term (s : state) (t : tid) : bool :=
  match this s t with Some q => q_term (s_q s q) | None => false end.
(** "this_q != NULL && this_q->exiting && done_qid == this_q->qid", 386. *)
Definition own_exit (s : state) (t : tid) (done : option qid) : bool :=
  match this s t, done with
  | Some q, Some d => q_exiting (s_q s q) && (d =? q)%nat
  | _, _ => false
  end.

(** Is thread t executing user code (and so free to call the API)? *)
Definition user (s : state) (t : tid) : Prop :=
  (s_drv s t = None /\ s_stack s t = []) \/ exists rest, s_stack s t = FUser :: rest.
(** The thread of queue q is at pc and not inside a callback. *)
Definition at_pc (s : state) (q : qid) (t : tid) (pc : cpc) : Prop :=
  s_drv s t = Some q /\ s_stack s t = [] /\ q_pc (s_q s q) = pc.

(** ____q_get / ____q_put by thread t. *)
Definition get_ref (t : tid) (Q : queue) : queue := w_refs (t :: q_refs Q) (w_usage (q_usage Q + 1) Q).
Fixpoint remove1 (x : nat) (l : list nat) : list nat :=
  match l with [] => [] | y :: l' => if (x =? y)%nat then l' else y :: remove1 x l' end.
Definition put_ref (t : tid) (Q : queue) : queue := w_refs (remove1 t (q_refs Q)) (w_usage (q_usage Q - 1) Q).
(** k_cond_signal on wait_q picks some sleeping thread; k_cond_broadcast all. *)
Definition wake (t : tid) (Q : queue) : queue :=
  w_blocked (remove1 t (q_blocked Q)) (w_signalled (t :: q_signalled Q) Q).
Definition wake_all (Q : queue) : queue :=
  w_blocked [] (w_signalled (q_blocked Q ++ q_signalled Q) Q).

(** ____add_f 430-490: one critical section, from entering it (or waking up in
    it, with [Q] the queue after 485) to leaving it (or going to sleep). *)
Definition after_kick (r : req) : apc := if r_sync r then ASync else APut.
Definition add_section (t : tid) (rest : list frame) (q : qid) (Q : queue) (r : req) (treat held : bool) (s : state) : state :=
  let top code pc := FQueue q r treat held code pc :: rest in
  if r_nofail r || (q_cnt Q <? q_max Q) then
    act t (top 0 (if is_this s t q then after_kick r else AKick)) q
      (w_pend (q_pend Q ++ [r]) (w_cnt (q_cnt Q + 1) Q)) [EAccept t q r] s
  else if q_nonblock Q then act t (top (- AOSL_EAGAIN) APut) q Q [ERefuse t q r (- AOSL_EAGAIN)] s
  else if own_term s t then act t (top (- AOSL_EINTR) APut) q Q [ERefuse t q r (- AOSL_EINTR)] s
  else act t (top 0 AWait) q (w_blocked (q_blocked Q ++ [t]) (w_waitc (q_waitc Q + 1) Q)) [] s.

(** Where __check_and_call_funcs returns to: 779, 807, 826. *)
Definition after_funcs (ph : phase) (did : bool) : cpc :=
  match ph with
  | PhLoop => PTimers
  | PhUsage => XUsage
  | PhFinal => if did then PCheck PhFinal else XFini
  end.

Definition MPQ_MAX_SIZE : Z := 1000000.   (* include/kernel/mp_queue.h *)
Definition new_queue (t : tid) (max : Z) (nb keep : bool) : queue :=
  mkQueue true max nb keep t [] [] 0 [] [] 0 false 0%nat 0 false false true 1 [] [] false PInit.

Inductive step (s : state) : state -> Prop :=
(** *** User code *)
(* a callback or queued function returns *)
| S_return t rest q : s_stack s t = FUser :: rest -> step s (act t rest q (s_q s q) [] s)
(* __mpq_create 1001-1042, mpq_thread_entry 949-959, __q_create 855-921 *)
| S_create t q max nb keep :
    q_made (s_q s q) = false -> s_drv s t = None -> s_stack s t = [] -> 1 <= max <= MPQ_MAX_SIZE ->
    step s (set_drv t (Some q) (act t [FUser] q (new_queue t max nb keep) [ECreate q t max nb] s))
(* aosl_mpq_change_flags 1095-1109, bit AOSL_MPQ_FLAG_NONBLOCK; the reference
   it takes for the call is not shown *)
| S_flags t q nb : user s t -> q_made (s_q s q) = true -> q_freed (s_q s q) = false ->
    step s (act t (s_stack s t) q (w_nonblock nb (s_q s q)) [EFlag q nb] s)
(* the request functions 1424-1550: with sync there is no completion queue *)
| S_call t q r treat :
    user s t -> r_id r = s_next s -> r_orig r = None -> (r_sync r = true -> r_done r = None) ->
    step s (next (act t (FQueue q r treat false 0 AGet :: s_stack s t) q (s_q s q) [ECall t q r] s))
(* aosl_mpq_destroy / destroy_wait / wait and the main queue's versions *)
| S_destroy t q issue wait chk :
    user s t -> issue || wait = true ->
    step s (next (act t (FDestroy q issue wait chk 0 (s_next s) DGet :: s_stack s t) q (s_q s q) [] s))
(** *** Making a request *)
(* __mpq_get_or_this 268-278 on the own queue *)
| S_get_this t rest q r : s_stack s t = FQueue q r true false 0 AGet :: rest -> this s t = Some q ->
    step s (act t (FQueue q r true false 0 ACheck :: rest) q (s_q s q) [] s)
(* __mpq_get 235-261 *)
| S_get t rest q r treat : s_stack s t = FQueue q r treat false 0 AGet :: rest ->
    (treat = true -> this s t <> Some q) -> q_inst (s_q s q) = true ->
    step s (act t (FQueue q r treat true 0 ACheck :: rest) q (get_ref t (s_q s q)) [] s)
| S_get_fail t rest q r treat : s_stack s t = FQueue q r treat false 0 AGet :: rest ->
    (treat = true -> this s t <> Some q) -> q_inst (s_q s q) = false ->
    step s (act t (FQueue q r treat false (- AOSL_EINVAL) APut :: rest) q (s_q s q) [ERefuse t q r (- AOSL_EINVAL)] s)
(* 1264-1291: inline *)
| S_inline t rest q r treat held k : s_stack s t = FQueue q r treat held 0 ACheck :: rest ->
    r_sync r = true -> this s t = Some q ->
    step s (act t (FUser :: FQueue q r treat held 0 AInline :: rest) q (s_q s q) [EInline t q r k] s)
| S_inline_end t rest q r treat held : s_stack s t = FQueue q r treat held 0 AInline :: rest ->
    step s (act t (FQueue q r treat held 0 APut :: rest) q (s_q s q) [EInlineEnd t q r] s)
(* 386-387 *)
| S_eperm t rest q r treat held : s_stack s t = FQueue q r treat held 0 ACheck :: rest ->
    (r_sync r = true -> this s t <> Some q) -> own_exit s t (r_done r) = true ->
    step s (act t (FQueue q r treat held (- AOSL_EPERM) APut :: rest) q (s_q s q) [ERefuse t q r (- AOSL_EPERM)] s)
| S_check t rest q r treat held : s_stack s t = FQueue q r treat held 0 ACheck :: rest ->
    (r_sync r = true -> this s t <> Some q) -> own_exit s t (r_done r) = false ->
    step s (act t (FQueue q r treat held 0 AAdd :: rest) q (s_q s q) [] s)
| S_add t rest q r treat held : s_stack s t = FQueue q r treat held 0 AAdd :: rest ->
    step s (add_section t rest q (s_q s q) r treat held s)
(* a sleeping producer was signalled: 484-485, then round the loop *)
| S_wake t rest q r treat held : s_stack s t = FQueue q r treat held 0 AWait :: rest ->
    In t (q_signalled (s_q s q)) ->
    step s (add_section t rest q
      (w_signalled (remove1 t (q_signalled (s_q s q))) (w_waitc (q_waitc (s_q s q) - 1) (s_q s q))) r treat held s)
| S_spurious t q : In t (q_blocked (s_q s q)) -> step s (act t (s_stack s t) q (wake t (s_q s q)) [] s)
(* mp_kick_q 346-359 *)
| S_kick t rest q r treat held : s_stack s t = FQueue q r treat held 0 AKick :: rest ->
    q_need (s_q s q) = true ->
    step s (act t (FQueue q r treat held 0 AKickW :: rest) q (w_kick (q_kick (s_q s q) + 1) (s_q s q)) [] s)
| S_nokick t rest q r treat held : s_stack s t = FQueue q r treat held 0 AKick :: rest ->
    q_need (s_q s q) = false ->
    step s (act t (FQueue q r treat held 0 (after_kick r) :: rest) q (s_q s q) [] s)
(* os_mp_kick 310-343 *)
| S_kick_write t rest q r treat held : s_stack s t = FQueue q r treat held 0 AKickW :: rest ->
    step s (act t (FQueue q r treat held 0 (after_kick r) :: rest) q (w_pipe (S (q_pipe (s_q s q))) (s_q s q)) [] s)
| S_kick_full t rest q r treat held : s_stack s t = FQueue q r treat held 0 AKickW :: rest ->
    (0 < q_pipe (s_q s q))%nat ->
    step s (act t (FQueue q r treat held 0 (after_kick r) :: rest) q (w_kick (q_kick (s_q s q) - 1) (s_q s q)) [] s)
(* 450-462 *)
| S_sync t rest q r treat held : s_stack s t = FQueue q r treat held 0 ASync :: rest ->
    In (r_id r) (s_sync s) ->
    step s (act t (FQueue q r treat held 0 APut :: rest) q (s_q s q) [] s)
(* 1340-1346 *)
| S_put t rest q r treat code : s_stack s t = FQueue q r treat true code APut :: rest ->
    step s (act t rest q (put_ref t (s_q s q)) [EReturn t q r code] s)
| S_put_this t rest q r treat code : s_stack s t = FQueue q r treat false code APut :: rest ->
    step s (act t rest q (s_q s q) [EReturn t q r code] s)
(** *** Delivering a completion, 639-649 *)
| S_cget t rest q r : s_stack s t = FQueue q r false false 0 ACGet :: rest -> q_inst (s_q s q) = true ->
    step s (act t (FQueue q r false true 0 AAdd :: rest) q (get_ref t (s_q s q)) [] s)
| S_cget_fail t rest q r q0 : s_stack s t = FQueue q r false false 0 ACGet :: rest -> q_inst (s_q s q) = false ->
    this s t = Some q0 ->
    step s (act t (FUser :: rest) q (s_q s q) [EFreeRun t q0 r] s)
(** *** Destroying and waiting *)
| S_dget t rest q i w c n : s_stack s t = FDestroy q i w c 0 n DGet :: rest -> q_inst (s_q s q) = true ->
    step s (act t (FDestroy q i w c 0 n DCheck :: rest) q (get_ref t (s_q s q)) [] s)
| S_dget_fail t rest q i w c n : s_stack s t = FDestroy q i w c 0 n DGet :: rest -> q_inst (s_q s q) = false ->
    step s (act t rest q (s_q s q) [EWaitReturn t q n (- AOSL_EINVAL)] s)
(* 1741-1749, 1682-1686 *)
| S_dcheck t rest q i w c n : s_stack s t = FDestroy q i w c 0 n DCheck :: rest ->
    step s (act t
      ((if w && is_this s t q then FDestroy q i w c (- AOSL_EBUSY) n DPut
        else if i && c && q_keep (s_q s q) then FDestroy q i w c (- AOSL_EPERM) n DPut
        else FDestroy q i w c 0 n (if w then DAddWait else DTerm)) :: rest) q (s_q s q) [] s)
(* __mpq_add_wait 1698-1717 *)
| S_add_wait t rest q i w c n : s_stack s t = FDestroy q i w c 0 n DAddWait :: rest ->
    step s (act t (FDestroy q i w c 0 n (if i then DTerm else DPut) :: rest) q
      (w_waiters (q_waiters (s_q s q) ++ [n]) (s_q s q)) [EAddWait t q n] s)
(* __mpq_destroy 1639-1670 *)
| S_term t rest q i w c n : s_stack s t = FDestroy q i w c 0 n DTerm :: rest ->
    step s (act t (FDestroy q i w c 0 n (if is_this s t q then DBcast else DKick) :: rest) q (w_term true (s_q s q)) [] s)
| S_dkick t rest q i w c n : s_stack s t = FDestroy q i w c 0 n DKick :: rest -> q_need (s_q s q) = true ->
    step s (act t (FDestroy q i w c 0 n DKickW :: rest) q (w_kick (q_kick (s_q s q) + 1) (s_q s q)) [] s)
| S_dnokick t rest q i w c n : s_stack s t = FDestroy q i w c 0 n DKick :: rest -> q_need (s_q s q) = false ->
    step s (act t (FDestroy q i w c 0 n DBcast :: rest) q (s_q s q) [] s)
| S_dkick_write t rest q i w c n : s_stack s t = FDestroy q i w c 0 n DKickW :: rest ->
    step s (act t (FDestroy q i w c 0 n DBcast :: rest) q (w_pipe (S (q_pipe (s_q s q))) (s_q s q)) [] s)
| S_dkick_full t rest q i w c n : s_stack s t = FDestroy q i w c 0 n DKickW :: rest -> (0 < q_pipe (s_q s q))%nat ->
    step s (act t (FDestroy q i w c 0 n DBcast :: rest) q (w_kick (q_kick (s_q s q) - 1) (s_q s q)) [] s)
(* 1648-1669; with a single waiter a signal is the same as a broadcast *)
| S_bcast t rest q i w c n q0 : s_stack s t = FDestroy q i w c 0 n DBcast :: rest -> this s t = Some q0 ->
    step s (act t (FDestroy q i w c 0 n DPut :: rest) q0
      (if 0 <? q_waitc (s_q s q0) then wake_all (s_q s q0) else s_q s q0) [] s)
| S_nobcast t rest q i w c n : s_stack s t = FDestroy q i w c 0 n DBcast :: rest -> this s t = None ->
    step s (act t (FDestroy q i w c 0 n DPut :: rest) q (s_q s q) [] s)
| S_dput_wait t rest q i c n : s_stack s t = FDestroy q i true c 0 n DPut :: rest ->
    step s (act t (FDestroy q i true c 0 n DWait :: rest) q (put_ref t (s_q s q)) [] s)
| S_dput t rest q i w c code n : s_stack s t = FDestroy q i w c code n DPut :: rest -> (w = true -> code <> 0) ->
    step s (act t rest q (put_ref t (s_q s q)) [EWaitReturn t q n code] s)
(* __mpq_destroy_wait 1719-1730 *)
| S_waited t rest q i c n : s_stack s t = FDestroy q i true c 0 n DWait :: rest -> In n (s_rel s) ->
    step s (act t rest q (s_q s q) [EWaitReturn t q n 0] s)
(** *** The thread of the queue *)
(* 966-972 *)
| S_init_ok t q : at_pc s q t PInit -> step s (act t [] q (w_pc (PCheck PhLoop) (s_q s q)) [] s)
| S_init_fail t q : at_pc s q t PInit ->
    step s (act t [] q (w_pc XUninst (w_exiting true (w_term true (s_q s q)))) [] s)
(* __check_and_call_funcs 671-703 *)
| S_check_head t q ph : at_pc s q t (PCheck ph) ->
    step s (act t [] q (w_pc (match q_pend (s_q s q) with [] => after_funcs ph false | _ => PDetach ph end) (s_q s q)) [] s)
| S_detach t q ph : at_pc s q t (PDetach ph) ->
    step s (act t [] q (w_pc (PNext ph true) (w_batch (q_pend (s_q s q)) (w_pend [] (s_q s q)))) [] s)
| S_next_none t q ph did : at_pc s q t (PNext ph did) -> q_batch (s_q s q) = [] ->
    step s (act t [] q (w_pc (after_funcs ph did) (s_q s q)) [] s)
| S_next t q ph did r rest k : at_pc s q t (PNext ph did) -> q_batch (s_q s q) = r :: rest ->
    step s (act t [FUser] q (w_pc (PRun ph r k) (w_batch rest (s_q s q))) [EStart t q r k] s)
| S_ran t q ph r k : at_pc s q t (PRun ph r k) ->
    step s (act t [] q (w_pc (PDone ph r k) (s_q s q)) [EEnd t q r] s)
(* __invoke_f 637-650 *)
| S_no_done t q ph r k : at_pc s q t (PDone ph r k) -> r_done r = None \/ k = KFree ->
    step s (act t [] q (w_pc (PDec ph r) (s_q s q)) [] s)
| S_done t q ph r k d r' : at_pc s q t (PDone ph r k) -> r_done r = Some d -> k <> KFree ->
    r' = mkReq (s_next s) None false true (Some (r_id r)) ->
    step s (next (act t [FQueue d r' false false 0 ACGet] q (w_pc (PDec ph r) (s_q s q)) [ECall t d r'] s))
(* __process_fo 658-668 *)
| S_dec t q ph r : at_pc s q t (PDec ph r) ->
    step s (act t [] q (w_pc (PSync ph r) (w_cnt (q_cnt (s_q s q) - 1) (s_q s q))) [EDone q r] s)
| S_set_sync t q ph r : at_pc s q t (PSync ph r) -> r_sync r = true ->
    step s (set_sync (r_id r) (act t [] q (w_pc (PSignal ph) (s_q s q)) [] s))
| S_not_sync t q ph r : at_pc s q t (PSync ph r) -> r_sync r = false ->
    step s (act t [] q (w_pc (PSignal ph) (s_q s q)) [] s)
(* 695-698 *)
| S_signal t q ph u : at_pc s q t (PSignal ph) -> 0 < q_waitc (s_q s q) -> In u (q_blocked (s_q s q)) ->
    step s (act t [] q (w_pc (PNext ph true) (wake u (s_q s q))) [] s)
| S_nosignal t q ph : at_pc s q t (PSignal ph) -> q_waitc (s_q s q) <= 0 \/ q_blocked (s_q s q) = [] ->
    step s (act t [] q (w_pc (PNext ph true) (s_q s q)) [] s)
(* __mp_queue_poll_loop 779-789 *)
| S_timer t q : at_pc s q t PTimers -> step s (act t [FUser] q (s_q s q) [] s)
| S_timers t q : at_pc s q t PTimers -> step s (act t [] q (w_pc PTerm (s_q s q)) [] s)
| S_exit t q : at_pc s q t PTerm -> q_term (s_q s q) = true ->
    step s (act t [] q (w_pc XUninst (w_exiting true (s_q s q))) [] s)
| S_stay t q bl iof : at_pc s q t PTerm -> q_term (s_q s q) = false ->
    step s (act t [] q (w_pc (PPollT bl iof) (s_q s q)) [] s)
(* os_poll_dispatch, osmp.c 116-187 *)
| S_poll_t t q bl iof : at_pc s q t (PPollT bl iof) ->
    step s (act t [] q (w_pc (if q_term (s_q s q) then PCheck PhLoop else PPollK bl iof) (s_q s q)) [] s)
| S_poll_k t q bl iof : at_pc s q t (PPollK bl iof) ->
    step s (act t [] q (w_pc (if (0 <? q_kick (s_q s q)) || iof || bl then PNeed bl iof else PCheck PhLoop) (s_q s q)) [] s)
| S_need t q bl iof : at_pc s q t (PNeed bl iof) ->
    step s (act t [] q (w_pc (PReT bl iof) (w_need true (s_q s q))) [] s)
| S_ret t q bl iof : at_pc s q t (PReT bl iof) ->
    step s (act t [] q (w_pc (if q_term (s_q s q) then PCheck PhLoop else PCount bl iof) (s_q s q)) [] s)
| S_count t q bl iof : at_pc s q t (PCount bl iof) ->
    step s (act t [] q (w_pc (if 0 <? q_cnt (s_q s q) then PNeed0 iof else PWaitSet bl) (s_q s q)) [] s)
| S_need0 t q iof : at_pc s q t (PNeed0 iof) ->
    step s (act t [] q (w_pc (PK2 iof) (w_need false (s_q s q))) [] s)
| S_k2 t q iof : at_pc s q t (PK2 iof) ->
    step s (act t [] q (w_pc (if (q_kick (s_q s q) =? 0) && negb iof then PCheck PhLoop else PWaitSet false) (s_q s q)) [] s)
(* __os_iomp_wait, osmp.c 102-114 *)
| S_wait_set t q bl : at_pc s q t (PWaitSet bl) ->
    step s (act t [] q (w_pc (PPoll bl) (w_need true (s_q s q))) [] s)
| S_poll_sig t q bl : at_pc s q t (PPoll bl) -> (0 < q_pipe (s_q s q))%nat ->
    step s (act t [] q (w_pc (PNeed1 true) (s_q s q)) [] s)
| S_poll_other t q bl : at_pc s q t (PPoll bl) -> step s (act t [] q (w_pc (PNeed1 false) (s_q s q)) [] s)
| S_need1 t q sig : at_pc s q t (PNeed1 sig) ->
    step s (act t [] q (w_pc (if sig then PDrain else PIofd) (w_need false (s_q s q))) [] s)
(* os_drain_sigp, mpq.c 286-308 *)
| S_drain t q n : at_pc s q t PDrain -> n = Nat.min (q_pipe (s_q s q)) (Z.to_nat 1024) ->
    step s (act t [] q (w_pc (PDrainSub n) (w_pipe (q_pipe (s_q s q) - n)%nat (s_q s q))) [] s)
| S_drain_sub t q n : at_pc s q t (PDrainSub n) ->
    step s (act t [] q (w_pc (if Z.of_nat n <? 1024 then PIofd else PDrain) (w_kick (q_kick (s_q s q) - Z.of_nat n) (s_q s q))) [] s)
(* fd callbacks *)
| S_iofd t q : at_pc s q t PIofd -> step s (act t [FUser] q (s_q s q) [] s)
| S_iofds t q : at_pc s q t PIofd -> step s (act t [] q (w_pc (PCheck PhLoop) (s_q s q)) [] s)
(* __q_wait_destroy 800-853 *)
| S_uninst t q : at_pc s q t XUninst ->
    step s (act t [] q (w_pc XUsage (w_inst false (s_q s q))) [EGone q] s)
| S_usage t q : at_pc s q t XUsage ->
    step s (act t [] q (w_pc (if 1 <? q_usage (s_q s q) then PCheck PhUsage else PCheck PhFinal) (s_q s q)) [] s)
| S_fini t q : at_pc s q t XFini ->
    step s (act t [FUser] q (w_pc XClear (s_q s q)) [EFini q] s)
| S_clear t q : at_pc s q t XClear -> step s (act t [] q (w_pc XFree (s_q s q)) [] s)
| S_free t q : at_pc s q t XFree ->
    step s (act t [] q (w_pc (XRelease (q_waiters (s_q s q))) (w_freed true (s_q s q))) [EDestroyed q] s)
| S_release t q w ws : at_pc s q t (XRelease (w :: ws)) ->
    step s (set_rel w (act t [] q (w_pc (XRelease ws) (s_q s q)) [] s))
| S_dead t q : at_pc s q t (XRelease []) ->
    step s (set_drv t None (act t [] q (w_pc XDead (s_q s q)) [] s)).

Inductive reachable : state -> Prop :=
| R_init : reachable init_state
| R_step s s' : reachable s -> step s s' -> reachable s'.
