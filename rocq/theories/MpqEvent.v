(** * Model of the wake-up protocol of a queue made with AOSL_MPQ_FLAG_SIGP_EVENT
    (the queues of the LTW pool, kernel/mpqp.c 609): kernel/osmp.c 92-187,
    kernel/mpq.c 310-358 (kicking) and 767-800 (loop), with the event object of
    kernel/thread.c 335-382.

    One queue and any number of other threads that add functions to it or
    destroy it.  One transition is one access to a shared variable or one
    critical section of the event's mutex.

    Simplifications: memory is sequentially consistent; the functions in the
    queue are only counted, and while the queue runs functions and timers any
    number of them (also none) may finish, and running code may add to the
    queue - the loop 680-700 is modelled in Mpq.v; the waiting time that the
    timers give (mpq_max_wait_time 704-718) is arbitrary; such a queue has no
    descriptors (iofd.c 304), so iofd_count is 0; a full queue (____add_f
    431-487) is Mpq.v's; the sleeping thread may wake spuriously. *)
From Verif Require Import Base.

(** event->result; the queue is the only one to wait for it. *)
Inductive result := RNone | RPulse.
(** timeo: -1, positive, 0. *)
Inductive tmo := TInf | TPos | TZero.

Inductive qplace :=
| QRun                     (* mpq.c 773-781: functions and timers *)
| QTerm                    (* 783 *)
| QP1                      (* osmp.c 125, terminated *)
| QP2 (w : tmo)            (* 125, the rest *)
| QNeed (w : tmo)          (* 126 *)
| QReT (w : tmo)           (* 136 *)
| QCount (w : tmo)         (* 153 *)
| QNeed0                   (* 159 *)
| QK2                      (* 161 *)
| QSet (w : tmo)           (* 94 *)
| QWait (w : tmo)          (* 96: k_event_timedwait, about to take the mutex *)
| QBlk (w : tmo)           (* asleep in k_cond_(timed)wait *)
| QWok                     (* woken, about to take the mutex again *)
| QEnd                     (* 98 *)
| QExit.                   (* mpq.c 784 *)
(** A caller: outside; mp_kick_q 355; 356; os_mp_kick 332. *)
Inductive rplace := ROut | RTest | RInc | RPul.

Inductive event :=
| EAdd (r : nat)           (* r has put a function into the queue *)
| EOwn                     (* the queue's own thread has *)
| EExec                    (* a function has been run *)
| EDestroy (r : nat)       (* r has set terminated *)
| ERet (r : nat)           (* r's call has done its kicking *)
| EPulse (r : nat).

Record state := mkSt { s_count : nat; s_term : bool; s_need : bool; s_kick : nat; s_res : result;
  s_q : qplace; s_r : nat -> rplace; s_tr : list event }.
Definition init_state : state := mkSt 0 false false 0 RNone QRun (fun _ => ROut) [].
Definition fupd {A} (f : nat -> A) (k : nat) (v : A) : nat -> A := fun x => if (x =? k)%nat then v else f x.

Definition setq (p : qplace) (s : state) : state := mkSt (s_count s) (s_term s) (s_need s) (s_kick s) (s_res s) p (s_r s) (s_tr s).
Definition setneed (b : bool) (p : qplace) (s : state) : state := mkSt (s_count s) (s_term s) b (s_kick s) (s_res s) p (s_r s) (s_tr s).
Definition setres (v : result) (p : qplace) (s : state) : state := mkSt (s_count s) (s_term s) (s_need s) (s_kick s) v p (s_r s) (s_tr s).
Definition setr (r : nat) (p : rplace) (e : list event) (s : state) : state := mkSt (s_count s) (s_term s) (s_need s) (s_kick s) (s_res s) (s_q s) (fupd (s_r s) r p) (e ++ s_tr s).

(** The thread of the queue. *)
Inductive qstep (s : state) : state -> Prop :=
(* atomic_dec (&q->count), mpq.c 661 *)
| Q_exec n : s_q s = QRun -> s_count s = S n -> qstep s (mkSt n (s_term s) (s_need s) (s_kick s) (s_res s) QRun (s_r s) (EExec :: s_tr s))
(* ____add_f 442-446 by the queue itself: no kick *)
| Q_own : s_q s = QRun -> qstep s (mkSt (S (s_count s)) (s_term s) (s_need s) (s_kick s) (s_res s) QRun (s_r s) (EOwn :: s_tr s))
| Q_run : s_q s = QRun -> qstep s (setq QTerm s)
(* 783-786 *)
| Q_term : s_q s = QTerm -> qstep s (setq (if s_term s then QExit else QP1) s)
(* osmp.c 125; the waiting time comes from mpq_max_wait_time *)
| Q_p1 w : s_q s = QP1 -> qstep s (setq (if s_term s then QRun else QP2 w) s)
| Q_p2 w : s_q s = QP2 w ->
    qstep s (setq (if (0 <? s_kick s)%nat then QNeed w else match w with TZero => QRun | _ => QNeed w end) s)
(* 126 *)
| Q_need w : s_q s = QNeed w -> qstep s (setneed true (QReT w) s)
(* 136-144 *)
| Q_ret w : s_q s = QReT w -> qstep s (setq (if s_term s then QRun else QCount w) s)
(* 153 *)
| Q_count w : s_q s = QCount w -> qstep s (setq (if (0 <? s_count s)%nat then QNeed0 else QSet w) s)
(* 159 *)
| Q_need0 : s_q s = QNeed0 -> qstep s (setneed false QK2 s)
(* 161-176 *)
| Q_k2 : s_q s = QK2 -> qstep s (setq (if (s_kick s =? 0)%nat then QRun else QSet TZero) s)
(* __os_event_wait 94 *)
| Q_set w : s_q s = QSet w -> qstep s (setneed true (QWait w) s)
(* k_event_timedwait, thread.c 359-380: a pending pulse is used up at once *)
| Q_wait w : s_q s = QWait w -> qstep s (match s_res s with RPulse => setres RNone QEnd s | RNone => setq (QBlk w) s end)
(* the timeout passes *)
| Q_tmo w : s_q s = QBlk w -> w <> TInf -> qstep s (setq QWok s)
| Q_spur w : s_q s = QBlk w -> qstep s (setq QWok s)
(* 377-379 *)
| Q_wok : s_q s = QWok -> qstep s (setres RNone QEnd s)
(* 98 *)
| Q_end : s_q s = QEnd -> qstep s (setneed false QRun s).

(** The thread [r], another one. *)
Inductive rstep (r : nat) (s : state) : state -> Prop :=
(* ____add_f 431-447 *)
| R_add : s_r s r = ROut -> rstep r s (mkSt (S (s_count s)) (s_term s) (s_need s) (s_kick s) (s_res s) (s_q s) (fupd (s_r s) r RTest) (EAdd r :: s_tr s))
(* __mpq_destroy 1639-1645 *)
| R_destroy : s_r s r = ROut -> rstep r s (mkSt (s_count s) true (s_need s) (s_kick s) (s_res s) (s_q s) (fupd (s_r s) r RTest) (EDestroy r :: s_tr s))
(* mp_kick_q 355-356 *)
| R_test : s_r s r = RTest -> rstep r s (if s_need s then setr r RInc [] s else setr r ROut [ERet r] s)
| R_inc : s_r s r = RInc -> rstep r s (mkSt (s_count s) (s_term s) (s_need s) (S (s_kick s)) (s_res s) (s_q s) (fupd (s_r s) r RPul) (s_tr s))
(* os_mp_kick 332, k_event_pulse thread.c 335-343 *)
| R_pul : s_r s r = RPul ->
    rstep r s (mkSt (s_count s) (s_term s) (s_need s) (s_kick s) RPulse
                 (match s_res s, s_q s with RNone, QBlk _ => QWok | _, p => p end)
                 (fupd (s_r s) r ROut) (ERet r :: EPulse r :: s_tr s)).

Inductive step (s : state) : state -> Prop :=
| S_queue s' : qstep s s' -> step s s'
| S_other r s' : rstep r s s' -> step s s'.
Inductive reachable : state -> Prop :=
| R_init : reachable init_state
| R_step s s' : reachable s -> step s s' -> reachable s'.
