(** * Model of the main queue.

    aosl_main_start, aosl_mpq_main, aosl_main_exit, aosl_main_exit_wait,
    aosl_main_wait, kernel/mpq.c 1782-1826; mpq_destroy and mpq_do_wait
    1671-1760; the end of a queue, __q_wait_destroy and __q_destroy, 731-760 and
    800-853; the lookup __mpq_get 235-258 and __mpq_id_install 192-215.

    Any number of threads make these calls in any interleaving; a step is one
    access to aosl_main_qid, to the table of queues, or to the reference count
    of a queue.

    Simplifications: the creation of a queue (997-1062, see Create.v) is the
    step that installs the queue, the call of init, and the creator's learning
    of the result; between its lookup and the release of its reference a call
    of aosl_main_exit / exit_wait / wait is one step, because it only touches the
    queue it holds; the table of queues is the list of all queues ever created;
    the slot of a new queue is any slot such that the handle is not that of an
    earlier queue (C04, C05 say when handles repeat); what queues do otherwise
    (Mpq.v) is left out. *)
From Verif Require Import Base.

(** mpq.c 731 AOSL_MPQ_INVALID, aosl_mpq.h 56. *)
Definition INVALID : Z := -1.
(** make_mpq_obj_id, mpq.c 177-180, for a slot 0 <= slot < 2048. *)
Definition make_id (slot life : Z) : Z := u32 (life * 65536) + slot.

(** How far a queue is: init is running (966); it runs (995); removed from the
    table (805); fini has run (828); its id was given back (751); main id reset,
    freed, its waiters woken (752-758, 843-852). *)
Inductive qphase := QInit | QRun | QDying | QFini | QPut | QFree.
Record queue := mkQ {
  q_id : Z; q_main : bool;      (* made by aosl_main_start *)
  q_ph : qphase;
  q_failed : bool;              (* init has failed *)
  q_term : bool;                (* q->terminated *)
  q_allowed : bool;             (* AOSL_MPQ_FLAG_DESTROY_NOT_ALLOWED is not set *)
  q_users : list nat }.         (* the threads that hold a reference (q->usage - 1) *)

Inductive kind := KExit | KExitWait | KWait.
(** What a thread is doing. *)
Inductive pc :=
| Idle
| Creating0                     (* 1788 *)
| Creating (q : nat)            (* 1788, the queue is installed *)
| Store (q : nat)               (* 1792 *)
| Register                      (* 1794-1797 *)
| Lookup (k : kind) (id : Z)    (* 1675 / 1728 *)
| Got (k : kind) (q : nat)      (* 1681-1690 / 1732-1757 *)
| Waiting (k : kind) (q : nat). (* 1759 *)

(** Observable events. *)
Inductive event :=
| EInit (q : nat) | EFini (q : nat)
| EStart (t : nat) (ret errno : Z)
| EMain (t : nat) (v : Z)
| EExit (t : nat) (k : kind) (ret errno : Z)
| ETerm (t q : nat).            (* a call makes queue q end *)

Record state := mkSt {
  s_main : Z;                   (* aosl_main_qid *)
  s_life : Z;                   (* __mpqobj_life_id *)
  s_reg : bool;                 (* __main_auto_exit_registered *)
  s_atexit : nat;               (* number of calls atexit (__main_auto_exit) *)
  s_qs : list queue;
  s_th : nat -> pc;
  s_bad : bool;                 (* a freed queue object was read *)
  s_tr : list event }.          (* latest first *)

(** The library after any number of creations and destructions of other
    queues, which have moved the life id. *)
Definition init_state (life : Z) : state := mkSt INVALID life false 0 [] (fun _ => Idle) false [].

Definition setM m s := mkSt m (s_life s) (s_reg s) (s_atexit s) (s_qs s) (s_th s) (s_bad s) (s_tr s).
Definition setT t p s := mkSt (s_main s) (s_life s) (s_reg s) (s_atexit s) (s_qs s) (fun x => if (x =? t)%nat then p else s_th s x) (s_bad s) (s_tr s).
Definition setQs l s := mkSt (s_main s) (s_life s) (s_reg s) (s_atexit s) l (s_th s) (s_bad s) (s_tr s).
Definition setLife l s := mkSt (s_main s) l (s_reg s) (s_atexit s) (s_qs s) (s_th s) (s_bad s) (s_tr s).
Definition setReg n s := mkSt (s_main s) (s_life s) true n (s_qs s) (s_th s) (s_bad s) (s_tr s).
Definition setBad b s := mkSt (s_main s) (s_life s) (s_reg s) (s_atexit s) (s_qs s) (s_th s) (s_bad s || b)%bool (s_tr s).
Definition emit e s := mkSt (s_main s) (s_life s) (s_reg s) (s_atexit s) (s_qs s) (s_th s) (s_bad s) (e :: s_tr s).

Fixpoint upd {A} (l : list A) (i : nat) (x : A) : list A :=
  match l, i with
  | [], _ => []
  | _ :: l, O => x :: l
  | y :: l, S i => y :: upd l i x
  end.
Definition setQ i q s := setQs (upd (s_qs s) i q) s.
Definition ph q p := mkQ (q_id q) (q_main q) p (q_failed q) (q_term q) (q_allowed q) (q_users q).
Definition fail q := mkQ (q_id q) (q_main q) QDying true true (q_allowed q) (q_users q).
Definition term q := mkQ (q_id q) (q_main q) (q_ph q) (q_failed q) true (q_allowed q) (q_users q).
Definition allow q := mkQ (q_id q) (q_main q) (q_ph q) (q_failed q) (q_term q) true (q_users q).
Definition hold t q := mkQ (q_id q) (q_main q) (q_ph q) (q_failed q) (q_term q) (q_allowed q) (t :: q_users q).
Definition unhold t q := mkQ (q_id q) (q_main q) (q_ph q) (q_failed q) (q_term q) (q_allowed q) (remove Nat.eq_dec t (q_users q)).

(** In the table: installed (203) and not yet removed (805). *)
Definition installed (q : queue) : bool := match q_ph q with QInit | QRun => true | _ => false end.
(** __mpq_get, 235-258: the installed queue with this handle, whose handle has
    a slot that is not negative (240). *)
Fixpoint find (l : list queue) (i : nat) (id : Z) : option nat :=
  match l with
  | [] => None
  | q :: l => if (installed q && (q_id q =? id))%bool then Some i else find l (S i) id
  end.
Definition lookup (s : state) (id : Z) : option nat := if s16 id <? 0 then None else find (s_qs s) 0 id.

(** aosl_mpq_main, 1804-1811. *)
Definition mpq_main (main : Z) : Z :=
  let main_q := s32 main in
  if s16 main_q <? 0 then INVALID else main_q.
(** aosl_main_started, aosl_mpq.h 355, 59. *)
Definition main_started (main : Z) : bool := negb (s16 (mpq_main main) <? 0).

(** The life id after an install, 204-211. *)
Definition next_life (l : Z) : Z := if u16 (l + 1) =? 0 then 1 else u16 (l + 1).

(** A new queue (859-925, 192-215). *)
Definition new_queue (s : state) (slot : Z) (main : bool) (p : qphase) : queue :=
  mkQ (make_id slot (s_life s)) main p false false (negb main) [].
Definition add_queue (s : state) (slot : Z) (main : bool) (p : qphase) : state :=
  setLife (next_life (s_life s)) (setQs (s_qs s ++ [new_queue s slot main p]) s).
Definition fresh (s : state) (slot : Z) : Prop :=
  0 <= slot < 2048 /\ forall q, In q (s_qs s) -> q_id q <> make_id slot (s_life s).

(** [chg]: the program clears DESTROY_NOT_ALLOWED of a main queue with
    aosl_mpq_change_flags (1073-1109). *)
Inductive step (chg : bool) (s : state) : state -> Prop :=
(* aosl_main_start, 1784 *)
| S_cas_win t : s_th s t = Idle -> s_main s = INVALID -> step chg s (setT t Creating0 (setM 0 s))
| S_cas_lose t : s_th s t = Idle -> s_main s <> INVALID ->
    step chg s (emit (EStart t (-1) AOSL_EEXIST) s)
(* 1788: no thread or no queue can be created; errno is whatever that left *)
| S_create_fail t e : s_th s t = Creating0 -> step chg s (emit (EStart t (-1) e) (setT t Idle s))
| S_create_q t slot : s_th s t = Creating0 -> fresh s slot ->
    step chg s (emit (EInit (length (s_qs s))) (setT t (Creating (length (s_qs s))) (add_queue s slot true QInit)))
(* 966: init succeeds, or fails *)
| S_init_ok t i q : s_th s t = Creating i -> nth_error (s_qs s) i = Some q -> q_ph q = QInit ->
    step chg s (setT t (Store i) (setQ i (ph q QRun) s))
| S_init_fail t i q : s_th s t = Creating i -> nth_error (s_qs s) i = Some q -> q_ph q = QInit ->
    step chg s (setQ i (fail q) s)
| S_fail_ret t i q e : s_th s t = Creating i -> nth_error (s_qs s) i = Some q -> q_ph q = QFree ->
    step chg s (emit (EStart t (-1) e) (setT t Idle s))
(* 1792 *)
| S_store t i q : s_th s t = Store i -> nth_error (s_qs s) i = Some q ->
    step chg s (setT t Register (setM (q_id q) (setBad (match q_ph q with QFree => true | _ => false end) s)))
(* 1794-1797 *)
| S_register t : s_th s t = Register ->
    step chg s (emit (EStart t 0 0) (setT t Idle (if s_reg s then s else setReg (S (s_atexit s)) s)))
(* aosl_mpq_main *)
| S_mpq_main t : s_th s t = Idle -> step chg s (emit (EMain t (mpq_main (s_main s))) s)
(* 1815, 1820, 1825: the argument is evaluated *)
| S_read t k : s_th s t = Idle -> step chg s (setT t (Lookup k (s_main s)) s)
| S_none t k id : s_th s t = Lookup k id -> lookup s id = None ->
    step chg s (emit (EExit t k (-1) AOSL_EINVAL) (setT t Idle s))
| S_get t k id i q : s_th s t = Lookup k id -> lookup s id = Some i -> nth_error (s_qs s) i = Some q ->
    step chg s (setT t (Got k i) (setQ i (hold t q) s))
(* 1732-1735: the caller is the queue's own thread *)
| S_busy t k i q : s_th s t = Got k i -> k <> KExit -> nth_error (s_qs s) i = Some q ->
    step chg s (emit (EExit t k (-1) AOSL_EBUSY) (setT t Idle (setQ i (unhold t q) s)))
(* 1688-1690 *)
| S_exit t i q : s_th s t = Got KExit i -> nth_error (s_qs s) i = Some q ->
    step chg s (emit (EExit t KExit 0 0) (emit (ETerm t i) (setT t Idle (setQ i (unhold t (term q)) s))))
(* 1742-1757 *)
| S_exit_wait t i q : s_th s t = Got KExitWait i -> nth_error (s_qs s) i = Some q ->
    step chg s (emit (ETerm t i) (setT t (Waiting KExitWait i) (setQ i (unhold t (term q)) s)))
| S_wait t i q : s_th s t = Got KWait i -> nth_error (s_qs s) i = Some q ->
    step chg s (setT t (Waiting KWait i) (setQ i (unhold t q) s))
(* 843-852: woken *)
| S_waited t k i q : s_th s t = Waiting k i -> nth_error (s_qs s) i = Some q -> q_ph q = QFree ->
    step chg s (emit (EExit t k 0 0) (setT t Idle s))
(* another queue is created; aosl_mpq_destroy of a queue that allows it, 1694-1697 *)
| S_other slot : fresh s slot -> step chg s (add_queue s slot false QRun)
| S_destroy i q : nth_error (s_qs s) i = Some q -> installed q = true -> q_allowed q = true ->
    step chg s (setQ i (term q) s)
| S_allow i q : chg = true -> nth_error (s_qs s) i = Some q -> installed q = true -> step chg s (setQ i (allow q) s)
(* the end of a queue *)
| S_uninstall i q : nth_error (s_qs s) i = Some q -> q_ph q = QRun -> q_term q = true ->
    step chg s (setQ i (ph q QDying) s)
| S_fini i q : nth_error (s_qs s) i = Some q -> q_ph q = QDying -> q_users q = [] ->
    step chg s (emit (EFini i) (setQ i (ph q QFini) s))
| S_putid i q : nth_error (s_qs s) i = Some q -> q_ph q = QFini -> step chg s (setQ i (ph q QPut) s)
| S_free i q : nth_error (s_qs s) i = Some q -> q_ph q = QPut ->
    step chg s (setM (if q_id q =? s_main s then INVALID else s_main s) (setQ i (ph q QFree) s)).

Inductive reachable (chg : bool) : state -> Prop :=
| R_init life : 1 <= life <= 65535 -> reachable chg (init_state life)
| R_step s s' : reachable chg s -> step chg s s' -> reachable chg s'.
