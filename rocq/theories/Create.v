(** * Model of the creation of a thread and of a queue.

    k_os_thread_entry and k_thread_create, kernel/thread.c 35-112;
    aosl_hal_thread_create, platform/src/linux/aosl_hal_thread.c 18-36;
    mpq_thread_entry, __mpq_create and __mpq_create_flags, kernel/mpq.c 949-1062,
    behind aosl_mpq_create and aosl_mpq_create_flags.

    One creation: the thread that calls aosl_mpq_create (the creator) and the
    thread it makes (the child).  They share two records in the creator's stack
    frames, the k_thread_create_args_t of k_thread_create (frame 1: args, lock,
    cond) and the __mpq_create_args of __mpq_create (frame 2: args, sync), and
    the queue object.  Different creations share nothing, so one is modelled.
    A step is one access to shared memory or one operation on a mutex or a
    condition variable.

    Simplifications: the condition variable is the ideal one (waiting releases
    the mutex and goes to sleep in one step, a signal wakes the sleeping thread
    if it sleeps, a sleeping thread may also wake spuriously); mutexes and
    condition variables can be created; the unlocking of a mutex is the last
    access to it (so that it may be destroyed at once, as POSIX demands).  What
    the queue does between its creation and its end is not modelled here (see
    Mpq.v): it may be told to end at any time after its creation, which runs
    fini and frees the queue object (__q_wait_destroy 800-853). *)
From Verif Require Import Base.

(** The arguments of aosl_mpq_create_flags; whether init and fini are given. *)
Record cfg := mkCfg { c_flags : Z; c_pri : Z; c_max : Z; c_init : bool; c_fini : bool }.
(** What the system does: the result of pthread_create, whether and how
    __q_create fails (859-935: 0 it succeeds, otherwise the child's aosl_errno,
    or None for an allocation that fails without setting it), the result of
    init, and the aosl_errno that init, and then fini, leave behind. *)
Record env := mkEnv { e_pthread : Z; e_q : option Z; e_init : Z; e_init_errno : Z; e_fini_errno : Z }.

(** include/api/aosl_errno.h 133. *)
Definition AOSL_EHAL : Z := AOSL_EBASE + 1000.
(** aosl_hal_thread_create, aosl_hal_thread.c 23-35. *)
Definition hal_create (e : Z) : Z := if e <? 0 then -1 else 0.
(** Checks before anything is done: mpq.c 1052-1055, 1007-1010, thread.c 79-81.
    None: all is well; Some o: the call fails, with aosl_errno set to o. *)
Definition checks (c : cfg) : option (option Z) :=
  if negb (Z.land (u32 (c_flags c)) 4294901760 =? 0) then Some (Some AOSL_EINVAL)
  else if ((c_max c <? 1) || (1000000 <? c_max c))%bool then Some (Some AOSL_EINVAL)
  else if ((c_pri c <? 0) || (5 <? c_pri c))%bool then Some None
  else None.

(** The creator: which statement comes next. *)
Inductive creator :=
| CStart                              (* mpq.c 1049 *)
| CHal                                (* thread.c 101 *)
| CLk1 | CTest1 | CSleep1 | CUn1 | CDes1   (* 107, 108, 109, 110, 113-114 *)
| CLk2 | CTest2 | CSleep2 | CUn2 | CDes2   (* mpq.c 1030, 1031, 1032, 1033, 1035-1036 *)
| CErr                                (* 1038-1041 *)
| CQid                                (* 1058-1059 *)
| CRet.
(** The child.  [BFini rep]: in __q_wait_destroy; rep: init has failed and the
    failure is to be reported afterwards. *)
Inductive child :=
| BNone                               (* not created *)
| BArgs                               (* thread.c 40-72 *)
| BLk1 | BDone | BUn1                 (* 74, 75-76, 77 *)
| BEntry                              (* mpq.c 951-954 *)
| BInit                               (* 966 *)
| BFini (rep : bool) | BFree (rep : bool)   (* 828-829, 843 *)
| BFiniQ                              (* 979-980 *)
| BLk2 | BRes | BUn2                  (* 983, 984-986, 987 *)
| BRun                                (* 995 *)
| BEnd.

(** Observable events. *)
Inductive event := EInit | EFini | EReturn (ok : bool) (errno : Z).

Inductive who := Creator | Child.
Record state := mkSt {
  s_c : creator; s_b : child;
  s_lk1 : option who; s_lk2 : option who;
  s_wake : bool;                     (* the sleeping creator has been woken *)
  s_done : bool;                     (* frame 1: args.done *)
  s_res : option bool;               (* frame 2: sync.result: None: INIT, false: NULL *)
  s_err : Z;                         (* frame 2: args.err *)
  s_live1 : bool; s_live2 : bool;    (* the frames still exist *)
  s_q : option bool;                 (* the queue object: Some true: it exists, Some false: freed *)
  s_berr : Z; s_cerr : Z;            (* aosl_errno of the child, of the creator *)
  s_serr : Z;                        (* the child's variable err, 955, 967 *)
  s_bad : bool;                      (* a dead frame was used *)
  s_badq : bool;                     (* the freed queue object was used *)
  s_tr : list event }.               (* latest first *)

Definition init_state (errno : Z) : state :=
  mkSt CStart BNone None None false false None 0 true true None 0 errno 0 false false [].

Definition setC p s := mkSt p (s_b s) (s_lk1 s) (s_lk2 s) (s_wake s) (s_done s) (s_res s) (s_err s) (s_live1 s) (s_live2 s) (s_q s) (s_berr s) (s_cerr s) (s_serr s) (s_bad s) (s_badq s) (s_tr s).
Definition setB p s := mkSt (s_c s) p (s_lk1 s) (s_lk2 s) (s_wake s) (s_done s) (s_res s) (s_err s) (s_live1 s) (s_live2 s) (s_q s) (s_berr s) (s_cerr s) (s_serr s) (s_bad s) (s_badq s) (s_tr s).
Definition setL1 o s := mkSt (s_c s) (s_b s) o (s_lk2 s) (s_wake s) (s_done s) (s_res s) (s_err s) (s_live1 s) (s_live2 s) (s_q s) (s_berr s) (s_cerr s) (s_serr s) (s_bad s) (s_badq s) (s_tr s).
Definition setL2 o s := mkSt (s_c s) (s_b s) (s_lk1 s) o (s_wake s) (s_done s) (s_res s) (s_err s) (s_live1 s) (s_live2 s) (s_q s) (s_berr s) (s_cerr s) (s_serr s) (s_bad s) (s_badq s) (s_tr s).
Definition setWake b s := mkSt (s_c s) (s_b s) (s_lk1 s) (s_lk2 s) b (s_done s) (s_res s) (s_err s) (s_live1 s) (s_live2 s) (s_q s) (s_berr s) (s_cerr s) (s_serr s) (s_bad s) (s_badq s) (s_tr s).
Definition setDone s := mkSt (s_c s) (s_b s) (s_lk1 s) (s_lk2 s) (s_wake s) true (s_res s) (s_err s) (s_live1 s) (s_live2 s) (s_q s) (s_berr s) (s_cerr s) (s_serr s) (s_bad s) (s_badq s) (s_tr s).
Definition setRes r e s := mkSt (s_c s) (s_b s) (s_lk1 s) (s_lk2 s) (s_wake s) (s_done s) (Some r) e (s_live1 s) (s_live2 s) (s_q s) (s_berr s) (s_cerr s) (s_serr s) (s_bad s) (s_badq s) (s_tr s).
Definition die1 s := mkSt (s_c s) (s_b s) (s_lk1 s) (s_lk2 s) (s_wake s) (s_done s) (s_res s) (s_err s) false (s_live2 s) (s_q s) (s_berr s) (s_cerr s) (s_serr s) (s_bad s) (s_badq s) (s_tr s).
Definition die2 s := mkSt (s_c s) (s_b s) (s_lk1 s) (s_lk2 s) (s_wake s) (s_done s) (s_res s) (s_err s) (s_live1 s) false (s_q s) (s_berr s) (s_cerr s) (s_serr s) (s_bad s) (s_badq s) (s_tr s).
Definition setQ o s := mkSt (s_c s) (s_b s) (s_lk1 s) (s_lk2 s) (s_wake s) (s_done s) (s_res s) (s_err s) (s_live1 s) (s_live2 s) o (s_berr s) (s_cerr s) (s_serr s) (s_bad s) (s_badq s) (s_tr s).
Definition setBerr e s := mkSt (s_c s) (s_b s) (s_lk1 s) (s_lk2 s) (s_wake s) (s_done s) (s_res s) (s_err s) (s_live1 s) (s_live2 s) (s_q s) e (s_cerr s) (s_serr s) (s_bad s) (s_badq s) (s_tr s).
Definition setCerr e s := mkSt (s_c s) (s_b s) (s_lk1 s) (s_lk2 s) (s_wake s) (s_done s) (s_res s) (s_err s) (s_live1 s) (s_live2 s) (s_q s) (s_berr s) e (s_serr s) (s_bad s) (s_badq s) (s_tr s).
Definition setSerr e s := mkSt (s_c s) (s_b s) (s_lk1 s) (s_lk2 s) (s_wake s) (s_done s) (s_res s) (s_err s) (s_live1 s) (s_live2 s) (s_q s) (s_berr s) (s_cerr s) e (s_bad s) (s_badq s) (s_tr s).
(** An access that is allowed only if [ok]. *)
Definition touch (ok : bool) s := mkSt (s_c s) (s_b s) (s_lk1 s) (s_lk2 s) (s_wake s) (s_done s) (s_res s) (s_err s) (s_live1 s) (s_live2 s) (s_q s) (s_berr s) (s_cerr s) (s_serr s) (s_bad s || negb ok)%bool (s_badq s) (s_tr s).
Definition emit e s := mkSt (s_c s) (s_b s) (s_lk1 s) (s_lk2 s) (s_wake s) (s_done s) (s_res s) (s_err s) (s_live1 s) (s_live2 s) (s_q s) (s_berr s) (s_cerr s) (s_serr s) (s_bad s) (s_badq s) (e :: s_tr s).
Definition touchQ (ok : bool) s := mkSt (s_c s) (s_b s) (s_lk1 s) (s_lk2 s) (s_wake s) (s_done s) (s_res s) (s_err s) (s_live1 s) (s_live2 s) (s_q s) (s_berr s) (s_cerr s) (s_serr s) (s_bad s) (s_badq s || negb ok)%bool (s_tr s).
Definition frame1 s := touch (s_live1 s) s.
Definition frame2 s := touch (s_live2 s) s.

(** The call returns. *)
Definition ret (ok : bool) (s : state) : state := setC CRet (emit (EReturn ok (s_cerr s)) s).
(** fini (828-829, 979-980): it may change the child's aosl_errno. *)
Definition call_fini (c : cfg) (v : env) (s : state) : state :=
  if c_fini c then setBerr (e_fini_errno v) (emit EFini s) else s.

(** A step of the creator. *)
Definition creator_step (c : cfg) (v : env) (s : state) : option state :=
  match s_c s with
  | CStart =>
      match checks c with
      | Some (Some e) => Some (ret false (setCerr e s))
      | Some None => Some (ret false s)            (* thread.c 80, mpq.c 1024-1028 *)
      | None => Some (setC CHal s)
      end
  | CHal =>
      let s := if e_pthread v =? 0 then setB BArgs s else s in
      if hal_create (e_pthread v) <? 0 then
        (* thread.c 102-103, 113-115; mpq.c 1024-1028; aosl_hal_set_error, err.h 66-68 *)
        Some (ret false (die2 (die1 (setCerr AOSL_EHAL s))))
      else Some (setC CLk1 s)
  | CLk1 => match s_lk1 s with None => Some (setC CTest1 (setL1 (Some Creator) s)) | _ => None end
  | CTest1 => if s_done s then Some (setC CUn1 s) else Some (setC CSleep1 (setWake false (setL1 None s)))
  | CSleep1 => if s_wake s then match s_lk1 s with None => Some (setC CTest1 (setL1 (Some Creator) s)) | _ => None end else None
  | CUn1 => Some (setC CDes1 (setL1 None s))
  | CDes1 => Some (setC CLk2 (die1 s))
  | CLk2 => match s_lk2 s with None => Some (setC CTest2 (setL2 (Some Creator) s)) | _ => None end
  | CTest2 => match s_res s with Some _ => Some (setC CUn2 s) | None => Some (setC CSleep2 (setWake false (setL2 None s))) end
  | CSleep2 => if s_wake s then match s_lk2 s with None => Some (setC CTest2 (setL2 (Some Creator) s)) | _ => None end else None
  | CUn2 => Some (setC CDes2 (setL2 None s))
  | CDes2 => Some (setC CErr (die2 s))
  | CErr =>
      match s_res s with
      | Some true => Some (setC CQid s)
      | _ => Some (ret false (setCerr (s_err s) s))
      end
  | CQid => Some (ret true (touchQ (match s_q s with Some true => true | _ => false end) s))
  | CRet => None
  end.

(** A step of the child. *)
Definition child_step (c : cfg) (v : env) (s : state) : option state :=
  match s_b s with
  | BNone => None
  | BArgs => Some (setB BLk1 (frame1 s))
  | BLk1 => match s_lk1 s with None => Some (setB BDone (setL1 (Some Child) (frame1 s))) | _ => None end
  | BDone => Some (setB BUn1 (setWake true (setDone (frame1 s))))
  | BUn1 => Some (setB BEntry (setL1 None (frame1 s)))
  | BEntry =>
      match e_q v with
      | Some 0 => Some (setB BInit (setQ (Some true) (setSerr (s_berr s) (frame2 s))))
      | Some e => Some (setB BFiniQ (setSerr e (setBerr e (frame2 s))))
      | None => Some (setB BFiniQ (setSerr (s_berr s) (frame2 s)))
      end
  | BInit =>
      if c_init c then
        let s := setBerr (e_init_errno v) (emit EInit (frame2 s)) in
        if e_init v <? 0 then Some (setB (BFini true) (setSerr (s_berr s) s)) else Some (setB BLk2 s)
      else Some (setB BLk2 (frame2 s))
  | BFini rep => Some (setB (BFree rep) (call_fini c v s))
  | BFree rep => Some (setB (if rep then BLk2 else BEnd) (setQ (Some false) s))
  | BFiniQ => Some (setB BLk2 (call_fini c v s))
  | BLk2 => match s_lk2 s with None => Some (setB BRes (setL2 (Some Child) (frame2 s))) | _ => None end
  | BRes => Some (setB BUn2 (setWake true (setRes (match s_q s with Some true => true | _ => false end) (s_serr s) (frame2 s))))
  | BUn2 => Some (setB (match s_q s with Some true => BRun | _ => BEnd end) (setL2 None (frame2 s)))
  | BRun => Some (setB (BFini false) s)
  | BEnd => None
  end.

Inductive step (c : cfg) (v : env) (s : state) : state -> Prop :=
| S_creator s' : creator_step c v s = Some s' -> step c v s s'
| S_child s' : child_step c v s = Some s' -> step c v s s'
| S_spurious : (s_c s = CSleep1 \/ s_c s = CSleep2) -> s_wake s = false -> step c v s (setWake true s).

Inductive reachable (c : cfg) (v : env) : state -> Prop :=
| R_init errno : reachable c v (init_state errno)
| R_step s s' : reachable c v s -> step c v s s' -> reachable c v s'.

(** __get_os_priority, platform/src/linux/aosl_hal_thread.c 75-113, for the
    least and greatest priority of the system; None: it returns -1. *)
Definition os_priority (lo hi pri : Z) : option Z :=
  if hi - lo <=? 2 then None
  else
    let top := hi - 1 in
    let low := lo + 1 in
    match pri with
    | 1 => Some low
    | 2 => Some (Z.quot (low + top - 1) 2)
    | 3 => Some (Z.max (top - 2) low)
    | 4 => Some (Z.max (top - 1) low)
    | 5 => Some top
    | _ => None
    end.
