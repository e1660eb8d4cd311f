(** * Model of the static locks: kernel/thread.c 390-507, behind
    aosl_static_lock_init .. aosl_static_lock_unlock, lib/thread_api.c 80-103, and of
    the result of aosl_lock_trylock (kernel/thread.c 148-159, thread_api.c 63-66).

    Any number of threads use one lock.  One transition is one atomic access to
    lock->state or one call of the HAL mutex.

    Simplifications: memory is sequentially consistent; the HAL mutex is a correct
    non-recursive one once it is initialised; using one that is not initialised
    is an [EBad] in the history (undefined on most platforms), unlocking one that
    another thread holds frees it; a failing trylock is EBUSY, as
    pthread_mutex_trylock's is (platform/src/linux/aosl_hal_thread.c 173-176);
    sleeping 10 ms takes no step. *)
From Verif Require Import Base.

Inductive op := OInit | OLock | OTry | OUnlock | OFini.
Inductive lstate := Uninit | Initing | Inited.     (* include/kernel/thread.h 86-88 *)
Inductive mutex := MNone | MFree | MHeld (t : nat).
Inductive place :=
| Out
| PRead (o : op)             (* 453, 475, 492: read the state *)
| PCas (o : op)              (* 393 *)
| PHal (o : op)              (* 399: the HAL's init *)
| PUndo (o : op)             (* 403 *)
| PDone (o : op)             (* 408 *)
| PSpin (o : op) (n : nat)   (* 414, after n retries *)
| PMutex (o : op)            (* 464, 485, 502: the HAL mutex *)
| FRead (n : nat)            (* 427, 436 *)
| FHal                       (* 440 *)
| FSet.                      (* 441 *)

Inductive event :=
| ECall (t : nat) (o : op)
| ERet (t : nat) (o : op) (r : Z)
| EHalInit (t : nat)            (* the HAL mutex was initialised *)
| EHalFail (t : nat)            (* its initialisation failed *)
| EBad (t : nat) (o : op).      (* an uninitialised HAL mutex was used *)

Record state := mkSt { s_st : lstate; s_mu : mutex; s_pc : nat -> place; s_tr : list event }.
(** AOSL_STATIC_LOCK_INIT, include/api/aosl_thread.h 102-105. *)
Definition init_state : state := mkSt Uninit MNone (fun _ => Out) [].
Definition fupd {A} (f : nat -> A) (k : nat) (v : A) : nat -> A := fun x => if (x =? k)%nat then v else f x.
Definition go (t : nat) (p : place) (st : lstate) (mu : mutex) (e : list event) (s : state) : state := mkSt st mu (fupd (s_pc s) t p) (e ++ s_tr s).

(** EBUSY of the C library, returned as it is by pthread_mutex_trylock. *)
Definition EBUSY : Z := 16.
(** After a successful k_static_lock_init: return to the user (OInit) or go on to
    the HAL mutex (458-464 and alike). *)
Definition inited (t : nat) (o : op) (st : lstate) (mu : mutex) (s : state) : state :=
  match o with OInit => go t Out st mu [ERet t OInit 0] s | _ => go t (PMutex o) st mu [] s end.
(** After a failed one. *)
Definition failed (t : nat) (o : op) (r : Z) (st : lstate) (mu : mutex) (s : state) : state := go t Out st mu [ERet t o r] s.

Inductive step (t : nat) (s : state) : state -> Prop :=
(* the entry of the functions *)
| L_call o : s_pc s t = Out ->
    step t s (go t (match o with OInit => PCas OInit | OFini => FRead 0 | o => PRead o end) (s_st s) (s_mu s) [ECall t o] s)
(* 453-455, 475-477, 492-494 *)
| L_read o : s_pc s t = PRead o -> step t s (go t (match s_st s with Inited => PMutex o | _ => PCas o end) (s_st s) (s_mu s) [] s)
(* 393-395, 411, 423-425 *)
| L_cas o : s_pc s t = PCas o ->
    step t s (match s_st s with
              | Uninit => go t (PHal o) Initing (s_mu s) [] s
              | Initing => go t (PSpin o 0) (s_st s) (s_mu s) [] s
              | Inited => inited t o (s_st s) (s_mu s) s
              end)
(* 399 *)
| L_hal_ok o : s_pc s t = PHal o -> step t s (go t (PDone o) (s_st s) MFree [EHalInit t] s)
| L_hal_fail o : s_pc s t = PHal o -> step t s (go t (PUndo o) (s_st s) (s_mu s) [EHalFail t] s)
(* 403-404 *)
| L_undo o : s_pc s t = PUndo o -> step t s (failed t o (-1) Uninit (s_mu s) s)
(* 408-409 *)
| L_done o : s_pc s t = PDone o -> step t s (inited t o Inited (s_mu s) s)
(* 414-421 *)
| L_spin o n : s_pc s t = PSpin o n ->
    step t s (match s_st s with
              | Initing => if (100 <? S n)%nat then failed t o (-1) (s_st s) (s_mu s) s else go t (PSpin o (S n)) (s_st s) (s_mu s) [] s
              | _ => inited t o (s_st s) (s_mu s) s
              end)
(* 464, 485, 502 on a mutex that was never initialised *)
| L_bad o : s_pc s t = PMutex o -> s_mu s = MNone -> step t s (go t Out (s_st s) (s_mu s) [EBad t o] s)
(* 464-468: blocks while the mutex is held *)
| L_lock : s_pc s t = PMutex OLock -> s_mu s = MFree -> step t s (go t Out (s_st s) (MHeld t) [ERet t OLock 0] s)
(* 485 *)
| L_try_ok : s_pc s t = PMutex OTry -> s_mu s = MFree -> step t s (go t Out (s_st s) (MHeld t) [ERet t OTry 0] s)
| L_try_busy u : s_pc s t = PMutex OTry -> s_mu s = MHeld u -> step t s (go t Out (s_st s) (s_mu s) [ERet t OTry EBUSY] s)
(* 502-506 *)
| L_unlock : s_pc s t = PMutex OUnlock -> s_mu s <> MNone -> step t s (go t Out (s_st s) MFree [ERet t OUnlock 0] s)
(* k_static_lock_fini 427-443 *)
| L_fread n : s_pc s t = FRead n ->
    step t s (match s_st s with
              | Initing => if (100 <? S n)%nat then go t Out (s_st s) (s_mu s) [ERet t OFini 0] s else go t (FRead (S n)) (s_st s) (s_mu s) [] s
              | Inited => go t FHal (s_st s) (s_mu s) [] s
              | Uninit => go t Out (s_st s) (s_mu s) [ERet t OFini 0] s
              end)
| L_fhal : s_pc s t = FHal -> step t s (go t FSet (s_st s) MNone [] s)
| L_fset : s_pc s t = FSet -> step t s (go t Out Uninit (s_mu s) [ERet t OFini 0] s).

Inductive reachable : state -> Prop :=
| R_init : reachable init_state
| R_step t s s' : reachable s -> step t s s' -> reachable s'.

(** *** aosl_lock_t *)
(** k_lock_trylock 148-159 by thread [t] on a mutex held by [m]: result, new holder. *)
Definition k_lock_trylock (t : nat) (m : option nat) : Z * option nat :=
  match m with None => (1, Some t) | Some u => (0, Some u) end.
(** aosl_lock_trylock, lib/thread_api.c 63-66. *)
Definition lock_trylock (t : nat) (m : option nat) : Z * option nat := k_lock_trylock t m.
