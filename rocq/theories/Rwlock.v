(** * Model of the read-write lock: include/kernel/rwlock-generic.h 18-97,
    lib/rwlockimpl.c 16-219, and of the events its waiters sleep on,
    kernel/thread.c 321-357.

    Any number N of clients.  A client is one acquisition of the lock, wanted or
    held; a thread that holds the lock several times for reading is several
    clients.  One transition is one atomic operation on the counter, or one
    step of a thread that owns wait_lock (the wait list is only touched by its
    owner, so changes of the list are folded into the neighbouring atomic
    operation).  Memory is sequentially consistent.

    Simplifications:
    - every waiter has an event of its own on which only it sleeps; an event is
      a flag "pulsed", and a sleeping client continues when the flag is set
      (taking it down) or spuriously; the event of a client whose call has
      returned is gone, a pulse of it writes into dead stack memory;
    - [s_gen] tells the events of successive calls of one client apart (ghost);
    - [s_owed] (ghost) marks the readers the waker has already accounted for;
    - out of memory for mutexes is left out. *)
From Verif Require Import Base.

(** rwlock-generic.h 18-28, 64 bit. *)
Definition ACTIVE_MASK : Z := 4294967295.
Definition WAITING_BIAS : Z := - (ACTIVE_MASK + 1).
Definition READ_BIAS : Z := 1.
Definition WRITE_BIAS : Z := WAITING_BIAS + 1.
(** atomic_intptr_add_return: 64 bit two's complement. *)
Definition add (c d : Z) : Z := s64 (c + d).
Definition active (c : Z) : Z := Z.land c ACTIVE_MASK.

(** enum rwlock_wake_type, rwlockimpl.c 34-38. *)
Inductive wake_type := WAKE_ANY | WAKE_READERS | WAKE_READ_OWNED.

(** What the owner of wait_lock does after __rwlock_do_wake: rwlock_wake 205,
    rwlock_read_lock_failed 131, rwlock_write_lock_failed 172 (with its local
    copy of the counter), rwlock_downgrade_wake 218. *)
Inductive cont := CIdle | CRead | CWrite (c : Z) | CHold.

(** Places in __rwlock_do_wake, rwlockimpl.c 40-103. *)
Inductive kplace :=
| KStart (wt : wake_type)                       (* 47 *)
| KTry                                          (* 59 *)
| KUndo                                         (* 61 *)
| KGrant (adj : Z)                              (* 68-83 *)
| KSet (todo : list nat)                        (* 88-92: waiter->event = NULL *)
| KPul (t g : nat) (todo : list nat).           (* 93: k_event_pulse *)

Inductive place :=
| Idle
| RFail          (* rwlock_read_lock_failed, before wait_lock, 112 *)
| RWait | RSleep (* 134-139 *)
| RHold          (* holds the lock for reading *)
| WFail          (* rwlock_write_lock_failed, before wait_lock, 152 *)
| WTry (c : Z)   (* 173, owns wait_lock *)
| WWait | WLock  (* 184, 185 *)
| WHold          (* holds the lock for writing *)
| WakePend       (* rwlock_wake, before wait_lock, 199 *)
| DownPend       (* rwlock_downgrade_wake, before wait_lock, 212 *)
| K (k : kplace) (c : cont).

(** What a user sees. *)
Inductive event :=
| EWant (t : nat) (wr : bool)      (* a blocking lock call starts *)
| EGot (t : nat) (wr : bool)       (* a lock call returns with the lock *)
| EBusy (t : nat) (wr : bool)      (* a try-lock call returns 0 *)
| ERel (t : nat) (wr : bool)       (* an unlock call takes effect *)
| EDown (t : nat)                  (* write lock turned into a read lock *)
| EStray (t : nat).                (* ... and this one he should never see: a
                                      write into the stack frame of a lock call
                                      of t that has returned *)

(** k_raw_rwlock_t, rwlock.h 21-25, the waiters' events, and the clients. *)
Record state := mkSt {
  s_cnt : Z;
  s_mx : option nat;
  s_list : list (nat * bool);     (* wait_list: client, waiting for read? *)
  s_pc : nat -> place;
  s_pulse : nat -> bool;
  s_null : nat -> bool;           (* waiter.event == NULL *)
  s_owed : nat -> bool;
  s_gen : nat -> nat;
  s_tr : list event }.

Definition fupd {A} (f : nat -> A) (k : nat) (v : A) : nat -> A := fun x => if (x =? k)%nat then v else f x.
Fixpoint fupds {A} (f : nat -> A) (ks : list nat) (v : A) : nat -> A :=
  match ks with [] => f | k :: l => fupd (fupds f l v) k v end.

(** rwlock_init, rwlockimpl.c 16-21. *)
Definition init_state : state :=
  mkSt 0 None [] (fun _ => Idle) (fun _ => false) (fun _ => false) (fun _ => false) (fun _ => 0%nat) [].

(** Client t goes to p; the counter, wait_lock and the list become c, m, l. *)
Definition go (t : nat) (p : place) (c : Z) (m : option nat) (l : list (nat * bool)) (es : list event) (s : state) : state :=
  mkSt c m l (fupd (s_pc s) t p) (s_pulse s) (s_null s) (s_owed s) (s_gen s) (es ++ s_tr s).
(** k_event_init and a fresh waiter, rwlockimpl.c 112-116. *)
Definition fresh (t : nat) (s : state) : state :=
  mkSt (s_cnt s) (s_mx s) (s_list s) (s_pc s) (fupd (s_pulse s) t false) (fupd (s_null s) t false)
       (fupd (s_owed s) t false) (fupd (s_gen s) t (S (s_gen s t))) (s_tr s).
Definition set_pulse (t : nat) (b : bool) (s : state) : state :=
  mkSt (s_cnt s) (s_mx s) (s_list s) (s_pc s) (fupd (s_pulse s) t b) (s_null s) (s_owed s) (s_gen s) (s_tr s).
Definition set_null (t : nat) (s : state) : state :=
  mkSt (s_cnt s) (s_mx s) (s_list s) (s_pc s) (s_pulse s) (fupd (s_null s) t true) (s_owed s) (s_gen s) (s_tr s).
Definition set_owed (ts : list nat) (s : state) : state :=
  mkSt (s_cnt s) (s_mx s) (s_list s) (s_pc s) (s_pulse s) (s_null s) (fupds (s_owed s) ts true) (s_gen s) (s_tr s).

(** End of __rwlock_do_wake: 131, 172, 205, 218. *)
Definition leave (t : nat) (c : cont) (s : state) : state :=
  match c with
  | CIdle => go t Idle (s_cnt s) None (s_list s) [] s
  | CRead => go t RWait (s_cnt s) None (s_list s) [] s
  | CHold => go t RHold (s_cnt s) None (s_list s) [] s
  | CWrite v => go t (WTry v) (s_cnt s) (s_mx s) (s_list s) [] s
  end.

(** 69-76: the readers at the head of the list, and the rest. *)
Fixpoint readers (l : list (nat * bool)) : list nat :=
  match l with (t, true) :: l' => t :: readers l' | _ => [] end.
Fixpoint after_readers (l : list (nat * bool)) : list (nat * bool) :=
  match l with (_, true) :: l' => after_readers l' | _ => l end.
(** __aosl_list_del_entry *)
Definition del (t : nat) (l : list (nat * bool)) : list (nat * bool) := filter (fun x => negb (fst x =? t)%nat) l.

(** Does the frame of the call of client t that event generation g belongs to
    still exist?  (RHold and later: the call has returned.) *)
Definition in_call (p : place) : bool :=
  match p with RWait | RSleep | K _ CRead | WTry _ | WWait | WLock | K _ (CWrite _) => true | _ => false end.

Inductive step (N : nat) (s : state) : state -> Prop :=
(** *** __rwlock_rdlock, rwlock-generic.h 30-34 *)
| S_rdlock t : (t < N)%nat -> s_pc s t = Idle -> 0 < add (s_cnt s) READ_BIAS ->
    step N s (go t RHold (add (s_cnt s) READ_BIAS) (s_mx s) (s_list s) [EGot t false; EWant t false] s)
| S_rdlock_slow t : (t < N)%nat -> s_pc s t = Idle -> add (s_cnt s) READ_BIAS <= 0 ->
    step N s (go t RFail (add (s_cnt s) READ_BIAS) (s_mx s) (s_list s) [EWant t false] s)
(* __rwlock_tryrdlock 36-48; a failed compare and exchange goes round the loop *)
| S_tryrd t : (t < N)%nat -> s_pc s t = Idle -> 0 <= s_cnt s ->
    step N s (go t RHold (add (s_cnt s) READ_BIAS) (s_mx s) (s_list s) [EGot t false] s)
| S_tryrd_no t : (t < N)%nat -> s_pc s t = Idle -> s_cnt s < 0 ->
    step N s (go t Idle (s_cnt s) (s_mx s) (s_list s) [EBusy t false] s)
(** *** __rwlock_wrlock 50-57, __rwlock_trywrlock 59-64 *)
| S_wrlock t : (t < N)%nat -> s_pc s t = Idle -> add (s_cnt s) WRITE_BIAS = WRITE_BIAS ->
    step N s (go t WHold (add (s_cnt s) WRITE_BIAS) (s_mx s) (s_list s) [EGot t true; EWant t true] s)
| S_wrlock_slow t : (t < N)%nat -> s_pc s t = Idle -> add (s_cnt s) WRITE_BIAS <> WRITE_BIAS ->
    step N s (go t WFail (add (s_cnt s) WRITE_BIAS) (s_mx s) (s_list s) [EWant t true] s)
| S_trywr t : (t < N)%nat -> s_pc s t = Idle -> s_cnt s = 0 ->
    step N s (go t WHold WRITE_BIAS (s_mx s) (s_list s) [EGot t true] s)
| S_trywr_no t : (t < N)%nat -> s_pc s t = Idle -> s_cnt s <> 0 ->
    step N s (go t Idle (s_cnt s) (s_mx s) (s_list s) [EBusy t true] s)
(** *** __rwlock_rdunlock 66-72, __rwlock_wrunlock 74-78, __rwlock_wr2rd_lock 80-87 *)
| S_rdunlock t tmp : (t < N)%nat -> s_pc s t = RHold -> tmp = add (s_cnt s) (- READ_BIAS) ->
    step N s (go t (if (tmp <? -1) && (active tmp =? 0) then WakePend else Idle) tmp (s_mx s) (s_list s) [ERel t false] s)
| S_wrunlock t tmp : (t < N)%nat -> s_pc s t = WHold -> tmp = add (s_cnt s) (- WRITE_BIAS) ->
    step N s (go t (if tmp <? 0 then WakePend else Idle) tmp (s_mx s) (s_list s) [ERel t true] s)
| S_wr2rd t tmp : (t < N)%nat -> s_pc s t = WHold -> tmp = add (s_cnt s) (- WAITING_BIAS) ->
    step N s (go t (if tmp <? 0 then DownPend else RHold) tmp (s_mx s) (s_list s) [EDown t] s)
(** *** rwlock_read_lock_failed, rwlockimpl.c 105-143 *)
| S_read_failed t adj c : (t < N)%nat -> s_pc s t = RFail -> s_mx s = None ->
    adj = - READ_BIAS + (if match s_list s with [] => true | _ => false end then WAITING_BIAS else 0) ->
    c = add (s_cnt s) adj ->
    step N s (fresh t (go t
      (if (c =? WAITING_BIAS) || ((WAITING_BIAS <? c) && negb (adj =? - READ_BIAS)) then K (KStart WAKE_ANY) CRead else RWait) c
      (if (c =? WAITING_BIAS) || ((WAITING_BIAS <? c) && negb (adj =? - READ_BIAS)) then Some t else None)
      (s_list s ++ [(t, true)]) [] s))
| S_granted t : (t < N)%nat -> s_pc s t = RWait -> s_null s t = true ->
    step N s (go t RHold (s_cnt s) (s_mx s) (s_list s) [EGot t false] s)
| S_not_granted t : (t < N)%nat -> s_pc s t = RWait -> s_null s t = false ->
    step N s (go t RSleep (s_cnt s) (s_mx s) (s_list s) [] s)
(* k_event_wait returns: pulsed, or spuriously *)
| S_rwake t : (t < N)%nat -> s_pc s t = RSleep ->
    step N s (set_pulse t false (go t RWait (s_cnt s) (s_mx s) (s_list s) [] s))
(** *** rwlock_write_lock_failed, 145-193 *)
| S_write_failed t adj c : (t < N)%nat -> s_pc s t = WFail -> s_mx s = None ->
    adj = - WRITE_BIAS + (if match s_list s with [] => true | _ => false end then WAITING_BIAS else 0) ->
    c = add (s_cnt s) adj ->
    step N s (fresh t (go t
      (if (WAITING_BIAS <? c) && (adj =? - WRITE_BIAS) then K (KStart WAKE_READERS) (CWrite c) else WTry c) c
      (Some t) (s_list s ++ [(t, false)]) [] s))
| S_wtry_active t c : (t < N)%nat -> s_pc s t = WTry c -> active c <> 0 ->
    step N s (go t WWait (s_cnt s) None (s_list s) [] s)
| S_wtry_ok t c : (t < N)%nat -> s_pc s t = WTry c -> active c = 0 -> s_cnt s = WAITING_BIAS ->
    step N s (go t WHold
      (if match s_list s with [_] => true | _ => false end then WRITE_BIAS else WRITE_BIAS + WAITING_BIAS)
      None (del t (s_list s)) [EGot t true] s)
| S_wtry_no t c : (t < N)%nat -> s_pc s t = WTry c -> active c = 0 -> s_cnt s <> WAITING_BIAS ->
    step N s (go t WWait (s_cnt s) None (s_list s) [] s)
| S_wwake t : (t < N)%nat -> s_pc s t = WWait ->
    step N s (set_pulse t false (go t WLock (s_cnt s) (s_mx s) (s_list s) [] s))
| S_wlock t : (t < N)%nat -> s_pc s t = WLock -> s_mx s = None ->
    step N s (go t (WTry (s_cnt s)) (s_cnt s) (Some t) (s_list s) [] s)
(** *** rwlock_wake 195-206, rwlock_downgrade_wake 208-219 *)
| S_wake t : (t < N)%nat -> s_pc s t = WakePend -> s_mx s = None ->
    step N s (match s_list s with
              | [] => go t Idle (s_cnt s) None (s_list s) [] s
              | _ => go t (K (KStart WAKE_ANY) CIdle) (s_cnt s) (Some t) (s_list s) [] s
              end)
| S_downwake t : (t < N)%nat -> s_pc s t = DownPend -> s_mx s = None ->
    step N s (match s_list s with
              | [] => go t RHold (s_cnt s) None (s_list s) [] s
              | _ => go t (K (KStart WAKE_READ_OWNED) CHold) (s_cnt s) (Some t) (s_list s) [] s
              end)
(** *** __rwlock_do_wake 40-103 *)
| S_kwriter t wt c u l : (t < N)%nat -> s_pc s t = K (KStart wt) c -> s_list s = (u, false) :: l ->
    step N s (leave t c (match wt with WAKE_ANY => set_pulse u true s | _ => s end))
| S_kreader t wt c u l : (t < N)%nat -> s_pc s t = K (KStart wt) c -> s_list s = (u, true) :: l ->
    step N s (go t (K (match wt with WAKE_READ_OWNED => KGrant 0 | _ => KTry end) c) (s_cnt s) (s_mx s) (s_list s) [] s)
| S_ktry t c : (t < N)%nat -> s_pc s t = K KTry c ->
    step N s (go t (K (if add (s_cnt s) READ_BIAS - READ_BIAS <? WAITING_BIAS then KUndo else KGrant READ_BIAS) c)
                   (add (s_cnt s) READ_BIAS) (s_mx s) (s_list s) [] s)
| S_kundo t c v : (t < N)%nat -> s_pc s t = K KUndo c -> v = add (s_cnt s) (- READ_BIAS) ->
    step N s (if active v =? 0 then go t (K KTry c) v (s_mx s) (s_list s) [] s
              else leave t c (go t (K KUndo c) v (s_mx s) (s_list s) [] s))
| S_kgrant t c adj n : (t < N)%nat -> s_pc s t = K (KGrant adj) c ->
    n = Z.of_nat (length (readers (s_list s))) * READ_BIAS - adj
        - (if match after_readers (s_list s) with [] => true | _ => false end then WAITING_BIAS else 0) ->
    step N s (set_owed (readers (s_list s))
      (go t (K (KSet (readers (s_list s))) c) (add (s_cnt s) n) (s_mx s) (after_readers (s_list s)) [] s))
| S_kset t c u l : (t < N)%nat -> s_pc s t = K (KSet (u :: l)) c ->
    step N s (set_null u (go t (K (KPul u (s_gen s u) l) c) (s_cnt s) (s_mx s) (s_list s) [] s))
| S_kpul t c u g l : (t < N)%nat -> s_pc s t = K (KPul u g l) c -> g = s_gen s u -> in_call (s_pc s u) = true ->
    step N s (set_pulse u true (go t (K (KSet l) c) (s_cnt s) (s_mx s) (s_list s) [] s))
| S_kpul_stray t c u g l : (t < N)%nat -> s_pc s t = K (KPul u g l) c -> g <> s_gen s u \/ in_call (s_pc s u) = false ->
    step N s (go t (K (KSet l) c) (s_cnt s) (s_mx s) (s_list s) [EStray u] s)
| S_kdone t c : (t < N)%nat -> s_pc s t = K (KSet []) c -> step N s (leave t c s).

Inductive reachable (N : nat) : state -> Prop :=
| R_init : reachable N init_state
| R_step s s' : reachable N s -> step N s s' -> reachable N s'.
