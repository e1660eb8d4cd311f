(** * Model of the threads of the windows port:
    platform/src/windows/aosl_hal_thread.c 13-93 (nodes and registry), 171-254
    (wrapper and create), 256-290 (destroy, exit, self) and 330-403 (join, detach).

    Any number of threads are created, return or exit, and any number of calls of
    join, detach and destroy are under way at the same time, in every interleaving.
    A transition is one section under the registry lock (48-57), one wait, or one
    call of the system or of the allocator.

    Simplifications: threads, their nodes, their start blocks and their handles
    are numbered in the order of the creation and a number is never used again
    (addresses and handle values do not repeat), thread identifiers are, when the
    system allows it: after the thread ended and its handle was closed;
    allocations and _beginthreadex succeed (222, 238: otherwise create returns -1 and
    nothing has happened); the writes of tid and handle (244-245) and the insertion
    are one transition (nobody else can reach the node before it is in the list);
    the return of the thread's function and the section 179-192 are one transition;
    a wait for a valid handle ends only when the thread has ended. *)
From Verif Require Import Base.

(** What is done after a section: CloseHandle of a thread's handle, aosl_free of its
    node, aosl_free of its start block. *)
Inductive act := AClose (k : nat) | AFree (k : nat) | AFreeStart (k : nat).
(** The thread: in its function (175), in the wrapper after its section (194-203), ended. *)
Inductive tphase := TRun | TClean (l : list act) | TEnd.
(** win_thread_node_t 13-20 of one thread, with the state of the thread, of its
    handle and of its start block (22-26). *)
Record thr := mkT {
  w_tid : nat;            (* the identifier the system gave *)
  w_pub : bool;           (* create has returned *)
  w_ph : tphase;
  w_open : bool;          (* its handle is open *)
  w_sfree : bool;         (* its start block was freed *)
  n_tid : nat;            (* node->tid; 0 from calloc 220 *)
  n_handle : bool;        (* node->handle is its handle, not NULL *)
  n_val : option Z;       (* node->retval; None: the NULL of calloc *)
  n_det : bool;
  n_fin : bool;
  n_free : bool }.        (* the node was freed *)

Inductive op := Join | Detach | Destroy.
(** The result of a call: nothing (destroy, detach), -1, or 0 with the value stored. *)
Inductive result := RVoid | RFail | RVal (v : option Z).
(** A call: at its first section; a join that waits on handle h (345), that has
    waited (349), what is left to do before it returns; returned. *)
Inductive cpc := CStart | CWait (h : nat) | CReady (h : nat) | CClean (l : list act) (r : result) | CRet.
(** A call with the identifier c_id; c_about: the thread whose identifier the caller means (not used by the code). *)
Record call := mkK { c_op : op; c_about : nat; c_id : nat; c_pc : cpc }.

Inductive event :=
| EBegin (k : nat)                  (* thread k runs *)
| ECreated (k : nat)                (* create of thread k returns 0 and the identifier *)
| EFun (k : nat) (v : Z)            (* the function of thread k returned v *)
| EExit (k : nat) (v : Z)           (* thread k called aosl_hal_thread_exit (v) *)
| EEnd (k : nat)                    (* thread k ended *)
| ECall (k : nat) (o : op)          (* a call with the identifier of thread k *)
| EResult (k : nat) (o : op) (r : result)   (* ... returns *)
| EClose (k : nat) | EFree (k : nat) | EFreeStart (k : nat).

Record state := mkS {
  s_list : list nat;       (* g_thread_list 30, the nodes by number *)
  s_thr : list thr;
  s_calls : list call;
  s_bad : bool;            (* freed memory was used or freed, or a closed handle was used or closed *)
  s_tr : list event }.     (* latest first *)
Definition init_state : state := mkS [] [] [] false [].

Fixpoint set_nth {A} (i : nat) (v : A) (l : list A) : list A :=
  match l with [] => [] | x :: l' => match i with O => v :: l' | S j => x :: set_nth j v l' end end.
(** node->field for a node of the list. *)
Definition node (s : state) (k : nat) : thr := nth k (s_thr s) (mkT 0 true TEnd false true 0 false None true true true).
(** find_thread_node 59-79: the first node of the list with that identifier. *)
Fixpoint find_node (s : state) (t : nat) (l : list nat) : option nat :=
  match l with [] => None | k :: l' => if (n_tid (node s k) =? t)%nat then Some k else find_node s t l' end.
(** ... and whether a freed node is read on the way. *)
Fixpoint find_bad (s : state) (t : nat) (l : list nat) : bool :=
  match l with [] => false | k :: l' => n_free (node s k) || (if (n_tid (node s k) =? t)%nat then false else find_bad s t l') end.
(** remove_thread_node 81-93. *)
Fixpoint unlink (k : nat) (l : list nat) : list nat :=
  match l with [] => [] | d :: l' => if (d =? k)%nat then l' else d :: unlink k l' end.

(** One call of CloseHandle or aosl_free (194-201, 274-279, 364-368, 397-402), as the new
    record of its thread, whether it is an error, and the event. *)
Definition act_thr (a : act) (x : thr) : thr :=
  match a with
  | AClose _ => mkT (w_tid x) (w_pub x) (w_ph x) false (w_sfree x) (n_tid x) (n_handle x) (n_val x) (n_det x) (n_fin x) (n_free x)
  | AFree _ => mkT (w_tid x) (w_pub x) (w_ph x) (w_open x) (w_sfree x) (n_tid x) (n_handle x) (n_val x) (n_det x) (n_fin x) true
  | AFreeStart _ => mkT (w_tid x) (w_pub x) (w_ph x) (w_open x) true (n_tid x) (n_handle x) (n_val x) (n_det x) (n_fin x) (n_free x)
  end.
Definition act_on (a : act) : nat := match a with AClose k | AFree k | AFreeStart k => k end.
Definition act_bad (a : act) (x : thr) : bool :=
  match a with AClose _ => negb (w_open x) | AFree _ => n_free x | AFreeStart _ => w_sfree x end.
Definition act_ev (a : act) : event := match a with AClose k => EClose k | AFree k => EFree k | AFreeStart k => EFreeStart k end.
Definition do_act (a : act) (s : state) : state :=
  let k := act_on a in
  mkS (s_list s) (set_nth k (act_thr a (node s k)) (s_thr s)) (s_calls s) (s_bad s || act_bad a (node s k)) (act_ev a :: s_tr s).

Definition set_ph (p : tphase) (x : thr) : thr :=
  mkT (w_tid x) (w_pub x) p (w_open x) (w_sfree x) (n_tid x) (n_handle x) (n_val x) (n_det x) (n_fin x) (n_free x).
(** node->handle = NULL; node->detached = d. *)
Definition no_handle (d : bool) (x : thr) : thr :=
  mkT (w_tid x) (w_pub x) (w_ph x) (w_open x) (w_sfree x) (n_tid x) false (n_val x) d (n_fin x) (n_free x).
Definition close_of (k : nat) (x : thr) : list act := if n_handle x then [AClose k] else [].

(** thread_entry_wrapper 175-203: thread k's function returns v. *)
Definition wrapper (k : nat) (v : Z) (s : state) : state :=
  let x := node s k in
  let fin d h l := mkT (w_tid x) (w_pub x) (TClean l) (w_open x) (w_sfree x) (n_tid x) h (Some v) d true (n_free x) in
  if n_det x then
    mkS (match find_node s (n_tid x) (s_list s) with Some d => unlink d (s_list s) | None => s_list s end)
        (set_nth k (fin true false (AFreeStart k :: close_of k x ++ [AFree k])) (s_thr s))
        (s_calls s) (s_bad s || n_free x || find_bad s (n_tid x) (s_list s)) (EFun k v :: s_tr s)
  else
    mkS (s_list s) (set_nth k (fin false (n_handle x) [AFreeStart k]) (s_thr s)) (s_calls s) (s_bad s || n_free x) (EFun k v :: s_tr s).

Definition set_call (i : nat) (c : call) (p : cpc) (s : state) : state :=
  mkS (s_list s) (s_thr s) (set_nth i (mkK (c_op c) (c_about c) (c_id c) p) (s_calls s)) (s_bad s) (s_tr s).
Definition flag (b : bool) (s : state) : state := mkS (s_list s) (s_thr s) (s_calls s) (s_bad s || b) (s_tr s).
Definition set_thr (k : nat) (x : thr) (s : state) : state := mkS (s_list s) (set_nth k x (s_thr s)) (s_calls s) (s_bad s) (s_tr s).
Definition drop (k : nat) (s : state) : state := mkS (unlink k (s_list s)) (s_thr s) (s_calls s) (s_bad s) (s_tr s).

(** The first section of a call: aosl_hal_thread_destroy 261-272, aosl_hal_thread_join 336-343,
    aosl_hal_thread_detach 377-395. *)
Definition section1 (i : nat) (c : call) (s0 : state) : state :=
  let s := flag (find_bad s0 (c_id c) (s_list s0)) s0 in
  match c_op c, find_node s (c_id c) (s_list s) with
  | Join, Some k => if n_det (node s k) then set_call i c (CClean [] RFail) s else set_call i c (CWait k) s
  | Join, None => set_call i c (CClean [] RFail) s
  | Detach, Some k =>
      let x := node s k in
      if n_det x then set_call i c (CClean [] RVoid) s
      else if n_fin x then drop k (set_thr k (no_handle true x) (set_call i c (CClean (close_of k x ++ [AFree k]) RVoid) s))
      else set_thr k (no_handle true x) (set_call i c (CClean (close_of k x) RVoid) s)
  | Destroy, Some k =>
      let x := node s k in
      if n_fin x && negb (n_det x) then drop k (set_thr k (no_handle false x) (set_call i c (CClean (close_of k x ++ [AFree k]) RVoid) s))
      else set_call i c (CClean [] RVoid) s
  | _, None => set_call i c (CClean [] RVoid) s
  end.
(** The second section of aosl_hal_thread_join 349-362; 364-368 follow. *)
Definition section2 (i : nat) (c : call) (h : nat) (s0 : state) : state :=
  let s := flag (find_bad s0 (c_id c) (s_list s0)) s0 in
  match find_node s (c_id c) (s_list s) with
  | Some k => let x := node s k in
      drop k (set_thr k (no_handle (n_det x) x) (set_call i c (CClean [AClose h; AFree k] (RVal (n_val x))) s))
  | None => set_call i c (CClean [] RFail) s
  end.

Definition emit (e : event) (s : state) : state := mkS (s_list s) (s_thr s) (s_calls s) (s_bad s) (e :: s_tr s).

Inductive step (s : state) : state -> Prop :=
(* aosl_hal_thread_create 206-254: _beginthreadex 232; the identifier is that of no thread that runs or whose handle is open *)
| S_begin t : (forall k x, nth_error (s_thr s) k = Some x -> w_tid x = t -> w_ph x = TEnd /\ w_open x = false) ->
    step s (mkS (s_list s) (s_thr s ++ [mkT t false TRun true false 0 false None false false false]) (s_calls s) (s_bad s)
                (EBegin (length (s_thr s)) :: s_tr s))
(* 244-253 *)
| S_publish k x : nth_error (s_thr s) k = Some x -> w_pub x = false ->
    step s (mkS (k :: s_list s)
                (set_nth k (mkT (w_tid x) true (w_ph x) (w_open x) (w_sfree x) (w_tid x) true (n_val x) (n_det x) (n_fin x) (n_free x)) (s_thr s))
                (s_calls s) (s_bad s || n_free x) (ECreated k :: s_tr s))
(* thread_entry_wrapper 171-204 *)
| S_fun k x v : nth_error (s_thr s) k = Some x -> w_ph x = TRun -> step s (wrapper k v s)
| S_tact k x a l : nth_error (s_thr s) k = Some x -> w_ph x = TClean (a :: l) ->
    step s (do_act a (set_thr k (set_ph (TClean l) x) s))
| S_tend k x : nth_error (s_thr s) k = Some x -> w_ph x = TClean [] ->
    step s (emit (EEnd k) (set_thr k (set_ph TEnd x) s))
(* aosl_hal_thread_exit 282-285: the thread ends at once *)
| S_exit k x v : nth_error (s_thr s) k = Some x -> w_ph x = TRun ->
    step s (emit (EEnd k) (emit (EExit k v) (set_thr k (set_ph TEnd x) s)))
(* a call, with the identifier of thread k *)
| S_call k x o : nth_error (s_thr s) k = Some x ->
    step s (mkS (s_list s) (s_thr s) (s_calls s ++ [mkK o k (w_tid x) CStart]) (s_bad s) (ECall k o :: s_tr s))
| S_sec1 i c : nth_error (s_calls s) i = Some c -> c_pc c = CStart -> step s (section1 i c s)
(* WaitForSingleObject 345-347 *)
| S_wait i c h : nth_error (s_calls s) i = Some c -> c_pc c = CWait h -> w_open (node s h) = true -> w_ph (node s h) = TEnd ->
    step s (set_call i c (CReady h) s)
| S_waitbad i c h : nth_error (s_calls s) i = Some c -> c_pc c = CWait h -> w_open (node s h) = false ->
    step s (flag true (set_call i c (CClean [] RFail) s))
| S_sec2 i c h : nth_error (s_calls s) i = Some c -> c_pc c = CReady h -> step s (section2 i c h s)
| S_act i c a l r : nth_error (s_calls s) i = Some c -> c_pc c = CClean (a :: l) r ->
    step s (do_act a (set_call i c (CClean l r) s))
| S_ret i c r : nth_error (s_calls s) i = Some c -> c_pc c = CClean [] r ->
    step s (emit (EResult (c_about c) (c_op c) r) (set_call i c CRet s)).
Inductive reachable : state -> Prop :=
| R_init : reachable init_state
| R_step s s' : reachable s -> step s s' -> reachable s'.
