(** * Model of the threads of the ac791n port:
    platform/src/ac791n/aosl_hal_thread.c 9-112 (contexts and registry) and
    295-431 (create, destroy, join, detach, self).

    Any number of threads are created, end, are joined, detached and destroyed
    in every interleaving. A transition is one critical section (the registry
    lock, OS_ENTER_CRITICAL), one access to the semaphore or one call of the
    system.

    Simplifications: contexts are numbered in the order of their creation and
    never reuse an address; allocations succeed (311: otherwise create returns
    -1 and nothing has happened); os_current_task (425) returns the name the task
    was forked with; names, priorities and stack sizes are left out, except that
    the name of a task is that of slot reg_idx of the registry (346), whose
    names "ah_%d" (72) are distinct; a join is one transition (the value does not
    change after the semaphore is posted); the user does not use a handle after
    its destroy has begun; registry_init (52-63) has run. *)
From Verif Require Import Base.

(** MAX_AOSL_THREADS 47. *)
Definition MAX : nat := 16.

(** The thread: created, running its function, function returned (299), about to drop its reference (300-303), ended;
    [TNone]: thread_fork failed. *)
Inductive tphase := TNew | TRun | TRet | TPosted | TEnd | TNone.
(** The handle: not yet given out, open, unregistered (363) by destroy, released (364). *)
Inductive hphase := HNew | HOpen | HUnreg | HGone.
(** aosl_thread_ctx_t 9-19. *)
Record ctx := mkC {
  x_idx : nat;             (* reg_idx; 0 from calloc 310 if the registry is full *)
  x_det : bool;            (* detached *)
  x_ref : Z;               (* ref_cnt *)
  x_sem : nat;             (* join_sem *)
  x_val : option Z;        (* retval *)
  x_free : bool;           (* the memory was given back *)
  x_th : tphase;
  x_h : hphase }.

Inductive event :=
| ENew (c : nat)              (* context c is created *)
| EFail (c : nat)             (* thread_fork failed, create returns -1 *)
| EStart (c : nat)            (* thread c runs, create returns 0 *)
| EFun (c : nat) (v : Z)      (* its function returned v *)
| EJoin (c : nat) (v : option Z) (* a join of c returned with v *)
| EUnreg (c : nat)            (* destroy of the handle: the registry forgets it *)
| EDrop (c : nat)             (* ... and its reference is dropped *)
| EDone (c : nat)             (* the thread's own reference is dropped *)
| EFree (c : nat).            (* its memory is given back *)

Record state := mkS {
  s_slots : list (option nat);   (* g_aosl_threads 48 *)
  s_ctx : list ctx;
  s_bad : bool;                  (* freed memory was used *)
  s_tr : list event }.           (* latest first *)
Definition init_state : state := mkS (repeat None MAX) [] false [].

(** register_thread 65-79: the first free slot. *)
Fixpoint first_free (l : list (option nat)) : option nat :=
  match l with [] => None | None :: _ => Some 0%nat | Some _ :: l' => option_map S (first_free l') end.
Fixpoint set_nth {A} (i : nat) (v : A) (l : list A) : list A :=
  match l with [] => [] | x :: l' => match i with O => v :: l' | S j => x :: set_nth j v l' end end.
(** unregister_thread 81-93: the first slot that holds c is cleared. *)
Fixpoint unregister (c : nat) (l : list (option nat)) : list (option nat) :=
  match l with
  | [] => []
  | o :: l' => if match o with Some d => (d =? c)%nat | None => false end then None :: l' else o :: unregister c l'
  end.
(** ctx_unref 30-44: the reference count is dropped; at 0 the memory is given back. *)
Definition unref (x : ctx) : ctx :=
  mkC (x_idx x) (x_det x) (x_ref x - 1) (x_sem x) (x_val x) (if x_ref x - 1 =? 0 then true else x_free x) (x_th x) (x_h x).
Definition freed_ev (c : nat) (x : ctx) : list event := if x_ref x - 1 =? 0 then [EFree c] else [].
(** The state after c's context is accessed and becomes x'. *)
Definition upd (c : nat) (x x' : ctx) (slots : list (option nat)) (e : list event) (s : state) : state :=
  mkS slots (set_nth c x' (s_ctx s)) (s_bad s || x_free x) (e ++ s_tr s).
Definition th (p : tphase) (x : ctx) : ctx := mkC (x_idx x) (x_det x) (x_ref x) (x_sem x) (x_val x) (x_free x) p (x_h x).
Definition hd (p : hphase) (x : ctx) : ctx := mkC (x_idx x) (x_det x) (x_ref x) (x_sem x) (x_val x) (x_free x) (x_th x) p.
(** What aosl_hal_thread_self 423-431 returns to thread c: a context, or the name of its slot. *)
Inductive who := Ctx (c : nat) | Name (i : nat).
(** find_thread_by_name 95-112: the only slot whose name is that of the task is its own. *)
Definition self (s : state) (x : ctx) : who :=
  match nth_error (s_slots s) (x_idx x) with Some (Some d) => Ctx d | _ => Name (x_idx x) end.

Inductive step (s : state) : state -> Prop :=
(* aosl_hal_thread_create 307-357 *)
| S_new : let c := length (s_ctx s) in
    step s (match first_free (s_slots s) with
            | Some i => mkS (set_nth i (Some c) (s_slots s)) (s_ctx s ++ [mkC i false 2 0 None false TNew HNew]) (s_bad s) (ENew c :: s_tr s)
            | None => mkS (s_slots s) (s_ctx s ++ [mkC 0 false 2 0 None false TNew HNew]) (s_bad s) (ENew c :: s_tr s)
            end)
| S_fork c x : nth_error (s_ctx s) c = Some x -> x_th x = TNew ->
    step s (upd c x (th TRun (hd HOpen x)) (s_slots s) [EStart c] s)
| S_forkfail c x : nth_error (s_ctx s) c = Some x -> x_th x = TNew ->
    step s (upd c x (mkC (x_idx x) (x_det x) (x_ref x) (x_sem x) (x_val x) true TNone HGone) (unregister c (s_slots s)) [EFree c; EFail c] s)
(* thread_entry_wrapper 295-305 *)
| S_fun c x v : nth_error (s_ctx s) c = Some x -> x_th x = TRun ->
    step s (upd c x (mkC (x_idx x) (x_det x) (x_ref x) (x_sem x) (Some v) (x_free x) TRet (x_h x)) (s_slots s) [EFun c v] s)
| S_post c x : nth_error (s_ctx s) c = Some x -> x_th x = TRet ->
    step s (upd c x (mkC (x_idx x) (x_det x) (x_ref x) (if x_det x then x_sem x else S (x_sem x)) (x_val x) (x_free x) TPosted (x_h x)) (s_slots s) [] s)
| S_end c x : nth_error (s_ctx s) c = Some x -> x_th x = TPosted ->
    step s (upd c x (unref (th TEnd x)) (s_slots s) (freed_ev c x ++ [EDone c]) s)
(* aosl_hal_thread_join 397-409 *)
| S_join c x n : nth_error (s_ctx s) c = Some x -> x_h x = HOpen -> x_sem x = S n ->
    step s (upd c x (mkC (x_idx x) (x_det x) (x_ref x) n (x_val x) (x_free x) (x_th x) (x_h x)) (s_slots s) [EJoin c (x_val x)] s)
(* aosl_hal_thread_detach 411-421 *)
| S_detach c x : nth_error (s_ctx s) c = Some x -> x_h x = HOpen ->
    step s (upd c x (mkC (x_idx x) true (x_ref x) (x_sem x) (x_val x) (x_free x) (x_th x) (x_h x)) (s_slots s) [] s)
(* aosl_hal_thread_destroy 359-366 *)
| S_unreg c x : nth_error (s_ctx s) c = Some x -> x_h x = HOpen ->
    step s (upd c x (hd HUnreg x) (unregister c (s_slots s)) [EUnreg c] s)
| S_drop c x : nth_error (s_ctx s) c = Some x -> x_h x = HUnreg ->
    step s (upd c x (unref (hd HGone x)) (s_slots s) (freed_ev c x ++ [EDrop c]) s).
Inductive reachable : state -> Prop :=
| R_init : reachable init_state
| R_step s s' : reachable s -> step s s' -> reachable s'.
