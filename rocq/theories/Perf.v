(** * Model of the performance callback: aosl_perf_set_callback (kernel/mpq.c 162-176), the count of queues it looks at (100-160), and its use around every function a queue executes (q_invoke_f, kernel/mpq.c 532-566).

    Any number of threads set the callback, any number of queues are created, run functions - also functions within functions, and within the callback - and are destroyed, in any interleaving.
    Simplified: the read-write lock is abstract (C14): a writer's critical section is one step, taken when no reader is inside; a queue's other resources are not modelled (C57); callbacks are numbers, 0 is NULL; names are numbers; every function executed passes through q_invoke_f (kernel/mpq.c 633, 648; kernel/mpqp.c 743, 754). *)
From Verif Require Import Base.

(** What q_invoke_f is given: f_name, aosl_is_free_only (robj), *queued_ts_p (532-533), and a number to tell executions apart. *)
Record inv := mkI { num : nat; name : nat; fonly : bool; qts : Z }.
(** Where it is: f runs, with time_stamp (557); f has returned (559); the test has found a callback (560); the callback runs; it has returned, or there is none (562). *)
Inductive frame := FRun (i : inv) (stamp : Z) | FRan (i : inv) (stamp : Z) | FCall (i : inv) (stamp : Z) | FCb (i : inv) | FOut (i : inv).
(** Where a thread is in aosl_perf_set_callback: outside; called (166); holding the read lock (168); __mpq_count was 0 (169); err is decided (173); the lock is released (174). *)
Inductive spc := SIdle | SCall (c : nat) | SLocked (c : nat) | SZero (c : nat) | SOut (c : nat) (ok : bool) | SRet (c : nat) (ok : bool).
(** What happened: a queue was created, destroyed; aosl_perf_set_callback was called with [c], stored it, returned 0 or -1 with AOSL_EPERM; an execution began, at a time; its function returned, at a time; the callback [c] was called with a name, a free_only flag, wait_us and exec_us; the execution ended. *)
Inductive event := ECreate (q : nat) | EDestroy (q : nat) | ECall (p c : nat) | ESet (p c : nat) | ERet (p c : nat) (ok : bool)
| EBegin (q : nat) (i : inv) (now : Z) | ERan (q n : nat) (now : Z) | EReport (q n c name : nat) (fonly : bool) (wait exec : Z) | EEnd (q n : nat).
(** [count]: __mpq_count; [perf]: ____sys_perf_f; [readers]: who holds mpq_table_lock for reading; [stk]: the executions of a queue, innermost first; [crashed]: NULL was called. *)
Record st := mkS { clock : Z; count : Z; perf : nat; readers : list nat; pc : nat -> spc; nextq : nat; alive : nat -> bool; nextn : nat; stk : nat -> list frame; crashed : bool; log : list event }.
(** kernel/mpq.c 162 and the static zeroes. *)
Definition init : st := mkS 0 0 0%nat [] (fun _ => SIdle) 0%nat (fun _ => false) 0%nat (fun _ => []) false [].
Definition upd {A} (f : nat -> A) (k : nat) (v : A) : nat -> A := fun x => if Nat.eqb x k then v else f x.

(** aosl_tick_us: kernel/time.c 24-27. *)
Definition tick_us : Z := 0.

Inductive label :=
| LTick                               (* a millisecond passes *)
| LCreate                             (* get_unused_mpq_id: 100-150 *)
| LDestroy (q : nat)                  (* __put_unused_mpq_id in __q_destroy: 152-159, 751 *)
| LCall (p c : nat) | LLock (p : nat) | LCheck (p : nat) | LStore (p : nat) | LUnlock (p : nat) | LRet (p : nat)
| LBegin (q nm : nat) (fo : bool) (ts : Z)    (* 532-557 *)
| LFret (q : nat)                     (* f returns *)
| LTest (q : nat)                     (* 559 *)
| LPerf (q : nat)                     (* 560 *)
| LCbret (q : nat)                    (* the callback returns *)
| LEnd (q : nat).                     (* 562-566 *)

(** A step of a thread in aosl_perf_set_callback. *)
Definition goto (s : st) (p : nat) (x : spc) (rd : list nat) (pf : nat) (e : list event) : st :=
  mkS (clock s) (count s) pf rd (upd (pc s) p x) (nextq s) (alive s) (nextn s) (stk s) (crashed s) (e ++ log s).
(** A step of a queue in q_invoke_f. *)
Definition push (s : st) (q : nat) (l : list frame) (n : nat) (cr : bool) (e : list event) : st :=
  mkS (clock s) (count s) (perf s) (readers s) (pc s) (nextq s) (alive s) n (upd (stk s) q l) cr (e ++ log s).
(** User code runs on the queue: it may execute a function. *)
Definition free (l : list frame) : bool := match l with [] => true | FRun _ _ :: _ | FCb _ :: _ => true | _ => false end.
Definition drop (p : nat) (l : list nat) : list nat := filter (fun x => negb (Nat.eqb x p)) l.

Definition step (s : st) (l : label) : option st :=
  match l with
  | LTick => Some (mkS (clock s + 1) (count s) (perf s) (readers s) (pc s) (nextq s) (alive s) (nextn s) (stk s) (crashed s) (log s))
  | LCreate => match readers s with
      | [] => Some (mkS (clock s) (count s + 1) (perf s) (readers s) (pc s) (S (nextq s)) (upd (alive s) (nextq s) true) (nextn s) (stk s) (crashed s) (ECreate (nextq s) :: log s))
      | _ => None end
  | LDestroy q => match readers s, stk s q, alive s q with
      | [], [], true => Some (mkS (clock s) (count s - 1) (perf s) (readers s) (pc s) (nextq s) (upd (alive s) q false) (nextn s) (stk s) (crashed s) (EDestroy q :: log s))
      | _, _, _ => None end
  | LCall p c => match pc s p with SIdle => Some (goto s p (SCall c) (readers s) (perf s) [ECall p c]) | _ => None end
  | LLock p => match pc s p with SCall c => Some (goto s p (SLocked c) (p :: readers s) (perf s) []) | _ => None end
  | LCheck p => match pc s p with SLocked c => Some (goto s p (if count s =? 0 then SZero c else SOut c false) (readers s) (perf s) []) | _ => None end
  | LStore p => match pc s p with SZero c => Some (goto s p (SOut c true) (readers s) c [ESet p c]) | _ => None end
  | LUnlock p => match pc s p with SOut c ok => Some (goto s p (SRet c ok) (drop p (readers s)) (perf s) []) | _ => None end
  | LRet p => match pc s p with SRet c ok => Some (goto s p SIdle (readers s) (perf s) [ERet p c ok]) | _ => None end
  | LBegin q nm fo ts =>
      if alive s q && free (stk s q) && (0 <=? ts) && (ts <=? clock s) then
        let i := mkI (nextn s) nm fo ts in
        Some (push s q (FRun i (if Nat.eqb (perf s) 0 then 0 else tick_us) :: stk s q) (S (nextn s)) (crashed s) [EBegin q i (clock s)])
      else None
  | LFret q => match stk s q with FRun i t :: r => Some (push s q (FRan i t :: r) (nextn s) (crashed s) [ERan q (num i) (clock s)]) | _ => None end
  | LTest q => match stk s q with FRan i t :: r => Some (push s q ((if Nat.eqb (perf s) 0 then FOut i else FCall i t) :: r) (nextn s) (crashed s) []) | _ => None end
  | LPerf q => match stk s q with
      | FCall i t :: r =>
          if Nat.eqb (perf s) 0 then Some (push s q (FOut i :: r) (nextn s) true [])
          else Some (push s q (FCb i :: r) (nextn s) (crashed s) [EReport q (num i) (perf s) (name i) (fonly i) (u32 (u64 (t - u64 (qts i * 1000)))) (u32 (u64 (tick_us - t)))])
      | _ => None end
  | LCbret q => match stk s q with FCb i :: r => Some (push s q (FOut i :: r) (nextn s) (crashed s) []) | _ => None end
  | LEnd q => match stk s q with FOut i :: r => Some (push s q r (nextn s) (crashed s) [EEnd q (num i)]) | _ => None end
  end.
Fixpoint run (s : st) (ls : list label) : option st :=
  match ls with [] => Some s | l :: ls => match step s l with Some s' => run s' ls | None => None end end.
Definition reach (s : st) : Prop := exists ls, run init ls = Some s.
