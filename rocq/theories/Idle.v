(** * Model of how a queue pool gives up idle queues and is destroyed: kernel/mpqp.c 56-69, 97-180, 207-228, 883-987, 1078-1085, with the loop of a queue's thread (kernel/mpq.c 672-704, 766-796, 800-868) and the re-arming of its periodic timer (kernel/timer.c 487-542).

    One transition is one critical section, one firing of the idle check, or one pass through a phase of a queue's loop.  Any number of outside threads use the pool.  Queues are numbered in the order of creation.
    Simplified: choosing a queue and handing the function to it is one step (its steps are C34); a queue is always created when asked for (C57); a queue that ends does not wait for references held by others (C22, C48); the entries of the pool all have usage 1, because only aosl_mpq_alloc raises it and that works on another pool (1037-1046); the functions a queue runs do not themselves call the pool functions below; time is counted in milliseconds. *)
From Verif Require Import Base.
Local Open Scope nat_scope.

(** Where a queue's thread is: in __check_and_call_funcs with [rest] functions of the batch left, [done] executed, one of them running or not (mpq.c 672-704); in __check_and_run_timers, which read the clock as [now] (timer.c 487-542); in the idle check just before the lock of __mpqp_shrink (893) or __mpqp_shrink_all (941); waiting for the queues given (918, 985); past the loop, executing what is left (mpq.c 807-829), with a function running or not; ended (mpq.c 843-853). *)
Inductive qpc := QFuncs (rest done : nat) (busy : bool) | QTimers (now : Z) | QShrink (now : Z) | QAll (now : Z) | QWait (now : Z) (ws : list nat) | QDrain (busy : bool) | QDone.
(** A thread that is no queue of the pool: not in a call; waiting for the queues given, after which the memory of the pool is released or not (1081-1084). *)
Inductive upc := UIdle | UWait (ws : list nat) (free : bool).
(** What happened: a queue was created; a function was accepted, began, ended; an idle check ran, with the clock value [now] of its pass and its lateness; a queue was taken out of the pool by the idle check of a queue or by a call from outside; a queue ended; a call of an outside thread that took out these queues returned. *)
Inductive ev := ECreate (q : nat) (t : Z) | EAccept (q : nat) | EBegin (q : nat) | EEnd (q : nat) (t : Z) | ECheck (q : nat) (now late : Z) | ERemove (by_ : option nat) (q : nat) (t : Z) | EDone (q : nat) | ERet (p : nat) (ws : list nat).
(** [entries]: the queues of the pool; [cnt]: q->count; [pc]; [term]: q->terminated; [execs]: q->exec_funcs_count; [idle], [last]: struct mpqp_q_idle_stat; [expire]: expire_time of the check's timer; [freed]: the memory of the pool is released; [uaf]: it was used afterwards. *)
Record st := mkS { clock : Z; entries : list nat; nextq : nat; cnt : nat -> nat; pc : nat -> qpc; term : nat -> bool; execs : nat -> nat; idle : nat -> nat; last : nat -> nat; expire : nat -> Z; upcs : nat -> upc; freed : bool; uaf : bool; trace : list ev }.
Definition fupd {A} (f : nat -> A) (k : nat) (v : A) : nat -> A := fun x => if (x =? k)%nat then v else f x.
(** __mpqp_create: 477-525. *)
Definition init : st := mkS 0 [] 0 (fun _ => 0) (fun _ => QDone) (fun _ => false) (fun _ => 0) (fun _ => 0) (fun _ => 0) (fun _ => 0%Z) (fun _ => UIdle) false false [].

Definition set_pc (s : st) (q : nat) (x : qpc) : st := mkS (clock s) (entries s) (nextq s) (cnt s) (fupd (pc s) q x) (term s) (execs s) (idle s) (last s) (expire s) (upcs s) (freed s) (uaf s) (trace s).
Definition set_upc (s : st) (p : nat) (x : upc) : st := mkS (clock s) (entries s) (nextq s) (cnt s) (pc s) (term s) (execs s) (idle s) (last s) (expire s) (fupd (upcs s) p x) (freed s) (uaf s) (trace s).
Definition emit (s : st) (e : list ev) : st := mkS (clock s) (entries s) (nextq s) (cnt s) (pc s) (term s) (execs s) (idle s) (last s) (expire s) (upcs s) (freed s) (uaf s) (trace s ++ e).
Definition set_cnt (s : st) (q n : nat) : st := mkS (clock s) (entries s) (nextq s) (fupd (cnt s) q n) (pc s) (term s) (execs s) (idle s) (last s) (expire s) (upcs s) (freed s) (uaf s) (trace s).
(** The memory of the pool is used. *)
Definition touch (s : st) : st := mkS (clock s) (entries s) (nextq s) (cnt s) (pc s) (term s) (execs s) (idle s) (last s) (expire s) (upcs s) (freed s) (uaf s || freed s) (trace s).
(** The memory of the pool is released: aosl_free (qp), 1084. *)
Definition release (s : st) : st := mkS (clock s) (entries s) (nextq s) (cnt s) (pc s) (term s) (execs s) (idle s) (last s) (expire s) (upcs s) true (uaf s) (trace s).

(** __pool_create_add_mpq_locked (186-205) with __mpqp_q_init (146-171): the new queue is in its loop, its check is due in 1000 ms. *)
Definition create (s : st) : st :=
  let q := nextq s in
  mkS (clock s) (entries s ++ [q]) (S q) (fupd (cnt s) q 0) (fupd (pc s) q (QFuncs 0 0 false)) (fupd (term s) q false) (fupd (execs s) q 0) (fupd (idle s) q 0) (fupd (last s) q 0) (fupd (expire s) q (clock s + 1000)%Z) (upcs s) (freed s) (uaf s) (trace s ++ [ECreate q (clock s)]).
(** __mpqp_find_best_q_locked: 56-69. *)
Fixpoint best (c : nat -> nat) (l : list nat) (b : option nat) : option nat :=
  match l with
  | [] => b
  | q :: r => best c r (match b with None => Some q | Some x => if (c q <? c x) then Some q else Some x end)
  end.
(** __mpqp_best_q_get (207-228) and the hand-over (291-307, mpq.c 433-443). *)
Definition accept (s : st) (q : nat) : st := emit (set_cnt s q (S (cnt s q))) [EAccept q].
Definition dispatch (N : nat) (s : st) : st :=
  match best (cnt s) (entries s) None with
  | None => accept (create s) (nextq s)
  | Some b => if (0 <? cnt s b) && (length (entries s) <? N) then accept (create s) (nextq s) else accept s b
  end.
(** The queues [ws] are taken out of the pool and __mpq_destroy sets their flag (mpq.c 1643): 899-902 and 913-915, 959-976. *)
Definition remove (s : st) (by_ : option nat) (keep ws : list nat) : st :=
  mkS (clock s) keep (nextq s) (cnt s) (pc s) (fun x => if existsb (Nat.eqb x) ws then true else term s x) (execs s) (idle s) (last s) (expire s) (upcs s) (freed s) (uaf s)
      (trace s ++ map (fun x => ERemove by_ x (clock s)) ws).
(** What __mpqp_shrink takes out: the last entry, if there are at least two (894-903). *)
Definition lastone (l : list nat) : list nat := if (1 <? length l) then [List.last l 0] else [].
(** What is left. *)
Definition others (l : list nat) : list nat := if (1 <? length l) then removelast l else l.
(** The idle check: 118-127; the new counter. *)
Definition count_idle (s : st) (q : nat) : nat := if (execs s q =? last s q) && (cnt s q =? 0) then S (idle s q) else 0.
(** The queue has ended: sync.result of its waiters is set (mpq.c 847-850). *)
Definition isdone (s : st) (q : nat) : bool := match pc s q with QDone => true | _ => false end.

Inductive label :=
| LTick (n : nat)                  (* n milliseconds pass *)
| LDispatch                        (* aosl_mpqp_queue: 281-330 *)
| LBegin (q : nat) | LEnd (q : nat)
| LTimers (q : nat)                (* the batch is done; __check_and_run_timers reads the clock: mpq.c 775-779, timer.c 491 *)
| LFire (q : nat)                  (* the check's timer has expired: timer.c 494-536 and 102-133 *)
| LAct (q : nat)                   (* the critical section of the shrink called in 134-137 *)
| LWaited (q : nat)                (* 917-919, 982-986 *)
| LLoop (q : nat)                  (* no timer left to run: mpq.c 783-795, to the next pass or out of the loop *)
| LFini (q : nat)                  (* nothing is left to execute: mpq.c 831-853, __mpqp_q_fini 173-179 *)
| LShrink (p : nat) (w : bool)     (* aosl_mpqp_shrink: 883-926 *)
| LAll (p : nat) (w : bool)        (* aosl_mpqp_shrink_all: 929-987 *)
| LDestroy (p : nat) (w : bool)    (* aosl_mpqp_destroy: 1078-1085 *)
| LReturn (p : nat).               (* the queues waited for have ended *)

(** A call of an outside thread that took out [ws], up to its wait or its return. *)
Definition called (s : st) (p : nat) (w : bool) (ws : list nat) (free : bool) : st :=
  if w then set_upc s p (UWait ws free) else let s := if free then release s else s in s.

(** [N]: the size of the pool; [M]: max_idles, None for a negative one (no check is set up: 150). *)
Definition exec (N : nat) (M : option nat) (l : label) (s : st) : option st :=
  match l with
  | LTick n => Some (mkS (clock s + Z.of_nat n) (entries s) (nextq s) (cnt s) (pc s) (term s) (execs s) (idle s) (last s) (expire s) (upcs s) (freed s) (uaf s) (trace s))
  | LDispatch => if freed s then None else Some (dispatch N s)
  | LBegin q => match pc s q with
      | QFuncs (S r) d false => Some (emit (set_pc s q (QFuncs (S r) d true)) [EBegin q])
      | QDrain false => if 0 <? cnt s q then Some (emit (set_pc s q (QDrain true)) [EBegin q]) else None
      | _ => None end
  | LEnd q => match pc s q with
      | QFuncs (S r) d true => Some (emit (set_cnt (set_pc s q (QFuncs r (S d) false)) q (Nat.pred (cnt s q))) [EEnd q (clock s)])
      | QDrain true => Some (emit (set_cnt (set_pc s q (QDrain false)) q (Nat.pred (cnt s q))) [EEnd q (clock s)])
      | _ => None end
  | LTimers q => match pc s q with
      | QFuncs 0 d false => Some (set_pc (mkS (clock s) (entries s) (nextq s) (cnt s) (pc s) (term s) (fupd (execs s) q (execs s q + d)) (idle s) (last s) (expire s) (upcs s) (freed s) (uaf s) (trace s)) q (QTimers (clock s)))
      | _ => None end
  | LFire q => match pc s q, M with
      | QTimers now, Some m =>
          if (expire s q <=? now)%Z then
            let k := count_idle s q in
            Some (touch (set_pc (mkS (clock s) (entries s) (nextq s) (cnt s) (pc s) (term s) (execs s) (fupd (idle s) q k) (fupd (last s) q (execs s q)) (fupd (expire s) q (clock s + 1000 - (now - expire s q))%Z) (upcs s) (freed s) (uaf s)
                              (trace s ++ [ECheck q now (now - expire s q)]))
                            q (if 2 * m <=? k then QAll now else if m <=? k then QShrink now else QTimers now)))
          else None
      | _, _ => None end
  | LAct q => match pc s q with
      | QShrink now => let ws := lastone (entries s) in Some (touch (set_pc (remove s (Some q) (others (entries s)) ws) q (QWait now (filter (fun x => negb (x =? q)) ws))))
      | QAll now => let ws := entries s in Some (touch (set_pc (remove s (Some q) [] ws) q (QWait now (filter (fun x => negb (x =? q)) ws))))
      | _ => None end
  | LWaited q => match pc s q with
      | QWait now ws => if forallb (isdone s) ws then Some (set_pc s q (QTimers now)) else None
      | _ => None end
  | LLoop q => match pc s q with
      | QTimers now =>
          if match M with Some _ => (expire s q <=? now)%Z | None => false end then None
          else Some (set_pc s q (if term s q then QDrain false else QFuncs (cnt s q) 0 false))
      | _ => None end
  | LFini q => match pc s q with
      | QDrain false => if cnt s q =? 0 then Some (emit (touch (set_pc s q QDone)) [EDone q]) else None
      | _ => None end
  | LShrink p w => match upcs s p, freed s with UIdle, false => let ws := lastone (entries s) in Some (called (remove s None (others (entries s)) ws) p w ws false) | _, _ => None end
  | LAll p w => match upcs s p, freed s with UIdle, false => let ws := entries s in Some (called (remove s None [] ws) p w ws false) | _, _ => None end
  | LDestroy p w => match upcs s p, freed s with UIdle, false => let ws := entries s in Some (called (remove s None [] ws) p w ws true) | _, _ => None end
  | LReturn p => match upcs s p with
      | UWait ws free => if forallb (isdone s) ws then Some (emit (set_upc (if free then release s else s) p UIdle) [ERet p ws]) else None
      | UIdle => None end
  end.
Fixpoint run (N : nat) (M : option nat) (ls : list label) (s : st) : option st := match ls with [] => Some s | l :: r => match exec N M l s with Some s => run N M r s | None => None end end.
Definition reachable (N : nat) (M : option nat) (s : st) : Prop := exists ls, run N M ls init = Some s.
