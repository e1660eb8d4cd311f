(** * Model of the flags of a queue: aosl_mpq_change_flags and aosl_mpq_get_flags (kernel/mpq.c 1073-1127), and what looks at the flags: the choice of the wake-up object at creation (kernel/osmp.c 308-338), kicks (kernel/mpq.c 307-344), waits (kernel/osmp.c 90-113, 179-183), descriptors (kernel/iofd.c 304-305) and aosl_mpq_destroy (kernel/mpq.c 1672-1690).

    One queue that has been created, any number of threads.  Reading the flags under the lock, computing, and storing are steps of their own; a reading without the lock is one step.
    Simplified: the queue is not freed during a call (references: C22); what a kick that arrives does is C25; whether a kick is needed (need_kicking) is C25. *)
From Verif Require Import Base.

(** BITOP_OR, BITOP_AND, BITOP_XOR, any other number: include/api/aosl_mpq.h 128-130. *)
Inductive bitop := Or | And | Xor | Other.
(** __queue_change_flags: 1077-1088. *)
Definition apply (op : bitop) (b v : Z) : Z := match op with Or => Z.lor v b | And => Z.land v b | Xor => Z.lxor v b | Other => v end.
(** AOSL_MPQ_FLAG_SIGP_EVENT and AOSL_MPQ_FLAG_DESTROY_NOT_ALLOWED: aosl_mpq.h 104-105. *)
Definition sigp_bit (v : Z) : bool := Z.testbit v 1.
Definition keep_bit (v : Z) : bool := Z.testbit v 31.
(** What q->sigp holds: an event and no pipe, or a pipe and no event. *)
Inductive wake := WEvent | WPipe.
(** os_init_sigp: osmp.c 317-338. *)
Definition made (v : Z) : wake := if sigp_bit v then WEvent else WPipe.
(** What becomes of a kick, or of a wait: it goes to the object there is; the pipe is not there: the write fails, the wait is for descriptors alone; the event is not there: NULL is dereferenced (kernel/thread.c 338-341, 359-362). *)
Inductive how := Reach | Lost | Null.
Definition use (w : wake) (v : Z) : how := match w, sigp_bit v with WEvent, true | WPipe, false => Reach | WEvent, false => Lost | WPipe, true => Null end.

(** Where a thread is: in no call; in a change (called, lock held, flags read, stored, lock released); in a reading. *)
Inductive tpc := TIdle | TCall (op : bitop) (b : Z) | TIn (op : bitop) (b : Z) | TGot (op : bitop) (b v : Z) | TDone (op : bitop) (b : Z) | TRet (op : bitop) (b : Z) | TRCall | TRIn | TRGot (v : Z) | TRRet (v : Z).
Inductive event := ECall (p : nat) (op : bitop) (b : Z) | EApply (p : nat) (op : bitop) (b : Z) | ERet (p : nat) (op : bitop) (b : Z) (r : Z)
| EAsk (p : nat) | EGot (p : nat) (v : Z) | EKick (h : how) | EWait (h : how) | EAdd (ok : bool) | EDestroy (p : nat) (ok : bool).
Record st := mkS { flags : Z; sigp : wake; lock : option nat; pc : nat -> tpc; term : bool; log : list event }.
(** After __q_create (mpq.c 855-868) with [fl]. *)
Definition init (fl : Z) : st := mkS fl (made fl) None (fun _ => TIdle) false [].
Definition upd {A} (f : nat -> A) (k : nat) (v : A) : nat -> A := fun x => if Nat.eqb x k then v else f x.

Inductive label :=
| LChange (p : nat) (op : bitop) (b : Z)   (* aosl_mpq_change_flags is called *)
| LGet (p : nat)                           (* aosl_mpq_get_flags is called *)
| LLock (p : nat)                          (* 1075, 1122 *)
| LRead (p : nat)                          (* 1079-1085 up to the store; 1123 *)
| LStore (p : nat)                         (* the store of 1079-1085 *)
| LUnlock (p : nat)                        (* 1089, 1124 *)
| LRet (p : nat)                           (* 1091, 1108; 1126 *)
| LKick                                    (* mpq.c 331-335 *)
| LWait                                    (* osmp.c 179-183 *)
| LAdd                                     (* iofd.c 304 *)
| LDestroy (p : nat).                      (* mpq.c 1682-1690 *)

Definition goto (s : st) (p : nat) (x : tpc) (lk : option nat) (v : Z) (e : list event) : st := mkS v (sigp s) lk (upd (pc s) p x) (term s) (e ++ log s).
Definition note (s : st) (e : event) : st := mkS (flags s) (sigp s) (lock s) (pc s) (term s) (e :: log s).
Definition step (s : st) (l : label) : option st :=
  match l with
  | LChange p op b => match pc s p with TIdle => Some (goto s p (TCall op b) (lock s) (flags s) [ECall p op b]) | _ => None end
  | LGet p => match pc s p with TIdle => Some (goto s p TRCall (lock s) (flags s) [EAsk p]) | _ => None end
  | LLock p => match pc s p, lock s with
      | TCall op b, None => Some (goto s p (TIn op b) (Some p) (flags s) [])
      | TRCall, None => Some (goto s p TRIn (Some p) (flags s) [])
      | _, _ => None end
  | LRead p => match pc s p with
      | TIn op b => Some (goto s p (TGot op b (flags s)) (lock s) (flags s) [])
      | TRIn => Some (goto s p (TRGot (flags s)) (lock s) (flags s) [])
      | _ => None end
  | LStore p => match pc s p with TGot op b v => Some (goto s p (TDone op b) (lock s) (apply op b v) [EApply p op b]) | _ => None end
  | LUnlock p => match pc s p with
      | TDone op b => Some (goto s p (TRet op b) None (flags s) [])
      | TRGot v => Some (goto s p (TRRet v) None (flags s) [])
      | _ => None end
  | LRet p => match pc s p with
      | TRet op b => Some (goto s p TIdle (lock s) (flags s) [ERet p op b 0])
      | TRRet v => Some (goto s p TIdle (lock s) (flags s) [EGot p v])
      | _ => None end
  | LKick => Some (note s (EKick (use (sigp s) (flags s))))
  | LWait => Some (note s (EWait (use (sigp s) (flags s))))
  | LAdd => Some (note s (EAdd (negb (sigp_bit (flags s)))))
  | LDestroy p => if keep_bit (flags s) then Some (note s (EDestroy p false)) else Some (mkS (flags s) (sigp s) (lock s) (pc s) true (EDestroy p true :: log s))
  end.
Fixpoint run (s : st) (ls : list label) : option st :=
  match ls with [] => Some s | l :: ls => match step s l with Some s' => run s' ls | None => None end end.
Definition reach (fl : Z) (s : st) : Prop := exists ls, run (init fl) ls = Some s.
