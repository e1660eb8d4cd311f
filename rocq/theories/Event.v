(** * Model of the event objects: kernel/thread.c 318-388, behind
    aosl_event_create .. aosl_event_reset, lib/thread_api.c 197-229.

    Any number of threads use one event.  One transition is one critical section
    under event->mutex, or what the condition variable does to a sleeping
    thread.

    Simplifications: the mutex works (so a critical section is one step), and the
    condition variable is the ideal one: waiting releases the mutex and goes to
    sleep in one step, a signal wakes exactly one sleeping thread if there is
    one, a broadcast wakes all of them, and a woken thread has to take the mutex
    again before it goes on (that is the step [E_resume]).  A sleeping thread may
    also wake spuriously, which POSIX permits; such wake-ups leave an [ESpur] in
    the history, so that theorems can speak of executions without them.
    aosl_event_destroy is not modelled. *)
From Verif Require Import Base.

(** event->result: NULL, K_EVENT_SET, K_EVENT_PULSE (kernel/thread.c 315-316, 322). *)
Inductive result := RNone | RSet | RPulse.
(** Where a thread is: outside, asleep in k_cond_wait (true: k_cond_timedwait,
    369-373), or woken with the result ret of the wait (true: timed out). *)
Inductive place := Out | Blk (tm : bool) | Wok (late : bool).

Inductive event :=
| ESet (t : nat) | EPulse (t : nat) | EReset (t : nat)
| ECall (t : nat) (tm : bool)     (* t calls wait; tm: timedwait with a timeout >= 0 *)
| ETmo (t : nat)                  (* t's timeout passes while it sleeps *)
| ESpur (t : nat)                 (* t wakes for no reason *)
| ERet (t : nat) (late : bool).   (* t's wait returns; late: with the timeout error *)

Record state := mkSt { s_res : result; s_pc : nat -> place; s_tr : list event }.   (* latest first *)
(** k_event_init 318-323. *)
Definition init_state : state := mkSt RNone (fun _ => Out) [].
Definition fupd {A} (f : nat -> A) (k : nat) (v : A) : nat -> A := fun x => if (x =? k)%nat then v else f x.

(** k_cond_broadcast: every sleeping thread is woken. *)
Definition wake_all (pc : nat -> place) : nat -> place := fun t => match pc t with Blk _ => Wok false | p => p end.
(** k_event_set 325-333. *)
Definition do_set (t : nat) (s : state) : state :=
  match s_res s with
  | RSet => mkSt (s_res s) (s_pc s) (ESet t :: s_tr s)
  | _ => mkSt RSet (wake_all (s_pc s)) (ESet t :: s_tr s)
  end.
(** k_event_pulse 335-343; [o] is the thread that k_cond_signal wakes. *)
Definition do_pulse (t : nat) (o : option nat) (s : state) : state :=
  match s_res s with
  | RPulse => mkSt (s_res s) (s_pc s) (EPulse t :: s_tr s)
  | _ => mkSt RPulse (match o with Some w => fupd (s_pc s) w (Wok false) | None => s_pc s end) (EPulse t :: s_tr s)
  end.
(** What k_cond_signal may choose. *)
Definition choice (o : option nat) (s : state) : Prop :=
  match o with Some w => exists tm, s_pc s w = Blk tm | None => forall w tm, s_pc s w <> Blk tm end.
(** The end of a wait, 351-353 and 377-379: a pulse is used up. *)
Definition eat (r : result) : result := match r with RPulse => RNone | r => r end.
(** k_event_wait 345-354 and k_event_timedwait 356-382, up to the sleep. *)
Definition do_call (t : nat) (tm : bool) (s : state) : state :=
  match s_res s with
  | RNone => mkSt RNone (fupd (s_pc s) t (Blk tm)) (ECall t tm :: s_tr s)
  | r => mkSt (eat r) (s_pc s) (ERet t false :: ECall t tm :: s_tr s)
  end.
(** The same after the sleep, 351-354 and 377-381. *)
Definition do_resume (t : nat) (late : bool) (s : state) : state :=
  mkSt (eat (s_res s)) (fupd (s_pc s) t Out) (ERet t late :: s_tr s).
(** k_event_reset 384-389. *)
Definition do_reset (t : nat) (s : state) : state := mkSt RNone (s_pc s) (EReset t :: s_tr s).

(** One step of thread [t]. *)
Inductive step (t : nat) (s : state) : state -> Prop :=
| E_set : s_pc s t = Out -> step t s (do_set t s)
| E_pulse o : s_pc s t = Out -> choice o s -> step t s (do_pulse t o s)
| E_reset : s_pc s t = Out -> step t s (do_reset t s)
| E_call tm : s_pc s t = Out -> step t s (do_call t tm s)
| E_tmo : s_pc s t = Blk true -> step t s (mkSt (s_res s) (fupd (s_pc s) t (Wok true)) (ETmo t :: s_tr s))
| E_spur tm : s_pc s t = Blk tm -> step t s (mkSt (s_res s) (fupd (s_pc s) t (Wok false)) (ESpur t :: s_tr s))
| E_resume late : s_pc s t = Wok late -> step t s (do_resume t late s).

Inductive reachable : state -> Prop :=
| R_init : reachable init_state
| R_step t s s' : reachable s -> step t s s' -> reachable s'.
