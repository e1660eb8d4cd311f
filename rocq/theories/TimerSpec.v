(** * Timers: the vocabulary of the properties.

    [timer_active], [expire_of] (Timer.v) read the state; [s : tst] is the
    queue's timer state; a timer is named by its address [a] and, across
    histories, by its creation number [tn_uid]. *)
From Verif Require Import Base Rbtree RbtreeSpec Timer.

(** When the timer was last armed (ghost order number). *)
Definition serial_of (s : tst) (a : nat) : nat :=
  match t_cell s a with Some n => tn_serial n | None => 0%nat end.
(** [a] has to fire before [b]. *)
Definition before (s : tst) (a b : nat) : Prop :=
  expire_of s a < expire_of s b \/ (expire_of s a = expire_of s b /\ (serial_of s a < serial_of s b)%nat).

Definition interval_ok (i : Z) : Prop := 0 <= i < 9223372036854775808 \/ i = INVALID_INTERVAL.

(** Everything a user can observe of timer [x] is the same in [s] and [s']
    (references apart). *)
Definition same_view (s s' : tst) (x : nat) : Prop :=
  timer_active s' x = timer_active s x /\
  match t_cell s x, t_cell s' x with
  | Some n, Some n' => tn_interval n' = tn_interval n /\ tn_expire n' = tn_expire n /\
       tn_installed n' = tn_installed n /\ tn_serial n' = tn_serial n /\ tn_uid n' = tn_uid n
  | None, None => True
  | _, _ => False
  end.

Definition clock_at (s : tst) (i : nat) : Z := u64 (t_clk s i).

Definition u64_ok (z : Z) : Prop := 0 <= z < 18446744073709551616.
(** The handle of the timer at [a] resolves. *)
Definition usable (s : tst) (a : nat) : Prop := exists n, t_cell s a = Some n /\ tn_installed n = true.

Definition armed_as (s s' : tst) (a : nat) (interval expire : Z) : Prop :=
  timer_active s' a = true /\ (t_serial s < t_serial s')%nat /\
  exists n, t_cell s' a = Some n /\ tn_interval n = interval /\ tn_expire n = expire /\ tn_serial n = t_serial s.

(** The timer an operation is about, whether it can arm it, and the ranges
    the C types give its arguments. *)
Definition target (c : cop) : nat :=
  match c with
  | CCreate a _ | CCreateOneshot a | CSet a _ | CSetOneshot a _ | CSetOneshotOnQ a _
  | CResched a _ | CReschedOneshot a _ | CCancel a | CKill a | CGet a | CPut a => a
  end.
Definition arms (c : cop) : bool :=
  match c with
  | CSet _ _ | CSetOneshot _ _ | CSetOneshotOnQ _ _ | CResched _ _ | CReschedOneshot _ _ => true
  | _ => false
  end.
Definition cop_ok (c : cop) : Prop :=
  match c with
  | CCreate _ z | CSet _ z | CSetOneshot _ z | CSetOneshotOnQ _ z | CResched _ z | CReschedOneshot _ z => u64_ok z
  | _ => True
  end.

Definition arms_on (x : nat) (cs : list cop) : bool := existsb (fun c => arms c && Nat.eqb (target c) x) cs.
Definition touches (x : nat) (cs : list cop) : bool := existsb (fun c => Nat.eqb (target c) x) cs.

(** [a] is active and goes before every other active timer: smaller expiry,
    or same expiry and armed earlier. *)
Definition earliest (s : tst) (a : nat) : Prop :=
  timer_active s a = true /\ forall b, timer_active s b = true -> b <> a -> before s a b.

Inductive tev :=
| EOp (c : cop)                              (* a call on the queue's thread, or a reference taken/dropped elsewhere *)
| EResched (a : nat) (interval expire : Z)   (* a reschedule requested by another thread is executed *)
| ECancel (a : nat) | EKill (a : nat)        (* same for cancel and kill *)
| ERun (cb : nat -> nat -> list cop) (loops : nat)   (* __check_and_run_timers *)
| EWait.                                     (* mpq_max_wait_time *)

Definition exec_tev (e : tev) : TM (list firing) :=
  match e with
  | EOp c => run exec_cop c; tret []
  | EResched a i x => run remote_resched a i x; tret []
  | ECancel a => run remote_cancel a; tret []
  | EKill a => run remote_kill a; tret []
  | ERun cb loops => do r <- run_timers cb loops; tret (snd r)
  | EWait => do r <- max_wait_time; tret []
  end.
(** C argument ranges; another thread's request holds a reference; the
    arguments of a remote reschedule passed the caller-side checks; and (not
    ensured by the code, see C16) the timer was not killed while a remote
    reschedule was under way. *)
Definition ev_pre (s : tst) (e : tev) : Prop :=
  match e with
  | EOp c => cop_ok c
  | EResched a i x => (0 < t_held s a)%nat /\ usable s a /\ interval_ok i /\ u64_ok x
  | ECancel a | EKill a => (0 < t_held s a)%nat
  | ERun cb _ => forall i a, Forall cop_ok (cb i a)
  | EWait => True
  end.
Definition ev_arms (b : nat) (e : tev) : Prop :=
  match e with
  | EOp c => arms c = true /\ target c = b
  | EResched a _ _ => a = b
  | ERun cb _ => exists i a, arms_on b (cb i a) = true
  | _ => False
  end.
Inductive tsteps : tst -> list tev -> list firing -> tst -> Prop :=
| ts_nil s : tsteps s [] [] s
| ts_cons s e es f s1 fs s' : ev_pre s e -> exec_tev e s = Ok (f, s1) -> tsteps s1 es fs s' ->
    tsteps s (e :: es) (f ++ fs) s'.
Definition reachable (s : tst) : Prop := exists clk es fs, tsteps (timers_init clk) es fs s.
