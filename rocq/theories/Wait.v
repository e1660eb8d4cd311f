(** * Model of the clocks and timed waits.

    - the clocks: kernel/time.c 14-46 over platform/src/linux/aosl_hal_time.c
      8-26, 50-53;
    - the deadline of a timed wait on a condition variable or a semaphore:
      platform/src/linux/aosl_hal_thread.c 276-296 and 342-359, behind
      aosl_cond_timedwait, aosl_event_timedwait and lib/cond.c;
    - the wait of a queue for its descriptors: kernel/et_mp.c 94-115,
      kernel/poll_mp.c 58-108, kernel/select_mp.c 63-104, over
      platform/src/linux/aosl_hal_iomp.c 68-157 and 175-199;
    - the wait of a queue without descriptors: kernel/osmp.c 92-100.

    Time is in nanoseconds; the machine is LP64.  The operating system's calls
    are described by what they promise (below, [sleeps]).

    Simplifications: clock_gettime and gettimeofday do not fail; a clock reading
    is the time itself. *)
From Verif Require Import Base.

Definition NS : Z := 1000000000.       (* nanoseconds per second *)
Definition MS : Z := 1000000.          (* nanoseconds per millisecond *)

(** struct timespec. *)
Record timespec := mkTs { sec : Z; nsec : Z }.
(** What clock_gettime returns at time [t]. *)
Definition clock (t : Z) : timespec := mkTs (t / NS) (t mod NS).
(** aosl_hal_get_tick_ms, aosl_hal_time.c 8-17 (and 19-26 for the wall clock),
    aosl_tick_now and aosl_tick_ms, kernel/time.c 14-22. *)
Definition tick_ms (t : Z) : Z :=
  let ts := clock t in u64 (u64 (u64 (sec ts) * 1000) + u64 (Z.quot (nsec ts) 1000000)).
(** aosl_tick_us, kernel/time.c 24-27. *)
Definition tick_us (t : Z) : Z := 0.

(** The microseconds that usleep gets from aosl_msleep, kernel/time.c 39-45 and
    aosl_hal_time.c 50-53: useconds_t is a 32-bit unsigned integer. *)
Definition msleep_us (ms : Z) : Z :=
  let ms := if ms =? 0 then 1 else ms in u32 (u64 (ms * 1000)).

(** Addition of two longs. *)
Definition add64 (a b : Z) : outcome Z :=
  if ((-9223372036854775808 <=? a + b) && (a + b <? 9223372036854775808))%bool then Ok (a + b) else UB.
(** The while loop, aosl_hal_thread.c 290-293 and 354-357, with at most [n]
    iterations ([None]: not finished by then). *)
Fixpoint norm (n : nat) (x : timespec) : outcome (option timespec) :=
  if 1000000000 <=? nsec x then
    match n with
    | O => Ok None
    | S n => let* s := add64 (sec x) 1 in norm n (mkTs s (nsec x - 1000000000))
    end
  else Ok (Some x).
(** The deadline of a wait of [ms] milliseconds that starts when the clock
    shows [now]: aosl_hal_thread.c 285-293 and 348-357. *)
Definition deadline (n : nat) (now : timespec) (ms : Z) : outcome (option timespec) :=
  let* s := add64 (sec now) (Z.quot ms 1000) in
  let* ns := add64 (nsec now) (Z.rem ms 1000 * 1000000) in
  norm n (mkTs s ns).

(** ** What the operating system promises *)

(** The end of a pthread_cond_timedwait or sem_timedwait with deadline [d] that
    nobody wakes: EINVAL at once if the nanoseconds are out of range, otherwise
    ETIMEDOUT when the clock has reached the deadline.  [w] is the clock that
    the call watches. *)
Inductive timed_out (w : Z -> Z) (d : timespec) (from : Z) : Z -> Z -> Prop :=
| to_invalid b : (nsec d < 0 \/ NS <= nsec d) -> from <= b -> timed_out w d from b 22
| to_late b : 0 <= nsec d < NS -> from <= b -> sec d * NS + nsec d <= w b -> timed_out w d from b 110.

(** ** The waits of a queue *)
Inductive kind := Epoll | Poll | Select.
Inductive answer := AInt | ATimeout | AEvents | AError.
(** One attempt: the clock is read at [y_now], the call is entered at [y_call]
    and comes back at [y_back] with [y_ans]. *)
Record try := mkTry { y_now : Z; y_call : Z; y_back : Z; y_ans : answer }.

(** struct timeval of aosl_hal_select, aosl_hal_iomp.c 182-183, in microseconds. *)
Definition select_us (ms : Z) : Z := Z.quot ms 1000 * 1000000 + Z.rem ms 1000 * 1000.
(** The time the operating system is asked to wait, in microseconds, None: for
    ever.  The parameter [timeo] is an intptr_t, the parameter of
    aosl_hal_epoll_wait, aosl_hal_poll and aosl_hal_select an int
    (aosl_hal_iomp.c 68, 105, 175); select: 179-185. *)
Definition os_wait (k : kind) (timeo : Z) : option Z :=
  let ms := s32 timeo in
  match k with
  | Epoll | Poll => if ms <? 0 then None else Some (ms * 1000)
  | Select => if ms <? 0 then None else Some (select_us ms)
  end.
(** et_mp.c 103-109, poll_mp.c 78-84, select_mp.c 77-83: what is left of
    [timeo] at an attempt; [stamp] is the time of the attempt before. *)
Definition left (timeo stamp : Z) (t : Z) : Z * Z :=
  if 0 <? timeo then
    let now := tick_ms t in
    let timeo := s64 (timeo - s64 (u64 (now - stamp))) in
    (if timeo <? 0 then 0 else timeo, now)
  else (timeo, stamp).
(** The attempts, et_mp.c 102-114 and the like: an interrupted call is repeated. The
    result is what was asked of the operating system at each attempt, and the
    answer of the last. *)
Fixpoint attempts (k : kind) (timeo stamp : Z) (ys : list try) : option (list (option Z) * answer) :=
  match ys with
  | [] => None
  | y :: ys =>
      let '(timeo, stamp) := left timeo stamp (y_now y) in
      let a := os_wait k timeo in
      match y_ans y with
      | AInt => match attempts k timeo stamp ys with Some (l, r) => Some (a :: l, r) | None => None end
      | r => match ys with [] => Some ([a], r) | _ => None end
      end
  end.
(** os_mp_wait_epoll, os_mp_wait_poll, os_mp_wait_select: [t0] is when the clock
    is read first, et_mp.c 99-100, poll_mp.c 74-75, select_mp.c 73-74. *)
Definition mp_wait (k : kind) (timeo t0 : Z) (ys : list try) : option (list (option Z) * answer) :=
  attempts k timeo (if 0 <? timeo then tick_ms t0 else 0) ys.

(** What epoll_wait, poll and select promise about an attempt that was asked to
    wait [a]: a timeout is reported not before the time has passed, and the
    call comes back at most [lat] nanoseconds after it has. *)
Definition sleeps (lat : Z) (a : option Z) (y : try) : Prop :=
  y_now y <= y_call y /\ y_call y <= y_back y /\
  match a with
  | None => y_ans y <> ATimeout
  | Some us => (y_ans y = ATimeout -> y_call y + us * 1000 <= y_back y) /\ y_back y <= y_call y + us * 1000 + lat
  end.
(** Time passes from attempt to attempt. *)
Fixpoint ordered (t : Z) (ys : list try) : Prop :=
  match ys with [] => True | y :: ys => t <= y_now y /\ ordered (y_back y) ys end.
