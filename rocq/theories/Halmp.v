(** * Model of the Linux multiplexing layer: platform/src/linux/aosl_hal_iomp.c,
    aosl_hal_errno.c, and the retry loops around it (kernel/et_mp.c 87-110,
    kernel/poll_mp.c 74-108, kernel/select_mp.c 73-103).

    The system's side (epoll_ctl(2), epoll_wait(2), poll(2), select(2)) is modelled after
    its manual: a set of registrations, and what is ready as an input.
    Simplifications: an fd_set is its 1024 flags; memory suffices. *)
From Verif Require Import Base Arith.

(** include/hal/aosl_hal_iomp.h 26-41. *)
Definition CTL_ADD := 1. Definition CTL_MOD := 2. Definition CTL_DEL := 3.
Definition A_IN := 1. Definition A_OUT := 2. Definition A_ERR := 4. Definition A_HUP := 8. Definition A_ET := 16.
(** linux/eventpoll.h, asm-generic/poll.h. *)
Definition EPOLL_CTL_ADD := 1. Definition EPOLL_CTL_DEL := 2. Definition EPOLL_CTL_MOD := 3.
Definition E_IN := 1. Definition E_OUT := 4. Definition E_ERR := 8. Definition E_HUP := 16. Definition E_ET := 2 ^ 31.

(** A chain of [if (src & a) dst |= b]. *)
Definition or_if (src dst : Z) (ab : Z * Z) : Z := if Z.land src (fst ab) =? 0 then dst else Z.lor dst (snd ab).
Definition conv (tab : list (Z * Z)) (src dst : Z) : Z := fold_left (or_if src) tab dst.
Definition tab_ctl := [(A_IN, E_IN); (A_OUT, E_OUT); (A_ERR, E_ERR); (A_HUP, E_HUP); (A_ET, E_ET)].   (* 49-58 *)
Definition tab_wait := [(E_IN, A_IN); (E_OUT, A_OUT); (E_ERR, A_ERR); (E_HUP, A_HUP)].                  (* 87-94 *)
Definition tab_poll := [(A_IN, E_IN); (A_OUT, E_OUT)].                                                  (* 112-115 *)
Definition tab_pollr := [(E_IN, A_IN); (E_OUT, A_OUT)].                                                 (* 129-134 *)

(** ** epoll *)
(** The registrations of an epoll instance: descriptor, events, data. *)
Definition eset := list (Z * (Z * Z)).
Definition lookup (s : eset) (fd : Z) : option (Z * Z) := match find (fun x => fst x =? fd) s with Some x => Some (snd x) | None => None end.
Definition remove (s : eset) (fd : Z) : eset := filter (fun x => negb (fst x =? fd)) s.
(** epoll_ctl(2): 0, or -1. *)
Definition sys_ctl (s : eset) (op fd events data : Z) : eset * Z :=
  if op =? EPOLL_CTL_ADD then (match lookup s fd with Some _ => (s, -1) | None => ((fd, (events, data)) :: s, 0) end)
  else if op =? EPOLL_CTL_MOD then (match lookup s fd with Some _ => ((fd, (events, data)) :: remove s fd, 0) | None => (s, -1) end)
  else if op =? EPOLL_CTL_DEL then (match lookup s fd with Some _ => (remove s fd, 0) | None => (s, -1) end)
  else (s, -1).
(** aosl_hal_epoll_ctl: 23-65. *)
Definition hal_epoll_ctl (s : eset) (op fd : Z) (ev : option Z) : eset * Z :=
  match ev with
  | None => if op =? CTL_DEL then sys_ctl s EPOLL_CTL_DEL fd 0 0 else (s, -1)
  | Some events =>
      let go n_op := sys_ctl s n_op fd (conv tab_ctl events 0) fd in
      if op =? CTL_ADD then go EPOLL_CTL_ADD
      else if op =? CTL_MOD then go EPOLL_CTL_MOD
      else if op =? CTL_DEL then go EPOLL_CTL_DEL
      else (s, -1)
  end.
(** epoll_wait(2) reports for a registered descriptor what is ready and asked for, errors and hang-ups always. *)
Definition sys_event (reg : Z * Z) (ready : Z) : Z * Z := (snd reg, Z.land ready (Z.lor (fst reg) (Z.lor E_ERR E_HUP))).
(** aosl_hal_epoll_wait 84-95: the entries of evlist (fd, events) filled from n_events (data, events). *)
Fixpoint hal_fill (n_events : list (Z * Z)) (evlist : list (Z * Z)) : outcome (list (Z * Z)) :=
  match n_events, evlist with
  | [], l => Ok l
  | (d, e) :: n, (_, old) :: l => let* r := hal_fill n l in Ok ((d, conv tab_wait e old) :: r)
  | _ :: _, [] => UB
  end.
(** aosl_hal_errno_convert: aosl_hal_errno.c 4-17; Linux numbers. *)
Definition EHAL := -2000. Definition HAL_EAGAIN := -2001. Definition HAL_EINTR := -2002. Definition HAL_EINPROGRESS := -2003.
Definition errno_convert (e : Z) : Z :=
  if e =? 0 then 0 else if e =? 11 then HAL_EAGAIN else if e =? 4 then HAL_EINTR else if e =? 115 then HAL_EINPROGRESS else EHAL.
(** What the system call gives: the events, or an errno. *)
Inductive sysres (A : Type) := Got (a : A) | Fails (errno : Z).
Arguments Got {A}. Arguments Fails {A}.
(** aosl_hal_epoll_wait: 67-99. *)
Definition hal_epoll_wait (r : sysres (list (Z * Z))) (evlist : list (Z * Z)) : outcome (list (Z * Z) * Z) :=
  match r with
  | Fails e => Ok (evlist, errno_convert e)
  | Got n => let* l := hal_fill n evlist in Ok (l, Z.of_nat (length n))
  end.

(** ** poll *)
(** aosl_poll_event_t: fd, events, revents. *)
Record pfd := mkP { p_fd : Z; p_events : Z; p_revents : Z }.
(** 108-116: the array for the system; [junk]: what alloca's memory holds in n_fds[i].events. *)
Definition n_fd (f : pfd) (junk : Z) : Z * Z := (p_fd f, conv tab_poll (p_events f) junk).
(** poll(2): ready and asked for; errors always. *)
Definition sys_poll (ready : Z -> Z) (n : Z * Z) : Z := Z.land (ready (fst n)) (Z.lor (snd n) (Z.lor E_ERR E_HUP)).
(** 128-135. *)
Definition back (f : pfd) (revents : Z) : pfd := mkP (p_fd f) (p_events f) (conv tab_pollr revents (p_revents f)).
(** aosl_hal_poll: 101-138, when the system call succeeds. *)
Fixpoint hal_poll (fds : list pfd) (junk : list Z) (ready : Z -> Z) : list pfd :=
  match fds, junk with
  | f :: fds, j :: junk => back f (sys_poll ready (n_fd f j)) :: hal_poll fds junk ready
  | _, _ => []
  end.

(** ** select *)
Definition FD_SETSIZE : Z := 1024.
(** FD_ZERO, FD_SET, FD_CLR, FD_ISSET: 153-171. *)
Definition fdset := list bool.
Definition fdset_zero : fdset := repeat false 1024.
Definition fdset_put (s : fdset) (fd : Z) (b : bool) : outcome fdset :=
  if (fd <? 0) || (FD_SETSIZE <=? fd) then UB else Ok (upd s (Z.to_nat fd) b).
Definition fdset_set (s : fdset) (fd : Z) : outcome fdset := fdset_put s fd true.
Definition fdset_clr (s : fdset) (fd : Z) : outcome fdset := fdset_put s fd false.
Definition fdset_isset (s : fdset) (fd : Z) : outcome bool :=
  if (fd <? 0) || (FD_SETSIZE <=? fd) then UB else match nth_error s (Z.to_nat fd) with Some b => Ok b | None => UB end.
(** select_mp.c 87-95: a set for the flagged descriptors. *)
Fixpoint fdset_of (fds : list Z) (s : fdset) : outcome fdset :=
  match fds with [] => Ok s | fd :: fds => let* s := fdset_set s fd in fdset_of fds s end.
(** 176-184: seconds and microseconds, None for ever. *)
Definition timeval (timeout_ms : Z) : option (Z * Z) :=
  if timeout_ms <? 0 then None else Some (Z.quot timeout_ms 1000, Z.rem timeout_ms 1000 * 1000).

(** ** The retry loops *)
(** et_mp.c 92-109, poll_mp.c 74-108, select_mp.c 73-103: the timeouts passed to the system,
    one per time around; [clock]: the values of aosl_tick_now at each time around.
    The parameter int timeout_ms of the three functions cuts the value. *)
Fixpoint tries (timeo ts : Z) (clock : list Z) : list Z :=
  match clock with
  | [] => []
  | now :: clock =>
      let t1 := if 0 <? timeo then s64 (timeo - s64 (now - ts)) else timeo in
      let t2 := if (0 <? timeo) && (t1 <? 0) then 0 else t1 in
      s32 t2 :: tries t2 (if 0 <? timeo then now else ts) clock
  end.
