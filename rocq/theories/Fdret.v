(** * Model of what the descriptor functions report when the descriptor belongs
    to another queue: kernel/iofd.c 458-494 (aosl_mpq_add_fd_on_q), 627-668
    (aosl_close), 683-714 (aosl_mpq_del_fd), 772-801 (aosl_write), net/sk_utils.c
    303-340, 412-451, 500-538, 593-627 (the *_on_q functions), 685-716 and 776-807
    (aosl_send, aosl_sendto); kernel/mpq.c 363-474 (____add_f with sync),
    1255-1294, 1349-1355; include/kernel/err.h 77-84.

    Simplifications: what the operation does on the target queue is its result
    (Iofdw.v, Iofdr.v, Fd.v, Onq.v model the operations); memory suffices (add_f
    aborts otherwise, 393-396); a call with too many arguments is C43's subject. *)
From Verif Require Import Base Arith.

(** One look at the queue under its lock, 424-466: its number of requests, and
    whether the calling thread's own queue is being destroyed. *)
Record look := mkLook { l_count : Z; l_term : bool }.
Inductive handed := Ran | Refused (e : Z) | Blocked.
(** The loop 429-469 of ____add_f with no_fail = 0: one element per time around. *)
Fixpoint add_f (ls : list look) (q_max : Z) (nonblock : bool) : handed :=
  match ls with
  | [] => Blocked                                    (* still waiting *)
  | l :: ls =>
      if l_count l <? q_max then Ran
      else if nonblock then Refused (- AOSL_EAGAIN)
      else if l_term l then Refused (- AOSL_EINTR)
      else add_f ls q_max nonblock
  end.
(** A synchronous call of the target queue, 1255-1294: it runs at once on the own queue. *)
Definition call_f (own : bool) (ls : list look) (q_max : Z) (nonblock : bool) : handed :=
  if own then Ran else add_f ls q_max nonblock.

Inductive op := Write | Send | Sendto | Close | DelFd | AddFdOnQ | ConnectOnQ | ListenOnQ | AddDgramOnQ | AddStreamOnQ.
(** What a call meets. *)
Record env := mkEnv {
  e_f : bool;              (* iofd_get finds the descriptor *)
  e_own : bool;            (* the caller runs on the descriptor's / target queue *)
  e_q : bool;              (* __mpq_get finds the queue *)
  e_looks : list look; e_max : Z; e_nonblock : bool;
  e_result : Z;            (* the result of the operation on the target queue, 0 or more, or minus an errno *)
  e_raw : Z }.             (* the result of closing a descriptor that is on no queue *)
(** The outcome: the result if the operation ran, the value returned, and errno if it was set. *)
Record res := mkRes { r_ran : option Z; r_ret : Z; r_errno : option Z }.

(** return_err in functions returning isize_t (err.h 77-84). *)
Definition return_err_z (err : Z) : option Z * Z :=
  let e := s64 err in if IS_ERR_VALUE e then (Some (set_error e), -1) else (None, e).
(** __mpq_call_argv sets errno when it returns a negative value (mpq.c 1355 return_err). *)
Definition ret_of (f : Z -> option Z * Z) (ran : option Z) (before : option Z) (err : Z) : res :=
  let '(e, r) := f err in mkRes ran r (match e with Some _ => e | None => before end).

(** The call of the target queue: [neg] tells whether a refusal becomes
    -aosl_errno or aosl_errno. *)
Definition call_q (f : Z -> option Z * Z) (neg : bool) (v : env) : option res :=
  match call_f (e_own v) (e_looks v) (e_max v) (e_nonblock v) with
  | Ran => Some (ret_of f (Some (e_result v)) None (e_result v))
  | Refused e => let errno := set_error e in Some (ret_of f None (Some errno) (if neg then - errno else errno))
  | Blocked => None
  end.
(** The ten functions; None: the call has not returned yet. *)
Definition api (o : op) (v : env) : option res :=
  match o with
  | Write | Send | Sendto =>
      if e_f v then if (e_own v || e_q v)%bool then call_q return_err_z false v else Some (ret_of return_err_z None None (- AOSL_EINVAL))
      else Some (ret_of return_err_z None None (- AOSL_EINVAL))
  | Close =>
      if e_f v then if (e_own v || e_q v)%bool then call_q return_err false v else Some (ret_of return_err None None (- AOSL_EINVAL))
      else Some (ret_of return_err (Some (e_raw v)) None (e_raw v))
  | DelFd =>
      if e_f v then if (e_own v || e_q v)%bool then call_q return_err false v else Some (ret_of return_err None None (- AOSL_EINVAL))
      else Some (ret_of return_err None None (- AOSL_EBADF))
  | AddFdOnQ => if e_q v then call_q return_err false v else Some (ret_of return_err None None (- AOSL_EINVAL))
  | ConnectOnQ | ListenOnQ | AddDgramOnQ | AddStreamOnQ =>
      if e_q v then call_q return_err true v else Some (ret_of return_err None None (- AOSL_EINVAL))
  end.
