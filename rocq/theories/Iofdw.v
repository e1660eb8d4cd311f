(** * Model of the writing side of a queue's descriptor: kernel/iofd.c 203-273, 716-755, include/kernel/iofd.h 28-82, net/sk_utils.c 629-669 and 718-758.

    A waiting buffer is its bytes, the offset w_data - (node + 1) and the extra arguments (flags and
    address) kept behind the bytes, as one opaque number.  What the socket took is recorded as a
    list of (bytes, extra).  All of this runs on the queue's own thread (aosl_write and the others
    call there), so it is sequential.  Simplified: the socket functions and write_f write to the
    same socket (the default write_f does); the timer of a connection and the user callbacks other
    than the writability notice are left out. *)
From Verif Require Import Base.

Definition FD_MAX_WBUF_SIZE : Z := 131072.
Record node := mkN { n_data : list Z; n_off : nat; n_extra : Z }.
(** w_q with its byte counter (a size_t), IOFD_NOT_READY, AOSL_POLLOUT in the flags, whether the descriptor has been closed; and what the socket has taken, the errors reported and the writability notices. *)
Record wst := mkW { wq : list node; total : Z; notready : bool; armed : bool; closed : bool; sent : list (list Z * Z); errs : list Z; ready_ev : nat }.

(** What aosl_hal_sk_write / send / sendto do: take up to n bytes (all that is offered if that is less) and return their count, or an error. *)
Inductive hal := HN (n : nat) | HErr (e : Z).
(** aosl_hal_set_error of a negative value: err.h 52-75. *)
Definition hal_errno (e : Z) : Z := if e =? -2002 then - (AOSL_EBASE + 4) else if e =? -2001 then - AOSL_EAGAIN else if e =? -2003 then - (AOSL_EBASE + 115) else - (AOSL_EBASE + 1000).

(** w_queue_add: iofd.h 46-57. *)
Definition w_add (s : wst) (b : node) : wst := mkW (wq s ++ [b]) (u64 (total s + Z.of_nat (length (n_data b)))) (notready s) (armed s) (closed s) (sent s) (errs s) (ready_ev s).
(** w_queue_remove_head: iofd.h 59-74; the state is left alone if the queue is empty. *)
Definition w_remove (s : wst) : wst := match wq s with b :: r => mkW r (u64 (total s - Z.of_nat (length (n_data b)))) (notready s) (armed s) (closed s) (sent s) (errs s) (ready_ev s) | [] => s end.
(** w_queue_space: iofd.h 76-82. *)
Definition w_space (s : wst) : Z := if total s <? FD_MAX_WBUF_SIZE then u64 (FD_MAX_WBUF_SIZE - total s) else 0.
Definition set_armed (s : wst) : wst := mkW (wq s) (total s) (notready s) true (closed s) (sent s) (errs s) (ready_ev s).
Definition took (s : wst) (bs : list Z) (x : Z) : wst := mkW (wq s) (total s) (notready s) (armed s) (closed s) (sent s ++ [(bs, x)]) (errs s) (ready_ev s).
(** f_event_and_close: iofd.c 582-596, and the destructor 36-42: the waiting buffers are freed. *)
Definition close_f (s : wst) (e : Z) : wst := mkW [] 0 (notready s) (armed s) true (sent s) (errs s ++ [e]) (ready_ev s).

(** Which call: aosl_write arms AOSL_POLLOUT after its direct write (iofd.c 734), aosl_send and aosl_sendto do not. *)
Inductive call := Write | Send.
(** __queue_it: iofd.c 741-754, sk_utils.c 652-668.  [done]: bytes already written; [mem]: the allocation succeeds. *)
Definition queue_it (s : wst) (buf : list Z) (x : Z) (done : nat) (mem : bool) : wst * Z :=
  if mem then (w_add s (mkN (skipn done buf) 0 x), Z.of_nat (length buf)) else (s, - AOSL_ENOMEM).
(** ____write 716-755, ____send 629-669, ____sendto 718-758.  [h]: the result of the socket's write function if it is called. *)
Definition do_write (s : wst) (c : call) (buf : list Z) (x : Z) (h : hal) (mem : bool) : wst * Z :=
  if FD_MAX_WBUF_SIZE <? Z.of_nat (length buf) then (s, - AOSL_EMSGSIZE)
  else if w_space s <? Z.of_nat (length buf) then (s, - AOSL_EAGAIN)
  else if match wq s with [] => notready s | _ => true end then queue_it s buf x 0 mem
  else
    let s1 := match h with HN n => took s (firstn n buf) x | HErr _ => s end in
    let s1 := match c with Write => set_armed s1 | Send => s1 end in
    match h with
    | HErr e => (s1, hal_errno e)
    | HN n => let n := Nat.min n (length buf) in if (n =? 0)%nat then (s1, 0) else if (n <? length buf)%nat then queue_it s1 buf x n mem else (s1, Z.of_nat (length buf))
    end.

(** __iofd_write_data: 221-246, the loop; [hs]: the results of the successive write_f calls, EAGAIN when they run out.  [fuel]: a buffer is removed in each round.  [e] < 0: the return value. *)
Fixpoint flush (fuel : nat) (s : wst) (hs : list hal) : wst * Z :=
  match fuel with
  | O => (s, 0)
  | S k =>
      match wq s with
      | [] => (mkW (wq s) (total s) (notready s) (armed s) (closed s) (sent s) (errs s) (S (ready_ev s)), 0)
      | b :: r =>
          let '(h, hs) := match hs with h :: t => (h, t) | [] => (HErr (-2001), []) end in
          let s := set_armed s in
          match h with
          | HErr e => let e := hal_errno e in if negb (e =? - AOSL_EAGAIN) then (close_f s e, e) else (s, 0)
          | HN n =>
              let n := Nat.min n (length (n_data b) - n_off b) in
              let s := took s (firstn n (skipn (n_off b) (n_data b))) (n_extra b) in
              let b := mkN (n_data b) (n_off b + n) (n_extra b) in
              let s := mkW (b :: r) (total s) (notready s) (armed s) (closed s) (sent s) (errs s) (ready_ev s) in
              if (n_off b <? length (n_data b))%nat then (s, 0) else flush k (w_remove s) hs
          end
      end
  end.
(** __iofd_write_data: 211-247; [poll]: called from the poll and select back ends, which take AOSL_POLLOUT off first (poll_mp.c 138-141) and only wait for it if it is set (100). *)
Definition write_data (s : wst) (hs : list hal) : wst := fst (flush (S (length (wq s))) (mkW (wq s) (total s) false (armed s) (closed s) (sent s) (errs s) (ready_ev s)) hs).
Definition disarm (s : wst) : wst := mkW (wq s) (total s) (notready s) false (closed s) (sent s) (errs s) (ready_ev s).

(** The descriptor as added to its queue by __mpq_add_fd_argv (340, 348) and os_add_event_fd_poll (poll_mp.c 45-46); [nr]: IOFD_NOT_READY, a connection under way. *)
Definition w_init (nr : bool) : wst := mkW [] 0 nr true false [] [] 0.

(** The events of a descriptor's life; EClose: aosl_close (iofd.c 554-580).  A call on a closed descriptor finds none (aosl_write 774-799); no events come for it. *)
Inductive wev := ECall (c : call) (buf : list Z) (x : Z) (h : hal) (mem : bool) | EPoll (hs : list hal) | EEpoll (hs : list hal) | EClose.
(** One event; the result of a call. *)
Definition wstep (s : wst) (e : wev) : wst * option Z :=
  if closed s then (s, match e with ECall _ _ _ _ _ => Some (- AOSL_EINVAL) | _ => None end)
  else match e with
  | ECall c buf x h mem => let '(s, r) := do_write s c buf x h mem in (s, Some r)
  | EPoll hs => if armed s then (write_data (disarm s) hs, None) else (s, None)
  | EEpoll hs => (write_data s hs, None)
  | EClose => (mkW [] 0 (notready s) (armed s) true (sent s) (errs s) (ready_ev s), None)
  end.
Fixpoint wrun (s : wst) (es : list wev) : wst * list (list Z * Z * Z) :=
  match es with
  | [] => (s, [])
  | e :: r => let '(s, o) := wstep s e in let '(s', log) := wrun s r in
      (s', match e, o with ECall _ buf x _ _, Some z => (buf, x, z) :: log | _, _ => log end)
  end.
