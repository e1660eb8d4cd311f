(** * Model of the reading side of a queue's descriptor: kernel/iofd.c 74-201, include/kernel/iofd.h 156-188, net/sk_utils.c 112-182.

    The buffer is a list of bytes with the offsets of r_data and r_tail from r_head; the extra bytes
    behind it (the sender's address) are one opaque number.  The socket's stream is the list of
    bytes not yet read; a script says what the successive reads give.  All of this runs on the
    queue's own thread.  The callbacks may keep state and may close the descriptor: their results
    are functions of how many callbacks came before.  Simplified: callbacks do not write to the
    buffer, and post_f is NULL, as every caller of __mpq_add_fd_argv in the tree passes it. *)
From Verif Require Import Base.

(** max_pkt_size (rounded up to a pointer, iofd.c 324), the callback chk_pkt_f, and whether the k-th callback closes the descriptor. *)
Record env := mkE { e_max : nat; e_chk : option (nat -> list Z -> Z); e_close : nat -> bool }.
(** 76, 326: buff_size. *)
Definition bufsize (E : env) : nat := match e_chk E with Some _ => 2 * e_max E | None => e_max E end.
(** The descriptor: buffer and offsets, extra bytes, IOFD_READ_RETURN_0, AOSL_POLLIN, whether it has been closed; callbacks so far, data callbacks made (the bytes passed and the extra), errors reported, bytes the socket still holds, reads made (bytes asked for). *)
Record rst := mkR { mem : list Z; rd : nat; tl : nat; extra : Z; rr0 : bool; armed : bool; rclosed : bool; cbs : nat; out : list (list Z * Z); evs : list Z; src : list Z; asked : list nat }.

(** The bytes between r_data and r_tail. *)
Definition data (s : rst) : list Z := firstn (tl s - rd s) (skipn (rd s) (mem s)).
(** A callback was called; it may have closed the descriptor. *)
Definition cb (E : env) (s : rst) : rst := mkR (mem s) (rd s) (tl s) (extra s) (rr0 s) (armed s) (rclosed s || e_close E (cbs s)) (S (cbs s)) (out s) (evs s) (src s) (asked s).
(** f_event_and_close: 582-596. *)
Definition event_close (E : env) (s : rst) (e : Z) : rst := let s := cb E s in mkR (mem s) (rd s) (tl s) (extra s) (rr0 s) (armed s) true (cbs s) (out s) (evs s ++ [s32 e]) (src s) (asked s).
Definition add_out (s : rst) (p : list Z) : rst := mkR (mem s) (rd s) (tl s) (extra s) (rr0 s) (armed s) (rclosed s) (cbs s) (out s ++ [(p, extra s)]) (evs s) (src s) (asked s).
Definition advance (s : rst) (n : nat) : rst := mkR (mem s) (rd s + n) (tl s) (extra s) (rr0 s) (armed s) (rclosed s) (cbs s) (out s) (evs s) (src s) (asked s).
Definition set_rr0 (s : rst) (b : bool) : rst := mkR (mem s) (rd s) (tl s) (extra s) b (armed s) (rclosed s) (cbs s) (out s) (evs s) (src s) (asked s).

(** How a round of the inner loop ends: around again (164 not taken), on to the read (161, 170), or return. *)
Inductive how := Again | GoRead | Ret (z : Z).
(** 115-170: [err] bytes at r_data are a packet. *)
Definition deliver (E : env) (s : rst) (err : Z) : rst * how :=
  let last := fun s : rst =>
    if rr0 s then match e_chk E with Some _ => (s, Ret 0) | None => (set_rr0 s false, GoRead) end
    else if err =? 0 then (s, GoRead) else (s, Again) in
  if (0 <? err) || rr0 s then
    let s := cb E (add_out s (firstn (Z.to_nat err) (data s))) in
    if rclosed s then (s, Ret 0) else last (advance s (Z.to_nat err))
  else last s.
(** 82-171: one round of the inner loop. *)
Definition one (E : env) (s : rst) : rst * how :=
  let len := Z.of_nat (tl s - rd s) in
  match e_chk E with
  | Some f =>
      if 0 <? len then
        let err := f (cbs s) (data s) in
        let s := cb E s in
        if rclosed s then (s, Ret 0)
        else if (err <? 0) || (len <? err) then (event_close E s (if err <? 0 then err else - AOSL_EINVAL), Ret (if 0 <? err then - AOSL_EINVAL else s32 err))
        else deliver E s err
      else deliver E s len
  | None => deliver E s len
  end.
(** The inner loop; each further round has fewer bytes left. *)
Fixpoint inner (fuel : nat) (E : env) (s : rst) : rst * option Z :=
  match fuel with
  | O => (s, Some 0)
  | S k => match one E s with (s, Again) => inner k E s | (s, GoRead) => (s, None) | (s, Ret z) => (s, Some z) end
  end.
(** __iofd_better_move_buffer: iofd.h 165-188. *)
Definition better_move (E : env) (s : rst) : bool :=
  match e_chk E with
  | None => true
  | Some _ =>
      (2 * e_max E - tl s <? 1024)%nat || ((e_max E <? rd s) && (tl s - rd s <? 1024))%nat || ((tl s - rd s <=? 96) && (e_max E / 2 <=? rd s))%nat
  end.
(** 174-181. *)
Definition move (E : env) (s : rst) : rst :=
  if better_move E s then mkR (data s ++ skipn (tl s - rd s) (mem s)) 0 (tl s - rd s) (extra s) (rr0 s) (armed s) (rclosed s) (cbs s) (out s) (evs s) (src s) (asked s) else s.
(** What a read gives: up to n bytes of the stream, a message with its sender (cut to the space), the end of the stream, an error (negative). *)
Inductive rres := RTake (n : nat) | RMsg (bs : list Z) (x : Z) | REof | RErr (e : Z).
(** The bytes of [bs] stored at r_tail, 192-196. *)
Definition store (s : rst) (bs : list Z) (x : Z) (src' : list Z) (ask : nat) : rst :=
  mkR (firstn (tl s) (mem s) ++ bs ++ skipn (tl s + length bs) (mem s)) (rd s) (tl s + length bs) x (if (length bs =? 0)%nat then true else rr0 s) true (rclosed s) (cbs s) (out s) (evs s) src' (asked s ++ [ask]).
Definition nothing (s : rst) (ask : nat) : rst := mkR (mem s) (rd s) (tl s) (extra s) (rr0 s) true (rclosed s) (cbs s) (out s) (evs s) (src s) (asked s ++ [ask]).
(** __iofd_read_data: 79-200, the outer loop; when the script is used up the reads say EAGAIN.  A read of 0 bytes from a stream gives 0. *)
Fixpoint read_data (E : env) (s : rst) (script : list rres) : rst * Z :=
  match inner (S (S (tl s - rd s))) E s with
  | (s, Some z) => (s, z)
  | (s, None) =>
      let s := move E s in
      let space := (bufsize E - tl s)%nat in
      match script with
      | [] => (nothing s space, 0)
      | RErr e :: _ => if e =? - AOSL_EAGAIN then (nothing s space, 0) else (event_close E (nothing s space) e, s32 e)
      | REof :: r => read_data E (store s [] (extra s) (src s) space) r
      | RMsg bs x :: r => read_data E (store s (firstn space bs) x (src s) space) r
      | RTake n :: r =>
          if (space =? 0)%nat then read_data E (store s [] (extra s) (src s) space) r
          else match firstn (Nat.min n space) (src s) with
               | [] => (nothing s space, 0)
               | bs => read_data E (store s bs (extra s) (skipn (length bs) (src s)) space) r
               end
      end
  end.

(** A descriptor as added by __mpq_add_fd_argv (342-346) to a queue; [m]: what the fresh memory holds, [w]: the bytes the stream will bring. *)
Definition r_init (m w : list Z) : rst := mkR m 0 0 0 false true false 0 [] [] w [].
(** A readability event from the poll back ends (which take AOSL_POLLIN off, poll_mp.c 129-136, and ask for it only if set, 97-98) or from epoll; nothing happens to a closed descriptor. *)
Inductive rev := EPoll (sc : list rres) | EEpoll (sc : list rres).
Definition script_of (e : rev) : list rres := match e with EPoll sc | EEpoll sc => sc end.
Definition disarm (s : rst) : rst := mkR (mem s) (rd s) (tl s) (extra s) (rr0 s) false (rclosed s) (cbs s) (out s) (evs s) (src s) (asked s).
Definition rstep (E : env) (s : rst) (e : rev) : rst :=
  if rclosed s then s
  else match e with
  | EPoll sc => if armed s then fst (read_data E (disarm s) sc) else s
  | EEpoll sc => fst (read_data E s sc)
  end.
Definition rrun (E : env) (s : rst) (es : list rev) : rst := fold_left (rstep E) es s.

(** The parameters __mpq_add_fd_argv accepts with a checker: 307, 324 (FD_MAX_PACKET_SIZE_MIN is 1024, the size is rounded up). *)
Definition env_ok (E : env) : Prop := match e_chk E with Some _ => (1024 <= e_max E)%nat | None => True end.
(** __default_accept as read function (sk_utils.c 112-127): one connection per call, sizeof (aosl_accept_data_t) bytes; a failing accept, would-block included, is EHAL. *)
Definition accept_reads (conns : list (list Z)) : list rres := map (fun c => RMsg c 0) conns ++ [RErr (- (AOSL_EBASE + 1000))].
