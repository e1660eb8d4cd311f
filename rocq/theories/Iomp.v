(** * Model of the multiplexing loops: kernel/poll_mp.c 55-150, kernel/select_mp.c
    64-148, kernel/et_mp.c 113-170 (dispatch of one event) and their caller,
    kernel/osmp.c 102-115 and kernel/mpq.c 789-796.

    A queue has a list of descriptors with the flags AOSL_POLLIN/AOSL_POLLOUT that say
    what to wait for.  What the system's poll() or select() reports is an input.
    Simplified: the timeout arithmetic and the retry after EINTR (77-85, 108) are
    left out, since they do not change the result; the array [events] of 64
    entries is a list, accesses outside it are [UB]. *)
From Verif Require Import Base.

(** struct iofd: the number and the two flags. *)
Record desc := mkD { d_fd : Z; d_in : bool; d_out : bool }.
(** revents: POLLIN, POLLOUT, anything else (POLLERR, POLLHUP, POLLNVAL). *)
Record rv := mkRv { r_in : bool; r_out : bool; r_other : bool }.
(** aosl_poll_event_t: fd, events. *)
Record pev := mkEv { p_fd : Z; p_in : bool; p_out : bool }.

Definition MAXEV : nat := 64.              (* osmp.c 105 *)
Definition POLL_MAX_FDS : nat := 1024.      (* poll_mp.c 53 *)
Definition AOSL_ENFILE : Z := AOSL_EBASE + 23.

(** 96-105: what the queue asks poll() for; the pipe comes first (89-93). *)
Definition asked (piper : Z) (fs : list desc) : list (Z * (bool * bool)) :=
  (piper, (true, false)) :: map (fun f => (d_fd f, (d_in f, d_out f))) fs.

(** 130-147: the loop over the descriptors; [pf] is the array pollfd from the
    current position on, [ev] the array events, [i] the number of entries used. *)
Fixpoint scan (fs : list desc) (pf : list (Z * rv)) (ev : list pev) (i err : nat) : outcome (list desc * list pev * nat) :=
  match fs with
  | [] => Ok ([], ev, i)
  | f :: fs' =>
      match pf with
      | [] => UB
      | (fd, r) :: pf' =>
          if negb (fd =? d_fd f) then Aborted else
          match nth_error ev i with
          | None => UB
          | Some e =>
              let f1 := mkD (d_fd f) (d_in f && negb (r_in r)) (d_out f && negb (r_out r)) in
              let bi := p_in e || r_in r in
              let bo := p_out e || r_out r in
              let used := bi || bo in
              let ev1 := upd ev i (mkEv (if used then d_fd f else p_fd e) bi bo) in
              let i1 := if used then S i else i in
              if (err <=? i1)%nat || (MAXEV <=? i1)%nat then Ok (f1 :: fs', ev1, i1)
              else let* (fs2, ev2, i2) := scan fs' pf' ev1 i1 err in Ok (f1 :: fs2, ev2, i2)
          end
      end
  end.
(** 113-118. *)
Definition cleared : list pev := repeat (mkEv (-1) false false) MAXEV.
(** 120-128: the pipe's entry. *)
Definition pipe_ev (piper : Z) (r : rv) (ev : list pev) : list pev * nat :=
  if r_in r then (upd ev 0 (mkEv piper true false), 1%nat) else (ev, 0%nat).

(** os_mp_wait_poll: [rs] and [err] are what aosl_hal_poll gives.  The result is
    the descriptors afterwards, the first entries of the array and the value
    returned. *)
Definition wait_poll (piper : Z) (fs : list desc) (rs : list rv) (err : Z) : outcome (list desc * list pev * Z) :=
  if (POLL_MAX_FDS <? length fs)%nat then Ok (fs, [], - AOSL_ENFILE) else
  if err <=? 0 then Ok (fs, [], err) else
  match combine (map fst (asked piper fs)) rs with
  | [] => UB
  | (fd0, r0) :: pf =>
      if negb (fd0 =? piper) then Aborted else
      let (ev, i) := pipe_ev piper r0 cleared in
      let* (fs1, ev1, n) := scan fs pf ev i (Z.to_nat err) in
      Ok (fs1, firstn n ev1, Z.of_nat n)
  end.

(** select_mp.c 120-139: the same loop with sets of descriptor numbers. *)
Fixpoint scan_sel (fs : list desc) (rd wr : Z -> bool) (ev : list pev) (i err : nat) : outcome (list desc * list pev * nat) :=
  match fs with
  | [] => Ok ([], ev, i)
  | f :: fs' =>
      match nth_error ev i with
      | None => UB
      | Some e =>
          let f1 := mkD (d_fd f) (d_in f && negb (rd (d_fd f))) (d_out f && negb (wr (d_fd f))) in
          let bi := p_in e || rd (d_fd f) in
          let bo := p_out e || wr (d_fd f) in
          let used := bi || bo in
          let ev1 := upd ev i (mkEv (if used then d_fd f else p_fd e) bi bo) in
          let i1 := if used then S i else i in
          if (err <=? i1)%nat || (MAXEV <=? i1)%nat then Ok (f1 :: fs', ev1, i1)
          else let* (fs2, ev2, i2) := scan_sel fs' rd wr ev1 i1 err in Ok (f1 :: fs2, ev2, i2)
      end
  end.
(** os_mp_wait_select 64-148: [rd] and [wr] are the sets as aosl_hal_select leaves
    them, [err] its result. *)
Definition wait_select (piper : Z) (fs : list desc) (rd wr : Z -> bool) (err : Z) : outcome (list desc * list pev * Z) :=
  if err <=? 0 then Ok (fs, [], err) else
  let (ev, i) := pipe_ev piper (mkRv (rd piper) false false) cleared in
  let* (fs1, ev1, n) := scan_sel fs rd wr ev i (Z.to_nat err) in
  Ok (fs1, firstn n ev1, Z.of_nat n).

(** mpq.c 790-796: the loop aborts on a negative result. *)
Definition round (r : outcome (list desc * list pev * Z)) : outcome (list desc * list pev) :=
  let* (fs, ev, n) := r in if n <? 0 then Aborted else Ok (fs, ev).

(** *** Dispatch of one event: what is called for the descriptor. *)
Inductive action := AWrite | ARead | AError | AHup.
(** os_mp_dispatch_poll 184-192 and select 173-181; [w] and [r]: did
    __iofd_write_data / __iofd_read_data succeed (>= 0)? *)
Definition disp_poll (e : pev) (w r : bool) : list action :=
  (if p_out e then [AWrite] else []) ++ (if p_out e && negb w then [] else if p_in e then [ARead] else []).
(** os_mp_dispatch_epoll 141-163; [er] and [hup]: POLLERR, POLLHUP. *)
Definition disp_epoll (e : pev) (er hup w r : bool) : list action :=
  if er then [AError] else
  (if p_out e then [AWrite] else []) ++
  (if p_out e && negb w then [] else
   (if p_in e then [ARead] else []) ++
   (if p_in e && negb r then [] else if hup then [AHup] else [])).
