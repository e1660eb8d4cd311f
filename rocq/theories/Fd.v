(** * Model of the life of descriptors: kernel/fileobj.c 20-110 (table, references),
    kernel/iofd.c 85-215, 280-409, 496-735 (delivery, add, delete, close, calls by number),
    kernel/poll_mp.c 158-199, select_mp.c 150-187, et_mp.c 113-167 (dispatch).

    Thread number t is the thread of queue number t (threads that have no queue
    are those that add no descriptor).  Each thread has a stack of frames that
    says what it is in the middle of; user code runs where no library code is
    under way on top.  What the user's functions return, what the system
    reports and which calls user code makes are chosen by the labels.
    Simplified: the buffers and the data are left out (Iofdr.v, Iofdw.v); the
    calls of the callbacks in the reading loop may come in any order; each
    function that runs on the owner's thread (____target_q_close and so on) is
    one step: only that thread uses the object's fields, the table has its lock
    and the counter is atomic.  Blocking inside aosl_mpq_call is waiting for
    the label of the other thread (Mpq.v models it). *)
From Verif Require Import Base.

Definition INVALID : Z := -1.              (* platform/include/hal/aosl_hal_types.h 29-45 *)

(** The user's functions: write_f, event_f, chk_pkt_f, post_f, data_f, read_f. *)
Inductive kind := KWrite | KEvent | KCheck | KPost | KData | KRead.
(** Where a delivery is: in __iofd_write_data, in the loop of __iofd_read_data, at
    the start of f_event_and_close, after its event_f, before iofd_put. *)
Inductive phase := PW | PR | PE | PC | PX.
(** Calls by number: aosl_close, aosl_mpq_del_fd, and those that only use the
    descriptor (aosl_write, aosl_mpq_fd_arg, ...). *)
Inductive op := OClose | ODel | OUse.
Inductive frame :=
| FAdd (o : nat)                            (* between install_fd and os_add_event_fd *)
| FDisp (o : nat) (p : phase)               (* dispatch holds a reference *)
| FCb (o : nat) (k : kind)                  (* user's function called by the frame below *)
| FOp (c : op) (o : nat) (dn : bool).       (* API call holds a reference; dn: carried out *)

(** struct iofd with its file_obj; o_num is the number it was added with (ghost). *)
Record obj := mkO { o_num : Z; o_fd : Z; o_q : nat; o_use : Z; o_linked : bool; o_freed : bool }.
Inductive event :=
| EAdd (o : nat) (q : nat) (n : Z) | EBusy (n : Z) | EFail (n : Z)
| ECb (t o : nat) (k : kind) | EClose (o : nat) | EDel (o : nat) | EFree (o : nat)
| EBad (o : nat).                           (* memory of o used after it was freed *)
Record st := mkS { objs : list obj; tab : Z -> option nat; ths : list (list frame); bts : nat -> list Z; log : list event }.

Definition dead : obj := mkO 0 INVALID 0 0 false true.
Definition ob (s : st) (o : nat) : obj := nth o (objs s) dead.
Definition stk (s : st) (t : nat) : list frame := nth t (ths s) [].
Definition note (e : event) (s : st) : st := mkS (objs s) (tab s) (ths s) (bts s) (e :: log s).
Definition seto (o : nat) (x : obj) (s : st) : st := mkS (upd (objs s) o x) (tab s) (ths s) (bts s) (log s).
Definition sett (t : nat) (l : list frame) (s : st) : st := mkS (objs s) (tab s) (upd (ths s) t l) (bts s) (log s).
Definition setb (t : nat) (b : list Z) (s : st) : st := mkS (objs s) (tab s) (ths s) (fun x => if (x =? t)%nat then b else bts s x) (log s).
Definition tabset (n : Z) (v : option nat) (s : st) : st := mkS (objs s) (fun x => if x =? n then v else tab s x) (ths s) (bts s) (log s).
Definition touch (o : nat) (s : st) : st := if o_freed (ob s o) then note (EBad o) s else s.

(** __fget, fileobj.h 38-41. *)
Definition getref (o : nat) (s : st) : st :=
  let s := touch o s in let x := ob s o in seto o (mkO (o_num x) (o_fd x) (o_q x) (o_use x + 1) (o_linked x) (o_freed x)) s.
(** fput, fileobj.c 103-111. *)
Definition putref (o : nat) (s : st) : st :=
  let s := touch o s in let x := ob s o in
  if o_use x =? 1 then note (EFree o) (seto o (mkO (o_num x) (o_fd x) (o_q x) 0 (o_linked x) true) s)
  else seto o (mkO (o_num x) (o_fd x) (o_q x) (o_use x - 1) (o_linked x) (o_freed x)) s.
(** remove_fd, fileobj.c 68-82: takes out whatever has the number; true if it was f. *)
Definition remove_fd (o : nat) (s : st) : st * bool :=
  let n := o_fd (ob s o) in
  (tabset n None s, match tab s n with Some o' => (o' =? o)%nat | None => false end).
(** __q_del_f, iofd.c 496-528, on the thread of queue t. *)
Definition q_del_f (t o : nat) (s : st) : st * bool :=
  let s := touch o s in
  if negb (o_q (ob s o) =? t)%nat then (s, false) else
  let (s, ok) := remove_fd o s in
  if ok then
    let x := ob s o in
    (putref o (seto o (mkO (o_num x) (o_fd x) (o_q x) (o_use x) false (o_freed x)) s), true)
  else (s, false).
(** __this_q_close_f, iofd.c 556-583. *)
Definition close_f (t o : nat) (s : st) : st :=
  let s := getref o s in
  let (s, ok) := q_del_f t o s in
  if ok then
    let x := ob s o in
    putref o (note (EClose o) (seto o (mkO (o_num x) INVALID (o_q x) (o_use x) (o_linked x) (o_freed x)) s))
  else putref o s.
(** ____target_q_close 620-630, ____target_q_del_fd 671-680, ____target_q_write 755-767. *)
Definition exec (c : op) (t o : nat) (s : st) : st :=
  match c with
  | OClose => close_f t o s
  | ODel => let (s, ok) := q_del_f t o s in if ok then note (EDel o) s else s
  | OUse => touch o s
  end.

(** User code (or a function queued by a user) is running on thread t, or could be:
    the queue's loop is between rounds, or a user's function is on top. *)
Definition user (s : st) (t : nat) : bool :=
  match stk s t with
  | [] => match bts s t with [] => true | _ => false end
  | FCb _ _ :: _ => true
  | _ => false
  end.
(** The system reports number n to queue t only if a descriptor of t has it. *)
Definition watched (s : st) (t : nat) (n : Z) : bool :=
  existsb (fun x => o_linked x && (o_q x =? t)%nat && (o_fd x =? n)) (objs s).
(** Which function a delivery may call in each phase; the check that the number
    is still valid comes before event_f in f_event_and_close (587). *)
Definition may (p : phase) (k : kind) (valid : bool) : bool :=
  match p, k with
  | PW, KWrite | PW, KEvent | PR, KCheck | PR, KPost | PR, KData | PR, KRead => true
  | PE, KEvent => valid
  | _, _ => false
  end.
(** Where the delivery is when the function has returned: chk_pkt_f, post_f and
    data_f are followed by a test of the number (100, 130, 144), the others not. *)
Definition after (p : phase) (k : kind) (valid : bool) : phase :=
  match k, p with
  | KCheck, _ | KPost, _ | KData, _ => if valid then p else PX
  | KEvent, PW => PR
  | KEvent, PE => PC
  | _, _ => p
  end.
(** Moves of a delivery without a call. *)
Definition moves (p p' : phase) (valid : bool) : bool :=
  match p, p' with
  | PW, PR | PW, PE | PW, PX | PR, PE | PR, PX => true
  | PE, PC => valid
  | PE, PX => negb valid
  | _, _ => false
  end.
Definition valid (s : st) (o : nat) : bool := negb (o_fd (ob s o) =? INVALID).

Inductive label :=
| LAdd (t : nat) (n : Z) | LAddOk (t : nat) | LAddFail (t : nat)
| LCall (t : nat) (c : op) (n : Z) | LExec (t w : nat) | LSkip (t : nat) | LRetOp (t : nat)
| LPoll (t : nat) (b : list Z) | LDisp (t : nat) (p : phase) | LTmo (t o : nat)
| LCb (t : nat) (k : kind) | LRet (t : nat) | LMove (t : nat) (p : phase) | LClose (t : nat) | LPut (t : nat).
Definition who (l : label) : nat :=
  match l with
  | LAdd t _ | LAddOk t | LAddFail t | LCall t _ _ | LExec t _ | LSkip t | LRetOp t | LPoll t _ | LDisp t _ | LTmo t _
  | LCb t _ | LRet t | LMove t _ | LClose t | LPut t => t
  end.

Definition step (s : st) (l : label) : option st :=
  if negb (who l <? length (ths s))%nat then None else
  match l with
  | LAdd t n =>                              (* __mpq_add_fd_argv 297-394; install_fd, fileobj.c 45-66 *)
      if user s t && (0 <=? n) then
        match tab s n with
        | Some _ => Some (note (EBusy n) s)
        | None =>
            let o := length (objs s) in
            Some (sett t (FAdd o :: stk s t) (tabset n (Some o) (mkS (objs s ++ [mkO n n t 1 false false]) (tab s) (ths s) (bts s) (log s))))
        end
      else None
  | LAddOk t =>                              (* __q_add_fd 62-72, 403-406 *)
      match stk s t with
      | FAdd o :: r =>
          let s1 := touch o s in let x := ob s1 o in
          Some (note (EAdd o t (o_num x)) (sett t r (seto o (mkO (o_num x) (o_fd x) (o_q x) (o_use x) true (o_freed x)) s1)))
      | _ => None
      end
  | LAddFail t =>                            (* 396-401: remove_fd and aosl_free *)
      match stk s t with
      | FAdd o :: r =>
          let (s1, _) := remove_fd o (touch o s) in let x := ob s1 o in
          Some (note (EFail (o_num x)) (sett t r (seto o (mkO (o_num x) (o_fd x) (o_q x) (o_use x) (o_linked x) true) s1)))
      | _ => None
      end
  | LCall t c n =>                           (* fget, fileobj.c 84-101; 632-640, 682-690, 769-779 *)
      if user s t then
        match tab s n with
        | Some o => Some (sett t (FOp c o false :: stk s t) (getref o s))
        | None => Some s
        end
      else None
  | LExec t w =>                             (* __mpq_call_argv: direct on the own thread, otherwise there *)
      match stk s t with
      | FOp c o false :: r =>
          let s1 := touch o s in
          if (o_q (ob s1 o) =? w)%nat && ((w =? t)%nat || (w <? length (ths s))%nat && user s w)
          then Some (sett t (FOp c o true :: r) (exec c w o s1)) else None
      | _ => None
      end
  | LSkip t =>                               (* the queue is gone, or aosl_mpq_fd_arg *)
      match stk s t with
      | FOp c o false :: r => Some (sett t (FOp c o true :: r) (touch o s))
      | _ => None
      end
  | LRetOp t =>                              (* 662-664, 706-708, 790 *)
      match stk s t with
      | FOp c o true :: r => Some (sett t r (putref o s))
      | _ => None
      end
  | LPoll t b =>                             (* os_mp_wait *)
      match stk s t, bts s t with
      | [], [] => if forallb (watched s t) b then Some (setb t b s) else None
      | _, _ => None
      end
  | LDisp t p =>                             (* poll_mp.c 161-196, et_mp.c 119-165 *)
      match stk s t, bts s t with
      | [], n :: b =>
          match tab s n with
          | None => Some (setb t b s)
          | Some o => match p with PW | PR | PE => Some (sett t [FDisp o p] (getref o (setb t b s))) | _ => None end
          end
      | _, _ => None
      end
  | LTmo t o =>                              (* __iofd_not_ready_timeout 273-291; its timer is killed in __q_del_f 503-510 *)
      match stk s t, bts s t with
      | [], [] =>
          if (o <? length (objs s))%nat && o_linked (ob s o) && (o_q (ob s o) =? t)%nat then Some (sett t [FDisp o PE] (getref o s)) else None
      | _, _ => None
      end
  | LCb t k =>
      match stk s t with
      | FDisp o p :: r => let s1 := touch o s in if may p k (valid s1 o) then Some (note (ECb t o k) (sett t (FCb o k :: FDisp o p :: r) s1)) else None
      | _ => None
      end
  | LRet t =>
      match stk s t with
      | FCb _ k :: FDisp o p :: r => let s1 := touch o s in Some (sett t (FDisp o (after p k (valid s1 o)) :: r) s1)
      | _ => None
      end
  | LMove t p' =>
      match stk s t with
      | FDisp o p :: r => let s1 := touch o s in if moves p p' (valid s1 o) then Some (sett t (FDisp o p' :: r) s1) else None
      | _ => None
      end
  | LClose t =>                              (* f_event_and_close 596-597 *)
      match stk s t with
      | FDisp o PC :: r => let s1 := touch o s in Some (sett t (FDisp o PX :: r) (if valid s1 o then close_f t o s1 else s1))
      | _ => None
      end
  | LPut t =>                                (* poll_mp.c 196, et_mp.c 165 *)
      match stk s t with
      | FDisp o PX :: r => Some (sett t r (putref o s))
      | _ => None
      end
  end.

Definition init (nt : nat) : st := mkS [] (fun _ => None) (repeat [] nt) (fun _ => []) [].
Fixpoint run (s : st) (ls : list label) : option st :=
  match ls with [] => Some s | l :: ls' => match step s l with Some s' => run s' ls' | None => None end end.
Definition reach (nt : nat) (ls : list label) (s : st) : Prop := run (init nt) ls = Some s.

(** mpq_fini_iofds, iofd.c 601-613: one round of its loop, closing the first
    descriptor of the queue's list; true if it goes round again. *)
Definition first_of (s : st) (q : nat) : option nat :=
  find (fun o => o_linked (ob s o) && (o_q (ob s o) =? q)%nat) (seq 0 (length (objs s))).
Definition fini_round (q : nat) (s : st) : st * bool :=
  match first_of s q with Some o => (close_f q o s, true) | None => (s, false) end.
Fixpoint fini (fuel : nat) (q : nat) (s : st) : option st :=
  match fuel with O => None | S f => let (s', more) := fini_round q s in if more then fini f q s' else Some s' end.
