(** * Model of the condition variable of the ac791n port:
    platform/src/ac791n/aosl_hal_thread.c 190-292 (called by kernel/thread.c 175-199).

    Any number of threads; one transition is one access to a shared object: the
    user's mutex, the inner lock, the number of waiters, or the one semaphore all
    the waiters share.

    Simplifications: the counter of waiters is a natural number (an int in the
    code; it is never above the number of threads); os_sem_pend, os_sem_post and
    os_sem_accept are the take, the give and the try of a counting semaphore,
    which do not fail otherwise; the pend with a number of ticks may run out at
    any moment (its length is [ticks]); semaphores are granted in any order. *)
From Verif Require Import Base.

(** The ticks of 10 ms passed to os_sem_pend for a timeout in ms; 0 ticks is for
    ever: aosl_hal_cond_timedwait 268-272 and aosl_hal_sem_timedwait 184-191
    (there the quotient of a negative timeout is passed on: see [sem_ticks]). *)
Definition ticks (timeo : Z) : Z :=
  if 0 <? timeo then let q := Z.quot timeo 10 in if q =? 0 then 1 else q else 0.
(** aosl_hal_sem_timedwait 187-190. *)
Definition sem_ticks (timeo : Z) : Z :=
  let q := Z.quot timeo 10 in if (q =? 0) && (0 <? timeo) then 1 else q.
(** The timeout given by k_event_timedwait, kernel/thread.c 359-368, to the wait:
    a negative one is the wait without a timeout, aosl_hal_cond_wait 249-252. *)
Definition event_timeo (timeo : Z) : Z := if timeo <? 0 then 0 else timeo.

Inductive place :=
| Idle
| WLk (tm : bool) | WInc (tm : bool) | WUnl (tm : bool) | WRel (tm : bool) (* 260, 261, 262, 266 *)
| WPend (tm : bool)                                                    (* 274 *)
| WLk2 (ok : bool) | WDec (ok : bool) | WAcc | WUnl2 (ok : bool)            (* 277, 278, 282, 286 *)
| WMu (ok : bool)                                                      (* 289 *)
| SLk | SChk | SUnl                                                    (* 227, 228-229, 231 *)
| BLk | BRead | BPost (n : nat) (all : nat) | BUnl.                            (* 240, 241, 242-243, 245 *)

Inductive event :=
| EReg (t : nat) (tm : bool)       (* t is counted as a waiter; tm: with a timeout *)
| EPost (b : nat)                  (* a token was put into the semaphore *)
| ETake (t : nat)                  (* t took a token *)
| ETmo (t : nat)                   (* t's pend ran out *)
| EDec (t : nat)                   (* t is not counted any more *)
| EMiss (t : nat)                  (* t found no token after its time ran out *)
| ERet (t : nat) (ok : bool)        (* t's wait returned: 0 (true) or the timeout (false) *)
| ESig (b : nat)                   (* a signal by b looks at the number of waiters *)
| EBc (b : nat)                    (* a broadcast by b looks at it *)
| EBEnd (b : nat) (n : nat).         (* it has posted n tokens *)

Record state := mkSt {
  s_mu : option nat;               (* the user's mutex *)
  s_lk : option nat;               (* impl->lock *)
  s_sem : nat;                     (* impl->sem *)
  s_w : nat;                       (* impl->waiters *)
  s_pc : nat -> place;
  s_tr : list event }.             (* latest first *)
(** aosl_hal_cond_create 200-210. *)
Definition init_state : state := mkSt None None 0 0 (fun _ => Idle) [].
Definition fupd {A} (f : nat -> A) (k : nat) (v : A) : nat -> A := fun x => if (x =? k)%nat then v else f x.
Definition go (t : nat) (p : place) (mu lk : option nat) (sem w : nat) (e : list event) (s : state) : state :=
  mkSt mu lk sem w (fupd (s_pc s) t p) (e ++ s_tr s).
(** Whether the pend can run out: 268-274. *)
Definition timed (timeo : Z) : bool := negb (ticks timeo =? 0).

Inductive step (s : state) : state -> Prop :=
| T_lock t : s_pc s t = Idle -> s_mu s = None -> step s (go t Idle (Some t) (s_lk s) (s_sem s) (s_w s) [] s)
| T_unlock t : s_pc s t = Idle -> s_mu s = Some t -> step s (go t Idle None (s_lk s) (s_sem s) (s_w s) [] s)
(* aosl_hal_cond_timedwait 254-292 *)
| T_wait t timeo : s_pc s t = Idle -> s_mu s = Some t -> step s (go t (WLk (timed timeo)) (s_mu s) (s_lk s) (s_sem s) (s_w s) [] s)
| T_wlk t tm : s_pc s t = WLk tm -> s_lk s = None -> step s (go t (WInc tm) (s_mu s) (Some t) (s_sem s) (s_w s) [] s)
| T_winc t tm : s_pc s t = WInc tm -> step s (go t (WUnl tm) (s_mu s) (s_lk s) (s_sem s) (S (s_w s)) [EReg t tm] s)
| T_wunl t tm : s_pc s t = WUnl tm -> step s (go t (WRel tm) (s_mu s) None (s_sem s) (s_w s) [] s)
| T_wrel t tm : s_pc s t = WRel tm -> step s (go t (WPend tm) None (s_lk s) (s_sem s) (s_w s) [] s)
| T_take t tm n : s_pc s t = WPend tm -> s_sem s = S n -> step s (go t (WLk2 true) (s_mu s) (s_lk s) n (s_w s) [ETake t] s)
| T_tmo t : s_pc s t = WPend true -> step s (go t (WLk2 false) (s_mu s) (s_lk s) (s_sem s) (s_w s) [ETmo t] s)
| T_wlk2 t ok : s_pc s t = WLk2 ok -> s_lk s = None -> step s (go t (WDec ok) (s_mu s) (Some t) (s_sem s) (s_w s) [] s)
| T_wdec t ok : s_pc s t = WDec ok -> step s (go t (if ok then WUnl2 true else WAcc) (s_mu s) (s_lk s) (s_sem s) (pred (s_w s)) [EDec t] s)
| T_acc t : s_pc s t = WAcc ->
    step s (match s_sem s with
            | O => go t (WUnl2 false) (s_mu s) (s_lk s) O (s_w s) [EMiss t] s
            | S n => go t (WUnl2 true) (s_mu s) (s_lk s) n (s_w s) [ETake t] s
            end)
| T_wunl2 t ok : s_pc s t = WUnl2 ok -> step s (go t (WMu ok) (s_mu s) None (s_sem s) (s_w s) [] s)
| T_wmu t ok : s_pc s t = WMu ok -> s_mu s = None -> step s (go t Idle (Some t) (s_lk s) (s_sem s) (s_w s) [ERet t ok] s)
(* aosl_hal_cond_signal 222-233 *)
| T_sig t : s_pc s t = Idle -> step s (go t SLk (s_mu s) (s_lk s) (s_sem s) (s_w s) [] s)
| T_slk t : s_pc s t = SLk -> s_lk s = None -> step s (go t SChk (s_mu s) (Some t) (s_sem s) (s_w s) [] s)
| T_schk t : s_pc s t = SChk ->
    step s (if (0 <? s_w s)%nat then go t SUnl (s_mu s) (s_lk s) (S (s_sem s)) (s_w s) [EPost t; ESig t] s
            else go t SUnl (s_mu s) (s_lk s) (s_sem s) (s_w s) [ESig t] s)
| T_sunl t : s_pc s t = SUnl -> step s (go t Idle (s_mu s) None (s_sem s) (s_w s) [] s)
(* aosl_hal_cond_broadcast 235-247 *)
| T_bc t : s_pc s t = Idle -> step s (go t BLk (s_mu s) (s_lk s) (s_sem s) (s_w s) [] s)
| T_blk t : s_pc s t = BLk -> s_lk s = None -> step s (go t BRead (s_mu s) (Some t) (s_sem s) (s_w s) [] s)
| T_bread t : s_pc s t = BRead -> step s (go t (BPost (s_w s) (s_w s)) (s_mu s) (s_lk s) (s_sem s) (s_w s) [EBc t] s)
| T_bpost t n a : s_pc s t = BPost (S n) a -> step s (go t (BPost n a) (s_mu s) (s_lk s) (S (s_sem s)) (s_w s) [EPost t] s)
| T_bend t a : s_pc s t = BPost 0 a -> step s (go t BUnl (s_mu s) (s_lk s) (s_sem s) (s_w s) [EBEnd t a] s)
| T_bunl t : s_pc s t = BUnl -> step s (go t Idle (s_mu s) None (s_sem s) (s_w s) [] s).

Inductive reachable : state -> Prop :=
| R_init : reachable init_state
| R_step s s' : reachable s -> step s s' -> reachable s'.
