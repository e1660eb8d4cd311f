(** * Model of the semaphore based condition variable: lib/cond.c 23-100.

    Any number of threads; one transition is one access to a shared object: the
    user's mutex, the lock of the condition variable, its wait list, or a
    semaphore.

    Simplifications: creation of a waiter's semaphore (63) belongs to the step
    that appends it to the list and does not fail (65 aborts otherwise); a
    thread waits on one condition variable at a time, so a waiter is named by its
    thread; mutexes are granted in any order. *)
From Verif Require Import Base.

Inductive place :=
| Idle
| WLk (tm : bool) | WRel (tm : bool) | WAdd (tm : bool) | WUnl (tm : bool)   (* 59, 61, 62-63, 64 *)
| WSem (tm : bool) | WMu | WLk2 | WDel | WUnl2                            (* 71, 78, 79, 80, 81 *)
| SLk | SPost | SUnl                                              (* 36, 37-40, 41 *)
| BLk | BPost (todo : list nat) | BUnl.                               (* 48, 49-50, 51 *)

Inductive event :=
| EWait (t : nat) (tm : bool)      (* t is inside wait and has released the mutex; tm: with a timeout *)
| EPost (t : nat)                  (* t's semaphore was posted *)
| ETmo (t : nat)                   (* t's wait timed out *)
| ERet (t : nat)                   (* t leaves the wait list *)
| ESig (b : nat) (o : option nat)  (* a signal by b chose waiter o *)
| EBEnd (b : nat).                 (* the broadcast has posted everybody *)

Record state := mkSt {
  s_mu : option nat;               (* the user's mutex *)
  s_lk : option nat;               (* cond->lock *)
  s_list : list nat;               (* cond->wait_list *)
  s_sem : nat -> nat;              (* waiter->event of the thread's current wait *)
  s_pc : nat -> place;
  s_tr : list event }.             (* latest first *)
Definition init_state : state := mkSt None None [] (fun _ => 0%nat) (fun _ => Idle) [].
Definition fupd {A} (f : nat -> A) (k : nat) (v : A) : nat -> A := fun x => if (x =? k)%nat then v else f x.
Definition go (t : nat) (p : place) (mu lk : option nat) (l : list nat) (sem : nat -> nat) (e : list event) (s : state) : state :=
  mkSt mu lk l sem (fupd (s_pc s) t p) (e ++ s_tr s).
Definition post (t : nat) (sem : nat -> nat) : nat -> nat := fupd sem t (S (sem t)).
(** __aosl_list_del_entry 80. *)
Definition del (t : nat) (l : list nat) : list nat := filter (fun x => negb (x =? t)%nat) l.

Inductive step (s : state) : state -> Prop :=
| T_lock t : s_pc s t = Idle -> s_mu s = None -> step s (go t Idle (Some t) (s_lk s) (s_list s) (s_sem s) [] s)
| T_unlock t : s_pc s t = Idle -> s_mu s = Some t -> step s (go t Idle None (s_lk s) (s_list s) (s_sem s) [] s)
(* __k_cond_wait_with_timeo 54-85 *)
| T_wait t tm : s_pc s t = Idle -> s_mu s = Some t -> step s (go t (WLk tm) (s_mu s) (s_lk s) (s_list s) (s_sem s) [] s)
| T_wlk t tm : s_pc s t = WLk tm -> s_lk s = None -> step s (go t (WRel tm) (s_mu s) (Some t) (s_list s) (s_sem s) [] s)
| T_wrel t tm : s_pc s t = WRel tm -> step s (go t (WAdd tm) None (s_lk s) (s_list s) (s_sem s) [EWait t tm] s)
| T_wadd t tm : s_pc s t = WAdd tm -> step s (go t (WUnl tm) (s_mu s) (s_lk s) (s_list s ++ [t]) (fupd (s_sem s) t 0%nat) [] s)
| T_wunl t tm : s_pc s t = WUnl tm -> step s (go t (WSem tm) (s_mu s) None (s_list s) (s_sem s) [] s)
| T_wsem t tm n : s_pc s t = WSem tm -> s_sem s t = S n -> step s (go t WMu (s_mu s) (s_lk s) (s_list s) (fupd (s_sem s) t n) [] s)
| T_wtmo t : s_pc s t = WSem true -> step s (go t WMu (s_mu s) (s_lk s) (s_list s) (s_sem s) [ETmo t] s)
| T_wmu t : s_pc s t = WMu -> s_mu s = None -> step s (go t WLk2 (Some t) (s_lk s) (s_list s) (s_sem s) [] s)
| T_wlk2 t : s_pc s t = WLk2 -> s_lk s = None -> step s (go t WDel (s_mu s) (Some t) (s_list s) (s_sem s) [] s)
| T_wdel t : s_pc s t = WDel -> step s (go t WUnl2 (s_mu s) (s_lk s) (del t (s_list s)) (s_sem s) [ERet t] s)
| T_wunl2 t : s_pc s t = WUnl2 -> step s (go t Idle (s_mu s) None (s_list s) (s_sem s) [] s)
(* k_cond_signal 34-42 *)
| T_sig t : s_pc s t = Idle -> step s (go t SLk (s_mu s) (s_lk s) (s_list s) (s_sem s) [] s)
| T_slk t : s_pc s t = SLk -> s_lk s = None -> step s (go t SPost (s_mu s) (Some t) (s_list s) (s_sem s) [] s)
| T_spost t : s_pc s t = SPost ->
    step s (match s_list s with
            | [] => go t SUnl (s_mu s) (s_lk s) (s_list s) (s_sem s) [ESig t None] s
            | w :: _ => go t SUnl (s_mu s) (s_lk s) (s_list s) (post w (s_sem s)) [EPost w; ESig t (Some w)] s
            end)
| T_sunl t : s_pc s t = SUnl -> step s (go t Idle (s_mu s) None (s_list s) (s_sem s) [] s)
(* k_cond_broadcast 44-52 *)
| T_bc t : s_pc s t = Idle -> step s (go t BLk (s_mu s) (s_lk s) (s_list s) (s_sem s) [] s)
| T_blk t : s_pc s t = BLk -> s_lk s = None -> step s (go t (BPost (s_list s)) (s_mu s) (Some t) (s_list s) (s_sem s) [] s)
| T_bpost t w l : s_pc s t = BPost (w :: l) -> step s (go t (BPost l) (s_mu s) (s_lk s) (s_list s) (post w (s_sem s)) [EPost w] s)
| T_bend t : s_pc s t = BPost [] -> step s (go t BUnl (s_mu s) (s_lk s) (s_list s) (s_sem s) [EBEnd t] s)
| T_bunl t : s_pc s t = BUnl -> step s (go t Idle (s_mu s) None (s_list s) (s_sem s) [] s).

Inductive reachable : state -> Prop :=
| R_init : reachable init_state
| R_step s s' : reachable s -> step s s' -> reachable s'.
