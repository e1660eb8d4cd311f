(** * Model of the subscription to network events: net/route.c 22-25, 117-176, 380-450 and
    kernel/rt_monitor.c 34, 440-539 (the socket on which the system reports changes).

    A queue's thread has a stack of frames: what the library is in the middle of, and the user's
    functions it has called.  Every thread moves on its own; descriptors are numbers of the whole
    process, which the application's threads open and close at any time.
    Simplified: a callback with its argument is one number; what the system reports about the
    default routes is an argument of the step that asks (Route.v); a datagram is the number of its
    route messages (Netlink.v has the parsing; messages about links only change the cache of
    Netifs.v); the delivery of data to a queue is one step (Fd.v, Iofdr.v); the critical section of
    check_report_def_rt_change_event and that of unsubscribing are one step each, since both hold
    netev_subscriber_lock and the one descriptor they close is one event; a queue's number is never
    given to another queue (C03). *)
From Verif Require Import Base Route.

Definition fn := nat.
(** Who opened an open descriptor: the application, or rt_monitor.c 473. *)
Inductive owner := OApp | OLib.
Inductive frame :=
| FUser                               (* a function of the user, or its callback *)
| FSub (f : fn)                       (* aosl_subscribe_net_events at 404, the lock held *)
| FSubR (f : fn)                      (* aosl_subscribe_net_events at 418: the first check is under way *)
| FCheck (f : fn)                     (* check_report_def_rt_change_event called: 418, rt_monitor.c 456 *)
| FMsgs (f : fn) (k : nat)            (* __process_rtmsg, k route messages to go *)
| FEvt (f : fn) (n : Z)               (* __on_af_netlink_event with an error, at rt_monitor.c 513 *)
| FCreate (f : fn)                    (* __create_and_attach_af_netlink at 473 *)
| FBind (f : fn) (n : Z)              (* the same at 481, the socket is n *)
| FAdd (f : fn) (n : Z)               (* the same at 486 *)
| FFail (n : Z) (k : nat).            (* the same, k calls close (n) to go: 482 or 487, and 502 *)

Inductive res := ROk | RExist | RFail.
Inductive event :=
| EOut                                            (* a call by a thread that has no queue: EINVAL *)
| EOn (q : nat) (f : fn)                          (* f is the subscriber's callback from now on *)
| ESub (q : nat) (f : fn) (r : res)               (* aosl_subscribe_net_events (f) on q returns *)
| EUnsub (q : nat) (ok : bool) (inmsg : bool)     (* aosl_subscribe_net_events (NULL) on q returns 0, or EPERM;
                                                     inmsg: called by a callback the arrival of data led to *)
| ELook (q : nat) (f : fn) (o : obs) (r : option net_ev) (* the routes are looked at for f on q's thread: f is called with r *)
| EClosed (q : nat) (n : Z) (o : option owner)    (* the library closes the descriptor n, o opened it *)
| EFail (opened : bool) (re : bool)               (* no socket for the subscriber; opened: it was opened; re: not in the call that subscribes *)
| EDead (q : nat).                                (* the queue is destroyed *)

Record st := mkS { own : Z -> option owner; att : Z -> option (nat * fn); subq : option nat; netf : option fn; nlfd : Z;
                   lock : option nat; rts : rst; stk : nat -> list frame; alive : nat -> bool; log : list event }.

Definition sett (q : nat) (l : list frame) (s : st) : st :=
  mkS (own s) (att s) (subq s) (netf s) (nlfd s) (lock s) (rts s) (fun x => if (x =? q)%nat then l else stk s x) (alive s) (log s).
Definition note (e : event) (s : st) : st := mkS (own s) (att s) (subq s) (netf s) (nlfd s) (lock s) (rts s) (stk s) (alive s) (e :: log s).
Definition setown (n : Z) (o : option owner) (s : st) : st :=
  mkS (fun x => if x =? n then o else own s x) (att s) (subq s) (netf s) (nlfd s) (lock s) (rts s) (stk s) (alive s) (log s).
Definition setatt (n : Z) (a : option (nat * fn)) (s : st) : st :=
  mkS (own s) (fun x => if x =? n then a else att s x) (subq s) (netf s) (nlfd s) (lock s) (rts s) (stk s) (alive s) (log s).
Definition setsub (q : option nat) (f : option fn) (s : st) : st := mkS (own s) (att s) q f (nlfd s) (lock s) (rts s) (stk s) (alive s) (log s).
Definition setfd (n : Z) (s : st) : st := mkS (own s) (att s) (subq s) (netf s) n (lock s) (rts s) (stk s) (alive s) (log s).
Definition setlock (l : option nat) (s : st) : st := mkS (own s) (att s) (subq s) (netf s) (nlfd s) l (rts s) (stk s) (alive s) (log s).
Definition setrts (r : rst) (s : st) : st := mkS (own s) (att s) (subq s) (netf s) (nlfd s) (lock s) r (stk s) (alive s) (log s).

(** close (n) by q's thread, and aosl_close (iofd.c 626-667), which for a descriptor that is
    attached to a queue first takes it from the queue: the descriptor is closed, whoever opened it. *)
Definition close (q : nat) (n : Z) (s : st) : st := note (EClosed q n (own s n)) (setatt n None (setown n None s)).

(** The way __create_and_attach_af_netlink returns: to aosl_subscribe_net_events (404-418, 430-432)
    or to __on_af_netlink_event (514), which ignores the result. *)
Definition is_re (below : list frame) : bool := match below with FSub _ :: _ => false | _ => true end.
Definition finish (q : nat) (ok : bool) (below : list frame) (s : st) : st :=
  match below with
  | FSub f :: r =>
      if ok then note (EOn q f) (setlock None (setsub (Some q) (Some f) (sett q (FCheck f :: FSubR f :: r) s)))
      else note (ESub q f RFail) (setlock None (sett q r s))
  | r => sett q r s
  end.

(** os_unsubscribe_net_events (rt_monitor.c 530-536) and the rest of route.c 425-430. *)
Definition unsub (q : nat) (s : st) : st :=
  let s := if nlfd s =? -1 then s else setfd (-1) (close q (nlfd s) s) in
  setsub None None (setrts (route_clear (rts s)) s).

Definition in_msgs (l : list frame) : bool := existsb (fun x => match x with FMsgs _ _ => true | _ => false end) l.

Inductive label :=
| LFun (q : nat) | LRet (q : nat)                       (* the queue calls a function of the user; a function or callback returns *)
| LOut | LSub (q : nat) (f : fn) | LUnsub (q : nat)     (* calls of aosl_subscribe_net_events *)
| LSock (q : nat) (r : option Z) | LBind (q : nat) (ok : bool) | LAdd (q : nat) (ok : bool) | LClose (q : nat)
| LCheck (q : nat) (g1 g2 : def_rt) (o : obs)
| LSubRet (q : nat)
| LData (q : nat) (n : Z) (k : nat) | LMsg (q : nat)    (* a datagram arrives; the next message *)
| LErr (q : nat) (n : Z) | LEvt (q : nat)               (* reading fails *)
| LDestroy (q : nat)
| LOpen (n : Z) | LAppClose (n : Z).                    (* the application's threads *)

Definition free (s : st) : bool := match lock s with None => true | _ => false end.
Definition ev_of (r : option (net_ev * def_rt * def_rt)) : option net_ev := match r with Some (e, _, _) => Some e | None => None end.

Section Cfg.
Variable v6 : bool.
Definition step (s : st) (l : label) : option st :=
  match l with
  (* the queue's loop calls a function *)
  | LFun q => match stk s q with [] => if alive s q then Some (sett q [FUser] s) else None | _ => None end
  | LRet q => match stk s q with FUser :: r => Some (sett q r s) | _ => None end
  (* route.c 385-389 *)
  | LOut => Some (note EOut s)
  (* route.c 391-404 *)
  | LSub q f =>
      match stk s q with
      | FUser :: r => if free s then
          match subq s with
          | Some _ => Some (note (ESub q f RExist) s)
          | None => Some (setlock (Some q) (sett q (FCreate f :: FSub f :: FUser :: r) s))
          end else None
      | _ => None end
  (* route.c 391, 422-434 *)
  | LUnsub q =>
      match stk s q with
      | FUser :: r => if free s then
          match subq s with
          | Some q' => if (q' =? q)%nat then Some (note (EUnsub q true (in_msgs r)) (unsub q s)) else Some (note (EUnsub q false (in_msgs r)) s)
          | None => Some (note (EUnsub q false (in_msgs r)) s)
          end else None
      | _ => None end
  (* rt_monitor.c 473-474 *)
  | LSock q r =>
      match stk s q with
      | FCreate f :: b =>
          match r with
          | None => Some (finish q false b (note (EFail false (is_re b)) s))
          | Some n => if (0 <=? n) then match own s n with None => Some (sett q (FBind f n :: b) (setown n (Some OLib) s)) | _ => None end else None
          end
      | _ => None end
  (* 481-484 *)
  | LBind q ok =>
      match stk s q with
      | FBind f n :: b => Some (if ok then sett q (FAdd f n :: b) s else sett q (FFail n 2 :: b) (note (EFail true (is_re b)) s))
      | _ => None end
  (* 486-495 *)
  | LAdd q ok =>
      match stk s q with
      | FAdd f n :: b => Some (if ok then finish q true b (setfd n (setatt n (Some (q, f)) s)) else sett q (FFail n 2 :: b) (note (EFail true (is_re b)) s))
      | _ => None end
  (* 482 or 487; 501-503 *)
  | LClose q =>
      match stk s q with
      | FFail n (S (S k)) :: b => Some (sett q (FFail n (S k) :: b) (close q n s))
      | FFail n (S O) :: b => Some (finish q false b (close q n s))
      | _ => None end
  (* route.c 117-176 *)
  | LCheck q g1 g2 o =>
      match stk s q with
      | FCheck f :: b => if free s then
          let (r, t) := check v6 true g1 g2 o (rts s) in
          Some (note (ELook q f o (ev_of r)) (setrts t (sett q (match r with Some _ => FUser :: b | None => b end) s)))
          else None
      | _ => None end
  (* route.c 419 *)
  | LSubRet q => match stk s q with FSubR f :: b => Some (note (ESub q f ROk) (sett q b s)) | _ => None end
  (* rt_monitor.c 464-471 *)
  | LData q n k =>
      match stk s q, att s n with
      | [], Some (q', f) => if (q' =? q)%nat then Some (sett q [FMsgs f k] s) else None
      | _, _ => None end
  (* 443-461: the function and its argument were read once, at 466-467 *)
  | LMsg q =>
      match stk s q with
      | FMsgs f (S k) :: b => Some (sett q (FCheck f :: FMsgs f k :: b) s)
      | FMsgs f O :: b => Some (sett q b s)
      | _ => None end
  (* 506-510 *)
  | LErr q n =>
      match stk s q, att s n with
      | [], Some (q', f) => if (q' =? q)%nat then Some (sett q [FEvt f n] s) else None
      | _, _ => None end
  (* 513-514 *)
  | LEvt q => match stk s q with FEvt f n :: b => Some (sett q (FCreate f :: b) (close q n s)) | _ => None end
  (* mpq.c 738, iofd.c 598-610: the descriptors attached to the queue are closed; netev_subscriber_q is not looked at *)
  | LDestroy q =>
      match stk s q with
      | [] => if alive s q then
          let mine n := match att s n with Some (q', _) => (q' =? q)%nat | None => false end in
          Some (mkS (fun n => if mine n then None else own s n) (fun n => if mine n then None else att s n) (subq s) (netf s) (nlfd s) (lock s) (rts s) (stk s)
                    (fun x => if (x =? q)%nat then false else alive s x) (EDead q :: log s))
          else None
      | _ => None end
  | LOpen n => if 0 <=? n then match own s n with None => Some (setown n (Some OApp) s) | _ => None end else None
  | LAppClose n => match own s n with Some OApp => Some (setown n None s) | _ => None end
  end.

Fixpoint run (s : st) (ls : list label) : option st :=
  match ls with [] => Some s | l :: ls => match step s l with Some s' => run s' ls | None => None end end.
End Cfg.

(** The static initialisers (route.c 22-30, rt_monitor.c 34) and k_route_init (route.c 438-443). *)
Definition rst0 : rst := route_clear {| rts0 := init_def_rt; rts1 := init_def_rt; lastv := init_def_rt; curr := false |}.
Definition init : st := mkS (fun _ => None) (fun _ => None) None None (-1) None rst0 (fun _ => []) (fun _ => true) [].
Definition reach (v6 : bool) (ls : list label) (s : st) : Prop := run v6 init ls = Some s.
