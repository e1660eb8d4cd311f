(** * Model of the timers of a multiplex queue: kernel/timer.c,
    include/kernel/timer.h, and mpq_max_wait_time of kernel/mpq.c.

    A timer is a heap object that carries its red-black node (the heap of
    Rbtree.v, same address), the two list pointers, and its own fields.
    Reading or writing a freed timer is [UB].

    Simplifications: the id table is represented by the flag [tn_installed]
    ("the table entry of this timer's id is this timer"; the table itself is
    modelled in Idpool.v); q->timers is a Coq list of addresses (the list
    primitives are modelled in Dlist.v); func, dtor, argv are not stored: a call of
    func is a firing record, a call of dtor is an entry of [t_dtors].
    Fields marked "ghost" do not exist in the code and are never read by the
    modelled functions. *)

From Verif Require Import Base Rbtree RbtreeSpec.

(** A [struct timer_node *] in the list fields: NULL, a timer, or
    AOSL_LIST_POISON1/2. *)
Inductive lptr := LNull | LTo (a : nat) | LPoison.

(** struct timer_node, include/kernel/timer.h 24-47. *)
Record tnode := mkT {
  tn_next : lptr; tn_prev : lptr;
  tn_interval : Z; tn_expire : Z;
  tn_usage : Z; tn_installed : bool;
  tn_uid : nat;      (* ghost: creation number *)
  tn_serial : nat    (* ghost: number of the last arming *)
}.

(** The timer part of struct mp_queue: timer_base (timer.h 62-65), timers;
    the clock: the i-th call of aosl_tick_now returns [t_clk i]. *)
Record tst := mkTS {
  t_rb : rst; t_cell : nat -> option tnode; t_first : option nat; t_all : list nat;
  t_clk : nat -> Z; t_tick : nat;
  t_dtors : list nat;       (* uids whose argument destructor was called, latest first *)
  t_serial : nat;           (* ghost: armings so far *)
  t_uid : nat;              (* ghost: creations so far *)
  t_held : nat -> nat       (* ghost: references held by other threads (timer_get not yet put) *)
}.

Definition TM (A : Type) := tst -> outcome (A * tst).
Definition tret {A} (x : A) : TM A := fun st => Ok (x, st).
Definition tbind {A B} (m : TM A) (k : A -> TM B) : TM B :=
  fun st => let* (x, st') := m st in k x st'.
Notation "'do' x <- m ; k" := (tbind m (fun x => k)) (at level 200, x name, m at level 100, k at level 200).
Notation "'run' m ; k" := (tbind m (fun _ : unit => k)) (at level 200, m at level 100, k at level 200).

Definition cupd (h : nat -> option tnode) (a : nat) (v : option tnode) : nat -> option tnode :=
  fun x => if Nat.eqb x a then v else h x.

Definition put_rb (r : rst) (s : tst) : tst :=
  mkTS r (t_cell s) (t_first s) (t_all s) (t_clk s) (t_tick s) (t_dtors s) (t_serial s) (t_uid s) (t_held s).
Definition put_cell (c : nat -> option tnode) (s : tst) : tst :=
  mkTS (t_rb s) c (t_first s) (t_all s) (t_clk s) (t_tick s) (t_dtors s) (t_serial s) (t_uid s) (t_held s).
Definition put_first (f : option nat) (s : tst) : tst :=
  mkTS (t_rb s) (t_cell s) f (t_all s) (t_clk s) (t_tick s) (t_dtors s) (t_serial s) (t_uid s) (t_held s).
Definition put_all (l : list nat) (s : tst) : tst :=
  mkTS (t_rb s) (t_cell s) (t_first s) l (t_clk s) (t_tick s) (t_dtors s) (t_serial s) (t_uid s) (t_held s).
Definition put_dtors (l : list nat) (s : tst) : tst :=
  mkTS (t_rb s) (t_cell s) (t_first s) (t_all s) (t_clk s) (t_tick s) l (t_serial s) (t_uid s) (t_held s).
Definition put_held (h : nat -> nat) (s : tst) : tst :=
  mkTS (t_rb s) (t_cell s) (t_first s) (t_all s) (t_clk s) (t_tick s) (t_dtors s) (t_serial s) (t_uid s) h.

(** Run tree code on the embedded nodes. *)
Definition onrb {A} (m : M A) : TM A := fun s =>
  let* (x, r) := m (t_rb s) in Ok (x, put_rb r s).
(** Read / modify a timer. *)
Definition tld (a : nat) : TM tnode := fun s =>
  match t_cell s a with None => UB | Some n => Ok (n, s) end.
Definition tmod (a : nat) (f : tnode -> tnode) : TM unit := fun s =>
  match t_cell s a with None => UB | Some n => Ok (tt, put_cell (cupd (t_cell s) a (Some (f n))) s) end.

Definition with_next (p : lptr) (n : tnode) : tnode :=
  mkT p (tn_prev n) (tn_interval n) (tn_expire n) (tn_usage n) (tn_installed n) (tn_uid n) (tn_serial n).
Definition with_prev (p : lptr) (n : tnode) : tnode :=
  mkT (tn_next n) p (tn_interval n) (tn_expire n) (tn_usage n) (tn_installed n) (tn_uid n) (tn_serial n).
Definition with_interval (i : Z) (n : tnode) : tnode :=
  mkT (tn_next n) (tn_prev n) i (tn_expire n) (tn_usage n) (tn_installed n) (tn_uid n) (tn_serial n).
Definition with_expire (e : Z) (n : tnode) : tnode :=
  mkT (tn_next n) (tn_prev n) (tn_interval n) e (tn_usage n) (tn_installed n) (tn_uid n) (tn_serial n).
Definition with_usage (u : Z) (n : tnode) : tnode :=
  mkT (tn_next n) (tn_prev n) (tn_interval n) (tn_expire n) u (tn_installed n) (tn_uid n) (tn_serial n).
Definition with_installed (b : bool) (n : tnode) : tnode :=
  mkT (tn_next n) (tn_prev n) (tn_interval n) (tn_expire n) (tn_usage n) b (tn_uid n) (tn_serial n).
Definition with_serial (k : nat) (n : tnode) : tnode :=
  mkT (tn_next n) (tn_prev n) (tn_interval n) (tn_expire n) (tn_usage n) (tn_installed n) (tn_uid n) k.

(** AOSL_INVALID_TIMER_INTERVAL, include/api/aosl_mpq_timer.h 39. *)
Definition INVALID_INTERVAL : Z := 18446744073709551615.

(** aosl_tick_now: the next clock value, a uint64_t. *)
Definition tick_now : TM Z := fun s =>
  Ok (u64 (t_clk s (t_tick s)),
      mkTS (t_rb s) (t_cell s) (t_first s) (t_all s) (t_clk s) (S (t_tick s)) (t_dtors s) (t_serial s) (t_uid s) (t_held s)).

(** time_after_eq, include/kernel/timer.h 80-81. *)
Definition time_after_eq (a b : Z) : bool := 0 <=? s64 (a - b).

(** Iterations granted to the tree loops: 2*log2(n+1)+2 for n timers on the
    queue (C06). *)
Definition rbfuel (s : tst) : nat := log_steps (length (t_all s)).

Definition expire_of (s : tst) (a : nat) : Z :=
  match t_cell s a with Some n => tn_expire n | None => 0 end.

(** __find_timer_prepare, timer.c 251-285: (link, rb_prev, rb_parent). *)
Fixpoint find_prepare_loop (fuel : nat) (key : nat -> Z) (e : Z) (lk : link) (par prev : ptr)
  : M (link * ptr * ptr) :=
  match fuel with
  | O => ub
  | S fuel' =>
      cur <- read_link lk ;;
      match cur with
      | None => ret (lk, prev, par)
      | Some x =>
          n <- ld cur ;;
          if e <? key x then find_prepare_loop fuel' key e (LLeft cur) cur prev
          else find_prepare_loop fuel' key e (LRight cur) cur cur
      end
  end.
Definition find_prepare (a : nat) : TM (link * ptr * ptr) := fun s =>
  onrb (find_prepare_loop (rbfuel s) (expire_of s) (expire_of s a) LRoot None None) s.

(** __timer_link_list, 287-307. *)
Definition link_list (a : nat) (prev : ptr) (par : ptr) : TM unit :=
  run tmod a (with_prev (match prev with None => LNull | Some p => LTo p end));
  match prev with
  | None =>
      run (match par with
           | Some nx => run tmod a (with_next (LTo nx)); tmod nx (with_prev (LTo a))
           | None => tmod a (with_next LNull)
           end);
      fun s => Ok (tt, put_first (Some a) s)
  | Some p =>
      do pn <- tld p;
      run tmod a (with_next (tn_next pn));
      run (match tn_next pn with
           | LTo x => tmod x (with_prev (LTo a))
           | LNull => tret tt
           | LPoison => fun _ => UB
           end);
      tmod p (with_next (LTo a))
  end.

(** __timer_link_rb, 309-314. *)
Definition link_rb (a : nat) (lk : link) (par : ptr) : TM unit := fun s =>
  onrb (rb_link_node (Some a) par lk ;;; insert_color (rbfuel s) (Some a)) s.

(** Ghost: stamp the timer with a fresh arming number. *)
Definition stamp (a : nat) : TM unit := fun s =>
  tmod a (with_serial (t_serial s))
    (mkTS (t_rb s) (t_cell s) (t_first s) (t_all s) (t_clk s) (t_tick s) (t_dtors s) (S (t_serial s)) (t_uid s) (t_held s)).

(** __insert_timer, 322-336. *)
Definition insert_timer (a : nat) : TM unit :=
  run stamp a;
  do r <- find_prepare a;
  match r with (lk, prev, par) =>
    run link_list a prev par;
    link_rb a lk par
  end.

(** __timer_unlink_list, 338-358. *)
Definition unlink_list (a : nat) : TM unit :=
  do n <- tld a;
  run (fun s =>
    if ptr_eqb (t_first s) (Some a) then
      match tn_next n with
      | LTo x => (run tmod x (with_prev LNull); fun s => Ok (tt, put_first (Some x) s)) s
      | LNull => Ok (tt, put_first None s)
      | LPoison => UB
      end
    else
      match tn_prev n with
      | LTo p =>
          (run tmod p (with_next (tn_next n));
           match tn_next n with
           | LTo x => tmod x (with_prev (LTo p))
           | LNull => tret tt
           | LPoison => fun _ => UB
           end) s
      | _ => UB
      end);
  run tmod a (with_next LPoison);
  tmod a (with_prev LPoison).

(** __timer_unlink_rb and __unlink_timer, 360-370. *)
Definition unlink_timer (a : nat) : TM unit :=
  run unlink_list a;
  fun s => onrb (rb_erase (rbfuel s) (Some a)) s.

(** __sched_timer, 372-389. *)
Definition sched_timer (a : nat) (expire : Z) : TM unit :=
  run (if negb (expire =? 0) then
         run tmod a (with_interval INVALID_INTERVAL);
         tmod a (with_expire expire)
       else
         do n <- tld a;
         if negb (tn_interval n =? INVALID_INTERVAL) then
           do now <- tick_now;
           tmod a (with_expire (u64 (now + tn_interval n)))
         else tmod a (with_expire 18446744073709551615));
  insert_timer a.

Definition is_linked (n : tnode) : bool := match tn_next n with LPoison => false | _ => true end.

(** __cancel_timer_on_q, 402-406. *)
Definition cancel_on_q (a : nat) : TM unit :=
  do n <- tld a;
  if is_linked n then unlink_timer a else tret tt.

(** __resched_timer, 391-400. *)
Definition resched_on_q (a : nat) (interval expire : Z) : TM unit :=
  run cancel_on_q a;
  run (if (expire =? 0) && negb (interval =? INVALID_INTERVAL)
       then tmod a (with_interval interval) else tret tt);
  sched_timer a expire.

(** __create_timer_on_q, 408-448, in the case that memory (at address [a])
    and an id are available. *)
Definition create_on_q (a : nat) (interval : Z) : TM unit := fun s =>
  Ok (tt, mkTS (with_cell (t_rb s) a (Some (mkN None false None None)))
               (cupd (t_cell s) a (Some (mkT LPoison LPoison interval INVALID_INTERVAL 1 true (t_uid s) 0)))
               (t_first s) (t_all s ++ [a]) (t_clk s) (t_tick s) (t_dtors s) (t_serial s) (S (t_uid s)) (t_held s)).

(** __timer_get and __timer_put, timer.h 51-60; __free_timer, timer.c 201-217. *)
Definition free_timer (a : nat) : TM unit := fun s =>
  match t_cell s a with
  | None => UB
  | Some n => Ok (tt, put_dtors (tn_uid n :: t_dtors s)
                        (put_cell (cupd (t_cell s) a None)
                          (put_rb (with_cell (t_rb s) a None) s)))
  end.
Definition timer_put (a : nat) : TM unit :=
  do n <- tld a;
  run tmod a (with_usage (tn_usage n - 1));
  if tn_usage n - 1 =? 0 then free_timer a else tret tt.

(** timer_get, timer.c 219-244, with a handle issued for the timer at [a]:
    it resolves while the table entry is still this timer. *)
Definition timer_get (a : nat) : TM bool := fun s =>
  match t_cell s a with
  | None => Ok (false, s)
  | Some n => if tn_installed n then (run tmod a (with_usage (tn_usage n + 1)); tret true) s
              else Ok (false, s)
  end.

(** __kill_timer_on_q, 450-463 with __timer_id_uninstall, 176-193. *)
Definition kill_on_q (a : nat) : TM Z :=
  do n <- tld a;
  if tn_installed n then
    run tmod a (with_installed false);
    run cancel_on_q a;
    run (fun s => Ok (tt, put_all (filter (fun x => negb (Nat.eqb x a)) (t_all s)) s));
    run timer_put a;
    tret 0
  else tret (- AOSL_EINVAL).

(** mpq_fini_timers, 473-485. *)
Fixpoint fini_timers (loops : nat) : TM bool := fun s =>
  match t_all s with
  | [] => Ok (true, s)
  | a :: _ =>
      match loops with
      | O => Ok (false, s)
      | S l => (do r <- kill_on_q a; fini_timers l) s
      end
  end.

(** ** Public functions called on the queue's own thread (the call through
    __mpq_call runs the target function inline).  [Err e]: returns -1 with
    errno e. *)
Inductive res := Done | Err (e : Z).

(** aosl_mpq_resched_timer, 952-977. *)
Definition api_resched (a : nat) (interval : Z) : TM res :=
  do ok <- timer_get a;
  if negb ok then tret (Err AOSL_ENOENT) else
  do n <- tld a;
  let i := if s64 interval <? 0 then tn_interval n else interval in
  do r <- (if s64 i <? 0 then tret (Err AOSL_EINVAL)
           else run resched_on_q a i 0; tret Done);
  run timer_put a;
  tret r.
(** aosl_mpq_resched_oneshot_timer, 979-998. *)
Definition api_resched_oneshot (a : nat) (expire : Z) : TM res :=
  if expire =? 0 then tret (Err AOSL_EINVAL) else
  do ok <- timer_get a;
  if negb ok then tret (Err AOSL_ENOENT) else
  run resched_on_q a INVALID_INTERVAL expire;
  run timer_put a;
  tret Done.
(** aosl_mpq_cancel_timer, 1030-1043. *)
Definition api_cancel (a : nat) : TM res :=
  do ok <- timer_get a;
  if negb ok then tret (Err AOSL_ENOENT) else
  run cancel_on_q a;
  run timer_put a;
  tret Done.
(** aosl_mpq_kill_timer, 1078-1091 (return_err of the result). *)
Definition api_kill (a : nat) : TM res :=
  do ok <- timer_get a;
  if negb ok then tret (Err AOSL_ENOENT) else
  do e <- kill_on_q a;
  run timer_put a;
  tret (if e <? 0 then Err (- e) else Done).
(** aosl_mpq_create_timer 544-584 and aosl_mpq_create_oneshot_timer 658-693;
    [a] is where the allocator puts the timer. *)
Definition api_create (a : nat) (interval : Z) : TM res :=
  if s64 interval <? 0 then tret (Err AOSL_EINVAL) else run create_on_q a interval; tret Done.
Definition api_create_oneshot (a : nat) : TM res :=
  run create_on_q a INVALID_INTERVAL; tret Done.
(** __set_timer_on_q, 707-717. *)
Definition set_on_q (a : nat) (interval expire : Z) : TM unit :=
  run create_on_q a interval; sched_timer a expire.
(** aosl_mpq_set_timer 719-759 (and the on_q variant 818-833). *)
Definition api_set (a : nat) (interval : Z) : TM res :=
  if s64 interval <? 0 then tret (Err AOSL_EINVAL) else run set_on_q a interval 0; tret Done.
(** aosl_mpq_set_oneshot_timer 835-875. *)
Definition api_set_oneshot (a : nat) (expire : Z) : TM res :=
  if expire =? 0 then tret (Err AOSL_EINVAL) else run set_on_q a INVALID_INTERVAL expire; tret Done.
(** aosl_mpq_set_oneshot_timer_on_q 877-887 through mpq_set_timer_on_q_args
    775-816 and ____target_q_set_timer 761-773: no check of the expiry. *)
Definition api_set_oneshot_on_q (a : nat) (expire : Z) : TM res :=
  run set_on_q a INVALID_INTERVAL expire; tret Done.
(** aosl_mpq_timer_active 904-917 (for a timer whose handle resolves). *)
Definition timer_active (s : tst) (a : nat) : bool :=
  match t_cell s a with Some n => is_linked n | None => false end.

(** What can happen to the timers of the queue while a timer callback runs:
    calls made by the callback on its own queue, and other threads taking and
    dropping references.  An allocator never returns memory in use; another
    thread drops only references it holds. *)
Inductive cop :=
| CCreate (a : nat) (interval : Z) | CCreateOneshot (a : nat)
| CSet (a : nat) (interval : Z) | CSetOneshot (a : nat) (expire : Z)
| CSetOneshotOnQ (a : nat) (expire : Z)
| CResched (a : nat) (interval : Z) | CReschedOneshot (a : nat) (expire : Z)
| CCancel (a : nat) | CKill (a : nat)
| CGet (a : nat) | CPut (a : nat).

Definition fresh (a : nat) (s : tst) : bool := match t_cell s a with None => true | Some _ => false end.
Definition guard (b : tst -> bool) (m : TM res) : TM unit := fun s =>
  if b s then (do r <- m; tret tt) s else Ok (tt, s).
Definition holds (a : nat) (s : tst) : bool := (0 <? t_held s a)%nat.
Definition remote_get (a : nat) : TM res :=
  do ok <- timer_get a;
  if ok then fun s => Ok (Done, put_held (fun x => if Nat.eqb x a then S (t_held s x) else t_held s x) s)
  else tret (Err AOSL_ENOENT).
Definition remote_put (a : nat) : TM res :=
  run timer_put a;
  fun s => Ok (Done, put_held (fun x => if Nat.eqb x a then Nat.pred (t_held s x) else t_held s x) s).

Definition exec_cop (c : cop) : TM unit :=
  match c with
  | CCreate a i => guard (fresh a) (api_create a i)
  | CCreateOneshot a => guard (fresh a) (api_create_oneshot a)
  | CSet a i => guard (fresh a) (api_set a i)
  | CSetOneshot a e => guard (fresh a) (api_set_oneshot a e)
  | CSetOneshotOnQ a e => guard (fresh a) (api_set_oneshot_on_q a e)
  | CResched a i => guard (fun _ => true) (api_resched a i)
  | CReschedOneshot a e => guard (fun _ => true) (api_resched_oneshot a e)
  | CCancel a => guard (fun _ => true) (api_cancel a)
  | CKill a => guard (fun _ => true) (api_kill a)
  | CGet a => guard (fun _ => true) (remote_get a)
  | CPut a => guard (holds a) (remote_put a)
  end.
Fixpoint exec_cops (l : list cop) : TM unit :=
  match l with
  | [] => tret tt
  | c :: l' => run exec_cop c; exec_cops l'
  end.

(** A call of a timer function: the timer, the queue state when the loop
    picked it, and the state in which its function starts. *)
Record firing := mkF { f_timer : nat; f_picked : tst; f_started : tst }.

(** __check_and_run_timers, 487-542 (PERIODIC_TIMER_NO_DELAY_ACCUMULATION is
    not defined).  [cb n a] lists what happens during the n-th call, which is
    made for timer [a].  The first component of the result tells whether the
    loop ended within [loops] iterations. *)
Definition fire_head (now : Z) (a : nat) : TM unit :=
  run unlink_timer a;
  do n <- tld a;
  if negb (tn_interval n =? INVALID_INTERVAL) then
    do t <- tick_now;
    run tmod a (with_expire (u64 (t + tn_interval n - (now - tn_expire n))));
    insert_timer a
  else tret tt.
Fixpoint run_loop (cb : nat -> nat -> list cop) (now : Z) (loops i : nat) : TM (bool * list firing) := fun s =>
  match t_first s with
  | None => Ok ((true, []), s)
  | Some a =>
      (do n <- tld a;
       if time_after_eq now (tn_expire n) then
         match loops with
         | O => tret (false, [])
         | S l =>
             run fire_head now a;
             fun s1 =>
             (run exec_cops (cb i a);
              do r <- run_loop cb now l (S i);
              tret (fst r, mkF a s s1 :: snd r)) s1
         end
       else tret (true, [])) s
  end.
Definition run_timers (cb : nat -> nat -> list cop) (loops : nat) : TM (bool * list firing) :=
  do now <- tick_now; run_loop cb now loops 0.

(** mpq_max_wait_time, kernel/mpq.c 705-719: -1 or milliseconds. *)
Definition max_wait_time : TM Z := fun s =>
  match t_first s with
  | None => Ok (-1, s)
  | Some a =>
      (do n <- tld a;
       do now <- tick_now;
       let ms := s64 (tn_expire n - now) in
       tret (if ms <? 0 then 0 else ms)) s
  end.

(** mpq_init_timers, 465-471. *)
Definition timers_init (clk : nat -> Z) : tst :=
  mkTS (mkSt (fun _ => None) None 0) (fun _ => None) None [] clk 0 [] 0 0 (fun _ => O).

(** Remote execution of a reschedule that another thread requested with
    aosl_mpq_resched_timer / _oneshot_timer: ____target_q_resched_timer
    919-930, run later by the queue's thread; the requester holds a
    reference. *)
Definition remote_resched (a : nat) (interval expire : Z) : TM unit := resched_on_q a interval expire.
Definition remote_cancel (a : nat) : TM unit := cancel_on_q a.
Definition remote_kill (a : nat) : TM unit := do e <- kill_on_q a; tret tt.
