(** * Model of the library constructor and destructor: kernel/mpq.c 1855-1941.

    Any number of threads; one transition is one access to the lifecycle lock or
    to the ownership count, or one of the init / fini calls.

    Simplifications: the init and fini functions of the parts are single steps
    that do not fail; the ownership count is unbounded (int in the code). *)
From Verif Require Import Base.

(** The parts in the order of aosl_ctor 1928-1937: mm, thread, errno, refobj,
    timer, fileobj, iofd, mpq, mpqp, route. *)
Inductive part := Mm | Thr | Errno | Refobj | Timer | Fileobj | Iofd | Mpq | Mpqp | Route.
Definition init_order : list part := [Mm; Thr; Errno; Refobj; Timer; Fileobj; Iofd; Mpq; Mpqp; Route].
(** aosl_dtor 1903-1912. *)
Definition fini_order : list part := [Route; Mpqp; Mpq; Iofd; Fileobj; Timer; Refobj; Errno; Thr; Mm].
Definition part_eqb (a b : part) : bool :=
  match a, b with
  | Mm, Mm | Thr, Thr | Errno, Errno | Refobj, Refobj | Timer, Timer | Fileobj, Fileobj | Iofd, Iofd | Mpq, Mpq | Mpqp, Mpqp | Route, Route => true
  | _, _ => false
  end.

Inductive place :=
| Idle
| CSpin | CRead | CInc | CInit (todo : list part) | CUnl      (* aosl_ctor 1919, 1922, 1923, 1928-1939, 1924/1940 *)
| DSpin | DRead | DDec | DLast | DFini (todo : list part) | DUnl. (* aosl_dtor 1881, 1884, 1889, 1895, 1903-1912, 1885/1891/1914 *)

Inductive event :=
| ECtor (t : nat)           (* aosl_ctor returned *)
| EDtor (t : nat)           (* aosl_dtor returned *)
| EInit (p : part)
| EFini (p : part)
| EAbort (t : nat).

Record state := mkSt {
  s_cnt : Z;                   (* s_aosl_init_refcount 1862 *)
  s_lock : option nat;         (* s_aosl_lifecycle_lock 1863, with its owner *)
  s_up : list part;            (* parts that are initialised, latest first *)
  s_pc : nat -> place;
  s_dead : bool;
  s_tr : list event }.
Definition init_state : state := mkSt 0 None [] (fun _ => Idle) false [].

Definition fupd (f : nat -> place) (k : nat) (v : place) : nat -> place := fun x => if (x =? k)%nat then v else f x.
Definition go (t : nat) (p : place) (c : Z) (l : option nat) (u : list part) (e : list event) (s : state) : state :=
  mkSt c l u (fupd (s_pc s) t p) (s_dead s) (e ++ s_tr s).
Definition del (p : part) (l : list part) : list part := filter (fun x => negb (part_eqb x p)) l.

(** [q t]: thread t belongs to a queue (THIS_MPQ () != NULL). *)
Inductive step (q : nat -> bool) (s : state) : state -> Prop :=
| S_ctor t : s_dead s = false -> s_pc s t = Idle -> step q s (go t CSpin (s_cnt s) (s_lock s) (s_up s) [] s)
| S_clock t : s_dead s = false -> s_pc s t = CSpin -> s_lock s = None -> step q s (go t CRead (s_cnt s) (Some t) (s_up s) [] s)
| S_cread t : s_dead s = false -> s_pc s t = CRead ->
    step q s (go t (if 0 <? s_cnt s then CInc else CInit init_order) (s_cnt s) (s_lock s) (s_up s) [] s)
| S_cinc t : s_dead s = false -> s_pc s t = CInc -> step q s (go t CUnl (s_cnt s + 1) (s_lock s) (s_up s) [] s)
| S_cinit t p l : s_dead s = false -> s_pc s t = CInit (p :: l) ->
    step q s (go t (CInit l) (s_cnt s) (s_lock s) (p :: s_up s) [EInit p] s)
| S_cset t : s_dead s = false -> s_pc s t = CInit [] -> step q s (go t CUnl 1 (s_lock s) (s_up s) [] s)
| S_cunl t : s_dead s = false -> s_pc s t = CUnl -> step q s (go t Idle (s_cnt s) None (s_up s) [ECtor t] s)
| S_dtor t : s_dead s = false -> s_pc s t = Idle -> step q s (go t DSpin (s_cnt s) (s_lock s) (s_up s) [] s)
| S_dlock t : s_dead s = false -> s_pc s t = DSpin -> s_lock s = None -> step q s (go t DRead (s_cnt s) (Some t) (s_up s) [] s)
| S_dread t : s_dead s = false -> s_pc s t = DRead ->
    step q s (go t (if s_cnt s =? 0 then DUnl else DDec) (s_cnt s) (s_lock s) (s_up s) [] s)
| S_ddec t : s_dead s = false -> s_pc s t = DDec ->
    step q s (go t (if 0 <? s_cnt s - 1 then DUnl else DLast) (s_cnt s - 1) (s_lock s) (s_up s) [] s)
| S_dabort t : s_dead s = false -> s_pc s t = DLast -> q t = true ->
    step q s (mkSt (s_cnt s) (s_lock s) (s_up s) (s_pc s) true (EAbort t :: s_tr s))
| S_dlast t : s_dead s = false -> s_pc s t = DLast -> q t = false ->
    step q s (go t (DFini fini_order) (s_cnt s) (s_lock s) (s_up s) [] s)
| S_dfini t p l : s_dead s = false -> s_pc s t = DFini (p :: l) ->
    step q s (go t (DFini l) (s_cnt s) (s_lock s) (del p (s_up s)) [EFini p] s)
| S_ddone t : s_dead s = false -> s_pc s t = DFini [] -> step q s (go t DUnl (s_cnt s) (s_lock s) (s_up s) [] s)
| S_dunl t : s_dead s = false -> s_pc s t = DUnl -> step q s (go t Idle (s_cnt s) None (s_up s) [EDtor t] s).

Inductive reachable (q : nat -> bool) : state -> Prop :=
| R_init : reachable q init_state
| R_step s s' : reachable q s -> step q s s' -> reachable q s'.
