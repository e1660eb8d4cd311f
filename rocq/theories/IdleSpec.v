(** Notions used in the statements of C72: what can be seen from outside. *)
From Verif Require Import Base Idle.
Local Open Scope nat_scope.

Fixpoint howmany (f : ev -> bool) (l : list ev) : nat := match l with [] => 0 | e :: r => (if f e then 1 else 0) + howmany f r end.
(** How often a function began or ended on queue q. *)
Definition works (q : nat) : list ev -> nat := howmany (fun e => match e with EBegin x | EEnd x _ => x =? q | _ => false end).
(** How many functions queue q accepted. *)
Definition accepts (q : nat) : list ev -> nat := howmany (fun e => match e with EAccept x => x =? q | _ => false end).
(** How often the idle check of queue q ran. *)
Definition checks (q : nat) : list ev -> nat := howmany (fun e => match e with ECheck x _ _ => x =? q | _ => false end).
(** e is the creation of q at time t, or an idle check of q due at time t. *)
Definition since (q : nat) (e : ev) (t : Z) : Prop := e = ECreate q t \/ exists now late, e = ECheck q now late /\ t = (now - late)%Z /\ (0 <= late)%Z.
(** No thread is destroying the pool. *)
Definition quiet (s : st) : Prop := forall p ws, upcs s p <> UWait ws true.
(** Runs in which every call waits, the pool is destroyed only when no other call is under way, and not used from outside after that has begun. *)
Inductive orderly (N : nat) (M : option nat) : st -> Prop :=
| o_init : orderly N M init
| o_step s l s' : orderly N M s -> exec N M l s = Some s' ->
    match l with LDispatch => quiet s | LShrink _ w | LAll _ w => w = true /\ quiet s | LDestroy _ w => w = true /\ forall x, upcs s x = UIdle | _ => True end -> orderly N M s'.
