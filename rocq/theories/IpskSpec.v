(** * What is expected of dual-stack socket pairs (C74). *)
From Verif Require Import Base Route PropRoute Ipsk.
From Verif Require Arith.

(** The state of the network as the library last saw it. *)
Fixpoint known (v6 : bool) (h : list ev) : net :=
  match h with [] => down | ERefresh o :: _ => seen v6 o | EClear :: _ => down | _ :: r => known v6 r end.
(** To whom a number belongs: None: it is not open; Some None: to somebody else; Some (Some (n, m)): made for member m of pair n. *)
Fixpoint owner (h : list ev) (fd : Z) : option (option (nat * fam)) :=
  match h with
  | [] => None
  | EOpen n m _ x _ _ :: r => if x =? fd then Some (Some (n, m)) else owner r fd
  | EOther x :: r => if x =? fd then Some None else owner r fd
  | (EClose _ x | EOtherClose x | EQclose x) :: r => if x =? fd then None else owner r fd
  | _ :: r => owner r fd
  end.
(** Whether a queue has it. *)
Fixpoint queued (h : list ev) (fd : Z) : bool :=
  match h with
  | [] => false
  | EAdd x :: r => if x =? fd then true else queued r fd
  | (EDel x | EClose _ x | EOtherClose x | EQclose x | EOpen _ _ _ x _ _ | EOther x) :: r => if x =? fd then false else queued r fd
  | _ :: r => queued r fd
  end.

(** The events of the last call on pair [n], newest first. *)
Definition caller (e : ev) : option nat :=
  match e with ECall n _ _ _ _ | ELook n _ _ | EOpen n _ _ _ _ _ | ENoOpen n _ _ _ _ | EBind n _ _ _ | EClose n _ | EDefer n _ | EBadf n _ | ERet n _ _ _ _ => Some n | _ => None end.
Definition is_by (n : nat) (e : ev) : bool := match caller e with Some k => Nat.eqb k n | None => false end.
Fixpoint mine (n : nat) (h : list ev) : list ev :=
  match h with
  | [] => []
  | e :: r => if is_by n e then match e with ECall _ _ _ _ _ => [e] | _ => e :: mine n r end else mine n r
  end.

(** One family of a creation: the events, the member afterwards, the number of sockets made. *)
Definition opens (n : nat) (m : fam) (ty pr : Z) (want : bool) (l : list ev) (f k : Z) : Prop :=
  if want then (l = [ENoOpen n m (af m) ty pr] /\ f = -1 /\ k = 0) \/ (l = [EOpen n m (af m) f ty pr] /\ 0 <= f /\ k = 1)
  else l = [] /\ f = -1 /\ k = 0.
(** The errno after a failing system call with code [err], [e] before. *)
Definition errno_after (err e : Z) : Z := match fst (Verif.Arith.hal_set_error err) with Some x => x | None => e end.
(** One family of a binding: the events, the errno before and after, the number of sockets bound.  Bound is what the pair holds and an address is given for. *)
Definition binds (n : nat) (use : bool) (f : Z) (a : addr) (l : list ev) (e e' k : Z) : Prop :=
  (use = true /\ f <> -1 /\ fst a <> AF_UNSPEC /\ exists err, l = [EBind n f a err] /\ (err = 0 /\ e' = e /\ k = 1 \/ err <> 0 /\ e' = errno_after err e /\ k = 0)) \/
  (~ (use = true /\ f <> -1 /\ fst a <> AF_UNSPEC) /\ l = [] /\ e' = e /\ k = 0).
(** One family of a closing: the events and the member before and after. *)
Definition closes (n : nat) (use : bool) (f : Z) (l : list ev) (f' : Z) : Prop :=
  (use = true /\ f <> -1 /\ (l = [EClose n f] \/ l = [EDefer n f] \/ l = [EBadf n f]) /\ f' = -1) \/ (~ (use = true /\ f <> -1) /\ l = [] /\ f' = f).
Definition number (k : Z) : Z := if k =? 0 then -1 else k.
(** A finished call: its arguments, the pair [f4], [f6] and errno [e] before, the events between, the result, errno and pair after. *)
Definition finished (v6 : bool) (n : nat) (c : call) (e f4 f6 : Z) (l : list ev) (r e' f4' f6' : Z) : Prop :=
  match c with
  | Create ty pr => exists a b l4 l6 k4 k6, l = ELook n a b :: l4 ++ l6 /\ opens n V4 ty pr a l4 f4' k4 /\ opens n V6 ty pr b l6 f6' k6 /\ r = number (k4 + k6) /\ e' = e
  | Bind a4 a6 => exists l4 l6 e1 k4 k6, l = l4 ++ l6 /\ binds n true f4 a4 l4 e e1 k4 /\ binds n v6 f6 a6 l6 e1 e' k6 /\ r = number (k4 + k6) /\ f4' = f4 /\ f6' = f6
  | Close => exists l4 l6, l = l4 ++ l6 /\ closes n true f4 l4 f4' /\ closes n v6 f6 l6 f6' /\ e' = e
  end.

(** Executions: the kernel's interface numbers are not negative. *)
Definition sane (l : label) : Prop := match l with LRefresh _ _ _ o => real o | _ => True end.
Inductive reach (v6 : bool) : st -> Prop :=
| r_init r : reach v6 (init r)
| r_step s l s' : reach v6 s -> sane l -> step v6 s l = Some s' -> reach v6 s'.
(** Correct use: a pair is created only when it holds nothing; a member is dropped without closing only if a queue has the socket,
    which will close it; a queue closes a socket only when its pair has been told to let it go; only what a pair still holds
    is taken back from a queue. *)
Definition lawful (s : st) (l : label) : Prop :=
  match l with
  | LCall n (Create _ _) => pair s n V4 = -1 /\ pair s n V6 = -1
  | LForget n m => pair s n m = -1 \/ queued (log s) (pair s n m) = true
  | LQclose fd => forall n m, pair s n m <> fd
  | LDel fd => owner (log s) fd = Some None \/ exists n m, pair s n m = fd
  | _ => True
  end.
Inductive lreach (v6 : bool) : st -> Prop :=
| lr_init r : lreach v6 (init r)
| lr_step s l s' : lreach v6 s -> sane l -> lawful s l -> step v6 s l = Some s' -> lreach v6 s'.
