(** * Model of dual-stack socket pairs: aosl_ip_sk_create (net/route.c 326-372), aosl_ip_sk_bind (net/sk_utils.c 889-926),
    aosl_ip_sk_close (net/sk_utils.c 1121-1135), with what they call: aosl_socket (sk_utils.c 52-55), aosl_hal_sk_socket and
    aosl_hal_sk_bind (platform/src/linux/aosl_hal_socket.c 121-150), __iofd_close (kernel/iofd.c 629-663), over the cache of
    routes of Route.v.

    Any number of pairs [n]; the calls on one pair are made one at a time (the structure is not locked), each pair's calls
    by a thread of its own, whose aosl_errno is [eno n].  One step makes at most one access that other threads can see; the
    stores into the pair, which only the caller uses, are part of the step before or after.  Choosing the pair's socket for
    sending and connecting is Ipv6.v. *)
From Verif Require Import Base Route.
From Verif Require Arith.

(** AOSL_INVALID_FD, aosl_fd_invalid: platform/include/hal/aosl_hal_types.h 37-40. *)
Definition NOFD : Z := -1.
Definition isbad (fd : Z) : bool := fd =? NOFD.
(** The members v4 and v6 of aosl_ip_sk_t and aosl_ip_addr_t: include/api/aosl_mpq_net.h 260-263, 280-283. *)
Inductive fam := V4 | V6.
Definition fam_eqb (a b : fam) : bool := match a, b with V4, V4 | V6, V6 => true | _, _ => false end.
Definition af (m : fam) : Z := match m with V4 => AF_INET | V6 => AF_INET6 end.
(** An address to bind to: the family and the rest of it. *)
Definition addr := (Z * list Z)%type.
(** A call and its arguments besides the pair. *)
Inductive call := Create (ty pr : Z) | Bind (a4 a6 : addr) | Close.

(** What has happened; [n]: in a call on pair [n].  [ECall] and [ERet] carry the caller's errno and the members of the pair. *)
Inductive ev :=
| ECall (n : nat) (c : call) (e f4 f6 : Z)
| ELook (n : nat) (a b : bool)                       (* the cache was looked at: a route for IPv4, for IPv6 *)
| EOpen (n : nat) (m : fam) (dom fd ty pr : Z)       (* socket (dom, ty, pr) gave fd *)
| ENoOpen (n : nat) (m : fam) (dom ty pr : Z)        (* socket (dom, ty, pr) failed *)
| EBind (n : nat) (fd : Z) (a : addr) (err : Z)      (* bind (fd, a) gave err *)
| EClose (n : nat) (fd : Z)                          (* fd was closed *)
| EDefer (n : nat) (fd : Z)                          (* fd was left to its queue, which is ending *)
| EBadf (n : nat) (fd : Z)                           (* close of a number that is not open *)
| ERet (n : nat) (r e f4 f6 : Z)
| EForget (n : nat) (m : fam)                        (* the user sets a member to AOSL_INVALID_FD *)
| EOther (fd : Z) | EOtherClose (fd : Z)             (* a descriptor of somebody else's is opened, closed *)
| EAdd (fd : Z) | EDel (fd : Z) | EQclose (fd : Z)   (* added to a queue, deleted from it, closed by it *)
| ERefresh (o : obs) | EClear.                       (* the cache is read anew, is emptied *)

(** An open descriptor: its number, the pair it was made for, whether a queue has it. *)
Record entry := En { e_fd : Z; e_own : option (nat * fam); e_q : bool }.
(** Where a pair's call is. *)
Inductive pc :=
| Idle
| Look (ty pr : Z)
| Mk4 (ty pr : Z) (a b : bool) | Mk6 (ty pr : Z) (b : bool) (k : Z)
| B4 (a4 a6 : addr) | B6 (a6 : addr) (k : Z)
| X4 | X6.
Record st := S { ker : list entry; rts : rst; pair : nat -> fam -> Z; eno : nat -> Z; pcs : nat -> pc; log : list ev }.

Inductive label :=
| LCall (n : nat) (c : call)
| LLook (n : nat)
| LSkip (n : nat)
| LSock (n : nat) (r : option Z)
| LBind (n : nat) (err : Z)
| LClose (n : nat) (late : bool)
| LErrno (n : nat) (e : Z)
| LForget (n : nat) (m : fam)
| LOther (fd : Z) | LOtherClose (fd : Z)
| LAdd (fd : Z) | LDel (fd : Z) | LQclose (fd : Z)
| LRefresh (f : bool) (g1 g2 : def_rt) (o : obs) | LClear.

Definition setn {A} (f : nat -> A) (n : nat) (x : A) : nat -> A := fun k => if Nat.eqb k n then x else f k.
Definition setp (p : nat -> fam -> Z) (n : nat) (m : fam) (x : Z) : nat -> fam -> Z := fun k i => if Nat.eqb k n && fam_eqb i m then x else p k i.
Definition look (fd : Z) (k : list entry) : option entry := find (fun e => e_fd e =? fd) k.
Definition drop (fd : Z) (k : list entry) : list entry := filter (fun e => negb (e_fd e =? fd)) k.
Definition setq (fd : Z) (b : bool) (k : list entry) : list entry := map (fun e => if e_fd e =? fd then En fd (e_own e) b else e) k.

Definition with_ker (k : list entry) (s : st) : st := S k (rts s) (pair s) (eno s) (pcs s) (log s).
Definition with_pair (p : nat -> fam -> Z) (s : st) : st := S (ker s) (rts s) p (eno s) (pcs s) (log s).
Definition with_eno (n : nat) (e : Z) (s : st) : st := S (ker s) (rts s) (pair s) (setn (eno s) n e) (pcs s) (log s).
Definition to (n : nat) (p : pc) (s : st) : st := S (ker s) (rts s) (pair s) (eno s) (setn (pcs s) n p) (log s).
Definition note (e : ev) (s : st) : st := S (ker s) (rts s) (pair s) (eno s) (pcs s) (e :: log s).
(** Return from a call: [created > 0] or [binded > 0]: route.c 367-371, sk_utils.c 921-925. *)
Definition ret (n : nat) (r : Z) (s : st) : st := to n Idle (note (ERet n r (eno s n) (pair s n V4) (pair s n V6)) s).
Definition count (k : Z) : Z := if k >? 0 then k else -1.
(** aosl_hal_set_error: include/kernel/err.h 52-75, Arith.v. *)
Definition set_err (n : nat) (err : Z) (s : st) : st := match fst (Verif.Arith.hal_set_error err) with Some e => with_eno n e s | None => s end.

(** At the start no pair holds a socket and no call runs. *)
Definition init (r : rst) : st := S [] (route_clear r) (fun _ _ => NOFD) (fun _ => 0) (fun _ => Idle) [].

Section Cfg.
(** CONFIG_AOSL_IPV6 *)
Variable v6 : bool.

(** socket () for member [m], its number stored: route.c 347-354, 356-364. *)
Definition open (n : nat) (m : fam) (ty pr : Z) (r : option Z) (s : st) : option (st * Z) :=
  match r with
  | None => Some (note (ENoOpen n m (af m) ty pr) s, 0)
  | Some fd =>
    if (fd <? 0) || match look fd (ker s) with Some _ => true | None => false end then None
    else Some (note (EOpen n m (af m) fd ty pr) (with_pair (setp (pair s) n m fd) (with_ker (En fd (Some (n, m)) false :: ker s) s)), 1)
  end.
(** bind () of one member: sk_utils.c 901-907, 910-917. *)
Definition bind1 (n : nat) (m : fam) (a : addr) (err : Z) (s : st) : st * Z :=
  let s := note (EBind n (pair s n m) a err) s in
  if err =? 0 then (s, 1) else (set_err n err s, 0).
(** __iofd_close of one member, which is then marked invalid: sk_utils.c 1123-1127, 1129-1134.  [late]: the descriptor's queue
    is ending and takes no more calls (iofd.c 640-658); it closes its descriptors itself. *)
Definition close1 (n : nat) (m : fam) (late : bool) (s : st) : option st :=
  let fd := pair s n m in
  let s' := with_pair (setp (pair s) n m NOFD) s in
  match look fd (ker s), late with
  | Some e, true => if e_q e then Some (note (EDefer n fd) s') else None
  | Some e, false => Some (note (EClose n fd) (with_ker (drop fd (ker s)) s'))
  | None, true => None
  | None, false => Some (note (EBadf n fd) s')
  end.

(** Whether the current point of the call has a system call to make. *)
Definition todo (s : st) (n : nat) : bool :=
  match pcs s n with
  | Mk4 _ _ a _ => a
  | Mk6 _ _ b _ => b
  | B4 a4 _ => negb (isbad (pair s n V4)) && negb (fst a4 =? AF_UNSPEC)
  | B6 a6 _ => v6 && (negb (isbad (pair s n V6)) && negb (fst a6 =? AF_UNSPEC))
  | X4 => negb (isbad (pair s n V4))
  | X6 => v6 && negb (isbad (pair s n V6))
  | _ => true
  end.

Definition step (s : st) (l : label) : option st :=
  match l with
  | LCall n c =>
    match pcs s n with
    | Idle =>
      let s := note (ECall n c (eno s n) (pair s n V4) (pair s n V6)) s in
      Some (match c with Create ty pr => to n (Look ty pr) s | Bind a4 a6 => to n (B4 a4 a6) s | Close => to n X4 s end)
    | _ => None
    end
  (* route.c 336-345: both families in one critical section; then the members are set invalid *)
  | LLook n =>
    match pcs s n with
    | Look ty pr =>
      let a := rt_valid v6 (d4 (get_curr (rts s))) in
      let b := v6 && rt_valid v6 (d6 (get_curr (rts s))) in
      Some (to n (Mk4 ty pr a b) (note (ELook n a b) (with_pair (setp (setp (pair s) n V4 NOFD) n V6 NOFD) s)))
    | _ => None
    end
  (* the conditions in route.c 347, 357, sk_utils.c 895-896, 907-908, 1123, 1129 are false *)
  | LSkip n =>
    if todo s n then None else
    match pcs s n with
    | Mk4 ty pr a b => Some (to n (Mk6 ty pr b 0) s)
    | Mk6 ty pr b k => Some (ret n (count k) s)
    | B4 a4 a6 => Some (to n (B6 a6 0) s)
    | B6 a6 k => Some (ret n (count k) s)
    | X4 => Some (to n X6 s)
    | X6 => Some (ret n 0 s)
    | _ => None
    end
  | LSock n r =>
    if negb (todo s n) then None else
    match pcs s n with
    | Mk4 ty pr a b => match open n V4 ty pr r s with Some (s, k) => Some (to n (Mk6 ty pr b k) s) | None => None end
    | Mk6 ty pr b k => match open n V6 ty pr r s with Some (s, k') => Some (ret n (count (k + k')) s) | None => None end
    | _ => None
    end
  | LBind n err =>
    if negb (todo s n) then None else
    match pcs s n with
    | B4 a4 a6 => let '(s, k) := bind1 n V4 a4 err s in Some (to n (B6 a6 k) s)
    | B6 a6 k => let '(s, k') := bind1 n V6 a6 err s in Some (ret n (count (k + k')) s)
    | _ => None
    end
  | LClose n late =>
    if negb (todo s n) then None else
    match pcs s n with
    | X4 => match close1 n V4 late s with Some s => Some (to n X6 s) | None => None end
    | X6 => match close1 n V6 late s with Some s => Some (ret n 0 s) | None => None end
    | _ => None
    end
  | LErrno n e => match pcs s n with Idle => Some (with_eno n e s) | _ => None end
  (* aosl_ip_sk_init: include/api/aosl_mpq_net.h 265-269, or a store by the user *)
  | LForget n m => match pcs s n with Idle => Some (note (EForget n m) (with_pair (setp (pair s) n m NOFD) s)) | _ => None end
  | LOther fd => if (fd <? 0) || match look fd (ker s) with Some _ => true | None => false end then None else Some (note (EOther fd) (with_ker (En fd None false :: ker s) s))
  | LOtherClose fd => match look fd (ker s) with Some (En _ None _) => Some (note (EOtherClose fd) (with_ker (drop fd (ker s)) s)) | _ => None end
  (* a queue takes, gives back, closes a descriptor: Fd.v *)
  | LAdd fd => match look fd (ker s) with Some e => if e_q e then None else Some (note (EAdd fd) (with_ker (setq fd true (ker s)) s)) | None => None end
  | LDel fd => match look fd (ker s) with Some e => if e_q e then Some (note (EDel fd) (with_ker (setq fd false (ker s)) s)) else None | None => None end
  | LQclose fd => match look fd (ker s) with Some e => if e_q e then Some (note (EQclose fd) (with_ker (drop fd (ker s)) s)) else None | None => None end
  (* the subscriber's queue: C73 *)
  | LRefresh f g1 g2 o => Some (note (ERefresh o) (S (ker s) (snd (check v6 f g1 g2 o (rts s))) (pair s) (eno s) (pcs s) (log s)))
  | LClear => Some (note EClear (S (ker s) (route_clear (rts s)) (pair s) (eno s) (pcs s) (log s)))
  end.
End Cfg.
