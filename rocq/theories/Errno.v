(** * Model of the per-thread error number: lib/errno.c 18-76 and the list functions
    it uses, include/api/aosl_list.h 51-67 (aosl_list_add), 81-95 (aosl_list_del), 304-313
    (aosl_list_remove_head); [aosl_errno] is [*aosl_errno_ptr ()] (include/api/aosl_errno.h).

    Threads are numbers.  Allocation number [n] gives a list node and an errno cell (59-65;
    out of memory aborts, not modelled).  A list pointer is [None] for &s_err_list and
    [Some n] for node [n].  Every store and load of the list that concurrent first uses
    can interleave is a step of its own.

    Simplifications: the thread local storage is a map from thread to value which the
    deletion of the key empties (C30: values do not outlive the key); k_tls_key_set
    does not fail (the key exists); memory is sequentially consistent; a round of the loop of
    k_errno_fini is one step. *)
From Verif Require Import Base.

Definition ptr := option nat.
Definition thread := nat.
(** A use of aosl_errno: reading or assigning it. *)
Inductive use := Get | Put (v : Z).
(** Where a thread is in aosl_errno_ptr and the access through its result. *)
Inductive pc :=
| Idle
| A_read (c : nat) (u : use)                 (* aosl_list.h 66: about to read head->next *)
| A_prev (c : nat) (nx : ptr) (u : use)      (* 53: next->prev = new_node *)
| A_next (c : nat) (nx : ptr) (u : use)      (* 54: new_node->next = next *)
| A_nprev (c : nat) (nx : ptr) (u : use)     (* 55: new_node->prev = prev *)
| A_head (c : nat) (nx : ptr) (u : use)      (* 56: prev->next = new_node *)
| A_tls (c : nat) (u : use)                  (* errno.c 69 *)
| A_zero (c : nat) (u : use)                 (* 72: *errno_ptr = 0 *)
| Use (c : nat) (u : use).                   (* the caller's access *)
(** k_errno_init has run; k_errno_fini is in its loop; it has returned (or nothing has run yet). *)
Inductive phase := Up | Closing | Down.
(** What happens, as far as the users can see. *)
Inductive ev := EGet (t : thread) (v : option Z) | EPut (t : thread) (v : Z) | EExit (t : thread) | EInit.

Record state := mk {
  ph : phase;
  nx : ptr -> ptr; pv : ptr -> ptr;          (* next and prev of the list head and the nodes *)
  nlive : nat -> bool; clive : nat -> bool;  (* nodes and cells that are allocated *)
  val : nat -> option Z;                     (* contents of the cells; None: never assigned *)
  fresh : nat;                               (* number of allocations *)
  tls : thread -> option nat;
  th : thread -> pc;
  log : list ev;                             (* newest first *)
  ab : bool;                                 (* abort () was called *)
  bad : bool }.                              (* freed memory was touched *)
Definition set {A B} (eqb : A -> A -> bool) (f : A -> B) (a : A) (b : B) : A -> B := fun x => if eqb x a then b else f x.
Definition setn {B} := @set nat B Nat.eqb.
Definition peqb (p q : ptr) : bool := match p, q with None, None => true | Some a, Some b => Nat.eqb a b | _, _ => false end.
Definition setp := @set ptr ptr peqb.

Definition with_th s t p := mk (ph s) (nx s) (pv s) (nlive s) (clive s) (val s) (fresh s) (tls s) (setn (th s) t p) (log s) (ab s) (bad s).
Definition with_nx s a b := mk (ph s) (setp (nx s) a b) (pv s) (nlive s) (clive s) (val s) (fresh s) (tls s) (th s) (log s) (ab s) (bad s).
Definition with_pv s a b := mk (ph s) (nx s) (setp (pv s) a b) (nlive s) (clive s) (val s) (fresh s) (tls s) (th s) (log s) (ab s) (bad s).
Definition with_tls s t c := mk (ph s) (nx s) (pv s) (nlive s) (clive s) (val s) (fresh s) (setn (tls s) t (Some c)) (th s) (log s) (ab s) (bad s).
Definition with_val s c v := mk (ph s) (nx s) (pv s) (nlive s) (clive s) (setn (val s) c v) (fresh s) (tls s) (th s) (log s) (ab s) (bad s).
Definition with_log s e := mk (ph s) (nx s) (pv s) (nlive s) (clive s) (val s) (fresh s) (tls s) (th s) (e :: log s) (ab s) (bad s).
Definition crash s := mk (ph s) (nx s) (pv s) (nlive s) (clive s) (val s) (fresh s) (tls s) (th s) (log s) (ab s) true.
Definition abort s := mk (ph s) (nx s) (pv s) (nlive s) (clive s) (val s) (fresh s) (tls s) (th s) (log s) true (bad s).
Definition live (s : state) (p : ptr) : bool := match p with None => true | Some n => nlive s n end.

(** Before the first k_errno_init: errno_key is -1 (18). *)
Definition start : state := mk Down (fun _ => None) (fun _ => None) (fun _ => false) (fun _ => false) (fun _ => None) 0 (fun _ => None) (fun _ => Idle) [] false false.

Inductive act :=
| Begin (t : thread) (u : use)
| Step (t : thread)
| Exit (t : thread)      (* the thread ends; a later thread may get its id *)
| Init | Fini | Round.

(** aosl_errno_ptr 50-65: the test of the key, the value of the thread, the allocations. *)
Definition do_begin (s : state) (t : thread) (u : use) : state :=
  match ph s with
  | Up => match tls s t with
          | Some c => with_th s t (Use c u)
          | None =>
              let c := fresh s in
              with_th (mk (ph s) (nx s) (pv s) (setn (nlive s) c true) (setn (clive s) c true) (setn (val s) c None) (S c) (tls s) (th s) (log s) (ab s) (bad s)) t (A_read c u)
          end
  | _ => abort s
  end.
(** The rest of aosl_errno_ptr (66-72, list.h 51-67) and the access. *)
Definition do_step (s : state) (t : thread) : option state :=
  match th s t with
  | Idle => None
  | A_read c u => Some (with_th s t (A_prev c (nx s None) u))
  | A_prev c n u => Some (if live s n then with_th (with_pv s n (Some c)) t (A_next c n u) else crash s)
  | A_next c n u => Some (if nlive s c then with_th (with_nx s (Some c) n) t (A_nprev c n u) else crash s)
  | A_nprev c n u => Some (if nlive s c then with_th (with_pv s (Some c) None) t (A_head c n u) else crash s)
  | A_head c n u => Some (with_th (with_nx s None (Some c)) t (A_tls c u))
  | A_tls c u => Some (with_th (with_tls s t c) t (A_zero c u))
  | A_zero c u => Some (if clive s c then with_th (with_val s c (Some 0)) t (Use c u) else crash s)
  | Use c Get => Some (if clive s c then with_log (with_th s t Idle) (EGet t (val s c)) else crash s)
  | Use c (Put v) => Some (if clive s c then with_log (with_th (with_val s c (Some v)) t Idle) (EPut t v) else crash s)
  end.
(** k_errno_init: 26-32. *)
Definition do_init (s : state) : option state :=
  match ph s with
  | Down => Some (with_log (mk Up (setp (nx s) None None) (setp (pv s) None None) (nlive s) (clive s) (val s) (fresh s) (fun _ => None) (th s) (log s) (ab s) (bad s)) EInit)
  | _ => None
  end.
(** k_errno_fini 36-40. *)
Definition do_fini (s : state) : option state :=
  match ph s with
  | Up => Some (mk Closing (nx s) (pv s) (nlive s) (clive s) (val s) (fresh s) (fun _ => None) (th s) (log s) (ab s) (bad s))
  | _ => None
  end.
(** One round of the loop 42-46: aosl_list_remove_head, then the two frees.  A node or
    cell that is not allocated (any more) must not be touched. *)
Definition do_round (s : state) : option state :=
  match ph s with
  | Closing =>
      match nx s None with
      | None => Some (mk Down (nx s) (pv s) (nlive s) (clive s) (val s) (fresh s) (tls s) (th s) (log s) (ab s) (bad s))
      | Some p =>
          if nlive s p && live s (nx s (Some p)) && live s (pv s (Some p)) && clive s p then
            let next := nx s (Some p) in let prev := pv s (Some p) in
            let s := with_nx (with_pv s next prev) prev next in
            Some (mk (ph s) (nx s) (pv s) (setn (nlive s) p false) (setn (clive s) p false) (val s) (fresh s) (tls s) (th s) (log s) (ab s) (bad s))
          else Some (crash s)
      end
  | _ => None
  end.
(** A step of the process; an aborted or crashed process makes none. *)
Definition do (a : act) (s : state) : option state :=
  if ab s || bad s then None else
  match a with
  | Begin t u => match th s t with Idle => Some (do_begin s t u) | _ => None end
  | Step t => do_step s t
  | Exit t => match th s t with Idle => Some (with_log s (EExit t)) | _ => None end
  | Init => do_init s
  | Fini => do_fini s
  | Round => do_round s
  end.

(** No thread is inside a use of aosl_errno. *)
Definition quiet (s : state) : Prop := forall t, th s t = Idle.
(** The executions in which k_errno_fini is called when no thread is inside a use of aosl_errno. *)
Inductive reach : state -> Prop :=
| R_start : reach start
| R_do s a s' : reach s -> (a = Fini -> quiet s) -> do a s = Some s' -> reach s'.
