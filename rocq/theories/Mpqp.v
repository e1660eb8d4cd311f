(** * Model of the queue pools: kernel/mpqp.c 56-95, 186-331, 732-821, 883-987, 1037-1071.

    Any number of threads use one pool; its queues run concurrently.  One transition is one critical
    section of the pool's lock, one pass of a loop inside it that reads what other threads change,
    or one action of a queue.  A queue is the list of the functions it has accepted and not begun:
    that it runs them in order, each once, and that it runs what it accepted also when it is being
    destroyed are C19 and C22.  Queue objects are numbered and never reused here (references keep
    them alive, C48).  pool_entries is the list of its first q_count entries; an entry that is given
    back is reset to NULL (900-901, 959-960), so that the BUG_ONs 200 and 789 hold.  Simplified: the
    two counters compared in 64 are read at once; creating a queue may fail; a queue may refuse a
    request; running out of memory for the counter of a tail request (772) is not modelled. *)
From Verif Require Import Base.

(** A function accepted by a queue: an ordinary one, or ____each_pool_promise_f of the tail request t. *)
Inductive item := Job (j : nat) | Mark (t : nat).
(** Places in the pool functions: in the loop of __mpqp_find_best_q_locked with the lock held; __mpqp_best_q_queue before and after the request is handed to the queue; aosl_mpq_alloc after the lock was released (1045); the loop of __mpqp_pool_tail_queue_argv (806) with the lock held. *)
Inductive pc := Idle | Scan (j i : nat) (best : option nat) | Send (j q : nat) | Put (j q : nat) | Alloc (idx q : nat) | Tail (t i : nat).
(** What happened: a request was accepted / refused by a queue, or there was no queue for it; a tail request was placed for the queues given; its marker was accepted; a function began and ended on a queue; the function of a tail request was called; a queue was created, removed from the pool; aosl_mpq_alloc returned, aosl_mpq_free succeeded. *)
Inductive ev := EAccept (j q : nat) | ERefuse (j q : nat) | ENone (j : nat) | ECall (t : nat) (qs : list nat) | EMark (t q : nat) | EBegin (q : nat) (it : item) | EEnd (q : nat) (it : item) | ETail (t q : nat)
| ECreate (q : nat) | ERemove (q : nat) | EAlloc (q : nat) | EFree (q : nat).
(** [entries]: queue and usage; [cnt]: q->count; [items], [cur]: what a queue has yet to begin, and what it is executing; [left]: the counter of a tail request; [crashed]: a NULL pointer was used. *)
Record st := mkS { entries : list (nat * nat); lock : option nat; cnt : nat -> nat; items : nat -> list item; cur : nat -> option item; left : nat -> nat; pcs : nat -> pc; nextq : nat; nextj : nat; nextt : nat; trace : list ev; crashed : bool }.
Definition fupd {A} (f : nat -> A) (k : nat) (v : A) : nat -> A := fun x => if (x =? k)%nat then v else f x.
(** __mpqp_create: 477-525. *)
Definition init : st := mkS [] None (fun _ => 0%nat) (fun _ => []) (fun _ => None) (fun _ => 0%nat) (fun _ => Idle) 0 0 0 [] false.

Definition set_pc (s : st) (p : nat) (x : pc) : st := mkS (entries s) (lock s) (cnt s) (items s) (cur s) (left s) (fupd (pcs s) p x) (nextq s) (nextj s) (nextt s) (trace s) (crashed s).
Definition set_lock (s : st) (l : option nat) : st := mkS (entries s) l (cnt s) (items s) (cur s) (left s) (pcs s) (nextq s) (nextj s) (nextt s) (trace s) (crashed s).
Definition set_entries (s : st) (e : list (nat * nat)) : st := mkS e (lock s) (cnt s) (items s) (cur s) (left s) (pcs s) (nextq s) (nextj s) (nextt s) (trace s) (crashed s).
Definition emit (s : st) (e : ev) : st := mkS (entries s) (lock s) (cnt s) (items s) (cur s) (left s) (pcs s) (nextq s) (nextj s) (nextt s) (trace s ++ [e]) (crashed s).
Definition set_cnt (s : st) (q n : nat) : st := mkS (entries s) (lock s) (fupd (cnt s) q n) (items s) (cur s) (left s) (pcs s) (nextq s) (nextj s) (nextt s) (trace s) (crashed s).
Definition new_job (s : st) : st := mkS (entries s) (lock s) (cnt s) (items s) (cur s) (left s) (pcs s) (nextq s) (S (nextj s)) (nextt s) (trace s) (crashed s).
Definition crash (s : st) : st := mkS (entries s) (lock s) (cnt s) (items s) (cur s) (left s) (pcs s) (nextq s) (nextj s) (nextt s) (trace s) true.
(** ____add_f on queue [q]: mpq.c 433-443. *)
Definition enqueue (s : st) (q : nat) (it : item) (e : ev) : st := mkS (entries s) (lock s) (fupd (cnt s) q (S (cnt s q))) (fupd (items s) q (items s q ++ [it])) (cur s) (left s) (pcs s) (nextq s) (nextj s) (nextt s) (trace s ++ [e]) (crashed s).
(** __pool_create_add_mpq_locked: 186-205 (788-792 likewise): the new queue is at the end of the entries with usage 1. *)
Definition create (s : st) : st := mkS (entries s ++ [(nextq s, 1%nat)]) (lock s) (cnt s) (items s) (cur s) (left s) (pcs s) (S (nextq s)) (nextj s) (nextt s) (trace s ++ [ECreate (nextq s)]) (crashed s).

(** One pass of __mpqp_find_best_q_locked: 61-66. *)
Definition better (s : st) (q : nat) (best : option nat) : option nat :=
  match best with None => Some q | Some b => if (cnt s q <? cnt s b)%nat then Some q else Some b end.
(** __mpqp_best_q_get: 212-224 after the loop; [ok]: a queue can be created.  The result is the queue with its reference and count taken. *)
Definition pick (N : nat) (s : st) (best : option nat) (ok : bool) : st * option nat :=
  let '(s, q) :=
    if match best with None => true | Some b => (0 <? cnt s b)%nat && (length (entries s) <? N)%nat end
    then if ok then (create s, Some (nextq s)) else (s, best)
    else (s, best) in
  match q with Some q => (set_cnt s q (S (cnt s q)), Some q) | None => (s, None) end.
(** __mpqp_find_best_alloc_entry_locked: 71-83; the index of the first entry with the least usage, going on from index i. *)
Fixpoint best_entry (l : list (nat * nat)) (i : nat) (best : option (nat * nat)) : option (nat * nat) :=
  match l with
  | [] => best
  | (_, u) :: r => best_entry r (S i) (match best with None => Some (i, u) | Some (_, ub) => if (u <? ub)%nat then Some (i, u) else best end)
  end.
(** entry->usage++ (257). *)
Definition use (s : st) (idx : nat) : st := set_entries s (map (fun p => if (fst p =? idx)%nat then (fst (snd p), S (snd (snd p))) else snd p) (combine (seq 0 (length (entries s))) (entries s))).
(** __mpqp_find_entry_with_qid_locked and 1054-1059: the entries after entry->usage--, if the queue is there with usage > 1. *)
Fixpoint unuse (l : list (nat * nat)) (q : nat) : option (list (nat * nat)) :=
  match l with
  | [] => None
  | (k, u) :: r => if (k =? q)%nat then (if (1 <? u)%nat then Some ((k, Nat.pred u) :: r) else None) else option_map (cons (k, u)) (unuse r q)
  end.

Inductive label :=
| LDispatch (p : nat)              (* __mpqp_best_q_queue: 289, the lock 210 is taken *)
| LScan (p : nat) | LPick (p : nat) (ok : bool)
| LSend (p : nat) (ok : bool)      (* 291-314: the queue takes the request or refuses it *)
| LPut (p : nat)                   (* 327-330, __mpqp_best_q_put 263-267 *)
| LAlloc (p : nat) (ok : bool)     (* __mpqp_best_entry_get_or_alloc: 241-261 *)
| LAllocRet (p : nat)              (* 1045 *)
| LFree (q : nat)                  (* 1048-1071 *)
| LShrink                          (* 893-908 *)
| LShrinkAll                       (* 941-979 *)
| LTail (p : nat) (ok : bool)      (* 775-804 *)
| LTailMark (p : nat)              (* 806-810, one queue *)
| LTailEnd (p : nat)               (* 813 *)
| LDirect (q : nat)                (* aosl_mpq_queue and the like on a queue of the pool, by its id *)
| LBegin (q : nat)                 (* the queue's thread takes the next function *)
| LEnd (q : nat).                  (* it is done; for a marker: 735-743, the function of the tail request is called if this was the last one *)

Definition exec (N : nat) (l : label) (s : st) : option st :=
  if crashed s then None else
  match l with
  | LDispatch p => match lock s, pcs s p with None, Idle => Some (set_pc (set_lock (new_job s) (Some p)) p (Scan (nextj s) 0 None)) | _, _ => None end
  | LScan p => match pcs s p with
      | Scan j i best => match nth_error (entries s) i with Some (q, _) => Some (set_pc s p (Scan j (S i) (better s q best))) | None => None end
      | _ => None end
  | LPick p ok => match pcs s p with
      | Scan j i best => match nth_error (entries s) i with
          | None => let '(s, o) := pick N s best ok in let s := set_lock s None in
              Some (match o with Some q => set_pc s p (Send j q) | None => set_pc (emit s (ENone j)) p Idle end)
          | Some _ => None end
      | _ => None end
  | LSend p ok => match pcs s p with
      | Send j q => Some (set_pc (if ok then enqueue s q (Job j) (EAccept j q) else emit s (ERefuse j q)) p (Put j q))
      | _ => None end
  | LPut p => match pcs s p with Put j q => Some (set_pc (set_cnt s q (Nat.pred (cnt s q))) p Idle) | _ => None end
  | LAlloc p ok => match lock s, pcs s p with
      | None, Idle =>
          let b := best_entry (entries s) 0 None in
          let '(s, b) := if match b with None => true | Some (_, u) => (1 <? u)%nat && (length (entries s) <? N)%nat end
                         then if ok then (create s, Some (length (entries s))) else (s, option_map fst b)
                         else (s, option_map fst b) in
          Some (match b with Some i => set_pc (use s i) p (Alloc i (nth i (map fst (entries s)) 0%nat)) | None => s end)
      | _, _ => None end
  | LAllocRet p => match pcs s p with
      | Alloc i _ => Some (set_pc (match nth_error (entries s) i with Some (q, _) => emit s (EAlloc q) | None => crash s end) p Idle)
      | _ => None end
  | LFree q => match lock s, unuse (entries s) q with None, Some e => Some (emit (set_entries s e) (EFree q)) | _, _ => None end
  | LShrink => match lock s, rev (entries s) with
      | None, (q, u) :: r => if (1 <? length (entries s))%nat && (u =? 1)%nat then Some (emit (set_entries s (rev r)) (ERemove q)) else None
      | _, _ => None end
  | LShrinkAll => match lock s with None => Some (set_entries (mkS (entries s) (lock s) (cnt s) (items s) (cur s) (left s) (pcs s) (nextq s) (nextj s) (nextt s) (trace s ++ map (fun e => ERemove (fst e)) (entries s)) (crashed s)) []) | _ => None end
  | LTail p ok => match lock s, pcs s p with
      | None, Idle =>
          let s := match entries s with [] => if ok then create s else s | _ => s end in
          match entries s with
          | [] => None
          | _ => let t := nextt s in
              Some (set_pc (mkS (entries s) (Some p) (cnt s) (items s) (cur s) (fupd (left s) t (length (entries s))) (pcs s) (nextq s) (nextj s) (S t) (trace s ++ [ECall t (map fst (entries s))]) (crashed s)) p (Tail t 0))
          end
      | _, _ => None end
  | LTailMark p => match pcs s p with
      | Tail t i => match nth_error (entries s) i with Some (q, _) => Some (set_pc (enqueue s q (Mark t) (EMark t q)) p (Tail t (S i))) | None => None end
      | _ => None end
  | LTailEnd p => match pcs s p with
      | Tail t i => match nth_error (entries s) i with None => Some (set_pc (set_lock s None) p Idle) | Some _ => None end
      | _ => None end
  | LDirect q => if (q <? nextq s)%nat then Some (enqueue (new_job s) q (Job (nextj s)) (EAccept (nextj s) q)) else None
  | LBegin q => match cur s q, items s q with
      | None, it :: r => Some (mkS (entries s) (lock s) (cnt s) (fupd (items s) q r) (fupd (cur s) q (Some it)) (left s) (pcs s) (nextq s) (nextj s) (nextt s) (trace s ++ [EBegin q it]) (crashed s))
      | _, _ => None end
  | LEnd q => match cur s q with
      | Some it =>
          let '(l, e) := match it with Mark t => let n := Nat.pred (left s t) in (fupd (left s) t n, if (n =? 0)%nat then [ETail t q; EEnd q it] else [EEnd q it]) | Job _ => (left s, [EEnd q it]) end in
          Some (mkS (entries s) (lock s) (fupd (cnt s) q (Nat.pred (cnt s q))) (items s) (fupd (cur s) q None) l (pcs s) (nextq s) (nextj s) (nextt s) (trace s ++ e) (crashed s))
      | None => None end
  end.
Fixpoint run (N : nat) (ls : list label) (s : st) : option st := match ls with [] => Some s | l :: r => match exec N l s with Some s => run N r s | None => None end end.
Definition reachable (N : nat) (s : st) : Prop := exists ls, run N ls init = Some s.
