(** * What the theorems about multiplex queues talk about: histories of
    observable events, oldest first. *)
From Verif Require Import Base Mpq.

Definition hist (s : state) : list event := rev (s_tr s).

(** Requests put into queue q, in order; those whose function was called; whose
    function returned; whose place in the queue is free again. *)
Definition accepts (q : qid) (h : list event) : list req :=
  flat_map (fun e => match e with EAccept _ q' r => if (q' =? q)%nat then [r] else [] | _ => [] end) h.
Definition starts (q : qid) (h : list event) : list req :=
  flat_map (fun e => match e with EStart _ q' r _ => if (q' =? q)%nat then [r] else [] | _ => [] end) h.
Definition ends (q : qid) (h : list event) : list req :=
  flat_map (fun e => match e with EEnd _ q' r => if (q' =? q)%nat then [r] else [] | _ => [] end) h.
Definition dones (q : qid) (h : list event) : list req :=
  flat_map (fun e => match e with EDone q' r => if (q' =? q)%nat then [r] else [] | _ => [] end) h.

(** Number of times the function of request i was called (for real). *)
Definition runs (i : nat) (h : list event) : nat :=
  length (filter (fun e => match e with EStart _ _ r _ | EInline _ _ r _ => (r_id r =? i)%nat | _ => false end) h).
(** The completions requested on behalf of request i. *)
Definition completions (i : nat) (h : list event) : list (qid * req) :=
  flat_map (fun e => match e with
    | ECall _ d r => match r_orig r with Some j => if (j =? i)%nat then [(d, r)] else [] | None => [] end
    | _ => [] end) h.
(** Release-only invocations made in place of the completion with name i. *)
Definition free_runs (i : nat) (h : list event) : nat :=
  length (filter (fun e => match e with EFreeRun _ _ r => (r_id r =? i)%nat | _ => false end) h).
(** Is the queue non-blocking, after a history that created it? *)
Definition nonblocking (q : qid) (h : list event) : bool :=
  fold_left (fun b e => match e with
    | ECreate q' _ _ nb | EFlag q' nb => if (q' =? q)%nat then nb else b
    | _ => b end) h false.
(** Requests accepted by q and not finished. *)
Definition outstanding (q : qid) (h : list event) : Z :=
  Z.of_nat (length (accepts q h)) - Z.of_nat (length (dones q h)).
Definition ordinary (r : req) : bool := negb (r_nofail r).
Definition outstanding_ordinary (q : qid) (h : list event) : Z :=
  Z.of_nat (length (filter ordinary (accepts q h))) - Z.of_nat (length (filter ordinary (dones q h))).
(** Thread t runs the loop of queue q, whose limit is max. *)
Definition runs_queue (t : tid) (q : qid) (max : Z) (h : list event) : Prop := exists nb, In (ECreate q t max nb) h.
(** The id of the queue is valid. *)
Definition valid (q : qid) (h : list event) : Prop := (exists t max, runs_queue t q max h) /\ ~ In (EGone q) h.
