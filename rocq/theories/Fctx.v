(** * Model of the context of a running function.

    ____add_f 371-445 (what is stored with a request), q_invoke_f 532-566,
    __invoke_f 624-651, __process_fo 653-660, the accessors
    aosl_mpq_run_func_arg / _data / _done_qid and aosl_mpq_running_refobj
    1158-1235, __add_or_invoke_f 1255-1294, __add_func_args / _argv / _data
    1302-1420, all kernel/mpq.c; ____each_pool_promise_f and
    __mpqp_pool_tail_queue_argv, kernel/mpqp.c 732-816.

    One queue and its thread; the requests come from any thread at any time. A
    running function may do anything: ask the accessors, change its arguments,
    call functions on its own queue to any depth.

    Memory is a set of blocks; a block is a list of items, words for argument
    vectors and bytes for data. Simplifications: the queue accepts every request
    (Mpq.v has the full queue); a lookup of an object (568-612) or of the done
    queue (639) answers anything; the blocks of callers are never freed, since a
    caller of a synchronous call waits and an argument vector of an asynchronous one
    may be overwritten at will; a tail request has one marker on this queue,
    which may call the function any number of times (Mpqp.v has the counter);
    f_name, the performance callback and q_stack_curr are left out. *)
From Verif Require Import Base.

(** ARGC_TYPE_DATA_LEN, include/kernel/mp_queue.h 31. *)
Definition DATA_BIT : Z := 2147483648.
(** AOSL_MPQ_INVALID and aosl_mpq_invalid, aosl_mpq.h 56, 59; aosl_ref_invalid is the same test, aosl_ref.h 29. *)
Definition MPQ_INVALID : Z := -1.
Definition id_invalid (x : Z) : bool := s16 x <? 0.
(** MPQ_ARGC_MAX, mp_queue.h 250 and aosl_defs.h 98; MPQ_DATA_LEN_MAX, mp_queue.h 30. *)
Definition ARGC_MAX : Z := 64.
Definition DATA_MAX : Z := 8192.

(** The object a function gets: none, the one with this id, or AOSL_FREE_ONLY_OBJ. *)
Inductive robj := RNull | RFree | RObj (id : Z).
(** An address: block and offset; NULL is None. *)
Definition ptr : Type := option (nat * nat).

(** ** What was asked for (ghost) *)
(** A call of a function as asked for by the user: done queue, object id and what it was found to be, whether data or arguments were given, how many items, where they
    are, what they were when asked; [k_rerun]: the call is the clean-up call 648; [k_own]: the request was copied; [k_tail]: this is the marker of a tail request with this done queue, object and length. *)
Record call := mkCall { k_done : Z; k_ref : Z; k_obj : robj; k_data : bool; k_len : nat; k_buf : ptr; k_words : list Z; k_rerun : bool; k_own : bool; k_tail : option Z }.

(** ** State *)
(** The members run_func_done_qid, run_func_refobj, run_func_argc, run_func_argv of the queue, mp_queue.h 149-152. *)
Record ctx := mkCtx { x_done : Z; x_refs : list robj; x_argc : Z; x_argv : ptr }.
(** mpq.c 890-893. *)
Definition ctx0 : ctx := mkCtx MPQ_INVALID [] 0 None.
(** A queued request: struct q_func_obj, mp_queue.h 33-46; [f_own]: the block behind it (424), if any; [f_call]: ghost. *)
Record fo := mkFo { f_done : Z; f_ref : Z; f_argc : Z; f_argv : ptr; f_own : option nat; f_call : call }.
(** The parameters and locals of __invoke_f (or ____each_pool_promise_f) around a call of q_invoke_f. *)
Record locals := mkLoc { l_done : Z; l_ref : Z; l_obj : robj; l_argc : Z; l_argv : ptr }.
(** What follows the call of q_invoke_f: the rest of __invoke_f 637-650, of ____each_pool_promise_f 745-757, or nothing; then the block is freed (659). *)
Inductive kind := KInvoke (own : option nat) | KFinal (own : option nat) | KPromise.
(** An active q_invoke_f: its saved values 536-543, and what follows. *)
Record act := mkAct { a_prev : ctx; a_kind : kind; a_loc : locals; a_call : call }.
(** Events: a function begins with these actual parameters, its items being these; it ends, its items being these; a completion is queued. *)
Inductive event :=
| EBegin (k : call) (o : robj) (argc : Z) (argv : ptr) (items : list Z)
| EEnd (k : call) (items : list Z)
| EDone (dq ref : Z) (data : bool) (items : list Z).
Record state := mkSt { s_ctx : ctx; s_acts : list act; s_mem : nat -> option (list Z); s_lib : nat -> bool; s_nb : nat; s_q : list fo; s_tr : list event }.
(** mpq.c 886-893. *)
Definition init : state := mkSt ctx0 [] (fun _ => None) (fun _ => false) 0 [] [].

(** Reading n items at p. *)
Definition get (m : nat -> option (list Z)) (p : ptr) (n : nat) : option (list Z) :=
  if (n =? 0)%nat then Some [] else
  match p with
  | None => None
  | Some (b, o) => match m b with Some l => if (o + n <=? length l)%nat then Some (firstn n (skipn o l)) else None | None => None end
  end.
Definition upd {A} (f : nat -> A) (k : nat) (v : A) : nat -> A := fun x => if (x =? k)%nat then v else f x.
(** argv [i] = v. *)
Definition put (m : nat -> option (list Z)) (b o : nat) (v : Z) : nat -> option (list Z) :=
  match m b with Some l => upd m b (Some (firstn o l ++ v :: skipn (S o) l)) | None => m end.
(** fo->argc, mpq.c 405 and 1287, for len = n * sizeof (uintptr_t) resp. n. *)
Definition enc (data : bool) (n : nat) : Z := if data then Z.lor (Z.of_nat n) DATA_BIT else (Z.of_nat n * 8) / 8.
(** argc & ~ARGC_TYPE_DATA_LEN: the complement is a 32-bit unsigned value. *)
Definition dec (argc : Z) : Z := Z.land argc 2147483647.
(** argc & ARGC_TYPE_DATA_LEN *)
Definition is_data (argc : Z) : bool := negb (Z.land argc DATA_BIT =? 0).
(** The test on the length: 1306, 1354, 1390. *)
Definition fits (data : bool) (n : nat) : bool := if data then Z.of_nat n <=? DATA_MAX else Z.of_nat n <=? ARGC_MAX.

(** mpq_invoke_refobj_get, mpq.c 568-612: NULL without a reference, else the object or free only. *)
Definition resolve (ref : Z) (alive : bool) : robj := if id_invalid ref then RNull else if alive then RObj ref else RFree.
Definition is_free (o : robj) : bool := match o with RFree => true | _ => false end.

(** q_invoke_f up to the call of the function, mpq.c 532-557. *)
Definition enter (kd : kind) (l : locals) (k : call) (items : list Z) (s : state) : state :=
  mkSt (mkCtx (l_done l) (l_obj l :: x_refs (s_ctx s)) (l_argc l) (l_argv l))
       (mkAct (s_ctx s) kd l k :: s_acts s) (s_mem s) (s_lib s) (s_nb s) (s_q s)
       (EBegin k (l_obj l) (dec (l_argc l)) (l_argv l) items :: s_tr s).
(** The same values of a request: the call it makes when its object is found to be o. *)
Definition with_obj (k : call) (o : robj) : call := mkCall (k_done k) (k_ref k) o (k_data k) (k_len k) (k_buf k) (k_words k) (k_rerun k) (k_own k) (k_tail k).
(** The clean-up call for k: no done queue, free only, the same items. *)
Definition rerun_of (k : call) : call := mkCall MPQ_INVALID (k_ref k) RFree (k_data k) (k_len k) (k_buf k) (k_words k) true (k_own k) (k_tail k).
(** __free_fo, mpq.c 659. *)
Definition free (own : option nat) (s : state) : state :=
  match own with Some b => mkSt (s_ctx s) (s_acts s) (upd (s_mem s) b None) (s_lib s) (s_nb s) (s_q s) (s_tr s) | None => s end.
Definition emit (e : event) (s : state) : state := mkSt (s_ctx s) (s_acts s) (s_mem s) (s_lib s) (s_nb s) (s_q s) (e :: s_tr s).
(** The ref of the completion queued by a marker, mpqp.c 750-751. *)
Definition ref_of (o : robj) : Z := match o with RObj i => i | _ => -1 end.

(** The function of the innermost q_invoke_f returns: 562-565; then, in __invoke_f 637-650 or mpqp.c 745-757, its completion is queued or it is called again for
    clean-up; then 659. [dalive]: the done queue is found. *)
Definition leave (dalive : bool) (items : list Z) (a : act) (rest : list act) (s : state) : state :=
  let l := a_loc a in
  let s1 := mkSt (a_prev a) rest (s_mem s) (s_lib s) (s_nb s) (s_q s) (EEnd (a_call a) items :: s_tr s) in
  let owed := negb (id_invalid (l_done l)) && negb (is_free (l_obj l)) in
  match a_kind a with
  | KFinal own => free own s1
  | KInvoke own =>
      if owed then
        if dalive then free own (emit (EDone (l_done l) (l_ref l) (is_data (l_argc l)) items) s1)
        else enter (KFinal own) (mkLoc MPQ_INVALID (l_ref l) RFree (l_argc l) (l_argv l)) (rerun_of (a_call a)) items s1
      else free own s1
  | KPromise =>
      if owed then
        if dalive then emit (EDone (l_done l) (ref_of (l_obj l)) false items) s1
        else enter (KFinal None) (mkLoc MPQ_INVALID (l_ref l) RFree (l_argc l) (l_argv l)) (rerun_of (a_call a)) items s1
      else s1
  end.

(** A block that belongs to a caller. *)
Definition user_ptr (s : state) (p : ptr) : Prop := match p with None => True | Some (b, _) => s_lib s b = false /\ (b < s_nb s)%nat end.
(** Addresses a function on this thread can pass: a caller's block, or inside the items of the function that runs. *)
Definition passable (s : state) (p : ptr) : Prop :=
  user_ptr s p \/ match s_acts s, p with a :: _, Some (b, o) => match k_buf (a_call a) with Some (b', o') => b = b' /\ (o' <= o)%nat | None => False end | _, _ => False end.
Definition not_marker (s : state) : Prop := match s_acts s with a :: _ => k_tail (a_call a) = None | [] => True end.

Inductive step : state -> state -> Prop :=
| S_ubuf s l (* a caller makes a block *) :
    step s (mkSt (s_ctx s) (s_acts s) (upd (s_mem s) (s_nb s) (Some l)) (upd (s_lib s) (s_nb s) false) (S (s_nb s)) (s_q s) (s_tr s))
| S_uwrite s b l l' (* and changes it *) :
    s_lib s b = false -> s_mem s b = Some l -> length l' = length l ->
    step s (mkSt (s_ctx s) (s_acts s) (upd (s_mem s) b (Some l')) (s_lib s) (s_nb s) (s_q s) (s_tr s))
| S_post s dq ref data p n items (* an asynchronous request: 397-446 with sync = 0 *) :
    fits data n = true -> get (s_mem s) p n = Some items ->
    step s (let b := s_nb s in
            let k := mkCall dq ref RNull data n (Some (b, 0%nat)) items false true None in
            mkSt (s_ctx s) (s_acts s) (upd (s_mem s) b (Some items)) (upd (s_lib s) b true) (S b)
                 (s_q s ++ [mkFo dq ref (enc data n) (Some (b, 0%nat)) (Some b) k]) (s_tr s))
| S_tail s dq ref p n items cnt name f (* mpqp.c 797-813; dq is an intptr_t *) :
    s64 dq = dq -> fits false n = true -> get (s_mem s) p n = Some items ->
    step s (let b := s_nb s in
            let w := cnt :: u64 dq :: name :: f :: items in
            let k := mkCall MPQ_INVALID ref RNull false (4 + n) (Some (b, 0%nat)) w false true (Some dq) in
            mkSt (s_ctx s) (s_acts s) (upd (s_mem s) b (Some w)) (upd (s_lib s) b true) (S b)
                 (s_q s ++ [mkFo MPQ_INVALID ref (enc false (4 + n)) (Some (b, 0%nat)) (Some b) k]) (s_tr s))
| S_sync s ref data p n items (* a synchronous request of another thread: sync = 1 *) :
    fits data n = true -> get (s_mem s) p n = Some items -> user_ptr s p ->
    step s (let k := mkCall MPQ_INVALID ref RNull data n p items false false None in
            mkSt (s_ctx s) (s_acts s) (s_mem s) (s_lib s) (s_nb s)
                 (s_q s ++ [mkFo MPQ_INVALID ref (enc data n) p None k]) (s_tr s))
| S_start s f q' alive items (* the loop takes the next request: 692-695, 657 *) :
    s_acts s = [] -> s_q s = f :: q' -> get (s_mem s) (f_argv f) (k_len (f_call f)) = Some items ->
    step s (enter (KInvoke (f_own f)) (mkLoc (f_done f) (f_ref f) (resolve (f_ref f) alive) (f_argc f) (f_argv f))
                  (with_obj (f_call f) (resolve (f_ref f) alive)) items
                  (mkSt (s_ctx s) (s_acts s) (s_mem s) (s_lib s) (s_nb s) q' (s_tr s)))
| S_own s ref data p n alive items (* a synchronous call on the own queue: 1262-1291 *) :
    fits data n = true -> get (s_mem s) p n = Some items -> passable s p -> not_marker s ->
    step s (enter (KInvoke None) (mkLoc MPQ_INVALID ref (resolve ref alive) (enc data n) p)
                  (mkCall MPQ_INVALID ref (resolve ref alive) data n p items false false None) items s)
| S_promise s a rest d b o w items x1 x2 x3 x4 tr' (* a marker calls the function, before anything else: mpqp.c 734-743 *) :
    s_acts s = a :: rest -> s_tr s = EBegin (a_call a) x1 x2 x3 x4 :: tr' -> k_tail (a_call a) = Some d -> l_argv (a_loc a) = Some (b, o) -> s_mem s b = Some w ->
    get (s_mem s) (Some (b, (o + 4)%nat)) (k_len (a_call a) - 4) = Some items ->
    step s (enter KPromise (mkLoc (s64 (nth (o + 1) w 0)) (l_ref (a_loc a)) (l_obj (a_loc a)) (u64 (dec (l_argc (a_loc a)) - 4)) (Some (b, (o + 4)%nat)))
                  (mkCall d (k_ref (a_call a)) (k_obj (a_call a)) false (k_len (a_call a) - 4) (Some (b, (o + 4)%nat)) (skipn 4 (k_words (a_call a))) false true None) items s)
| S_write s a rest b o i v (* the running function changes an item *) :
    s_acts s = a :: rest -> k_tail (a_call a) = None -> l_argv (a_loc a) = Some (b, o) -> (i < k_len (a_call a))%nat ->
    step s (mkSt (s_ctx s) (s_acts s) (put (s_mem s) b (o + i) v) (s_lib s) (s_nb s) (s_q s) (s_tr s))
| S_end s a rest dalive items (* it returns *) :
    s_acts s = a :: rest -> get (s_mem s) (l_argv (a_loc a)) (k_len (a_call a)) = Some items ->
    step s (leave dalive items a rest s).

Inductive reach : state -> Prop :=
| R_init : reach init
| R_step s s' : reach s -> step s s' -> reach s'.

(** ** The accessors, called on the thread of the queue *)
(** aosl_mpq_run_func_arg, mpq.c 1158-1185: return value, errno if it fails, the argument. *)
Definition run_func_arg (s : state) (n : Z) : outcome (Z * Z * option Z) :=
  match x_argv (s_ctx s) with
  | None => Ok (-1, AOSL_EPERM, None)
  | Some (b, o) =>
      if is_data (x_argc (s_ctx s)) then Ok (-1, AOSL_EINVAL, None)
      else if x_argc (s_ctx s) <=? n then Ok (-1, AOSL_ENOENT, None)
      else match s_mem s b with
           | Some l => match nth_error l (o + Z.to_nat n) with Some v => Ok (0, 0, Some v) | None => UB end
           | None => UB
           end
  end.
(** aosl_mpq_run_func_data, mpq.c 1187-1210. *)
Definition run_func_data (s : state) : Z * Z * option (Z * ptr) :=
  match x_argv (s_ctx s) with
  | None => (-1, AOSL_EPERM, None)
  | Some p =>
      if negb (is_data (x_argc (s_ctx s))) then (-1, AOSL_EINVAL, None)
      else (0, 0, Some (dec (x_argc (s_ctx s)), Some p))
  end.
(** aosl_mpq_run_func_done_qid, mpq.c 1212-1221. *)
Definition run_func_done_qid (s : state) : Z := x_done (s_ctx s).
(** refobj_on_this_q, mpq.c 518-530. *)
Fixpoint on_stack (o : Z) (l : list robj) : Z :=
  match l with
  | [] => 0
  | RObj i :: l' => if i =? o then 1 else on_stack o l'
  | _ :: l' => on_stack o l'
  end.
(** aosl_mpq_running_refobj, mpq.c 1223-1229. *)
Definition running_refobj (s : state) (o : robj) : Z :=
  match o with RObj i => on_stack i (x_refs (s_ctx s)) | _ => 0 end.
(** The accessors on a thread that has no queue: 1161-1164, 1190-1193, 1215-1218, 521-529. *)
Definition no_queue_arg : Z * Z := (-1, AOSL_EINVAL).
