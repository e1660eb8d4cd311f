(** * Model of packet buffers: include/kernel/psbuff.h, lib/psbuff.c *)
From Verif Require Import Base.

(** include/kernel/psbuff.h 20-29 [struct ps_buff], without [next]: a chain is a
    list of these. [pb_mem] is the block at [head] (its length is the field
    [size]); [pb_off] is [data - head]. Pointers into the block are represented
    by their offset from [head]; address arithmetic is taken in a flat address
    space in which [head + size + 2^32] does not wrap. *)
Record psb := mkPsb { pb_mem : list Z; pb_off : Z; pb_len : Z }.

Definition pb_size (b : psb) : Z := Z.of_nat (length (pb_mem b)).

(** What a pointer-returning operation yields: an offset or an error code. *)
Inductive presult := PPtr (off : Z) | PErr (e : Z).

(** lib/psbuff.c 16-36 [alloc_user_psb] / 41-70 [alloc_psb] with an empty data
    area over the block [mem]; line 45 limits the size of internal buffers. *)
Definition MAX_SPB_SIZE : Z := 8388608.    (* lib/psbuff.c 39 *)
Definition new_psb (mem : list Z) : psb := mkPsb mem 0 0.
Definition alloc_psb (mem_ok : bool) (block : list Z) : psb + Z :=
  if MAX_SPB_SIZE <? Z.of_nat (length block) then inr (- AOSL_E2BIG)
  else if negb mem_ok then inr (- AOSL_ENOMEM)
  else inl (new_psb block).

(** include/kernel/psbuff.h 45-48 *)
Definition psb_headroom (b : psb) : Z := u32 (pb_off b).
(** include/kernel/psbuff.h 56-59 *)
Definition psb_tailroom (b : psb) : Z := u32 (pb_size b - pb_len b - pb_off b).

(** include/kernel/psbuff.h 69-80 [psb_reserve]; [n] is an unsigned int; the
    comparison at line 74 is made in size_t. *)
Definition psb_reserve (b : psb) (n : Z) : psb * Z :=
  if 0 <? pb_len b then (b, - AOSL_EPERM)
  else if n <=? u64 (pb_size b - pb_off b) then (mkPsb (pb_mem b) (pb_off b + n) (pb_len b), 0)
  else (b, - AOSL_ENOSPC).

(** include/kernel/psbuff.h 87-96 [psb_put] *)
Definition psb_put (b : psb) (n : Z) : psb * presult :=
  if pb_off b + pb_len b + n <=? pb_size b
  then (mkPsb (pb_mem b) (pb_off b) (u64 (pb_len b + n)), PPtr (pb_off b + pb_len b))
  else (b, PErr (- AOSL_ENOSPC)).

(** include/kernel/psbuff.h 103-113 [psb_get] *)
Definition psb_get (b : psb) (n : Z) : psb * presult :=
  if n <=? pb_len b
  then (mkPsb (pb_mem b) (pb_off b + n) (pb_len b - n), PPtr (pb_off b))
  else (b, PErr (- AOSL_ENOSPC)).

(** include/kernel/psbuff.h 120-126 [psb_peek] *)
Definition psb_peek (b : psb) (n : Z) : psb * presult :=
  if n <=? pb_len b then (b, PPtr (pb_off b)) else (b, PErr (- AOSL_ENOSPC)).

(** include/kernel/psbuff.h 133-141 [psb_push]; line 135 casts the length to int. *)
Definition psb_push (b : psb) (n : Z) : psb * presult :=
  if pb_off b <? s32 n then (b, PErr (- AOSL_ENOSPC))
  else (mkPsb (pb_mem b) (pb_off b - n) (u64 (pb_len b + n)), PPtr (pb_off b - n)).

(** include/kernel/psbuff.h 153-161 [psb_pull] *)
Definition psb_pull (b : psb) (n : Z) : psb * presult :=
  if pb_len b <? n then (b, PErr (- AOSL_ENOSPC))
  else (mkPsb (pb_mem b) (pb_off b + n) (pb_len b - n), PPtr (pb_off b + n)).

(** lib/psbuff.c 166-194: the public functions take a size_t and pass it on as
    unsigned int. *)
Definition aosl_psb_reserve (b : psb) (n : Z) := psb_reserve b (u32 n).
Definition aosl_psb_put (b : psb) (n : Z) := psb_put b (u32 n).
Definition aosl_psb_get (b : psb) (n : Z) := psb_get b (u32 n).
Definition aosl_psb_peek (b : psb) (n : Z) := psb_peek b (u32 n).
Definition aosl_psb_push (b : psb) (n : Z) := psb_push b (u32 n).
Definition aosl_psb_pull (b : psb) (n : Z) := psb_pull b (u32 n).

(** lib/psbuff.c 154-164 [aosl_psb_total_len] (size_t arithmetic) *)
Definition aosl_psb_total_len (chain : list psb) : Z :=
  fold_left (fun t b => u64 (t + pb_len b)) chain 0.
(** lib/psbuff.c 201-209 [aosl_psb_reset] *)
Definition aosl_psb_reset (chain : list psb) : list psb :=
  map (fun b => mkPsb (pb_mem b) 0 0) chain.
(** lib/psbuff.c 196-199 [aosl_psb_single], on a non-empty chain *)
Definition aosl_psb_single (chain : list psb) : bool :=
  match chain with [_] => true | _ => false end.

(** ** What the caller does with the returned pointers: memcpy. An access
    outside the block is [UB]. *)
Definition mem_write (b : psb) (p : Z) (bs : list Z) : outcome psb :=
  if (p <? 0) || (pb_size b <? p + Z.of_nat (length bs)) then UB
  else Ok (mkPsb (firstn (Z.to_nat p) (pb_mem b) ++ bs ++ skipn (Z.to_nat p + length bs) (pb_mem b))
                 (pb_off b) (pb_len b)).
Definition mem_read (b : psb) (p n : Z) : outcome (list Z) :=
  if (p <? 0) || (n <? 0) || (pb_size b <? p + n) then UB
  else Ok (firstn (Z.to_nat n) (skipn (Z.to_nat p) (pb_mem b))).

(** A user's step: request room and fill it, or request data and read it. *)
Inductive bufop :=
| UPut (bs : list Z)       (* put, then copy bs to the returned pointer *)
| UGet (n : Z)             (* get, then read n bytes there *)
| UPeek (n : Z)
| UPush (bs : list Z)      (* push, then copy bs to the returned pointer *)
| UPull (n : Z)
| UReserve (n : Z).

Inductive bufev := EOk (bs : list Z) | EFail (e : Z).

Definition bufstep (b : psb) (op : bufop) : outcome (psb * bufev) :=
  match op with
  | UPut bs =>
      match aosl_psb_put b (Z.of_nat (length bs)) with
      | (b', PPtr p) => let* b'' := mem_write b' p bs in Ok (b'', EOk [])
      | (b', PErr e) => Ok (b', EFail e)
      end
  | UGet n =>
      match aosl_psb_get b n with
      | (b', PPtr p) => let* bs := mem_read b' p n in Ok (b', EOk bs)
      | (b', PErr e) => Ok (b', EFail e)
      end
  | UPeek n =>
      match aosl_psb_peek b n with
      | (b', PPtr p) => let* bs := mem_read b' p n in Ok (b', EOk bs)
      | (b', PErr e) => Ok (b', EFail e)
      end
  | UPush bs =>
      match aosl_psb_push b (Z.of_nat (length bs)) with
      | (b', PPtr p) => let* b'' := mem_write b' p bs in Ok (b'', EOk [])
      | (b', PErr e) => Ok (b', EFail e)
      end
  | UPull n =>
      match aosl_psb_pull b n with
      | (b', PPtr p) => Ok (b', EOk [])
      | (b', PErr e) => Ok (b', EFail e)
      end
  | UReserve n =>
      let (b', e) := aosl_psb_reserve b n in
      Ok (b', if e =? 0 then EOk [] else EFail e)
  end.

Fixpoint bufrun (b : psb) (ops : list bufop) : outcome (psb * list bufev) :=
  match ops with
  | [] => Ok (b, [])
  | o :: ops' =>
      let* (b1, e) := bufstep b o in
      let* (b2, es) := bufrun b1 ops' in
      Ok (b2, e :: es)
  end.

(** ** Ownership of the buffers of one psb: lib/psbuff.c 16-36, 41-78, 80-112

    Memory blocks are numbers; [heap] lists the blocks currently allocated with
    their owner. The library frees blocks of its own with aosl_free; freeing a
    block that the library's allocator does not own, or twice, is [UB]. *)
Inductive owner := ByLibrary | ByUser.
Record oheap := mkHeap { blocks : list (nat * owner); nextblk : nat }.
Record opsb := mkOPsb { op_head : option nat; op_size : Z; op_user : bool }.

Fixpoint block_owner (l : list (nat * owner)) (b : nat) : option owner :=
  match l with
  | [] => None
  | (b', w) :: l' => if Nat.eqb b b' then Some w else block_owner l' b
  end.
Definition aosl_free_blk (h : oheap) (b : option nat) : outcome oheap :=
  match b with
  | None => Ok h                                   (* free(NULL) *)
  | Some b =>
      match block_owner (blocks h) b with
      | Some ByLibrary => Ok (mkHeap (filter (fun x => negb (Nat.eqb (fst x) b)) (blocks h)) (nextblk h))
      | _ => UB
      end
  end.
(** lib/psbuff.c 16-36 [alloc_user_psb] *)
Definition o_alloc_user (buf : nat) (bufsz : Z) : opsb :=
  mkOPsb (if 0 <? bufsz then Some buf else None) bufsz true.
(** lib/psbuff.c 41-70 [alloc_psb], allocations succeeding *)
Definition o_alloc (h : oheap) (size : Z) : oheap * opsb :=
  if 0 <? size
  then (mkHeap ((nextblk h, ByLibrary) :: blocks h) (S (nextblk h)), mkOPsb (Some (nextblk h)) size false)
  else (h, mkOPsb None size false).
(** lib/psbuff.c 72-78 [free_psb] (the psb structure itself is not tracked) *)
Definition o_free (h : oheap) (p : opsb) : outcome oheap :=
  if op_user p then Ok h
  else match op_head p with None => Ok h | Some b => aosl_free_blk h (Some b) end.
(** lib/psbuff.c 80-95 [psb_attach_buf] *)
Definition o_attach (h : oheap) (p : opsb) (buf : nat) (bufsz : Z) : outcome (oheap * opsb) :=
  let* h' := (if (0 <? op_size p) && negb (op_user p) then aosl_free_blk h (op_head p) else Ok h) in
  Ok (h', mkOPsb (if 0 <? bufsz then Some buf else None) bufsz (op_user p)).
(** lib/psbuff.c 97-112 [psb_detach_buf] *)
Definition o_detach (h : oheap) (p : opsb) : outcome (oheap * opsb) :=
  if 0 <? op_size p then
    let* h' := (if op_user p then Ok h else aosl_free_blk h (op_head p)) in
    Ok (h', mkOPsb None 0 (op_user p))
  else Ok (h, p).
