(** * Model of registering sockets and descriptors: kernel/iofd.c 294-494, net/sk_utils.c 210-627.

    The variable arguments travel: caller's va_list -> array on the caller's
    stack -> (sync call) the function object of the target queue -> the target
    function -> the descriptor object.  Arrays are lists of words with [None]
    for a word that was never written; access outside an array, and using an
    unwritten word, are undefined behaviour.

    Simplifications: the outcome of everything that does not handle arguments
    (queue lookup, acceptance by the queue, memory, the fd table, the HAL calls)
    is an environment record; a synchronous call that the queue accepts has run
    the function when it returns (C21). *)
From Verif Require Import Base.

Definition arr := list (option Z).
(** alloca (sizeof (uintptr_t) * n). *)
Definition alloca (n : Z) : arr := repeat None (Z.to_nat n).
(** argv [i] = v. *)
Fixpoint poke_n (a : arr) (i : nat) (v : Z) : outcome arr :=
  match a, i with
  | [], _ => UB
  | _ :: r, O => Ok (Some v :: r)
  | x :: r, S j => let* r' := poke_n r j v in Ok (x :: r')
  end.
Definition poke (a : arr) (i : Z) (v : Z) : outcome arr := if i <? 0 then UB else poke_n a (Z.to_nat i) (u64 v).
(** argv [i] as a value. *)
Definition peek (a : arr) (i : Z) : outcome Z :=
  if i <? 0 then UB else match nth_error a (Z.to_nat i) with Some (Some v) => Ok v | _ => UB end.
(** for (l = 0; l < argc; l++) argv [off + l] = va_arg (args, uintptr_t). *)
Fixpoint poke_list (a : arr) (off : Z) (vs : list Z) : outcome arr :=
  match vs with [] => Ok a | v :: vs' => let* a' := poke a off v in poke_list a' (off + 1) vs' end.

Definition MPQ_ARGC_MAX : Z := 64.                       (* include/kernel/mp_queue.h 250, aosl_defs.h 98 *)
Definition FD_MAX_PACKET_SIZE_MIN : Z := 1024.           (* include/kernel/iofd.h 24 *)
Definition FD_MAX_PACKET_SIZE_MAX : Z := 4194304.        (* 25 *)
Definition IOFD_NOT_READY : Z := 256.                    (* 95 *)
Definition IOFD_SOCK_LISTEN : Z := 512.                  (* 96 *)
Definition SIZEOF_RECVFROM_ARGS : Z := 28.               (* sk_utils.c 103; the value is not used below *)
Definition SIZEOF_ACCEPT_DATA : Z := 32.                 (* sk_utils.c 362 *)

(** A read or write function: of the user, or one of the library's. *)
Inductive fnp := Fn (a : Z) | DRead | DWrite | DAccept | DRecv | DSend | DRecvfrom | DSendto.

(** The registration that results: what the callbacks of the fd will get. *)
Record reg := mkReg {
  g_fd : Z; g_timeo : Z; g_max : Z; g_extra : Z; g_flags : Z;
  g_read : fnp; g_write : fnp; g_chk : Z; g_data : Z; g_event : Z;
  g_args : list Z }.
Inductive hcall := HListen (fd backlog : Z) | HConnect (fd dest : Z).

Record env := mkEnv {
  e_q : bool;              (* the queue exists: __mpq_get, __get_or_create_current *)
  e_here : bool;           (* the caller runs on the target queue: mpq.c 1264 *)
  e_call : option Z;       (* Some errno: the queue refuses the call *)
  e_sigp : bool;           (* the queue uses an event object: iofd.c 304 *)
  e_exist : bool;          (* the fd is registered already: 317 *)
  e_nomem : bool;          (* 328 *)
  e_inst : Z;              (* install_fd, __q_add_fd: 392, 398 *)
  e_listen : Z;            (* aosl_hal_sk_listen mapped by aosl_hal_set_error: sk_utils.c 357 *)
  e_connect : Z }.         (* __do_connect: 242 *)

(** The result of an API call: value, errno if set, the registration, HAL calls. *)
Record result := mkRes { o_ret : Z; o_errno : option Z; o_reg : option reg; o_hal : list hcall }.
(** return_err: include/kernel/err.h 77-84 (IS_ERR_VALUE 27). *)
Definition return_err (err : Z) (g : option reg) (h : list hcall) : result :=
  if u64 (-4095) <=? u64 err then mkRes (-1) (Some (- err)) g h else mkRes err None g h.

(** f->argv [l] = argv [l] for l < argc: iofd.c 358-359. *)
Fixpoint take_words (argc : Z) (a : arr) : outcome (list Z) :=
  if argc =? 0 then Ok [] else
  match a with
  | Some v :: r => let* l := take_words (argc - 1) r in Ok (v :: l)
  | _ => UB
  end.

(** AOSL_DEFAULT_READ_FN and AOSL_DEFAULT_WRITE_FN: iofd.c 331-335. *)
Definition dflt_read (f : fnp) : fnp := match f with Fn a => if a =? 1 then DRead else Fn a | x => x end.
Definition dflt_write (f : fnp) : fnp := match f with Fn a => if a =? 1 then DWrite else Fn a | x => x end.
(** __mpq_add_fd_argv: iofd.c 294-409.  With fd = -1 the function reads two more
    variable arguments 364-369, which the callers modelled here do not pass. *)
Definition add_fd_argv (e : env) (fd timeo maxp extra flags : Z) (rd wr : fnp) (chk data event : Z) (argc : Z) (argv : arr) : outcome (Z * option reg) :=
  if e_sigp e then Ok (- AOSL_EPERM, None)
  else if (negb (chk =? 0) && (maxp <? FD_MAX_PACKET_SIZE_MIN)) || (FD_MAX_PACKET_SIZE_MAX <? maxp) then Ok (- AOSL_EINVAL, None)
  else if 4096 <=? extra then Ok (- AOSL_EINVAL, None)
  else if data =? 0 then Ok (- AOSL_EINVAL, None)
  else if negb (fd =? -1) && e_exist e then Ok (- AOSL_EEXIST, None)
  else if e_nomem e then Ok (- AOSL_ENOMEM, None)
  else
    let* l := take_words argc argv in
    if fd =? -1 then UB
    else if e_inst e <? 0 then Ok (e_inst e, None)
    else Ok (0, Some (mkReg fd timeo maxp extra flags
      (dflt_read rd) (dflt_write wr) chk data event l)).

(** __mpq_call_argv, up to the call of the target function: mpq.c 1511, 1349-1357,
    1264-1293.  Left errno: refused; right: the target sees these arguments (the
    caller's array on the own queue, otherwise a copy of argc words). *)
Definition call_argv (e : env) (argc : Z) (argv : arr) : outcome (Z + (Z * arr)) :=
  if MPQ_ARGC_MAX <? argc then Ok (inl AOSL_E2BIG)
  else match e_call e with
  | Some n => Ok (inl n)
  | None => if e_here e then Ok (inr (argc, argv))
            else if Z.of_nat (length argv) <? argc then UB
            else Ok (inr (argc, firstn (Z.to_nat argc) argv))
  end.

(** &argv [k]; only reading through it needs the words to exist. *)
Definition tail_of (k : Z) (a : arr) : outcome arr := Ok (skipn (Z.to_nat k) a).

(** ** listen *)
(** __this_q_listen_argv: sk_utils.c 353-364. *)
Definition this_q_listen (e : env) (fd backlog acc event argc : Z) (argv : arr) : outcome (Z * option reg * list hcall) :=
  if e_listen e <? 0 then Ok (e_listen e, None, [HListen fd backlog])
  else let* r := add_fd_argv e fd (-1) SIZEOF_ACCEPT_DATA 0 IOFD_SOCK_LISTEN DAccept (Fn 0) 0 acc event argc argv in
       Ok (fst r, snd r, [HListen fd backlog]).
(** ____target_q_listen: 398-410. *)
Definition target_q_listen (e : env) (argc : Z) (argv : arr) : outcome (Z * option reg * list hcall) :=
  let* fd := peek argv 1 in let* bl := peek argv 2 in let* acc := peek argv 3 in let* ev := peek argv 4 in
  let* rest := tail_of 5 argv in
  this_q_listen e (s32 fd) (s32 bl) acc ev (u64 (argc - 5)) rest.
(** aosl_mpq_listen: 366-396. *)
Definition aosl_mpq_listen (e : env) (fd backlog acc event : Z) (args : list Z) : outcome result :=
  let argc := Z.of_nat (length args) in
  if MPQ_ARGC_MAX <? argc then Ok (return_err (- AOSL_E2BIG) None [])
  else if negb (e_q e) then Ok (return_err (- AOSL_EINVAL) None [])
  else let* a := poke_list (alloca argc) 0 args in
       let* r := this_q_listen e fd backlog acc event argc a in
       Ok (return_err (fst (fst r)) (snd (fst r)) (snd r)).
(** aosl_mpq_listen_on_q: 412-445.  [err_addr]: the address of the local variable err. *)
Definition aosl_mpq_listen_on_q (e : env) (err_addr fd backlog acc event : Z) (args : list Z) : outcome result :=
  let argc := Z.of_nat (length args) in
  if MPQ_ARGC_MAX <? argc then Ok (return_err (- AOSL_E2BIG) None [])
  else if negb (e_q e) then Ok (return_err (- AOSL_EINVAL) None [])
  else let* a := poke_list (alloca (5 + argc)) 0 [err_addr; fd; backlog; acc; event] in
       let* a := poke_list a 5 args in
       let* c := call_argv e (5 + argc) a in
       match c with
       | inl n => Ok (return_err (- n) None [])
       | inr (n, av) => let* r := target_q_listen e n av in Ok (return_err (fst (fst r)) (snd (fst r)) (snd r))
       end.

(** ** datagram sockets *)
(** __this_q_add_dgram_sk_argv: 447-452. *)
Definition this_q_dgram (e : env) (fd maxp data event argc : Z) (argv : arr) : outcome (Z * option reg) :=
  add_fd_argv e fd (-1) maxp SIZEOF_RECVFROM_ARGS 0 DRecvfrom DSendto 0 data event argc argv.
(** ____target_q_add_dgram_sk: 486-498. *)
Definition target_q_dgram (e : env) (argc : Z) (argv : arr) : outcome (Z * option reg) :=
  let* fd := peek argv 1 in let* mp := peek argv 2 in let* data := peek argv 3 in let* ev := peek argv 4 in
  let* rest := tail_of 5 argv in
  this_q_dgram e (s32 fd) mp data ev (u64 (argc - 5)) rest.
(** aosl_mpq_add_dgram_socket_on_q: 500-533. *)
Definition aosl_mpq_add_dgram_socket_on_q (e : env) (err_addr fd maxp data event : Z) (args : list Z) : outcome result :=
  let argc := Z.of_nat (length args) in
  if MPQ_ARGC_MAX <? argc then Ok (return_err (- AOSL_E2BIG) None [])
  else if negb (e_q e) then Ok (return_err (- AOSL_EINVAL) None [])
  else let* a := poke_list (alloca (5 + argc)) 0 [err_addr; fd; maxp; data; event] in
       let* a := poke_list a 5 args in
       let* c := call_argv e (5 + argc) a in
       match c with
       | inl n => Ok (return_err (- n) None [])
       | inr (n, av) => let* r := target_q_dgram e n av in Ok (return_err (fst r) (snd r) [])
       end.

(** ** stream sockets *)
(** __this_q_add_stream_sk_argv: 535-541. *)
Definition this_q_stream (e : env) (fd maxp chk data event argc : Z) (argv : arr) : outcome (Z * option reg) :=
  add_fd_argv e fd (-1) maxp 0 0 DRecv DSend chk data event argc argv.
(** ____target_q_add_stream_sk: 577-590. *)
Definition target_q_stream (e : env) (argc : Z) (argv : arr) : outcome (Z * option reg) :=
  let* fd := peek argv 1 in let* mp := peek argv 2 in let* chk := peek argv 3 in let* data := peek argv 4 in let* ev := peek argv 5 in
  let* rest := tail_of 6 argv in
  this_q_stream e (s32 fd) mp chk data ev (u64 (argc - 6)) rest.
(** aosl_mpq_add_stream_socket_on_q: 592-627. *)
Definition aosl_mpq_add_stream_socket_on_q (e : env) (err_addr fd maxp chk data event : Z) (args : list Z) : outcome result :=
  let argc := Z.of_nat (length args) in
  if MPQ_ARGC_MAX <? argc then Ok (return_err (- AOSL_E2BIG) None [])
  else if negb (e_q e) then Ok (return_err (- AOSL_EINVAL) None [])
  else let* a := poke_list (alloca (6 + argc)) 0 [err_addr; fd; maxp; chk; data; event] in
       let* a := poke_list a 6 args in
       let* c := call_argv e (6 + argc) a in
       match c with
       | inl n => Ok (return_err (- n) None [])
       | inr (n, av) => let* r := target_q_stream e n av in Ok (return_err (fst r) (snd r) [])
       end.

(** ** any descriptor *)
(** aosl_mpq_add_fd: iofd.c 411-438. *)
Definition aosl_mpq_add_fd (e : env) (fd maxp rd wr chk data event : Z) (args : list Z) : outcome result :=
  let argc := Z.of_nat (length args) in
  if MPQ_ARGC_MAX <? argc then Ok (mkRes (-1) (Some AOSL_E2BIG) None [])
  else if negb (e_q e) then Ok (mkRes (-1) (Some AOSL_EINVAL) None [])
  else let* a := poke_list (alloca argc) 0 args in
       let* r := add_fd_argv e fd (-1) maxp 0 0 (Fn rd) (Fn wr) chk data event argc a in
       Ok (return_err (fst r) (snd r) []).
(** ____target_q_add_fd: iofd.c 440-455. *)
Definition target_q_add_fd (e : env) (argc : Z) (argv : arr) : outcome (Z * option reg) :=
  let* fd := peek argv 1 in let* mp := peek argv 2 in let* rd := peek argv 3 in let* wr := peek argv 4 in
  let* chk := peek argv 5 in let* data := peek argv 6 in let* ev := peek argv 7 in
  let* rest := tail_of 8 argv in
  add_fd_argv e (s32 fd) (-1) mp 0 0 (Fn rd) (Fn wr) chk data ev (u64 (argc - 8)) rest.
(** aosl_mpq_add_fd_on_q: iofd.c 457-494; a refused call leaves the positive errno in err 489. *)
Definition aosl_mpq_add_fd_on_q (e : env) (err_addr fd maxp rd wr chk data event : Z) (args : list Z) : outcome result :=
  let argc := Z.of_nat (length args) in
  if MPQ_ARGC_MAX <? argc then Ok (return_err (- AOSL_E2BIG) None [])
  else if negb (e_q e) then Ok (return_err (- AOSL_EINVAL) None [])
  else let* a := poke_list (alloca (8 + argc)) 0 [err_addr; fd; maxp; rd; wr; chk; data; event] in
       let* a := poke_list a 8 args in
       let* c := call_argv e (8 + argc) a in
       match c with
       | inl n => Ok (return_err n None [])
       | inr (n, av) => let* r := target_q_add_fd e n av in Ok (return_err (fst r) (snd r) [])
       end.

(** ** connect *)
(** __this_q_connect_argv: sk_utils.c 232-249; a failed connect removes the registration. *)
Definition this_q_connect (e : env) (fd dest timeo maxp chk data event argc : Z) (argv : arr) : outcome (Z * option reg * list hcall) :=
  let* r := add_fd_argv e fd timeo maxp 0 IOFD_NOT_READY DRecv DSend chk data event argc argv in
  if fst r <? 0 then Ok (fst r, None, [])
  else if e_connect e <? 0 then Ok (e_connect e, None, [HConnect fd dest])
  else Ok (0, snd r, [HConnect fd dest]).
(** aosl_mpq_connect: 251-284. *)
Definition aosl_mpq_connect (e : env) (fd dest timeo maxp chk data event : Z) (args : list Z) : outcome result :=
  let argc := Z.of_nat (length args) in
  if MPQ_ARGC_MAX <? argc then Ok (return_err (- AOSL_E2BIG) None [])
  else if negb (e_q e) then Ok (return_err (- AOSL_EINVAL) None [])
  else let* a := poke_list (alloca argc) 0 args in
       let* r := this_q_connect e fd dest timeo maxp chk data event argc a in
       Ok (return_err (fst (fst r)) (snd (fst r)) (snd r)).
(** ____target_q_connect: 286-301; note the 9. *)
Definition target_q_connect (e : env) (argc : Z) (argv : arr) : outcome (Z * option reg * list hcall) :=
  let* fd := peek argv 1 in let* dest := peek argv 2 in let* timeo := peek argv 3 in let* mp := peek argv 4 in
  let* chk := peek argv 5 in let* data := peek argv 6 in let* ev := peek argv 7 in
  let* rest := tail_of 9 argv in
  this_q_connect e (s32 fd) dest (s32 timeo) mp chk data ev (u64 (argc - 9)) rest.
(** aosl_mpq_connect_on_q: 303-351; 9 + argc words are filled (argv [8] is not written), 8 + argc are passed. *)
Definition aosl_mpq_connect_on_q (e : env) (err_addr fd dest timeo maxp chk data event : Z) (args : list Z) : outcome result :=
  let argc := Z.of_nat (length args) in
  if MPQ_ARGC_MAX <? argc then Ok (return_err (- AOSL_E2BIG) None [])
  else if negb (e_q e) then Ok (return_err (- AOSL_EINVAL) None [])
  else let* a := poke_list (alloca (9 + argc)) 0 [err_addr; fd; dest; timeo; maxp; chk; data; event] in
       let* a := poke_list a 9 args in
       let* c := call_argv e (8 + argc) a in
       match c with
       | inl n => Ok (return_err (- n) None [])
       | inr (n, av) => let* r := target_q_connect e n av in Ok (return_err (fst (fst r)) (snd (fst r)) (snd r))
       end.
