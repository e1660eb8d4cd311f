(** * Model of byte swapping, error encoding and wrapping comparisons *)
From Verif Require Import Base.

(** ** include/kernel/swab.h *)

(** include/kernel/swab.h 15-17 [aosl___constant_swab16], 36-40. The [int]
    arithmetic of the shifts does not overflow. *)
Definition swab16 (x : Z) : Z :=
  u16 (Z.lor (Z.shiftl (Z.land (u16 x) 0x00ff) 8)
             (Z.shiftr (Z.land (u16 x) 0xff00) 8)).

(** include/kernel/swab.h 19-23 [aosl___constant_swab32]; each [<<] wraps to 32 bits. *)
Definition swab32 (x : Z) : Z :=
  let x := u32 x in
  u32 (Z.lor (Z.lor (Z.lor (u32 (Z.shiftl (Z.land x 0x000000ff) 24))
                           (u32 (Z.shiftl (Z.land x 0x0000ff00) 8)))
                    (Z.shiftr (Z.land x 0x00ff0000) 8))
             (Z.shiftr (Z.land x 0xff000000) 24)).

(** include/kernel/swab.h 25-33 [aosl___constant_swab64]. *)
Definition swab64 (x : Z) : Z :=
  let x := u64 x in
  u64 (Z.lor (Z.lor (Z.lor (Z.lor (Z.lor (Z.lor (Z.lor
        (u64 (Z.shiftl (Z.land x 0x00000000000000ff) 56))
        (u64 (Z.shiftl (Z.land x 0x000000000000ff00) 40)))
        (u64 (Z.shiftl (Z.land x 0x0000000000ff0000) 24)))
        (u64 (Z.shiftl (Z.land x 0x00000000ff000000) 8)))
        (Z.shiftr (Z.land x 0x000000ff00000000) 8))
        (Z.shiftr (Z.land x 0x0000ff0000000000) 24))
        (Z.shiftr (Z.land x 0x00ff000000000000) 40))
        (Z.shiftr (Z.land x 0xff00000000000000) 56)).

(** lib/byteswap.c 15-23 [aosl_bswap_32], [aosl_bswap_64]. *)
Definition aosl_bswap_32 (v : Z) : Z := swab32 v.
Definition aosl_bswap_64 (v : Z) : Z := swab64 v.

(** include/kernel/byteorder/little_endian.h 23-37: on a little-endian CPU the
    conversions to big endian are swaps, those to little endian identities. *)
Definition cpu_to_be16 := swab16.
Definition cpu_to_be32 := swab32.
Definition cpu_to_be64 := swab64.
Definition cpu_to_le16 (x : Z) := u16 x.
Definition cpu_to_le32 (x : Z) := u32 x.
Definition cpu_to_le64 (x : Z) := u64 x.

(** include/kernel/swab.h 99-104 [aosl__bswap_mem]: byte [i] of [dst] := byte
    [len-i-1] of [src], for i = 0, 1, ...; the memory is one list of bytes,
    [dst] and [src] are addresses in it (they may overlap). *)
Fixpoint bswap_mem_loop (mem : list Z) (dst src : nat) (len : nat) (i : nat) (k : nat)
  : outcome (list Z) :=
  match k with
  | O => Ok mem
  | S k' =>
      match nth_error mem (src + (len - i - 1)) with
      | None => UB
      | Some b =>
          if (length mem <=? dst + i)%nat then UB
          else bswap_mem_loop (upd mem (dst + i) b) dst src len (S i) k'
      end
  end.
Definition bswap_mem (mem : list Z) (dst src len : nat) : outcome (list Z) :=
  bswap_mem_loop mem dst src len 0 len.

(** ** include/kernel/err.h *)
Definition MAX_ERRNO : Z := 4095.   (* include/kernel/err.h 25 *)

(** include/kernel/err.h 27 [IS_ERR_VALUE]; 64 bit pointers. *)
Definition IS_ERR_VALUE (x : Z) : bool := u64 (- MAX_ERRNO) <=? u64 (s64 x).

(** include/kernel/err.h 29-47: a pointer is a 64 bit number. *)
Definition ERR_PTR (e : Z) : Z := u64 e.
Definition PTR_ERR (p : Z) : Z := s64 p.
Definition IS_ERR (p : Z) : bool := IS_ERR_VALUE p.
Definition IS_ERR_OR_NULL (p : Z) : bool := (p =? 0) || IS_ERR_VALUE p.

(** What a function that ends in one of the return macros does: the new errno
    (when it sets one) and the returned value. [aosl_errno] is an int. *)
Definition set_error (err : Z) : Z := s32 (- err).       (* include/kernel/err.h 50 *)

(** include/kernel/err.h 77-84 [return_err] in a function returning int. *)
Definition return_err (err : Z) : option Z * Z :=
  let e := s64 err in
  if IS_ERR_VALUE e then (Some (set_error e), -1) else (None, s32 e).

(** include/kernel/err.h 86-91 [return_errno] in a function returning int. *)
Definition return_errno (err : Z) : Z :=
  let e := s64 err in if IS_ERR_VALUE e then s32 (- e) else s32 e.

(** include/kernel/err.h 93-111 [return_ptr_err]. *)
Definition return_ptr_err (p : Z) : option Z * Z :=
  if IS_ERR_VALUE p then (Some (set_error (s64 p)), 0)
  else if p =? 0 then (Some 0, 0) else (None, p).

(** include/kernel/err.h 52-75 [aosl_hal_set_error] with the codes of
    platform/include/hal/aosl_hal_errno.h and include/api/aosl_errno.h 124, 133:
    the new errno (when set) and the result. *)
Definition AOSL_EHAL : Z := AOSL_EBASE + 1000.
Definition AOSL_EINPROGRESS : Z := AOSL_EBASE + 115.
Definition hal_set_error (err : Z) : option Z * Z :=
  if err <? 0 then
    let newerr := if err =? -2002 then AOSL_EINTR
                  else if err =? -2001 then AOSL_EAGAIN
                  else if err =? -2003 then AOSL_EINPROGRESS
                  else AOSL_EHAL in
    (Some (set_error (- newerr)), - newerr)
  else (None, 0).

(** ** include/api/aosl_integer_wrappings.h

    The 16, 32 and 64 bit functions (lines 32-70, 72-108, 110-146) have the same
    text; [m] is 2^16, 2^32 or 2^64. *)
Definition wadd (m a b : Z) : Z := (a + b) mod m.                    (* 21-24 *)
Definition wsub (m a b : Z) : Z := (a - b) mod m.                    (* 26-29 *)
Definition wafter (m a b : Z) : bool := 0 <? wrap_signed m (a - b).   (* 32-35 *)
Definition wbefore (m a b : Z) : bool := wafter m b a.               (* 36 *)
Definition wafter_eq (m a b : Z) : bool := 0 <=? wrap_signed m (a - b). (* 38-41 *)
Definition wbefore_eq (m a b : Z) : bool := wafter_eq m b a.         (* 42 *)
Definition win_range (m x a b : Z) : bool := wafter_eq m x a && wbefore_eq m x b. (* 44 *)
Definition wprev (m v : Z) : Z := (v - 1) mod m.                     (* 46-49 *)
Definition wnext (m v : Z) : Z := (v + 1) mod m.                     (* 51-54 *)
Definition wdist (m a b : Z) : Z :=                                  (* 56-62 *)
  if wafter m a b then (a - b) mod m else (b - a) mod m.
