(** * Specification of packet buffers: a byte sequence in a window *)
From Verif Require Import Base Psb.

(** The bytes currently stored. *)
Definition psb_content (b : psb) : list Z :=
  firstn (Z.to_nat (pb_len b)) (skipn (Z.to_nat (pb_off b)) (pb_mem b)).

(** The data window lies inside the block. *)
Definition psb_ok (b : psb) : Prop :=
  0 <= pb_off b /\ 0 <= pb_len b /\ pb_off b + pb_len b <= pb_size b.

(** Abstract buffer: free bytes in front, content, free bytes behind. *)
Record abuf := mkAbuf { a_head : Z; a_bytes : list Z; a_tail : Z }.

Definition alen (a : abuf) : Z := Z.of_nat (length (a_bytes a)).
Definition zlen (bs : list Z) : Z := Z.of_nat (length bs).

Definition abs_psb (b : psb) : abuf :=
  mkAbuf (pb_off b) (psb_content b) (pb_size b - pb_off b - pb_len b).

(** What each user step does to the abstract buffer. *)
Definition abufstep (a : abuf) (op : bufop) : abuf * bufev :=
  match op with
  | UPut bs =>
      if zlen bs <=? a_tail a
      then (mkAbuf (a_head a) (a_bytes a ++ bs) (a_tail a - zlen bs), EOk [])
      else (a, EFail (- AOSL_ENOSPC))
  | UGet n =>
      if n <=? alen a
      then (mkAbuf (a_head a + n) (skipn (Z.to_nat n) (a_bytes a)) (a_tail a),
            EOk (firstn (Z.to_nat n) (a_bytes a)))
      else (a, EFail (- AOSL_ENOSPC))
  | UPeek n =>
      if n <=? alen a then (a, EOk (firstn (Z.to_nat n) (a_bytes a)))
      else (a, EFail (- AOSL_ENOSPC))
  | UPush bs =>
      if zlen bs <=? a_head a
      then (mkAbuf (a_head a - zlen bs) (bs ++ a_bytes a) (a_tail a), EOk [])
      else (a, EFail (- AOSL_ENOSPC))
  | UPull n =>
      if n <=? alen a
      then (mkAbuf (a_head a + n) (skipn (Z.to_nat n) (a_bytes a)) (a_tail a), EOk [])
      else (a, EFail (- AOSL_ENOSPC))
  | UReserve n =>
      if 0 <? alen a then (a, EFail (- AOSL_EPERM))
      else if n <=? a_tail a then (mkAbuf (a_head a + n) (a_bytes a) (a_tail a - n), EOk [])
      else (a, EFail (- AOSL_ENOSPC))
  end.

Fixpoint abufrun (a : abuf) (ops : list bufop) : abuf * list bufev :=
  match ops with
  | [] => (a, [])
  | o :: ops' =>
      let (a1, e) := abufstep a o in
      let (a2, es) := abufrun a1 ops' in
      (a2, e :: es)
  end.

(** Lengths that fit a non-negative int. *)
Definition fits_int (n : Z) : Prop := 0 <= n < 2 ^ 31.
Definition op_fits (op : bufop) : Prop :=
  match op with
  | UPut bs | UPush bs => fits_int (zlen bs)
  | UGet n | UPeek n | UPull n | UReserve n => fits_int n
  end.
