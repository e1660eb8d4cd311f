(** * Model of dynamic arrays, byte strings and strings: lib/marshalling.c 22-198,
    include/api/aosl_marshalling.h 53-66.

    The heap maps block numbers to their bytes; a freed block is gone, and
    touching it, or going past the end of a block, is [UB].  Array objects have
    numbers, so that an operation may be given the same object twice.

    Simplifications: the bytes given to strcat/strcpy are not inside an array
    (the elements given to add_elems may be); pointers into a block are a block
    number and an offset; aosl_dynamic_array_init_with is not modelled. *)
From Verif Require Import Base PsbSpec.

(** aosl_dynamic_array_t; [d_values = None] is NULL. *)
Record dyn := mkDyn { d_count : Z; d_alloc : Z; d_values : option nat }.

Record world := mkWorld { w_arr : nat -> dyn; w_heap : nat -> option (list Z); w_next : nat }.

(** The allocator: does the i-th call succeed, what do fresh blocks contain? *)
Record denv := mkDEnv { d_ok : nat -> bool; d_junk : nat -> nat -> Z }.

Definition DYNAMIC_ARRAY_MAX_COUNT : Z := 10240.   (* 22 *)
Definition DYNAMIC_ARRAY_GROW_STRIDE : Z := 4.     (* 23 *)
Definition DYNAMIC_BYTES_GROW_STRIDE : Z := 16.    (* 24 *)

Definition set_arr (w : world) (i : nat) (d : dyn) : world :=
  mkWorld (fun j => if (j =? i)%nat then d else w_arr w j) (w_heap w) (w_next w).
Definition set_block (w : world) (b : nat) (l : option (list Z)) : world :=
  mkWorld (w_arr w) (fun c => if (c =? b)%nat then l else w_heap w c) (w_next w).

(** [n] bytes at offset [off] of block [b]. *)
Definition rd (w : world) (b : nat) (off n : Z) : option (list Z) :=
  match w_heap w b with
  | None => None
  | Some l => if (0 <=? off) && (0 <=? n) && (off + n <=? zlen l)
              then Some (firstn (Z.to_nat n) (skipn (Z.to_nat off) l)) else None
  end.
Definition wr (w : world) (b : nat) (off : Z) (bs : list Z) : outcome world :=
  match w_heap w b with
  | None => UB
  | Some l => if (0 <=? off) && (off + zlen bs <=? zlen l)
              then Ok (set_block w b (Some (firstn (Z.to_nat off) l ++ bs ++ skipn (Z.to_nat off + length bs) l)))
              else UB
  end.
(** memcpy out of / into "values": length 0 touches nothing. *)
Definition rd_values (w : world) (v : option nat) (off n : Z) : outcome (list Z) :=
  if n =? 0 then Ok []
  else match v with
       | None => UB
       | Some b => match rd w b off n with Some bs => Ok bs | None => UB end
       end.
Definition wr_values (w : world) (v : option nat) (off : Z) (bs : list Z) : outcome world :=
  match v with None => UB | Some b => wr w b off bs end.

Definition dmalloc (E : denv) (w : world) (n : Z) : option nat * world :=
  let k := w_next w in
  if d_ok E k then
    (Some k, mkWorld (w_arr w) (fun c => if (c =? k)%nat then Some (map (d_junk E k) (seq 0 (Z.to_nat n))) else w_heap w c) (S k))
  else (None, mkWorld (w_arr w) (w_heap w) (S k)).
Definition dfree (w : world) (v : option nat) : outcome world :=
  match v with
  | None => Ok w
  | Some b => match w_heap w b with None => UB | Some _ => Ok (set_block w b None) end
  end.

(** The elements to add: bytes outside the heap, or a pointer into a block. *)
Inductive source := Ext (bs : list Z) | Inside (b : nat) (off : Z).
Definition fetch (w : world) (s : source) (n : Z) : outcome (list Z) :=
  match s with
  | Ext bs => if zlen bs =? n then Ok bs else UB
  | Inside b off => match rd w b off n with Some bs => Ok bs | None => UB end
  end.

(** aosl_dynamic_array_init, 26-31. *)
Definition dyn_init (w : world) (i : nat) : world := set_arr w i (mkDyn 0 0 None).

(** "while (allocated < target) allocated += stride;" on uint16_t, 54-55 and
    156-157; the fuel exceeds any number of rounds. *)
Fixpoint grow (fuel : nat) (stride allocated target : Z) : Z :=
  match fuel with
  | O => allocated
  | S f => if allocated <? target then grow f stride (u16 (allocated + stride)) target else allocated
  end.
Definition grow_fuel : nat := Z.to_nat 65536.

(** Lines 57-70 and 159-172: make the capacity [allocated]. *)
Definition regrow (E : denv) (w : world) (i : nat) (elem_size allocated : Z) : outcome (bool * world) :=
  let d := w_arr w i in
  if d_alloc d <? allocated then
    match dmalloc E w (u64 (elem_size * allocated)) with
    | (None, w1) => Ok (false, w1)
    | (Some b, w1) =>
        let* w2 := (if 0 <? d_count d then
                      let* bs := rd_values w1 (d_values d) 0 (u64 (elem_size * d_count d)) in wr w1 b 0 bs
                    else Ok w1) in
        let* w3 := (if 0 <? d_alloc d then dfree w2 (d_values d) else Ok w2) in
        Ok (true, set_arr w3 i (mkDyn (d_count d) allocated (Some b)))
    end
  else Ok (true, w).

(** aosl_dynamic_array_add_elems, 40-78. *)
Definition add_elems (E : denv) (w : world) (i : nat) (elems : source) (elem_size nelems : Z) : outcome (Z * world) :=
  let d := w_arr w i in
  if DYNAMIC_ARRAY_MAX_COUNT <=? d_count d then Ok (- AOSL_E2BIG, w)
  else if DYNAMIC_ARRAY_MAX_COUNT <=? nelems then Ok (- AOSL_E2BIG, w)
  else if DYNAMIC_ARRAY_MAX_COUNT <=? u64 (nelems + d_count d) then Ok (- AOSL_E2BIG, w)
  else
    let allocated := grow grow_fuel DYNAMIC_ARRAY_GROW_STRIDE (d_alloc d) (u16 (d_count d + nelems)) in
    let* (ok, w1) := regrow E w i elem_size allocated in
    if negb ok then Ok (- AOSL_ENOMEM, w1)
    else if 0 <? nelems then
      let d1 := w_arr w1 i in
      let* bs := fetch w1 elems (u64 (elem_size * nelems)) in
      let* w2 := wr_values w1 (d_values d1) (u64 (elem_size * d_count d1)) bs in
      Ok (0, set_arr w2 i (mkDyn (u16 (d_count d1 + nelems)) (d_alloc d1) (d_values d1)))
    else Ok (0, w1).

(** aosl_dynamic_array_take, 80-92; the fields are copied one by one, so that
    dst = src empties the array. *)
Definition take (w : world) (dst src : nat) : outcome world :=
  let* w1 := (if 0 <? d_alloc (w_arr w dst) then dfree w (d_values (w_arr w dst)) else Ok w) in
  let w2 := set_arr w1 dst (w_arr w1 src) in
  Ok (set_arr w2 src (mkDyn 0 0 None)).

(** aosl_dynamic_array_is_empty, 94-97. *)
Definition is_empty (w : world) (i : nat) : Z := if d_count (w_arr w i) =? 0 then 1 else 0.

(** aosl_dynamic_bytes_copy, 99-120. *)
Definition bytes_copy (E : denv) (w : world) (dst src : nat) : outcome (Z * world) :=
  let s := w_arr w src in
  let finish v w1 :=
    let* w2 := (if 0 <? d_alloc (w_arr w1 dst) then dfree w1 (d_values (w_arr w1 dst)) else Ok w1) in
    let s2 := w_arr w2 src in
    Ok (0, set_arr w2 dst (mkDyn (d_count s2) (d_alloc s2) v)) in
  if 0 <? d_alloc s then
    match dmalloc E w (d_alloc s) with
    | (None, w1) => Ok (-1, w1)
    | (Some b, w1) =>
        let* bs := rd_values w1 (d_values s) 0 (d_count s) in
        let* w2 := wr w1 b 0 bs in
        let* w3 := (if d_count s <? d_alloc s then wr w2 b (d_count s) [0] else Ok w2) in
        finish (Some b) w3
    end
  else finish None w.

(** memcmp (the sign is what C guarantees). *)
Fixpoint memcmp (a b : list Z) : Z :=
  match a, b with
  | x :: a', y :: b' => if x =? y then memcmp a' b' else x - y
  | _, _ => 0
  end.
(** aosl_dynamic_bytes_compare, 122-128. *)
Definition bytes_compare (w : world) (i j : nat) : outcome Z :=
  let a := w_arr w i in
  let b := w_arr w j in
  if negb (d_count a =? d_count b) then Ok (d_count a - d_count b)
  else
    let* x := rd_values w (d_values a) 0 (d_count a) in
    let* y := rd_values w (d_values b) 0 (d_count b) in
    Ok (memcmp x y).

(** aosl_dynamic_bytes_add_data, 130-133. *)
Definition add_data (E : denv) (w : world) (i : nat) (data : source) (len : Z) := add_elems E w i data 1 len.
(** aosl_dynamic_bytes_copy_data, 135-139. *)
Definition copy_data (E : denv) (w : world) (i : nat) (data : source) (len : Z) :=
  let d := w_arr w i in add_elems E (set_arr w i (mkDyn 0 (d_alloc d) (d_values d))) i data 1 len.

(** aosl_dynamic_string_strcat, 141-181; [str] without its NUL. *)
Definition strcat (E : denv) (w : world) (i : nat) (str : list Z) : outcome (Z * world) :=
  let d := w_arr w i in
  let len := zlen str in
  if DYNAMIC_ARRAY_MAX_COUNT <=? d_count d then Ok (- AOSL_E2BIG, w)
  else if DYNAMIC_ARRAY_MAX_COUNT <=? len then Ok (- AOSL_E2BIG, w)
  else if DYNAMIC_ARRAY_MAX_COUNT <=? u64 (len + d_count d) then Ok (- AOSL_E2BIG, w)
  else
    let allocated := grow grow_fuel DYNAMIC_BYTES_GROW_STRIDE (d_alloc d) (u16 (d_count d + len + 1)) in
    let* (ok, w1) := regrow E w i 1 allocated in
    if negb ok then Ok (- AOSL_ENOMEM, w1)
    else
      let d1 := w_arr w1 i in
      let* w2 := (if 0 <? len then
                    let* w' := wr_values w1 (d_values d1) (d_count d1) str in
                    Ok (set_arr w' i (mkDyn (u16 (d_count d1 + len)) (d_alloc d1) (d_values d1)))
                  else Ok w1) in
      let* w3 := wr_values w2 (d_values (w_arr w2 i)) (d_count (w_arr w2 i)) [0] in
      Ok (0, w3).
(** aosl_dynamic_string_strcpy, 183-187. *)
Definition strcpy (E : denv) (w : world) (i : nat) (str : list Z) : outcome (Z * world) :=
  let d := w_arr w i in strcat E (set_arr w i (mkDyn 0 (d_alloc d) (d_values d))) i str.

(** aosl_dynamic_string_strcpy_out, 189-198: what is written to [buf]. *)
Definition strcpy_out (w : world) (i : nat) (buf_sz : Z) : outcome (list Z) :=
  let n := d_count (w_arr w i) in
  let n := if buf_sz <=? n then u64 (buf_sz - 1) else n in
  let* bs := rd_values w (d_values (w_arr w i)) 0 n in
  if n + 1 <=? buf_sz then Ok (bs ++ [0]) else UB.
