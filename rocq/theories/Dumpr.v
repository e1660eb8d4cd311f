(** * Model of aosl_memdump_r (mm/mm.c 334-374) with the callback of its walk (144-165), as built with CONFIG_AOSL_MEM_STAT and CONFIG_AOSL_MEM_DUMP.

    The memory from the start of the caller's buffer on is a list of bytes, as in Rtstr.v, whose stores and snprintf are used; [far] is how far it has been written.
    Simplified: what an entry prints ("pos_node: cnts=.. size=.. f:line" between quotes, then a comma and a newline: 155-156) is any text; an entry that MM_IGNORE_NODE_CHECK leaves out is None; the walk visits the entries of the tree in order and ends when the callback returns 1 (C11). *)
From Verif Require Import Base Rtstr.

(** __mm_pos_walk_r over the entries: 144-165.  [o]: mm_arg->buf - buf; [len]: mm_arg->len; [k]: mm_arg->index. *)
Fixpoint walk (es : list (option (list Z))) (m : mem) (o len k : Z) : mem * Z * Z * Z :=
  match es with
  | [] => (m, o, len, k)
  | e :: r =>
      if len <? 1 then (m, o, len, k) else
      match e with
      | None => walk r m o len k
      | Some t =>
          let m := snprintf m o len t in
          let ret := Z.of_nat (length t) in
          if (ret >=? len) || (ret <=? 0) then (put m o [0], o, len, k)
          else walk r m (o + ret) (len - ret) (k + 1)
      end
  end.
(** The byte at [o]. *)
Definition byte (m : mem) (o : Z) : Z := nth (Z.to_nat o) (bytes m) 0.
(** aosl_memdump_r: 334-374, when the accounting runs ([on], 337).  The result; cnts; the memory. *)
Definition memdump_r (on : bool) (es : list (option (list Z))) (m : mem) (len : Z) : Z * (Z * Z) * mem :=
  if negb on then (-1, (0, 0), m) else
  if len <=? 0 then (-1, (0, 0), m) else
  let '(m, o, rest, k) := walk es m 0 len 0 in
  let '(m, vlen) := if rest <? len then let vlen := len - rest - 1 - 1 in ((if byte m vlen =? 44 then put m vlen [0] else m), vlen) else (m, 0) in
  (0, (Z.of_nat (length es), k), put m (vlen + 1) [0]).
