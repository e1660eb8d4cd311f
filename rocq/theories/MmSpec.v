(** * What the memory statistics should say (specification). *)
From Verif Require Import Base Mm.

(** The code positions of a collection of blocks, each once. *)
Definition positions (l : list blk) : list nat :=
  nodup Nat.eq_dec (flat_map (fun b => match b_pos b with Some k => [k] | None => [] end) l).
(** What the live blocks cost: their sizes, a node per block, a node per code position. *)
Definition cost (z : sizes) (l : list blk) : Z :=
  fold_right (fun b a => b_size b + z_node z + a) 0 l + z_pos z * Z.of_nat (length (positions l)).
(** How many blocks of l were allocated at position k, and their total size. *)
Definition at_pos (k : nat) (l : list blk) : list blk :=
  filter (fun b => match b_pos b with Some j => (j =? k)%nat | None => false end) l.
Definition total (l : list blk) : Z := fold_right (fun b a => b_size b + a) 0 l.
