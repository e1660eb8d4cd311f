(** * Specification vocabulary for C36, C39, C40 *)
From Verif Require Import Base.

(** Memory image of an [n]-byte unsigned integer on a little-endian machine:
    least significant byte first. *)
Fixpoint le_bytes (n : nat) (x : Z) : list Z :=
  match n with
  | O => []
  | S n' => x mod 256 :: le_bytes n' (x / 256)
  end.

(** Network order: most significant byte first. *)
Definition be_bytes (n : nat) (x : Z) : list Z := rev (le_bytes n x).

(** The number a little-endian byte sequence stands for. *)
Fixpoint le_val (l : list Z) : Z :=
  match l with [] => 0 | b :: l' => b + 256 * le_val l' end.

Definition is_byte (b : Z) : Prop := 0 <= b < 256.

(** The moduli of the wrapping counters. *)
Definition wmod (m : Z) : Prop := m = 2 ^ 16 \/ m = 2 ^ 32 \/ m = 2 ^ 64.
