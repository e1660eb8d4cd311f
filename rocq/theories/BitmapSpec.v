(** * What a bitmap is for its user: a set of indices below [n]. *)
From Verif Require Import Base Bitmap.

(** Does operation [o] decide bit [i], and to what value? *)
Definition decides (o : bop) (i : Z) : option bool :=
  match o with
  | BSet j => if j =? i then Some true else None
  | BClear j => if j =? i then Some false else None
  | BReset => Some false
  end.

(** Value of bit [i] after a history (oldest operation first): the value given
    by the last operation that decides it, initially 0. *)
Fixpoint last_decision (ops : list bop) (i : Z) (cur : bool) : bool :=
  match ops with
  | [] => cur
  | o :: ops' =>
      last_decision ops' i (match decides o i with Some v => v | None => cur end)
  end.

Definition bit_after (ops : list bop) (i : Z) : bool := last_decision ops i false.

(** Operations an API user can express: indices are uint8_t. *)
Definition bop_wf (o : bop) : Prop :=
  match o with
  | BSet i | BClear i => 0 <= i < 256
  | BReset => True
  end.
