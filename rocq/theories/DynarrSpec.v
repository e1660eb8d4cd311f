(** * Specification of dynamic arrays: each array object is a sequence of bytes
    ([es i] bytes per element), and owns exactly one block when it has capacity. *)
From Verif Require Import Base PsbSpec Dynarr.

(** The abstract content of array [i]. *)
Definition seq_of (es : nat -> Z) (w : world) (i : nat) : list Z :=
  match d_values (w_arr w i) with
  | Some b => match w_heap w b with
              | Some l => firstn (Z.to_nat (es i * d_count (w_arr w i))) l
              | None => []
              end
  | None => []
  end.

(** Well-formed: the count does not exceed the capacity, the storage has the
    size of the capacity, no two arrays share storage, and every live block
    belongs to an array (nothing leaks, nothing dangles). *)
Record wf (es : nat -> Z) (w : world) : Prop := {
  wf_es : forall i, 1 <= es i < 2 ^ 32;
  wf_range : forall i, 0 <= d_count (w_arr w i) <= d_alloc (w_arr w i) /\ d_alloc (w_arr w i) < 65536;
  wf_null : forall i, d_values (w_arr w i) = None -> d_alloc (w_arr w i) = 0;
  wf_block : forall i b, d_values (w_arr w i) = Some b ->
    0 < d_alloc (w_arr w i) /\ exists l, w_heap w b = Some l /\ zlen l = es i * d_alloc (w_arr w i);
  wf_apart : forall i j b, d_values (w_arr w i) = Some b -> d_values (w_arr w j) = Some b -> i = j;
  wf_live : forall b, w_heap w b <> None -> exists i, d_values (w_arr w i) = Some b;
  wf_next : forall b, (w_next w <= b)%nat -> w_heap w b = None }.

(** All arrays empty, nothing allocated. *)
Definition empty_world : world := mkWorld (fun _ => mkDyn 0 0 None) (fun _ => None) 0.

(** The bytes a caller passes: from outside, or from the content of another array. *)
Definition source_bytes (es : nat -> Z) (w : world) (i : nat) (s : source) (bs : list Z) : Prop :=
  match s with
  | Ext l => l = bs
  | Inside b off => exists j, j <> i /\ d_values (w_arr w j) = Some b /\ 0 <= off /\
      off + zlen bs <= zlen (seq_of es w j) /\
      bs = firstn (length bs) (skipn (Z.to_nat off) (seq_of es w j))
  end.

(** Only array [i] changed, to [l]. *)
Definition becomes (es : nat -> Z) (w w' : world) (i : nat) (l : list Z) : Prop :=
  seq_of es w' i = l /\ forall j, j <> i -> seq_of es w' j = seq_of es w j.
Definition unchanged (es : nat -> Z) (w w' : world) : Prop := forall j, seq_of es w' j = seq_of es w j.
