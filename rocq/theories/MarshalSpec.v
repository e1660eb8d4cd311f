(** * Specification of marshalling: values, their representation in memory,
    their wire format, and well-formed type descriptions.

    Nothing here refers to the marshalling code; only the memory, the type
    descriptions and get_type_size (the size of an array element) are shared. *)

From Verif Require Import Base Psb PsbSpec Marshal.

(** A value of a described type, without addresses: raw bytes (numbers, byte
    arrays, strings without their NUL), an optional target (pointers, strings)
    or a sequence (structures, arrays). *)
Inductive val :=
| VVoid
| VBytes (bs : list Z)
| VNull
| VSome (v : val)
| VSeq (vs : list val).

(** Number of bytes of the plain types. *)
Definition plain_size (i : tid) : option Z :=
  match i with
  | TInt8 => Some 1 | TInt16 => Some 2
  | TInt32 | TFloat | TV4 => Some 4
  | TInt64 | TDouble => Some 8
  | TV6 => Some 16
  | _ => None
  end.

(** What sizeof means for the described types (size_t arithmetic, 64 bit). *)
Inductive size_of (T : ttab) : nat -> Z -> Prop :=
| SZ_void t ti : nth_error T t = Some ti -> ti_id ti = TVoid -> size_of T t 0
| SZ_plain t ti n : nth_error T t = Some ti -> plain_size (ti_id ti) = Some n -> size_of T t n
| SZ_address t ti : nth_error T t = Some ti -> ti_id ti = TPointer \/ ti_id ti = TString -> size_of T t 8
| SZ_reference t ti n : nth_error T t = Some ti -> ti_id ti = TReference -> size_of T (ti_child ti) n -> size_of T t n
| SZ_struct t ti : nth_error T t = Some ti -> ti_id ti = TStruct -> size_of T t (ti_obj_size ti)
| SZ_bytes t ti : nth_error T t = Some ti ->
    ti_id ti = TFixedBytes \/ ti_id ti = TVarBytes \/ ti_id ti = TBytesNil -> size_of T t (ti_array_size ti)
| SZ_array t ti n : nth_error T t = Some ti -> ti_id ti = TFixedArray \/ ti_id ti = TVarArray ->
    size_of T (ti_child ti) n -> size_of T t ((n * ti_array_size ti) mod 2 ^ 64)
| SZ_dynamic t ti : nth_error T t = Some ti ->
    ti_id ti = TDynBytes \/ ti_id ti = TDynString \/ ti_id ti = TDynArray -> size_of T t 16.

Definition no_nul (s : list Z) : Prop := Forall (fun b => b <> 0) s.
Definition all_bytes (bs : list Z) : Prop := Forall (fun b => 0 <= b < 256) bs.

(** The addresses [a, a+n). *)
Definition range (a : Z) (n : Z) : list Z := map (fun i => a + Z.of_nat i) (seq 0 (Z.to_nat n)).

(** ** Representation: [holds T m t p v F] - at the base address [p] memory [m]
    contains an object of type [t] with value [v]; [F] lists the addresses that
    matter.  Only types without is_have callback. *)
Section Holds.
  Variable T : ttab.
  Variable m : mem.

  Definition num_at (a : Z) (n : nat) (v : Z) : Prop :=
    exists bs, mread m a n = Some bs /\ all_bytes bs /\ le_val bs = v.
  Definition bytes_at (a : Z) (bs : list Z) : Prop := mread m a (length bs) = Some bs.

  Inductive holds : nat -> Z -> val -> list Z -> Prop :=
  | H_void t ti p :
      nth_error T t = Some ti -> ti_have ti = None -> ti_id ti = TVoid ->
      holds t p VVoid []
  | H_plain t ti p n bs :
      nth_error T t = Some ti -> ti_have ti = None -> plain_size (ti_id ti) = Some n ->
      bytes_at (p + ti_off ti) bs -> zlen bs = n -> all_bytes bs ->
      holds t p (VBytes bs) (range (p + ti_off ti) n)
  | H_null t ti p :
      nth_error T t = Some ti -> ti_have ti = None -> ti_id ti = TPointer \/ ti_id ti = TString ->
      num_at (p + ti_off ti) 8 0 ->
      holds t p VNull (range (p + ti_off ti) 8)
  | H_pointer t ti p q v F :
      nth_error T t = Some ti -> ti_have ti = None -> ti_id ti = TPointer ->
      num_at (p + ti_off ti) 8 q -> q <> 0 -> holds (ti_child ti) q v F ->
      holds t p (VSome v) (range (p + ti_off ti) 8 ++ F)
  | H_reference t ti p v F :
      nth_error T t = Some ti -> ti_have ti = None -> ti_id ti = TReference ->
      holds (ti_child ti) (p + ti_off ti) v F ->
      holds t p v F
  | H_string t ti p q s :
      nth_error T t = Some ti -> ti_have ti = None -> ti_id ti = TString ->
      num_at (p + ti_off ti) 8 q -> q <> 0 ->
      bytes_at q (s ++ [0]) -> no_nul s -> zlen s + 1 < 65536 ->
      holds t p (VSome (VBytes s)) (range (p + ti_off ti) 8 ++ range q (zlen s + 1))
  | H_struct t ti p vs F :
      nth_error T t = Some ti -> ti_have ti = None -> ti_id ti = TStruct ->
      holds_fields (ti_child ti) (p + ti_off ti) vs F ->
      holds t p (VSeq vs) F
  | H_fixed_bytes t ti p bs :
      nth_error T t = Some ti -> ti_have ti = None -> ti_id ti = TFixedBytes ->
      bytes_at (p + ti_off ti) bs -> zlen bs = ti_array_size ti ->
      holds t p (VBytes bs) (range (p + ti_off ti) (ti_array_size ti))
  | H_var_bytes t ti p bs :
      nth_error T t = Some ti -> ti_have ti = None -> ti_id ti = TVarBytes ->
      num_at (p + ti_cnt ti) 2 (zlen bs) -> zlen bs <= ti_array_size ti ->
      bytes_at (p + ti_off ti) bs ->
      holds t p (VBytes bs) (range (p + ti_cnt ti) 2 ++ range (p + ti_off ti) (zlen bs))
  | H_bytes_nil t ti p s :
      nth_error T t = Some ti -> ti_have ti = None -> ti_id ti = TBytesNil ->
      bytes_at (p + ti_off ti) (s ++ [0]) -> no_nul s -> zlen s + 1 < 65536 ->
      zlen s + 1 <= ti_array_size ti ->
      holds t p (VBytes s) (range (p + ti_off ti) (zlen s + 1))
  | H_dyn_empty t ti p :
      nth_error T t = Some ti -> ti_have ti = None -> ti_id ti = TDynBytes \/ ti_id ti = TDynString ->
      num_at (p + ti_off ti) 2 0 ->
      holds t p (VBytes []) (range (p + ti_off ti) 2)
  | H_dyn_bytes t ti p q bs :
      nth_error T t = Some ti -> ti_have ti = None -> ti_id ti = TDynBytes \/ ti_id ti = TDynString ->
      num_at (p + ti_off ti) 2 (zlen bs) -> bs <> [] -> num_at (p + ti_off ti + 8) 8 q ->
      bytes_at q bs ->
      holds t p (VBytes bs)
        (range (p + ti_off ti) 2 ++ range (p + ti_off ti + 8) 8 ++ range q (zlen bs))
  | H_fixed_array t ti p sz vs F :
      nth_error T t = Some ti -> ti_have ti = None -> ti_id ti = TFixedArray ->
      type_size T (ti_child ti) = GSize sz ->
      holds_elems (ti_child ti) (p + ti_off ti) sz 0 vs F ->
      Z.of_nat (length vs) = ti_array_size ti -> ti_array_size ti <= 65535 ->
      holds t p (VSeq vs) F
  | H_var_array t ti p sz vs F :
      nth_error T t = Some ti -> ti_have ti = None -> ti_id ti = TVarArray ->
      type_size T (ti_child ti) = GSize sz ->
      num_at (p + ti_cnt ti) 2 (Z.of_nat (length vs)) -> Z.of_nat (length vs) <= ti_array_size ti ->
      holds_elems (ti_child ti) (p + ti_off ti) sz 0 vs F ->
      holds t p (VSeq vs) (range (p + ti_cnt ti) 2 ++ F)
  | H_dyn_array_empty t ti p :
      nth_error T t = Some ti -> ti_have ti = None -> ti_id ti = TDynArray ->
      num_at (p + ti_off ti) 2 0 ->
      holds t p (VSeq []) (range (p + ti_off ti) 2)
  | H_dyn_array t ti p q sz vs F :
      nth_error T t = Some ti -> ti_have ti = None -> ti_id ti = TDynArray ->
      type_size T (ti_child ti) = GSize sz ->
      num_at (p + ti_off ti) 2 (Z.of_nat (length vs)) -> vs <> [] ->
      num_at (p + ti_off ti + 8) 8 q ->
      holds_elems (ti_child ti) q sz 0 vs F ->
      holds t p (VSeq vs) (range (p + ti_off ti) 2 ++ range (p + ti_off ti + 8) 8 ++ F)
  with holds_fields : nat -> Z -> list val -> list Z -> Prop :=
  | HF_end t ti p :
      nth_error T t = Some ti -> ti_id ti = TVoid -> holds_fields t p [] []
  | HF_cons t ti p v vs F1 F2 :
      nth_error T t = Some ti -> ti_id ti <> TVoid ->
      holds t p v F1 -> holds_fields (S t) p vs F2 ->
      holds_fields t p (v :: vs) (F1 ++ F2)
  with holds_elems : nat -> Z -> Z -> Z -> list val -> list Z -> Prop :=
  | HE_end t p sz i : holds_elems t p sz i [] []
  | HE_cons t p sz i v vs F1 F2 :
      holds t (p + sz * i) v F1 -> holds_elems t p sz (i + 1) vs F2 ->
      holds_elems t p sz i (v :: vs) (F1 ++ F2).
End Holds.

Definition represents (T : ttab) (m : mem) (t : nat) (p : Z) (v : val) : Prop :=
  exists F, holds T m t p v F.

(** ** Wire format: [wire T present t v w] - [w] encodes the value [v] of type
    [t]; [present] holds of the bytes that announce the target of a pointer or
    string (the encoder writes 1, the decoder accepts any but 0). *)
Section Wire.
  Variable T : ttab.
  Variable present : Z -> Prop.
  Inductive wire : nat -> val -> list Z -> Prop :=
  | W_void t ti :
      nth_error T t = Some ti -> ti_have ti = None -> ti_id ti = TVoid -> wire t VVoid []
  | W_plain t ti n bs :
      nth_error T t = Some ti -> ti_have ti = None -> plain_size (ti_id ti) = Some n ->
      zlen bs = n -> all_bytes bs -> wire t (VBytes bs) bs
  | W_null t ti :
      nth_error T t = Some ti -> ti_have ti = None -> ti_id ti = TPointer \/ ti_id ti = TString ->
      wire t VNull [0]
  | W_pointer t ti b v w :
      nth_error T t = Some ti -> ti_have ti = None -> ti_id ti = TPointer -> present b ->
      wire (ti_child ti) v w -> wire t (VSome v) (b :: w)
  | W_reference t ti v w :
      nth_error T t = Some ti -> ti_have ti = None -> ti_id ti = TReference ->
      wire (ti_child ti) v w -> wire t v w
  | W_string t ti b s :
      nth_error T t = Some ti -> ti_have ti = None -> ti_id ti = TString -> present b ->
      no_nul s -> zlen s + 1 < 65536 -> wire t (VSome (VBytes s)) (b :: s ++ [0])
  | W_struct t ti vs w :
      nth_error T t = Some ti -> ti_have ti = None -> ti_id ti = TStruct ->
      wire_fields (ti_child ti) vs w -> wire t (VSeq vs) w
  | W_fixed_bytes t ti bs :
      nth_error T t = Some ti -> ti_have ti = None -> ti_id ti = TFixedBytes ->
      zlen bs = ti_array_size ti -> wire t (VBytes bs) bs
  | W_var_bytes t ti bs :
      nth_error T t = Some ti -> ti_have ti = None -> ti_id ti = TVarBytes ->
      zlen bs <= ti_array_size ti -> zlen bs < 65536 ->
      wire t (VBytes bs) (le_bytes 2 (zlen bs) ++ bs)
  | W_bytes_nil t ti s :
      nth_error T t = Some ti -> ti_have ti = None -> ti_id ti = TBytesNil ->
      no_nul s -> zlen s + 1 < 65536 -> zlen s + 1 <= ti_array_size ti ->
      wire t (VBytes s) (s ++ [0])
  | W_dyn_bytes t ti bs :
      nth_error T t = Some ti -> ti_have ti = None -> ti_id ti = TDynBytes \/ ti_id ti = TDynString ->
      zlen bs < 65536 -> wire t (VBytes bs) (le_bytes 2 (zlen bs) ++ bs)
  | W_fixed_array t ti vs w :
      nth_error T t = Some ti -> ti_have ti = None -> ti_id ti = TFixedArray ->
      Z.of_nat (length vs) = ti_array_size ti -> ti_array_size ti <= 65535 ->
      wire_elems (ti_child ti) vs w -> wire t (VSeq vs) w
  | W_var_array t ti vs w :
      nth_error T t = Some ti -> ti_have ti = None -> ti_id ti = TVarArray ->
      Z.of_nat (length vs) <= ti_array_size ti -> Z.of_nat (length vs) < 65536 ->
      wire_elems (ti_child ti) vs w -> wire t (VSeq vs) (le_bytes 2 (Z.of_nat (length vs)) ++ w)
  | W_dyn_array t ti vs w :
      nth_error T t = Some ti -> ti_have ti = None -> ti_id ti = TDynArray ->
      Z.of_nat (length vs) < 65536 ->
      wire_elems (ti_child ti) vs w -> wire t (VSeq vs) (le_bytes 2 (Z.of_nat (length vs)) ++ w)
  with wire_fields : nat -> list val -> list Z -> Prop :=
  | WF_end t ti : nth_error T t = Some ti -> ti_id ti = TVoid -> wire_fields t [] []
  | WF_cons t ti v vs w1 w2 :
      nth_error T t = Some ti -> ti_id ti <> TVoid ->
      wire t v w1 -> wire_fields (S t) vs w2 -> wire_fields t (v :: vs) (w1 ++ w2)
  with wire_elems : nat -> list val -> list Z -> Prop :=
  | WE_end t : wire_elems t [] []
  | WE_cons t v vs w1 w2 :
      wire t v w1 -> wire_elems t vs w2 -> wire_elems t (v :: vs) (w1 ++ w2).
End Wire.
Definition encodes_as (T : ttab) (t : nat) (v : val) (w : list Z) : Prop := wire T (fun b => b = 1) t v w.
Definition accepted_as (T : ttab) (t : nat) (v : val) (w : list Z) : Prop := wire T (fun b => b <> 0) t v w.

(** ** Storage: [part T t p a] - the address [a] belongs to the object of type
    [t] at base [p] itself (not to what its pointers refer to). *)
Definition inline_size (i : tid) : option Z :=
  match i with
  | TPointer | TString => Some 8
  | TDynBytes | TDynString | TDynArray => Some 16
  | _ => plain_size i
  end.
(** [c] is one of the fields of a structure whose field list starts at [c0]. *)
Definition field (T : ttab) (c0 c : nat) : Prop :=
  (c0 <= c)%nat /\ forall i, (c0 <= i <= c)%nat -> exists ti, nth_error T i = Some ti /\ ti_id ti <> TVoid.
Inductive part (T : ttab) : nat -> Z -> Z -> Prop :=
| P_inline t ti p n a :
    nth_error T t = Some ti -> inline_size (ti_id ti) = Some n ->
    p + ti_off ti <= a < p + ti_off ti + n -> part T t p a
| P_bytes t ti p a :
    nth_error T t = Some ti -> In (ti_id ti) [TFixedBytes; TVarBytes; TBytesNil] ->
    p + ti_off ti <= a < p + ti_off ti + ti_array_size ti -> part T t p a
| P_count t ti p a :
    nth_error T t = Some ti -> In (ti_id ti) [TVarBytes; TVarArray] ->
    p + ti_cnt ti <= a < p + ti_cnt ti + 2 -> part T t p a
| P_ref t ti p a :
    nth_error T t = Some ti -> ti_id ti = TReference ->
    part T (ti_child ti) (p + ti_off ti) a -> part T t p a
| P_field t ti p c a :
    nth_error T t = Some ti -> ti_id ti = TStruct -> field T (ti_child ti) c ->
    part T c (p + ti_off ti) a -> part T t p a
| P_elem t ti p sz i a :
    nth_error T t = Some ti -> In (ti_id ti) [TFixedArray; TVarArray] ->
    type_size T (ti_child ti) = GSize sz -> 0 <= i < ti_array_size ti ->
    part T (ti_child ti) (p + ti_off ti + sz * i) a -> part T t p a.

(** ** Well-formed type descriptions: child entries exist, an element fits in
    the size used for its array or its allocation, structures end, and the parts of one
    structure do not overlap.  Descriptions may be recursive. *)
Definition fits (T : ttab) (c : nat) : Prop :=
  exists sz, type_size T c = GSize sz /\ 0 <= sz < 2 ^ 32 /\ forall a, part T c 0 a -> 0 <= a < sz.
Definition entry_ok (T : ttab) (ti : tinfo) : Prop :=
  0 <= ti_array_size ti < 2 ^ 32 /\
  match ti_id ti with
  | TPointer | TDynArray => fits T (ti_child ti)
  | TReference => exists c, nth_error T (ti_child ti) = Some c
  | TStruct =>
      (exists e ti', (ti_child ti <= e)%nat /\ nth_error T e = Some ti' /\ ti_id ti' = TVoid) /\
      (forall c c' a, field T (ti_child ti) c -> field T (ti_child ti) c' -> c <> c' ->
         part T c 0 a -> part T c' 0 a -> False)
  | TVarBytes =>
      forall a, ti_cnt ti <= a < ti_cnt ti + 2 -> ti_off ti <= a < ti_off ti + ti_array_size ti -> False
  | TFixedArray => fits T (ti_child ti) /\ ti_array_size ti <= 65535
  | TVarArray =>
      fits T (ti_child ti) /\
      forall a sz, type_size T (ti_child ti) = GSize sz ->
        ti_cnt ti <= a < ti_cnt ti + 2 -> ti_off ti <= a < ti_off ti + sz * ti_array_size ti -> False
  | _ => True
  end.
Definition types_ok (T : ttab) : Prop := forall t ti, nth_error T t = Some ti -> entry_ok T ti.

(** Inline containment is well-founded (true of every C type: an object cannot
    contain itself): [rank] decreases along references, fields and elements of
    fixed and variable arrays; pointers and dynamic arrays may lead anywhere. *)
Definition ranked (T : ttab) (rank : nat -> nat) : Prop :=
  forall t ti, nth_error T t = Some ti ->
    match ti_id ti with
    | TReference | TFixedArray | TVarArray => (rank (ti_child ti) < rank t)%nat
    | TStruct => forall c, field T (ti_child ti) c -> (rank c < rank t)%nat
    | _ => True
    end.

(** ** Chains of packet buffers *)
Definition content (c : chain) : list Z := concat (map psb_content c).
(** Segments inside their blocks, of a size an int can hold. *)
Definition chain_ok (c : chain) : Prop := Forall (fun b => psb_ok b /\ pb_size b < 2 ^ 31) c.
(** What the decoder may be given: no empty segment behind the first. *)
Definition readable (c : chain) : Prop :=
  match c with
  | [] => False
  | b :: rest => chain_ok c /\ Forall (fun b => 0 < pb_len b) rest
  end.
(** The chains a writer leaves behind may also end in empty segments. *)
Definition written (c : chain) : Prop :=
  exists b used empties, c = b :: used ++ empties /\ chain_ok c /\
    Forall (fun b => 0 < pb_len b) used /\ Forall (fun b => pb_len b = 0) empties.
