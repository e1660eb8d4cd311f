(** * Model of data marshalling: lib/marshalling.c 200-1193,
    include/api/aosl_marshalling.h 23-65, 199-207.

    Typed objects live in a flat byte-addressed memory; a pointer stored in an
    object is 8 little-endian bytes.  Reading or writing an unmapped address is
    undefined behaviour ([RUB]).  The type descriptions are an array of
    aosl_type_info_t entries addressed by their index, so that the descriptions
    may share entries and refer to themselves (linked lists, trees).  The
    buffers of the packet chain are separate from the objects (they are the
    byte blocks of Psb.v).

    Recursive calls take [fuel] = admissible recursion depth; running out of it
    is the separate outcome [RFuel].

    Simplifications:
    - strings are scanned with a bound [sf] ([RFuel] when it is exceeded);
    - a copy of bytes that crosses chain segments is one read of the chain
      followed by one write of the memory;
    - the byte order is little endian (platform of the Linux HAL);
    - when get_type_size fails for the child of POINTER / FIXED_ARRAY /
      VAR_ARRAY, the code returns a stale non-negative [ret] (lines 520, 532,
      760, 899, 911); this is the outcome [RBad], which ends the run. *)

From Verif Require Import Base Psb Arith.

(** ** Memory *)

Definition mem := Z -> option Z.

Fixpoint mread (m : mem) (a : Z) (n : nat) : option (list Z) :=
  match n with
  | O => Some []
  | S n' =>
      match m a with
      | None => None
      | Some b => match mread m (a + 1) n' with None => None | Some bs => Some (b :: bs) end
      end
  end.

Definition mset (m : mem) (a b : Z) : mem := fun x => if x =? a then Some b else m x.

Fixpoint mwrite (m : mem) (a : Z) (bs : list Z) : option mem :=
  match bs with
  | [] => Some m
  | b :: bs' =>
      match m a with
      | None => None
      | Some _ => mwrite (mset m a b) (a + 1) bs'
      end
  end.

(** Little-endian numbers. *)
Fixpoint le_val (bs : list Z) : Z :=
  match bs with [] => 0 | b :: bs' => b + 256 * le_val bs' end.
Fixpoint le_bytes (n : nat) (v : Z) : list Z :=
  match n with O => [] | S n' => v mod 256 :: le_bytes n' (v / 256) end.

(** ** Type descriptions *)

(** aosl_type_id, include/api/aosl_marshalling.h 23-45; [TOther]: any other
    value of the enum's integer type. *)
Inductive tid :=
| TVoid | TInt8 | TInt16 | TInt32 | TInt64 | TFloat | TDouble | TV4 | TV6
| TPointer | TReference | TString | TStruct | TFixedBytes | TVarBytes | TBytesNil
| TDynBytes | TDynString | TFixedArray | TVarArray | TDynArray | TOther.

(** aosl_type_info_t, 199-207.  [ti_have] may look at the memory. *)
Record tinfo := mkTI {
  ti_id : tid; ti_obj_size : Z; ti_array_size : Z; ti_cnt : Z; ti_off : Z;
  ti_have : option (mem -> Z -> bool); ti_child : nat }.

Definition ttab := list tinfo.

(** get_type_size, lib/marshalling.c 228-315.  [None]: recursion deeper than
    the number of entries (an endless chain); [Some None]: -EINVAL. *)
Inductive gres := GSize (n : Z) | GInval | GUB | GFuel.
Fixpoint get_type_size (fuel : nat) (T : ttab) (t : nat) : gres :=
  match fuel with
  | O => GFuel
  | S f =>
      match nth_error T t with
      | None => GUB
      | Some ti =>
          match ti_id ti with
          | TVoid => GSize 0
          | TInt8 => GSize 1
          | TInt16 => GSize 2
          | TInt32 => GSize 4
          | TInt64 => GSize 8
          | TV4 => GSize 4
          | TV6 => GSize 16
          | TFloat => GSize 4
          | TDouble => GSize 8
          | TPointer => GSize 8
          | TReference => get_type_size f T (ti_child ti)
          | TString => GSize 8
          | TStruct => GSize (ti_obj_size ti)
          | TFixedBytes | TVarBytes | TBytesNil => GSize (ti_array_size ti)
          | TDynBytes | TDynString => GSize 16
          | TFixedArray | TVarArray =>
              match get_type_size f T (ti_child ti) with
              | GSize n => GSize (u64 (n * ti_array_size ti))
              | r => r
              end
          | TDynArray => GSize 16
          | TOther => GInval
          end
      end
  end.
Definition type_size (T : ttab) (t : nat) : gres := get_type_size (S (length T)) T t.

(** ** Results *)
Inductive res (St A : Type) :=
| RVal (a : A) (s : St)     (* normal *)
| RErr (e : Z) (s : St)     (* "goto __err" with ret = e < 0 *)
| RBad (r : Z)             (* "goto __err" with a stale ret >= 0 *)
| RUB
| RFuel.
Arguments RVal {St A}. Arguments RErr {St A}. Arguments RBad {St A}. Arguments RUB {St A}. Arguments RFuel {St A}.

Definition rbind {St A B} (m : St -> res St A) (k : A -> St -> res St B) : St -> res St B := fun s =>
  match m s with
  | RVal a s' => k a s'
  | RErr e s' => RErr e s'
  | RBad r => RBad r
  | RUB => RUB
  | RFuel => RFuel
  end.
Notation "'get' x <- m ; k" := (rbind m (fun x => k)) (at level 200, x pattern, m at level 100, k at level 200).
Definition rret {St A} (a : A) : St -> res St A := fun s => RVal a s.
Definition rfail {St A} (e : Z) : St -> res St A := fun s => RErr e s.
Definition rub {St A} : St -> res St A := fun _ => RUB.
Definition rbad {St A} (r : Z) : St -> res St A := fun _ => RBad r.
Definition rfuel {St A} : St -> res St A := fun _ => RFuel.

(** "while (type->type_id != AOSL_TYPE_VOID) { ret = f (type); len += ret; type++; }":
    480-490, 826-836, 1036-1039, 1116-1119.  [k] bounds the number of entries. *)
Fixpoint each_field {St} (T : ttab) (body : nat -> St -> res St Z) (k t : nat) (len : Z) : St -> res St Z :=
  match k with
  | O => rub
  | S k' =>
      match nth_error T t with
      | None => rub
      | Some ti =>
          match ti_id ti with
          | TVoid => rret len
          | _ => get n <- body t; each_field T body k' (S t) (len + n)
          end
      end
  end.
(** "for (i = 0; i < count; i++) { ret = f (addr + obj_size * i); len += ret; }":
    523-529, 537-543, 554-560, 902-908, 921-927, 956-962; [k] iterations left. *)
Fixpoint each_elem {St} (body : Z -> St -> res St Z) (addr stride : Z) (i : Z) (k : nat) (len : Z) : St -> res St Z :=
  match k with
  | O => rret len
  | S k' => get n <- body (addr + stride * i); each_elem body addr stride (i + 1) k' (len + n)
  end.

(** ** Reading a packet chain *)

(** The chain from the current segment on. *)
Definition chain := list psb.

(** The slow path of __CHECK_AND_DECODE_BASETYPE (peek = 0), 642-670. *)
Fixpoint base_slow (c : chain) (needed : Z) (acc : list Z) : outcome (option (list Z) * chain) :=
  match c with
  | [] => UB
  | b :: rest =>
      let copy := if needed <? pb_len b then needed else pb_len b in
      let* bs := mem_read b (pb_off b) copy in
      let b' := fst (psb_pull b (u32 copy)) in
      let needed' := needed - copy in
      if needed' =? 0 then Ok (Some (acc ++ bs), b' :: rest)
      else match rest with
           | [] => Ok (None, [b'])
           | _ => base_slow rest needed' (acc ++ bs)
           end
  end.
(** __CHECK_AND_DECODE_BASETYPE, 634-678: the bytes of __pkt_var. *)
Definition chain_base (c : chain) (n : Z) : outcome (option (list Z) * chain) :=
  match c with
  | [] => UB
  | b :: rest =>
      match psb_get b n with
      | (b', PPtr p) => let* bs := mem_read b' p n in Ok (Some bs, b' :: rest)
      | (_, PErr _) => base_slow c n []
      end
  end.
(** __CHECK_AND_DECODE_BYTES, 683-702: the bytes copied, and whether all were available. *)
Fixpoint chain_bytes (c : chain) (n : Z) (acc : list Z) : outcome (list Z * bool * chain) :=
  match c with
  | [] => UB
  | b :: rest =>
      let copy := if n <? pb_len b then n else pb_len b in
      match psb_get b (u32 copy) with
      | (_, PErr _) => UB
      | (b', PPtr p) =>
          let* bs := mem_read b' p copy in
          let n' := n - copy in
          if n' =? 0 then Ok (acc ++ bs, true, b' :: rest)
          else match rest with
               | [] => Ok (acc ++ bs, false, [b'])
               | _ => chain_bytes rest n' (acc ++ bs)
               end
      end
  end.
(** SAFE_STRSIZE, 595-620, at index [i] of segment [b]; [k] bounds the
    iterations within one segment (its block has fewer bytes). *)
Fixpoint scan_seg (b : psb) (i : Z) (l : Z) (k : nat) : outcome (option Z * Z) :=
  match k with
  | O => UB
  | S k' =>
      (* on entry: position i is to be read *)
      let* bs := mem_read b (pb_off b + i) 1 in
      match bs with
      | [0] => Ok (Some l, l)
      | _ => if s32 (pb_len b) <=? i + 1 then Ok (None, l + 1) else scan_seg b (i + 1) (l + 1) k'
      end
  end.
Fixpoint scan_rest (rest : chain) (l : Z) : outcome (option Z) :=
  match rest with
  | [] => Ok None
  | b :: rest' =>
      let* (r, l') := scan_seg b 0 l (S (length (pb_mem b))) in
      match r with
      | Some n => Ok (Some (n + 1))
      | None => scan_rest rest' l'
      end
  end.
Definition chain_strsize (c : chain) : outcome (option Z) :=
  match c with
  | [] => UB
  | b :: rest => if s32 (pb_len b) <=? 0 then scan_rest rest 0 else scan_rest c 0
  end.

(** A source of bytes: what the decoder needs from a chain.  The decoder below
    is written against this interface and used with [chain_reader]. *)
Record reader (R : Type) := mkReader {
  r_base : R -> Z -> outcome (option (list Z) * R);
  r_bytes : R -> Z -> outcome (list Z * bool * R);
  r_strsize : R -> outcome (option Z) }.
Arguments r_base {R}. Arguments r_bytes {R}. Arguments r_strsize {R}.
Definition chain_reader : reader chain :=
  mkReader chain chain_base (fun c n => chain_bytes c n []) chain_strsize.

(** ** Unmarshalling *)

(** What the environment decides: the addresses malloc returns (an address that
    is not free counts as failure) and the contents of fresh memory; whether
    the is_have field of the uninitialised local [helper_type] (lines 324, 628:
    only type_id and obj_addr are set at 438-439, 466-467, 743-744, 794-795)
    happens to be NULL. *)
Record menv := mkEnv { e_addr : nat -> option Z; e_junk : nat -> Z -> Z; e_helper_null : bool }.

Record ust (R : Type) := mkU { u_mem : mem; u_in : R; u_nalloc : nat; u_blocks : list (Z * Z) }.
Arguments mkU {R}. Arguments u_mem {R}. Arguments u_in {R}. Arguments u_nalloc {R}. Arguments u_blocks {R}.

Section Unmarshal.
  Variable R : Type.
  Variable rd : reader R.
  Variable E : menv.
  Variable T : ttab.

  Definition U (A : Type) := ust R -> res (ust R) A.

  Definition umem : U mem := fun s => RVal (u_mem s) s.
  Definition write (a : Z) (bs : list Z) : U unit := fun s =>
    match mwrite (u_mem s) a bs with
    | None => RUB
    | Some m => RVal tt (mkU m (u_in s) (u_nalloc s) (u_blocks s))
    end.
  Definition write16 (a v : Z) : U unit := write a (le_bytes 2 v).
  Definition write_ptr (a p : Z) : U unit := write a (le_bytes 8 p).

  (** Is [a, a+n) free? *)
  Definition unmapped (m : mem) (a n : Z) : bool :=
    forallb (fun i => match m (a + Z.of_nat i) with None => true | Some _ => false end)
            (seq 0 (Z.to_nat n)).
  (** aosl_malloc; [None] is NULL. *)
  Definition malloc (n : Z) : U (option Z) := fun s =>
    let k := u_nalloc s in
    let fail := RVal None (mkU (u_mem s) (u_in s) (S k) (u_blocks s)) in
    match e_addr E k with
    | None => fail
    | Some a =>
        if (0 <? a) && (a + n <=? 2 ^ 63) && unmapped (u_mem s) a n then
          RVal (Some a)
            (mkU (fun x => if (a <=? x) && (x <? a + n) then Some (u8 (e_junk E k x)) else u_mem s x)
                 (u_in s) (S k) ((a, n) :: u_blocks s))
        else fail
    end.

  Definition base (n : Z) : U (list Z) := fun s =>
    match r_base rd (u_in s) n with
    | Ok (Some bs, r) => RVal bs (mkU (u_mem s) r (u_nalloc s) (u_blocks s))
    | Ok (None, r) => RErr (- AOSL_EMSGSIZE) (mkU (u_mem s) r (u_nalloc s) (u_blocks s))
    | _ => RUB
    end.
  (** CHECK_AND_DECODE_BASETYPE: 680-681; [fn] acts on the value. *)
  Definition dec_base (n : Z) (fn : Z -> Z) (a : Z) : U Z :=
    get bs <- base n;
    get _ <- write a (le_bytes (Z.to_nat n) (fn (le_val bs)));
    rret n.
  (** The same for the address types: the bytes are copied. *)
  Definition dec_raw (n : Z) (a : Z) : U Z :=
    get bs <- base n;
    get _ <- write a bs;
    rret n.
  Definition dec16 : U Z := get bs <- base 2; rret (cpu_to_le16 (le_val bs)).
  Definition dec_bytes (a n : Z) : U Z := fun s =>
    match r_bytes rd (u_in s) n with
    | Ok (bs, ok, r) =>
        (get _ <- write a bs;
         if ok then rret n else rfail (- AOSL_EMSGSIZE)) (mkU (u_mem s) r (u_nalloc s) (u_blocks s))
    | _ => RUB
    end.
  Definition strsize : U Z := fun s =>
    match r_strsize rd (u_in s) with
    | Ok (Some n) => RVal n s
    | Ok None => RErr (- AOSL_EMSGSIZE) s
    | _ => RUB
    end.
  (** _____unmarshal (&helper_type, NULL, &psb): one byte into bool_val. *)
  Definition presence : U Z :=
    if e_helper_null E then get bs <- base 1; rret (le_val bs) else rub.

  (** _____unmarshal, 622-976. *)
  Fixpoint unmarshal (fuel : nat) (t : nat) (typed_obj_p : Z) {struct fuel} : U Z :=
    match fuel with
    | O => rfuel
    | S f =>
        match nth_error T t with
        | None => rub
        | Some ti =>
            let this := typed_obj_p + ti_off ti in
            get m <- umem;
            if match ti_have ti with Some h => negb (h m this) | None => false end then rret 0
            else
            match ti_id ti with
            | TVoid => rret 0
            | TInt8 => dec_base 1 u8 this
            | TInt16 => dec_base 2 cpu_to_le16 this
            | TInt32 | TFloat => dec_base 4 cpu_to_le32 this
            | TInt64 | TDouble => dec_base 8 cpu_to_le64 this
            | TV4 => dec_raw 4 this
            | TV6 => dec_raw 16 this
            | TPointer =>
                get b <- presence;
                if negb (b =? 0) then
                  match type_size T (ti_child ti) with
                  | GSize sz =>
                      get p <- malloc sz;
                      match p with
                      | None => rfail (- AOSL_ENOMEM)
                      | Some p =>
                          get _ <- write_ptr this p;
                          get n <- unmarshal f (ti_child ti) p;
                          rret (1 + n)
                      end
                  | GInval => rbad 1
                  | GUB => rub
                  | GFuel => rfuel
                  end
                else
                  get _ <- write_ptr this 0;
                  rret 1
            | TReference => unmarshal f (ti_child ti) this
            | TString =>
                get b <- presence;
                if negb (b =? 0) then
                  get n <- strsize;
                  let val := u16 n in
                  get p <- malloc val;
                  match p with
                  | None => rfail (- AOSL_ENOMEM)
                  | Some p =>
                      get _ <- write_ptr this p;
                      get k <- dec_bytes p val;
                      rret (1 + k)
                  end
                else
                  get _ <- write_ptr this 0;
                  rret 1
            | TStruct => each_field T (fun t' => unmarshal f t' this) (S (length T)) (ti_child ti) 0
            | TFixedBytes => dec_bytes this (ti_array_size ti)
            | TVarBytes =>
                get val <- dec16;
                if ti_array_size ti <? val then rfail (- AOSL_ENOSPC)
                else
                  get _ <- write16 (typed_obj_p + ti_cnt ti) val;
                  get k <- dec_bytes this val;
                  rret (2 + k)
            | TBytesNil =>
                get n <- strsize;
                let val := u16 n in
                if ti_array_size ti <? val then rfail (- AOSL_ENOSPC)
                else dec_bytes this val
            | TDynBytes | TDynString =>
                let one := match ti_id ti with TDynString => 1 | _ => 0 end in
                get val <- dec16;
                get _ <- write16 this val;
                get _ <- write16 (this + 2) (u16 (val + one));
                if 0 <? val + one then
                  get p <- malloc (val + one);
                  match p with
                  | None =>
                      get _ <- write16 this 0;
                      get _ <- write16 (this + 2) 0;
                      rfail (- AOSL_ENOMEM)
                  | Some p =>
                      get _ <- write_ptr (this + 8) p;
                      get k <- (if 0 <? val then dec_bytes p val else rret 0);
                      get _ <- (if one =? 1 then write (p + val) [0] else rret tt);
                      rret (2 + k)
                  end
                else rret 2
            | TFixedArray =>
                match type_size T (ti_child ti) with
                | GSize sz =>
                    (* i is a uint16_t: the loop cannot end when array_size > 65535 *)
                    if 65535 <? ti_array_size ti then rfuel
                    else each_elem (unmarshal f (ti_child ti)) this sz 0 (Z.to_nat (ti_array_size ti)) 0
                | GInval => rbad 0
                | GUB => rub
                | GFuel => rfuel
                end
            | TVarArray =>
                match type_size T (ti_child ti) with
                | GSize sz =>
                    get val <- dec16;
                    if ti_array_size ti <? val then rfail (- AOSL_ENOSPC)
                    else
                      get _ <- write16 (typed_obj_p + ti_cnt ti) val;
                      get n <- each_elem (unmarshal f (ti_child ti)) this sz 0 (Z.to_nat val) 0;
                      rret (2 + n)
                | GInval => rbad 0
                | GUB => rub
                | GFuel => rfuel
                end
            | TDynArray =>
                get val <- dec16;
                get _ <- write16 this val;
                get _ <- write16 (this + 2) val;
                if 0 <? val then
                  match type_size T (ti_child ti) with
                  | GSize sz =>
                      get p <- malloc (u64 (sz * val));
                      match p with
                      | None =>
                          get _ <- write16 this 0;
                          get _ <- write16 (this + 2) 0;
                          rfail (- AOSL_ENOMEM)
                      | Some p =>
                          get _ <- write_ptr (this + 8) p;
                          get n <- each_elem (unmarshal f (ti_child ti)) p sz 0 (Z.to_nat val) 0;
                          rret (2 + n)
                      end
                  | GInval =>
                      get _ <- write16 this 0;
                      get _ <- write16 (this + 2) 0;
                      rfail (- AOSL_EINVAL)
                  | GUB => rub
                  | GFuel => rfuel
                  end
                else rret 2
            | TOther => rfail (- AOSL_EINVAL)
            end
        end
    end.

  (** ** aosl_fini_typed_obj: smart_fini_typed_obj, 1088-1167.
      The chain is not used.  aosl_free of anything but a live block is [RUB]. *)
  Definition free (p : Z) : U unit := fun s =>
    if p =? 0 then RVal tt s
    else
      match find (fun b => fst b =? p) (u_blocks s) with
      | None => RUB
      | Some (_, n) =>
          RVal tt (mkU (fun x => if (p <=? x) && (x <? p + n) then None else u_mem s x)
                       (u_in s) (u_nalloc s)
                       (filter (fun b => negb (fst b =? p)) (u_blocks s)))
      end.
  Definition read (a : Z) (n : nat) : U Z := fun s =>
    match mread (u_mem s) a n with None => RUB | Some bs => RVal (le_val bs) s end.

  Fixpoint fini (fuel : nat) (t : nat) (typed_obj_p : Z) {struct fuel} : U Z :=
    match fuel with
    | O => rfuel
    | S f =>
        match nth_error T t with
        | None => rub
        | Some ti =>
            let this := typed_obj_p + ti_off ti in
            match ti_id ti with
            | TPointer =>
                get p <- read this 8;
                if p =? 0 then rret 0
                else
                  get _ <- fini f (ti_child ti) p;
                  get _ <- free p;
                  get _ <- write_ptr this 0;
                  rret 0
            | TReference => fini f (ti_child ti) this
            | TString =>
                get p <- read this 8;
                if p =? 0 then rret 0
                else
                  get _ <- free p;
                  get _ <- write_ptr this 0;
                  rret 0
            | TStruct => each_field T (fun t' => fini f t' this) (S (length T)) (ti_child ti) 0
            | TDynBytes | TDynString =>
                get al <- read (this + 2) 2;
                get p <- read (this + 8) 8;
                get _ <- (if 0 <? al then free p else rret tt);
                get _ <- write16 this 0;
                get _ <- write16 (this + 2) 0;
                get _ <- write_ptr (this + 8) 0;
                rret 0
            | TFixedArray =>
                match type_size T (ti_child ti) with
                | GSize sz => each_elem (fini f (ti_child ti)) this sz 0 (Z.to_nat (ti_array_size ti)) 0
                | GInval => rret 0
                | GUB => rub
                | GFuel => rfuel
                end
            | TVarArray =>
                match type_size T (ti_child ti) with
                | GSize sz =>
                    (* the count is read in every iteration; it is not changed by the body
                       unless it lies inside an element *)
                    get n <- read (typed_obj_p + ti_cnt ti) 2;
                    get _ <- each_elem (fini f (ti_child ti)) this sz 0 (Z.to_nat n) 0;
                    get _ <- write16 (typed_obj_p + ti_cnt ti) 0;
                    rret 0
                | GInval => rret 0
                | GUB => rub
                | GFuel => rfuel
                end
            | TDynArray =>
                get al <- read (this + 2) 2;
                get _ <- (if 0 <? al then
                            get p <- read (this + 8) 8;
                            get n <- read this 2;
                            get _ <- (if 0 <? n then
                                        match type_size T (ti_child ti) with
                                        | GSize sz => each_elem (fini f (ti_child ti)) p sz 0 (Z.to_nat n) 0
                                        | GInval => rret 0
                                        | GUB => rub
                                        | GFuel => rfuel
                                        end
                                      else rret 0);
                            free p
                          else rret tt);
                get _ <- write16 this 0;
                get _ <- write16 (this + 2) 0;
                get _ <- write_ptr (this + 8) 0;
                rret 0
            | _ => rret 0
            end
        end
    end.

  (** smart_init_typed_obj, 995-1074. *)
  Fixpoint init (fuel : nat) (t : nat) (typed_obj_p : Z) {struct fuel} : U Z :=
    match fuel with
    | O => rfuel
    | S f =>
        match nth_error T t with
        | None => rub
        | Some ti =>
            let this := typed_obj_p + ti_off ti in
            let zero n := get _ <- write this (repeat 0 n); rret 0 in
            match ti_id ti with
            | TInt8 => zero 1%nat
            | TInt16 => zero 2%nat
            | TInt32 | TFloat | TV4 => zero 4%nat
            | TInt64 | TDouble | TPointer | TString => zero 8%nat
            | TV6 => zero 16%nat
            | TReference => init f (ti_child ti) this
            | TStruct => each_field T (fun t' => init f t' this) (S (length T)) (ti_child ti) 0
            | TFixedBytes => zero (Z.to_nat (ti_array_size ti))
            | TVarBytes | TVarArray => get _ <- write16 (typed_obj_p + ti_cnt ti) 0; rret 0
            | TBytesNil => zero 1%nat
            | TDynBytes | TDynString | TDynArray =>
                get _ <- write16 this 0;
                get _ <- write16 (this + 2) 0;
                get _ <- write_ptr (this + 8) 0;
                rret 0
            | TFixedArray =>
                match type_size T (ti_child ti) with
                | GSize sz => each_elem (init f (ti_child ti)) this sz 0 (Z.to_nat (ti_array_size ti)) 0
                | GInval => rret 0
                | GUB => rub
                | GFuel => rfuel
                end
            | _ => rret 0
            end
        end
    end.
End Unmarshal.

(** ** Writing a packet chain *)

(** Segments already left (latest first), the current one, those linked behind
    it; [w_nseg] counts the segments allocated so far. *)
Record wst := mkW { w_past : list psb; w_cur : psb; w_next : list psb; w_nseg : nat }.

(** The environment of alloc_psb: does the i-th allocation succeed, and what
    does the fresh block contain? *)
Record senv := mkSEnv { e_seg_ok : nat -> bool; e_seg_junk : nat -> nat -> Z; e_mhelper_null : bool }.

Definition DFLT_MAX_PSB_PKT : nat := 4096.   (* include/api/aosl_psb.h 24 *)

Section Marshal.
  Variable E : senv.
  Variable T : ttab.
  Variable m : mem.     (* the objects; they are only read *)
  Variable sf : nat.    (* bound for strlen *)

  Definition W (A : Type) := wst -> res wst A.

  (** memcpy (psb_put (psb, n), bs, n): without room psb_put returns an error
      pointer and the copy is undefined. *)
  Definition put_copy (b : psb) (bs : list Z) : outcome psb :=
    match psb_put b (u32 (Z.of_nat (length bs))) with
    | (b', PPtr p) => mem_write b' p bs
    | (_, PErr _) => UB
    end.

  (** Lines 348-357 and 384-393: go to the next segment, allocating it when
      there is none. *)
  Definition next_seg : W unit := fun w =>
    match w_next w with
    | b :: rest => RVal tt (mkW (w_cur w :: w_past w) b rest (w_nseg w))
    | [] =>
        match alloc_psb (e_seg_ok E (w_nseg w)) (map (e_seg_junk E (w_nseg w)) (seq 0 DFLT_MAX_PSB_PKT)) with
        | inr e => RErr e w
        | inl b => RVal tt (mkW (w_cur w :: w_past w) b [] (S (w_nseg w)))
        end
    end.

  (** One round of the copy loops 336-347 / 372-383: fill the current segment;
      returns what is left. *)
  Definition fill (bs : list Z) : W (list Z) := fun w =>
    let room := psb_tailroom (w_cur w) in
    let copy := if room <? Z.of_nat (length bs) then Z.to_nat room else length bs in
    match put_copy (w_cur w) (firstn copy bs) with
    | Ok b => RVal (skipn copy bs) (mkW (w_past w) b (w_next w) (w_nseg w))
    | _ => RUB
    end.
  (** The loop; [k] bounds the number of segments visited: every fresh segment
      takes a byte, every linked one is visited once. *)
  Fixpoint spill (k : nat) (bs : list Z) : W unit :=
    match k with
    | O => rub
    | S k' =>
        get rest <- fill bs;
        match rest with
        | [] => rret tt
        | _ => get _ <- next_seg; spill k' rest
        end
    end.
  Definition spill_bound (bs : list Z) (w : wst) : nat := (length (w_next w) + length bs + 2)%nat.

  (** __CHECK_AND_ENCODE_BASETYPE, 330-364, for the bytes of ____var. *)
  Definition enc_base (bs : list Z) : W Z := fun w =>
    match psb_put (w_cur w) (Z.of_nat (length bs)) with
    | (b', PPtr p) =>
        match mem_write b' p bs with
        | Ok b'' => RVal (Z.of_nat (length bs)) (mkW (w_past w) b'' (w_next w) (w_nseg w))
        | _ => RUB
        end
    | (_, PErr _) => (get _ <- spill (spill_bound bs w) bs; rret (Z.of_nat (length bs))) w
    end.
  (** __CHECK_AND_ENCODE_BYTES, 369-395. *)
  Definition enc_bytes (bs : list Z) : W Z := fun w =>
    match bs with
    | [] => RVal 0 w
    | _ => (get _ <- spill (spill_bound bs w) bs; rret (Z.of_nat (length bs))) w
    end.

  Definition rdm (a : Z) (n : nat) : W (list Z) := fun w =>
    match mread m a n with None => RUB | Some bs => RVal bs w end.
  Definition enc_num (n : nat) (fn : Z -> Z) (a : Z) : W Z :=
    get bs <- rdm a n; enc_base (le_bytes n (fn (le_val bs))).
  Definition enc_raw (n : nat) (a : Z) : W Z := get bs <- rdm a n; enc_base bs.
  Definition enc16 (v : Z) : W Z := enc_base (le_bytes 2 (cpu_to_le16 v)).
  (** the bytes at [a], [n] of them *)
  Definition enc_mem (a n : Z) : W Z := get bs <- rdm a (Z.to_nat n); enc_bytes bs.
  Fixpoint strlen_from (k : nat) (a : Z) (i : Z) : W Z := fun w =>
    match k with
    | O => RFuel
    | S k' =>
        match m (a + i) with
        | None => RUB
        | Some b => if b =? 0 then RVal i w else strlen_from k' a (i + 1) w
        end
    end.
  Definition strlen (a : Z) : W Z := strlen_from sf a 0.
  Definition mpresence (b : Z) : W Z := if e_mhelper_null E then enc_base [b] else rub.
  Definition rdv (a : Z) (n : nat) : W Z := get bs <- rdm a n; rret (le_val bs).

  (** _____marshal, 317-574. *)
  Fixpoint marshal (fuel : nat) (t : nat) (typed_obj_p : Z) {struct fuel} : W Z :=
    match fuel with
    | O => rfuel
    | S f =>
        match nth_error T t with
        | None => rub
        | Some ti =>
            let this := typed_obj_p + ti_off ti in
            if match ti_have ti with Some h => negb (h m this) | None => false end then rret 0
            else
            match ti_id ti with
            | TVoid => rret 0
            | TInt8 => enc_num 1 u8 this
            | TInt16 => enc_num 2 cpu_to_le16 this
            | TInt32 | TFloat => enc_num 4 cpu_to_le32 this
            | TInt64 | TDouble => enc_num 8 cpu_to_le64 this
            | TV4 => enc_raw 4 this
            | TV6 => enc_raw 16 this
            | TPointer =>
                get p <- rdv this 8;
                if p =? 0 then mpresence 0
                else
                  get _ <- mpresence 1;
                  get n <- marshal f (ti_child ti) p;
                  rret (1 + n)
            | TReference => marshal f (ti_child ti) this
            | TString =>
                get p <- rdv this 8;
                if p =? 0 then mpresence 0
                else
                  get _ <- mpresence 1;
                  get l <- strlen p;
                  get n <- enc_mem p (u16 (l + 1));
                  rret (1 + n)
            | TStruct => each_field T (fun t' => marshal f t' this) (S (length T)) (ti_child ti) 0
            | TFixedBytes => enc_mem this (ti_array_size ti)
            | TVarBytes =>
                get val <- rdv (typed_obj_p + ti_cnt ti) 2;
                get _ <- enc16 val;
                get n <- enc_mem this val;
                rret (2 + n)
            | TBytesNil =>
                get l <- strlen this;
                let val := u16 (l + 1) in
                if ti_array_size ti <? val then rfail (- AOSL_EINVAL) else enc_mem this val
            | TDynBytes | TDynString =>
                get val <- rdv this 2;
                get _ <- enc16 val;
                if 0 <? val then
                  get p <- rdv (this + 8) 8;
                  get n <- enc_mem p val;
                  rret (2 + n)
                else rret 2
            | TFixedArray =>
                match type_size T (ti_child ti) with
                | GSize sz =>
                    if 65535 <? ti_array_size ti then rfuel
                    else each_elem (marshal f (ti_child ti)) this sz 0 (Z.to_nat (ti_array_size ti)) 0
                | GInval => rbad 0
                | GUB => rub
                | GFuel => rfuel
                end
            | TVarArray =>
                match type_size T (ti_child ti) with
                | GSize sz =>
                    get val <- rdv (typed_obj_p + ti_cnt ti) 2;
                    get _ <- enc16 val;
                    get n <- each_elem (marshal f (ti_child ti)) this sz 0 (Z.to_nat val) 0;
                    rret (2 + n)
                | GInval => rbad 0
                | GUB => rub
                | GFuel => rfuel
                end
            | TDynArray =>
                get val <- rdv this 2;
                get _ <- enc16 val;
                if 0 <? val then
                  match type_size T (ti_child ti) with
                  | GSize sz =>
                      get p <- rdv (this + 8) 8;
                      get n <- each_elem (marshal f (ti_child ti)) p sz 0 (Z.to_nat val) 0;
                      rret (2 + n)
                  | GInval => rfail (- AOSL_EINVAL)
                  | GUB => rub
                  | GFuel => rfuel
                  end
                else rret 2
            | TOther => rfail (- AOSL_EINVAL)
            end
        end
    end.
End Marshal.

(** The chain written so far, from its first segment on. *)
Definition whole (w : wst) : chain := rev (w_past w) ++ w_cur w :: w_next w.

(** aosl_marshal 1169-1175 and aosl_unmarshal 1177-1183 end in
    return_err (include/kernel/err.h 77-84): the new errno, if set, and the
    result for an inner result [r]. *)
Definition api_ret (r : Z) : option Z * Z := if r <? 0 then (Some (- r), -1) else (None, r).

(** What a call does, seen from outside: [Crash] is undefined behaviour,
    [Deep] an exhausted recursion bound. *)
Inductive called (St : Type) := Returned (errno : option Z) (v : Z) (s : St) | Crash | Deep.
Arguments Returned {St}. Arguments Crash {St}. Arguments Deep {St}.
Definition call {St} (r : res St Z) (s0 : St) : called St :=
  match r with
  | RVal n s => Returned (fst (api_ret n)) (snd (api_ret n)) s
  | RErr e s => Returned (fst (api_ret e)) (snd (api_ret e)) s
  | RBad n => Returned (fst (api_ret n)) (snd (api_ret n)) s0
  | RUB => Crash
  | RFuel => Deep
  end.
Definition aosl_marshal (E : senv) (T : ttab) (m : mem) (sf fuel t : nat) (p : Z) (b : psb) (rest : chain) : called wst :=
  let w := mkW [] b rest 0 in call (marshal E T m sf fuel t p w) w.
Definition aosl_unmarshal (E : menv) (T : ttab) (fuel t : nat) (p : Z) (s : ust chain) : called (ust chain) :=
  call (unmarshal chain chain_reader E T fuel t p s) s.
Definition aosl_init_typed_obj (T : ttab) (fuel t : nat) (p : Z) (s : ust chain) : called (ust chain) :=
  call (init chain T fuel t p s) s.
Definition aosl_fini_typed_obj (T : ttab) (fuel t : nat) (p : Z) (s : ust chain) : called (ust chain) :=
  call (fini chain T fuel t p s) s.
