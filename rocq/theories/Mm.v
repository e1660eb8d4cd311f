(** * Model of the memory statistics: mm/mm.c (CONFIG_AOSL_MEM_STAT, with or
    without CONFIG_AOSL_MEM_DUMP).

    Any number of threads allocate, resize and free; a call is cut into its
    atomic parts: the call of the system allocator (no lock) and the update of
    the statistics (under __lock).  [s_fly] holds the calls in progress.

    Simplifications:
    - the red-black tree of blocks is a list; removing by key takes any one of
      the nodes with this key, nothing if there is none (C11-C13 say that of
      the tree); the tree of positions is a list of keys with two tables;
    - a code position (func, line) is a number, absent without MEM_DUMP;
    - the allocation of the nodes themselves does not fail (mm.c 189 does not
      check it); it takes addresses from outside the ones considered here;
    - calloc and strdup are malloc plus writing into the block (430-441, 456-470);
    - k_mm_init / k_mm_fini run when no other call is in progress. *)
From Verif Require Import Base.

(** struct mm_ptr_node, mm.c 30-39. *)
Record blk := mkBlk { b_ptr : Z; b_size : Z; b_pos : option nat }.

(** A call in progress.  The option is ghost: the tracked block it gives up. *)
Inductive op :=
| OIns (b : blk)                              (* malloc 404-415 / realloc 449: node not inserted yet *)
| ORem (p : Z) (g : option blk) (b : blk)     (* realloc 445-448: old node not removed yet *)
| OFr (p : Z) (g : option blk)                (* free 424: node not removed yet *)
| OFree (p : Z).                              (* free 427: block not returned yet *)

Record state := mkSt {
  s_inited : bool;               (* __mem_check_inited 173; __mem_check_enable 174 is constantly 1 *)
  s_used : Z;                    (* __mem_used 175 *)
  s_nodes : list blk;            (* __mm_ptr_tree 170 *)
  s_keys : list nat;             (* __mm_pos_tree 167 *)
  s_cnts : nat -> Z;
  s_psize : nat -> Z;
  s_fly : list op;
  s_live : list blk;             (* blocks the program owns, allocated while statistics are on *)
  s_old : list Z;                (* blocks the program owns, allocated before *)
  s_lost : list blk;             (* ghost: see realloc to size 0 *)
  s_raced : bool }.              (* ghost: the allocator has handed out an address
                                    whose old node is still in the tree *)

Definition init_state : state := mkSt false 0 [] [] (fun _ => 0) (fun _ => 0) [] [] [] [] false.

(** sizeof (struct mm_ptr_node), sizeof (struct mm_pos_node). *)
Record sizes := mkSz { z_node : Z; z_pos : Z }.

Definition nupd (f : nat -> Z) (k : nat) (v : Z) : nat -> Z := fun x => if (x =? k)%nat then v else f x.
Definition memk (k : nat) (l : list nat) : bool := existsb (Nat.eqb k) l.
Definition delk (k : nat) (l : list nat) : list nat := filter (fun x => negb (x =? k)%nat) l.

(** mm_insert_ptr(_dbg), mm.c 177-224. *)
Definition insert_ptr (z : sizes) (b : blk) (s : state) : state :=
  if negb (s_inited s) || (b_ptr b =? 0) then s
  else
    let u1 := u64 (s_used s + (b_size b + z_node z)) in
    match b_pos b with
    | None => mkSt (s_inited s) u1 (b :: s_nodes s) (s_keys s) (s_cnts s) (s_psize s) (s_fly s) (s_live s) (s_old s) (s_lost s) (s_raced s)
    | Some k =>
      let found := memk k (s_keys s) in
      let c0 := if found then s_cnts s k else 0 in
      let p0 := if found then s_psize s k else 0 in
      mkSt (s_inited s) (if found then u1 else u64 (u1 + z_pos z)) (b :: s_nodes s)
           (if found then s_keys s else k :: s_keys s) (nupd (s_cnts s) k (c0 + 1)) (nupd (s_psize s) k (u64 (p0 + b_size b)))
           (s_fly s) (s_live s) (s_old s) (s_lost s) (s_raced s)
    end.

(** mm_remove_ptr, mm.c 233-289, when aosl_rb_remove (252) delivers node n and
    leaves the nodes l. *)
Definition remove_node (z : sizes) (n : blk) (l : list blk) (s : state) : state :=
  let u1 := u64 (s_used s - (b_size n + z_node z)) in
  match b_pos n with
  | Some k =>
    if memk k (s_keys s) then
      let c := s_cnts s k - 1 in
      mkSt (s_inited s) (if c =? 0 then u64 (u1 - z_pos z) else u1) l (if c =? 0 then delk k (s_keys s) else s_keys s)
           (nupd (s_cnts s) k c) (nupd (s_psize s) k (u64 (s_psize s k - b_size n)))
           (s_fly s) (s_live s) (s_old s) (s_lost s) (s_raced s)
    else mkSt (s_inited s) u1 l (s_keys s) (s_cnts s) (s_psize s) (s_fly s) (s_live s) (s_old s) (s_lost s) (s_raced s)
  | None => mkSt (s_inited s) u1 l (s_keys s) (s_cnts s) (s_psize s) (s_fly s) (s_live s) (s_old s) (s_lost s) (s_raced s)
  end.
Inductive remove_ptr (z : sizes) (p : Z) (s : state) : state -> Prop :=
| RP_off : s_inited s = false \/ p = 0 -> remove_ptr z p s s
| RP_none : s_inited s = true -> p <> 0 -> ~ In p (map b_ptr (s_nodes s)) -> remove_ptr z p s s
| RP_some n l1 l2 : s_inited s = true -> p <> 0 -> s_nodes s = l1 ++ n :: l2 -> b_ptr n = p ->
    remove_ptr z p s (remove_node z n (l1 ++ l2) s).

Definition set_fly (f : list op) (s : state) : state :=
  mkSt (s_inited s) (s_used s) (s_nodes s) (s_keys s) (s_cnts s) (s_psize s) f (s_live s) (s_old s) (s_lost s) (s_raced s).
Definition set_live (l : list blk) (s : state) : state :=
  mkSt (s_inited s) (s_used s) (s_nodes s) (s_keys s) (s_cnts s) (s_psize s) (s_fly s) l (s_old s) (s_lost s) (s_raced s).
Definition set_old (l : list Z) (s : state) : state :=
  mkSt (s_inited s) (s_used s) (s_nodes s) (s_keys s) (s_cnts s) (s_psize s) (s_fly s) (s_live s) l (s_lost s) (s_raced s).
Definition set_lost (l : list blk) (s : state) : state :=
  mkSt (s_inited s) (s_used s) (s_nodes s) (s_keys s) (s_cnts s) (s_psize s) (s_fly s) (s_live s) (s_old s) l (s_raced s).
Definition set_raced (r : bool) (s : state) : state :=
  mkSt (s_inited s) (s_used s) (s_nodes s) (s_keys s) (s_cnts s) (s_psize s) (s_fly s) (s_live s) (s_old s) (s_lost s) r.

(** The addresses of existing blocks. *)
Definition op_ptr (o : op) : list Z := match o with OIns b | ORem _ _ b => [b_ptr b] | OFr p _ | OFree p => [p] end.
Definition occupied (s : state) : list Z := map b_ptr (s_live s) ++ s_old s ++ flat_map op_ptr (s_fly s).
(** Addresses of blocks that do not exist any more, whose nodes are still to be removed. *)
Definition stale (o : op) : list Z := match o with ORem p _ b => if p =? b_ptr b then [] else [p] | _ => [] end.
Definition stale_keys (s : state) : list Z := flat_map stale (s_fly s) ++ map b_ptr (s_lost s).
(** The allocator may hand out any address where there is no block. *)
Definition fresh (s : state) (b : blk) : Prop := b_ptr b <> 0 /\ ~ In (b_ptr b) (occupied s) /\ 0 <= b_size b.
Definition race (s : state) (b : blk) : bool := s_raced s || existsb (Z.eqb (b_ptr b)) (stale_keys s).

Inductive step (z : sizes) (s : state) : state -> Prop :=
(** *** k_mm_init 376-383, k_mm_fini 385-400 *)
| S_init : s_inited s = false -> s_fly s = [] ->
    step z s (mkSt true 0 (s_nodes s) (s_keys s) (s_cnts s) (s_psize s) [] (s_live s) (s_old s) (s_lost s) (s_raced s))
| S_fini : s_inited s = true -> s_fly s = [] ->
    step z s (mkSt false 0 [] [] (s_cnts s) (s_psize s) [] [] (map b_ptr (s_live s) ++ s_old s) [] (s_raced s))
(** *** aosl_malloc_impl 402-419 (realloc of NULL, 443-454, does the same) *)
| S_malloc b : fresh s b -> step z s (set_raced (race s b) (set_fly (OIns b :: s_fly s) s))
| S_ins b f1 f2 : s_fly s = f1 ++ OIns b :: f2 ->
    step z s (if s_inited s then set_live (b :: s_live s) (insert_ptr z b (set_fly (f1 ++ f2) s))
              else set_old (b_ptr b :: s_old s) (insert_ptr z b (set_fly (f1 ++ f2) s)))
(** *** aosl_realloc_impl 443-454; the new block may be the old one; a NULL result changes nothing *)
| S_realloc g b l1 l2 : s_live s = l1 ++ g :: l2 -> b_ptr b = b_ptr g /\ 0 <= b_size b \/ fresh s b ->
    step z s (set_raced (race s b) (set_live (l1 ++ l2) (set_fly (ORem (b_ptr g) (Some g) b :: s_fly s) s)))
| S_realloc_old p b l1 l2 : s_old s = l1 ++ p :: l2 -> b_ptr b = p /\ 0 <= b_size b \/ fresh s b ->
    step z s (set_raced (race s b) (set_old (l1 ++ l2) (set_fly (ORem p None b :: s_fly s) s)))
(* size 0: the C library frees the block and returns NULL; the node stays (446) *)
| S_realloc_zero g l1 l2 : s_live s = l1 ++ g :: l2 -> step z s (set_lost (g :: s_lost s) (set_live (l1 ++ l2) s))
| S_rem p g b f1 f2 s' : s_fly s = f1 ++ ORem p g b :: f2 -> remove_ptr z p (set_fly (f1 ++ OIns b :: f2) s) s' -> step z s s'
(** *** aosl_free_impl 421-428 *)
| S_free g l1 l2 : s_live s = l1 ++ g :: l2 ->
    step z s (set_live (l1 ++ l2) (set_fly (OFr (b_ptr g) (Some g) :: s_fly s) s))
| S_free_old p l1 l2 : s_old s = l1 ++ p :: l2 -> step z s (set_old (l1 ++ l2) (set_fly (OFr p None :: s_fly s) s))
| S_remf p g f1 f2 s' : s_fly s = f1 ++ OFr p g :: f2 -> remove_ptr z p (set_fly (f1 ++ OFree p :: f2) s) s' -> step z s s'
| S_hal_free p f1 f2 : s_fly s = f1 ++ OFree p :: f2 -> step z s (set_fly (f1 ++ f2) s).

Inductive reachable (z : sizes) : state -> Prop :=
| R_init : reachable z init_state
| R_step s s' : reachable z s -> step z s s' -> reachable z s'.
