(** * Model of the network interface cache: net/netifs.c 22-152.

    The nodes' links live in the heap of Dlist.v; [s_nd] holds the payload
    (aosl_netif_t, include/api/aosl_route.h 32-36) of the allocated nodes.
    A string is the list of its characters, without the final NUL; if_name has
    room for 63 of them.  The result of aosl_malloc is an argument of the step:
    None if it fails, or the address of the new node.  All calls are made by
    the queue that subscribed to network events (kernel/rt_monitor.c 90-102,
    442-470), or under its lock (net/route.c 425-434). *)
From Verif Require Import Base Dlist.

(** aosl_netif_t: aosl_route.h 32-36. *)
Record netif := { if_index : Z; if_type : Z; if_name : list Z }.
Record nst := { s_lk : heap; s_nd : Z -> option netif }.
Definition set_nd (s : nst) (p : Z) (v : option netif) : nst := {| s_lk := s_lk s; s_nd := fun x => if x =? p then v else s_nd s x |}.
Definition set_lk (s : nst) (h : heap) : nst := {| s_lk := h; s_nd := s_nd s |}.

(** __netifs_hash [i] and __free_netifs: 28-30; any distinct addresses would do. *)
Definition bucket (i : Z) : Z := 100 + i.
Definition FREE : Z := 99.
(** sizeof if_name. *)
Definition NAMESZ : Z := 64.

(** snprintf (dst, sizeof if_name, "%s", src): at most NAMESZ - 1 characters. *)
Definition fit (src : list Z) : list Z := firstn (Z.to_nat (NAMESZ - 1)) src.
(** strcmp != 0. *)
Fixpoint str_eq (a b : list Z) : bool :=
  match a, b with [], [] => true | x :: a, y :: b => (x =? y) && str_eq a b | _, _ => false end.

(** hash = idx & (IFINFO_HASH_SIZE - 1): 38, 117. *)
Definition hash (idx : Z) : Z := Z.land idx 15.

(** __netif_node_by_index: 33-45.  0 is NULL; None: the loop is still running after [fuel] rounds. *)
Fixpoint find_from (fuel : nat) (s : nst) (pos head idx : Z) : outcome (option Z) :=
  if pos =? head then Ok (Some 0) else
  match fuel with
  | O => Ok None
  | S k => match s_nd s pos with
           | None => UB
           | Some n => if if_index n =? s32 idx then Ok (Some pos) else let* nx := ld_next (s_lk s) pos in find_from k s nx head idx
           end
  end.
Definition node_by_index (fuel : nat) (s : nst) (idx : Z) : outcome (option Z) :=
  let* p := ld_next (s_lk s) (bucket (hash idx)) in find_from fuel s p (bucket (hash idx)) idx.

(** netif_by_index: 47-59.  The structure pointed to, if any. *)
Definition netif_by_index (fuel : nat) (s : nst) (idx : Z) : outcome (option (option netif)) :=
  if idx <? 0 then Ok (Some None) else
  let* r := node_by_index fuel s idx in
  match r with
  | None => Ok None
  | Some p => if p =? 0 then Ok (Some None) else match s_nd s p with None => UB | Some n => Ok (Some (Some n)) end
  end.

(** The name written for an ifname argument, which may be NULL: 92-97, 111-115. *)
Definition new_name (ifname : option (list Z)) : list Z := match ifname with Some n => fit n | None => [] end.
(** The name after an update of a known interface: 92-97. *)
Definition upd_name (old : list Z) (ifname : option (list Z)) : list Z :=
  match ifname with Some n => if str_eq old n then old else fit n | None => [] end.

(** update_netifs (1, ifindex): 61-82. *)
Definition del_netif (fuel : nat) (s : nst) (idx : Z) : outcome (option (Z * nst)) :=
  if idx <? 0 then Ok (Some (- AOSL_EINVAL, s)) else
  let* r := node_by_index fuel s idx in
  match r with
  | None => Ok None
  | Some p => if p =? 0 then Ok (Some (- AOSL_ENOENT, s)) else
      let* h := list_del (s_lk s) p in let* h := list_add_tail h p FREE in Ok (Some (0, set_lk s h))
  end.

(** Fill in and link a node: 109-119. *)
Definition link_new (s : nst) (p idx : Z) (ifname : option (list Z)) (ty : Z) : outcome (option (Z * nst)) :=
  match s_nd s p with
  | None => UB
  | Some _ => let s := set_nd s p (Some {| if_index := idx; if_type := ty; if_name := new_name ifname |}) in
              let* h := list_add_tail (s_lk s) p (bucket (hash idx)) in Ok (Some (0, set_lk s h))
  end.

(** aosl_malloc (sizeof (struct netif_node)): the block's content is arbitrary [g]. *)
Definition malloc_node (s : nst) (p : Z) (g : netif) : nst :=
  set_nd (set_lk s (fun x => if x =? p then Some (0, 0) else s_lk s x)) p (Some g).

(** update_netifs (0, ifindex, ifname, iftype): 61-73, 84-120. *)
Definition upd_netif (fuel : nat) (s : nst) (alloc : option (Z * netif)) (idx : Z) (ifname : option (list Z)) (ty : Z) : outcome (option (Z * nst)) :=
  if idx <? 0 then Ok (Some (- AOSL_EINVAL, s)) else
  let* r := node_by_index fuel s idx in
  match r with
  | None => Ok None
  | Some p =>
      if negb (p =? 0) then
        match s_nd s p with
        | None => UB
        | Some n => Ok (Some (0, set_nd s p (Some {| if_index := if_index n; if_type := ty; if_name := upd_name (if_name n) ifname |})))
        end
      else
        let* (q, h) := list_remove_head (s_lk s) FREE in
        let s := set_lk s h in
        if q =? 0 then
          match alloc with
          | None => Ok (Some (- AOSL_ENOMEM, s))
          | Some (a, g) => link_new (malloc_node s a g) a idx ifname ty
          end
        else link_new s q idx ifname ty
  end.

(** aosl_free of a node. *)
Definition free_node (s : nst) (p : Z) : outcome nst :=
  match s_nd s p with None => UB | Some _ => Ok (set_nd (set_lk s (fun x => if x =? p then None else s_lk s x)) p None) end.
(** The loops at 136-142 and 145-151; the result lists the freed nodes. *)
Fixpoint drain (fuel : nat) (s : nst) (head : Z) : outcome (option (list Z * nst)) :=
  let* (p, h) := list_remove_head (s_lk s) head in
  let s := set_lk s h in
  if p =? 0 then Ok (Some ([], s)) else
  match fuel with
  | O => Ok None
  | S k => let* s := free_node s p in let* r := drain k s head in
           match r with None => Ok None | Some (l, s) => Ok (Some (p :: l, s)) end
  end.
Fixpoint drain_all (fuel : nat) (s : nst) (heads : list Z) : outcome (option (list Z * nst)) :=
  match heads with
  | [] => Ok (Some ([], s))
  | b :: r => let* x := drain fuel s b in
      match x with
      | None => Ok None
      | Some (l, s) => let* y := drain_all fuel s r in match y with None => Ok None | Some (m, s) => Ok (Some (l ++ m, s)) end
      end
  end.
Definition buckets : list Z := map (fun i => bucket (Z.of_nat i)) (seq 0 16).
(** netifs_hash_fini: 130-152. *)
Definition netifs_fini (fuel : nat) (s : nst) : outcome (option (list Z * nst)) := drain_all fuel s (buckets ++ [FREE]).
(** netifs_hash_init: 122-128. *)
Fixpoint init_heads (h : heap) (heads : list Z) : outcome heap :=
  match heads with [] => Ok h | b :: r => let* h := list_head_init h b in init_heads h r end.
Definition netifs_init (s : nst) : outcome nst := let* h := init_heads (s_lk s) buckets in Ok (set_lk s h).
(** Static storage at program start: only the list heads are mapped, zeroed, except
    __free_netifs which is statically initialised (30). *)
Definition start : nst :=
  {| s_lk := fun p => if p =? FREE then Some (FREE, FREE) else if (100 <=? p) && (p <? 116) then Some (0, 0) else None; s_nd := fun _ => None |}.

(** A call of the cache's interface, with the answer of malloc should it be called. *)
Inductive nop :=
| ODel (idx : Z)
| OUpd (idx : Z) (name : option (list Z)) (ty : Z) (alloc : option (Z * netif)).
Definition nexec (fuel : nat) (s : nst) (o : nop) : outcome (option (Z * nst)) :=
  match o with ODel i => del_netif fuel s i | OUpd i n t a => upd_netif fuel s a i n t end.
(** malloc returns NULL or a block that is not in use. *)
Definition alloc_ok (s : nst) (o : nop) : Prop :=
  match o with OUpd _ _ _ (Some (a, _)) => a <> 0 /\ s_lk s a = None | _ => True end.
