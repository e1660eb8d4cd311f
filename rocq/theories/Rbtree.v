(** * Model of the red-black tree: lib/rbtree.c, include/kernel/rbtree.h,
    include/api/aosl_rbtree.h.

    The model works on the heap of nodes, pointer by pointer, in the order of
    the C statements.  A node address is a [nat], NULL is [None]; reading or
    writing through NULL or through an address that holds no node is [UB].
    Loops and recursive calls take [fuel]; running out of fuel is [UB], so a
    theorem that says "the result is [Ok] for this fuel" also bounds the
    number of iterations.

    Simplifications: the low bit of rb_parent_color is a separate boolean
    field (nodes are aligned, lib/rbtree.c 14-31); the comparison callback
    sees the two keys ([keys] maps a node to the key stored in the structure
    around it, lookups carry the key of their argument node / varargs) and is
    a pure function. *)

From Verif Require Import Base.

Definition ptr := option nat.

Definition ptr_eqb (p q : ptr) : bool :=
  match p, q with
  | None, None => true
  | Some a, Some b => Nat.eqb a b
  | _, _ => false
  end.

(** struct aosl_rb_node, include/api/aosl_rbtree.h 22-26; [n_red] is the
    inverse of the colour bit of rb_parent_color (AOSL_RB_RED = 0). *)
Record rbn := mkN { n_par : ptr; n_red : bool; n_left : ptr; n_right : ptr }.

(** The node memory, and struct aosl_rb_root (aosl_rbtree.h 30-34). *)
Record rst := mkSt { s_heap : nat -> option rbn; s_root : ptr; s_count : Z }.

Definition hupd (h : nat -> option rbn) (a : nat) (v : option rbn) : nat -> option rbn :=
  fun x => if Nat.eqb x a then v else h x.

Definition M (A : Type) := rst -> outcome (A * rst).
Definition ret {A} (x : A) : M A := fun st => Ok (x, st).
Definition ub {A} : M A := fun _ => UB.
Definition bindM {A B} (m : M A) (k : A -> M B) : M B :=
  fun st => let* (x, st') := m st in k x st'.
Notation "x <- m ;; k" := (bindM m (fun x => k)) (at level 61, m at next level, right associativity).
Notation "m ;;; k" := (bindM m (fun _ : unit => k)) (at level 61, right associativity).

(** Read / modify the node behind a pointer. *)
Definition ld (p : ptr) : M rbn := fun st =>
  match p with
  | None => UB
  | Some a => match s_heap st a with None => UB | Some n => Ok (n, st) end
  end.
Definition modify (p : ptr) (f : rbn -> rbn) : M unit := fun st =>
  match p with
  | None => UB
  | Some a =>
      match s_heap st a with
      | None => UB
      | Some n => Ok (tt, mkSt (hupd (s_heap st) a (Some (f n))) (s_root st) (s_count st))
      end
  end.
Definition get_root : M ptr := fun st => Ok (s_root st, st).
Definition set_root (p : ptr) : M unit := fun st => Ok (tt, mkSt (s_heap st) p (s_count st)).
(** root->count is a uintptr_t (aosl_rbtree.h 33). *)
Definition add_count (d : Z) : M unit := fun st =>
  Ok (tt, mkSt (s_heap st) (s_root st) (u64 (s_count st + d))).

(** rb_set_parent, rb_set_red, rb_set_black, rb_set_color: lib/rbtree.c 14-31. *)
Definition set_parent (p q : ptr) : M unit :=
  modify p (fun n => mkN q (n_red n) (n_left n) (n_right n)).
Definition set_color (p : ptr) (red : bool) : M unit :=
  modify p (fun n => mkN (n_par n) red (n_left n) (n_right n)).
Definition set_red (p : ptr) : M unit := set_color p true.
Definition set_black (p : ptr) : M unit := set_color p false.
Definition set_left (p q : ptr) : M unit :=
  modify p (fun n => mkN (n_par n) (n_red n) q (n_right n)).
Definition set_right (p q : ptr) : M unit :=
  modify p (fun n => mkN (n_par n) (n_red n) (n_left n) q).

(** "p && rb_is_red (p)"; "!p || rb_is_black (p)" is its negation. *)
Definition is_red_opt (p : ptr) : M bool :=
  match p with
  | None => ret false
  | Some _ => n <- ld p ;; ret (n_red n)
  end.
(** "if (p) rb_set_parent (p, q)" and "if (p) rb_set_black (p)". *)
Definition set_parent_opt (p q : ptr) : M unit :=
  match p with None => ret tt | Some _ => set_parent p q end.
Definition set_black_opt (p : ptr) : M unit :=
  match p with None => ret tt | Some _ => set_black p end.

(** aosl_rb_root_init, lib/rbtree.c 37-42. *)
Definition rb_root_init : M unit := fun st => Ok (tt, mkSt (s_heap st) None 0).

(** The statement "if (parent) { if (node == parent->rb_left) parent->rb_left
    = new; else parent->rb_right = new; } else root->rb_node = new;":
    lib/rbtree.c 55-61, 254-260, 273-279, 371-378. *)
Definition replace_child_l (parent node new : ptr) : M unit :=
  match parent with
  | None => set_root new
  | Some _ =>
      pn <- ld parent ;;
      if ptr_eqb node (n_left pn) then set_left parent new else set_right parent new
  end.
(** The same with the right link tested first: lib/rbtree.c 76-82. *)
Definition replace_child_r (parent node new : ptr) : M unit :=
  match parent with
  | None => set_root new
  | Some _ =>
      pn <- ld parent ;;
      if ptr_eqb node (n_right pn) then set_right parent new else set_left parent new
  end.

(** __rb_rotate_left, lib/rbtree.c 44-63. *)
Definition rotate_left (node : ptr) : M unit :=
  n <- ld node ;;
  let right := n_right n in
  let parent := n_par n in
  rn <- ld right ;;
  set_right node (n_left rn) ;;;
  set_parent_opt (n_left rn) node ;;;
  set_left right node ;;;
  set_parent right parent ;;;
  replace_child_l parent node right ;;;
  set_parent node right.

(** __rb_rotate_right, lib/rbtree.c 65-84. *)
Definition rotate_right (node : ptr) : M unit :=
  n <- ld node ;;
  let left := n_left n in
  let parent := n_par n in
  ln <- ld left ;;
  set_left node (n_right ln) ;;;
  set_parent_opt (n_right ln) node ;;;
  set_right left node ;;;
  set_parent left parent ;;;
  replace_child_r parent node left ;;;
  set_parent node left.

(** The loop of aosl_rb_insert_color, lib/rbtree.c 90-144. *)
Fixpoint insert_color_loop (fuel : nat) (node : ptr) : M unit :=
  match fuel with
  | O => ub
  | S fuel' =>
      n <- ld node ;;
      let parent := n_par n in
      match parent with
      | None => ret tt
      | Some _ =>
          pn <- ld parent ;;
          if negb (n_red pn) then ret tt
          else
            let gparent := n_par pn in
            g <- ld gparent ;;
            if ptr_eqb parent (n_left g) then
              let uncle := n_right g in
              ur <- is_red_opt uncle ;;
              if ur then
                set_black uncle ;;;
                set_black parent ;;;
                set_red gparent ;;;
                insert_color_loop fuel' gparent
              else
                if ptr_eqb (n_right pn) node then
                  rotate_left parent ;;;
                  set_black node ;;;
                  set_red gparent ;;;
                  rotate_right gparent ;;;
                  insert_color_loop fuel' parent
                else
                  set_black parent ;;;
                  set_red gparent ;;;
                  rotate_right gparent ;;;
                  insert_color_loop fuel' node
            else
              let uncle := n_left g in
              ur <- is_red_opt uncle ;;
              if ur then
                set_black uncle ;;;
                set_black parent ;;;
                set_red gparent ;;;
                insert_color_loop fuel' gparent
              else
                if ptr_eqb (n_left pn) node then
                  rotate_right parent ;;;
                  set_black node ;;;
                  set_red gparent ;;;
                  rotate_left gparent ;;;
                  insert_color_loop fuel' parent
                else
                  set_black parent ;;;
                  set_red gparent ;;;
                  rotate_left gparent ;;;
                  insert_color_loop fuel' node
      end
  end.

(** aosl_rb_insert_color, lib/rbtree.c 86-148. *)
Definition insert_color (fuel : nat) (node : ptr) : M unit :=
  insert_color_loop fuel node ;;;
  r <- get_root ;;
  set_black r ;;;
  add_count 1.

(** The loop of __rb_erase_color, lib/rbtree.c 154-218; returns the final
    value of [node]. *)
Fixpoint erase_color_loop (fuel : nat) (node parent : ptr) : M ptr :=
  match fuel with
  | O => ub
  | S fuel' =>
      nr <- is_red_opt node ;;
      root <- get_root ;;
      if nr || ptr_eqb node root then ret node
      else
        pn <- ld parent ;;
        if ptr_eqb (n_left pn) node then
          on <- ld (n_right pn) ;;
          (if n_red on then
             set_black (n_right pn) ;;;
             set_red parent ;;;
             rotate_left parent
           else ret tt) ;;;
          pn1 <- ld parent ;;
          let other := n_right pn1 in
          on1 <- ld other ;;
          lred <- is_red_opt (n_left on1) ;;
          rred <- is_red_opt (n_right on1) ;;
          if negb lred && negb rred then
            set_red other ;;;
            pn2 <- ld parent ;;
            erase_color_loop fuel' parent (n_par pn2)
          else
            (if negb rred then
               set_black_opt (n_left on1) ;;;
               set_red other ;;;
               rotate_right other
             else ret tt) ;;;
            pn2 <- ld parent ;;
            let other2 := n_right pn2 in
            set_color other2 (n_red pn2) ;;;
            set_black parent ;;;
            on2 <- ld other2 ;;
            set_black_opt (n_right on2) ;;;
            rotate_left parent ;;;
            get_root
        else
          on <- ld (n_left pn) ;;
          (if n_red on then
             set_black (n_left pn) ;;;
             set_red parent ;;;
             rotate_right parent
           else ret tt) ;;;
          pn1 <- ld parent ;;
          let other := n_left pn1 in
          on1 <- ld other ;;
          lred <- is_red_opt (n_left on1) ;;
          rred <- is_red_opt (n_right on1) ;;
          if negb lred && negb rred then
            set_red other ;;;
            pn2 <- ld parent ;;
            erase_color_loop fuel' parent (n_par pn2)
          else
            (if negb lred then
               set_black_opt (n_right on1) ;;;
               set_red other ;;;
               rotate_left other
             else ret tt) ;;;
            pn2 <- ld parent ;;
            let other2 := n_left pn2 in
            set_color other2 (n_red pn2) ;;;
            set_black parent ;;;
            on2 <- ld other2 ;;
            set_black_opt (n_left on2) ;;;
            rotate_right parent ;;;
            get_root
  end.

(** __rb_erase_color, lib/rbtree.c 150-221. *)
Definition erase_color (fuel : nat) (node parent : ptr) : M unit :=
  n <- erase_color_loop fuel node parent ;;
  set_black_opt n.

(** "while ((left = node->rb_left) != NULL) node = left;": lib/rbtree.c
    236-237, 297-298, 325-326. *)
Fixpoint leftmost (fuel : nat) (p : ptr) : M ptr :=
  match fuel with
  | O => ub
  | S fuel' =>
      n <- ld p ;;
      match n_left n with
      | None => ret p
      | Some _ => leftmost fuel' (n_left n)
      end
  end.
(** lib/rbtree.c 309-310, 353-354. *)
Fixpoint rightmost (fuel : nat) (p : ptr) : M ptr :=
  match fuel with
  | O => ub
  | S fuel' =>
      n <- ld p ;;
      match n_right n with
      | None => ret p
      | Some _ => rightmost fuel' (n_right n)
      end
  end.

(** aosl_rb_erase, no or one child: lib/rbtree.c 228-231 and 268-284. *)
Definition erase_simple (fuel : nat) (node child : ptr) : M unit :=
  n <- ld node ;;
  let parent := n_par n in
  let color := n_red n in
  set_parent_opt child parent ;;;
  replace_child_l parent node child ;;;
  (if color then ret tt else erase_color fuel child parent) ;;;
  add_count (-1).

(** aosl_rb_erase, two children: lib/rbtree.c 233-265 and 281-284. *)
Definition erase_two (fuel : nat) (old : ptr) : M unit :=
  on0 <- ld old ;;
  node <- leftmost fuel (n_right on0) ;;
  nn <- ld node ;;
  let child := n_right nn in
  let parent := n_par nn in
  let color := n_red nn in
  set_parent_opt child parent ;;;
  (if ptr_eqb parent old then set_right parent child else set_left parent child) ;;;
  let parent' := if ptr_eqb parent old then node else parent in
  on <- ld old ;;
  modify node (fun _ => mkN (n_par on) (n_red on) (n_left on) (n_right on)) ;;;
  replace_child_l (n_par on) old node ;;;
  on1 <- ld old ;;
  set_parent (n_left on1) node ;;;
  on2 <- ld old ;;
  set_parent_opt (n_right on2) node ;;;
  (if color then ret tt else erase_color fuel child parent') ;;;
  add_count (-1).

(** aosl_rb_erase, lib/rbtree.c 223-285. *)
Definition rb_erase (fuel : nat) (node : ptr) : M unit :=
  n <- ld node ;;
  match n_left n, n_right n with
  | None, r => erase_simple fuel node r
  | Some _, None => erase_simple fuel node (n_left n)
  | Some _, Some _ => erase_two fuel node
  end.

(** aosl_rb_first / aosl_rb_last, lib/rbtree.c 290-312. *)
Definition rb_first (fuel : nat) : M ptr :=
  r <- get_root ;;
  match r with None => ret None | Some _ => leftmost fuel r end.
Definition rb_last (fuel : nat) : M ptr :=
  r <- get_root ;;
  match r with None => ret None | Some _ => rightmost fuel r end.

(** The climbing loops of aosl_rb_next / aosl_rb_prev, lib/rbtree.c 336-337, 360-361. *)
Fixpoint climb_right (fuel : nat) (node : ptr) : M ptr :=
  match fuel with
  | O => ub
  | S fuel' =>
      n <- ld node ;;
      match n_par n with
      | None => ret None
      | Some _ =>
          pn <- ld (n_par n) ;;
          if ptr_eqb node (n_right pn) then climb_right fuel' (n_par n) else ret (n_par n)
      end
  end.
Fixpoint climb_left (fuel : nat) (node : ptr) : M ptr :=
  match fuel with
  | O => ub
  | S fuel' =>
      n <- ld node ;;
      match n_par n with
      | None => ret None
      | Some _ =>
          pn <- ld (n_par n) ;;
          if ptr_eqb node (n_left pn) then climb_left fuel' (n_par n) else ret (n_par n)
      end
  end.

(** aosl_rb_next, lib/rbtree.c 314-340. *)
Definition rb_next (fuel : nat) (node : ptr) : M ptr :=
  n <- ld node ;;
  if ptr_eqb (n_par n) node then ret None
  else match n_right n with
       | Some _ => leftmost fuel (n_right n)
       | None => climb_right fuel node
       end.
(** aosl_rb_prev, lib/rbtree.c 342-364. *)
Definition rb_prev (fuel : nat) (node : ptr) : M ptr :=
  n <- ld node ;;
  if ptr_eqb (n_par n) node then ret None
  else match n_left n with
       | Some _ => rightmost fuel (n_left n)
       | None => climb_left fuel node
       end.

(** aosl_rb_replace_node, lib/rbtree.c 366-386. *)
Definition rb_replace_node (victim new : ptr) : M unit :=
  v <- ld victim ;;
  replace_child_l (n_par v) victim new ;;;
  v1 <- ld victim ;;
  set_parent_opt (n_left v1) new ;;;
  v2 <- ld victim ;;
  set_parent_opt (n_right v2) new ;;;
  v3 <- ld victim ;;
  modify new (fun _ => v3).

(** A [struct aosl_rb_node **]: the address of a link field. *)
Inductive link := LRoot | LLeft (p : ptr) | LRight (p : ptr).
Definition read_link (l : link) : M ptr :=
  match l with
  | LRoot => get_root
  | LLeft p => n <- ld p ;; ret (n_left n)
  | LRight p => n <- ld p ;; ret (n_right n)
  end.
Definition write_link (l : link) (q : ptr) : M unit :=
  match l with
  | LRoot => set_root q
  | LLeft p => set_left p q
  | LRight p => set_right p q
  end.

Section Keys.
  Variable K : Type.
  (** The comparison callback (aosl_rb_node_cmp_t, aosl_rbtree.h 28): result
      for "node in the tree" against "node / key looked for". *)
  Variable cmp : K -> K -> Z.
  Variable keys : nat -> K.

  Definition cmp_node (p : ptr) (k : K) : M Z :=
    match p with
    | None => ub
    | Some a => n <- ld p ;; ret (cmp (keys a) k)
    end.

  (** aosl_vfind_rb_links 389-424 and aosl_find_rb_links 426-461: returns
      (link, rb_parent, rb_prev, rb_next). *)
  Fixpoint find_links_loop (fuel : nat) (lk : link) (par prev next : ptr) (k : K)
    : M (link * ptr * ptr * ptr) :=
    match fuel with
    | O => ub
    | S fuel' =>
        cur <- read_link lk ;;
        match cur with
        | None => ret (lk, par, prev, next)
        | Some _ =>
            r <- cmp_node cur k ;;
            if 0 <? r then find_links_loop fuel' (LLeft cur) cur prev cur k
            else find_links_loop fuel' (LRight cur) cur cur next k
        end
    end.
  Definition find_links (fuel : nat) (k : K) : M (link * ptr * ptr * ptr) :=
    find_links_loop fuel LRoot None None None k.

  (** aosl_vfind_rb_node 463-485 and aosl_find_rb_node 487-509. *)
  Fixpoint find_node_loop (fuel : nat) (cur : ptr) (k : K) : M ptr :=
    match fuel with
    | O => ub
    | S fuel' =>
        match cur with
        | None => ret None
        | Some _ =>
            r <- cmp_node cur k ;;
            if r =? 0 then ret cur
            else
              n <- ld cur ;;
              if 0 <? r then find_node_loop fuel' (n_left n) k
              else find_node_loop fuel' (n_right n) k
        end
    end.
  Definition find_node (fuel : nat) (k : K) : M ptr :=
    r <- get_root ;; find_node_loop fuel r k.

  (** rb_link_node and rb_insert, include/kernel/rbtree.h 27-41 (colour bit 0
      = red). *)
  Definition rb_link_node (node parent : ptr) (lk : link) : M unit :=
    modify node (fun _ => mkN parent true None None) ;;;
    write_link lk node.
  Definition rb_insert (fuel : nat) (node : ptr) (lk : link) (parent : ptr) : M unit :=
    rb_link_node node parent lk ;;;
    insert_color fuel node.

  (** aosl_rb_insert_node, lib/rbtree.c 511-519, for the node at address [a]
      whose key is already stored. *)
  Definition rb_insert_node (fuel : nat) (a : nat) : M unit :=
    r <- find_links fuel (keys a) ;;
    match r with (lk, par, _, _) => rb_insert fuel (Some a) lk par end.

  (** aosl_rb_remove, lib/rbtree.c 521-534. *)
  Definition rb_remove (fuel : nat) (k : K) : M ptr :=
    p <- find_node fuel k ;;
    match p with
    | None => ret None
    | Some _ => rb_erase fuel p ;;; ret p
    end.
End Keys.

(** The recursive traversals, lib/rbtree.c 536-603.  [f] is the callback: it
    receives the node and the callback state, and returns its int result and
    the new state; it does not touch the tree.  The pair (done, state) is
    threaded through ([done_p] is never NULL on these paths). *)
Section Walk.
  Variable S0 : Type.
  Variable f : nat -> S0 -> Z * S0.

  Definition visit (p : ptr) (x : Z * S0) : M (Z * S0) :=
    match p with
    | None => ub
    | Some a => if fst x =? 0 then ret (f a (snd x)) else ret x
    end.
  Definition unless_done (x : Z * S0) (m : M (Z * S0)) : M (Z * S0) :=
    if fst x =? 0 then m else ret x.

  (** __rb_traverse_dlr, 536-551. *)
  Fixpoint traverse_dlr (fuel : nat) (p : ptr) (x : Z * S0) : M (Z * S0) :=
    match fuel with
    | O => ub
    | S fuel' =>
        match p with
        | None => ret x
        | Some _ =>
            x1 <- visit p x ;;
            x2 <- unless_done x1 (n <- ld p ;; traverse_dlr fuel' (n_left n) x1) ;;
            unless_done x2 (n <- ld p ;; traverse_dlr fuel' (n_right n) x2)
        end
    end.
  (** __rb_traverse_ldr, 559-574. *)
  Fixpoint traverse_ldr (fuel : nat) (p : ptr) (x : Z * S0) : M (Z * S0) :=
    match fuel with
    | O => ub
    | S fuel' =>
        match p with
        | None => ret x
        | Some _ =>
            x1 <- unless_done x (n <- ld p ;; traverse_ldr fuel' (n_left n) x) ;;
            x2 <- visit p x1 ;;
            unless_done x2 (n <- ld p ;; traverse_ldr fuel' (n_right n) x2)
        end
    end.
  (** __rb_traverse_lrd, 582-597. *)
  Fixpoint traverse_lrd (fuel : nat) (p : ptr) (x : Z * S0) : M (Z * S0) :=
    match fuel with
    | O => ub
    | S fuel' =>
        match p with
        | None => ret x
        | Some _ =>
            x1 <- unless_done x (n <- ld p ;; traverse_lrd fuel' (n_left n) x) ;;
            x2 <- unless_done x1 (n <- ld p ;; traverse_lrd fuel' (n_right n) x1) ;;
            visit p x2
        end
    end.
  (** aosl_rb_traverse_dlr / ldr / lrd, 553-557, 576-580, 599-603: the final
      callback state. *)
  Definition rb_traverse_dlr (fuel : nat) (s : S0) : M S0 :=
    r <- get_root ;; x <- traverse_dlr fuel r (0, s) ;; ret (snd x).
  Definition rb_traverse_ldr (fuel : nat) (s : S0) : M S0 :=
    r <- get_root ;; x <- traverse_ldr fuel r (0, s) ;; ret (snd x).
  Definition rb_traverse_lrd (fuel : nat) (s : S0) : M S0 :=
    r <- get_root ;; x <- traverse_lrd fuel r (0, s) ;; ret (snd x).
End Walk.

(** aosl_rb_clear, include/api/aosl_rbtree.h 182-190; each erased node is
    freed ([type_free]): its memory is gone afterwards.  Returns the freed
    nodes in order. *)
Definition free_node (p : ptr) : M unit := fun st =>
  match p with
  | None => UB
  | Some a =>
      match s_heap st a with
      | None => UB
      | Some _ => Ok (tt, mkSt (hupd (s_heap st) a None) (s_root st) (s_count st))
      end
  end.
Fixpoint rb_clear (loops fuel : nat) : M (list nat) :=
  match loops with
  | O => ub
  | S loops' =>
      r <- get_root ;;
      match r with
      | None => ret []
      | Some a =>
          rb_erase fuel r ;;;
          free_node r ;;;
          l <- rb_clear loops' fuel ;;
          ret (a :: l)
      end
  end.
