(** * Specification vocabulary for the red-black tree (C05-C07).

    Everything here talks about the node memory and plain lists; nothing
    refers to the proof's trees or invariants. *)
From Verif Require Import Base Rbtree.
From Coq Require Export Permutation Sorted.

(** The node sequence met by an in-order / pre-order / post-order reading of
    the memory from the pointer [p]. *)
Inductive walk_in (h : nat -> option rbn) : ptr -> list nat -> Prop :=
| wi_nil : walk_in h None []
| wi_node a n l1 l2 : h a = Some n -> walk_in h (n_left n) l1 -> walk_in h (n_right n) l2 ->
    walk_in h (Some a) (l1 ++ a :: l2).
Inductive walk_pre (h : nat -> option rbn) : ptr -> list nat -> Prop :=
| wp_nil : walk_pre h None []
| wp_node a n l1 l2 : h a = Some n -> walk_pre h (n_left n) l1 -> walk_pre h (n_right n) l2 ->
    walk_pre h (Some a) (a :: l1 ++ l2).
Inductive walk_post (h : nat -> option rbn) : ptr -> list nat -> Prop :=
| wo_nil : walk_post h None []
| wo_node a n l1 l2 : h a = Some n -> walk_post h (n_left n) l1 -> walk_post h (n_right n) l2 ->
    walk_post h (Some a) (l1 ++ l2 ++ [a]).

(** A way down from [p] to a NULL leaf, recorded as the colours of the nodes
    met ([true] = red). *)
Inductive way_down (h : nat -> option rbn) : ptr -> list bool -> Prop :=
| wd_nil : way_down h None []
| wd_left a n cs : h a = Some n -> way_down h (n_left n) cs -> way_down h (Some a) (n_red n :: cs)
| wd_right a n cs : h a = Some n -> way_down h (n_right n) cs -> way_down h (Some a) (n_red n :: cs).
Fixpoint blacks (cs : list bool) : nat :=
  match cs with [] => 0%nat | c :: cs' => ((if c then 0 else 1) + blacks cs')%nat end.
Fixpoint no_two_reds (cs : list bool) : Prop :=
  match cs with
  | true :: (true :: _) => False
  | _ :: cs' => no_two_reds cs'
  | [] => True
  end.

(** Number of loop iterations granted to one operation on [n] elements. *)
Definition log_steps (n : nat) : nat := (2 * Nat.log2 (n + 1) + 2)%nat.

(** A comparison callback that orders the keys. *)
Record total_preorder {K} (cmp : K -> K -> Z) : Prop := {
  tp_anti : forall x y, 0 < cmp x y <-> cmp y x < 0;
  tp_trans : forall x y z, cmp x y <= 0 -> cmp y z <= 0 -> cmp x z <= 0
}.

Definition kupd {K} (keys : nat -> K) (a : nat) (k : K) : nat -> K :=
  fun x => if Nat.eqb x a then k else keys x.
Definition with_cell (st : rst) (a : nat) (c : option rbn) : rst :=
  mkSt (hupd (s_heap st) a c) (s_root st) (s_count st).
Definition not_node {K} (a : nat) (x : nat * K) : bool := negb (Nat.eqb (fst x) a).

(** The histories of one tree.  [reach cmp st keys live]: some history of
    calls leads to the memory [st]; [live] lists the elements inserted and
    not yet removed, oldest first, with the key each was inserted with.
    The caller allocates a node (with any contents [g]) before inserting it,
    does not insert a node that is already in the tree, erases only nodes in
    the tree, and frees a node after its removal.  Each call is given at
    least [log_steps] iterations (with that many no call runs out of them,
    see C06, and more make no difference). *)
Inductive reach {K} (cmp : K -> K -> Z) : rst -> (nat -> K) -> list (nat * K) -> Prop :=
| reach_init st0 keys st : rb_root_init st0 = Ok (tt, st) -> reach cmp st keys []
| reach_insert st keys live a k g fuel st' :
    reach cmp st keys live -> ~ In a (map fst live) -> (log_steps (length live) <= fuel)%nat ->
    rb_insert_node K cmp (kupd keys a k) fuel a (with_cell st a (Some g)) = Ok (tt, st') ->
    reach cmp st' (kupd keys a k) (live ++ [(a, k)])
| reach_erase st keys live a fuel st' st'' :
    reach cmp st keys live -> In a (map fst live) -> (log_steps (length live) <= fuel)%nat ->
    rb_erase fuel (Some a) st = Ok (tt, st') -> free_node (Some a) st' = Ok (tt, st'') ->
    reach cmp st'' keys (filter (not_node a) live)
| reach_remove st keys live k fuel a st' st'' :
    reach cmp st keys live -> (log_steps (length live) <= fuel)%nat ->
    rb_remove K cmp keys fuel k st = Ok (Some a, st') -> free_node (Some a) st' = Ok (tt, st'') ->
    reach cmp st'' keys (filter (not_node a) live)
| reach_remove_none st keys live k fuel st' :
    reach cmp st keys live -> (log_steps (length live) <= fuel)%nat ->
    rb_remove K cmp keys fuel k st = Ok (None, st') ->
    reach cmp st' keys live.

(** A callback run over a list until it returns non-zero. *)
Fixpoint visit_until {S0} (f : nat -> S0 -> Z * S0) (l : list nat) (s : S0) : S0 :=
  match l with
  | [] => s
  | a :: l' => let (d, s') := f a s in if d =? 0 then visit_until f l' s' else s'
  end.

Definition last_error {A} (l : list A) : option A := hd_error (rev l).
