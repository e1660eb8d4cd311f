(** * Model of the doubly linked lists: include/api/aosl_list.h.

    The heap maps the address of a list head or node to its next and prev
    fields; access to an address that is not mapped is undefined behaviour.
    NULL is 0. *)
From Verif Require Import Base.

Definition heap := Z -> option (Z * Z).
Definition upd (h : heap) (p : Z) (c : Z * Z) : heap := fun x => if x =? p then Some c else h x.
(** p->next, p->prev. *)
Definition ld_next (h : heap) (p : Z) : outcome Z := match h p with Some (n, _) => Ok n | None => UB end.
Definition ld_prev (h : heap) (p : Z) : outcome Z := match h p with Some (_, q) => Ok q | None => UB end.
(** p->next = v, p->prev = v. *)
Definition st_next (h : heap) (p v : Z) : outcome heap := match h p with Some (_, q) => Ok (upd h p (v, q)) | None => UB end.
Definition st_prev (h : heap) (p v : Z) : outcome heap := match h p with Some (n, _) => Ok (upd h p (n, v)) | None => UB end.

(** AOSL_LIST_POISON1, AOSL_LIST_POISON2: aosl_list.h 23-24. *)
Definition POISON1 : Z := 1048833.
Definition POISON2 : Z := 2097667.

(** aosl_list_head_init: 38-42. *)
Definition list_head_init (h : heap) (l : Z) : outcome heap := let* h := st_next h l l in st_prev h l l.
(** aosl_list_head_poison: 44-48. *)
Definition list_head_poison (h : heap) (l : Z) : outcome heap := let* h := st_next h l POISON1 in st_prev h l POISON2.
(** __aosl_list_add: 50-56. *)
Definition __list_add (h : heap) (x prev next : Z) : outcome heap :=
  let* h := st_prev h next x in let* h := st_next h x next in let* h := st_prev h x prev in st_next h prev x.
(** aosl_list_add: 64-67. *)
Definition list_add (h : heap) (x head : Z) : outcome heap := let* n := ld_next h head in __list_add h x head n.
(** aosl_list_add_tail: 76-79. *)
Definition list_add_tail (h : heap) (x head : Z) : outcome heap := let* p := ld_prev h head in __list_add h x p head.
(** __aosl_list_del: 81-85. *)
Definition __list_del (h : heap) (prev next : Z) : outcome heap := let* h := st_prev h next prev in st_next h prev next.
(** __aosl_list_del_entry: 87-90. *)
Definition __list_del_entry (h : heap) (e : Z) : outcome heap := let* p := ld_prev h e in let* n := ld_next h e in __list_del h p n.
(** aosl_list_del: 92-96. *)
Definition list_del (h : heap) (e : Z) : outcome heap := let* h := __list_del_entry h e in list_head_poison h e.
(** aosl_list_del_init: 98-102. *)
Definition list_del_init (h : heap) (e : Z) : outcome heap := let* h := __list_del_entry h e in list_head_init h e.
(** aosl_list_move: 109-113. *)
Definition list_move (h : heap) (e head : Z) : outcome heap := let* h := __list_del_entry h e in list_add h e head.
(** aosl_list_move_tail: 120-125. *)
Definition list_move_tail (h : heap) (e head : Z) : outcome heap := let* h := __list_del_entry h e in list_add_tail h e head.
(** aosl_list_empty: 127-130. *)
Definition list_empty (h : heap) (head : Z) : outcome bool := let* n := ld_next h head in Ok (n =? head).
(** aosl_list_empty_careful: 154-158. *)
Definition list_empty_careful (h : heap) (head : Z) : outcome bool :=
  let* n := ld_next h head in if n =? head then (let* p := ld_prev h head in Ok (n =? p)) else Ok false.
(** aosl_list_is_singular: 160-163. *)
Definition list_is_singular (h : heap) (head : Z) : outcome bool :=
  let* e := list_empty h head in if e then Ok false else let* n := ld_next h head in let* p := ld_prev h head in Ok (n =? p).
(** __aosl_list_splice: 165-175. *)
Definition __list_splice (h : heap) (l prev next : Z) : outcome heap :=
  let* first := ld_next h l in let* last := ld_prev h l in
  let* h := st_prev h first prev in let* h := st_next h prev first in
  let* h := st_next h last next in st_prev h next last.
(** aosl_list_splice_tail_init: 177-183. *)
Definition list_splice_tail_init (h : heap) (l head : Z) : outcome heap :=
  let* e := list_empty h l in
  if e then Ok h else let* p := ld_prev h head in let* h := __list_splice h l p head in list_head_init h l.
(** aosl_list_head: 228-234. *)
Definition list_head (h : heap) (head : Z) : outcome Z := let* e := list_empty h head in if e then Ok 0 else ld_next h head.
(** aosl_list_tail: 254-260. *)
Definition list_tail (h : heap) (head : Z) : outcome Z := let* e := list_empty h head in if e then Ok 0 else ld_prev h head.
(** aosl_list_next: 236-243. *)
Definition list_next (h : heap) (head node : Z) : outcome Z := let* n := ld_next h node in if n =? head then Ok 0 else Ok n.
(** aosl_list_prev: 245-252. *)
Definition list_prev (h : heap) (head node : Z) : outcome Z := let* n := ld_prev h node in if n =? head then Ok 0 else Ok n.
(** aosl_list_remove_head: 304-313; aosl_list_remove_head_init: 315-324. *)
Definition list_remove_head (h : heap) (head : Z) : outcome (Z * heap) :=
  let* e := list_empty h head in if e then Ok (0, h) else let* p := ld_next h head in let* h := list_del h p in Ok (p, h).
Definition list_remove_head_init (h : heap) (head : Z) : outcome (Z * heap) :=
  let* e := list_empty h head in if e then Ok (0, h) else let* p := ld_next h head in let* h := list_del_init h p in Ok (p, h).
(** aosl_list_remove_tail: 348-357; aosl_list_remove_tail_init: 359-368. *)
Definition list_remove_tail (h : heap) (head : Z) : outcome (Z * heap) :=
  let* e := list_empty h head in if e then Ok (0, h) else let* p := ld_prev h head in let* h := list_del h p in Ok (p, h).
Definition list_remove_tail_init (h : heap) (head : Z) : outcome (Z * heap) :=
  let* e := list_empty h head in if e then Ok (0, h) else let* p := ld_prev h head in let* h := list_del_init h p in Ok (p, h).

(** The loops.  [fuel] bounds the number of iterations; None: still running. *)
(** aosl_list_for_each 191-192, for a body that does not change the list. *)
Fixpoint each_from (fuel : nat) (h : heap) (pos head : Z) : outcome (option (list Z)) :=
  if pos =? head then Ok (Some []) else
  match fuel with
  | O => Ok None
  | S k => let* n := ld_next h pos in let* r := each_from k h n head in Ok (option_map (cons pos) r)
  end.
Definition for_each (fuel : nat) (h : heap) (head : Z) : outcome (option (list Z)) := let* n := ld_next h head in each_from fuel h n head.
(** aosl_list_for_each_prev 198-199. *)
Fixpoint each_prev_from (fuel : nat) (h : heap) (pos head : Z) : outcome (option (list Z)) :=
  if pos =? head then Ok (Some []) else
  match fuel with
  | O => Ok None
  | S k => let* n := ld_prev h pos in let* r := each_prev_from k h n head in Ok (option_map (cons pos) r)
  end.
Definition for_each_prev (fuel : nat) (h : heap) (head : Z) : outcome (option (list Z)) := let* n := ld_prev h head in each_prev_from fuel h n head.
(** aosl_list_for_each_safe 194-196, with a body that deletes the current entry if [f] says so. *)
Fixpoint each_safe_from (f : Z -> bool) (fuel : nat) (h : heap) (pos n head : Z) : outcome (option (list Z * heap)) :=
  if pos =? head then Ok (Some ([], h)) else
  match fuel with
  | O => Ok None
  | S k => let* h := (if f pos then list_del h pos else Ok h) in
           let* n' := ld_next h n in
           let* r := each_safe_from f k h n n' head in Ok (option_map (fun x => (pos :: fst x, snd x)) r)
  end.
Definition for_each_safe (f : Z -> bool) (fuel : nat) (h : heap) (head : Z) : outcome (option (list Z * heap)) :=
  let* pos := ld_next h head in let* n := ld_next h pos in each_safe_from f fuel h pos n head.
