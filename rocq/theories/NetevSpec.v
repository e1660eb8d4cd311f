(** * What the user relies on: subscription to network events, over the history of what happened
    (newest first).  Nothing here refers to the library's variables. *)
From Verif Require Import Base Route Netev.

(** Who is subscribed, and with which callback. *)
Fixpoint holder (l : list event) : option (nat * fn) :=
  match l with
  | [] => None
  | EOn q f :: _ => Some (q, f)
  | EUnsub _ true _ :: _ => None
  | _ :: l => holder l
  end.

(** f is called on q's thread, with the event e. *)
Definition called (x : event) (q : nat) (f : fn) (e : net_ev) : Prop := exists o, x = ELook q f o (Some e).

(** No callback that the arrival of data led to has unsubscribed. *)
Definition outside (l : list event) : Prop := forall q, ~ In (EUnsub q true true) l.
(** The system never refused a socket once one was open, nor a new one to a subscriber. *)
Definition granted (l : list event) : Prop := forall opened re, In (EFail opened re) l -> opened = false /\ re = false.
