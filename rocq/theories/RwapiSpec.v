(** * What the histories of the public read-write lock say (specification).  Latest event first. *)
From Verif Require Import Base Rwapi.

Definition who (e : uevent) : nat := match e with ECall t _ | ERet t _ _ => t end.
(** The latest event of client t. *)
Fixpoint latest (t : nat) (h : list uevent) : option uevent :=
  match h with [] => None | e :: h' => if (who e =? t)%nat then Some e else latest t h' end.

(** Did this return give the write lock / the read lock?  (The try functions return 1 when they succeed.) *)
Definition gives_write (o : op) (r : Z) : bool := match o with OWr | OUp => true | OTryWr => r =? 1 | _ => false end.
Definition gives_read (o : op) (r : Z) : bool := match o with ORd | ODown => true | OTryRd => r =? 1 | _ => false end.

(** A client holds the lock from the return of the call that gives it until
    its next call (rdunlock, wrunlock, upgrade or downgrade). *)
Definition writes (t : nat) (h : list uevent) : Prop := exists o r, latest t h = Some (ERet t o r) /\ gives_write o r = true.
Definition reads (t : nat) (h : list uevent) : Prop := exists o r, latest t h = Some (ERet t o r) /\ gives_read o r = true.
(** A client is inside call o. *)
Definition inside (t : nat) (o : op) (h : list uevent) : Prop := latest t h = Some (ECall t o).
