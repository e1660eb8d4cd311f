(** * What the user relies on: the flags of a queue, over the history of what happened (newest first). *)
From Verif Require Import Base Qflags.

(** The flags: those given at creation, with the changes made so far. *)
Fixpoint value (fl : Z) (l : list event) : Z :=
  match l with
  | [] => fl
  | EApply _ Or b :: l => Z.lor (value fl l) b
  | EApply _ And b :: l => Z.land (value fl l) b
  | EApply _ Xor b :: l => Z.lxor (value fl l) b
  | _ :: l => value fl l
  end.
(** The thread begins no call and makes no change. *)
Definition quiet (p : nat) (l : list event) : Prop := forall op b, ~ In (ECall p op b) l /\ ~ In (EApply p op b) l /\ ~ In (EAsk p) l.
(** A change that is over was made once, during its call. *)
Definition changed (p : nat) (op : bitop) (b : Z) (l : list event) : Prop :=
  exists x y n, l = x ++ EApply p op b :: y ++ ECall p op b :: n /\ quiet p x /\ quiet p y.
(** What a reading returned was the value at a moment during the call. *)
Definition seen (fl : Z) (p : nat) (v : Z) (l : list event) : Prop :=
  exists x y n, l = x ++ y ++ EAsk p :: n /\ quiet p x /\ quiet p y /\ v = value fl (y ++ EAsk p :: n).
(** The change leaves the flag AOSL_MPQ_FLAG_SIGP_EVENT (2) as it is. *)
Definition leaves (op : bitop) (b : Z) : Prop := match op with Or | Xor => Z.testbit b 1 = false | And => Z.testbit b 1 = true | Other => True end.
