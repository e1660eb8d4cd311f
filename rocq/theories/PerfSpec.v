(** * What the user relies on: the performance callback, over the history of what happened (newest first). Nothing here refers to the library's variables. *)
From Verif Require Import Base Perf.

(** The callback in force: the one stored last; none (0) at first. *)
Fixpoint installed (l : list event) : nat := match l with [] => 0%nat | ESet _ c :: _ => c | _ :: l => installed l end.
(** The queue exists. *)
Fixpoint lives (l : list event) (q : nat) : bool :=
  match l with
  | [] => false
  | ECreate x :: l => Nat.eqb x q || lives l q
  | EDestroy x :: l => negb (Nat.eqb x q) && lives l q
  | _ :: l => lives l q
  end.
(** The calls of a callback for one execution. *)
Fixpoint reports (l : list event) (n : nat) : list nat :=
  match l with
  | [] => []
  | EReport _ m c _ _ _ _ :: l => if Nat.eqb m n then c :: reports l n else reports l n
  | _ :: l => reports l n
  end.
(** Between two moments the thread neither began another call nor stored anything. *)
Definition quiet (p : nat) (l : list event) : Prop := forall c, ~ In (ECall p c) l /\ ~ In (ESet p c) l.
(** The history of a call that stored its callback once, and of one that did not and, at a moment during the call, saw a queue. *)
Definition stored (p c : nat) (l : list event) : Prop := exists a b n, l = a ++ ESet p c :: b ++ ECall p c :: n /\ quiet p a /\ quiet p b.
Definition refused (p c : nat) (l : list event) : Prop := exists a b n, l = a ++ b ++ ECall p c :: n /\ quiet p a /\ quiet p b /\ exists q, lives (b ++ ECall p c :: n) q = true.
(** The two times reported are right, to a millisecond, for an execution queued at [ts], begun at [b], whose function returned at [r] (in milliseconds). *)
Definition right_times (ts b r wait exec : Z) : Prop := Z.abs (wait - 1000 * (b - ts)) <= 1000 /\ Z.abs (exec - 1000 * (r - b)) <= 1000.
