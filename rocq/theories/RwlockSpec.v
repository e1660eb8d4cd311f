(** * What the histories of the read-write lock say (specification). *)
From Verif Require Import Base Rwlock.

(** Histories, latest event first. *)
Definition about (t : nat) (e : event) : bool :=
  match e with EWant u _ | EGot u _ | EBusy u _ | ERel u _ | EDown u => (u =? t)%nat | EStray _ => false end.

(** How t holds the lock: not at all, for reading (Some false), for writing (Some true). *)
Fixpoint holds (t : nat) (h : list event) : option bool :=
  match h with
  | [] => None
  | e :: h' =>
    if about t e then
      match e with EGot _ w => Some w | ERel _ _ => None | EDown _ => Some false | _ => holds t h' end
    else holds t h'
  end.
(** Is t inside a blocking lock call? *)
Fixpoint waits (t : nat) (h : list event) : option bool :=
  match h with
  | [] => None
  | e :: h' => if about t e then match e with EWant _ w => Some w | _ => None end else waits t h'
  end.

(** t sleeps on its event and nobody has signalled it. *)
Definition asleep (s : state) (t : nat) : Prop := (s_pc s t = RSleep \/ s_pc s t = WWait) /\ s_pulse s t = false.
(** t executes code of the lock (not user code, not asleep) and the next
    instruction of t can be executed. *)
Definition runs (N : nat) (s : state) (t : nat) : Prop :=
  (s_pc s t <> Idle /\ s_pc s t <> RHold /\ s_pc s t <> WHold) /\ ~ asleep s t /\ exists s', step N s s' /\ s_pc s' t <> s_pc s t.
