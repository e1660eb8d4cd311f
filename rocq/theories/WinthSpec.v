(** * Specification of C71: threads of the windows port, over histories (latest event first). *)
From Verif Require Import Base Winth.

(** The caller keeps the rules: no thread calls aosl_hal_thread_exit, the identifier
    of a thread is used only after its create returned, and for one call. *)
Fixpoint proper (h : list event) : Prop :=
  match h with
  | [] => True
  | e :: h' => proper h' /\
      match e with
      | EExit _ _ => False
      | ECall k _ => In (ECreated k) h' /\ forall o, ~ In (ECall k o) h'
      | _ => True
      end
  end.
Definition about (e : event) : nat :=
  match e with
  | EBegin k | ECreated k | EFun k _ | EExit k _ | EEnd k | ECall k _ | EResult k _ _ | EClose k | EFree k | EFreeStart k => k
  end.
(** The part of the history about thread k. *)
Definition evs (k : nat) (h : list event) : list event := filter (fun e => (about e =? k)%nat) h.
Definition count (p : event -> bool) (h : list event) : nat := length (filter p h).
Definition is_close (e : event) : bool := match e with EClose _ => true | _ => false end.
Definition is_free (e : event) : bool := match e with EFree _ => true | _ => false end.
Definition is_fstart (e : event) : bool := match e with EFreeStart _ => true | _ => false end.
(** Everything that create allocated for thread k was given back. *)
Definition released (k : nat) (h : list event) : Prop := In (EClose k) h /\ In (EFree k) h /\ In (EFreeStart k) h.
