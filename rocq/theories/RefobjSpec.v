(** * What users see of reference objects, read from a history. *)
From Verif Require Import Base Refobj.

(** How often events of a kind occur. *)
Fixpoint cnt (p : ev -> bool) (tr : list ev) : Z := match tr with [] => 0 | e :: r => (if p e then 1 else 0) + cnt p r end.
Definition keqb (a b : option kind) : bool := match a, b with None, None | Some Hold, Some Hold | Some Read, Some Read | Some Write, Some Write => true | _, _ => false end.
Definition isB (t o : nat) (k : option kind) (e : ev) : bool := match e with EBegin t' o' k' => (t' =? t)%nat && (o' =? o)%nat && keqb k' k | _ => false end.
Definition isE (t o : nat) (k : option kind) (e : ev) : bool := match e with EEnd t' o' k' => (t' =? t)%nat && (o' =? o)%nat && keqb k' k | _ => false end.
(** Callbacks of object o of one kind that thread t has begun and not ended. *)
Definition opens (t o : nat) (k : option kind) (tr : list ev) : Z := cnt (isB t o k) tr - cnt (isE t o k) tr.
Definition isD (o : nat) (e : ev) : bool := match e with EDtor _ o' => (o' =? o)%nat | _ => false end.
(** How often the destructor of object o was called. *)
Definition dtors (o : nat) (tr : list ev) : Z := cnt (isD o) tr.
(** A callback that runs under the object's lock: aosl_ref_read / write, or a queue function with the live object. *)
Definition locked (k : option kind) : Prop := k <> Some Hold.
(** No thread is inside a call. *)
Definition quiet (s : st) : Prop := forall t, s_stk s t = [].
Definition isQ (t : nat) (e : ev) : bool := match e with EQueue t' _ => (t' =? t)%nat | _ => false end.
Definition isBN (t : nat) (e : ev) : bool := match e with EBegin t' _ None => (t' =? t)%nat | _ => false end.
Definition isM (t : nat) (e : ev) : bool := match e with EMark t' _ => (t' =? t)%nat | _ => false end.
(** Returns with 0 of the calls of one kind on object o by thread t. *)
Definition isOk (t o : nat) (k : kind) (e : ev) : bool := match e with ERet t' o' k' err => (t' =? t)%nat && (o' =? o)%nat && keqb (Some k') (Some k) && (err =? 0) | _ => false end.
Definition isC (e : ev) : bool := match e with ECreate _ _ _ => true | _ => false end.
