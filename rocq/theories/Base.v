(** * Common vocabulary of the model.

    Machine integers are [Z] reduced explicitly; memory blocks are lists of
    bytes; undefined behaviour and abort() are outcomes of their own. *)

From Coq Require Export ZArith List Bool Lia.
From Coq Require Export ZifyBool ZifyNat.
Export ListNotations.
Open Scope Z_scope.

(** Result of running a piece of C code.
    [Ok a]    : it returned normally with [a]
    [Aborted] : it called abort() (BUG_ON, include/kernel/bug.h 22; kernel/panic.c 18-39)
    [UB]      : it performed an access outside an object, used freed or
                uninitialised memory, or similar. *)
Inductive outcome (A : Type) : Type :=
| Ok (a : A)
| Aborted
| UB.
Arguments Ok {A} a.
Arguments Aborted {A}.
Arguments UB {A}.

Definition bind {A B} (x : outcome A) (f : A -> outcome B) : outcome B :=
  match x with
  | Ok a => f a
  | Aborted => Aborted
  | UB => UB
  end.

Notation "'let*' x ':=' e 'in' f" := (bind e (fun x => f))
  (at level 200, x pattern, e at level 100, f at level 200, right associativity).

(** C integer conversions (two's complement, LP64). *)
Definition u8 (x : Z) : Z := x mod 256.
Definition u16 (x : Z) : Z := x mod 65536.
Definition u32 (x : Z) : Z := x mod 4294967296.
Definition u64 (x : Z) : Z := x mod 18446744073709551616.

Definition wrap_signed (m x : Z) : Z :=
  let y := x mod m in if m / 2 <=? y then y - m else y.
Definition s16 (x : Z) : Z := wrap_signed 65536 x.
Definition s32 (x : Z) : Z := wrap_signed 4294967296 x.
Definition s64 (x : Z) : Z := wrap_signed 18446744073709551616 x.

(** AOSL error numbers, include/api/aosl_errno.h 15-133. *)
Definition AOSL_EBASE : Z := 1000.
Definition AOSL_EPERM : Z := AOSL_EBASE + 1.
Definition AOSL_ENOENT : Z := AOSL_EBASE + 2.
Definition AOSL_EINTR : Z := AOSL_EBASE + 4.
Definition AOSL_E2BIG : Z := AOSL_EBASE + 7.
Definition AOSL_EBADF : Z := AOSL_EBASE + 9.
Definition AOSL_EAGAIN : Z := AOSL_EBASE + 11.
Definition AOSL_ENOMEM : Z := AOSL_EBASE + 12.
Definition AOSL_EBUSY : Z := AOSL_EBASE + 16.
Definition AOSL_EEXIST : Z := AOSL_EBASE + 17.
Definition AOSL_EINVAL : Z := AOSL_EBASE + 22.
Definition AOSL_ENOSPC : Z := AOSL_EBASE + 28.
Definition AOSL_ENONET : Z := AOSL_EBASE + 64.
Definition AOSL_EOVERFLOW : Z := AOSL_EBASE + 75.
Definition AOSL_EMSGSIZE : Z := AOSL_EBASE + 90.
Definition AOSL_EAFNOSUPPORT : Z := AOSL_EBASE + 97.
Definition AOSL_ENOBUFS : Z := AOSL_EBASE + 105.

(** Replace the [n]-th element of a list (no effect when out of range: every
    user checks the range first and reports [UB] otherwise). *)
Fixpoint upd {A} (l : list A) (n : nat) (x : A) : list A :=
  match l, n with
  | [], _ => []
  | _ :: t, O => x :: t
  | h :: t, S m => h :: upd t m x
  end.

Lemma upd_length {A} (l : list A) n x : length (upd l n x) = length l.
Proof. revert n; induction l as [|h t IH]; intros [|n]; simpl; auto. Qed.

Lemma nth_error_upd_eq {A} (l : list A) n x :
  (n < length l)%nat -> nth_error (upd l n x) n = Some x.
Proof.
  revert n; induction l as [|h t IH]; intros [|n] H; simpl in *; try lia; auto.
  apply IH; lia.
Qed.

Lemma nth_error_upd_neq {A} (l : list A) n m x :
  n <> m -> nth_error (upd l n x) m = nth_error l m.
Proof.
  revert n m; induction l as [|h t IH]; intros [|n] [|m] H; simpl; auto; try lia.
Qed.

Lemma nth_error_upd {A} (l : list A) n m x :
  nth_error (upd l n x) m =
  if (n =? m)%nat && (n <? length l)%nat then Some x else nth_error l m.
Proof.
  destruct (Nat.eqb_spec n m) as [->|Hne]; simpl.
  - destruct (Nat.ltb_spec m (length l)).
    + now apply nth_error_upd_eq.
    + rewrite (proj2 (nth_error_None _ _)); [|rewrite upd_length; lia].
      symmetry. apply nth_error_None. lia.
  - now apply nth_error_upd_neq.
Qed.

Lemma wrap_signed_id m x :
  0 < m -> m mod 2 = 0 -> - (m / 2) <= x < m / 2 -> wrap_signed m x = x.
Proof.
  intros Hm He Hx. unfold wrap_signed.
  assert (m = 2 * (m / 2)) by (pose proof (Z.div_mod m 2 ltac:(lia)); lia).
  destruct (Z.ltb_spec x 0).
  - replace (x mod m) with (x + m).
    + destruct (Z.leb_spec (m / 2) (x + m)); lia.
    + symmetry. rewrite <- (Z.mod_add x 1 m) by lia.
      replace (x + 1 * m) with (x + m) by lia. apply Z.mod_small. lia.
  - rewrite Z.mod_small by lia. destruct (Z.leb_spec (m / 2) x); lia.
Qed.

Lemma u16_range x : 0 <= u16 x < 65536.
Proof. unfold u16. apply Z.mod_pos_bound. lia. Qed.
Lemma u8_range x : 0 <= u8 x < 256.
Proof. unfold u8. apply Z.mod_pos_bound. lia. Qed.
Lemma u32_range x : 0 <= u32 x < 4294967296.
Proof. unfold u32. apply Z.mod_pos_bound. lia. Qed.
Lemma u64_range x : 0 <= u64 x < 18446744073709551616.
Proof. unfold u64. apply Z.mod_pos_bound. lia. Qed.
