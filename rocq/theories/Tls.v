(** * Model of the thread local storage: lib/tls.c.

    A step is one critical section of tls_key_id_lock, or the part of a call that touches
    only the calling thread's own table.  The tree of thread nodes (C05-C07) is a map from
    thread id to table; nodes are never removed before rb_tls_fini (310-322, not modelled).
    tls_key_id_size is read outside the lock too (91, 179, 220, 246, 265): the reads are those of
    the adjacent step; it only grows.  Out of memory in k_tls_key_set is abort() (243, 248, 268)
    and not modelled.  uintptr_t is 64 bit.  A value is a pointer, NULL is 0. *)
From Verif Require Import Base Bitmap.

Definition TLS_MAX : Z := 512.        (* TLS_KEY_ID_MAX_SIZE, 33 *)
Definition TLS_STEP : Z := 16.        (* STATIC_TLS_KEY_ID_SIZE, 25 *)

(** A call between its two steps: the key, the sequence number of its slot if it was in use, and for set the value. *)
Inductive pend := PGet (key : Z) (seq : option Z) | PSet (key : Z) (seq : option Z) (v : Z).
(** The static variables 28-30, 114 and the calls in progress; [t_thr]: the tables (129-139) as lists of (seq, val). *)
Record tst := { t_bits : bitmap; t_slots : list Z; t_thr : Z -> option (list (Z * Z)); t_pend : Z -> option pend }.
Definition t_size (s : tst) : Z := Z.of_nat (length (t_slots s)).
Definition seq_inc (l : list Z) (k : Z) : outcome (list Z) :=
  if k <? 0 then UB else match nth_error l (Z.to_nat k) with Some q => Ok (upd l (Z.to_nat k) (u64 (q + 1))) | None => UB end.

(** rb_tls_init: 294-308. *)
Definition tls_init : tst := {| t_bits := mkBitmap [0; 0] 16; t_slots := repeat 0 16; t_thr := fun _ => None; t_pend := fun _ => None |}.

(** alloc_tls_key: 35-87, k_tls_key_create: 104-112.  [a1], [a2]: the allocations at 53 and 59 succeed.
    The key, or a negative error. *)
Definition key_create (a1 a2 : bool) (s : tst) : outcome (tst * Z) :=
  let key := bitmap_find_first_zero_bit (t_bits s) in
  let finish bits slots key :=
    let* bits := bitmap_set bits key in let* slots := seq_inc slots key in
    Ok ({| t_bits := bits; t_slots := slots; t_thr := t_thr s; t_pend := t_pend s |}, key) in
  if key <? 0 then
    if TLS_MAX <=? t_size s then Ok (s, - AOSL_EOVERFLOW)
    else match bitmap_create a1 (t_size s + TLS_STEP) with
         | None => Ok (s, - AOSL_ENOMEM)
         | Some nb => if negb a2 then Ok (s, - AOSL_ENOMEM) else
             let* nb := bitmap_copy nb (t_bits s) in
             let slots := t_slots s ++ repeat 0 (Z.to_nat TLS_STEP) in
             let key := bitmap_find_first_zero_bit nb in
             if key <? 0 then Aborted else finish nb slots key
         end
  else finish (t_bits s) (t_slots s) key.

(** free_tls_key: 89-102, k_tls_key_delete: 289-292. *)
Definition key_delete (s : tst) (key : Z) : outcome (tst * Z) :=
  if (key <? 0) || (t_size s <=? key) then Ok (s, - AOSL_EINVAL) else
  let* bits := bitmap_clear (t_bits s) key in let* slots := seq_inc (t_slots s) key in
  Ok ({| t_bits := bits; t_slots := slots; t_thr := t_thr s; t_pend := t_pend s |}, 0).

(** The first step of get and set: 179-187, 220-228.  The slot's seq if the key is in use. *)
Definition read_slot (s : tst) (key : Z) : outcome (option Z) :=
  if (key <? 0) || (t_size s <=? key) then Ok None else
  match nth_error (t_slots s) (Z.to_nat key) with
  | None => UB
  | Some q => if Z.land q 1 =? 0 then Ok None else Ok (Some q)
  end.

Definition put_thr (s : tst) (t : Z) (l : list (Z * Z)) : tst :=
  {| t_bits := t_bits s; t_slots := t_slots s; t_thr := fun x => if x =? t then Some l else t_thr s x; t_pend := t_pend s |}.
Definition put_pend (s : tst) (t : Z) (p : option pend) : tst :=
  {| t_bits := t_bits s; t_slots := t_slots s; t_thr := t_thr s; t_pend := fun x => if x =? t then p else t_pend s x |}.

(** k_tls_key_get, second step: 189-210. *)
Definition get_end (s : tst) (t key : Z) (seq : option Z) : outcome (tst * Z) :=
  match seq with
  | None => Ok (s, 0)
  | Some q =>
      match t_thr s t with
      | None => Ok (s, 0)
      | Some tbl =>
          if Z.of_nat (length tbl) <=? key then Ok (s, 0) else
          if key <? 0 then UB else
          match nth_error tbl (Z.to_nat key) with
          | None => UB
          | Some (q', v) =>
              if negb (v =? 0) then (if negb (q' =? q) then Ok (put_thr s t (upd tbl (Z.to_nat key) (q', 0)), 0) else Ok (s, v))
              else Ok (s, v)
          end
      end
  end.

(** k_tls_key_set, second step: 230-286. *)
Definition set_end (s : tst) (t key : Z) (seq : option Z) (v : Z) : outcome (tst * Z) :=
  match seq with
  | None => Ok (s, - AOSL_EINVAL)
  | Some q =>
      let tbl := match t_thr s t with Some tbl => tbl | None => repeat (0, 0) (length (t_slots s)) end in
      let* tbl := (if Z.of_nat (length tbl) <=? key then
                     (if t_size s <? Z.of_nat (length tbl) then Aborted
                      else Ok (tbl ++ repeat (0, 0) (length (t_slots s) - length tbl)))
                   else Ok tbl) in
      if Z.of_nat (length tbl) <=? key then Aborted else
      if key <? 0 then UB else
      Ok (put_thr s t (upd tbl (Z.to_nat key) (q, v)), 0)
  end.

(** What the threads do and see: calls with their results. *)
Inductive lab :=
| LCreate (t : Z) (r : Z)
| LDelete (t : Z) (key : Z) (r : Z)
| LGetB (t key : Z) | LGetE (t key v : Z)
| LSetB (t key v : Z) | LSetE (t key v r : Z).

(** A thread that is not in a call may start one; a call in progress continues. *)
Inductive tstep (s : tst) : lab -> outcome tst -> Prop :=
| T_create t a1 a2 x : t_pend s t = None -> key_create a1 a2 s = Ok x -> tstep s (LCreate t (snd x)) (Ok (fst x))
| T_create_bad t a1 a2 : t_pend s t = None -> (forall x, key_create a1 a2 s <> Ok x) -> tstep s (LCreate t 0) UB
| T_delete t key x : t_pend s t = None -> key_delete s key = Ok x -> tstep s (LDelete t key (snd x)) (Ok (fst x))
| T_delete_bad t key : t_pend s t = None -> (forall x, key_delete s key <> Ok x) -> tstep s (LDelete t key 0) UB
| T_get t key q : t_pend s t = None -> read_slot s key = Ok q -> tstep s (LGetB t key) (Ok (put_pend s t (Some (PGet key q))))
| T_set t key v q : t_pend s t = None -> read_slot s key = Ok q -> tstep s (LSetB t key v) (Ok (put_pend s t (Some (PSet key q v))))
| T_read_bad t key : t_pend s t = None -> (forall q, read_slot s key <> Ok q) -> tstep s (LGetB t key) UB
| T_get_end t key q x : t_pend s t = Some (PGet key q) -> get_end s t key q = Ok x -> tstep s (LGetE t key (snd x)) (Ok (put_pend (fst x) t None))
| T_get_bad t key q : t_pend s t = Some (PGet key q) -> (forall x, get_end s t key q <> Ok x) -> tstep s (LGetE t key 0) UB
| T_set_end t key q v x : t_pend s t = Some (PSet key q v) -> set_end s t key q v = Ok x -> tstep s (LSetE t key v (snd x)) (Ok (put_pend (fst x) t None))
| T_set_bad t key q v : t_pend s t = Some (PSet key q v) -> (forall x, set_end s t key q v <> Ok x) -> tstep s (LSetE t key v 0) UB.

(** Executions from the initial state, oldest label first. *)
Inductive texec : list lab -> outcome tst -> Prop :=
| X_init : texec [] (Ok tls_init)
| X_step tr s l s' : texec tr (Ok s) -> tstep s l s' -> texec (tr ++ [l]) s'.
