(** * Model of the object-handle pools

    The same code exists three times, for reference objects
    (kernel/refobj.c 28-52, 74-194, 528-560), timers (kernel/timer.c 30-50, 72-193,
    219-244) and multiplex queues (kernel/mpq.c 50-69, 97-160, 177-261). They
    differ only in the maximum size: 20480, 20480 and 2048. Each operation below
    is one critical section of the table's write (or read) lock, so any
    interleaving of threads is a sequence of these operations. *)
From Verif Require Import Base Bitmap.

Definition REFOBJ_ID_POOL_MAX_SIZE : Z := 20480.   (* kernel/refobj.c 75 *)
Definition TIMER_ID_POOL_MAX_SIZE : Z := 20480.    (* kernel/timer.c 73 *)
Definition MPQ_ID_POOL_MAX_SIZE : Z := 2048.       (* kernel/mpq.c 97 *)

(** Life cycle of one object with respect to the pool. [Released]: its id went
    back to the pool and its memory was freed. *)
Inductive phase := Reserved | Installed | Uninstalled | Released.

(** An object: the slot obtained from the pool, its public handle
    ([obj_id] / [qid], meaningful once installed). [o_nth] is a ghost: how many
    installs had happened before its own. *)
Record pobj := mkObj { o_slot : Z; o_handle : Z; o_phase : phase; o_nth : Z }.

(** The static variables of the pool. Objects are named by their position in
    the list of all objects ever created (standing for their addresses).
    [p_ninst] is a ghost: the number of installs so far. *)
Record pool := mkPool {
  p_max : Z;
  p_tbl : list (option nat);
  p_bits : bitmap;
  p_life : Z;
  p_objs : list pobj;
  p_ninst : Z
}.

(** kernel/refobj.c 28-52 [k_refobj_init]: 8 slots, all free, life id 1. *)
Definition pool_init (max : Z) : pool :=
  mkPool max (repeat None 8) (mkBitmap [0] 8) 1 [] 0.

Definition p_size (s : pool) : Z := Z.of_nat (length (p_tbl s)).

(** kernel/refobj.c 78-128 [get_unused_refobj_id]; [a_bits], [a_tbl]: do the
    allocations at lines 96 and 102 succeed? The result is the id or a negative
    error. *)
Definition get_unused (a_bits a_tbl : bool) (s : pool) : outcome (pool * Z) :=
  let r := bitmap_find_first_zero_bit (p_bits s) in
  if r <? 0 then
    if p_max s <=? p_size s then Ok (s, - AOSL_EOVERFLOW)
    else
      match bitmap_create a_bits (p_size s + 8) with
      | None => Ok (s, - AOSL_ENOMEM)
      | Some nb0 =>
          if negb a_tbl then Ok (s, - AOSL_ENOMEM)
          else
            let* nb := bitmap_copy nb0 (p_bits s) in
            let tbl := p_tbl s ++ repeat None 8 in
            let r := bitmap_find_first_zero_bit nb in
            if r <? 0 then Aborted
            else
              let* nb' := bitmap_set nb r in
              Ok (mkPool (p_max s) tbl nb' (p_life s) (p_objs s) (p_ninst s), r)
      end
  else
    let* nb := bitmap_set (p_bits s) r in
    Ok (mkPool (p_max s) (p_tbl s) nb (p_life s) (p_objs s) (p_ninst s), r).

(** kernel/refobj.c 130-136 [__put_unused_refobj_id]. *)
Definition put_unused (s : pool) (id : Z) : outcome pool :=
  if (id <? 0) || (p_size s <=? id) then Aborted
  else
    let* nb := bitmap_clear (p_bits s) id in
    Ok (mkPool (p_max s) (p_tbl s) nb (p_life s) (p_objs s) (p_ninst s)).

(** kernel/refobj.c 138-141 [make_ref_obj_id]: the handle is a 32 bit int. *)
Definition make_obj_id (id life : Z) : Z := s32 (Z.lor (Z.shiftl (u16 life) 16) id).

(** kernel/refobj.c 143-146 [get_ref_id]. *)
Definition get_id (h : Z) : Z := s16 h.

(** The table cell of an id, [None] outside the table. *)
Definition cell (s : pool) (id : Z) : option (option nat) :=
  if id <? 0 then None else nth_error (p_tbl s) (Z.to_nat id).

Definition set_cell (s : pool) (id : Z) (v : option nat) : list (option nat) :=
  upd (p_tbl s) (Z.to_nat id) v.

Definition set_obj (s : pool) (p : nat) (o : pobj) : list pobj := upd (p_objs s) p o.

(** kernel/refobj.c 153-175 [__refobj_id_install]. *)
Definition install (s : pool) (p : nat) (o : pobj) : outcome (pool * Z) :=
  let id := o_slot o in
  if (id <? 0) || (p_size s <=? id) then Aborted
  else
    match cell s id with
    | None => UB
    | Some (Some _) => Aborted
    | Some None =>
        let h := make_obj_id id (p_life s) in
        let life := u16 (p_life s + 1) in
        let life := if life =? 0 then 1 else life in
        Ok (mkPool (p_max s) (set_cell s id (Some p)) (p_bits s) life
              (set_obj s p (mkObj id h Installed (p_ninst s))) (p_ninst s + 1), h)
    end.

(** kernel/refobj.c 177-194 [__refobj_id_uninstall]; the id is taken from the
    object's handle as the callers do (e.g. kernel/timer.c 453). *)
Definition uninstall (s : pool) (p : nat) (o : pobj) : outcome (pool * Z) :=
  let id := get_id (o_handle o) in
  if (id <? 0) || (p_size s <=? id) then Aborted
  else
    match cell s id with
    | None => UB
    | Some (Some q) =>
        if Nat.eqb q p then
          Ok (mkPool (p_max s) (set_cell s id None) (p_bits s) (p_life s)
                (set_obj s p (mkObj (o_slot o) (o_handle o) Uninstalled (o_nth o))) (p_ninst s), 0)
        else Ok (s, - AOSL_EINVAL)
    | Some None => Ok (s, - AOSL_EINVAL)
    end.

(** kernel/refobj.c 500-526 [refobj_free] / kernel/timer.c 201-217: the id (read
    back from the handle when one was assigned, from the local variable on the
    creation-failure paths) returns to the pool and the memory is freed. *)
Definition release (s : pool) (p : nat) (o : pobj) : outcome pool :=
  let id := match o_phase o with Reserved => o_slot o | _ => get_id (o_handle o) end in
  let* s' := put_unused s id in
  Ok (mkPool (p_max s') (p_tbl s') (p_bits s') (p_life s')
        (set_obj s' p (mkObj (o_slot o) (o_handle o) Released (o_nth o))) (p_ninst s')).

(** kernel/refobj.c 528-551 [__refobj_get]: resolve a handle; reading a freed
    object through the table would be [UB]. *)
Definition lookup (s : pool) (h : Z) : outcome (option nat) :=
  let id := get_id h in
  if id <? 0 then Ok None
  else if p_size s <=? id then Ok None
  else
    match cell s id with
    | None => UB
    | Some None => Ok None
    | Some (Some p) =>
        match nth_error (p_objs s) p with
        | None => UB
        | Some o =>
            match o_phase o with
            | Released => UB
            | _ => if o_handle o =? h then Ok (Some p) else Ok None
            end
        end
    end.

(** ** Histories

    What the rest of the library does with one object: reserve an id, install,
    uninstall, release (release also directly after reserve when the creation
    fails in between). Operations out of this order are not issued by the
    callers; they are skipped ([EvSkip]). *)
Inductive pop :=
| PGet (a_bits a_tbl : bool)
| PInstall (p : nat)
| PUninstall (p : nat)
| PRelease (p : nat)
| PLookup (h : Z).

Inductive pev :=
| EvNew (p : nat)          (* object p created, id reserved *)
| EvErr (e : Z)            (* no id: negative error *)
| EvHandle (h : Z)         (* installed under handle h *)
| EvUninst (e : Z)         (* result of uninstall *)
| EvReleased
| EvFound (r : option nat) (* result of a lookup *)
| EvSkip.

Definition pstep (s : pool) (op : pop) : outcome (pool * pev) :=
  match op with
  | PGet a1 a2 =>
      let* (s', r) := get_unused a1 a2 s in
      if r <? 0 then Ok (s', EvErr r)
      else Ok (mkPool (p_max s') (p_tbl s') (p_bits s') (p_life s')
                 (p_objs s' ++ [mkObj r (-1) Reserved 0]) (p_ninst s'),
               EvNew (length (p_objs s')))
  | PInstall p =>
      match nth_error (p_objs s) p with
      | Some o =>
          match o_phase o with
          | Reserved => let* (s', h) := install s p o in Ok (s', EvHandle h)
          | _ => Ok (s, EvSkip)
          end
      | None => Ok (s, EvSkip)
      end
  | PUninstall p =>
      match nth_error (p_objs s) p with
      | Some o =>
          match o_phase o with
          | Installed | Uninstalled => let* (s', e) := uninstall s p o in Ok (s', EvUninst e)
          | _ => Ok (s, EvSkip)
          end
      | None => Ok (s, EvSkip)
      end
  | PRelease p =>
      match nth_error (p_objs s) p with
      | Some o =>
          match o_phase o with
          | Reserved | Uninstalled => let* s' := release s p o in Ok (s', EvReleased)
          | _ => Ok (s, EvSkip)
          end
      | None => Ok (s, EvSkip)
      end
  | PLookup h => let* r := lookup s h in Ok (s, EvFound r)
  end.

Fixpoint prun (s : pool) (ops : list pop) : outcome (pool * list pev) :=
  match ops with
  | [] => Ok (s, [])
  | o :: ops' =>
      let* (s1, e) := pstep s o in
      let* (s2, es) := prun s1 ops' in
      Ok (s2, e :: es)
  end.

(** ** Observations used in the property statements *)

(** Objects currently occupying an id (created and not yet released). *)
Definition in_use (s : pool) : nat :=
  length (filter (fun o => match o_phase o with Released => false | _ => true end) (p_objs s)).

(** Object [p] is installed (its handle was issued and it was not deleted) under handle [h]. *)
Definition installed_as (s : pool) (p : nat) (h : Z) : Prop :=
  exists o, nth_error (p_objs s) p = Some o /\ o_phase o = Installed /\ o_handle o = h.

(** Number of handles issued in a list of events. *)
Fixpoint issued (es : list pev) : nat :=
  match es with
  | [] => 0%nat
  | EvHandle _ :: es' => S (issued es')
  | _ :: es' => issued es'
  end.
