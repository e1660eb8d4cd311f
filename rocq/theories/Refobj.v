(** * Model of the reference objects: kernel/refobj.c, include/kernel/refobj.h 41-125, their use by queue functions in kernel/mpq.c 518-651, and the lock kernel/thread.c 208-309.

    Any number of threads and objects.  A thread is its stack of calls: API calls under way, user
    callbacks and destructors they run, and the calls made from those.  Only the top of a stack
    moves.  One transition is one action on something other threads see (the table under its lock,
    the usage counter, the two parts of stop_lock, the flags), together with what the thread does to
    its own data around it.  Memory is sequentially consistent.

    Objects are numbered in the order of their creation; freed memory is remembered, and touching it
    is the failure [Uaf].  Simplifications:
    - an object's thread node (196-324) is the pair of its counters, 0 when there is no node: the
      cleanup 229-254 removes only nodes that hold zeros;
    - stop_lock is its two parts: the mutex lk and the raw lock rw, which is the lock of Rwlock.v
      seen from outside (readers, or one writer); that a reader may also wait for a writer in line
      is left out, so more can happen here;
    - the table is unbounded and get_unused_refobj_id gives any free index below the limit, not the
      first one (78-128); out of memory is a creation that does not happen;
    - aosl_ref_create reads the id of the new object (664) in the same step in which it is installed;
    - a reference is the pair of its life number and its index (138-151). *)
From Verif Require Import Base.

Definition ref := (nat * nat)%type.
(** enum refobj_op_type 667-671: aosl_ref_hold, aosl_ref_read / aosl_refobj_read, aosl_ref_write. *)
Inductive kind := Hold | Read | Write.
(** What an operation has locked: nothing, the counted read lock, the write lock, the write lock in place of the queue function's read lock. *)
Inductive how := HNo | HRd | HWr | HUp.
(** Places in __ref_op_argv 707-720 and __invoke_f 624-635: the reference is taken; k_rwlock_rd2wrlock holds lk (298); it has given the read lock back (300); locked, destroyed not yet looked at (603, 633, 594); the callback runs; it is over, or was refused; k_rwlock_wr2rdlock has given the write lock back (306); it has the read lock again (307); unlocked (718); the reference is dropped. *)
Inductive stage := SGot | SUpLk | SUpGap | SLocked | SRun | SUnl | SDownGap | SDownLk | SPut | SRet.
(** Places in aosl_ref_destroy: 870, 895, 906, 918, 919, 921, 931, 939, 959, 962. *)
Inductive dstage := DStart | DUninst | DChk | DWant | DSet | DUnl | DDel | DWait | DPut | DRet.
(** Places in refobj_free: the user's destructor runs (506); 524; 525. *)
Inductive fstage := FDtor | FId | FMem.
(** A call.  [noref]: aosl_refobj_read, which takes no reference (821-844).  [refused]: the queue function gets the release-only marker.  FMark: a queue function runs with the marker.  FNew: refobj_create between 483 and 489. *)
Inductive frame :=
| FOp (o : nat) (noref : bool) (k : kind) (h : how) (st : stage) (err : Z)
| FQ (o : nat) (locked : bool) (st : stage) (refused : bool) (r : ref)
| FMark (r : ref)
| FDes (o : nat) (del : bool) (gc : Z) (st : dstage) (err : Z)
| FFin (o : nat) (st : fstage)
| FNew (o : nat).

(** The lock_count of a thread node: 201-212. *)
Inductive lcount := LRd (n : nat) | LWr.
(** struct refobj: refobj.h 41-62.  [rd2]: rd2wrlock_count; [lc], [gc]: the thread nodes' lock_count and get_count; [rel]: the index was given back; [gone]: the memory was freed.  [waited]: the thread whose aosl_ref_destroy went past the loop 945 (ghost). *)
Record obj := mkO { oid : ref; async : bool; recur : bool; cfree : bool; usage : Z; destroyed : bool; readers : Z; writer : bool; lk : bool; rd2 : bool; lc : nat -> lcount; gc : nat -> Z; rel : bool; gone : bool; waited : option nat }.

(** What a user sees.  EBegin / EEnd: a callback of the object; [k]: None for a queue function run with the live object.  EQueue: the thread's queue takes a function bound to r.  EMark: a queue function bound to r starts with the release-only marker.  EDes / EDesRet: aosl_ref_destroy found the object / returned; EMiss: a call found no object. *)
Inductive ev :=
| ECreate (t o : nat) (r : ref)
| EMiss (t : nat) (r : ref)
| EBegin (t o : nat) (k : option kind) | EEnd (t o : nat) (k : option kind)
| ERet (t o : nat) (k : kind) (err : Z)
| EQueue (t : nat) (r : ref) | EMark (t : nat) (r : ref)
| EDes (t o : nat) (del : bool) | EDesRet (t o : nat) (del : bool) (err : Z)
| EDtor (t o : nat) | EDtorEnd (t o : nat) | EId (o : nat) (i : nat).
(** abort () on what the documentation forbids; abort () or BUG_ON elsewhere; use of freed memory. *)
Inductive failure := Misuse | Bug | Uaf.

Definition fupd {A} (f : nat -> A) (k : nat) (v : A) : nat -> A := fun x => if (x =? k)%nat then v else f x.

Definition set_usage (r : obj) (u : Z) : obj := mkO (oid r) (async r) (recur r) (cfree r) u (destroyed r) (readers r) (writer r) (lk r) (rd2 r) (lc r) (gc r) (rel r) (gone r) (waited r).
Definition set_destroyed (r : obj) : obj := mkO (oid r) (async r) (recur r) (cfree r) (usage r) true (readers r) (writer r) (lk r) (rd2 r) (lc r) (gc r) (rel r) (gone r) (waited r).
Definition set_lock (r : obj) (n : Z) (w l : bool) : obj := mkO (oid r) (async r) (recur r) (cfree r) (usage r) (destroyed r) n w l (rd2 r) (lc r) (gc r) (rel r) (gone r) (waited r).
Definition set_rd2 (r : obj) (b : bool) : obj := mkO (oid r) (async r) (recur r) (cfree r) (usage r) (destroyed r) (readers r) (writer r) (lk r) b (lc r) (gc r) (rel r) (gone r) (waited r).
Definition set_lc (r : obj) (t : nat) (c : lcount) : obj := mkO (oid r) (async r) (recur r) (cfree r) (usage r) (destroyed r) (readers r) (writer r) (lk r) (rd2 r) (fupd (lc r) t c) (gc r) (rel r) (gone r) (waited r).
Definition set_gc (r : obj) (t : nat) (n : Z) : obj := mkO (oid r) (async r) (recur r) (cfree r) (usage r) (destroyed r) (readers r) (writer r) (lk r) (rd2 r) (lc r) (fupd (gc r) t n) (rel r) (gone r) (waited r).
Definition set_rel (r : obj) : obj := mkO (oid r) (async r) (recur r) (cfree r) (usage r) (destroyed r) (readers r) (writer r) (lk r) (rd2 r) (lc r) (gc r) true (gone r) (waited r).
Definition set_gone (r : obj) : obj := mkO (oid r) (async r) (recur r) (cfree r) (usage r) (destroyed r) (readers r) (writer r) (lk r) (rd2 r) (lc r) (gc r) (rel r) true (waited r).
Definition set_waited (r : obj) (t : nat) : obj := mkO (oid r) (async r) (recur r) (cfree r) (usage r) (destroyed r) (readers r) (writer r) (lk r) (rd2 r) (lc r) (gc r) (rel r) (gone r) (Some t).
Definition set_oid (r : obj) (i : ref) : obj := mkO i (async r) (recur r) (cfree r) (usage r) (destroyed r) (readers r) (writer r) (lk r) (rd2 r) (lc r) (gc r) (rel r) (gone r) (waited r).
(** refobj_ctor: 421-441. *)
Definition new_obj (i : nat) (a rc cf : bool) : obj := mkO (O, i) a rc cf 1 false 0 false false false (fun _ => LRd 0) (fun _ => 0) false false None.

(** refobj_on_this_q: mpq.c 518-530; the functions a thread's queue is running are on its stack. *)
Definition onq1 (o : nat) (x : frame) : bool := match x with FQ o' _ SRun _ _ => (o' =? o)%nat | _ => false end.
Definition onq (o : nat) (below : list frame) : bool := existsb (onq1 o) below.

(** How a step of the top frame ends: it must wait; the program fails; or the object, whether the table holds it, the frames that replace the top, and what happened. *)
Inductive lres := Wait | Fail (f : failure) | Go (r : obj) (inst : bool) (fs : list frame) (es : list ev).

(** __refobj_put: 562-566; when this was the last reference refobj_free starts, above [x]. *)
Definition put (t o : nat) (r : obj) (inst : bool) (x : frame) : lres :=
  let r := set_usage r (usage r - 1) in
  if usage r =? 0 then Go r inst [FFin o FDtor; x] [EDtor t o] else Go r inst [x] [].
(** refobj_put: 573-585. *)
Definition refobj_put (t o : nat) (r : obj) (inst : bool) (x : frame) : lres :=
  if cfree r then (if gc r t <? 1 then Fail Bug else put t o (set_gc r t (gc r t - 1)) inst x) else put t o r inst x.
(** k_rwlock_rdunlock: thread.c 267-270. *)
Definition rdunlock_raw (r : obj) : obj := set_lock r (readers r - 1) (writer r) (lk r).

(** __refobj_op_argv: 673-705 with refobj_rdlock 587-610, refobj_rdunlock 612-628, refobj_wrlock 630-647, refobj_thread_rdlock 326-351, rdunlock 353-376, wrlock 378-397, wrunlock 399-419, and refobj_put 718; [below]: the rest of the stack of thread [t]. *)
Definition op_step (t o : nat) (r : obj) (inst nr : bool) (k : kind) (h : how) (st : stage) (err : Z) (below : list frame) : lres :=
  let nolock := onq o below && negb (async r) in
  match st with
  | SGot =>
      match k with
      | Hold => Go r inst [FOp o nr k HNo SRun 0] [EBegin t o (Some k)]
      | Read =>
          if nolock then Go r inst [FOp o nr k HNo SRun 0] [EBegin t o (Some k)]
          else match lc r t with
          | LWr => Fail Misuse
          | LRd n =>
              if negb (recur r) && (0 <? n)%nat then Fail Misuse
              else if (n =? 0)%nat then (if writer r then Wait else Go (set_lc (set_lock r (readers r + 1) false (lk r)) t (LRd 1)) inst [FOp o nr k HRd SLocked 0] [])
              else Go (set_lc r t (LRd (S n))) inst [FOp o nr k HRd SLocked 0] []
          end
      | Write =>
          match lc r t with
          | LRd O =>
              if nolock then
                (if lk r then (if rd2 r then Fail Misuse else Wait) else Go (set_rd2 (set_lc (set_lock r (readers r) (writer r) true) t LWr) true) inst [FOp o nr k HUp SUpLk 0] [])
              else (if lk r || writer r || negb (readers r =? 0) then Wait else Go (set_lc (set_lock r 0 true true) t LWr) inst [FOp o nr k HWr SLocked 0] [])
          | _ => Fail Misuse
          end
      end
  | SUpLk => Go (rdunlock_raw r) inst [FOp o nr k h SUpGap 0] []
  | SUpGap => if writer r || negb (readers r =? 0) then Wait else Go (set_lock r 0 true (lk r)) inst [FOp o nr k h SLocked 0] []
  | SLocked =>
      if destroyed r then match h with HUp => Fail Bug | _ => Go r inst [FOp o nr k h SUnl (- AOSL_EPERM)] [] end
      else Go r inst [FOp o nr k h SRun 0] [EBegin t o (Some k)]
  | SRun => Wait
  | SUnl =>
      match k with
      | Hold => Go r inst [FOp o nr k h SPut err] []
      | Read =>
          if nolock then Go r inst [FOp o nr k h SPut err] []
          else match lc r t with
          | LRd (S n) => Go (let r := set_lc r t (LRd n) in if (n =? 0)%nat then rdunlock_raw r else r) inst [FOp o nr k h SPut err] []
          | _ => Fail Bug
          end
      | Write =>
          let r := set_lc r t (LRd 0) in
          match h with
          | HUp => Go (set_lock r (readers r) false (lk r)) inst [FOp o nr k h SDownGap err] []
          | _ => Go (set_lock r (readers r) false false) inst [FOp o nr k h SPut err] []
          end
      end
  | SDownGap => if writer r then Wait else Go (set_lock r (readers r + 1) false (lk r)) inst [FOp o nr k h SDownLk err] []
  | SDownLk => Go (set_rd2 (set_lock r (readers r) (writer r) false) false) inst [FOp o nr k h SPut err] []
  | SPut => if nr then Go r inst [FOp o nr k h SRet err] [] else refobj_put t o r inst (FOp o nr k h SRet err)
  | SRet => Go r inst [] [ERet t o k err]
  end.

(** mpq_invoke_refobj_get / put and __invoke_f: mpq.c 568-635; [lkd] is kept also on the way 594-599, which asks the flag again. *)
Definition q_step (t o : nat) (r : obj) (inst lkd : bool) (st : stage) (rf : bool) (i : ref) : lres :=
  match st with
  | SGot => if async r then Go r inst [FQ o false SLocked rf i] [] else if writer r then Wait else Go (set_lock r (readers r + 1) false (lk r)) inst [FQ o true SLocked rf i] []
  | SLocked => if destroyed r then Go r inst [FQ o lkd SUnl true i] [] else Go r inst [FQ o lkd SRun rf i] [EBegin t o None]
  | SUnl => Go (if lkd then rdunlock_raw r else r) inst [FQ o lkd SPut rf i] []
  | SPut => refobj_put t o r inst (FQ o lkd SRet rf i)
  | SRet => if rf then Go r inst [FMark i] [EMark t i] else Go r inst [] []
  | _ => Wait
  end.

(** aosl_ref_destroy: 858-963, after the lookup 861. *)
Definition des_step (t o : nat) (r : obj) (inst del : bool) (g : Z) (st : dstage) (err : Z) (below : list frame) : lres :=
  match st with
  | DStart =>
      if onq o below && negb (async r) then Fail Misuse
      else match lc r t with LRd (S _) => Fail Misuse | _ => Go r inst [FDes o del (gc r t) (if del then DUninst else DChk) 0] [] end
  | DUninst => if inst then Go r false [FDes o del g DChk 0] [] else Go r inst [FDes o del g DPut (- AOSL_EINVAL)] []
  | DChk => if destroyed r then Go r inst [FDes o del g (if del then DDel else DPut) (- AOSL_EPERM)] [] else Go r inst [FDes o del g DWant 0] []
  | DWant => if lk r || writer r || negb (readers r =? 0) then Wait else Go (set_lock r 0 true true) inst [FDes o del g DSet 0] []
  | DSet => Go (set_destroyed r) inst [FDes o del g DUnl (if destroyed r then - AOSL_EPERM else 0)] []
  | DUnl => Go (set_lock r (readers r) false false) inst [FDes o del g (if del then DDel else DPut) err] []
  | DDel => put t o r inst (FDes o del g DWait 0)
  | DWait =>
      if cfree r && negb (async r) then (if 1 + g <? usage r then Wait else Go (set_waited r t) inst [FDes o del g DPut 0] [])
      else Go r inst [FDes o del g DPut 0] []
  | DPut => put t o r inst (FDes o del g DRet err)
  | DRet => Go r inst [] [EDesRet t o del err]
  end.

(** The table, its bitmap, __refobj_life_id, the objects, the threads. *)
Record st := mkS { s_tab : nat -> option nat; s_bit : nat -> bool; s_life : nat; s_next : nat; s_o : nat -> obj; s_stk : nat -> list frame; s_tr : list ev; s_fail : option failure }.
(** k_refobj_init: 38-52. *)
Definition init : st := mkS (fun _ => None) (fun _ => false) 1 0 (fun _ => new_obj 0 false false false) (fun _ => []) [] None.
Definition fail (s : st) (f : failure) : st := mkS (s_tab s) (s_bit s) (s_life s) (s_next s) (s_o s) (s_stk s) (s_tr s) (Some f).
Definition set_stk (s : st) (t : nat) (l : list frame) (es : list ev) : st := mkS (s_tab s) (s_bit s) (s_life s) (s_next s) (s_o s) (fupd (s_stk s) t l) (s_tr s ++ es) (s_fail s).
Definition set_o (s : st) (o : nat) (r : obj) : st := mkS (s_tab s) (s_bit s) (s_life s) (s_next s) (fupd (s_o s) o r) (s_stk s) (s_tr s) (s_fail s).
(** refobj_table [index] == obj. *)
Definition inst (s : st) (o : nat) : bool := match s_tab s (snd (oid (s_o s o))) with Some o' => (o' =? o)%nat | None => false end.
Definition set_inst (s : st) (o : nat) (b : bool) : st := if b then s else mkS (fupd (s_tab s) (snd (oid (s_o s o))) None) (s_bit s) (s_life s) (s_next s) (s_o s) (s_stk s) (s_tr s) (s_fail s).
(** The result of a step of thread [t] on object [o]. *)
Definition apply (s : st) (t o : nat) (below : list frame) (x : lres) : option st :=
  match x with
  | Wait => None
  | Fail f => Some (fail s f)
  | Go r i fs es => Some (set_stk (set_o (if Bool.eqb i (inst s o) then s else set_inst s o i) o r) t (fs ++ below) es)
  end.
(** REFOBJ_ID_POOL_MAX_SIZE: 75. *)
Definition LIMIT : nat := 20480.
(** 165-172. *)
Definition next_life (l : nat) : nat := if (S l =? 65536)%nat then 1%nat else S l.
(** __refobj_get: 528-551. *)
Definition lookup (s : st) (r : ref) : option nat :=
  match s_tab s (snd r) with
  | Some o => if (fst (oid (s_o s o)) =? fst r)%nat && (snd (oid (s_o s o)) =? snd r)%nat then Some o else None
  | None => None
  end.
(** 543, and 553-557. *)
Definition get (t : nat) (r : obj) (cnt : bool) : obj :=
  let r := set_usage r (usage r + 1) in if cnt && cfree r then set_gc r t (gc r t + 1) else r.
(** User code runs at the top of this stack: the thread may call the API, or the callback may return. *)
Definition at_user (l : list frame) : bool :=
  match l with [] => true | FOp _ _ _ _ SRun _ :: _ => true | FQ _ _ SRun _ _ :: _ => true | FMark _ :: _ => true | FFin _ FDtor :: _ => true | _ => false end.

(** COp: aosl_ref_hold / read / write; CObjRead: aosl_refobj_read, on an object whose queue function the thread is running; CQueue: the thread's queue invokes a function bound to r (from its list, or a call to the own queue); CDestroy; CCreate: aosl_ref_create, given index i. *)
Inductive call := COp (k : kind) (r : ref) | CObjRead (o : nat) | CQueue (r : ref) | CDestroy (r : ref) (del : bool) | CCreate (i : nat) (a rc cf : bool).
Definition do_call (s : st) (t : nat) (c : call) : option st :=
  let l := s_stk s t in
  match c with
  | COp k r => match lookup s r with
      | None => Some (set_stk s t l [EMiss t r])
      | Some o => if gone (s_o s o) then Some (fail s Uaf) else Some (set_stk (set_o s o (get t (s_o s o) true)) t (FOp o false k HNo SGot 0 :: l) [])
      end
  | CObjRead o => if onq o l then (if gone (s_o s o) then Some (fail s Uaf) else Some (set_stk s t (FOp o true Read HNo SGot 0 :: l) [])) else None
  | CQueue r => match lookup s r with
      | None => Some (set_stk s t (FMark r :: l) [EQueue t r; EMark t r])
      | Some o => if gone (s_o s o) then Some (fail s Uaf) else Some (set_stk (set_o s o (get t (s_o s o) true)) t (FQ o false SGot false r :: l) [EQueue t r])
      end
  | CDestroy r del => match lookup s r with
      | None => Some (set_stk s t l [EMiss t r])
      | Some o => if gone (s_o s o) then Some (fail s Uaf) else Some (set_stk (set_o s o (get t (s_o s o) false)) t (FDes o del 0 DStart 0 :: l) [EDes t o del])
      end
  | CCreate i a rc cf =>
      if (i <? LIMIT)%nat && negb (s_bit s i) then
        let n := s_next s in
        Some (set_stk (mkS (s_tab s) (fupd (s_bit s) i true) (s_life s) (S n) (fupd (s_o s) n (new_obj i a rc cf)) (s_stk s) (s_tr s) (s_fail s)) t (FNew n :: l) [])
      else None
  end.
(** The user's callback returns. *)
Definition do_end (s : st) (t : nat) : option st :=
  match s_stk s t with
  | FOp o nr k h SRun e :: l => Some (set_stk s t (FOp o nr k h SUnl 0 :: l) [EEnd t o (Some k)])
  | FQ o lkd SRun rf r :: l => Some (set_stk s t (FQ o lkd SUnl rf r :: l) [EEnd t o None])
  | FMark r :: l => Some (set_stk s t l [])
  | FFin o FDtor :: l => Some (set_stk s t (FFin o FId :: l) [EDtorEnd t o])
  | _ => None
  end.
(** __refobj_id_install: 153-175. *)
Definition install (s : st) (t o : nat) (l : list frame) : st :=
  let i := snd (oid (s_o s o)) in
  match s_tab s i with
  | Some _ => fail s Bug
  | None => let id := (s_life s, i) in
      set_stk (mkS (fupd (s_tab s) i (Some o)) (s_bit s) (next_life (s_life s)) (s_next s) (fupd (s_o s) o (set_oid (s_o s o) id)) (s_stk s) (s_tr s) (s_fail s)) t l [ECreate t o id]
  end.
(** __put_unused_refobj_id: 130-136. *)
Definition put_id (s : st) (t o : nat) (l : list frame) : st :=
  let i := snd (oid (s_o s o)) in
  set_stk (mkS (s_tab s) (fupd (s_bit s) i false) (s_life s) (s_next s) (fupd (s_o s) o (set_rel (s_o s o))) (s_stk s) (s_tr s) (s_fail s)) t (FFin o FMem :: l) [EId o i].
(** After the reference was dropped (SRet, DRet) the object is not touched any more. *)
Definition touches (x : frame) : bool := match x with FOp _ _ _ _ SRet _ | FQ _ _ SRet _ _ | FDes _ _ _ DRet _ => false | _ => true end.
Definition do_step (s : st) (t : nat) : option st :=
  match s_stk s t with
  | [] => None
  | x :: l =>
      let chk := fun (o : nat) (y : option st) => if touches x && gone (s_o s o) then Some (fail s Uaf) else y in
      match x with
      | FOp o nr k h st e => chk o (apply s t o l (op_step t o (s_o s o) (inst s o) nr k h st e l))
      | FQ o lkd st rf r => chk o (apply s t o l (q_step t o (s_o s o) (inst s o) lkd st rf r))
      | FMark _ => None
      | FDes o del g st e => chk o (apply s t o l (des_step t o (s_o s o) (inst s o) del g st e l))
      | FFin o FDtor => None
      | FFin o FId => chk o (Some (put_id s t o l))
      | FFin o FMem => chk o (Some (set_stk (set_o s o (set_gone (s_o s o))) t l []))
      | FNew o => chk o (Some (install s t o l))
      end
  end.
Inductive label := LCall (t : nat) (c : call) | LEnd (t : nat) | LStep (t : nat).
(** T threads. *)
Definition exec (T : nat) (l : label) (s : st) : option st :=
  match s_fail s with
  | Some _ => None
  | None =>
      match l with
      | LCall t c => if (t <? T)%nat && at_user (s_stk s t) then do_call s t c else None
      | LEnd t => do_end s t
      | LStep t => do_step s t
      end
  end.
Fixpoint run (T : nat) (ls : list label) (s : st) : option st := match ls with [] => Some s | l :: r => match exec T l s with Some s => run T r s | None => None end end.
Definition reachable (T : nat) (s : st) : Prop := exists ls, run T ls init = Some s.
