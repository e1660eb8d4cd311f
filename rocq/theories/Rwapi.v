(** * The public read-write lock aosl_rwlock_*: kernel/thread.c 208-309 on top of the raw lock of Rwlock.v.

    N clients, any interleaving.  The raw lock is the model of Rwlock.v itself:
    a step of the product is a step of the raw lock (whose events say which
    client did what) or a step of the code around it.  The mutex rw->lk of the
    HAL is an owner; its waiters may be served in any order. *)
From Verif Require Import Base.
From Verif Require Rwlock.

(** The functions, lib/thread_api.c 105-159 (they only call the k_ functions). *)
Inductive op := ORd | OTryRd | OWr | OTryWr | ORdUn | OWrUn | OUp | ODown.

(** What a user sees.  r: the C result of the try functions (0 for the others). *)
Inductive uevent :=
| ECall (t : nat) (o : op)
| ERet (t : nat) (o : op) (r : Z).

(** Where a client is. *)
Inductive place :=
| Idle | RHeld | WHeld                       (* in user code, holding nothing / for reading / for writing *)
| RdCall | RdWait                            (* 215-218: raw rdlock not begun / blocked in it *)
| TryRd                                      (* 220-223 *)
| WLk | WTry | WNo | WNap                    (* 225-254: 228, 229, 250, 252 *)
| TLk | TTry | TNo                           (* 256-265: 259, 260, 262 *)
| RdRel | RdEnd                              (* 267-270: before / inside the raw unlock *)
| WrRel | WrEnd                              (* 272-276: raw unlock, 275 *)
| UTry | UChk | UNap | USet | URel | UWant | UWait   (* 278-301: 281, 284, 295, 298, 299, 300 *)
| DRel | DWant | DWait | DClr | DUnl         (* 303-309: 305, 306, 307, 308 *).

(** k_rwlock_t, include/kernel/thread.h 68-72: lk, rd2wrlock_count, rw; the
    clients; whether the process was aborted; the history, latest first. *)
Record state := mkSt {
  raw : Rwlock.state;
  lk : option nat;
  cnt : bool;
  pc : nat -> place;
  dead : bool;
  tr : list uevent }.

(** k_rwlock_init, kernel/thread.c 208-213. *)
Definition init_state : state := mkSt Rwlock.init_state None false (fun _ => Idle) false [].

(** Client t goes to p. *)
Definition go (t : nat) (p : place) (r : Rwlock.state) (m : option nat) (c : bool) (es : list uevent) (s : state) : state :=
  mkSt r m c (fun u => if (u =? t)%nat then p else pc s u) (dead s) (es ++ tr s).

(** One step of the raw lock that shows the events es. *)
Definition rawstep (N : nat) (r : Rwlock.state) (es : list Rwlock.event) (r' : Rwlock.state) : Prop :=
  Rwlock.step N r r' /\ Rwlock.s_tr r' = es ++ Rwlock.s_tr r.
(** The client has no raw call under way. *)
Definition rawidle (r : Rwlock.state) (t : nat) : Prop := Rwlock.s_pc r t = Rwlock.Idle.

Inductive step (N : nat) (s : state) : state -> Prop :=
(** *** The calls a client may make in its situation *)
| X_call0 t o p : (t < N)%nat -> pc s t = Idle -> In (o, p) [(ORd, RdCall); (OTryRd, TryRd); (OWr, WLk); (OTryWr, TLk)] ->
    step N s (go t p (raw s) (lk s) (cnt s) [ECall t o] s)
| X_callr t o p : (t < N)%nat -> pc s t = RHeld -> In (o, p) [(ORdUn, RdRel); (OUp, UTry)] ->
    step N s (go t p (raw s) (lk s) (cnt s) [ECall t o] s)
| X_callw t o p : (t < N)%nat -> pc s t = WHeld -> In (o, p) [(OWrUn, WrRel); (ODown, DRel)] ->
    step N s (go t p (raw s) (lk s) (cnt s) [ECall t o] s)
(** *** Inside the raw lock: steps that show nothing *)
| X_int r' es : rawstep N (raw s) es r' -> es = [] \/ (exists u, es = [Rwlock.EStray u]) ->
    step N s (mkSt r' (lk s) (cnt s) (pc s) (dead s) (tr s))
(** *** k_rwlock_rdlock 215-218, k_rwlock_tryrdlock 220-223 *)
| X_rd t r' : pc s t = RdCall -> rawstep N (raw s) [Rwlock.EGot t false; Rwlock.EWant t false] r' ->
    step N s (go t RHeld r' (lk s) (cnt s) [ERet t ORd 0] s)
| X_rd_wait t r' : pc s t = RdCall -> rawstep N (raw s) [Rwlock.EWant t false] r' ->
    step N s (go t RdWait r' (lk s) (cnt s) [] s)
| X_rd_got t r' : pc s t = RdWait -> rawstep N (raw s) [Rwlock.EGot t false] r' ->
    step N s (go t RHeld r' (lk s) (cnt s) [ERet t ORd 0] s)
| X_tryrd t r' : pc s t = TryRd -> rawstep N (raw s) [Rwlock.EGot t false] r' ->
    step N s (go t RHeld r' (lk s) (cnt s) [ERet t OTryRd 1] s)
| X_tryrd_no t r' : pc s t = TryRd -> rawstep N (raw s) [Rwlock.EBusy t false] r' ->
    step N s (go t Idle r' (lk s) (cnt s) [ERet t OTryRd 0] s)
(** *** k_rwlock_wrlock 225-254 *)
| X_wlk t : pc s t = WLk -> lk s = None -> step N s (go t WTry (raw s) (Some t) (cnt s) [] s)
| X_wtry t r' : pc s t = WTry -> rawstep N (raw s) [Rwlock.EGot t true] r' ->
    step N s (go t WHeld r' (lk s) (cnt s) [ERet t OWr 0] s)
| X_wtry_no t r' : pc s t = WTry -> rawstep N (raw s) [Rwlock.EBusy t true] r' ->
    step N s (go t WNo r' (lk s) (cnt s) [] s)
| X_wno t : pc s t = WNo -> step N s (go t WNap (raw s) None (cnt s) [] s)
| X_wnap t : pc s t = WNap -> step N s (go t WLk (raw s) (lk s) (cnt s) [] s)
(** *** k_rwlock_trywrlock 256-265 *)
| X_tlk t : pc s t = TLk -> lk s = None -> step N s (go t TTry (raw s) (Some t) (cnt s) [] s)
| X_ttry t r' : pc s t = TTry -> rawstep N (raw s) [Rwlock.EGot t true] r' ->
    step N s (go t WHeld r' (lk s) (cnt s) [ERet t OTryWr 1] s)
| X_ttry_no t r' : pc s t = TTry -> rawstep N (raw s) [Rwlock.EBusy t true] r' ->
    step N s (go t TNo r' (lk s) (cnt s) [] s)
| X_tno t : pc s t = TNo -> step N s (go t Idle (raw s) None (cnt s) [ERet t OTryWr 0] s)
(** *** k_rwlock_rdunlock 267-270, k_rwlock_wrunlock 272-276 *)
| X_rdrel t r' : pc s t = RdRel -> rawstep N (raw s) [Rwlock.ERel t false] r' ->
    step N s (go t RdEnd r' (lk s) (cnt s) [] s)
| X_rdend t : pc s t = RdEnd -> rawidle (raw s) t ->
    step N s (go t Idle (raw s) (lk s) (cnt s) [ERet t ORdUn 0] s)
| X_wrrel t r' : pc s t = WrRel -> rawstep N (raw s) [Rwlock.ERel t true] r' ->
    step N s (go t WrEnd r' (lk s) (cnt s) [] s)
| X_wrend t : pc s t = WrEnd -> rawidle (raw s) t ->
    step N s (go t Idle (raw s) None (cnt s) [ERet t OWrUn 0] s)
(** *** k_rwlock_rd2wrlock 278-301 *)
| X_utry t : pc s t = UTry -> lk s = None -> step N s (go t USet (raw s) (Some t) (cnt s) [] s)
| X_utry_no t : pc s t = UTry -> lk s <> None -> step N s (go t UChk (raw s) (lk s) (cnt s) [] s)
| X_uchk t : pc s t = UChk -> cnt s = false -> step N s (go t UNap (raw s) (lk s) (cnt s) [] s)
| X_abort t : pc s t = UChk -> cnt s = true -> dead s = false ->
    step N s (mkSt (raw s) (lk s) (cnt s) (pc s) true (tr s))
| X_unap t : pc s t = UNap -> step N s (go t UTry (raw s) (lk s) (cnt s) [] s)
| X_uset t : pc s t = USet -> step N s (go t URel (raw s) (lk s) true [] s)
| X_urel t r' : pc s t = URel -> rawstep N (raw s) [Rwlock.ERel t false] r' ->
    step N s (go t UWant r' (lk s) (cnt s) [] s)
| X_uwant t r' : pc s t = UWant -> rawstep N (raw s) [Rwlock.EGot t true; Rwlock.EWant t true] r' ->
    step N s (go t WHeld r' (lk s) (cnt s) [ERet t OUp 0] s)
| X_uwant_wait t r' : pc s t = UWant -> rawstep N (raw s) [Rwlock.EWant t true] r' ->
    step N s (go t UWait r' (lk s) (cnt s) [] s)
| X_ugot t r' : pc s t = UWait -> rawstep N (raw s) [Rwlock.EGot t true] r' ->
    step N s (go t WHeld r' (lk s) (cnt s) [ERet t OUp 0] s)
(** *** k_rwlock_wr2rdlock 303-309 *)
| X_drel t r' : pc s t = DRel -> rawstep N (raw s) [Rwlock.ERel t true] r' ->
    step N s (go t DWant r' (lk s) (cnt s) [] s)
| X_dwant t r' : pc s t = DWant -> rawstep N (raw s) [Rwlock.EGot t false; Rwlock.EWant t false] r' ->
    step N s (go t DClr r' (lk s) (cnt s) [] s)
| X_dwant_wait t r' : pc s t = DWant -> rawstep N (raw s) [Rwlock.EWant t false] r' ->
    step N s (go t DWait r' (lk s) (cnt s) [] s)
| X_dgot t r' : pc s t = DWait -> rawstep N (raw s) [Rwlock.EGot t false] r' ->
    step N s (go t DClr r' (lk s) (cnt s) [] s)
| X_dclr t : pc s t = DClr -> step N s (go t DUnl (raw s) (lk s) false [] s)
| X_dunl t : pc s t = DUnl -> step N s (go t RHeld (raw s) None (cnt s) [ERet t ODown 0] s).

(** abort ends everything. *)
Inductive reachable (N : nat) : state -> Prop :=
| R_init : reachable N init_state
| R_step s s' : reachable N s -> dead s = false -> step N s s' -> reachable N s'.
