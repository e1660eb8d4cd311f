(** * Property theorems C03, C04: object handles *)
From Verif Require Import Base Bitmap Idpool IdpoolProof IdpoolThms.

(** C03. Whatever the history of creates, deletes, releases and lookups (and
    allocation failures), nothing aborts and no freed object is touched. *)
Theorem C03_pool_never_aborts :
  forall max ops, exists s es, prun (pool_init max) ops = Ok (s, es) /\ length es = length ops.
Proof. exact pool_never_aborts. Qed.
Print Assumptions C03_pool_never_aborts.

(** Two objects that are alive at once never have the same handle. *)
Theorem C03_live_handles_distinct :
  forall max ops s es p q h,
    prun (pool_init max) ops = Ok (s, es) ->
    installed_as s p h -> installed_as s q h -> p = q.
Proof. exact handles_distinct. Qed.
Print Assumptions C03_live_handles_distinct.

(** A lookup finds exactly the object alive under that handle. *)
Theorem C03_lookup_exact :
  forall max ops s es h,
    prun (pool_init max) ops = Ok (s, es) ->
    exists r, lookup s h = Ok r /\ forall p, r = Some p <-> installed_as s p h.
Proof. exact lookup_exact. Qed.
Print Assumptions C03_lookup_exact.

(** A handle [h] issued to object [p] and then deleted resolves to nothing, as
    long as fewer than 65535 further handles were issued since [h] was. *)
Theorem C03_stale_handle_dead :
  forall max pre p mid post s e1 h e2 e3,
    prun (pool_init max) (pre ++ PInstall p :: mid ++ PUninstall p :: post)
      = Ok (s, e1 ++ EvHandle h :: e2 ++ EvUninst 0 :: e3) ->
    length e1 = length pre -> length e2 = length mid ->
    Z.of_nat (issued (e2 ++ e3)) < 65535 ->
    lookup s h = Ok None.
Proof. exact stale_handle_dead. Qed.
Print Assumptions C03_stale_handle_dead.

(** The bound is sharp: one handle more and the stale handle 65536 (of object 0,
    deleted and released) names another, live object. *)
Theorem C03_stale_handle_forever_refuted :
  forall max, exists ops s es,
    prun (pool_init max) ([PGet true true; PInstall 0; PUninstall 0; PRelease 0] ++ ops) = Ok (s, es) /\
    nth_error es 1 = Some (EvHandle 65536) /\
    nth_error es 2 = Some (EvUninst 0) /\
    Z.of_nat (issued es) = 65536 /\
    exists p, lookup s 65536 = Ok (Some p) /\ p <> 0%nat.
Proof. exact handle_reuse. Qed.
Print Assumptions C03_stale_handle_forever_refuted.

Example C03_example :
  match prun (pool_init REFOBJ_ID_POOL_MAX_SIZE)
    [PGet true true; PInstall 0; PGet true true; PInstall 1; PUninstall 0; PRelease 0;
     PGet true true; PInstall 2; PLookup 65536; PLookup 131073; PLookup 196608] with
  | Ok (s, es) => es = [EvNew 0; EvHandle 65536; EvNew 1; EvHandle 131073; EvUninst 0; EvReleased;
                        EvNew 2; EvHandle 196608; EvFound None; EvFound (Some 1%nat); EvFound (Some 2%nat)]
  | _ => False
  end.
Proof. vm_compute. reflexivity. Qed.

(** C04, what does hold: with memory available, creation succeeds exactly while
    fewer than 248 objects exist, whatever the history. *)
Theorem C04_creation_succeeds_below_248_partial :
  forall max ops s es,
    248 <= max -> prun (pool_init max) ops = Ok (s, es) ->
    (in_use s <= 248)%nat /\
    ((in_use s < 248)%nat <-> exists s' p, pstep s (PGet true true) = Ok (s', EvNew p)).
Proof. exact creation_succeeds_below_248. Qed.
Print Assumptions C04_creation_succeeds_below_248_partial.

(** C04 as stated is false for all three pools: the 249th object cannot be created. *)
Theorem C04_creation_up_to_maximum_refuted :
  forall max, In max [REFOBJ_ID_POOL_MAX_SIZE; TIMER_ID_POOL_MAX_SIZE; MPQ_ID_POOL_MAX_SIZE] ->
  exists ops s es s' e,
    prun (pool_init max) ops = Ok (s, es) /\ in_use s = 248%nat /\ Z.of_nat (in_use s) < max /\
    pstep s (PGet true true) = Ok (s', EvErr e).
Proof.
  intros max Hin. assert (H : 248 < max).
  { unfold REFOBJ_ID_POOL_MAX_SIZE, TIMER_ID_POOL_MAX_SIZE, MPQ_ID_POOL_MAX_SIZE in Hin.
    cbn in Hin. lia. }
  destruct (creation_fails_at_248 max ltac:(lia)) as (ops & s & es & s' & e & H1 & H2 & H3).
  exists ops, s, es, s', e. split; [assumption|]. split; [assumption|]. split; [lia|assumption].
Qed.
Print Assumptions C04_creation_up_to_maximum_refuted.
