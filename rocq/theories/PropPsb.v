(** * Property theorems C08, C09, C10, C46: packet buffers *)
From Verif Require Import Base Psb PsbSpec PsbProof.
Ltac Zify.zify_post_hook ::= Z.div_mod_to_equations.

(** C08. One operation with a length that fits an int: the data window stays
    inside the block, the size is unchanged, and a failure changes nothing. *)
Theorem C08_operations_stay_inside :
  forall b n, psb_ok b -> pb_size b < 2 ^ 63 -> fits_int n ->
  (forall b' r f, In f [aosl_psb_put; aosl_psb_get; aosl_psb_peek; aosl_psb_push; aosl_psb_pull] ->
     f b n = (b', r) ->
     psb_ok b' /\ pb_size b' = pb_size b /\ (forall e, r = PErr e -> b' = b)) /\
  (forall b' e, aosl_psb_reserve b n = (b', e) ->
     psb_ok b' /\ pb_size b' = pb_size b /\ (e <> 0 -> b' = b)).
Proof. exact psb_ops_safe. Qed.
Print Assumptions C08_operations_stay_inside.

(** The [n] bytes at a returned pointer lie inside the block. *)
Theorem C08_returned_range_inside :
  forall b n, psb_ok b -> pb_size b < 2 ^ 63 -> fits_int n ->
  forall f, In f [aosl_psb_put; aosl_psb_get; aosl_psb_peek; aosl_psb_push] ->
  forall b' p, f b n = (b', PPtr p) -> 0 <= p /\ p + n <= pb_size b.
Proof. exact psb_ranges. Qed.
Print Assumptions C08_returned_range_inside.

(** An operation fails exactly when the room (or data) it needs is missing. *)
Theorem C08_fails_exactly_without_room :
  forall b n, psb_ok b -> pb_size b < 2 ^ 63 -> fits_int n ->
  (snd (aosl_psb_put b n) = PErr (- AOSL_ENOSPC) <-> pb_size b - pb_off b - pb_len b < n) /\
  (snd (aosl_psb_get b n) = PErr (- AOSL_ENOSPC) <-> pb_len b < n) /\
  (snd (aosl_psb_peek b n) = PErr (- AOSL_ENOSPC) <-> pb_len b < n) /\
  (snd (aosl_psb_push b n) = PErr (- AOSL_ENOSPC) <-> pb_off b < n) /\
  (snd (aosl_psb_pull b n) = PErr (- AOSL_ENOSPC) <-> pb_len b < n) /\
  (snd (aosl_psb_reserve b n) = - AOSL_EPERM <-> 0 < pb_len b) /\
  (snd (aosl_psb_reserve b n) = - AOSL_ENOSPC <-> pb_len b = 0 /\ pb_size b - pb_off b < n).
Proof. exact psb_fail_exact. Qed.
Print Assumptions C08_fails_exactly_without_room.

(** The reported rooms always add up with the data to the size of the block. *)
Theorem C08_rooms_add_up :
  forall b, psb_ok b -> pb_size b < 2 ^ 32 ->
    psb_headroom b + pb_len b + psb_tailroom b = pb_size b.
Proof.
  intros b (H1 & H2 & H3) Hs. unfold psb_headroom, psb_tailroom, u32. lia.
Qed.
Print Assumptions C08_rooms_add_up.

(** C09. Any history of puts, gets, peeks, pushes, pulls and reserves on a fresh
    buffer (the caller copying through the returned pointers) behaves like the
    same history on a plain byte sequence with room in front and behind; no
    access leaves the block. *)
Theorem C09_faithful_byte_queue :
  forall block ops,
    Z.of_nat (length block) < 2 ^ 63 -> Forall op_fits ops ->
    exists b', bufrun (new_psb block) ops =
        Ok (b', snd (abufrun (mkAbuf 0 [] (Z.of_nat (length block))) ops)) /\
      psb_content b' = a_bytes (fst (abufrun (mkAbuf 0 [] (Z.of_nat (length block))) ops)).
Proof.
  intros block ops Hb Hf.
  destruct (bufrun_spec ops (new_psb block) (new_psb_ok block) Hb Hf) as (b' & E & O & S & A).
  rewrite abs_new in E, A. exists b'. split; [exact E|]. rewrite <- A. reflexivity.
Qed.
Print Assumptions C09_faithful_byte_queue.

(** The total length of a chain is the number of bytes stored in it. *)
Theorem C09_total_len_is_sum :
  forall chain, Forall psb_ok chain -> fold_right Z.add 0 (map pb_size chain) < 2 ^ 64 ->
    aosl_psb_total_len chain = Z.of_nat (length (concat (map psb_content chain))).
Proof. exact total_len_spec. Qed.
Print Assumptions C09_total_len_is_sum.

(** Resetting a chain empties every segment and makes its whole block available. *)
Theorem C09_reset_empties :
  forall chain, Forall (fun b => psb_ok b /\ psb_content b = [] /\ pb_off b = 0) (aosl_psb_reset chain) /\
    map pb_size (aosl_psb_reset chain) = map pb_size chain.
Proof.
  intros chain. unfold aosl_psb_reset. split.
  - apply Forall_forall. intros b Hb. apply in_map_iff in Hb. destruct Hb as (b0 & <- & _).
    split; [|split; reflexivity]. unfold psb_ok, pb_size. cbn. lia.
  - rewrite map_map. reflexivity.
Qed.
Print Assumptions C09_reset_empties.

Example C09_example :
  match bufrun (new_psb (repeat 0 8)) [UReserve 3; UPut [1; 2; 3]; UPush [9]; UPut [4; 5; 6]; UGet 2; UPut [4]] with
  | Ok (b, es) => psb_content b = [2; 3; 4] /\ es = [EOk []; EOk []; EOk []; EFail (-1028); EOk [9; 1]; EOk []]
  | _ => False
  end.
Proof. vm_compute. auto. Qed.

(** C10 (what holds): put, get, peek, pull and reserve keep the window inside
    the block for every length below 2^32. Missing: push, and larger lengths. *)
Theorem C10_below_2_32_partial :
  forall b n, psb_ok b -> pb_size b < 2 ^ 63 -> 0 <= n < 2 ^ 32 ->
  (forall b' r f, In f [aosl_psb_put; aosl_psb_get; aosl_psb_peek; aosl_psb_pull] ->
     f b n = (b', r) -> psb_ok b' /\ (forall e, r = PErr e -> b' = b) /\
       (forall p, r = PPtr p -> 0 <= p <= pb_size b)) /\
  psb_ok (fst (aosl_psb_reserve b n)).
Proof.
  intros b n (H1 & H2 & H3) Hbb Hn. assert (Eu : u32 n = n) by (unfold u32; lia).
  split.
  - intros b' r f Hin E. cbn in Hin.
    destruct Hin as [<-|[<-|[<-|[<-|[]]]]];
      unfold aosl_psb_put, aosl_psb_get, aosl_psb_peek, aosl_psb_pull,
             psb_put, psb_get, psb_peek, psb_pull in E; rewrite ?Eu in E.
    + destruct (Z.leb_spec (pb_off b + pb_len b + n) (pb_size b)); injection E as <- <-.
      * split; [|split; [discriminate|intros p Hp; injection Hp as <-; lia]].
        unfold psb_ok, pb_size in *; cbn [pb_off pb_len pb_mem].
        replace (u64 (pb_len b + n)) with (pb_len b + n) by (unfold u64; lia). lia.
      * split; [unfold psb_ok; auto|split; [auto|discriminate]].
    + destruct (Z.leb_spec n (pb_len b)); injection E as <- <-.
      * split; [|split; [discriminate|intros p Hp; injection Hp as <-; lia]].
        unfold psb_ok, pb_size in *; cbn [pb_off pb_len pb_mem]. lia.
      * split; [unfold psb_ok; auto|split; [auto|discriminate]].
    + destruct (Z.leb_spec n (pb_len b)); injection E as <- <-.
      * split; [unfold psb_ok; auto|]. split; [discriminate|]. intros p Hp; injection Hp as <-. lia.
      * split; [unfold psb_ok; auto|split; [auto|discriminate]].
    + destruct (Z.ltb_spec (pb_len b) n); injection E as <- <-.
      * split; [unfold psb_ok; auto|split; [auto|discriminate]].
      * split; [|split; [discriminate|intros p Hp; injection Hp as <-; lia]].
        unfold psb_ok, pb_size in *; cbn [pb_off pb_len pb_mem]. lia.
  - unfold aosl_psb_reserve, psb_reserve. rewrite Eu.
    destruct (Z.ltb_spec 0 (pb_len b)); [unfold psb_ok; auto|].
    destruct (Z.leb_spec n (u64 (pb_size b - pb_off b))) as [Hle|Hle]; [|unfold psb_ok; auto].
    unfold psb_ok, pb_size in *; cbn [fst pb_off pb_len pb_mem]. unfold u64 in Hle. lia.
Qed.
Print Assumptions C10_below_2_32_partial.

(** C10 is false for push: every length from 2^31 up to 2^32 - 1 is accepted
    whatever the headroom, and moves the data pointer in front of the block. *)
Theorem C10_push_bounds_refuted :
  forall b n, psb_ok b -> pb_size b < 2 ^ 31 -> 2 ^ 31 <= n < 2 ^ 32 ->
    exists b' p, aosl_psb_push b n = (b', PPtr p) /\ p < 0 /\ ~ psb_ok b'.
Proof.
  intros b n (H1 & H2 & H3) Hs Hn. unfold aosl_psb_push, psb_push.
  assert (Eu : u32 n = n) by (unfold u32; lia). rewrite Eu.
  assert (Es : s32 n = n - 2 ^ 32).
  { unfold s32, wrap_signed. cbv zeta. change (4294967296 / 2) with 2147483648.
    rewrite Z.mod_small by lia. destruct (Z.leb_spec 2147483648 n); lia. }
  rewrite Es. destruct (Z.ltb_spec (pb_off b) (n - 2 ^ 32)); [lia|].
  eexists. eexists. split; [reflexivity|]. split; [lia|].
  unfold psb_ok. cbn [pb_off]. lia.
Qed.
Print Assumptions C10_push_bounds_refuted.

(** ... and for put with 2^32 or more bytes: only the low 32 bits are checked,
    so a request for 2^32 bytes "succeeds" on any buffer, however small. *)
Theorem C10_put_length_truncated_refuted :
  forall b, psb_ok b -> pb_size b < 2 ^ 63 ->
    exists p, snd (aosl_psb_put b (2 ^ 32)) = PPtr p /\ pb_len (fst (aosl_psb_put b (2 ^ 32))) = pb_len b.
Proof.
  intros b (H1 & H2 & H3) Hs. unfold aosl_psb_put, psb_put. change (u32 (2 ^ 32)) with 0.
  destruct (Z.leb_spec (pb_off b + pb_len b + 0) (pb_size b)); [|lia].
  eexists. split; [reflexivity|]. cbn [fst pb_len]. unfold u64. lia.
Qed.
Print Assumptions C10_put_length_truncated_refuted.

Example C10_example : psb_ok (new_psb (repeat 0 16)) /\
  snd (aosl_psb_push (new_psb (repeat 0 16)) (2 ^ 31)) = PPtr (- 2 ^ 31).
Proof. vm_compute. intuition congruence. Qed.

(** C46. A psb made over a caller's buffer never frees any buffer, whatever is
    attached to, detached from it, and when it is freed. *)
Inductive oop := OAttach (buf : nat) (sz : Z) | ODetach.
Fixpoint orun (h : oheap) (p : opsb) (ops : list oop) : outcome (oheap * opsb) :=
  match ops with
  | [] => Ok (h, p)
  | OAttach b sz :: ops' => let* (h', p') := o_attach h p b sz in orun h' p' ops'
  | ODetach :: ops' => let* (h', p') := o_detach h p in orun h' p' ops'
  end.

Theorem C46_user_psb_frees_nothing_partial :
  forall h buf sz ops,
    exists p, orun h (o_alloc_user buf sz) ops = Ok (h, p) /\ o_free h p = Ok h.
Proof.
  intros h buf sz ops.
  assert (G : forall p, op_user p = true -> exists p', orun h p ops = Ok (h, p') /\ op_user p' = true).
  { induction ops as [|[b s|] ops IH]; intros p Hp; cbn [orun].
    - eauto.
    - unfold o_attach. rewrite Hp, andb_false_r. cbn [bind]. apply IH. reflexivity.
    - unfold o_detach. rewrite Hp. destruct (0 <? op_size p); cbn [bind]; apply IH; auto. }
  destruct (G (o_alloc_user buf sz) eq_refl) as (p & E & U). exists p. split; [assumption|].
  unfold o_free. rewrite U. reflexivity.
Qed.
Print Assumptions C46_user_psb_frees_nothing_partial.

(** But attaching a caller's buffer to a psb with an internal buffer and then
    detaching it frees the caller's buffer, although the header documents
    "Detach the buffer from a PSB without freeing it"; and so does freeing the psb. *)
Theorem C46_attached_buffer_freed_refuted :
  exists h p h1 p1, o_alloc (mkHeap [(0%nat, ByUser)] 1) 64 = (h, p) /\
    o_attach h p 0 100 = Ok (h1, p1) /\
    o_detach h1 p1 = UB /\ o_free h1 p1 = UB.
Proof. do 4 eexists. split; [reflexivity|]. split; [reflexivity|]. split; reflexivity. Qed.
Print Assumptions C46_attached_buffer_freed_refuted.
