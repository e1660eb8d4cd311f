(** * The invariant of one object is kept by the steps of the calls about it. *)
From Verif Require Import Base Refobj RefobjInv.

Lemma fupd_eq {A} (f : nat -> A) k v : fupd f k v k = v. Proof. unfold fupd. rewrite Nat.eqb_refl. reflexivity. Qed.
Lemma fupd_ne {A} (f : nat -> A) k v x : x <> k -> fupd f k v x = f x.
Proof. unfold fupd. intros H. apply Nat.eqb_neq in H. rewrite H. reflexivity. Qed.
Lemma sumT_k T (F : list frame -> Z) k t L : (t < T)%nat -> sumT T (fun u => F (fupd k t L u)) = sumT T (fun u => F (k u)) - F (k t) + F L.
Proof.
  intros H. rewrite (sumT_upd T (fun u => F (k u)) (fun u => F (fupd k t L u)) t H); [|intros x N; rewrite fupd_ne by assumption; reflexivity].
  rewrite fupd_eq. reflexivity.
Qed.
Lemma wfs_mono r r' o l : async r' = async r -> cfree r' = cfree r -> (destroyed r = true -> destroyed r' = true) -> wfs r o l -> wfs r' o l.
Proof.
  intros A C D. induction l as [|x l IH]; cbn [wfs]; intros H; [trivial|]. destruct H as [H1 H2]. split; [|auto].
  destruct x as [? ? ? ? st e|? ? st ? ?| |? ? ? st e| |]; cbn [wfx] in *; unfold locked_ok in *; rewrite ?A, ?C; try exact I.
  - destruct H1 as [P [Q R]]. split; [assumption|]. split; [intros N; destruct (Q N); auto|]. exact R.
  - destruct H1 as [P Q]. split; [intros N; destruct (P N); auto|exact Q].
  - destruct H1 as [P [Q R]]. split; [exact P|]. split; [|exact R]. destruct st; try exact Q; try (destruct Q; split; auto); auto. + intuition. + intuition.
Qed.

(** The same for each object: the steps of [op_step], [q_step], [des_step]. *)
Definition lstep (t o : nat) (r : obj) (i : bool) (x : frame) (below : list frame) : lres :=
  match x with
  | FOp _ nr k h st e => op_step t o r i nr k h st e below
  | FQ _ lkd st rf id => q_step t o r i lkd st rf id
  | FDes _ del g st e => des_step t o r i del g st e below
  | _ => Wait
  end.

Section Gen.
Context (T o : nat) (r : obj) (i : bool) (k : nat -> list frame) (t : nat) (L0 : list frame) (r' : obj) (i' : bool) (L : list frame).
Context (H : OInv T o r i k) (Ht : (t < T)%nat) (Hk : k t = L0).
Notation D c := (csum c%function L - csum c%function L0).
Notation SO := (sumT T (fun t => csum ownc (k t))).
Lemma OInv_gen :
  usage r' = usage r + D use + D ownc + b2z i' - b2z i ->
  b2z i' + D ownc <= b2z i ->
  readers r' = readers r + thr L - thr L0 ->
  b2z (writer r') = b2z (writer r) + D wrw ->
  b2z (lk r') = b2z (lk r) + D lkw ->
  (writer r' = true -> readers r' = 0) ->
  (forall u, u <> t -> lc r' u = lc r u) -> (lc r' t = if 0 <? csum wlc L then LWr else LRd (Z.to_nat (csum rdc L))) ->
  (csum wlc L <= 1 /\ (0 < csum wlc L -> csum rdc L = 0)) ->
  (forall u, u <> t -> gc r' u = gc r u) -> (cfree r = true -> gc r' t = csum gcc L) ->
  async r' = async r -> cfree r' = cfree r -> (destroyed r = true -> destroyed r' = true) -> wfs r' o L ->
  (destroyed r' = true -> (destroyed r = true /\ csum openc L = 0) \/ (forall u, (u < T)%nat -> csum openc (fupd k t L u) = 0)) ->
  (i' = false -> SO + D ownc = 0 -> i = false /\ SO = 0 \/ destroyed r' = true) ->
  (0 < usage r' -> 0 < usage r /\ D finc = 0 /\ gone r' = gone r) ->
  (usage r' = 0 -> sumT T (fun t => csum finc (k t)) + D finc + b2z (gone r') = 1) ->
  b2z (rel r') = b2z (rel r) + D finm + b2z (gone r') - b2z (gone r) ->
  (forall tw, waited r' = Some tw -> (waited r = Some tw /\ i' = i /\ D ownc <= 0 /\ D use <= 0) \/ (i' = false /\ SO + D ownc = 0 /\ tw = t /\ forall u, (u < T)%nat -> u <> t -> csum use (k u) = 0)) ->
  (waited r <> None -> waited r' <> None) ->
  (cfree r = true -> async r = false -> i' = false -> SO + D ownc = 0 -> 0 < sumT T (fun t => csum dwc (k t)) + D dwc \/ waited r' <> None) ->
  OInv T o r' i' (fupd k t L).
Proof.
  intros C1 C2 C3 C4 C5 C6 C7a C7b C8 C9a C9b C10a C10b C10c C10d C11 C12 C13 C14 C15 C16 C16b C17. destruct H as [V1 V2 V3 V4 V5 V6 V7 V8 V9 V10 V11 V12 V13 V14 V15 V16 V17].
  assert (X : forall c, sumT T (fun u => csum c (fupd k t L u)) = sumT T (fun u => csum c (k u)) + D c).
  { intros c. rewrite (sumT_k T (csum c) k t L Ht), Hk. lia. }
  assert (NN : forall c, (forall y, 0 <= c y) -> 0 <= sumT T (fun u => csum c (k u)) /\ 0 <= sumT T (fun u => csum c (fupd k t L u))).
  { intros c Hc. split; apply sumT_nonneg; intros u; apply csum_nonneg; exact Hc. }
  constructor; rewrite ?X; try lia.
  - rewrite (sumT_k T thr k t L Ht), Hk. lia.
  - intros u Hu. destruct (Nat.eq_dec u t) as [->|N]; [rewrite fupd_eq; exact C7b|rewrite fupd_ne, C7a by assumption; auto].
  - intros u Hu. destruct (Nat.eq_dec u t) as [->|N]; [rewrite fupd_eq; exact C8|rewrite fupd_ne by assumption; auto].
  - rewrite C10b. intros F u Hu. destruct (Nat.eq_dec u t) as [->|N]; [rewrite fupd_eq; auto|rewrite fupd_ne, C9a by assumption; auto].
  - intros u Hu. destruct (Nat.eq_dec u t) as [->|N]; [rewrite fupd_eq; exact C10d|rewrite fupd_ne by assumption]. apply (wfs_mono r); auto.
  - intros Dd u Hu. destruct (C11 Dd) as [[E1 E2]|E]; [|auto]. destruct (Nat.eq_dec u t) as [->|N]; [rewrite fupd_eq; exact E2|rewrite fupd_ne by assumption; auto].
  - intros A B. destruct (C12 A B) as [[E1 E2]|E]; [|exact E]. apply C10c. auto.
  - intros U. destruct (C13 U) as [E1 [E2 E3]]. destruct (V13 E1) as [G1 G2]. rewrite E3. split; [lia|exact G2].
  - intros tw W. destruct (C16 tw W) as [[E1 [E2 [E3 E4]]]|[E1 [E2 [-> E3]]]].
    + destruct (V16 tw E1) as [F1 [F2 F3]]. split; [congruence|]. pose proof (NN ownc own_nn). rewrite X in *. split; [lia|].
      intros u Hu Nu. destruct (Nat.eq_dec u t) as [->|N]; [|rewrite fupd_ne by assumption; auto]. rewrite fupd_eq. specialize (F3 t Hu Nu). rewrite Hk in F3. 
      pose proof (csum_nonneg use L use_nn). lia.
    + split; [exact E1|]. split; [exact E2|]. intros u Hu Nu. rewrite fupd_ne by assumption. auto.
  - rewrite C10a, C10b. exact C17.
Qed.
End Gen.
Section Upd.
Context (T o : nat) (r : obj) (i : bool) (k : nat -> list frame) (t : nat) (x : frame) (l : list frame) (r' : obj) (i' : bool) (L : list frame).
Context (H : OInv T o r i k) (Ht : (t < T)%nat) (Hk : k t = x :: l).
Notation D c := (csum c%function L - (c%function x + csum c%function l)).
Notation SO := (sumT T (fun t => csum ownc (k t))).
Lemma OInv_upd :
  usage r' = usage r + D use + D ownc + b2z i' - b2z i ->
  b2z i' + D ownc <= b2z i ->
  readers r' = readers r + thr L - thr (x :: l) ->
  b2z (writer r') = b2z (writer r) + D wrw ->
  b2z (lk r') = b2z (lk r) + D lkw ->
  (writer r' = true -> readers r' = 0) ->
  (forall u, u <> t -> lc r' u = lc r u) -> (lc r' t = if 0 <? csum wlc L then LWr else LRd (Z.to_nat (csum rdc L))) ->
  (csum wlc L <= 1 /\ (0 < csum wlc L -> csum rdc L = 0)) ->
  (forall u, u <> t -> gc r' u = gc r u) -> (cfree r = true -> gc r' t = csum gcc L) ->
  async r' = async r -> cfree r' = cfree r -> (destroyed r = true -> destroyed r' = true) -> wfs r' o L ->
  (destroyed r' = true -> (destroyed r = true /\ csum openc L = 0) \/ (forall u, (u < T)%nat -> csum openc (fupd k t L u) = 0)) ->
  (i' = false -> SO + D ownc = 0 -> i = false /\ SO = 0 \/ destroyed r' = true) ->
  (0 < usage r' -> 0 < usage r /\ D finc = 0 /\ gone r' = gone r) ->
  (usage r' = 0 -> sumT T (fun t => csum finc (k t)) + D finc + b2z (gone r') = 1) ->
  b2z (rel r') = b2z (rel r) + D finm + b2z (gone r') - b2z (gone r) ->
  (forall tw, waited r' = Some tw -> (waited r = Some tw /\ i' = i /\ D ownc <= 0 /\ D use <= 0) \/ (i' = false /\ SO + D ownc = 0 /\ tw = t /\ forall u, (u < T)%nat -> u <> t -> csum use (k u) = 0)) ->
  (waited r <> None -> waited r' <> None) ->
  (cfree r = true -> async r = false -> i' = false -> SO + D ownc = 0 -> 0 < sumT T (fun t => csum dwc (k t)) + D dwc \/ waited r' <> None) ->
  OInv T o r' i' (fupd k t L).
Proof. exact (OInv_gen T o r i k t (x :: l) r' i' L H Ht Hk). Qed.
End Upd.
