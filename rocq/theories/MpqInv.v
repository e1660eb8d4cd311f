(** * Basic invariants of the multiplex queue model: who drives which queue,
    what the frames on the stacks may be, references, life cycle. *)
From Verif Require Import Base Mpq.

Lemma upd_same {A} (f : nat -> A) k v : upd f k v k = v.
Proof. unfold upd. rewrite Nat.eqb_refl. reflexivity. Qed.
Lemma upd_other {A} (f : nat -> A) k v x : x <> k -> upd f k v x = f x.
Proof. intros H. unfold upd. destruct (Nat.eqb_spec x k); [contradiction|reflexivity]. Qed.
Lemma upd_cases {A} (f : nat -> A) k v x (P : A -> Prop) : (x = k -> P v) -> (x <> k -> P (f x)) -> P (upd f k v x).
Proof. intros H1 H2. unfold upd. destruct (Nat.eqb_spec x k); auto. Qed.

Ltac proj := cbn [s_q s_stack s_drv s_next s_sync s_rel s_tr act set_drv next set_sync set_rel new_queue blank
       get_ref put_ref wake wake_all
       w_nonblock w_pend w_batch w_cnt w_blocked w_signalled w_waitc w_need w_pipe w_kick w_term w_exiting w_inst w_usage w_refs w_waiters w_freed w_pc
       q_made q_max q_nonblock q_keep q_thread q_pend q_batch q_cnt q_blocked q_signalled q_waitc q_need q_pipe q_kick q_term q_exiting q_inst q_usage q_refs q_waiters q_freed q_pc].
Tactic Notation "proj" "in" hyp(H) := cbn [s_q s_stack s_drv s_next s_sync s_rel s_tr act set_drv next set_sync set_rel new_queue blank
       get_ref put_ref wake wake_all
       w_nonblock w_pend w_batch w_cnt w_blocked w_signalled w_waitc w_need w_pipe w_kick w_term w_exiting w_inst w_usage w_refs w_waiters w_freed w_pc
       q_made q_max q_nonblock q_keep q_thread q_pend q_batch q_cnt q_blocked q_signalled q_waitc q_need q_pipe q_kick q_term q_exiting q_inst q_usage q_refs q_waiters q_freed q_pc] in H.

(** The queue a frame may touch. *)
Definition frame_q (f : frame) : option qid :=
  match f with
  | FUser => None
  | FQueue q _ _ held _ pc => match pc with AGet | ACGet => None | APut => if held then Some q else None | _ => Some q end
  | FDestroy q _ _ _ _ _ pc => match pc with DGet | DWait => None | _ => Some q end
  end.
(** ... and holds a reference on. *)
Definition frame_ref (f : frame) : option qid :=
  match f with
  | FUser => None
  | FQueue q _ _ held _ pc => if held then Some q else None
  | FDestroy q _ _ _ _ _ pc => match pc with DGet | DWait => None | _ => Some q end
  end.

Record base_ok (s : state) : Prop := {
  bs_drv : forall t q, s_drv s t = Some q -> q_made (s_q s q) = true /\ q_thread (s_q s q) = t /\ q_pc (s_q s q) <> XDead;
  bs_own : forall q, q_made (s_q s q) = true -> q_pc (s_q s q) <> XDead -> s_drv s (q_thread (s_q s q)) = Some q;
  bs_new : forall q, q_made (s_q s q) = false -> s_q s q = blank;
  bs_made : forall t f q, In f (s_stack s t) -> frame_q f = Some q -> q_made (s_q s q) = true }.

Lemma this_drv s t q : this s t = Some q -> s_drv s t = Some q.
Proof.
  unfold this. destruct (s_drv s t) as [q'|]; [|discriminate].
  destruct (q_pc (s_q s q')); intros H; try discriminate H; exact H.
Qed.

(** What a queue may become. *)
Definition keeps (Q Q' : queue) : Prop :=
  q_made Q' = q_made Q /\ q_max Q' = q_max Q /\ q_thread Q' = q_thread Q.

Lemma base_act s t st q Q es :
  base_ok s -> keeps (s_q s q) Q ->
  (q_pc Q = q_pc (s_q s q) \/ (q_pc Q <> XDead /\ q_pc (s_q s q) <> XDead)) ->
  (q_made (s_q s q) = true \/ Q = s_q s q) ->
  (forall f q', In f st -> frame_q f = Some q' -> q_made (s_q s q') = true) ->
  base_ok (act t st q Q es s).
Proof.
  intros [A B C D] (K1 & K2 & K3) P M F. constructor; proj.
  - intros t0 q0 H. apply (upd_cases _ _ _ _ (fun X => q_made X = true /\ q_thread X = t0 /\ q_pc X <> XDead)).
    + intros ->. destruct (A t0 q H) as (E1 & E2 & E3). rewrite K1, K3. repeat split; auto.
      destruct P as [-> | [P _]]; auto.
    + intros _. auto.
  - intros q0. apply (upd_cases _ _ _ _ (fun X => q_made X = true -> q_pc X <> XDead -> s_drv s (q_thread X) = Some q0)).
    + intros ->. rewrite K1, K3. intros E1 E2. apply B; auto. destruct P as [P|[_ P]]; congruence.
    + auto.
  - intros q0. apply (upd_cases _ _ _ _ (fun X => q_made X = false -> X = blank)).
    + intros ->. rewrite K1. intros E. destruct M as [M|M]; [congruence|]. rewrite M. auto.
    + auto.
  - intros t0 f q0 Hin Hf.
    assert (Hm : q_made (s_q s q0) = true).
    { revert Hin. apply (upd_cases _ _ _ _ (fun X => In f X -> q_made (s_q s q0) = true)); intros; eauto. }
    apply (upd_cases _ _ _ _ (fun X => q_made X = true)); [intros ->; congruence|auto].
Qed.

Lemma base_next s : base_ok s -> base_ok (next s).
Proof. intros [A B C D]. constructor; auto. Qed.
Lemma base_sync n s : base_ok s -> base_ok (set_sync n s).
Proof. intros [A B C D]. constructor; auto. Qed.
Lemma base_rel n s : base_ok s -> base_ok (set_rel n s).
Proof. intros [A B C D]. constructor; auto. Qed.

(** One case per way a step ends. *)
Ltac at_pcs := repeat match goal with H : at_pc _ _ _ _ |- _ => let D := fresh "HD" in let S := fresh "HS" in let P := fresh "HP" in destruct H as (D & S & P) end.
Ltac addsec := unfold add_section;
  repeat match goal with
  | |- context [if ?b then act _ _ _ _ _ _ else _] => let E := fresh "E" in destruct b eqn:E
  end.

Lemma keeps_refl Q : keeps Q Q. Proof. repeat split. Qed.


Lemma inst_made s q : base_ok s -> q_inst (s_q s q) = true -> q_made (s_q s q) = true.
Proof. intros B H. destruct (q_made (s_q s q)) eqn:E; [reflexivity|]. rewrite (bs_new _ B _ E) in H. discriminate. Qed.
Lemma blocked_made s q t : base_ok s -> In t (q_blocked (s_q s q)) -> q_made (s_q s q) = true.
Proof. intros B H. destruct (q_made (s_q s q)) eqn:E; [reflexivity|]. rewrite (bs_new _ B _ E) in H. destruct H. Qed.
Lemma top_made s t f rest q : base_ok s -> s_stack s t = f :: rest -> frame_q f = Some q -> q_made (s_q s q) = true.
Proof. intros B H Hf. apply (bs_made _ B t f); [rewrite H; left; reflexivity|exact Hf]. Qed.
Lemma this_made s t q : base_ok s -> this s t = Some q -> q_made (s_q s q) = true.
Proof. intros B H. apply (bs_drv _ B t). apply this_drv, H. Qed.
Lemma drv_made s t q : base_ok s -> s_drv s t = Some q -> q_made (s_q s q) = true.
Proof. intros B H. apply (bs_drv _ B t), H. Qed.

(** Made: from whatever is at hand. *)
Ltac made :=
  first [ assumption
        | eapply drv_made; eassumption
        | eapply this_made; eassumption
        | eapply inst_made; eassumption
        | eapply blocked_made; eassumption
        | eapply top_made; [eassumption|eassumption|reflexivity] ].
Ltac in_stack B :=
  let f := fresh "f" in let q' := fresh "q'" in let Hin := fresh "Hin" in let Hf := fresh "Hf" in
  intros f q' Hin Hf; cbn [In] in Hin;
  repeat match type of Hin with
  | _ \/ _ => destruct Hin as [<-|Hin]; [cbn [frame_q] in Hf; try discriminate Hf; injection Hf as <-; try made|]
  | False => destruct Hin
  end;
  try (eapply (bs_made _ B); [|exact Hf];
       match goal with H : s_stack _ _ = _ :: ?r |- _ => rewrite H; right; exact Hin | _ => eassumption end).

Lemma base_create s t q max nb keep :
  base_ok s -> q_made (s_q s q) = false -> s_drv s t = None ->
  base_ok (set_drv t (Some q) (act t [FUser] q (new_queue t max nb keep) [ECreate q t max nb] s)).
Proof.
  intros [A B C D] Hm Hd. constructor; proj.
  - intros t0 q0. unfold upd. destruct (Nat.eqb_spec t0 t) as [->|Ht].
    + intros E. injection E as <-. rewrite Nat.eqb_refl. proj. repeat split; auto. discriminate.
    + intros E. destruct (Nat.eqb_spec q0 q) as [->|Hq]; [destruct (A _ _ E); congruence|auto].
  - intros q0. unfold upd. destruct (Nat.eqb_spec q0 q) as [->|Hq]; proj.
    + rewrite Nat.eqb_refl. reflexivity.
    + intros E1 E2. specialize (B q0 E1 E2). destruct (Nat.eqb_spec (q_thread (s_q s q0)) t) as [E|E]; [congruence|exact B].
  - intros q0. unfold upd. destruct (Nat.eqb_spec q0 q) as [->|Hq]; proj; [discriminate|auto].
  - intros t0 f q0 Hin Hf.
    assert (Hm0 : q_made (s_q s q0) = true).
    { revert Hin. unfold upd. destruct (t0 =? t)%nat; [|eauto]. intros [<-|[]]. discriminate. }
    unfold upd. destruct (Nat.eqb_spec q0 q); proj; auto.
Qed.
Lemma base_dead s t q : base_ok s -> s_drv s t = Some q ->
  base_ok (set_drv t None (act t [] q (w_pc XDead (s_q s q)) [] s)).
Proof.
  intros [A B C D] Hd. constructor; proj.
  - intros t0 q0. unfold upd. destruct (Nat.eqb_spec t0 t) as [->|Ht]; [discriminate|].
    intros E. destruct (Nat.eqb_spec q0 q) as [->|Hq]; [|auto]. destruct (A _ _ E) as (_ & E1 & _), (A _ _ Hd) as (_ & E2 & _). congruence.
  - intros q0. unfold upd. destruct (Nat.eqb_spec q0 q) as [->|Hq]; proj; [congruence|].
    intros E1 E2. destruct (Nat.eqb_spec (q_thread (s_q s q0)) t) as [E|E]; [|auto]. specialize (B q0 E1 E2). congruence.
  - intros q0. unfold upd. destruct (Nat.eqb_spec q0 q) as [->|Hq]; proj; [|auto]. intros E. destruct (A _ _ Hd). congruence.
  - intros t0 f q0 Hin Hf.
    assert (Hm0 : q_made (s_q s q0) = true).
    { revert Hin. unfold upd. destruct (t0 =? t)%nat; [intros []|eauto]. }
    unfold upd. destruct (Nat.eqb_spec q0 q); subst; proj; auto.
Qed.

Ltac ifs := repeat match goal with |- context [if ?b then _ else _] => let E := fresh "E" in destruct b eqn:E end.

Lemma base_step s s' : base_ok s -> step s s' -> base_ok s'.
Proof.
  intros B H.
  destruct H; at_pcs; addsec; try apply base_next; try apply base_sync; try apply base_rel;
   try (apply base_create; assumption); try (apply base_dead; assumption);
   apply base_act; try assumption.
  all: try (unfold keeps; repeat split; ifs; reflexivity).
  all: try (left; ifs; reflexivity).
  all: try (right; reflexivity).
  all: try (left; made).
  all: try solve [in_stack B].
  all: try (right; split; [proj; unfold after_funcs; try destruct ph; try destruct did; try destruct (q_pend _); ifs; discriminate|rewrite HP; discriminate]).
  all: unfold after_kick; ifs; try solve [in_stack B].
  all: destruct held; try solve [in_stack B].
Qed.
Lemma base_reachable s : reachable s -> base_ok s.
Proof.
  induction 1 as [|s s' H IH H0]; [|eapply base_step; eauto].
  constructor; cbn; try discriminate; auto; try (intros; contradiction).
Qed.


(** ** Invariants about a thread and a queue *)
Definition pairs (P : tid -> qid -> option qid -> queue -> list frame -> Prop) (s : state) : Prop :=
  forall t q, P t q (s_drv s t) (s_q s q) (s_stack s t).

Lemma pairs_act P s t st q Q es :
  pairs P s ->
  P t q (s_drv s t) Q st ->
  (forall t', t' <> t -> P t' q (s_drv s t') Q (s_stack s t')) ->
  (forall q', q' <> q -> P t q' (s_drv s t) (s_q s q') st) ->
  pairs P (act t st q Q es s).
Proof.
  intros H H1 H2 H3 t0 q0. proj. unfold upd.
  destruct (Nat.eqb_spec q0 q) as [->|Hq], (Nat.eqb_spec t0 t) as [->|Ht]; auto.
Qed.
Lemma pairs_create P s t q max nb keep :
  pairs P s ->
  P t q (Some q) (new_queue t max nb keep) [FUser] ->
  (forall t', t' <> t -> P t' q (s_drv s t') (new_queue t max nb keep) (s_stack s t')) ->
  (forall q', q' <> q -> P t q' (Some q) (s_q s q') [FUser]) ->
  pairs P (set_drv t (Some q) (act t [FUser] q (new_queue t max nb keep) [ECreate q t max nb] s)).
Proof.
  intros H H1 H2 H3 t0 q0. proj. unfold upd.
  destruct (Nat.eqb_spec q0 q) as [->|Hq], (Nat.eqb_spec t0 t) as [->|Ht]; proj; auto.
Qed.
Lemma pairs_dead P s t q :
  pairs P s ->
  P t q None (w_pc XDead (s_q s q)) [] ->
  (forall t', t' <> t -> P t' q (s_drv s t') (w_pc XDead (s_q s q)) (s_stack s t')) ->
  (forall q', q' <> q -> P t q' None (s_q s q') []) ->
  pairs P (set_drv t None (act t [] q (w_pc XDead (s_q s q)) [] s)).
Proof.
  intros H H1 H2 H3 t0 q0. proj. unfold upd.
  destruct (Nat.eqb_spec q0 q) as [->|Hq], (Nat.eqb_spec t0 t) as [->|Ht]; auto.
Qed.
Lemma pairs_next P s : pairs P s -> pairs P (next s). Proof. intros H; exact H. Qed.
Lemma pairs_sync P n s : pairs P s -> pairs P (set_sync n s). Proof. intros H; exact H. Qed.
Lemma pairs_rel P n s : pairs P s -> pairs P (set_rel n s). Proof. intros H; exact H. Qed.

Ltac pairs_step := 
  match goal with H : step ?s _ |- pairs _ _ => destruct H end;
  at_pcs; addsec; try apply pairs_next; try apply pairs_sync; try apply pairs_rel;
  first [apply pairs_create | apply pairs_dead | apply pairs_act]; try assumption.

(** *** References *)
Definition ref_on (q : qid) (f : frame) : nat :=
  match frame_ref f with Some q' => if (q' =? q)%nat then 1 else 0 | None => 0 end%nat.
Fixpoint nrefs (q : qid) (st : list frame) : nat :=
  match st with [] => 0 | f :: st' => ref_on q f + nrefs q st' end%nat.
Definition refs_ok (t : tid) (q : qid) (d : option qid) (Q : queue) (st : list frame) : Prop :=
  count_occ Nat.eq_dec (q_refs Q) t = nrefs q st.

Lemma remove1_count x y l : In x l ->
  count_occ Nat.eq_dec (remove1 x l) y = (count_occ Nat.eq_dec l y - (if Nat.eq_dec x y then 1 else 0))%nat.
Proof.
  induction l as [|a l IH]; [intros []|]. intros Hin. cbn [remove1 count_occ].
  destruct (Nat.eqb_spec x a) as [->|Hn].
  - destruct (Nat.eq_dec a y); lia.
  - destruct Hin as [->|Hin]; [congruence|]. cbn [count_occ]. rewrite IH by assumption.
    destruct (Nat.eq_dec a y) as [->|]; destruct (Nat.eq_dec x y); try congruence; try lia.
Qed.
Lemma remove1_notin x l : ~ In x l -> remove1 x l = l.
Proof.
  induction l as [|a l IH]; [reflexivity|]. cbn [remove1 In]. intros H.
  destruct (Nat.eqb_spec x a) as [->|Hn]; [exfalso; tauto|]. rewrite IH; tauto.
Qed.
Lemma remove1_count_ne x y l : x <> y -> count_occ Nat.eq_dec (remove1 x l) y = count_occ Nat.eq_dec l y.
Proof.
  intros H. destruct (in_dec Nat.eq_dec x l) as [Hi|Hi].
  - rewrite remove1_count by assumption. destruct (Nat.eq_dec x y); [contradiction|lia].
  - rewrite remove1_notin; auto.
Qed.

Ltac eqbs := repeat match goal with
  | |- context [(?x =? ?y)%nat] => destruct (Nat.eqb_spec x y); try congruence
  | H : context [(?x =? ?y)%nat] |- _ => destruct (Nat.eqb_spec x y); try congruence end.
Ltac use_stack HR := try match goal with H : s_stack _ _ = _ |- _ => rewrite H in HR end.
Lemma nrefs_in t q Q st d : refs_ok t q d Q st -> (0 < nrefs q st)%nat -> In t (q_refs Q).
Proof. unfold refs_ok. intros H H0. apply (count_occ_In Nat.eq_dec). lia. Qed.
Lemma refs_step s s' : base_ok s -> pairs refs_ok s -> step s s' -> pairs refs_ok s'.
Proof.
  intros B R H. pairs_step.
  all: intros;
    match goal with |- refs_ok ?t ?q _ _ _ => pose proof (R t q) as HR end;
    pose proof HR as HR0; use_stack HR;
    unfold refs_ok in HR |- *; proj;
    cbn [nrefs ref_on frame_ref] in HR |- *; rewrite ?Nat.eqb_refl in *; rewrite ?remove1_count_ne by congruence.
  all: try (ifs; proj; cbn [nrefs ref_on frame_ref]; first [exact HR | solve [eqbs; lia] | solve [eqbs; rewrite HR; reflexivity]]).
  all: try (rewrite remove1_count by (eapply nrefs_in; [exact HR0|rewrite H; cbn; rewrite Nat.eqb_refl; lia]); destruct (Nat.eq_dec t t); lia).
  all: cbn [count_occ]; try (destruct (Nat.eq_dec t t); [cbn in HR; lia|congruence]).
  all: try (destruct (Nat.eq_dec t t'); [congruence|assumption]).
  - rewrite (bs_new _ B q) in HR by assumption. exact HR.
Qed.

(** *** Frames *)
Definition live (pc : cpc) : bool := match pc with XFree | XRelease _ | XDead => false | _ => true end.
Definition mine (d : option qid) (q : qid) (Q : queue) : Prop := d = Some q /\ live (q_pc Q) = true.
Lemma this_mine s t q : this s t = Some q <-> mine (s_drv s t) q (s_q s q).
Proof.
  unfold this, mine. destruct (s_drv s t) as [q'|]; [|split; [discriminate|intros [E _]; discriminate]].
  split.
  - intros E. destruct (q_pc (s_q s q')) eqn:P; try discriminate E; injection E as <-; rewrite P; auto.
  - intros [E P]. injection E as ->. destruct (q_pc (s_q s q)); try discriminate P; reflexivity.
Qed.
Lemma is_this_mine s t q : is_this s t q = true <-> mine (s_drv s t) q (s_q s q).
Proof.
  rewrite <- this_mine. unfold is_this. destruct (this s t) as [q'|]; [|split; discriminate].
  destruct (Nat.eqb_spec q' q) as [->|]; split; congruence.
Qed.
Lemma is_this_mine_not s t q : is_this s t q = false <-> ~ mine (s_drv s t) q (s_q s q).
Proof. rewrite <- is_this_mine. destruct (is_this s t q); split; congruence. Qed.
Lemma drv_inj s t t' q : base_ok s -> s_drv s t = Some q -> s_drv s t' = Some q -> t = t'.
Proof. intros B H H'. apply (bs_drv _ B) in H, H'. destruct H as (_ & <- & _), H' as (_ & <- & _). reflexivity. Qed.

Definition frame_ok (q : qid) (m : Prop) (f : frame) : Prop :=
  match f with
  | FUser => True
  | FQueue q' r treat held code pc =>
      match pc with
      | AGet => code = 0 /\ held = false
      | ACGet => code = 0 /\ held = false /\ treat = false /\ r_sync r = false /\ r_nofail r = true
      | ACheck => code = 0 /\ (q' = q -> held = true \/ m)
      | AAdd | AWait => code = 0 /\ (q' = q -> (held = true \/ m) /\ (r_sync r = true -> ~ m))
      | AKick | AKickW => code = 0 /\ (q' = q -> held = true /\ ~ m)
      | ASync => code = 0 /\ r_sync r = true /\ (q' = q -> held = true /\ ~ m)
      | AInline => code = 0 /\ r_sync r = true /\ (q' = q -> m)
      | APut => True
      end
  | FDestroy q' i w c code n pc =>
      (i = false -> w = true) /\
      match pc with
      | DGet => code = 0
      | DCheck => code = 0
      | DAddWait => code = 0 /\ w = true /\ (q' = q -> ~ m)
      | DTerm | DBcast => code = 0 /\ i = true /\ (q' = q -> w = true -> ~ m)
      | DKick | DKickW => code = 0 /\ i = true /\ (q' = q -> ~ m)
      | DPut => q' = q -> w = true -> code = 0 -> ~ m
      | DWait => code = 0 /\ w = true /\ (q' = q -> ~ m)
      end
  end.
Definition below_ok (f : frame) : Prop :=
  match f with FUser => True | FQueue _ _ _ _ code pc => pc = AInline | _ => False end.
Definition frames_ok (t : tid) (q : qid) (d : option qid) (Q : queue) (st : list frame) : Prop :=
  Forall (frame_ok q (mine d q Q)) st /\ Forall below_ok (tl st).

Lemma frame_ok_ext q m m' f : (m <-> m') -> frame_ok q m f -> frame_ok q m' f.
Proof. intros E. destruct f as [|q' r treat held code pc|q' i w c code n pc]; [auto|destruct pc; cbn; tauto|destruct pc; cbn; tauto]. Qed.
Lemma frames_ext t q d Q d' Q' st : (mine d q Q <-> mine d' q Q') -> frames_ok t q d Q st -> frames_ok t q d' Q' st.
Proof. intros E [H1 H2]. split; [|exact H2]. eapply Forall_impl; [|exact H1]. intros f. apply frame_ok_ext, E. Qed.
Lemma mine_pc d q Q Q' : q_pc Q' = q_pc Q -> mine d q Q <-> mine d q Q'.
Proof. unfold mine. intros ->. tauto. Qed.
Lemma mine_no d q Q : d <> Some q -> ~ mine d q Q.
Proof. unfold mine. tauto. Qed.

Lemma frames_cons t q d Q f st : frames_ok t q d Q (f :: st) <->
  frame_ok q (mine d q Q) f /\ Forall (frame_ok q (mine d q Q)) st /\ Forall below_ok st.
Proof. unfold frames_ok. cbn [tl]. rewrite Forall_cons_iff. tauto. Qed.
Lemma frames_tl t q d Q st : Forall (frame_ok q (mine d q Q)) st -> Forall below_ok st -> frames_ok t q d Q st.
Proof. intros H1 H2. split; [exact H1|]. destruct H2; [constructor|assumption]. Qed.

Lemma frames_user s t q : user s t -> pairs frames_ok s ->
  Forall (frame_ok q (mine (s_drv s t) q (s_q s q))) (s_stack s t) /\ Forall below_ok (s_stack s t).
Proof.
  intros [[_ U]|[rest U]] R; specialize (R t q); rewrite U in *; [split; constructor|].
  apply frames_cons in R. destruct R as (_ & R1 & R2). split; constructor; cbn; auto.
Qed.

Lemma frames_step s s' : base_ok s -> pairs frames_ok s -> step s s' -> pairs frames_ok s'.
Proof.
  intros B R H. pairs_step.
  all: intros;
    match goal with |- frames_ok ?t ?q _ _ _ => pose proof (R t q) as HR end.
  (* other threads *)
  all: try match goal with HD : s_drv ?s0 ?t = Some ?q, Hn : ?t' <> ?t |- frames_ok ?t' ?q _ _ _ =>
      assert (s_drv s0 t' <> Some q) by (intros HD'; apply Hn; eapply drv_inj; eassumption);
      eapply frames_ext; [|exact HR]; unfold mine; tauto
    end.
  all: try (eapply frames_ext; [|exact HR]; apply mine_pc; ifs; reflexivity).
  all: try (split; [repeat (constructor; try (cbn; tauto)) | repeat (constructor; try (cbn; tauto))]; fail).
  all: repeat match goal with H : this _ _ = Some _ |- _ => rewrite this_mine in H
        | H : context [this _ _ <> Some _] |- _ => rewrite this_mine in H end.
  (* the queue is new *)
  all: try match goal with Hm : q_made (s_q ?s ?q) = false, H0 : s_drv ?s ?t = None, Hn : ?t' <> ?t |- frames_ok ?t' ?q _ _ _ =>
      eapply frames_ext; [|exact HR]; rewrite (bs_new _ B q Hm); apply mine_pc; reflexivity end.
  (* a completion is made *)
  all: try match goal with H2 : ?r' = mkReq _ _ _ _ _ |- frames_ok _ _ _ _ [FQueue _ ?r' _ _ _ _] =>
    subst r'; split; repeat constructor end.
  (* a call is made *)
  all: try match goal with U : user _ ?t |- frames_ok ?t ?q _ _ _ => destruct (frames_user _ _ q U R) as [U1 U2] end.
  all: match goal with |- frames_ok ?t ?q _ _ _ => apply (frames_ext t q (s_drv s t) (s_q s q)); [apply mine_pc; ifs; reflexivity|] end.
  all: use_stack HR; try (apply frames_cons in HR; destruct HR as (HR0 & HR1 & HR2)).
  all: try (apply frames_tl; assumption).
  all: repeat (rewrite frames_cons || rewrite Forall_cons_iff).
  all: unfold after_kick; ifs.
  all: repeat match goal with H : context [is_this _ _ _] |- _ => rewrite ?Bool.andb_true_iff, ?Bool.andb_false_iff, ?is_this_mine, ?is_this_mine_not in H end.
  all: repeat match goal with |- _ /\ _ => split end; try assumption.
  all: try (cbn [frame_ok below_ok] in *; intuition (try congruence); fail).
  all: try (destruct i; cbn [frame_ok] in *; intuition congruence).
  all: try (destruct issue, wait; cbn [frame_ok] in *; intuition congruence).
  cbn. split; [apply HR0|]. intros _ _ Ez. discriminate Ez.
Qed.

(** *** The condition variable: who sleeps *)
Definition sleeps (q : qid) (st : list frame) : nat :=
  match st with FQueue q' _ _ _ _ AWait :: _ => if (q' =? q)%nat then 1 else 0 | _ => 0 end%nat.
Definition sleep_ok (t : tid) (q : qid) (d : option qid) (Q : queue) (st : list frame) : Prop :=
  (count_occ Nat.eq_dec (q_blocked Q) t + count_occ Nat.eq_dec (q_signalled Q) t = sleeps q st)%nat.
Lemma wake_count u b g x : In u b ->
  (count_occ Nat.eq_dec (remove1 u b) x + count_occ Nat.eq_dec (u :: g) x
   = count_occ Nat.eq_dec b x + count_occ Nat.eq_dec g x)%nat.
Proof.
  intros Hin. rewrite remove1_count by assumption. cbn [count_occ]. destruct (Nat.eq_dec u x) as [->|]; [|lia].
  apply (count_occ_In Nat.eq_dec) in Hin. lia.
Qed.
Lemma sleeps_below q st : Forall below_ok st -> sleeps q st = 0%nat.
Proof. intros H. destruct H as [|f st Hf _]; [reflexivity|]. destruct f as [|? ? ? ? ? pc|]; cbn in *; [reflexivity|subst pc; reflexivity|destruct Hf]. Qed.

Lemma sleep_step s s' : base_ok s -> pairs frames_ok s -> pairs sleep_ok s -> step s s' -> pairs sleep_ok s'.
Proof.
  intros B F R H. pairs_step.
  all: intros;
    match goal with |- sleep_ok ?t ?q _ _ _ => pose proof (R t q) as HR; pose proof (F t q) as HF end;
    pose proof HR as HR0; use_stack HR;
    unfold sleep_ok in HR |- *; proj;
    cbn [sleeps] in HR |- *; rewrite ?Nat.eqb_refl in *; rewrite ?wake_count by assumption; rewrite ?remove1_count_ne by congruence.
  all: try (ifs; proj; cbn [sleeps]; first [exact HR | solve [eqbs; lia] | solve [eqbs; rewrite HR; reflexivity]]).
  all: unfold after_kick; ifs; cbn [sleeps].
  all: try exact HR.
  all: rewrite ?count_occ_app; cbn [count_occ];
       repeat match goal with |- context [Nat.eq_dec ?x ?y] => destruct (Nat.eq_dec x y); try congruence end; try lia.
  all: try (rewrite remove1_count by assumption; destruct (Nat.eq_dec t t); [|congruence];
      match goal with Hin : In _ (q_signalled _) |- _ => apply (count_occ_In Nat.eq_dec) in Hin end; lia).
  all: try (use_stack HF; apply frames_cons in HF; destruct HF as (_ & _ & HF); rewrite sleeps_below by assumption; lia).
  all: try (rewrite HR; match goal with U : user _ _ |- _ => destruct U as [[_ U]|[rr U]]; rewrite U; reflexivity end).
  all: proj; cbn [count_occ]; rewrite ?count_occ_app; unfold tid in *; try lia.
  all: try (eqbs; lia).
  - rewrite (bs_new _ B q) in HR by assumption. cbn in HR. lia.
  - rewrite remove1_count by assumption. destruct (Nat.eq_dec t t); [|congruence].
    apply (count_occ_In Nat.eq_dec) in H0. lia.
Qed.
