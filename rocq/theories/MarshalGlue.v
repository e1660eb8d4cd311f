(** * From flat byte strings to chains; when an allocation failed *)
From Verif Require Import Base Psb PsbSpec PsbProof Arith Marshal MarshalSpec MarshalChain MarshalSim MarshalSafe MarshalTerm MarshalDec MarshalDec2 MarshalEnc MarshalParse.

Ltac Zify.zify_post_hook ::= Z.div_mod_to_equations.

(** ** Chains *)
Lemma readable_crel c : readable c -> crel true c (content c).
Proof.
  destruct c as [|b rest]; [intros []|]. intros [Hc Hr].
  exists b, rest, []. rewrite app_nil_r. repeat split; auto.
Qed.
Lemma written_crel c : written c -> crel false c (content c).
Proof.
  intros (b & used & empties & -> & Hc & Hu & He). exists b, used, empties.
  repeat (split; [assumption || reflexivity|]). split; [discriminate|reflexivity].
Qed.
Lemma crel_content strict c l : crel strict c l -> content c = l.
Proof. intros (b & used & empties & _ & _ & _ & _ & _ & H). exact H. Qed.
Lemma crel_written strict c l : crel strict c l -> written c.
Proof. intros (b & used & empties & H1 & H2 & H3 & H4 & _ & _). exists b, used, empties. auto. Qed.
Lemma crel_readable c l : crel true c l -> readable c.
Proof.
  intros (b & used & empties & -> & H2 & H3 & _ & H5 & _). rewrite (H5 eq_refl), app_nil_r in *. split; assumption.
Qed.
Lemma wok_chain_ok w : wok w -> chain_ok (whole w).
Proof.
  intros [(H1 & H2 & H3 & _) _]. unfold whole, chain_ok. apply Forall_app. split.
  - apply Forall_rev. exact H1.
  - constructor; [exact H2|exact H3].
Qed.
Lemma wok_written w : wok w -> written (whole w) /\ content (whole w) = wtext w.
Proof.
  intros Hw. pose proof (wok_chain_ok w Hw) as Hc. destruct Hw as [(H1 & H2 & H3 & H4 & H5) H6].
  assert (He : Forall (fun b => pb_len b = 0) (w_next w)) by (eapply Forall_impl; [|exact H5]; intros b [Hb _]; exact Hb).
  assert (Hn : content (w_next w) = []) by (apply content_empties; [exact H3|exact He]).
  split.
  - destruct (rev (w_past w)) as [|b r] eqn:Er.
    + exists (w_cur w), [], (w_next w). split; [unfold whole; rewrite Er; reflexivity|]. auto.
    + exists b, (r ++ [w_cur w]), (w_next w). split; [unfold whole; rewrite Er; cbn; rewrite <- app_assoc; reflexivity|].
      split; [exact Hc|]. split; [|exact He]. apply Forall_app. split; [exact H4|]. constructor; [|constructor].
      destruct H6 as [H6|H6]; [|exact H6]. rewrite H6 in Er. discriminate.
  - unfold whole, wtext. replace (rev (w_past w) ++ w_cur w :: w_next w) with ((rev (w_past w) ++ [w_cur w]) ++ w_next w) by (rewrite <- app_assoc; reflexivity).
    rewrite content_app, Hn, app_nil_r. reflexivity.
Qed.

(** ** Counting failed allocations *)
Section Balance.
  Variable R : Type.
  Variable rd : reader R.
  Variable E : menv.
  Variable T : ttab.
  Notation St := (ust R).
  (** calls of malloc that returned NULL, up to a constant *)
  Definition nfail (s : St) : Z := Z.of_nat (u_nalloc s) - Z.of_nat (length (u_blocks s)).
  Definition bal {A} (m : St -> res St A) : Prop := forall s,
    match m s with
    | RVal _ s' => nfail s' = nfail s
    | RErr e s' => e = - AOSL_ENOMEM -> nfail s < nfail s'
    | _ => True
    end.
  Lemma bal_bind {A B} (m : St -> res St A) (k : A -> St -> res St B) :
    bal m -> (forall a, bal (k a)) -> bal (rbind m k).
  Proof.
    intros Hm Hk s. unfold rbind. specialize (Hm s). destruct (m s) as [a s1|e s1| | |]; auto.
    specialize (Hk a s1). destruct (k a s1); auto; [congruence|]. intros H. specialize (Hk H). lia.
  Qed.
  Lemma bal_ret {A} (a : A) : bal (rret a).
  Proof. intros s. reflexivity. Qed.
  Lemma bal_fail {A} e : e <> - AOSL_ENOMEM -> bal (@rfail St A e).
  Proof. intros H s H0. contradiction. Qed.
  Lemma bal_ub {A} : bal (@rub St A). Proof. intros s. exact I. Qed.
  Lemma bal_bad {A} r : bal (@rbad St A r). Proof. intros s. exact I. Qed.
  Lemma bal_fuel {A} : bal (@rfuel St A). Proof. intros s. exact I. Qed.
  Lemma bal_write a bs : bal (write R a bs).
  Proof. intros s. unfold write. destruct (mwrite _ _ _); exact I || reflexivity. Qed.
  Lemma bal_base n : bal (base R rd n).
  Proof. intros s. unfold base. destruct (r_base rd (u_in s) n) as [[[bs|] r]| |]; auto; try reflexivity. discriminate. Qed.
  Lemma bal_dec_bytes a n : bal (dec_bytes R rd a n).
  Proof.
    intros s. unfold dec_bytes. destruct (r_bytes rd (u_in s) n) as [[[bs ok] r]| |]; auto.
    set (s1 := mkU (u_mem s) r (u_nalloc s) (u_blocks s)). change (nfail s) with (nfail s1).
    apply (bal_bind (write R a bs)); [apply bal_write|]. intros _. destruct ok; [apply bal_ret|apply bal_fail; discriminate].
  Qed.
  Lemma bal_strsize : bal (strsize R rd).
  Proof. intros s. unfold strsize. destruct (r_strsize rd (u_in s)) as [[n|]| |]; auto; try reflexivity. discriminate. Qed.
  Lemma bal_presence : bal (presence R rd E).
  Proof. unfold presence. destruct (e_helper_null E); [|apply bal_ub]. apply bal_bind; [apply bal_base|intros; apply bal_ret]. Qed.
  Lemma bal_dec16 : bal (dec16 R rd).
  Proof. apply bal_bind; [apply bal_base|intros; apply bal_ret]. Qed.
  Lemma bal_dec_base n fn a : bal (dec_base R rd n fn a).
  Proof. apply bal_bind; [apply bal_base|intros]. apply bal_bind; [apply bal_write|intros; apply bal_ret]. Qed.
  Lemma bal_dec_raw n a : bal (dec_raw R rd n a).
  Proof. apply bal_bind; [apply bal_base|intros]. apply bal_bind; [apply bal_write|intros; apply bal_ret]. Qed.
  Lemma bal_elems f : (forall x, bal (f x)) -> forall k a st i len, bal (each_elem f a st i k len).
  Proof. intros Hf. induction k; intros; cbn [each_elem]; [apply bal_ret|]. apply bal_bind; auto. Qed.
  Lemma bal_fields f : (forall c, bal (f c)) -> forall k t len, bal (each_field T f k t len).
  Proof.
    intros Hf. induction k; intros; cbn [each_field]; [apply bal_ub|].
    destruct (nth_error T t) as [ti|]; [|apply bal_ub].
    destruct (ti_id ti); try apply bal_ret; (apply bal_bind; [apply Hf|intros; apply IHk]).
  Qed.
  Lemma bal_umem {B} (k : mem -> St -> res St B) : (forall m, bal (k m)) -> bal (rbind (umem R) k).
  Proof. intros H s. unfold rbind, umem. apply H. Qed.
  (** After a NULL anything goes that reports ENOMEM; after a block, anything balanced. *)
  Definition late {A} (m : St -> res St A) : Prop := forall s,
    match m s with
    | RVal _ s' => False
    | RErr e s' => nfail s' = nfail s
    | _ => True
    end.
  Lemma bal_malloc {B} n (k : option Z -> St -> res St B) :
    (forall q, bal (k (Some q))) -> late (k None) -> bal (rbind (malloc R E n) k).
  Proof.
    intros Hs Hl s. unfold rbind, malloc.
    assert (Hf : match k None (mkU (u_mem s) (u_in s) (S (u_nalloc s)) (u_blocks s)) with
                 | RVal _ s' => nfail s' = nfail s | RErr e s' => e = - AOSL_ENOMEM -> nfail s < nfail s' | _ => True end).
    { specialize (Hl (mkU (u_mem s) (u_in s) (S (u_nalloc s)) (u_blocks s))).
      destruct (k None _) as [a s1|e s1| | |]; auto; [contradiction|]. intros _. rewrite Hl. unfold nfail. cbn [u_nalloc u_blocks]. lia. }
    destruct (e_addr E (u_nalloc s)) as [a|]; [|exact Hf]. destruct (_ && _ && _); [|exact Hf].
    match goal with |- context [k (Some a) ?s1] => pose proof (Hs a s1) as H; replace (nfail s) with (nfail s1); [exact H|] end.
    unfold nfail. cbn [u_nalloc u_blocks length]. lia.
  Qed.
  Lemma late_fail {A} e : late (@rfail St A e). Proof. intros s. reflexivity. Qed.
  Lemma late_write {A} a bs (k : unit -> St -> res St A) : (forall u, late (k u)) -> late (rbind (write R a bs) k).
  Proof.
    intros H s. unfold rbind, write. destruct (mwrite _ _ _); [|exact I].
    match goal with |- context [k tt ?s1] => pose proof (H tt s1) as H1; change (nfail s) with (nfail s1); exact H1 end.
  Qed.
  Ltac bal_step :=
    first [ apply bal_ret | apply bal_ub | apply bal_bad | apply bal_fuel
          | apply bal_fail; discriminate | apply bal_dec_bytes | apply bal_strsize | apply bal_write
          | apply bal_presence | apply bal_dec16 | apply bal_dec_base | apply bal_dec_raw
          | apply bal_malloc; [intros ?|repeat first [apply late_fail | apply late_write; intros ?]]
          | apply bal_bind; [|intros ?]
          | match goal with
            | |- bal (if ?c then _ else _) => destruct c
            | |- bal (match ?x with Some _ => _ | None => _ end) => destruct x
            | |- bal (match ?x with GSize _ => _ | _ => _ end) => destruct x
            end ].
  Lemma unmarshal_bal fuel : forall t p, bal (unmarshal R rd E T fuel t p).
  Proof.
    induction fuel as [|f IH]; intros t p; cbn [unmarshal]; [apply bal_fuel|].
    destruct (nth_error T t) as [ti|]; [|apply bal_ub]. apply bal_umem. intros m.
    match goal with |- context [if ?c then rret 0 else _] => destruct c end; [apply bal_ret|].
    destruct (ti_id ti); repeat bal_step; try apply IH;
      try (apply bal_elems; intros; apply IH); try (apply bal_fields; intros; apply IH).
  Qed.
End Balance.

(** ** The value represented by a memory is unique *)
Lemma mread_app_inv m a bs cs : mread m a (length bs) = Some bs -> mread m a (length cs) = Some cs -> length bs = length cs -> bs = cs.
Proof. intros H1 H2 Hl. rewrite Hl in H1. congruence. Qed.
Lemma num_at_fun m a n v v' : num_at m a n v -> num_at m a n v' -> v = v'.
Proof. intros (b & H1 & _ & <-) (b' & H2 & _ & <-). congruence. Qed.
Lemma string_fun m s : forall a s', bytes_at m a (s ++ [0]) -> bytes_at m a (s' ++ [0]) -> no_nul s -> no_nul s' -> s = s'.
Proof.
  unfold bytes_at. induction s as [|b s IH]; intros a [|b' s'] H1 H2 N1 N2; [reflexivity| | |];
    cbn [app length mread] in H1, H2; destruct (m a) as [x|]; try discriminate.
  - destruct (mread m (a + 1) (length (s' ++ [0]))); [|discriminate]. injection H1 as H1. injection H2 as H2 _. inversion N2; subst; congruence.
  - destruct (mread m (a + 1) (length (s ++ [0]))); [|discriminate]. injection H2 as H2. injection H1 as H1 _. inversion N1; subst; congruence.
  - destruct (mread m (a + 1) (length (s ++ [0]))) eqn:E1; [|discriminate].
    destruct (mread m (a + 1) (length (s' ++ [0]))) eqn:E2; [|discriminate].
    injection H1 as H1 H1'. injection H2 as H2 H2'. inversion N1; inversion N2; subst. f_equal. eapply IH; eassumption.
Qed.
Section Functional.
  Variable T : ttab.
  Variable m : mem.
  Ltac same :=
    repeat match goal with
    | H : nth_error T ?t = Some _, H' : nth_error T ?t = Some _ |- _ => rewrite H in H'; injection H' as <-
    | H : num_at m ?a ?n _, H' : num_at m ?a ?n _ |- _ => pose proof (num_at_fun _ _ _ _ _ H H') as ->; clear H'
    | H : type_size T ?c = GSize _, H' : type_size T ?c = GSize _ |- _ => rewrite H in H'; injection H' as <-
    end.
  Ltac sameT :=
    repeat match goal with
    | H : nth_error T ?t = Some _, H' : nth_error T ?t = Some _ |- _ => rewrite H in H'; injection H' as <-
    | H : type_size T ?c = GSize _, H' : type_size T ?c = GSize _ |- _ => rewrite H in H'; injection H' as <-
    end.
  Ltac counts :=
    repeat match goal with
    | H : num_at m ?a ?n _, H' : num_at m ?a ?n _ |- _ => pose proof (num_at_fun _ _ _ _ _ H H'); clear H'
    end.
  Ltac clash := exfalso; repeat match goal with H : _ \/ _ |- _ => destruct H end;
    match goal with
    | H : ti_id ?x = _, H' : ti_id ?x = _ |- _ => congruence
    | H : ti_id ?x = _, H' : plain_size (ti_id ?x) = _ |- _ => rewrite H in H'; discriminate
    end.
  Lemma holds_fun_all :
    (forall t p v F, holds T m t p v F -> forall v' F', holds T m t p v' F' -> v = v') /\
    (forall t p vs F, holds_fields T m t p vs F -> forall vs' F', holds_fields T m t p vs' F' -> vs = vs') /\
    (forall t p sz i vs F, holds_elems T m t p sz i vs F -> forall vs' F', holds_elems T m t p sz i vs' F' -> length vs = length vs' -> vs = vs').
  Proof.
    apply holds_mut.
    - intros t ti p Et Eh Ei v' F' H'. inversion H'; subst; same; first [reflexivity|clash].
    - intros t ti p n bs Et Eh Ei Hb Hl Ha v' F' H'. inversion H'; subst; same; try clash.
      f_equal. eapply mread_app_inv; [eassumption|eassumption|]. unfold zlen in *.
      match goal with H1 : plain_size _ = _, H2 : plain_size _ = _ |- _ => rewrite H1 in H2; injection H2 as H2 end. lia.
    - intros t ti p Et Eh Ei Hn v' F' H'. inversion H'; subst; same; try reflexivity; try congruence; clash.
    - intros t ti p q v F Et Eh Ei Hq Hq0 H IH v' F' H'. inversion H'; subst; same; try congruence; try clash.
      f_equal. eapply IH; eassumption.
    - intros t ti p v F Et Eh Ei H IH v' F' H'. inversion H'; subst; same; try clash. eapply IH; eassumption.
    - intros t ti p q s Et Eh Ei Hq Hq0 Hb Hn Hl v' F' H'. inversion H'; subst; same; try congruence; try clash.
      do 2 f_equal. eapply string_fun; eassumption.
    - intros t ti p vs F Et Eh Ei H IH v' F' H'. inversion H'; subst; same; try clash. f_equal. eapply IH; eassumption.
    - intros t ti p bs Et Eh Ei Hb Hl v' F' H'. inversion H'; subst; same; try clash.
      f_equal. eapply mread_app_inv; try eassumption. unfold zlen in *. lia.
    - intros t ti p bs Et Eh Ei Hn Hl Hb v' F' H'. inversion H'; subst; sameT; try clash.
      f_equal. eapply mread_app_inv; try eassumption. counts. unfold zlen in *; lia.
    - intros t ti p s Et Eh Ei Hb Hn Hl Hl2 v' F' H'. inversion H'; subst; same; try clash. f_equal. eapply string_fun; eassumption.
    - intros t ti p Et Eh Ei Hn v' F' H'. inversion H'; subst; sameT; try clash; try reflexivity.
      counts. destruct bs; [congruence|unfold zlen in *; cbn [length] in *; lia].
    - intros t ti p q bs Et Eh Ei Hn Hne Hq Hb v' F' H'. inversion H'; subst; sameT; try clash; counts.
      + destruct bs; [congruence|unfold zlen in *; cbn [length] in *; lia].
      + f_equal. subst. eapply mread_app_inv; try eassumption. unfold zlen in *; lia.
    - intros t ti p sz vs F Et Eh Ei Hs H IH Hl Hm v' F' H'. inversion H'; subst; same; try clash. f_equal. eapply IH; [eassumption|lia].
    - intros t ti p sz vs F Et Eh Ei Hs Hn Hl H IH v' F' H'. inversion H'; subst; sameT; try clash; counts.
      f_equal. eapply IH; [eassumption|lia].
    - intros t ti p Et Eh Ei Hn v' F' H'. inversion H'; subst; sameT; try clash; try reflexivity. counts.
      destruct vs; [congruence|cbn [length] in *; lia].
    - intros t ti p q sz vs F Et Eh Ei Hs Hn Hne Hq H IH v' F' H'. inversion H'; subst; sameT; try clash; counts.
      + destruct vs; [congruence|cbn [length] in *; lia].
      + subst. f_equal. eapply IH; [eassumption|lia].
    - intros t ti p Et Ei vs' F' H'. inversion H'; subst; same; [reflexivity|congruence].
    - intros t ti p v vs F1 F2 Et Ei H IH Hr IHr vs' F' H'. inversion H'; subst; same; [congruence|].
      f_equal; [eapply IH|eapply IHr]; eassumption.
    - intros t p sz i vs' F' H' Hl. destruct vs'; [reflexivity|discriminate].
    - intros t p sz i v vs F1 F2 H IH Hr IHr vs' F' H' Hl. inversion H'; subst; [discriminate|].
      cbn [length] in Hl. f_equal; [eapply IH; eassumption|eapply IHr; [eassumption|lia]].
  Qed.
End Functional.
Lemma represents_fun T m t p v v' : represents T m t p v -> represents T m t p v' -> v = v'.
Proof. intros [F H] [F' H']. exact (proj1 (holds_fun_all T m) _ _ _ _ H _ _ H'). Qed.
