(** * Removal: __rb_erase_color and aosl_rb_erase. *)
From Verif Require Import Base Rbtree RbtreeProof RbtreeFix.

Lemma rb_black_blacken t m : rb t false m -> rb (blacken t) false m.
Proof. intros H; inv H; simpl; eauto with rbdb. Qed.

(** The focus is the place where one black node is missing. *)
Definition deficit (p : path) (t : tree) : Prop :=
  exists cb n, (rb t false n /\ ctx p cb (S n)) \/ (isred t = true /\ rb (blacken t) false n /\ ctx p cb n).

Definition fixed_post (p : path) (t : tree) (cnt : Z) (v : ptr) (st' : rst) : Prop :=
  exists p' t' cb m, focus st' p' t' /\ v = tptr t' /\
     inorder (plug p' t') = inorder (plug p t) /\
     rb (blacken t') false m /\ ctx p' cb m /\ s_count st' = cnt.

Lemma root_post' st p t p0 t1 cnt cb n ct :
  focus st p t -> rb t ct n -> ctx p cb n -> (cb = true -> ct = false) ->
  inorder (plug p t) = inorder (plug p0 t1) -> s_count st = cnt ->
  runs get_root st (fixed_post p0 t1 cnt).
Proof.
  intros F R C Hc I Cn.
  destruct (plug_rb _ _ _ _ _ C R Hc) as (m & Hm).
  apply focus_plug in F.
  unfold runs, get_root. exists [], (plug p t), true, m.
  split; [exact F|]. split; [destruct F as (F & _); exact F|].
  split; [exact I|]. split; [apply rb_black_blacken; exact Hm|]. split; [auto with rbdb|exact Cn].
Qed.

(** Body of the loop once the sibling is black, left case. *)
Lemma erase_black_sibling_left : forall fuel st p a c t o ol or n cl cr cp cnt p0 t0,
  (forall st p t cnt, focus st p t -> deficit p t -> s_count st = cnt ->
     ((isred t = true /\ 1 <= fuel) \/ length p + 2 <= fuel)%nat ->
     runs (erase_color_loop fuel (tptr t) (ppar p)) st (fixed_post p t cnt)) ->
  focus st p (T a c t (T o false ol or)) ->
  rb t false n -> rb ol cl n -> rb or cr n ->
  ctx p cp (if c then S n else S (S n)) -> (c = true -> cp = false) ->
  (c = true /\ 1 <= fuel \/ length p + 2 <= fuel)%nat ->
  s_count st = cnt -> inorder (plug p (T a c t (T o false ol or))) = inorder (plug p0 t0) ->
  runs (
          pn1 <- ld (Some a) ;;
          let other := n_right pn1 in
          on1 <- ld other ;;
          lred <- is_red_opt (n_left on1) ;;
          rred <- is_red_opt (n_right on1) ;;
          if negb lred && negb rred then
            set_red other ;;;
            pn2 <- ld (Some a) ;;
            erase_color_loop fuel (Some a) (n_par pn2)
          else
            (if negb rred then
               set_black_opt (n_left on1) ;;;
               set_red other ;;;
               rotate_right other
             else ret tt) ;;;
            pn2 <- ld (Some a) ;;
            let other2 := n_right pn2 in
            set_color other2 (n_red pn2) ;;;
            set_black (Some a) ;;;
            on2 <- ld other2 ;;
            set_black_opt (n_right on2) ;;;
            rotate_left (Some a) ;;;
            get_root) st (fixed_post p0 t0 cnt).
Proof.
  intros fuel st p a c t o ol or n cl cr cp cnt p0 t0 IH F Ht Hol Hor Hp Hc Hfu Hcnt Hino.
  apply runs_bind. eapply runs_ld_here; [exact F|]. cbn [n_right tptr].
  apply runs_bind. eapply (runs_ld_here _ (FR a c t :: p)); [fsw F|]. cbn [n_left n_right].
  apply runs_bind. eapply (runs_is_red _ (FL o false or :: FR a c t :: p)); [fsw F|].
  apply runs_bind. eapply (runs_is_red _ (FR o false ol :: FR a c t :: p)); [fsw F|].
  rewrite (rb_isred _ _ _ Hol), (rb_isred _ _ _ Hor).
  destruct cl; [|destruct cr]; cbn [negb andb].
  - (* left nephew red *)
    destruct cr; cbn [negb].
    + (* right nephew red: no double rotation *)
      apply runs_bind. apply runs_ret.
      apply runs_bind. eapply runs_ld_here; [exact F|]. cbn [n_right n_red tptr].
      apply runs_bind. eapply (runs_set_color _ (FR a c t :: p)); [fsw F|]. intros st1 F1 C1.
      apply runs_bind. eapply (runs_set_color _ p); [fsw F1|]. intros st2 F2 C2.
      apply runs_bind. eapply (runs_ld_here _ (FR a false t :: p)); [fsw F2|]. cbn [n_right].
      apply runs_bind. eapply (runs_set_black_opt _ (FR o c ol :: FR a false t :: p)); [fsw F2|]. intros st3 F3 C3.
      apply runs_bind. eapply (runs_rotate_left _ p); [fsw F3|]. intros st4 F4 C4.
      inv Hor. simpl blacken in F4.
      eapply root_post' with (cb := cp) (ct := c) (n := if c then S n else S (S n)); [exact F4| |exact Hp| | |congruence].
      * destruct c; [apply rb_R|eapply rb_B]; eapply rb_B; eauto.
      * destruct c; auto. intros ->. specialize (Hc eq_refl). congruence.
      * rewrite <- Hino. apply inorder_plug_eq. simpl. repeat (rewrite <- !app_assoc; simpl). reflexivity.
    + (* right nephew black: double rotation *)
      destruct ol as [|x xc xl xr]; inv Hol.
      apply runs_bind. apply runs_bind.
      eapply (runs_set_black_opt _ (FL o false or :: FR a c t :: p)); [fsw F|]. intros st1 F1 C1.
      apply runs_bind. eapply (runs_set_color _ (FR a c t :: p)); [fsw F1|]. intros st2 F2 C2. simpl blacken in F2.
      eapply (runs_rotate_right _ (FR a c t :: p)); [exact F2|]. intros st3 F3 C3.
      apply runs_bind. eapply (runs_ld_here _ p); [fsw F3|]. cbn [n_right n_red tptr].
      apply runs_bind. eapply (runs_set_color _ (FR a c t :: p)); [fsw F3|]. intros st4 F4 C4.
      apply runs_bind. eapply (runs_set_color _ p); [fsw F4|]. intros st5 F5 C5.
      apply runs_bind. eapply (runs_ld_here _ (FR a false t :: p)); [fsw F5|]. cbn [n_right].
      apply runs_bind. eapply (runs_set_black_opt _ (FR x c xl :: FR a false t :: p)); [fsw F5|]. intros st6 F6 C6.
      apply runs_bind. eapply (runs_rotate_left _ p); [fsw F6|]. intros st7 F7 C7.
      simpl blacken in F7.
      eapply root_post' with (cb := cp) (ct := c) (n := if c then S n else S (S n)); [exact F7| |exact Hp| | |congruence].
      * destruct c; [apply rb_R|eapply rb_B]; eapply rb_B; eauto.
      * destruct c; auto. intros ->. specialize (Hc eq_refl). congruence.
      * rewrite <- Hino. apply inorder_plug_eq. simpl. repeat (rewrite <- !app_assoc; simpl). reflexivity.
  - (* right nephew red *)
    apply runs_bind. apply runs_ret.
    apply runs_bind. eapply runs_ld_here; [exact F|]. cbn [n_right n_red tptr].
    apply runs_bind. eapply (runs_set_color _ (FR a c t :: p)); [fsw F|]. intros st1 F1 C1.
    apply runs_bind. eapply (runs_set_color _ p); [fsw F1|]. intros st2 F2 C2.
    apply runs_bind. eapply (runs_ld_here _ (FR a false t :: p)); [fsw F2|]. cbn [n_right].
    apply runs_bind. eapply (runs_set_black_opt _ (FR o c ol :: FR a false t :: p)); [fsw F2|]. intros st3 F3 C3.
    apply runs_bind. eapply (runs_rotate_left _ p); [fsw F3|]. intros st4 F4 C4.
    inv Hor. simpl blacken in F4.
    eapply root_post' with (cb := cp) (ct := c) (n := if c then S n else S (S n)); [exact F4| |exact Hp| | |congruence].
    * destruct c; [apply rb_R|eapply rb_B]; eapply rb_B; eauto.
    * destruct c; auto. intros ->. specialize (Hc eq_refl). congruence.
    * rewrite <- Hino. apply inorder_plug_eq. simpl. repeat (rewrite <- !app_assoc; simpl). reflexivity.
  - (* both black *)
    apply runs_bind. eapply (runs_set_color _ (FR a c t :: p)); [fsw F|]. intros st1 F1 C1.
    apply runs_bind. eapply (runs_ld_here _ p); [fsw F1|]. cbn [n_par].
    eapply runs_conseq; [eapply (IH st1 p (T a c t (T o true ol or)) cnt)|].
    + fsw F1.
    + destruct c.
      * exists cp, (S n). right. split; [reflexivity|]. split; [|exact Hp].
        simpl. eapply rb_B; eauto with rbdb.
      * exists cp, (S n). left. split; [|exact Hp]. eapply rb_B; eauto with rbdb.
    + congruence.
    + destruct Hfu as [[-> ?]|?]; [left; split; [reflexivity|auto]|right; auto].
    + intros v st2 (p' & t' & cb & m & H1 & H2 & H3 & H4 & H5 & H6).
      exists p', t', cb, m. repeat split; try apply H1; auto.
      rewrite H3, <- Hino. apply inorder_plug_eq. reflexivity.
Qed.

Lemma erase_black_sibling_right : forall fuel st p a c t o ol or n cl cr cp cnt p0 t0,
  (forall st p t cnt, focus st p t -> deficit p t -> s_count st = cnt ->
     ((isred t = true /\ 1 <= fuel) \/ length p + 2 <= fuel)%nat ->
     runs (erase_color_loop fuel (tptr t) (ppar p)) st (fixed_post p t cnt)) ->
  focus st p (T a c (T o false ol or) t) ->
  rb t false n -> rb ol cl n -> rb or cr n ->
  ctx p cp (if c then S n else S (S n)) -> (c = true -> cp = false) ->
  (c = true /\ 1 <= fuel \/ length p + 2 <= fuel)%nat ->
  s_count st = cnt -> inorder (plug p (T a c (T o false ol or) t)) = inorder (plug p0 t0) ->
  runs (
          pn1 <- ld (Some a) ;;
          let other := n_left pn1 in
          on1 <- ld other ;;
          lred <- is_red_opt (n_left on1) ;;
          rred <- is_red_opt (n_right on1) ;;
          if negb lred && negb rred then
            set_red other ;;;
            pn2 <- ld (Some a) ;;
            erase_color_loop fuel (Some a) (n_par pn2)
          else
            (if negb lred then
               set_black_opt (n_right on1) ;;;
               set_red other ;;;
               rotate_left other
             else ret tt) ;;;
            pn2 <- ld (Some a) ;;
            let other2 := n_left pn2 in
            set_color other2 (n_red pn2) ;;;
            set_black (Some a) ;;;
            on2 <- ld other2 ;;
            set_black_opt (n_left on2) ;;;
            rotate_right (Some a) ;;;
            get_root) st (fixed_post p0 t0 cnt).
Proof.
  intros fuel st p a c t o ol or n cl cr cp cnt p0 t0 IH F Ht Hol Hor Hp Hc Hfu Hcnt Hino.
  apply runs_bind. eapply runs_ld_here; [exact F|]. cbn [n_left tptr].
  apply runs_bind. eapply (runs_ld_here _ (FL a c t :: p)); [fsw F|]. cbn [n_left n_right].
  apply runs_bind. eapply (runs_is_red _ (FL o false or :: FL a c t :: p)); [fsw F|].
  apply runs_bind. eapply (runs_is_red _ (FR o false ol :: FL a c t :: p)); [fsw F|].
  rewrite (rb_isred _ _ _ Hol), (rb_isred _ _ _ Hor).
  destruct cl; [|destruct cr]; cbn [negb andb].
  - (* left nephew red: single rotation *)
    apply runs_bind. apply runs_ret.
    apply runs_bind. eapply runs_ld_here; [exact F|]. cbn [n_left n_red tptr].
    apply runs_bind. eapply (runs_set_color _ (FL a c t :: p)); [fsw F|]. intros st1 F1 C1.
    apply runs_bind. eapply (runs_set_color _ p); [fsw F1|]. intros st2 F2 C2.
    apply runs_bind. eapply (runs_ld_here _ (FL a false t :: p)); [fsw F2|]. cbn [n_left].
    apply runs_bind. eapply (runs_set_black_opt _ (FL o c or :: FL a false t :: p)); [fsw F2|]. intros st3 F3 C3.
    apply runs_bind. eapply (runs_rotate_right _ p); [fsw F3|]. intros st4 F4 C4.
    inv Hol. simpl blacken in F4.
    eapply root_post' with (cb := cp) (ct := c) (n := if c then S n else S (S n)); [exact F4| |exact Hp| | |congruence].
    * destruct c; [apply rb_R|eapply rb_B]; eapply rb_B; eauto.
    * destruct c; auto. intros ->. specialize (Hc eq_refl). congruence.
    * rewrite <- Hino. apply inorder_plug_eq. simpl. repeat (rewrite <- !app_assoc; simpl). reflexivity.
  - (* right nephew red, left black: double rotation *)
    destruct or as [|x xc xl xr]; inv Hor.
    apply runs_bind. apply runs_bind.
    eapply (runs_set_black_opt _ (FR o false ol :: FL a c t :: p)); [fsw F|]. intros st1 F1 C1.
    apply runs_bind. eapply (runs_set_color _ (FL a c t :: p)); [fsw F1|]. intros st2 F2 C2. simpl blacken in F2.
    eapply (runs_rotate_left _ (FL a c t :: p)); [exact F2|]. intros st3 F3 C3.
    apply runs_bind. eapply (runs_ld_here _ p); [fsw F3|]. cbn [n_left n_red tptr].
    apply runs_bind. eapply (runs_set_color _ (FL a c t :: p)); [fsw F3|]. intros st4 F4 C4.
    apply runs_bind. eapply (runs_set_color _ p); [fsw F4|]. intros st5 F5 C5.
    apply runs_bind. eapply (runs_ld_here _ (FL a false t :: p)); [fsw F5|]. cbn [n_left].
    apply runs_bind. eapply (runs_set_black_opt _ (FL x c xr :: FL a false t :: p)); [fsw F5|]. intros st6 F6 C6.
    apply runs_bind. eapply (runs_rotate_right _ p); [fsw F6|]. intros st7 F7 C7.
    simpl blacken in F7.
    eapply root_post' with (cb := cp) (ct := c) (n := if c then S n else S (S n)); [exact F7| |exact Hp| | |congruence].
    * destruct c; [apply rb_R|eapply rb_B]; eapply rb_B; eauto.
    * destruct c; auto. intros ->. specialize (Hc eq_refl). congruence.
    * rewrite <- Hino. apply inorder_plug_eq. simpl. repeat (rewrite <- !app_assoc; simpl). reflexivity.
  - (* both black *)
    apply runs_bind. eapply (runs_set_color _ (FL a c t :: p)); [fsw F|]. intros st1 F1 C1.
    apply runs_bind. eapply (runs_ld_here _ p); [fsw F1|]. cbn [n_par].
    eapply runs_conseq; [eapply (IH st1 p (T a c (T o true ol or) t) cnt)|].
    + fsw F1.
    + destruct c.
      * exists cp, (S n). right. split; [reflexivity|]. split; [|exact Hp].
        simpl. eapply rb_B; eauto with rbdb.
      * exists cp, (S n). left. split; [|exact Hp]. eapply rb_B; eauto with rbdb.
    + congruence.
    + destruct Hfu as [[-> ?]|?]; [left; split; [reflexivity|auto]|right; auto].
    + intros v st2 (p' & t' & cb & m & H1 & H2 & H3 & H4 & H5 & H6).
      exists p', t', cb, m. repeat split; try apply H1; auto.
      rewrite H3, <- Hino. apply inorder_plug_eq. reflexivity.
Qed.

Lemma tptr_root_neq st f p t : focus st (f :: p) t -> tptr t <> s_root st.
Proof.
  intros F Eq.
  assert (G := F). apply focus_plug in G. destruct G as (G & _ & N0). cbn [repc] in G.
  rewrite G in Eq.
  assert (forall p t a, tptr (plug p t) = Some a -> p <> [] -> (1 <= occp a p)%nat) as Hroot.
  { clear. induction p as [|[b c s|b c s] p IH]; intros t a H Hne; [congruence| |]; simpl in *;
      (destruct p; [simpl in H; inversion H; subst; rewrite ind_eq; lia|]);
      specialize (IH _ _ H ltac:(discriminate)); lia. }
  destruct (tptr (plug (f :: p) t)) as [a|] eqn:Ea.
  - specialize (Hroot _ _ _ Ea ltac:(discriminate)). apply tptr_occ in Eq.
    destruct F as (_ & _ & N). specialize (N a). lia.
  - assert (forall p t, t <> E -> tptr (plug p t) <> None) as Hn.
    { clear. induction p as [|[b c s|b c s] p IH]; intros t H; simpl; [destruct t; simpl; congruence| |];
        apply IH; discriminate. }
    destruct f; simpl in Ea; apply Hn in Ea; auto; discriminate.
Qed.

Lemma erase_color_loop_ok : forall fuel st p t cnt,
  focus st p t -> deficit p t -> s_count st = cnt ->
  ((isred t = true /\ 1 <= fuel) \/ length p + 2 <= fuel)%nat ->
  runs (erase_color_loop fuel (tptr t) (ppar p)) st (fixed_post p t cnt).
Proof.
  induction fuel as [|fuel IH]; intros st p t cnt F D Hcnt Hfu; [lia|].
  cbn [erase_color_loop].
  apply runs_bind. eapply runs_is_red; [exact F|].
  apply runs_bind. change (runs get_root st) with (fun Q : ptr -> rst -> Prop => Q (s_root st) st). cbn beta.
  destruct (isred t) eqn:Er; cbn [orb].
  { apply runs_ret. destruct D as (cb & n & [(D1 & D2)|(D1 & D2 & D3)]).
    - rewrite (rb_isred _ _ _ D1) in Er. discriminate.
    - exists p, t, cb, n. repeat split; auto; apply F. }
  destruct Hfu as [[? ?]|Hfu]; [discriminate|].
  destruct D as (cb & n & [(Ht & Hp)|(D1 & _)]); [|congruence].
  destruct p as [|f p].
  { assert (s_root st = tptr t) as -> by apply F. rewrite ptr_eqb_refl. apply runs_ret.
    exists [], t, true, n. repeat split; auto; try apply F; [|auto with rbdb].
    apply rb_black_blacken; exact Ht. }
  rewrite (ptr_eqb_false _ _ (tptr_root_neq _ _ _ _ F)).
  simpl length in Hfu.
  destruct f as [a c s|a c s]; cbn [ppar].
  - (* t is the left child *)
    assert (exists cs, rb s cs (S n) /\ exists cp, ctx p cp (if c then S n else S (S n)) /\
       (c = true -> cp = false /\ cs = false)) as (cs & Hs & cp & Hcp & Hc).
    { inv Hp; eauto 10. exists cs. split; auto. exists cp. split; auto. congruence. }
    apply runs_bind. eapply (runs_ld_here _ p); [fsw F|]. cbn [n_left n_right].
    rewrite ptr_eqb_refl.
    destruct s as [|o oc ol or]; [inv Hs|]. cbn [tptr].
    apply runs_bind. eapply (runs_ld_here _ (FR a c t :: p)); [fsw F|]. cbn [n_red].
    destruct oc.
    + (* red sibling *)
      destruct cs; [|inv Hs]. destruct c; [destruct (Hc eq_refl); discriminate|].
      inv Hs.
      apply runs_bind. apply runs_bind.
      eapply (runs_set_color _ (FR a false t :: p)); [fsw F|]. intros st1 F1 C1.
      apply runs_bind. eapply (runs_set_color _ p); [fsw F1|]. intros st2 F2 C2.
      eapply (runs_rotate_left _ p); [exact F2|]. intros st3 F3 C3.
      match goal with H : rb ol false (S n) |- _ => inv H end.
      eapply (erase_black_sibling_left fuel st3 (FL o false or :: p) a true t) with (cp := false);
        [exact IH|fsw F3|eassumption|eassumption|eassumption| |auto| |congruence|].
      * eapply ctx_BL; eauto.
      * left. split; auto. lia.
      * cbn [plug]. apply inorder_plug_eq. simpl. repeat (rewrite <- !app_assoc; simpl). reflexivity.
    + inv Hs.
      apply runs_bind. apply runs_ret.
      eapply (erase_black_sibling_left fuel st p a c t) with (cp := cp);
        [exact IH|fsw F|eassumption|eassumption|eassumption|exact Hcp|apply Hc| |reflexivity|reflexivity].
      right. lia.
  - assert (exists cs, rb s cs (S n) /\ exists cp, ctx p cp (if c then S n else S (S n)) /\
       (c = true -> cp = false /\ cs = false)) as (cs & Hs & cp & Hcp & Hc).
    { inv Hp; eauto 10. exists cs. split; auto. exists cp. split; auto. congruence. }
    apply runs_bind. eapply (runs_ld_here _ p); [fsw F|]. cbn [n_left n_right].
    destruct s as [|o oc ol or]; [inv Hs|]. 
    rewrite ptr_eqb_false.
    2:{ cbn [tptr]. intros Eq. symmetry in Eq.
        eapply (focus_sib_neq _ _ _ o a c _ F Eq); [right; reflexivity|reflexivity]. }
    cbn [tptr].
    apply runs_bind. eapply (runs_ld_here _ (FL a c t :: p)); [fsw F|]. cbn [n_red].
    destruct oc.
    + destruct cs; [|inv Hs]. destruct c; [destruct (Hc eq_refl); discriminate|].
      inv Hs.
      apply runs_bind. apply runs_bind.
      eapply (runs_set_color _ (FL a false t :: p)); [fsw F|]. intros st1 F1 C1.
      apply runs_bind. eapply (runs_set_color _ p); [fsw F1|]. intros st2 F2 C2.
      eapply (runs_rotate_right _ p); [exact F2|]. intros st3 F3 C3.
      match goal with H : rb or false (S n) |- _ => inv H end.
      eapply (erase_black_sibling_right fuel st3 (FR o false ol :: p) a true t) with (cp := false);
        [exact IH|fsw F3|eassumption|eassumption|eassumption| |auto| |congruence|].
      * eapply ctx_BR; eauto.
      * left. split; auto. lia.
      * cbn [plug]. apply inorder_plug_eq. simpl. repeat (rewrite <- !app_assoc; simpl). reflexivity.
    + inv Hs.
      apply runs_bind. apply runs_ret.
      eapply (erase_black_sibling_right fuel st p a c t) with (cp := cp);
        [exact IH|fsw F|eassumption|eassumption|eassumption|exact Hcp|apply Hc| |reflexivity|reflexivity].
      right. lia.
Qed.

Lemma erase_color_ok fuel st p t :
  focus st p t -> deficit p t -> (length p + 2 <= fuel)%nat ->
  runs (erase_color fuel (tptr t) (ppar p)) st (fun _ st' =>
    exists t' m, focus st' [] t' /\ rb t' false m /\ inorder t' = inorder (plug p t) /\
                 s_count st' = s_count st).
Proof.
  intros F D Hf. unfold erase_color. apply runs_bind.
  eapply runs_conseq; [eapply erase_color_loop_ok; eauto|].
  intros v st1 (p' & t' & cb & m & H1 & -> & H3 & H4 & H5 & H6).
  eapply runs_set_black_opt; [exact H1|]. intros st2 F2 C2.
  destruct (plug_rb _ _ _ _ _ H5 H4 ltac:(auto)) as (m' & Hm').
  exists (plug p' (blacken t')), m'. split; [apply (proj1 (focus_plug _ _ _)); exact F2|]. split; [auto|].
  split; [|congruence]. rewrite <- H3. apply inorder_plug_eq. apply blacken_inorder.
Qed.

(** Descending left. *)
Fixpoint all_left (p : path) : Prop :=
  match p with [] => True | FL _ _ _ :: p' => all_left p' | FR _ _ _ :: _ => False end.
Lemma leftmost_ok : forall fuel st p a c l r,
  focus st p (T a c l r) -> (height l + 1 <= fuel)%nat ->
  runs (leftmost fuel (Some a)) st (fun v st' => st' = st /\ exists q s cs r', v = Some s /\ T a c l r = plug q (T s cs E r') /\ all_left q).
Proof.
  induction fuel as [|fuel IH]; intros st p a c l r F Hf; [lia|].
  cbn [leftmost]. apply runs_bind. eapply runs_ld_here; [exact F|]. cbn [n_left].
  destruct l as [|la lc ll lr]; cbn [tptr].
  - apply runs_ret. split; auto. exists [], a, c, r. simpl. auto.
  - simpl in Hf. eapply runs_conseq.
    { eapply (IH st (FL a c r :: p)); [fsw F|]. lia. }
    cbn beta. intros v st' (-> & q & s & cs & r' & -> & Hq & Hl). split; auto.
    exists (q ++ [FL a c r]), s, cs, r'. split; auto. split.
    + rewrite plug_app, <- Hq. reflexivity.
    + clear -Hl. induction q as [|[? ? ?|? ? ?] q IHq]; simpl in *; auto.
Qed.

Lemma all_left_lctx q : all_left q -> lctx q = [].
Proof. induction q as [|[? ? ?|? ? ?] q IH]; simpl; tauto. Qed.

Lemma ctx_rename q x y c l p cb n :
  ctx (q ++ FR x c l :: p) cb n -> ctx (q ++ FR y c l :: p) cb n.
Proof.
  revert cb n; induction q as [|[a d s|a d s] q IH]; simpl; intros cb n H; inv H; eauto with rbdb.
Qed.

(** What is left after unlinking a node with at most one child. *)
Lemma splice_cases p cb n a c l r ct child :
  ctx p cb n -> rb (T a c l r) ct n -> (cb = true -> ct = false) ->
  ((l = E /\ child = r) \/ (r = E /\ child = l)) ->
  if c then child = E /\ ctx p cb 0 else deficit p child.
Proof.
  intros Hp Ht Hc Hch. inv Ht.
  - destruct Hch as [[-> ->]|[-> ->]].
    + match goal with H : rb E _ _ |- _ => inv H end. match goal with H : rb _ false 0 |- _ => inv H end. auto.
    + match goal with H : rb E _ _ |- _ => inv H end. match goal with H : rb _ false 0 |- _ => inv H end. auto.
  - assert (n0 = 0%nat) as -> by (destruct Hch as [[-> ->]|[-> ->]]; match goal with H : rb E _ _ |- _ => inv H end; auto).
    assert (exists cc, rb child cc 0) as (cc & Hcc) by (destruct Hch as [[-> ->]|[-> ->]]; eauto).
    destruct cc.
    + inv Hcc. exists cb, 1%nat. right. split; auto. split; auto. simpl. eapply rb_B; eauto.
    + exists cb, 0%nat. left. auto.
Qed.

Lemma erase_tail fuel st p child (red : bool) cb :
  focus st p child ->
  (if red then child = E /\ ctx p cb 0 else deficit p child) ->
  (length p + 2 <= fuel)%nat ->
  runs ((if red then ret tt else erase_color fuel (tptr child) (ppar p)) ;;; add_count (-1)) st
    (fun _ st' => exists t' m, focus st' [] t' /\ rb t' false m /\
       inorder t' = inorder (plug p child) /\ s_count st' = u64 (s_count st - 1)).
Proof.
  intros F D Hf. apply runs_bind. destruct red.
  - destruct D as (-> & Hp). apply runs_ret.
    destruct (plug_rb p cb 0 E false Hp rb_E ltac:(auto)) as (m & Hm).
    exists (plug p E), m. repeat split; auto; try (apply (proj1 (focus_plug _ _ _)) in F; apply F).
  - eapply runs_conseq; [eapply erase_color_ok; eauto|].
    intros _ st1 (t' & m & H1 & H2 & H3 & H4).
    exists t', m. repeat split; auto; try apply H1.
    simpl. rewrite H4. reflexivity.
Qed.

Lemma set_left_is_hole st b d s q a v (Q : unit -> rst -> Prop) :
  repc (s_heap st) (s_root st) (Some a) (FL b d s :: q) ->
  Q tt (mkSt (upd_hole (s_heap st) (FL b d s :: q) v) (upd_root (s_root st) (FL b d s :: q) v) (s_count st)) ->
  runs (set_left (Some b) v) st Q.
Proof. intros (H & _) HQ. eapply runs_modify; [exact H|]. exact HQ. Qed.
Lemma set_right_is_hole st b d s q a v (Q : unit -> rst -> Prop) :
  repc (s_heap st) (s_root st) (Some a) (FR b d s :: q) ->
  Q tt (mkSt (upd_hole (s_heap st) (FR b d s :: q) v) (upd_root (s_root st) (FR b d s :: q) v) (s_count st)) ->
  runs (set_right (Some b) v) st Q.
Proof. intros (H & _) HQ. eapply runs_modify; [exact H|]. exact HQ. Qed.

Lemma runs_assoc {A B C} (m : M A) (k : A -> M B) (k2 : B -> M C) st Q :
  runs (bindM (bindM m k) k2) st Q -> runs (bindM m (fun x => bindM (k x) k2)) st Q.
Proof. unfold runs, bindM. destruct (m st) as [[v st']| |]; simpl; auto. Qed.

Definition erase_post (L R : list nat) (cnt : Z) (st' : rst) : Prop :=
  exists t' m, focus st' [] t' /\ rb t' false m /\ inorder t' = L ++ R /\ s_count st' = u64 (cnt - 1).

Lemma erase_simple_ok fuel st p a c l r m child :
  focus st p (T a c l r) -> rb (plug p (T a c l r)) false m ->
  ((l = E /\ child = r) \/ (r = E /\ child = l)) ->
  (length p + 2 <= fuel)%nat ->
  runs (erase_simple fuel (Some a) (tptr child)) st
    (fun _ st' => erase_post (lctx p ++ inorder l) (inorder r ++ rctx p) (s_count st) st').
Proof.
  intros F R Hch Hf.
  destruct (plug_rb_inv _ _ _ R) as (cb & ct & n & Hp & Ht & Hc).
  assert (S := splice_cases _ _ _ _ _ _ _ _ _ Hp Ht Hc Hch).
  unfold erase_simple. apply runs_bind. eapply runs_ld_here; [exact F|]. cbn [n_par n_red].
  apply runs_assoc. apply runs_bind.
  eapply (runs_splice st p a c l r child); [exact F|tauto| |].
  { intros st0 Q H0 H1 HQ. apply runs_replace_child_l; auto. }
  intros st1 F1 C1 _.
  eapply runs_conseq; [eapply (erase_tail fuel st1 p child c cb); eauto|].
  intros _ st2 (t' & m' & H1 & H2 & H3 & H4).
  exists t', m'. repeat split; auto; try apply H1; [|congruence].
  rewrite H3, inorder_plug. destruct Hch as [[-> ->]|[-> ->]]; simpl; rewrite ?app_nil_r, ?app_assoc; auto.
Qed.

Lemma erase_two_ok fuel st p a c l r m :
  focus st p (T a c l r) -> rb (plug p (T a c l r)) false m -> l <> E -> r <> E ->
  (length p + height r + 3 <= fuel)%nat ->
  runs (erase_two fuel (Some a)) st
    (fun _ st' => erase_post (lctx p ++ inorder l) (inorder r ++ rctx p) (s_count st) st').
Proof.
  intros F R Hl Hr Hf. unfold erase_two.
  apply runs_bind. eapply runs_ld_here; [exact F|]. cbn [n_right].
  destruct r as [|ra rc rl rr]; [congruence|]. cbn [tptr].
  apply runs_bind. eapply runs_conseq.
  { eapply (leftmost_ok fuel st (FR a c l :: p)); [fsw F|]. simpl in Hf. lia. }
  intros v st0 (-> & q & s & cs & r' & -> & Hq & Hql).
  assert (Hh : (length q <= height (T ra rc rl rr))%nat)
    by (rewrite Hq; pose proof (height_plug q (T s cs E r')); lia).
  set (P := q ++ FR a c l :: p).
  assert (FP : focus st P (T s cs E r')).
  { unfold P. apply focus_app. simpl. rewrite <- Hq. fsw F. }
  assert (RP : rb (plug P (T s cs E r')) false m).
  { unfold P. rewrite plug_app. simpl. rewrite <- Hq. exact R. }
  destruct (plug_rb_inv _ _ _ RP) as (cb & ct & n & HpP & Ht & Hc).
  assert (Sc := splice_cases P cb n s cs E r' ct r' HpP Ht Hc ltac:(auto)).
  apply runs_bind. eapply runs_ld_here; [exact FP|]. cbn [n_right n_par n_red].
  apply runs_assoc. apply runs_bind.
  eapply (runs_splice st P s cs E r' r'); [exact FP|auto| |].
  { intros st0 Q H0 H1 HQ. unfold P in *. destruct q as [|[b d s0|b d s0] q]; cbn [app] in *; cbn [ppar] in *.
    - rewrite ptr_eqb_refl. eapply set_right_is_hole; eauto.
    - rewrite ptr_eqb_false; [eapply set_left_is_hole; eauto|].
      intros [= ->]. destruct FP as (_ & _ & N). specialize (N a). simpl in N.
      rewrite ind_eq in N. 
      assert (1 <= occp a (q ++ FR a c l :: p))%nat.
      { clear. induction q as [|[? ? ?|? ? ?] q IH]; simpl; [rewrite ind_eq; lia|lia|lia]. }
      lia.
    - simpl in Hql. tauto. }
  intros st1 F1 C1 Hs1.
  assert (Hpar' : (if ptr_eqb (ppar P) (Some a) return ptr then Some s else ppar P) = ppar (q ++ FR s c l :: p)).
  { unfold P. destruct q as [|[b d s0|b d s0] q]; cbn [app ppar].
    - rewrite ptr_eqb_refl. reflexivity.
    - rewrite ptr_eqb_false; [reflexivity|]. intros [= ->].
      destruct FP as (_ & _ & N). unfold P in N. specialize (N a). simpl in N. rewrite ind_eq in N.
      assert (1 <= occp a (q ++ FR a c l :: p))%nat.
      { clear. induction q as [|[? ? ?|? ? ?] q IH]; simpl; [rewrite ind_eq; lia|lia|lia]. }
      lia.
    - simpl in Hql. tauto. }
  cbv zeta. rewrite Hpar'.
  assert (F1' : focus st1 p (T a c l (plug q r'))).
  { unfold P in F1. apply focus_app in F1. fsw F1. }
  assert (Hocc : (occ s (T a c l (plug q r')) + occp s p = 0)%nat).
  { assert (Hpl : forall q t x, (occ x (plug q t) = occ x t + occp x q)%nat).
    { clear. induction q as [|[? ? ?|? ? ?] q IH]; intros t x; simpl; [lia| |]; rewrite IH; simpl; lia. }
    assert (Hpa : forall q x, (occp x (q ++ FR a c l :: p) = occp x q + (ind x a + occ x l + occp x p))%nat).
    { clear. induction q as [|[? ? ?|? ? ?] q IH]; intros x; simpl; [lia| |]; rewrite IH; lia. }
    destruct FP as (_ & _ & N). specialize (N s). unfold P in N. rewrite Hpa in N. simpl in N. rewrite ind_eq in N.
    simpl. rewrite Hpl. lia. }
  (* regroup the substitution statements *)
  assert (HS : runs ((on <- ld (Some a) ;;
        modify (Some s) (fun _ => mkN (n_par on) (n_red on) (n_left on) (n_right on)) ;;;
        replace_child_l (n_par on) (Some a) (Some s) ;;;
        on1 <- ld (Some a) ;;
        set_parent (n_left on1) (Some s) ;;;
        on2 <- ld (Some a) ;;
        set_parent_opt (n_right on2) (Some s)) ;;;
        (if cs then ret tt else erase_color fuel (tptr r') (ppar (q ++ FR s c l :: p))) ;;; add_count (-1))
     st1 (fun _ st' => erase_post (lctx p ++ inorder l) (inorder (T ra rc rl rr) ++ rctx p) (s_count st) st')).
  { apply runs_bind.
    eapply (runs_subst st1 p a c l (plug q r') s); [exact F1'|exact Hl|exact Hocc|congruence|].
    intros st2 F2 C2.
    assert (F2' : focus st2 (q ++ FR s c l :: p) r') by (apply focus_app; fsw F2).
    eapply runs_conseq; [eapply (erase_tail fuel st2 (q ++ FR s c l :: p) r' cs cb)|].
    - exact F2'.
    - destruct cs.
      + destruct Sc as (-> & Sc). split; auto. eapply ctx_rename; eauto.
      + destruct Sc as (cb' & n' & [(S1 & S2)|(S1 & S2 & S3)]); exists cb', n'; [left|right].
        * split; auto. eapply ctx_rename; eauto.
        * split; auto. split; auto. eapply ctx_rename; eauto.
    - rewrite app_length. simpl. lia.
    - intros _ st3 (t' & m' & H1 & H2 & H3 & H4).
      exists t', m'. repeat split; auto; try apply H1; [|congruence].
      rewrite H3, plug_app, Hq. cbn [plug]. rewrite !inorder_plug. cbn [inorder].
      rewrite !inorder_plug, (all_left_lctx _ Hql). simpl.
      repeat (rewrite <- !app_assoc; simpl). reflexivity. }
  revert HS. unfold runs, bindM.
  repeat match goal with
  | |- context [bind ?x _] => lazymatch x with bind _ _ => fail | _ => idtac end; destruct x as [[? ?]| |]; cbn [bind]; try tauto
  end; auto.
Qed.

Lemma focus_find st t a : focus st [] t -> In a (inorder t) ->
  exists p c l r, t = plug p (T a c l r) /\ focus st p (T a c l r).
Proof.
  intros F H.
  assert (exists p c l r, t = plug p (T a c l r)) as (p & c & l & r & ->).
  { clear F. induction t as [|b d t1 IH1 t2 IH2]; simpl in H; [tauto|].
    apply in_app_iff in H. destruct H as [H|[->|H]].
    - destruct (IH1 H) as (p & c & l & r & ->). exists (p ++ [FL b d t2]), c, l, r. rewrite plug_app. auto.
    - exists [], d, t1, t2. auto.
    - destruct (IH2 H) as (p & c & l & r & ->). exists (p ++ [FR b d t1]), c, l, r. rewrite plug_app. auto. }
  exists p, c, l, r. split; auto. apply (proj2 (focus_plug _ _ _)). exact F.
Qed.

Lemma occ_count x t : occ x t = count_occ Nat.eq_dec (inorder t) x.
Proof.
  induction t as [|a c l IHl r IHr]; simpl; auto.
  rewrite count_occ_app. simpl. unfold ind. destruct (Nat.eqb_spec x a) as [->|].
  - destruct (Nat.eq_dec a a); [lia|congruence].
  - destruct (Nat.eq_dec a x); [congruence|lia].
Qed.
Lemma focus_nodup st t : focus st [] t -> NoDup (inorder t).
Proof.
  intros (_ & _ & N). apply (NoDup_count_occ Nat.eq_dec). intros x. rewrite <- occ_count.
  specialize (N x). simpl in N. lia.
Qed.

Lemma nodup_split {A} (x : A) L R L' R' :
  NoDup (L ++ x :: R) -> L ++ x :: R = L' ++ x :: R' -> L = L' /\ R = R'.
Proof.
  revert L'. induction L as [|y L IH]; intros [|y' L'] N H; simpl in *.
  - inversion H. auto.
  - inversion H; subst. inversion N; subst. exfalso. apply H2. apply in_app_iff. right. left. auto.
  - inversion H; subst. inversion N; subst. exfalso. apply H2. apply in_app_iff. right. left. auto.
  - inversion H; subst. inversion N; subst. destruct (IH L' H4 H2) as [-> ->]. auto.
Qed.

Lemma rb_erase_ok fuel st t m a L R :
  focus st [] t -> rb t false m -> inorder t = L ++ a :: R -> (height t + 2 <= fuel)%nat ->
  runs (rb_erase fuel (Some a)) st (fun _ st' => erase_post L R (s_count st) st').
Proof.
  intros F Hrb Hin Hf.
  destruct (focus_find st t a F) as (p & c & l & r & -> & Fp).
  { rewrite Hin. apply in_app_iff. right. left. auto. }
  assert (Hh := height_plug p (T a c l r)). simpl in Hh.
  assert (NN := focus_nodup _ _ F).
  assert (L = lctx p ++ inorder l /\ R = inorder r ++ rctx p) as [-> ->].
  { apply (nodup_split a). - rewrite <- Hin. auto.
    - rewrite <- Hin, inorder_plug. simpl. rewrite <- !app_assoc. reflexivity. }
  unfold rb_erase. apply runs_bind. eapply runs_ld_here; [exact Fp|]. cbn [n_left n_right].
  destruct l as [|la lc ll lr].
  - eapply (erase_simple_ok fuel st p a c E r m r); eauto. lia.
  - destruct r as [|ra rc rl rr].
    + cbn [tptr]. eapply (erase_simple_ok fuel st p a c _ E m (T la lc ll lr)); eauto. lia.
    + cbn [tptr]. eapply erase_two_ok; eauto; try discriminate. simpl in Hh |- *. lia.
Qed.
