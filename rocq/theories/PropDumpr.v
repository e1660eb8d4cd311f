(** * C78: the text of aosl_memdump_r. *)
From Verif Require Import Base Rtstr Dumpr.

(** ** What is meant *)
(** The entries that are shown. *)
Fixpoint shown (es : list (option (list Z))) : list (list Z) := match es with [] => [] | Some t :: r => t :: shown r | None :: r => shown r end.
(** The entries from the first on that fit, one after another and with a NUL, into [len] bytes. *)
Fixpoint fit (ts : list (list Z)) (len : Z) : list (list Z) :=
  match ts with [] => [] | t :: r => if Z.of_nat (length t) <? len then t :: fit r (len - Z.of_nat (length t)) else [] end.
(** An entry's text: no NUL, a comma and a newline at the end. *)
Definition entry (t : list Z) : Prop := exists b, t = b ++ [44; 10] /\ ~ In 0 b.

(** ** Proofs *)
Lemma put_at m P R o t : bytes m = P ++ R -> o = Z.of_nat (length P) -> bytes (put m o t) = P ++ t ++ skipn (length t) R.
Proof.
  intros E ->. unfold put. cbn [bytes]. rewrite Nat2Z.id, E, firstn_app, firstn_all, Nat.sub_diag. cbn [firstn]. rewrite app_nil_r. f_equal. f_equal.
  rewrite skipn_app. rewrite skipn_all2 by lia. cbn [app]. f_equal. lia.
Qed.
Lemma far_put m o t : far (put m o t) = Z.max (far m) (o + Z.of_nat (length t)).
Proof. reflexivity. Qed.
Lemma snprintf_at m P R o len t : bytes m = P ++ R -> o = Z.of_nat (length P) -> 1 <= len -> len <= Z.of_nat (length R) ->
  exists R', bytes (snprintf m o len t) = P ++ firstn (Z.to_nat (len - 1)) t ++ R' /\ length (firstn (Z.to_nat (len - 1)) t ++ R') = length R /\ far (snprintf m o len t) <= Z.max (far m) (o + len).
Proof.
  intros E O L1 L2. unfold snprintf. destruct (Z.eqb_spec len 0); [lia|]. rewrite (put_at m P R o _ E O). rewrite <- app_assoc. eexists. split; [reflexivity|].
  assert (LF : (length (firstn (Z.to_nat (len - 1)) t) <= Z.to_nat (len - 1))%nat) by (rewrite firstn_length; lia).
  split; [rewrite !app_length, skipn_length; cbn [length]; lia|]. rewrite far_put, app_length. cbn [length]. lia.
Qed.
Lemma walk_at es : forall m P R o len k, bytes m = P ++ R -> o = Z.of_nat (length P) -> 1 <= len -> len <= Z.of_nat (length R) -> (forall t, In t (shown es) -> t <> []) ->
  let f := fit (shown es) len in
  exists m' R', walk es m o len k = (m', o + Z.of_nat (length (concat f)), len - Z.of_nat (length (concat f)), k + Z.of_nat (length f)) /\
    bytes m' = P ++ concat f ++ R' /\ length (concat f ++ R') = length R /\ Z.of_nat (length (concat f)) < len /\ far m <= far m' <= Z.max (far m) (o + len) /\
    (f = [] -> (shown es = [] -> m' = m) /\ (shown es <> [] -> exists R2, R' = 0 :: R2)).
Proof.
  induction es as [|[t|] es IH]; intros m P R o len k E O L1 L2 NE; cbn [shown] in *.
  - cbn. exists m, R. split; [f_equal; [f_equal; [f_equal; lia|lia]|lia]|]. split; [exact E|]. split; [reflexivity|]. split; [lia|]. split; [lia|]. intros _. split; [reflexivity|congruence].
  - cbn [walk fit]. destruct (Z.ltb_spec len 1); [lia|]. assert (NT : t <> []) by (apply NE; left; reflexivity). assert (LT : (1 <= length t)%nat) by (destruct t; [congruence|cbn; lia]).
    destruct (snprintf_at m P R o len t E O L1 L2) as (R1 & E1 & N1 & F1).
    destruct (Z.ltb_spec (Z.of_nat (length t)) len) as [FT|FT].
    + destruct (Z.geb_spec (Z.of_nat (length t)) len); [lia|]. destruct (Z.leb_spec (Z.of_nat (length t)) 0); [lia|]. cbn [orb].
      rewrite firstn_all2 in E1, N1 by lia. rewrite app_length in N1. rewrite app_assoc in E1.
      destruct (IH (snprintf m o len t) (P ++ t) R1 (o + Z.of_nat (length t)) (len - Z.of_nat (length t)) (k + 1) E1) as (m' & R' & W & B & N & LL & F & X).
      * rewrite app_length. lia.
      * lia.
      * lia.
      * intros x HX. apply NE. right. exact HX.
      * exists m', R'. cbn [concat length]. rewrite app_length. split; [rewrite W; f_equal; [f_equal; [f_equal; lia|lia]|lia]|]. split; [rewrite B, <- !app_assoc; reflexivity|].
        split; [rewrite <- app_assoc, app_length, N; lia|]. split; [lia|]. split; [|discriminate].
        assert (FM : far m <= far (snprintf m o len t)) by (unfold snprintf; destruct (len =? 0); [lia|]; rewrite far_put; lia). lia.
    + destruct (Z.geb_spec (Z.of_nat (length t)) len); [|lia]. cbn [orb concat length]. exists (put (snprintf m o len t) o [0]). eexists. split; [cbn; f_equal; [f_equal; [f_equal; lia|lia]|lia]|].
      split; [rewrite (put_at _ P _ o [0] E1 O); cbn [app length]; reflexivity|]. cbn [app].
      split; [cbn [length]; rewrite skipn_length, N1; lia|]. split; [cbn; lia|].
      split; [|intros _; split; [discriminate|intros _; eexists; reflexivity]]. rewrite far_put. cbn [length].
      assert (FM : far m <= far (snprintf m o len t)) by (unfold snprintf; destruct (len =? 0); [lia|]; rewrite far_put; lia). lia.
  - cbn [walk]. destruct (Z.ltb_spec len 1); [lia|]. apply IH; auto.
Qed.
Lemma fit_in ts : forall len t, In t (fit ts len) -> In t ts.
Proof. induction ts as [|x ts IH]; intros len t; cbn [fit]; [intros []|]. destruct (Z.of_nat (length x) <? len); [|intros []]. intros [H|H]; [left; exact H|right; eapply IH, H]. Qed.
Lemma last_entry f : f <> [] -> (forall t, In t f -> entry t) -> exists b, concat f = b ++ [44; 10] /\ ~ In 0 b.
Proof.
  induction f as [|t f IH]; [congruence|]. intros _ H. destruct (H t (or_introl eq_refl)) as (b & -> & NB). destruct f as [|u f].
  - exists b. cbn. rewrite app_nil_r. auto.
  - destruct IH as (c & E & NC); [discriminate|intros x X; apply H; right; exact X|]. exists (b ++ [44; 10] ++ c). cbn [concat] in *. rewrite E, <- !app_assoc. split; [reflexivity|]. rewrite !in_app_iff. cbn. intuition lia.
Qed.
Lemma cstr_app b r : ~ In 0 b -> cstr (b ++ 0 :: r) = b.
Proof. induction b as [|c b IH]; cbn; [reflexivity|]. intros H. destruct (Z.eqb_spec c 0); [intuition|]. rewrite IH; tauto. Qed.

(** ** The text *)
(** With at least one entry that fits: the entries that fit, in order, without the last comma and newline; cnts are the number of all entries and of those written; nothing outside the buffer is written. *)
Theorem C78_text : forall es m len, 0 < len -> len <= Z.of_nat (length (bytes m)) -> far m = 0 -> (forall t, In t (shown es) -> entry t) -> fit (shown es) len <> [] ->
  exists m', memdump_r true es m len = (0, (Z.of_nat (length es), Z.of_nat (length (fit (shown es) len))), m') /\
    concat (fit (shown es) len) = cstr (bytes m') ++ [44; 10] /\ far m' <= len /\ length (bytes m') = length (bytes m).
Proof.
  intros es m len L1 L2 F0 EN NF. destruct (walk_at es m [] (bytes m) 0 len 0 eq_refl eq_refl ltac:(lia) L2) as (m' & R' & W & B & N & LL & F & _).
  { intros t H. destruct (EN t H) as (b & -> & _). destruct b; discriminate. }
  destruct (last_entry _ NF (fun t H => EN t (fit_in _ _ _ H))) as (b & CB & NB). cbn zeta in W. unfold memdump_r. cbn [negb]. destruct (Z.leb_spec len 0); [lia|]. rewrite W. rewrite CB in *. rewrite !app_length in *. cbn [length app] in *.
  destruct (Z.ltb_spec (len - Z.of_nat (length b + 2)) len); [|lia].
  replace (len - (len - Z.of_nat (length b + 2)) - 1 - 1) with (Z.of_nat (length b)) by lia.
  rewrite <- app_assoc in B. cbn [app] in B.
  assert (BY : byte m' (Z.of_nat (length b)) = 44) by (unfold byte; rewrite Nat2Z.id, B, app_nth2 by lia; rewrite Nat.sub_diag; reflexivity). rewrite BY. cbn [Z.eqb Pos.eqb].
  assert (B1 : bytes (put m' (Z.of_nat (length b)) [0]) = (b ++ [0]) ++ 10 :: R').
  { rewrite (put_at m' b (44 :: 10 :: R') _ [0] B eq_refl). cbn [length skipn app]. rewrite <- app_assoc. reflexivity. }
  assert (B2 : bytes (put (put m' (Z.of_nat (length b)) [0]) (Z.of_nat (length b) + 1) [0]) = b ++ 0 :: 0 :: R').
  { rewrite (put_at _ (b ++ [0]) (10 :: R') _ [0] B1) by (rewrite app_length; cbn; lia). cbn [length skipn app]. rewrite <- app_assoc. reflexivity. }
  eexists. split; [reflexivity|]. split; [|split].
  - rewrite B2, cstr_app by exact NB. reflexivity.
  - rewrite !far_put. cbn [length]. lia.
  - rewrite B2. rewrite app_length. cbn [length]. lia.
Qed.
Print Assumptions C78_text.
(** If entries are to be shown but the first does not fit, the text is empty; if the buffer has two bytes or more nothing outside it is written. *)
Theorem C78_short_partial : forall es m len, 1 < len -> len <= Z.of_nat (length (bytes m)) -> far m = 0 -> (forall t, In t (shown es) -> entry t) -> shown es <> [] -> fit (shown es) len = [] ->
  exists m', memdump_r true es m len = (0, (Z.of_nat (length es), 0), m') /\ cstr (bytes m') = [] /\ far m' <= len.
Proof.
  intros es m len L1 L2 F0 EN NS NF. destruct (walk_at es m [] (bytes m) 0 len 0 eq_refl eq_refl ltac:(lia) L2) as (m' & R' & W & B & N & LL & F & X).
  { intros t H. destruct (EN t H) as (b & -> & _). destruct b; discriminate. }
  cbn zeta in *. rewrite NF in *. cbn [concat length app] in *. destruct (X eq_refl) as [_ X2]. destruct (X2 NS) as (R2 & ->). unfold memdump_r. cbn [negb]. destruct (Z.leb_spec len 0); [lia|]. rewrite W.
  destruct (Z.ltb_spec (len - Z.of_nat 0) len); [lia|]. eexists. split; [reflexivity|]. split.
  - rewrite (put_at m' [0] R2 (0 + 1) [0] B eq_refl). reflexivity.
  - rewrite far_put. cbn [length]. lia.
Qed.
Print Assumptions C78_short_partial.
(** Switched off, or without a buffer, it returns -1 and writes nothing. *)
Theorem C78_refused : forall on es m len, on = false \/ len <= 0 -> memdump_r on es m len = (-1, (0, 0), m).
Proof. intros on es m len [-> |H]; [reflexivity|]. unfold memdump_r. destruct on; [|reflexivity]. cbn. destruct (Z.leb_spec len 0); [reflexivity|lia]. Qed.
Print Assumptions C78_refused.

(** Nothing outside a buffer of any length but one byte is written, whatever the entries, shown or not. *)
Theorem C78_inside_partial : forall on es m len, len <> 1 -> len <= Z.of_nat (length (bytes m)) -> far m = 0 -> (forall t, In t (shown es) -> entry t) ->
  far (snd (memdump_r on es m len)) <= Z.max 0 len.
Proof.
  intros on es m len L1 L2 F0 EN. destruct on; [|rewrite C78_refused by (left; reflexivity); cbn [snd]; lia]. destruct (Z.leb_spec len 0) as [L0|L0]; [rewrite C78_refused by (right; exact L0); cbn [snd]; lia|].
  destruct (fit (shown es) len) as [|t f] eqn:FT.
  - destruct (walk_at es m [] (bytes m) 0 len 0 eq_refl eq_refl ltac:(lia) L2) as (m' & R' & W & B & N & LL & F & X).
    { intros t H. destruct (EN t H) as (b & -> & _). destruct b; discriminate. }
    cbn zeta in *. rewrite FT in *. cbn [concat length app] in *. unfold memdump_r. cbn [negb]. destruct (Z.leb_spec len 0); [lia|]. rewrite W. destruct (Z.ltb_spec (len - Z.of_nat 0) len); [lia|]. cbn [snd]. rewrite far_put. cbn [length]. lia.
  - destruct (C78_text es m len L0 L2 F0 EN) as (m' & E & _ & F & _); [rewrite FT; discriminate|]. rewrite E. cbn [snd]. lia.
Qed.
Print Assumptions C78_inside_partial.

(** ** What is wrong *)
(** A buffer of one byte is always overrun by one. *)
Theorem C78_bounds_refuted : forall es m, (1 <= length (bytes m))%nat -> far m = 0 -> (forall t, In t (shown es) -> entry t) -> exists c m', memdump_r true es m 1 = (0, c, m') /\ far m' = 2.
Proof.
  intros es m L F0 EN. destruct (walk_at es m [] (bytes m) 0 1 0 eq_refl eq_refl ltac:(lia) ltac:(lia)) as (m' & R' & W & B & N & LL & F & X).
  { intros t H. destruct (EN t H) as (b & -> & _). destruct b; discriminate. }
  cbn zeta in *. unfold memdump_r. cbn [negb Z.leb Z.compare]. rewrite W. replace (Z.of_nat (length (concat (fit (shown es) 1)))) with 0 by lia. cbn [Z.sub Z.ltb Z.compare]. eexists. eexists. split; [reflexivity|]. rewrite far_put. cbn [length]. lia.
Qed.
Print Assumptions C78_bounds_refuted.
(** With no entry to show the first byte of the buffer is left as it was: the text is whatever character was there. *)
Theorem C78_none_refuted : forall es m c r len, 1 < len -> len <= Z.of_nat (length (bytes m)) -> bytes m = c :: r -> shown es = [] -> c <> 0 ->
  exists n m', memdump_r true es m len = (0, n, m') /\ cstr (bytes m') = [c].
Proof.
  intros es m c r len L1 L2 E NS NC. destruct (walk_at es m [] (bytes m) 0 len 0 eq_refl eq_refl ltac:(lia) L2) as (m' & R' & W & B & N & LL & F & X).
  { rewrite NS. intros t []. }
  cbn zeta in *. rewrite NS in *. cbn [fit concat length app] in *. destruct (X eq_refl) as [X1 _]. rewrite (X1 eq_refl) in *. unfold memdump_r. cbn [negb]. destruct (Z.leb_spec len 0); [lia|]. rewrite W.
  destruct (Z.ltb_spec (len - Z.of_nat 0) len); [lia|]. eexists. eexists. split; [reflexivity|].
  rewrite (put_at m [c] r (0 + 1) [0] E eq_refl). cbn. destruct (Z.eqb_spec c 0); [contradiction|reflexivity].
Qed.
Print Assumptions C78_none_refuted.

(** ** Cases *)
Definition e1 : list Z := [34; 97; 34; 44; 10].
Definition e2 : list Z := [34; 98; 98; 34; 44; 10].
Example example_entries : forall t, In t (shown [Some e1; None; Some e2]) -> entry t.
Proof. intros t [<-|[<-|[]]]; [exists [34; 97; 34]|exists [34; 98; 98; 34]]; (split; [reflexivity|cbn; intuition lia]). Qed.
(** Twelve bytes hold both, eleven only the first, five none. *)
Example example_run : let m := M (repeat 120 14) 0 in
  memdump_r true [Some e1; None; Some e2] m 12 = (0, (3, 2), M [34; 97; 34; 44; 10; 34; 98; 98; 34; 0; 0; 0; 120; 120] 12) /\
  memdump_r true [Some e1; None; Some e2] m 11 = (0, (3, 1), M [34; 97; 34; 0; 0; 0; 98; 98; 34; 44; 0; 120; 120; 120] 11) /\
  memdump_r true [Some e1; None; Some e2] m 5 = (0, (3, 0), M [0; 0; 34; 44; 0; 120; 120; 120; 120; 120; 120; 120; 120; 120] 5) /\
  memdump_r true [] m 14 = (0, (0, 0), M [120; 0; 120; 120; 120; 120; 120; 120; 120; 120; 120; 120; 120; 120] 2).
Proof. vm_compute. auto. Qed.
