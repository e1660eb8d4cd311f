(** * C37: IP addresses as text *)
From Verif Require Import Base ArithProof Inet InetSpec InetProof Inet6Proof InetPrint.
Ltac Zify.zify_post_hook ::= Z.div_mod_to_equations.

Definition wbytes (ws : list Z) : list Z := flat_map (fun w => [w / 256; w mod 256]) ws.
Lemma wbytes_app a b : wbytes (a ++ b) = wbytes a ++ wbytes b. Proof. apply flat_map_app. Qed.
Lemma wbytes_len ws : length (wbytes ws) = (2 * length ws)%nat. Proof. induction ws as [|w ws IH]; [reflexivity|]. change (length (wbytes (w :: ws))) with (S (S (length (wbytes ws)))). rewrite IH. cbn [length]. lia. Qed.
Lemma wbytes_zero n : wbytes (repeat 0 n) = repeat 0 (2 * n). Proof. induction n as [|n IH]; [reflexivity|]. replace (2 * S n)%nat with (S (S (2 * n))) by lia. cbn [repeat]. rewrite <- IH. reflexivity. Qed.
Lemma wbytes_words n : forall a, length a = (2 * n)%nat -> bytes a -> wbytes (words a) = a.
Proof.
  induction n as [|n IH]; intros a L B; [destruct a; [reflexivity|discriminate]|]. destruct a as [|x [|y r]]; try (cbn in L; lia). inversion B as [|? ? Bx B1]; subst. inversion B1 as [|? ? By B2]; subst.
  cbn [words]. change (wbytes (256 * x + y :: words r)) with ((256 * x + y) / 256 :: (256 * x + y) mod 256 :: wbytes (words r)). rewrite IH; [|cbn in L; lia|exact B2]. f_equal; [lia|f_equal; lia].
Qed.
Lemma joined_groups t ws : joined t ws -> ws <> [] -> groups t (wbytes ws) /\ fronts (t ++ [colon]) (wbytes ws).
Proof.
  induction 1 as [|t w H|t w s l H J IH NE]; intros N; [congruence| |].
  - split; [apply G_last, low_group, H|]. apply (F_cons t w [] []); [apply low_group, H|constructor].
  - destruct (IH NE) as [G F]. split; [apply G_cons; [apply low_group, H|exact G]|]. rewrite <- app_assoc. apply (F_cons t w (s ++ [58]) (wbytes l)); [apply low_group, H|exact F].
Qed.
Lemma joined_tail t ws : joined t ws -> t = [] /\ wbytes ws = [] \/ groups t (wbytes ws).
Proof. intros J. destruct ws as [|w l]; [left; inversion J; auto|right; apply (joined_groups t (w :: l) J); discriminate]. Qed.
Lemma tail0_groups t m : tail0 t m -> t = [] /\ wbytes m = [] \/ groups t (wbytes m).
Proof.
  intros [t0 x y Q|g t0 x y H Q|t0 m0 _ _ J]; [right; apply G_quad, Q| |apply joined_tail, J].
  right. apply (G_cons g 65535 t0 (wbytes [x; y])); [apply low_group, H|]. apply G_quad, Q.
Qed.
Lemma canon_text t ws : length ws = 8%nat -> canon6 t ws -> text6 t (wbytes ws).
Proof.
  intros L K. destruct K as [t ws J _|f l n r m J T N2 _].
  - apply T_full; [apply joined_groups; [exact J|intros ->; discriminate]|rewrite wbytes_len; lia].
  - assert (LEN : (length l + n + length m = 8)%nat) by (rewrite !app_length, repeat_length in L; lia). assert (T' : r = [] /\ wbytes m = [] \/ groups r (wbytes m)) by (destruct l; [apply tail0_groups, T|apply joined_tail, T]).
    rewrite !wbytes_app, wbytes_zero. replace (2 * n)%nat with (16 - length (wbytes l) - length (wbytes m))%nat by (rewrite !wbytes_len; lia). destruct l as [|w l].
    + inversion J; subst. apply (T_gap [] [] r (wbytes m)); [constructor|exact T'|cbn [length]; rewrite wbytes_len; cbn [length] in *; lia].
    + destruct (joined_groups f (w :: l) J ltac:(discriminate)) as [_ F]. pose proof (T_gap (f ++ [58]) (wbytes (w :: l)) r (wbytes m) F T') as TT. destruct (f ++ [58]) as [|x y] eqn:E; [destruct f; discriminate|]. rewrite <- E in TT. rewrite <- !app_assoc in TT. apply TT. rewrite !wbytes_len. lia.
Qed.
Lemma no_colon t n : octet t n -> ~ In colon t.
Proof. intros (ds & F & _) I. clear - F I. induction F as [|c d t ds [H ->] F IH]; [exact I|]. destruct I as [I|I]; [lia|auto]. Qed.
Lemma text4_no_colon t a : text4 t a -> ~ In colon t.
Proof. intros [O _]. induction O as [t n H|t n s l H O IH]; [apply (no_colon t n H)|]. intros I. apply in_app_or in I as [I|[I|I]]; [apply (no_colon t n H I)|discriminate|auto]. Qed.
Lemma text6_colon t a : text6 t a -> In colon t.
Proof.
  intros [s b G L|f l r m F T LL]; [|apply in_or_app; left; destruct f; [left; reflexivity|apply in_or_app; right; left; reflexivity]].
  destruct G as [t1 w H|t1 b [_ H]|t1 w s l H G]; [discriminate|lia|apply in_or_app; right; left; reflexivity].
Qed.
Lemma has_colon_iff s : has_colon s = true <-> In colon s.
Proof. unfold has_colon. rewrite existsb_exists. split; [intros (x & I & E); apply Z.eqb_eq in E; subst; exact I|intros I; exists 58; split; [exact I|reflexivity]]. Qed.

(** The parser accepts exactly the texts of the addresses, gives that address and its size, and refuses everything else; whatever the uninitialised bytes of its local array are, and never outside its arrays. *)
Theorem C37_from_string garb s : (3 <= length garb)%nat -> exists o, addr_from_string garb s = Ok o /\ forall n a, o = Some (n, a) <-> (n = 4 /\ text4 s a \/ n = 16 /\ text6 s a).
Proof.
  intros G. unfold addr_from_string. destruct (has_colon s) eqn:HC.
  - destruct (pton6_total garb s G) as [o E]. rewrite E. cbn [bind]. exists (option_map (fun a => (16, a)) o). split; [reflexivity|]. intros n a. split.
    + destruct o as [b|]; [|discriminate]. intros [= <- <-]. right. split; [reflexivity|]. apply (pton6_sound garb s b G E).
    + intros [[-> T]|[-> T]]; [exfalso; apply (text4_no_colon s a T), has_colon_iff, HC|]. pose proof (pton6_complete garb s a G T) as E'. rewrite E in E'. injection E' as ->. reflexivity.
  - destruct (pton4_total garb s G) as [o E]. rewrite E. cbn [bind]. exists (option_map (fun a => (4, a)) o). split; [reflexivity|]. intros n a. split.
    + destruct o as [b|]; [|discriminate]. intros [= <- <-]. left. split; [reflexivity|]. apply (pton4_iff garb s b G), E.
    + intros [[-> T]|[-> T]]; [|exfalso; apply text6_colon, has_colon_iff in T; congruence]. apply (pton4_iff garb s a G) in T. rewrite E in T. injection T as ->. reflexivity.
Qed.

(** A text means one address. *)
Theorem C37_unambiguous s a b : (text4 s a -> text4 s b -> a = b) /\ (text6 s a -> text6 s b -> a = b) /\ ~ (text4 s a /\ text6 s b).
Proof.
  assert (G : (3 <= length [0; 0; 0])%nat) by (cbn; lia). split; [|split].
  - intros A B. apply (pton4_iff [0; 0; 0] s _ G) in A, B. congruence.
  - intros A B. apply (pton6_complete [0; 0; 0] s _ G) in A, B. congruence.
  - intros [A B]. apply (text4_no_colon s a A), (text6_colon s b B).
Qed.

(** IPv4 to text: the dotted quad, in any buffer that has room for it and the NUL, and nothing otherwise; 16 bytes always suffice. *)
Theorem C37_str4 a : length a = 4%nat -> Forall (fun b => 0 <= b <= 255) a ->
  exists t, text4 t a /\ (length t <= 15)%nat /\ forall size, 0 <= size < 2 ^ 31 -> addr_str AF4 a size = Ok (if Z.of_nat (length t) + 1 <=? size then Some t else None).
Proof.
  intros L B. destruct a as [|a [|b [|c [|d [|e r]]]]]; try discriminate L. destruct (dotted_text a b c d B) as [T LT]. exists (dotted a b c d). split; [exact T|]. split; [lia|]. intros size S. unfold addr_str. change (AF4 =? AF4) with true. cbn iota. rewrite ntop4_spec by exact B.
  assert (E : s32 size = size) by (apply s32_id; lia). rewrite E. f_equal. destruct (Z.leb_spec size (Z.of_nat (length (dotted a b c d)))), (Z.leb_spec (Z.of_nat (length (dotted a b c d)) + 1) size); try lia; reflexivity.
Qed.
(** IPv6 to text: the canonical text, in any buffer that has room for it and the NUL, and nothing otherwise; 46 bytes always suffice. *)
Theorem C37_str6 a : length a = 16%nat -> Forall (fun b => 0 <= b <= 255) a ->
  exists t, canon6 t (words a) /\ text6 t a /\ (length t <= 45)%nat /\ forall size, 0 <= size < 2 ^ 31 -> addr_str AF6 a size = Ok (if Z.of_nat (length t) + 1 <=? size then Some t else None).
Proof.
  intros L B. destruct (ntop6_text a L B) as (t & K & LT & E). exists t. split; [exact K|]. split.
  { destruct (words_bytes 8 a L B) as (_ & LW & _). pose proof (canon_text t (words a) LW K) as T. rewrite (wbytes_words 8 a L B) in T. exact T. }
  split; [lia|]. intros size S. unfold addr_str. change (AF6 =? AF4) with false. change (AF6 =? AF6) with true. cbn iota. rewrite E.
  assert (E' : s32 size = size) by (apply s32_id; lia). rewrite E'. f_equal. destruct (Z.ltb_spec size (Z.of_nat (length t) + 1)), (Z.leb_spec (Z.of_nat (length t) + 1) size); try lia; reflexivity.
Qed.
(** Round trip. *)
Theorem C37_roundtrip af n a garb : (af = AF4 /\ n = 4 \/ af = AF6 /\ n = 16) -> Z.of_nat (length a) = n -> Forall (fun b => 0 <= b <= 255) a -> (3 <= length garb)%nat ->
  exists t, addr_str af a 46 = Ok (Some t) /\ addr_from_string garb t = Ok (Some (n, a)).
Proof.
  intros [[-> ->]|[-> ->]] L B G.
  - destruct (C37_str4 a ltac:(lia) B) as (t & T & LT & E). exists t. rewrite E by lia. destruct (Z.leb_spec (Z.of_nat (length t) + 1) 46); [|lia]. split; [reflexivity|]. destruct (C37_from_string garb t G) as (o & -> & H1). f_equal. apply H1. auto.
  - destruct (C37_str6 a ltac:(lia) B) as (t & K & T & LT & E). exists t. rewrite E by lia. destruct (Z.leb_spec (Z.of_nat (length t) + 1) 46); [|lia]. split; [reflexivity|]. destruct (C37_from_string garb t G) as (o & -> & H1). f_equal. apply H1. auto.
Qed.

(** A buffer length of 2^32 bytes becomes 0: nothing is written although there is room. *)
Theorem C37_huge_buffer : addr_str AF4 [127; 0; 0; 1] (2 ^ 32) = Ok None.
Proof. reflexivity. Qed.

(** Concrete cases. *)
(* "::ffff:1.2.3.4" *)
Example inet_ex1 : addr_str AF6 [0;0;0;0;0;0;0;0;0;0;255;255;1;2;3;4] 46 = Ok (Some [58;58;102;102;102;102;58;49;46;50;46;51;46;52]).
Proof. vm_compute. reflexivity. Qed.
(* "2001:db8::1", in 12 bytes but not in 11 *)
Example inet_ex2 : addr_str AF6 [32;1;13;184;0;0;0;0;0;0;0;0;0;0;0;1] 12 = Ok (Some [50;48;48;49;58;100;98;56;58;58;49]) /\ addr_str AF6 [32;1;13;184;0;0;0;0;0;0;0;0;0;0;0;1] 11 = Ok None.
Proof. vm_compute. split; reflexivity. Qed.
(* "1.2.3.04", "1.2.3", "256.1.1.1", ":::", "1::2::3" are refused *)
Example inet_ex3 : map (addr_from_string [7; 7; 7]) [[49;46;50;46;51;46;48;52]; [49;46;50;46;51]; [50;53;54;46;49;46;49;46;49]; [58;58;58]; [49;58;58;50;58;58;51]] = [Ok None; Ok None; Ok None; Ok None; Ok None].
Proof. vm_compute. reflexivity. Qed.
(* "::", "1::" *)
Example inet_ex4 : addr_from_string [7; 7; 7] [58; 58] = Ok (Some (16, repeat 0 16)) /\ addr_from_string [7; 7; 7] [49; 58; 58] = Ok (Some (16, 0 :: 1 :: repeat 0 14)).
Proof. vm_compute. split; reflexivity. Qed.

Print Assumptions C37_from_string.
Print Assumptions C37_unambiguous.
Print Assumptions C37_str4.
Print Assumptions C37_str6.
Print Assumptions C37_roundtrip.
Print Assumptions C37_huge_buffer.
