(** * What an address text means (C37), independent of the code. *)
From Verif Require Import Base.

(** ':' and '.' *)
Notation colon := 58. Notation dot := 46.
(** A decimal digit character and its value; a hexadecimal one. *)
Definition ddig (c d : Z) : Prop := 0 <= d <= 9 /\ c = 48 + d.
Definition xdig (c d : Z) : Prop := 0 <= d <= 9 /\ c = 48 + d \/ 10 <= d <= 15 /\ (c = 97 + (d - 10) \/ c = 65 + (d - 10)).
(** The number a list of digits stands for, after a prefix of value [v]. *)
Definition num (base v : Z) (ds : list Z) : Z := fold_left (fun v d => v * base + d) ds v.

(** A decimal number up to 255 without leading zeros. *)
Definition octet (t : list Z) (n : Z) : Prop := exists ds, Forall2 ddig t ds /\ ds <> [] /\ (hd 1 ds = 0 -> length ds = 1%nat) /\ num 10 0 ds = n /\ n <= 255.
(** Octets separated by dots. *)
Inductive octets : list Z -> list Z -> Prop :=
| O_last t n : octet t n -> octets t [n]
| O_cons t n s l : octet t n -> octets s l -> octets (t ++ dot :: s) (n :: l).
(** [s] is the text of the IPv4 address [a]. *)
Definition text4 (s a : list Z) : Prop := octets s a /\ length a = 4%nat.

(** One to four hexadecimal digits. *)
Definition group (t : list Z) (w : Z) : Prop := exists ds, Forall2 xdig t ds /\ (1 <= length ds <= 4)%nat /\ w = num 16 0 ds.
(** Groups separated by colons, two bytes each; the last two groups may be written as a dotted quad. *)
Inductive groups : list Z -> list Z -> Prop :=
| G_last t w : group t w -> groups t [w / 256; w mod 256]
| G_quad t a : text4 t a -> groups t a
| G_cons t w s l : group t w -> groups s l -> groups (t ++ colon :: s) (w / 256 :: w mod 256 :: l).
(** Groups each followed by a colon. *)
Inductive fronts : list Z -> list Z -> Prop :=
| F_nil : fronts [] []
| F_cons t w s l : group t w -> fronts s l -> fronts (t ++ colon :: s) (w / 256 :: w mod 256 :: l).
(** [s] is a text of the IPv6 address [a]: eight groups, or fewer with one double colon in place of one or more zero groups. *)
Inductive text6 : list Z -> list Z -> Prop :=
| T_full s a : groups s a -> length a = 16%nat -> text6 s a
| T_gap f l r m : fronts f l -> (r = [] /\ m = [] \/ groups r m) -> (length l + length m <= 14)%nat ->
    text6 ((if f then [colon; colon] else f ++ [colon]) ++ r) (l ++ repeat 0 (16 - length l - length m) ++ m).

(** The canonical text (RFC 5952 with the dotted quad of RFC 4291 2.5.5 for ::a.b.c.d and ::ffff:a.b.c.d).  Lower case, no leading zeros: *)
Definition lowchar (d : Z) : Z := if d <? 10 then 48 + d else 87 + d.
Definition lowhex (t : list Z) (w : Z) : Prop := exists ds, t = map lowchar ds /\ Forall (fun d => 0 <= d <= 15) ds /\ (1 <= length ds <= 4)%nat /\ (hd 1 ds = 0 -> length ds = 1%nat) /\ num 16 0 ds = w.
Inductive joined : list Z -> list Z -> Prop :=
| J_nil : joined [] []
| J_one t w : lowhex t w -> joined t [w]
| J_cons t w s l : lowhex t w -> joined s l -> l <> [] -> joined (t ++ colon :: s) (w :: l).
(** The two words as a dotted quad. *)
Definition quad (t : list Z) (x y : Z) : Prop := text4 t [x / 256; x mod 256; y / 256; y mod 256].
(** After the double colon of a text whose run of zeros starts at the first word. *)
Inductive tail0 : list Z -> list Z -> Prop :=
| Q_2 t x y : quad t x y -> tail0 t [x; y]
| Q_3 g t x y : lowhex g 65535 -> quad t x y -> tail0 (g ++ colon :: t) [65535; x; y]
| Q_no t m : length m <> 2%nat -> (forall x y, m <> [65535; x; y]) -> joined t m -> tail0 t m.
(** [t] is the canonical text of the eight words [ws]. *)
Inductive canon6 : list Z -> list Z -> Prop :=
| K_full t ws : joined t ws -> (forall p k q, ws = p ++ repeat 0 k ++ q -> (k <= 1)%nat) -> canon6 t ws
| K_gap f l n r m : joined f l -> (if l then tail0 r m else joined r m) -> (2 <= n)%nat ->
    (forall p k q, l ++ repeat 0 n ++ m = p ++ repeat 0 k ++ q -> (k <= n)%nat /\ ((length p < length l)%nat -> (k < n)%nat)) ->
    canon6 (f ++ colon :: colon :: r) (l ++ repeat 0 n ++ m).
(** The words of an address, high byte first. *)
Fixpoint words (a : list Z) : list Z := match a with x :: y :: r => (256 * x + y) :: words r | _ => [] end.
