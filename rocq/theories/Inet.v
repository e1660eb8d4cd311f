(** * Model of the address text conversion: net/inet.c, and of the users in net/sk_utils.c 1138-1286.

    A text is the list of its character codes, without the final NUL.  The output buffers of the
    printers ([tmp], 27 and 39) are lists with their capacity checked at every append; the arrays
    of the parsers are lists of fixed length; access outside is undefined behaviour. *)
From Verif Require Import Base.

Definition text := list Z.
Definition COLON : Z := 58.
Definition DOT : Z := 46.

(** The digits of printf's %u and %x: d in base 10 or 16. *)
Definition digit (d : Z) : Z := if d <? 10 then 48 + d else 97 + (d - 10).
Fixpoint pr (base : Z) (fuel : nat) (n : Z) (acc : text) : text :=
  match fuel with
  | O => acc
  | S k => if n <? base then digit n :: acc else pr base k (n / base) (digit (n mod base) :: acc)
  end.
(** "%u" and "%x" of a 32 bit unsigned. *)
Definition dec (n : Z) : text := pr 10 10 n [].
Definition hex (n : Z) : text := pr 16 8 n [].

(** *tp++ = c and sprintf (tp, ...) into a buffer of [cap] bytes; sprintf also writes the NUL. *)
Definition put (cap : Z) (buf t : text) : outcome text :=
  if Z.of_nat (length buf + length t) <=? cap then Ok (buf ++ t) else UB.
Definition sput (cap : Z) (buf t : text) : outcome text :=
  if Z.of_nat (length buf + length t) + 1 <=? cap then Ok (buf ++ t) else UB.

Definition byte (src : list Z) (i : nat) : outcome Z := match nth_error src i with Some b => Ok b | None => UB end.

(** inet_ntop4: 25-35.  None: NULL and errno ENOSPC. *)
Definition ntop4 (src : list Z) (size : Z) : outcome (option text) :=
  let* a := byte src 0 in let* b := byte src 1 in let* c := byte src 2 in let* d := byte src 3 in
  let* t := sput 16 [] (dec a ++ DOT :: dec b ++ DOT :: dec c ++ DOT :: dec d) in
  if size <=? Z.of_nat (length t) then Ok None else Ok (Some t).

(** words [i / 2] = (src [i] << 8) | src [i + 1]: 44-46. *)
Fixpoint words_of (src : list Z) : list Z :=
  match src with a :: b :: r => Z.lor (Z.shiftl a 8) b :: words_of r | _ => [] end.

(** The search for the longest run of zero words: 47-70.  (base, len); base -1: none. *)
Definition best_step (st : (Z * Z) * (Z * Z)) (i : Z) (zero : bool) : (Z * Z) * (Z * Z) :=
  let '((bb, bl), (cb, cl)) := st in
  if zero then ((bb, bl), (if cb =? -1 then (i, 1) else (cb, cl + 1)))
  else if negb (cb =? -1) then ((if (bb =? -1) || (bl <? cl) then (cb, cl) else (bb, bl)), (-1, cl)) else st.
Fixpoint best_loop (st : (Z * Z) * (Z * Z)) (i : Z) (zs : list bool) : (Z * Z) * (Z * Z) :=
  match zs with [] => st | z :: r => best_loop (best_step st i z) (i + 1) r end.
Definition best_run (ws : list Z) : Z * Z :=
  let '((bb, bl), (cb, cl)) := best_loop ((-1, 0), (-1, 0)) 0 (map (Z.eqb 0) ws) in
  let '(bb, bl) := if negb (cb =? -1) then (if (bb =? -1) || (bl <? cl) then (cb, cl) else (bb, bl)) else (bb, bl) in
  if negb (bb =? -1) && (bl <? 2) then (-1, bl) else (bb, bl).

(** inet_ntop6, the loop 73-93; [ws]: the words from i on. *)
Fixpoint ntop6_loop (src : list Z) (w5 bb bl : Z) (i : Z) (ws : list Z) (tmp : text) : outcome (option text) :=
  match ws with
  | [] => Ok (Some tmp)
  | w :: r =>
      if negb (bb =? -1) && (bb <=? i) && (i <? bb + bl) then
        (let* tmp := (if i =? bb then put 46 tmp [COLON] else Ok tmp) in ntop6_loop src w5 bb bl (i + 1) r tmp)
      else
        let* tmp := (if negb (i =? 0) then put 46 tmp [COLON] else Ok tmp) in
        if (i =? 6) && (bb =? 0) && ((bl =? 6) || ((bl =? 5) && (w5 =? 65535))) then
          (let* o := ntop4 (skipn 12 src) (46 - Z.of_nat (length tmp)) in
           match o with None => Ok None | Some t => let* tmp := sput 46 tmp t in Ok (Some tmp) end)
        else let* tmp := sput 46 tmp (hex w) in ntop6_loop src w5 bb bl (i + 1) r tmp
  end.
(** inet_ntop6: 37-105. *)
Definition ntop6 (src : list Z) (size : Z) : outcome (option text) :=
  let ws := words_of src in
  let* w5 := byte ws 5 in
  let '(bb, bl) := best_run ws in
  let* o := ntop6_loop src w5 bb bl 0 ws [] in
  match o with
  | None => Ok None
  | Some tmp =>
      let* tmp := (if negb (bb =? -1) && (bb + bl =? 8) then put 46 tmp [COLON] else Ok tmp) in
      let* nul := put 46 tmp [0] in
      if size <? Z.of_nat (length nul) then Ok None else Ok (Some tmp)
  end.

(** inet_pton4: 131-172.  [tp]: index in tmp.  None: 0. *)
Fixpoint pton4_loop (s : text) (saw : bool) (octets : Z) (tmp : list Z) (tp : nat) : outcome (option (list Z)) :=
  match s with
  | [] => if octets <? 4 then Ok None else Ok (Some tmp)
  | ch :: r =>
      if (48 <=? ch) && (ch <=? 57) then
        let* cur := byte tmp tp in
        let new := cur * 10 + (ch - 48) in
        if saw && (cur =? 0) then Ok None
        else if 255 <? new then Ok None
        else let tmp := upd tmp tp new in
             if negb saw then (if 4 <? octets + 1 then Ok None else pton4_loop r true (octets + 1) tmp tp)
             else pton4_loop r saw octets tmp tp
      else if (ch =? DOT) && saw then
        if octets =? 4 then Ok None
        else let* _ := byte tmp (S tp) in pton4_loop r false octets (upd tmp (S tp) 0) (S tp)
      else Ok None
  end.
(** [garb]: the uninitialised bytes 1..3 of tmp. *)
Definition pton4 (garb : list Z) (s : text) : outcome (option (list Z)) := pton4_loop s false 0 (0 :: firstn 3 garb) 0.

(** hex_digit_value: 176-185; -1 if not a digit. *)
Definition hexval (ch : Z) : Z :=
  if (48 <=? ch) && (ch <=? 57) then ch - 48
  else if (97 <=? ch) && (ch <=? 102) then ch - 97 + 10
  else if (65 <=? ch) && (ch <=? 70) then ch - 65 + 10 else -1.

(** *tp++ = val >> 8; *tp++ = val: 245-246, 264-265. *)
Definition put16 (tmp : list Z) (tp : nat) (val : Z) : outcome (list Z * nat) :=
  let* _ := byte tmp tp in let tmp := upd tmp tp (Z.land (u8 (Z.shiftr val 8)) 255) in
  let* _ := byte tmp (S tp) in Ok (upd tmp (S tp) (Z.land (u8 val) 255), S (S tp)).
(** memcpy of the four bytes by inet_pton4: 170. *)
Fixpoint put_bytes (tmp : list Z) (tp : nat) (bs : list Z) : outcome (list Z) :=
  match bs with [] => Ok tmp | b :: r => let* _ := byte tmp tp in put_bytes (upd tmp tp b) (S tp) r end.
(** The end: 260-281; memmove 274 and memset 275 as one assignment of the whole array. *)
Definition pton6_end (tmp : list Z) (tp : nat) (colonp : option nat) (xd : Z) (val : Z) : outcome (option (list Z)) :=
  let fin tmp (tp : nat) :=
    match colonp with
    | Some cp =>
        if (tp =? 16)%nat then Ok None
        else let n := (tp - cp)%nat in
             if (16 <? tp)%nat || (tp <? cp)%nat then UB
             else Ok (Some (firstn cp tmp ++ repeat 0 (16 - n - cp) ++ firstn n (skipn cp tmp)))
    | None => if negb (tp =? 16)%nat then Ok None else Ok (Some tmp)
    end in
  if 0 <? xd then (if 16 <? Z.of_nat tp + 2 then Ok None else let* (tmp, tp) := put16 tmp tp val in fin tmp tp)
  else fin tmp tp.
(** The loop 216-259.  [cur]: the text from curtok on. *)
Fixpoint pton6_loop (garb : list Z) (s : text) (cur : text) (tmp : list Z) (tp : nat) (colonp : option nat) (xd : Z) (val : Z) : outcome (option (list Z)) :=
  match s with
  | [] => pton6_end tmp tp colonp xd val
  | ch :: r =>
      let d := hexval ch in
      if 0 <=? d then
        if xd =? 4 then Ok None
        else let val := Z.lor (u32 (Z.shiftl val 4)) d in
             if 65535 <? val then Ok None else pton6_loop garb r cur tmp tp colonp (xd + 1) val
      else if ch =? COLON then
        if xd =? 0 then
          match colonp with Some _ => Ok None | None => pton6_loop garb r r tmp tp (Some tp) xd val end
        else if match r with [] => true | _ => false end then Ok None
        else if 16 <? Z.of_nat tp + 2 then Ok None
        else let* (tmp, tp) := put16 tmp tp val in pton6_loop garb r r tmp tp colonp 0 0
      else if (ch =? DOT) && (Z.of_nat tp + 4 <=? 16) then
        let* o := pton4 garb cur in
        match o with
        | Some bs => let* tmp := put_bytes tmp tp bs in pton6_end tmp (tp + 4) colonp 0 val
        | None => Ok None
        end
      else Ok None
  end.
(** inet_pton6: 191-282. *)
Definition pton6 (garb : list Z) (s : text) : outcome (option (list Z)) :=
  match s with
  | [] => Ok None
  | c :: r =>
      let start s := pton6_loop garb s s (repeat 0 16) 0 None 0 0 in
      if c =? COLON then match r with c' :: _ => if negb (c' =? COLON) then Ok None else start r | [] => Ok None end
      else start s
  end.

(** AOSL_AF_INET, AOSL_AF_INET6. *)
Definition AF4 : Z := 2.
Definition AF6 : Z := 10.
(** strchr (str, ':') != NULL. *)
Definition has_colon (s : text) : bool := existsb (Z.eqb COLON) s.
(** aosl_inet_addr_from_string: sk_utils.c 1238-1253 with IPv6.  The size and the address. *)
Definition addr_from_string (garb : list Z) (s : text) : outcome (option (Z * list Z)) :=
  if has_colon s then let* o := pton6 garb s in Ok (option_map (fun a => (16, a)) o)
  else let* o := pton4 garb s in Ok (option_map (fun a => (4, a)) o).
(** aosl_inet_addr_str: sk_utils.c 1158-1176 for the two families; the size is an int. *)
Definition addr_str (af : Z) (addr : list Z) (len : Z) : outcome (option text) :=
  if af =? AF4 then ntop4 addr (s32 len) else if af =? AF6 then ntop6 addr (s32 len) else Ok None.
