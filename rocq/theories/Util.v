(** * Model of the utilities: lib/utils.c, platform/src/linux/aosl_hal_utils.c,
    kernel/file.c 12-63 with platform/src/linux/aosl_hal_file.c, kernel/log.c.

    The system's answers (open, read, stat, fread) are inputs.  Buffers are lists of bytes;
    an access outside is UB.  Simplified: the file system is a map from path to what is
    there; the permission and space errors of mkdir and fopen are one flag. *)
From Verif Require Import Base Arith.

Definition setb (b : list Z) (i v : Z) : outcome (list Z) :=
  if (i <? 0) || (Z.of_nat (length b) <=? i) then UB else Ok (upd b (Z.to_nat i) v).

(** ** aosl_get_uuid *)
(** The characters left out, aosl_hal_utils.c 39. *)
Definition skipped (c : Z) : bool := (c =? 45) || (c =? 10) || (c =? 13).
(** The loop 35-43; [d]: characters stored so far. *)
Fixpoint uuid_loop (src : list Z) (buf : list Z) (buf_sz d : Z) : outcome (list Z * Z) :=
  match src with
  | [] => Ok (buf, d)
  | c :: src =>
      if buf_sz - 1 <=? d then Ok (buf, d)
      else if skipped c then uuid_loop src buf buf_sz d
      else let* buf := setb buf d c in uuid_loop src buf buf_sz (d + 1)
  end.
(** aosl_hal_get_uuid: 8-51; [src]: what open and read give, None for an error. *)
Definition hal_get_uuid (src : option (list Z)) (buf : list Z) (buf_sz : Z) : outcome (list Z * Z) :=
  if buf_sz <=? 1 then Ok (buf, -1) else
  let* r := uuid_loop (match src with Some l => l | None => [] end) buf buf_sz 0 in
  let* buf := setb (fst r) (snd r) 0 in
  Ok (buf, match src with Some _ => 0 | None => -1 end).
(** aosl_get_uuid: lib/utils.c 13-16 (the size is cut to int). *)
Definition get_uuid src buf (buf_sz : Z) := hal_get_uuid src buf (s32 buf_sz).

(** ** aosl_os_version *)
(** read(2) into the buffer: the first [n] bytes of the source. *)
Definition sys_read (src : list Z) (n : Z) : list Z := firstn (Z.to_nat n) src.
Fixpoint store (buf : list Z) (off : Z) (l : list Z) : outcome (list Z) :=
  match l with [] => Ok buf | c :: l => let* buf := setb buf off c in store buf (off + 1) l end.
(** aosl_hal_os_version: 53-84. *)
Definition hal_os_version (src : option (list Z)) (buf : list Z) (buf_sz : Z) : outcome (list Z * Z) :=
  if buf_sz <=? 1 then Ok (buf, -1) else
  match src with
  | None => let* buf := setb buf 0 0 in Ok (buf, -1)
  | Some l =>
      let got := sys_read l (buf_sz - 1) in
      let* buf := store buf 0 got in
      let* buf := setb buf (Z.of_nat (length got)) 0 in
      Ok (buf, 0)
  end.
(** aosl_os_version: lib/utils.c 18-21. *)
Definition os_version src buf (buf_sz : Z) := hal_os_version src buf (s32 buf_sz).

(** ** aosl_rand_bytes *)
(** One read(2) of the random device: some bytes (no more than asked for are used), EINTR, or another error. *)
Inductive rd := Bytes (l : list Z) | Eintr | Rerr.
(** The loop 100-110; None: it is still running. *)
Fixpoint rand_loop (rs : list rd) (buf : list Z) (off len : Z) : outcome (option (list Z * Z)) :=
  if off <? len then
    match rs with
    | [] => Ok None
    | Eintr :: rs => rand_loop rs buf off len
    | Rerr :: rs => Ok (Some (buf, -1))
    | Bytes l :: rs => let got := sys_read l (len - off) in let* buf := store buf off got in rand_loop rs buf (off + Z.of_nat (length got)) len
    end
  else Ok (Some (buf, 0)).
(** aosl_hal_rand_bytes: 86-114, for a buffer that is not NULL; [opened]: open succeeds. *)
Definition hal_rand_bytes (opened : bool) (rs : list rd) (buf : list Z) (len : Z) : outcome (option (list Z * Z)) :=
  if len <=? 0 then Ok (Some (buf, -1)) else if opened then rand_loop rs buf 0 len else Ok (Some (buf, -1)).
(** aosl_rand_bytes: lib/utils.c 32-39. *)
Definition rand_bytes opened rs buf (len : Z) := hal_rand_bytes opened rs buf (s32 len).

(** ** Files *)
Inductive entry := File (content : list Z) | Dir.
Definition fs := Z -> option entry.
(** access(2), aosl_hal_file.c 16-19. *)
Definition fexist (f : fs) (p : Z) : Z := match f p with Some _ => 1 | None => 0 end.
Definition put (f : fs) (p : Z) (e : option entry) : fs := fun x => if x =? p then e else f x.
(** mkdir(2). *)
Definition sys_mkdir (may : bool) (f : fs) (p : Z) : fs * Z := match f p with Some _ => (f, -1) | None => if may then (put f p (Some Dir), 0) else (f, -1) end.
(** aosl_mkdir: kernel/file.c 12-18. *)
Definition mkdir (may : bool) (f : fs) (p : Z) : fs * Z := if fexist f p =? 0 then sys_mkdir may f p else (f, 0).
(** aosl_fsize: aosl_hal_file.c 21-28 returns off_t as int; [dirsize]: st_size of a directory. *)
Definition fsize (dirsize : Z) (f : fs) (p : Z) : Z :=
  match f p with None => -1 | Some (File l) => s32 (Z.of_nat (length l)) | Some Dir => s32 dirsize end.
(** aosl_file_create: aosl_hal_file.c 30-38, fopen with "a+". *)
Definition file_create (may : bool) (f : fs) (p : Z) : fs * Z :=
  match f p with Some Dir => (f, -1) | Some (File _) => if may then (f, 0) else (f, -1) | None => if may then (put f p (Some (File [])), 0) else (f, -1) end.
(** aosl_fread: 61-64, fread's size_t result as int; [rest]: what the file still holds. *)
Definition fread (rest : list Z) (size : Z) : list Z * Z := let got := firstn (Z.to_nat size) rest in (got, s32 (Z.of_nat (length got))).

(** ** Log *)
(** log.c 22-23: the function (None: the default one) and the level. *)
Record logst := mkLog { l_fun : option Z; l_level : Z }.
Definition log_init := mkLog None 3.                                        (* AOSL_LOG_ERROR *)
Inductive lact := SetFun (f : option Z) | SetLevel (n : Z) | Log (level : Z) (msg : Z) | Printf (msg : Z).
(** What the functions are given: function, level, message. *)
Definition out := (option Z * Z * Z)%type.
(** aosl_set_vlog_func 25-32, aosl_set_log_level 39-43, ____vlog 45-50, aosl_log 52-58, aosl_printf 65-71. *)
Definition ldo (s : logst) (a : lact) : logst * list out :=
  match a with
  | SetFun f => (mkLog f (l_level s), [])
  | SetLevel n => (if (0 <=? n) && (n <=? 7) then mkLog (l_fun s) n else s, [])
  | Log n m => (s, if n <=? l_level s then [(l_fun s, n, m)] else [])
  | Printf m => (s, if l_level s <=? l_level s then [(l_fun s, l_level s, m)] else [])
  end.
Fixpoint lrun (s : logst) (l : list lact) : list out := match l with [] => [] | a :: l => snd (ldo s a) ++ lrun (fst (ldo s a)) l end.
