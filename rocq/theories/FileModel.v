(** Model of src/file/file_util.c. File systems and streams are parameters (what the C library calls answer). *)
From Verif Require Import CBase CStr.

(** strnlen (POSIX): bytes before the first NUL among the first n *)
Fixpoint strnlen (l : list Z) (n : nat) : outcome Z :=
  match n with
  | O => Ret 0
  | S n => match l with
           | [] => Ub
           | c :: l => if c =? 0 then Ret 0 else do k <- strnlen l n; Ret (1 + k)
           end
  end.
(** strstr(folder_path, "\\") != NULL: scan up to the first backslash or the NUL *)
Fixpoint has_backslash (l : list Z) : outcome bool :=
  match l with
  | [] => Ub
  | c :: l => if c =? 92 then Ret true else if c =? 0 then Ret false else has_backslash l
  end.
(** lines 38-41: drop trailing spaces *)
Fixpoint trim_spaces (fuel : nat) (buf : list Z) (len : Z) : outcome Z :=
  match fuel with
  | O => NoFuel
  | S fuel =>
    if 0 <? len then
      do c <- mload buf (len - 1);
      if c =? 32 then trim_spaces fuel buf (len - 1) else Ret len
    else Ret len
  end.
(** file_util_append_slash_on_path_if_needed, src/file/file_util.c:31-56 (folder_path not NULL) *)
Definition append_slash (buf : list Z) (size : Z) : outcome (list Z * Z) :=
  do c0 <- mload buf 0;
  if (c0 =? 0) || (size <? 3) then Ret (buf, -1)                        (* 33-36 *)
  else
    do len <- strnlen buf (Z.to_nat size);                              (* 37 *)
    do len <- trim_spaces (S (Z.to_nat len)) buf len;                   (* 38-41 *)
    if len <? 1 then Ret (buf, -2)                                      (* 42-45 *)
    else
      do bs <- has_backslash buf;
      let slash := if bs : bool then 92 else 47 in                      (* 46 *)
      do lst <- mload buf (len - 1);
      if lst =? slash then Ret (buf, 0)                                 (* 47-50 *)
      else
        let loc := if len + 1 <? size then len else len - 1 in          (* 51-52 *)
        do buf <- mstore buf loc slash;                                 (* 53 *)
        do buf <- mstore buf (loc + 1) 0;                               (* 54 *)
        Ret (buf, 0).

(** a file system: access(path, 0) == 0, and mkdir with its return value *)
Record fsys (F : Type) := { fs_exists : F -> list Z -> bool; fs_mkdir : F -> list Z -> Z * F }.
Arguments fs_exists {F}. Arguments fs_mkdir {F}.
(** lines 79-97 of src/file/file_util.c, from index i on; [calls] collects the paths given to mkdir, newest
    first. Result: return value, file system, calls *)
Fixpoint mkdirs_loop {F} (ops : fsys F) (fuel : nat) (path tmp : list Z) (i : Z) (f : F) (calls : list (list Z))
    : outcome (Z * F * list (list Z)) :=
  if i <? zlen path then
    match fuel with
    | O => NoFuel
    | S fuel =>
      do c <- mload path i;
      do tmp <- mstore tmp i c;                                           (* 81 *)
      if negb (c =? 92) && negb (c =? 47) then mkdirs_loop ops fuel path tmp (i + 1) f calls   (* 82-86 *)
      else
        do p <- cstr_at tmp 0;
        if fs_exists ops f p then mkdirs_loop ops fuel path tmp (i + 1) f calls                 (* 87-91 *)
        else
          let '(r, f) := fs_mkdir ops f p in                              (* 92 *)
          if negb (r =? 0) then Ret (r, f, p :: calls)                    (* 93-96 *)
          else mkdirs_loop ops fuel path tmp (i + 1) f (p :: calls)
    end
  else Ret (0, f, calls).                                                 (* 98 *)
(** file_util_mkdirs, src/file/file_util.c:66-99; path: the text without its terminator *)
Definition mkdirs {F} (ops : fsys F) (path : list Z) (f : F) : outcome (Z * F * list (list Z)) :=
  if 256 <? zlen path then Ret (-2, f, [])                                (* 74-77 *)
  else mkdirs_loop ops (length path) path (repeat 0 256) 0 f [].          (* 78-98 *)

(** pri_internal_rw_file, src/file/file_util.c:140-154. [op st buf off n] is read/write(fd, buffer + off, n):
    it returns the count, the buffer and the stream. cur_char_count is an int: its growth is checked for
    overflow; max_char_count - cur and the comparison are size_t (exact here, cur never exceeds max). *)
Fixpoint rw_loop {S} (op : S -> list Z -> Z -> Z -> outcome (Z * list Z * S)) (fuel : nat)
    (st : S) (buf : list Z) (max cur : Z) : outcome (Z * list Z * S) :=
  match fuel with
  | O => NoFuel
  | Datatypes.S fuel =>
    do (n, buf, st) <- op st buf cur (max - cur);                          (* 145 *)
    let once := s32 n in
    if once <? 1 then Ret (cur, buf, st)                                   (* 146-150 *)
    else
      do cur <- sint (cur + once);                                         (* 151 *)
      if cur =? max then Ret (cur, buf, st) else rw_loop op fuel st buf max cur   (* 152 *)
  end.
(** POSIX read on a stream holding the bytes [data]; the environment decides each time how much of the
    request it satisfies: a non-positive decision is an error (-1). Decision number k is [io k]. *)
Record rstream := { r_data : list Z; r_io : nat -> Z; r_k : nat }.
Definition read_op (s : rstream) (buf : list Z) (off n : Z) : outcome (Z * list Z * rstream) :=
  let d := r_io s (r_k s) in
  if d <? 0 then Ret (-1, buf, {| r_data := r_data s; r_io := r_io s; r_k := S (r_k s) |})
  else
    let got := ztake (Z.min d n) (r_data s) in
    do buf <- mwrite buf off got;
    Ret (zlen got, buf, {| r_data := zdrop (zlen got) (r_data s); r_io := r_io s; r_k := S (r_k s) |}).
(** POSIX write to a stream that has received [data] so far *)
Definition write_op (s : rstream) (buf : list Z) (off n : Z) : outcome (Z * list Z * rstream) :=
  let d := r_io s (r_k s) in
  if d <? 0 then Ret (-1, buf, {| r_data := r_data s; r_io := r_io s; r_k := S (r_k s) |})
  else
    do put <- mread buf off (Z.min d n);
    Ret (zlen put, buf, {| r_data := r_data s ++ put; r_io := r_io s; r_k := S (r_k s) |}).
(** file_util_read, src/file/file_util.c:130-133; file_util_write, lines 135-138 *)
Definition file_read (s : rstream) (buf : list Z) (max : Z) := rw_loop read_op (S (Z.to_nat max)) s buf max 0.
Definition file_write (s : rstream) (buf : list Z) (max : Z) := rw_loop write_op (S (Z.to_nat max)) s buf max 0.

(** fgets(buf, size, fp) on the unread bytes of a text file: up to size - 1 bytes, ending after a newline.
    Result: the bytes stored (a NUL follows them in buf) and the unread rest; None at end of file.
    Simplified: no read errors. *)
Fixpoint fgets_take (n : nat) (l : list Z) : list Z * list Z :=
  match n, l with
  | O, _ => ([], l)
  | _, [] => ([], [])
  | S n, c :: l => if c =? 10 then ([c], l) else let '(a, b) := fgets_take n l in (c :: a, b)
  end.
Definition fgets (size : Z) (l : list Z) : option (list Z * list Z) :=
  match l with [] => None | _ => Some (fgets_take (Z.to_nat (size - 1)) l) end.
(** the C string in the buffer: the bytes before the first NUL *)
Fixpoint upto0 (l : list Z) : list Z := match l with [] => [] | c :: l => if c =? 0 then [] else c :: upto0 l end.
(** strchr(buf, '\n') *)
Fixpoint find_nl (l : list Z) : option Z :=
  match l with [] => None | c :: l => if c =? 10 then Some 0 else match find_nl l with Some k => Some (1 + k) | None => None end end.
(** isspace in the C locale (bytes above 127 reach isspace as negative ints: glibc's answer, false) *)
Definition isspace (c : Z) : bool := (c =? 32) || ((9 <=? c) && (c <=? 13)).
Fixpoint skip_space (l : list Z) : list Z := match l with [] => [] | c :: l' => if isspace c then skip_space l' else l end.
(** lines 173-186 of src/file/file_util.c: the text at p after trimming, for the string in buf *)
Definition txt_line (s : list Z) : outcome (list Z) :=
  let p := match find_nl s with Some k => k | None => zlen s end in       (* 173-176 *)
  do p <- (if 0 <? p then do c <- mload s (p - 1); Ret (if c =? 13 then p - 1 else p) else Ret p);   (* 177-180 *)
  Ret (skip_space (ztake p s)).                                           (* 181-185 *)
(** lines 171-196; [fn] is the callback with the user's state *)
Fixpoint read_txt_loop {U} (fn : U -> Z -> list Z -> Z * U) (fuel : nat) (rest : list Z) (line : Z) (ret : Z) (u : U)
    : outcome (Z * U) :=
  match fgets 1024 rest with                                               (* 171 *)
  | None => Ret (ret, u)
  | Some (chunk, rest) =>
    match fuel with
    | O => NoFuel
    | S fuel =>
      do t <- txt_line (upto0 chunk);
      match t with
      | [] => do line <- sint (line + 1); read_txt_loop fn fuel rest line ret u      (* 186-189 *)
      | _ =>
        let '(ret, u) := fn u line t in                                     (* 191 *)
        if negb (ret =? 0) then Ret (ret, u)
        else do line <- sint (line + 1); read_txt_loop fn fuel rest line ret u
      end
    end
  end.
(** file_util_read_txt, src/file/file_util.c:156-199; the file's content, or None when fopen fails *)
Definition read_txt {U} (fn : U -> Z -> list Z -> Z * U) (file : option (list Z)) (u : U) : outcome (Z * U) :=
  match file with
  | None => Ret (-1, u)
  | Some data => read_txt_loop fn (length data) data 0 0 u
  end.

(** file_util_read_all, src/file/file_util.c:201-255 with valid arguments. [file]: None when fopen fails, else the
    content; [told]: what ftell reports (LONG); [malloc]; [got]: how many bytes fread delivers at most.
    Result: return value, *out_alloced_file_data, *out_file_byte_len *)
Definition read_all (file : option (list Z)) (told : Z) (malloc : Z -> option (list Z)) (got : Z)
    : outcome (Z * option (list Z) * Z) :=
  match file with
  | None => Ret (-2, None, -1)                                             (* 219-224 *)
  | Some data =>
    let len := s32 told in                                                 (* 227 *)
    if told <? 1 then Ret (-3, None, len)                                  (* 230-234 *)
    else match malloc (told + 1) with                                      (* 236 *)
    | None => Ret (-4, None, len)                                          (* 237-241 *)
    | Some mem =>
      do mem <- mstore mem told 0;                                         (* 242 *)
      let bytes := ztake (Z.min got told) data in
      do mem <- mwrite mem 0 bytes;                                        (* 243 *)
      if negb (told =? zlen bytes) then Ret (-5, None, len)                (* 243-248 *)
      else Ret (0, Some mem, len)                                          (* 249-250 *)
    end
  end.
