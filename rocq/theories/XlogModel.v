(** Model of src/log/xlog.c (not __ANDROID__, USE_SNPRINTF_HEADER 0). Calls are taken one at a time: the
    mutex g_xlog_mutex serialises them (the level test of line 430 is outside it). *)
From Verif Require Import CBase CStr StringsModel TimeModel.

(** xlog_config_t, src/log/xlog.c:32-65; the callback is represented by whether it is set, fp_out is left out *)
Record cfg := {
  x_min : Z; x_up : Z; x_tag : list Z; x_cb : bool; x_target : Z; x_format : Z; x_flush : Z; x_tz : Z;
  x_console : bool; x_usercb : bool;                   (* cache_tgt *)
  x_stamp : bool; x_taglevel : bool; x_tid : bool      (* cache_fmt *)
}.
(** XLOG_DEFAULT_TAG_MAX_SIZE, DEFAULT_LOG_BUF_SIZE, src/log/xlog.c:31,17 *)
Definition TAG_MAX : Z := 24.
Definition BUF_SIZE : Z := 512.
(** g_xlog_cfg, src/log/xlog.c:68-98: "XLog" in a 24-byte array *)
Definition cfg0 : cfg := {| x_min := 1; x_up := 0; x_tag := [88;76;111;103] ++ repeat 0 20; x_cb := false;
  x_target := 4; x_format := 6; x_flush := 0; x_tz := 8;
  x_console := true; x_usercb := false; x_stamp := true; x_taglevel := true; x_tid := false |}.

Inductive op :=
| LevelUp (l : Z) | SetTag (t : option (list Z)) | SetTz (h : Z) | SetCb (present : bool)
| SetTarget (t : Z) | SetMin (l : Z) | SetFormat (f : Z) | SetFlush (m : Z).

(** xlog_auto_level_up, xlog_set_default_tag, xlog_set_timezone, xlog_set_user_callback, xlog_set_target,
    xlog_set_min_level, xlog_set_format, xlog_set_flush_mode: src/log/xlog.c:188-288 *)
Definition set (c : cfg) (o : op) : outcome cfg :=
  match o with
  | LevelUp l => Ret {| x_min := x_min c; x_up := l; x_tag := x_tag c; x_cb := x_cb c; x_target := x_target c;
      x_format := x_format c; x_flush := x_flush c; x_tz := x_tz c; x_console := x_console c;
      x_usercb := x_usercb c; x_stamp := x_stamp c; x_taglevel := x_taglevel c; x_tid := x_tid c |}
  | SetTag None => Ret c
  | SetTag (Some t) =>
      do (tag, _) <- strlcpy (x_tag c) t TAG_MAX;
      Ret {| x_min := x_min c; x_up := x_up c; x_tag := tag; x_cb := x_cb c; x_target := x_target c;
      x_format := x_format c; x_flush := x_flush c; x_tz := x_tz c; x_console := x_console c;
      x_usercb := x_usercb c; x_stamp := x_stamp c; x_taglevel := x_taglevel c; x_tid := x_tid c |}
  | SetTz h => if (h >? 12) || (h <? -12) then Ret c else
      Ret {| x_min := x_min c; x_up := x_up c; x_tag := x_tag c; x_cb := x_cb c; x_target := x_target c;
      x_format := x_format c; x_flush := x_flush c; x_tz := h; x_console := x_console c;
      x_usercb := x_usercb c; x_stamp := x_stamp c; x_taglevel := x_taglevel c; x_tid := x_tid c |}
  | SetCb b => Ret {| x_min := x_min c; x_up := x_up c; x_tag := x_tag c; x_cb := b; x_target := x_target c;
      x_format := x_format c; x_flush := x_flush c; x_tz := x_tz c; x_console := x_console c;
      x_usercb := x_usercb c; x_stamp := x_stamp c; x_taglevel := x_taglevel c; x_tid := x_tid c |}
  | SetTarget t => if t <? 0 then Ret c else
      Ret {| x_min := x_min c; x_up := x_up c; x_tag := x_tag c; x_cb := x_cb c; x_target := t;
      x_format := x_format c; x_flush := x_flush c; x_tz := x_tz c;
      x_console := negb (Z.land t 4 =? 0); x_usercb := negb (Z.land t 8 =? 0);
      x_stamp := x_stamp c; x_taglevel := x_taglevel c; x_tid := x_tid c |}
  | SetMin l => if (l <? 0) || (l >? 5) then Ret c else
      Ret {| x_min := l; x_up := x_up c; x_tag := x_tag c; x_cb := x_cb c; x_target := x_target c;
      x_format := x_format c; x_flush := x_flush c; x_tz := x_tz c; x_console := x_console c;
      x_usercb := x_usercb c; x_stamp := x_stamp c; x_taglevel := x_taglevel c; x_tid := x_tid c |}
  | SetFormat f => if f <? 0 then Ret c else
      Ret {| x_min := x_min c; x_up := x_up c; x_tag := x_tag c; x_cb := x_cb c; x_target := x_target c;
      x_format := f; x_flush := x_flush c; x_tz := x_tz c; x_console := x_console c; x_usercb := x_usercb c;
      x_stamp := negb (Z.land f 2 =? 0); x_taglevel := negb (Z.land f 4 =? 0); x_tid := negb (Z.land f 8 =? 0) |}
  | SetFlush m => if m <? 0 then Ret c else
      Ret {| x_min := x_min c; x_up := x_up c; x_tag := x_tag c; x_cb := x_cb c; x_target := x_target c;
      x_format := x_format c; x_flush := m; x_tz := x_tz c; x_console := x_console c;
      x_usercb := x_usercb c; x_stamp := x_stamp c; x_taglevel := x_taglevel c; x_tid := x_tid c |}
  end.
Fixpoint sets (c : cfg) (l : list op) : outcome cfg :=
  match l with [] => Ret c | o :: l => do c <- set c o; sets c l end.

(** XLOG_IS_LEVEL_LOGABLE, src/log/xlog.c:109 *)
Definition logable (c : cfg) (level : Z) : bool :=
  negb (x_target c =? 0) && negb (x_min c =? 0) && (level <? 6) && (level >=? x_min c).
(** g_map_level_chars "0VDIWE?", src/log/xlog.c:111 *)
Definition level_chars : list Z := [48; 86; 68; 73; 87; 69; 63].

(** the copy loop of print_level_tag, src/log/xlog.c:324-327 *)
Fixpoint tag_loop (fuel : nat) (buf : list Z) (p : Z) (tag : list Z) (i cpy align : Z) : outcome (list Z * Z) :=
  if i <? align then
    match fuel with
    | O => NoFuel
    | S fuel =>
      do c <- (if i <? cpy then mload tag i else Ret 32);
      do buf <- mstore buf p c;
      tag_loop fuel buf (p + 1) tag (i + 1) cpy align
    end
  else Ret (buf, p).
(** print_level_tag, src/log/xlog.c:304-341; [off] is the offset of the argument buffer; the result is the
    block and the length *)
Definition print_level_tag (buf : list Z) (off level : Z) (tag : list Z) : outcome (list Z * Z) :=
  do buf <- mstore buf off 32;
  do lc <- mload level_chars level;
  do buf <- mstore buf (off + 1) lc;
  do buf <- mstore buf (off + 2) 47;
  do n <- strlen_at tag 0;
  let cpy := if n >? TAG_MAX - 2 then TAG_MAX - 2 else n in
  let align := if cpy <? 8 then 8 else cpy in
  do (buf, p) <- tag_loop (Z.to_nat align) buf (off + 3) tag 0 cpy align;
  do buf <- mstore buf p 0;
  Ret (buf, p - off).

(** the digit loop of print_tid, src/log/xlog.c:352-356; [off] points behind the parenthesis *)
Fixpoint tid_loop (n : nat) (buf : list Z) (off tid : Z) : outcome (list Z * Z) :=
  match n with
  | O => Ret (buf, 0)
  | S m =>
    if tid >? 0 then
      do buf <- mstore buf (off + Z.of_nat n - 1) (48 + Z.rem tid 10);
      tid_loop m buf off (Z.quot tid 10)
    else Ret (buf, Z.of_nat n)
  end.
(** print_tid, src/log/xlog.c:343-365 *)
Definition print_tid (buf : list Z) (off tid : Z) : outcome (list Z * Z) :=
  do tid <- (if tid <? 0 then sint (- tid) else Ret tid);
  do buf <- mstore buf off 40;
  let off := off + 1 in
  do (buf, count) <- tid_loop 5 buf off tid;
  do buf <- (if count =? 0 then Ret buf else mwrite buf off (repeat 32 (Z.to_nat count)));
  do buf <- mstore buf (off + 5) 41;
  do buf <- mstore buf (off + 6) 0;
  Ret (buf, 7).

(** digits, src/log/xlog.c:375-379 *)
Fixpoint digit_loop (fuel : nat) (buf : list Z) (p num : Z) : outcome (list Z * Z) :=
  match fuel with
  | O => NoFuel
  | S fuel =>
    do buf <- mstore buf p (Z.rem num 10 + 48);
    let num := Z.quot num 10 in
    if num =? 0 then Ret (buf, p + 1) else digit_loop fuel buf (p + 1) num
  end.
(** the swap loop, src/log/xlog.c:388-393; stores to char keep the value modulo 256 *)
Fixpoint swap_loop (fuel : nat) (buf : list Z) (off i len : Z) : outcome (list Z) :=
  if i <? len / 2 then
    match fuel with
    | O => NoFuel
    | S fuel =>
      let j := len - 1 - i in
      do a <- mload buf (off + i); do b <- mload buf (off + j);
      do buf <- mstore buf (off + i) ((a + b) mod 256);
      do a <- mload buf (off + i); do b <- mload buf (off + j);
      do buf <- mstore buf (off + j) ((a - b) mod 256);
      do a <- mload buf (off + i); do b <- mload buf (off + j);
      do buf <- mstore buf (off + i) ((a - b) mod 256);
      swap_loop fuel buf off (i + 1) len
    end
  else Ret buf.
(** my_int2str, src/log/xlog.c:367-395 *)
Definition my_int2str (num : Z) (buf : list Z) (off : Z) : outcome (list Z * Z) :=
  do (buf, num, p) <-
    (if num <? 0 then do num <- sint (- num); do buf <- mstore buf off 45; Ret (buf, num, off + 1)
     else Ret (buf, num, off));
  do (buf, p) <- digit_loop 11 buf p num;
  do buf <- mstore buf p 0;
  let len := p - off in
  do c <- mload buf off;
  let '(i, len) := if c =? 45 then (1, len + 1) else (0, len) in
  do buf <- swap_loop (Z.to_nat len) buf off i len;
  Ret (buf, len).

(** print_func_line, src/log/xlog.c:398-414 *)
Definition print_func_line (buf : list Z) (off : Z) (func : list Z) (line : Z) : outcome (list Z * Z) :=
  do buf <- mstore buf off 40;
  let s := off + 1 in
  do n <- strlen_at func 0;
  do f <- mread func 0 n;
  do buf <- mwrite buf s f;
  let s := s + n in
  do buf <- mstore buf s 58;
  let s := s + 1 in
  do (buf, k) <- my_int2str line buf s;
  let s := s + k in
  do buf <- mstore buf s 41;
  do buf <- mstore buf (s + 1) 32;
  do buf <- mstore buf (s + 2) 0;
  let s := s + 2 in
  Ret (buf, s - off).

(** what the outside world supplies to one call: gettimeofday, the thread id, the finished text of
    the format and arguments (None: vsnprintf reports an error), and malloc *)
Record env := { e_sec : Z; e_usec : Z; e_tid : Z; e_msg : option (list Z); e_malloc : Z -> option (list Z) }.
(** what a call does to the outside world: text printed on stdout, a flush, the user callback with the level
    and the msg_size bytes it is handed *)
Inductive event := Print (t : list Z) | Flush | Callback (level : Z) (bytes : list Z).

(** time_util_get_time_str_current(buffer_log, tz), src/time/time_util.c:301-306: it is given the first
    TIME_STR_SIZE bytes of the buffer. Simplification: the uncached text; C34 proves the cache changes nothing *)
Definition stamp (sf : strftime_fn) (e : env) (tz : Z) (buf : list Z) : outcome (list Z * Z) :=
  do (s, n) <- get_time_str_plain sf
    {| k_fmt := FMT_STAMP; k_tz := tz; k_sec := e_sec e; k_usec := e_usec e; k_str := ztake TIME_STR_SIZE buf |};
  Ret (s ++ zdrop TIME_STR_SIZE buf, n).

(** the header part of __xlog_internal_print, src/log/xlog.c:448-479 *)
Definition header (sf : strftime_fn) (c : cfg) (e : env) (level : Z) (tag : list Z) (buf : list Z)
  : outcome (list Z * Z) :=
  if negb (x_format c =? 0) && (x_console c || x_usercb c) then
    do (buf, h) <- (if x_stamp c then stamp sf e (x_tz c) buf else Ret (buf, 0));
    do (buf, h) <- (if x_taglevel c then do (buf, n) <- print_level_tag buf h level tag; Ret (buf, h + n) else Ret (buf, h));
    do (buf, h) <- (if x_tid c then do (buf, n) <- print_tid buf h (e_tid e); Ret (buf, h + n) else Ret (buf, h));
    if h =? 0 then Ret (buf, h)
    else do buf <- mstore buf h 58; do buf <- mstore buf (h + 1) 32; do buf <- mstore buf (h + 2) 0;
         Ret (buf, h + 2)
  else Ret (buf, 0).

(** what is printed and handed to the callback, src/log/xlog.c:531-543 *)
Definition emit (c : cfg) (console usercb : bool) (level : Z) (buf : list Z) (len : Z) : outcome (list event) :=
  do ev1 <- (if console then do t <- cstr_at buf 0;
                             Ret (Print (t ++ [10]) :: if x_flush c =? 0 then [] else [Flush]) else Ret []);
  do ev2 <- (if usercb && x_cb c then do b <- mread buf 0 (len + 1); Ret [Callback level b] else Ret []);
  Ret (ev1 ++ ev2).

(** __xlog_internal_print, src/log/xlog.c:419-551. The messages on stderr (498, 511) are left out. *)
Definition xlog_print (sf : strftime_fn) (c : cfg) (e : env) (level : Z) (tag func : option (list Z)) (line : Z)
  : outcome (list event) :=
  let buf := repeat 0 (Z.to_nat BUF_SIZE) in                               (* 423 *)
  if negb (logable c level) then Ret [] else                               (* 430 *)
  let console := x_console c in let usercb := x_usercb c in                (* 438-439 *)
  let level := if negb (x_up c =? 0) && (level <? x_up c) then x_up c else level in    (* 440-443 *)
  let tag := match tag with None => x_tag c | Some t => t end in           (* 444-447 *)
  do (buf, h) <- header sf c e level tag buf;
  let len := h in                                                          (* 480 *)
  do (buf, len) <-
    match func with
    | Some f => if (line >? 0) && (u64 (BUF_SIZE - len - 1) >? 32)
                then do (buf, n) <- print_func_line buf len f line; Ret (buf, len + n)
                else Ret (buf, len)
    | None => Ret (buf, len)
    end;                                                                   (* 481-489 *)
  let remaining := u64 (BUF_SIZE - len) in                                 (* 491 *)
  match e_msg e with
  | None => Ret []                                                         (* 496-500 *)
  | Some m =>
    do (buf, r) <- snprintf_at buf len remaining m;                        (* 494 *)
    if r <? s32 remaining then                                             (* 501 *)
      emit c console usercb level buf (len + r)
    else
      let need := r + 1 in
      match e_malloc e (u64 (len + need)) with                             (* 508-509 *)
      | None => Ret []
      | Some big =>
        do (big, _) <- strlcpy big buf (len + 1);                          (* 515 *)
        do (big, r) <- snprintf_at big len need m;                         (* 519 *)
        emit c console usercb level big (len + r)
      end
  end.

(** __xlog_internal_hex_print, src/log/xlog.c:556-565; [junk]: the uninitialised stack buffer. The message is
    the C string in hex_str (format "%s") *)
Definition xlog_hex_print (sf : strftime_fn) (c : cfg) (e : env) (junk : list Z) (level : Z)
  (tag : option (list Z)) (chars : list Z) (count : Z) : outcome (list event) :=
  if negb (logable c level) then Ret [] else
  do (hex, _) <- str_char2hex junk BUF_SIZE chars count;
  do m <- cstr_at hex 0;
  xlog_print sf c {| e_sec := e_sec e; e_usec := e_usec e; e_tid := e_tid e; e_msg := Some m; e_malloc := e_malloc e |}
    level tag None (-1).
