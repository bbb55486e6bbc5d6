(** Model of /repo/src/log/file_logger.c on top of the message queue handler model (HandlerModel): the
    thread that calls file_logger_log (calls are serialised by the user's lock, file_logger.h), the
    handler's worker thread that runs handle_log_queue_msg, and file_logger_deinit. Every schedule of
    these threads is an execution; the queue operations run byte by byte as in SpscModel.
    Simplifications: a file's content is what has been printed to it (stdio buffering and crashes are not
    modelled); handle_log_queue_msg and the "lost" file's open-print-close are one step each; the text
    time_util produces is an input; file_util_mkdirs (line 216) only influences whether fopen succeeds;
    usleep and the trace output do nothing. *)
From Verif Require Import CBase SeqLib CStr StringsModel IntegerModel RingBuffer2Model MsgQueueModel SpscModel HandlerModel.

(** inc/log/file_logger.h:21-30 after file_logger_init: the two C strings, the size limit, the flag *)
Record fcfg := { f_folder : list Z; f_prefix : list Z; f_max : Z; f_keep : bool }.
(** ".log", "_lost.log" (file_logger.c:165, 221) *)
Definition DOT_LOG : list Z := [46; 108; 111; 103].
Definition LOST_LOG : list Z := [95; 108; 111; 115; 116; 46; 108; 111; 103].

(** the file system: names with contents, oldest first *)
Definition fsys := list (list Z * list Z).
Definition name_eqb (a b : list Z) : bool := if list_eq_dec Z.eq_dec a b then true else false.
(** fopen(name, "wb"): a new empty file, or the existing one emptied *)
Fixpoint fs_create (name : list Z) (fs : fsys) : fsys :=
  match fs with
  | [] => [(name, [])]
  | (n, c) :: r => if name_eqb n name then (n, []) :: r else (n, c) :: fs_create name r
  end.
(** output to a file open at its end; fopen(name, "a") also creates it *)
Fixpoint fs_append (name t : list Z) (fs : fsys) : fsys :=
  match fs with
  | [] => [(name, t)]
  | (n, c) :: r => if name_eqb n name then (n, c ++ t) :: r else (n, c) :: fs_append name t r
  end.
Fixpoint fs_get (name : list Z) (fs : fsys) : option (list Z) :=
  match fs with
  | [] => None
  | (n, c) :: r => if name_eqb n name then Some c else fs_get name r
  end.

(** path_buffer, file_logger.c:163-166 and 219-222 (256 bytes, the last one 0, snprintf with size 255);
    what snprintf does not overwrite plays no role *)
Definition path_of (t : list Z) : outcome (list Z) :=
  do (buf, _) <- snprintf_at (repeat 0 256) 0 255 t; cstr_at buf 0.

(** printf "%.*s": the bytes before the first NUL, at most n; reading past the block is Ub *)
Fixpoint prec_s (n : nat) (l : list Z) : outcome (list Z) :=
  match n with
  | O => Ret []
  | S n => match l with
           | [] => Ub
           | c :: l => if c =? 0 then Ret [] else do t <- prec_s n l; Ret (c :: t)
           end
  end.
(** 32-bit int at an offset, little endian *)
Definition load_int (b : list Z) (off : Z) : outcome Z :=
  do b0 <- mload b off; do b1 <- mload b (off + 1); do b2 <- mload b (off + 2); do b3 <- mload b (off + 3);
  Ret (s32 (b0 + 256 * b1 + 65536 * b2 + 16777216 * b3)).
Definition int_bytes (n : Z) : list Z := [n mod 256; n / 256 mod 256; n / 65536 mod 256; n / 16777216 mod 256].

(** what happens with files, newest first *)
Inductive wev := WOpen (name : list Z) | WOpenFail | WPrintFail | WClose.
(** file_logger.c:36-37: cur_fp (the name of the open file), cur_log_file_size_counter; the file system *)
Record wst := mk_w { w_fp : option (list Z); w_count : Z; w_fs : fsys; w_log : list wev }.
(** what the environment decides: the time text, whether fopen works, and whether fprintf fails (after
    how many bytes) *)
Record fenv := { e_time : list Z; e_open : bool; e_print : option Z }.

(** file_logger.c:214-225 *)
Definition open_file (cfg : fcfg) (e : fenv) (w : wst) : outcome wst :=
  match w_fp w with
  | Some _ => Ret w
  | None =>
      do name <- path_of (f_folder cfg ++ f_prefix cfg ++ e_time e ++ DOT_LOG);
      if e_open e then Ret (mk_w (Some name) 0 (fs_create name (w_fs w)) (WOpen name :: w_log w))
      else Ret (mk_w None 0 (w_fs w) (WOpenFail :: w_log w))
  end.
(** handle_log_queue_msg, file_logger.c:207-252; [block] is the memory msg_p points to. An fprintf whose
    result would not fit an int fails. *)
Definition handle_msg (cfg : fcfg) (e : fenv) (w : wst) (block : list Z) : outcome (wst * Z) :=
  do n <- load_int block 12;
  if n <? 1 then Ret (w, 0)
  else
    do w <- open_file cfg e w;
    match w_fp w with
    | None => Ret (w, 0)
    | Some name =>
        do t <- prec_s (Z.to_nat n) (zdrop 16 block);
        let full := t ++ [10] in
        let (out, len) := match e_print e with
                          | None => (full, if two31 <=? zlen full then -1 else zlen full)
                          | Some k => (ztake k full, -1)
                          end in
        let count := if 0 <? len then u64 (w_count w + len) else w_count w in
        let log := if 0 <? len then w_log w else WPrintFail :: w_log w in
        let fs := fs_append name out (w_fs w) in
        if negb (f_max cfg =? 0) && (count >=? f_max cfg)
        then Ret (mk_w None count fs (WClose :: log), 0)
        else Ret (mk_w (Some name) count fs log, 0)
    end.

(** file_logger_log by source line, file_logger.c:122-178 *)
Inductive lpc :=
| LIdle
| L131 (m : list Z) (retry status : Z)   (* top of the loop *)
| L147 (m : list Z) (retry : Z)          (* inside msg_queue_handler_push *)
| L161 (m : list Z) (status : Z).        (* after the loop *)
(** file_logger_deinit, file_logger.c:180-205 *)
Inductive dstate := DLive | DDestroying | DEnd.
(** calls and returns, newest first; LLostFail: the "lost" file could not be opened *)
Inductive lev := LCall (m : list Z) | LRet (m : list Z) (status : Z) | LLostFail (m : list Z) | LDeinit | LDeinitRet.

Record lst := mk_l { l_h : hst; l_w : wst; l_cb : Z; l_cache : list Z; l_cap : Z; l_pc : lpc; l_d : dstate; l_log : list lev }.
Definition lset_h s x := mk_l x (l_w s) (l_cb s) (l_cache s) (l_cap s) (l_pc s) (l_d s) (l_log s).
Definition lset_w s x := mk_l (l_h s) x (l_cb s) (l_cache s) (l_cap s) (l_pc s) (l_d s) (l_log s).
Definition lset_cb s x := mk_l (l_h s) (l_w s) x (l_cache s) (l_cap s) (l_pc s) (l_d s) (l_log s).
Definition lset_cache s x n := mk_l (l_h s) (l_w s) (l_cb s) x n (l_pc s) (l_d s) (l_log s).
Definition lset_pc s x := mk_l (l_h s) (l_w s) (l_cb s) (l_cache s) (l_cap s) x (l_d s) (l_log s).
Definition lset_d s x := mk_l (l_h s) (l_w s) (l_cb s) (l_cache s) (l_cap s) (l_pc s) x (l_log s).
Definition lemit s e := mk_l (l_h s) (l_w s) (l_cb s) (l_cache s) (l_cap s) (l_pc s) (l_d s) (e :: l_log s).

(** file_logger.c:131-143: [fill] is the result of realloc: None failure, else at least the bytes the
    block grows by (arbitrary) *)
Definition grow (fill : option (list Z)) (cache : list Z) (cap size : Z) : option (list Z * Z) :=
  if size >? cap then
    let n := integer_roundup_pow_of_two (u32 size) in
    match fill with
    | None => None
    | Some x => Some (ztake (16 + n) (cache ++ x), n)
    end
  else Some (cache, cap).
(** file_logger.c:145-147: memcpy, obj_len, and the bytes handed to msg_queue_push (msg_queue_handler.c:149) *)
Definition fill_msg (cache m : list Z) : outcome (list Z * list Z) :=
  do cache <- mwrite cache 16 m;
  do cache <- mwrite cache 12 (int_bytes (u32 (zlen m)));
  do x <- mread cache 0 (u32 (16 + s32 (u32 (zlen m))));
  Ret (cache, x).

(** one step of the thread inside file_logger_log; [ok]: the "lost" file can be opened *)
Definition lexec (cfg : fcfg) (fill : option (list Z)) (ok : bool) (s : lst) : outcome (option lst) :=
  match l_pc s with
  | LIdle => Ret None
  | L131 m retry status =>
      match grow fill (l_cache s) (l_cap s) (zlen m) with
      | None => Ret (Some (lset_pc s (L161 m status)))
      | Some (cache, cap) =>
          do (cache, x) <- fill_msg cache m;
          Ret (Some (lset_pc (lset_cache (lset_h s (set_pr (hemit (l_h s) (HPush x)) (H145 x))) cache cap) (L147 m retry)))
      end
  | L147 m retry =>
      do o <- pexec (l_h s);
      match o with
      | None => Ret None
      | Some h =>
          let s' := lset_h s h in
          match pr (l_h s) with
          | HRet _ code =>
              if code =? MQ_SUCCESS then Ret (Some (lset_pc s' (L161 m code)))
              else if negb (f_keep cfg) then Ret (Some (lset_pc s' (L161 m code)))
              else if retry + 1 <? 2 then Ret (Some (lset_pc s' (L131 m (retry + 1) code)))
              else Ret (Some (lset_pc s' (L161 m code)))
          | _ => Ret (Some s')
          end
      end
  | L161 m status =>
      if negb (status =? MQ_SUCCESS) && f_keep cfg then
        do name <- path_of (f_folder cfg ++ f_prefix cfg ++ LOST_LOG);
        if ok then
          do t <- prec_s (Z.to_nat (s32 (u32 (zlen m)))) m;
          let w := l_w s in
          Ret (Some (lset_pc (lemit (lset_w s (mk_w (w_fp w) (w_count w) (fs_append name (t ++ [10; 10]) (w_fs w)) (w_log w))) (LRet m status)) LIdle))
        else Ret (Some (lset_pc (lemit (lemit s (LLostFail m)) (LRet m status)) LIdle))
      else Ret (Some (lset_pc (lemit s (LRet m status)) LIdle))
  end.

(** one step of the worker; the callback runs when the handler calls it (msg_queue_handler.c:96) *)
Definition lwexec (cfg : fcfg) (e : fenv) (mem : option (list Z)) (s : lst) : outcome (option lst) :=
  match wk (l_h s) with
  | W96 =>
      do (w, r) <- handle_msg cfg e (l_w s) (buf (l_h s));
      do o <- wexec {| c_mem := mem; c_ret := 0 |} (l_h s);
      match o with None => Ret None | Some h => Ret (Some (lset_cb (lset_w (lset_h s h) w) r)) end
  | _ =>
      do o <- wexec {| c_mem := mem; c_ret := l_cb s |} (l_h s);
      match o with None => Ret None | Some h => Ret (Some (lset_h s h)) end
  end.

(** one step of file_logger_deinit: the handler is destroyed, then the open file is closed *)
Definition ldexec (s : lst) : option lst :=
  match l_d s with
  | DLive | DEnd => None
  | DDestroying =>
      match ds (l_h s) with
      | DDone =>
          let w := l_w s in
          Some (lset_d (lemit (lset_w s (mk_w None (w_count w) (w_fs w) (match w_fp w with Some _ => WClose :: w_log w | None => w_log w end))) LDeinitRet) DEnd)
      | _ => match dexec (l_h s) with Some h => Some (lset_h s h) | None => None end
      end
  end.

(** what time_util_get_time_str_for_file_name_current gives: at most 23 bytes (TIME_STR_SIZE), digits,
    '.' and '-' *)
Definition time_text (t : list Z) : Prop := zlen t <= 23 /\ Forall (fun c => 45 <= c <= 57) t.
(** a realloc that works extends the block far enough *)
Definition fill_ok (fill : option (list Z)) (s : lst) : Prop :=
  match fill, l_pc s with Some x, L131 m _ _ => 16 + integer_roundup_pow_of_two (u32 (zlen m)) <= zlen (l_cache s ++ x) | _, _ => True end.

Inductive lstep (cfg : fcfg) : lst -> lst -> Prop :=
| LSW s e mem s' : time_text (e_time e) -> lwexec cfg e mem s = Ret (Some s') -> lstep cfg s s'
| LSP s fill ok s' : fill_ok fill s -> lexec cfg fill ok s = Ret (Some s') -> lstep cfg s s'
| LSD s s' : ldexec s = Some s' -> lstep cfg s s'
| LSCall s m : l_pc s = LIdle -> l_d s = DLive -> zlen m < two64 -> lstep cfg s (lset_pc (lemit s (LCall m)) (L131 m 0 MQ_BUF_NOT_ENOUGH))
| LSDeinit s : l_pc s = LIdle -> l_d s = DLive ->
    lstep cfg s (lset_d (lset_h (lemit s LDeinit) (set_ds (hemit (l_h s) HDestroy) D174)) DDestroying).

(** file_logger.c:68-95: a logger just created around queue [q]; the file system already holds [fs] *)
Definition lboot (q : rb Z) (fs : fsys) : lst :=
  mk_l (hboot q) (mk_w None 0 fs []) 0 (repeat 0 (Z.to_nat 2064)) 2048 LIdle DLive [].
Inductive lreach (cfg : fcfg) (q : rb Z) (fs : fsys) : lst -> Prop :=
| LR0 : lreach cfg q fs (lboot q fs)
| LRS s s' : lreach cfg q fs s -> lstep cfg s s' -> lreach cfg q fs s'.

(** ** file_logger_init, the configuration: file_logger.c:60-67, 88, 96-118.
    [folder] is the 128-byte array log_folder_path. None: file_logger_init returns NULL. A failed malloc in
    strreplace makes strlcpy read a null pointer (Ub). The other allocations succeed here. *)
Definition init_folder (malloc : Z -> option (list Z)) (folder : list Z) : outcome (option (list Z)) :=
  do len <- strlen_at folder 0;
  if len <? 2 then Ret None
  else
    do t <- cstr_at folder 0;
    do rep <- strreplace malloc (length t) t [92] [47];
    match rep with
    | None => Ub
    | Some r =>
        do (folder, _) <- strlcpy folder r 128;
        do len <- strlen_at folder 0;
        do c <- mload folder (u64 (len - 1));
        if c =? 47 then Ret (Some folder)
        else
          let loc := if len + 1 <? 128 then len else len - 1 in
          do folder <- mstore folder loc 47;
          do folder <- mstore folder (loc + 1) 0;
          Ret (Some folder)
    end.
(** file_logger.c:107-111 *)
Definition norm_max (n : Z) : Z := if negb (n =? 0) && (n <? 64) then 0 else n.
(** file_logger.c:88: (uint32_t)log_queue_size * 1024U *)
Definition queue_bytes (size : Z) : Z := u32 (u32 size * 1024).
(** the whole function: [folder] and [prefix] are the arrays of the configuration; result: the
    configuration of the new logger and the byte size asked of msg_queue_handler_create *)
Definition file_logger_init (malloc : Z -> option (list Z)) (folder prefix : list Z) (max size : Z) (keep : bool)
  : outcome (option (fcfg * Z)) :=
  do o <- (if size <? 2 then do len <- strlen_at folder 0; Ret None else init_folder malloc folder);
  match o with
  | None => Ret None
  | Some folder =>
      if queue_bytes size <? 4 then Ret None
      else
        do f <- cstr_at folder 0; do p <- cstr_at prefix 0;
        Ret (Some ({| f_folder := f; f_prefix := p; f_max := norm_max max; f_keep := keep |}, queue_bytes size))
  end.
