(** Model of src/time/time_util.c: calendar conversion and the cached time text. *)
From Verif Require Import CBase CStr StringsModel.

(** struct tm, the fields time_util_fast_second2date stores *)
Record tm := { tm_sec : Z; tm_min : Z; tm_hour : Z; tm_mday : Z; tm_mon : Z; tm_year : Z }.

(** time_util_fast_second2date, src/time/time_util.c:187-211. [t] is the 64-bit time_t, [tz] the int
    timezone_hour. Every int operation is checked for overflow; C division truncates (Z.quot, Z.rem).
    The (unary minus and multiplication) products of lines 201, 203, 205, 207 are checked as one step each:
    the negated operand is never INT_MIN because it is a quotient. *)
Definition fast_second2date (t tz : Z) : outcome tm :=
  let sec := Z.rem t 60 in                                        (* 195 *)
  let minutes := Z.quot (s32 t) 60 in                             (* 196 *)
  let mn := Z.rem minutes 60 in                                   (* 197 *)
  do hours <- sint (Z.quot minutes 60 + tz);                      (* 198 *)
  let hour := Z.rem hours 24 in                                   (* 199 *)
  let mday := Z.quot hours 24 in                                  (* 200 *)
  do a <- sint (mday + 2472632);                                  (* 201 *)
  do a43 <- sint (a * 4 + 3);
  let b := Z.quot a43 146097 in                                   (* 202 *)
  do b1 <- sint (- b * 146097);
  do c <- sint (Z.quot b1 4 + a);                                 (* 203 *)
  do c43 <- sint (c * 4 + 3);
  let d := Z.quot c43 1461 in                                     (* 204 *)
  do d1 <- sint (- d * 1461);
  do e <- sint (Z.quot d1 4 + c);                                 (* 205 *)
  do e52 <- sint (5 * e + 2);
  let m := Z.quot e52 153 in                                      (* 206 *)
  do m1 <- sint (- (153 * m + 2));
  do mday <- sint (Z.quot m1 5 + e + 1);                          (* 207 *)
  do mon <- sint (Z.quot (- m) 10 * 12 + m + 2);                  (* 208 *)
  do year <- sint (b * 100 + d - 6700 + Z.quot m 10);             (* 209 *)
  Ret {| tm_sec := sec; tm_min := mn; tm_hour := hour; tm_mday := mday; tm_mon := mon; tm_year := year |}.

(** TIME_STR_SIZE, inc/time/time_util.h:78 *)
Definition TIME_STR_SIZE : Z := 24.
(** TIME_STAMP_FORMAT "%m-%d %H:%M:%S" and TIME_STAMP_FORMAT_FOR_FILE_NAME "%m%d%H%M%S",
    src/time/time_util.c:15-16, with their terminators *)
Definition FMT_STAMP : list Z := [37;109;45;37;100;32;37;72;58;37;77;58;37;83;0].
Definition FMT_FILE : list Z := [37;109;37;100;37;72;37;77;37;83;0].

(** strftime of the C library: the text it would produce, as a function of the format and the fields *)
Definition strftime_fn := list Z -> tm -> list Z.
(** strftime: the text and its terminator are stored if they fit into the size, else 0 is returned
    (the buffer contents are then unspecified; here: unchanged) *)
Definition strftime (sf : strftime_fn) (str : list Z) (size : Z) (fmt : list Z) (v : tm) : outcome (list Z * Z) :=
  let s := sf fmt v in
  if zlen s + 1 <=? size then do str <- mwrite str 0 (s ++ [0]); Ret (str, zlen s) else Ret (str, 0).

(** format_time, src/time/time_util.c:213-220 *)
Definition format_time (sf : strftime_fn) (str : list Z) (t : Z) (fmt : list Z) (tz : Z) : outcome (list Z * Z) :=
  do v <- fast_second2date t tz;
  strftime sf str TIME_STR_SIZE fmt v.

(** print_millisec, src/time/time_util.c:223-238 (USE_SNPRINTF_MILLISECONDS is 0): buffer is str + off *)
Definition print_millisec (str : list Z) (off num : Z) : outcome (list Z) :=
  do str <- mstore str off 46;                                    (* 228 *)
  do str <- mstore str (off + 3) (48 + num mod 10);               (* 230-234, i = 3 *)
  let num := num / 10 in
  do str <- mstore str (off + 2) (48 + num mod 10);               (* i = 2 *)
  let num := num / 10 in
  do str <- mstore str (off + 1) (48 + num mod 10);               (* i = 1 *)
  mstore str (off + 4) 0.                                         (* 235 *)

(** time_cache_t without its lock, src/time/time_util.c:24-30 *)
Record cache := { c_tz : Z; c_sec : Z; c_usec : Z; c_text : list Z }.
(** g_time_caches, src/time/time_util.c:32-36: static storage, zero initialised *)
Definition cache0 : cache := {| c_tz := 0; c_sec := 0; c_usec := 0; c_text := repeat 0 24 |}.

(** a call of get_time_str: the format, timezone_hour, *tval_p and the caller's buffer *)
Record call := { k_fmt : list Z; k_tz : Z; k_sec : Z; k_usec : Z; k_str : list Z }.

(** (unsigned int)(tval_p->tv_usec / 1000) *)
Definition millis (usec : Z) : Z := u32 (Z.quot usec 1000).

(** the uncached text: lines 286-289 (and 267-270) of src/time/time_util.c *)
Definition get_time_str_plain (sf : strftime_fn) (k : call) : outcome (list Z * Z) :=
  do (str, n) <- format_time sf (k_str k) (k_sec k) (k_fmt k) (k_tz k);
  do str <- print_millisec str n (millis (k_usec k));
  Ret (str, n + 4).

(** GET_TIME_FORMAT_TYPE, src/time/time_util.c:19 *)
Definition fmt_type (fmt : list Z) : outcome Z :=
  do c <- mload fmt 8; Ret (if c =? 58 then 0 else 1).

Inductive first_half := Hit (r : list Z * Z) | Miss (r : list Z * Z).
(** src/time/time_util.c:249-270: under the read lock, then the thread's own work on its buffer.
    A hit returns at once; a miss goes on to the write-locked section. *)
Definition get_time_str_read (sf : strftime_fn) (ch : cache) (k : call) : outcome first_half :=
  if (c_tz ch =? k_tz k) && (c_sec ch =? k_sec k) then            (* 251 *)
    do (str, n) <- strlcpy (k_str k) (c_text ch) TIME_STR_SIZE;   (* 253 *)
    let update := negb (c_usec ch =? k_usec k) in                 (* 254 *)
    if update then
      do str <- print_millisec str (n - 4) (millis (k_usec k));   (* 259 *)
      Ret (Hit (str, n))
    else Ret (Hit (str, n))
  else
    do r <- get_time_str_plain sf k;                              (* 267-270 *)
    Ret (Miss r).
(** src/time/time_util.c:273-281: under the write lock *)
Definition get_time_str_write (ch : cache) (k : call) (str : list Z) : outcome cache :=
  if negb (c_sec ch =? k_sec k) then                              (* 274 *)
    do (txt, _) <- strlcpy (c_text ch) str TIME_STR_SIZE;         (* 277 *)
    Ret {| c_tz := k_tz k; c_sec := k_sec k; c_usec := k_usec k; c_text := txt |}   (* 278-279 *)
  else Ret ch.

(** Threads calling the cached functions (use_cache = true: time_util_get_time_str_current, lines 301-306,
    and time_util_get_time_str_for_file_name_current, lines 313-318). The read-locked section and the
    write-locked section are each one step (the rwlock: writers exclude everyone; readers only read);
    steps of different threads interleave freely. *)
Record state := {
  st_cache : Z -> cache;                          (* g_time_caches[0], [1] *)
  st_pend : Z -> option (call * (list Z * Z));    (* per thread: missed, about to take the write lock *)
  st_log : list (call * outcome (list Z * Z))     (* finished calls with their results, newest first *)
}.
Definition init : state := {| st_cache := fun _ => cache0; st_pend := fun _ => None; st_log := [] |}.
Inductive act := Enter (tid : Z) (k : call) | Leave (tid : Z).
Definition setf {V} (f : Z -> V) (i : Z) (v : V) : Z -> V := fun j => if j =? i then v else f j.
(** one section of get_time_str with use_cache = true, src/time/time_util.c:240-294; None: not possible now *)
Definition step (sf : strftime_fn) (s : state) (a : act) : option state :=
  match a with
  | Enter tid k =>
    match st_pend s tid with
    | Some _ => None
    | None =>
      let done r := Some {| st_cache := st_cache s; st_pend := st_pend s; st_log := (k, r) :: st_log s |} in
      match (do ty <- fmt_type (k_fmt k); get_time_str_read sf (st_cache s ty) k) with
      | Ret (Hit r) => done (Ret r)
      | Ret (Miss r) =>
        Some {| st_cache := st_cache s; st_pend := setf (st_pend s) tid (Some (k, r)); st_log := st_log s |}
      | Ub => done Ub
      | Abrt => done Abrt
      | NoFuel => done NoFuel
      end
    end
  | Leave tid =>
    match st_pend s tid with
    | None => None
    | Some (k, (str, n)) =>
      match fmt_type (k_fmt k) with
      | Ret ty =>
        match get_time_str_write (st_cache s ty) k str with
        | Ret ch => Some {| st_cache := setf (st_cache s) ty ch; st_pend := setf (st_pend s) tid None;
                            st_log := (k, Ret (str, n)) :: st_log s |}
        | _ => Some {| st_cache := st_cache s; st_pend := setf (st_pend s) tid None;
                       st_log := (k, Ub) :: st_log s |}
        end
      | _ => None
      end
    end
  end.
