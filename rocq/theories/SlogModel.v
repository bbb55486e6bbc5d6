(** Model of src/log/slog.c and inc/log/slog.h (not Android), and of the redirection of stdout in src/log/xlog.c:144-182.
    printf appends the formatted bytes to what stdout is connected to; formatting the user's message is left out (the
    message is given). Simplified: stdio buffering is left out. *)
From Verif Require Import CBase CStr StringsModel.

(** ** stdout *)
(** a place bytes can go to: the program's original stdout, the terminal (_STDOUT_NODE), a file *)
Inductive place := Original | Terminal | File (p : list Z).
Definition place_eq (a b : place) : {a = b} + {a <> b}.
Proof. decide equality. apply (list_eq_dec Z.eq_dec). Defined.
(** dst: what stdout is connected to, None: the stream is closed; got: what each place has received *)
Record out := mk_o { dst : option place; got : place -> list Z }.
Definition upd (f : place -> list Z) (p : place) (v : list Z) : place -> list Z := fun q => if place_eq p q then v else f q.
(** printf, fflush, fclose, freopen on stdout. strict: ISO C, where any use of a closed stream is undefined; otherwise the
    stream object still exists (glibc, Windows): writing and flushing fail, freopen works *)
Definition o_print (strict : bool) (t : list Z) (o : out) : outcome out :=
  match dst o with
  | Some p => Ret (mk_o (dst o) (upd (got o) p (got o p ++ t)))
  | None => if strict then Ub else Ret o
  end.
Definition o_flush (strict : bool) (o : out) : outcome out := match dst o with Some _ => Ret o | None => if strict then Ub else Ret o end.
Definition o_close (o : out) : outcome out := match dst o with Some _ => Ret (mk_o None (got o)) | None => Ub end.
(** mode "w" empties a file, not the terminal; ok: can it be opened. The stream is closed first in any case *)
Definition o_reopen (strict ok : bool) (p : place) (o : out) : outcome (bool * out) :=
  match dst o, strict with
  | None, true => Ub
  | _, _ => if ok then Ret (true, mk_o (Some p) (match p with File _ => upd (got o) p [] | _ => got o end)) else Ret (false, mk_o None (got o))
  end.

(** ** State: _g_slog_min_level; g_slog.fp_out and g_xlog_cfg.fp_out (NULL or stdout) *)
Record st := mk_s { lvl : Z; sfp : bool; xfp : bool; so : out }.
(** slog.c:5, 14; before: what the places held *)
Definition start (before : place -> list Z) : st := mk_s 1 false false (mk_o (Some Original) before).
(** slog_set_min_level, slog.c:17-26 (what it writes to stderr is left out) *)
Definition set_min_level (l : Z) (s : st) : st := if (l <? 0) || (l >? 5) then s else mk_s l (sfp s) (xfp s) (so s).
Definition print (strict : bool) (t : list Z) (s : st) : outcome st := do o <- o_print strict t (so s); Ret (mk_s (lvl s) (sfp s) (xfp s) o).
(** the test in _SLOGV_IMPL ... _SLOGE_IMPL, slog.h:63-73, 107-111 *)
Definition enabled (l : Z) (s : st) : bool := negb (lvl s =? 0) && (lvl s <=? l).
Definition level_char (l : Z) : Z := if l =? 1 then 86 else if l =? 2 then 68 else if l =? 3 then 73 else if l =? 4 then 87 else 69.
(** SLOGV ... SLOGE, slog.h:63-67 *)
Definition slog (strict : bool) (l : Z) (tag msg : list Z) (s : st) : outcome st :=
  if enabled l s then print strict ([91; level_char l; 47] ++ tag ++ [93; 32] ++ msg ++ [10]) s else Ret s.
(** SLOGV_TRACE ... SLOGE_TRACE, slog.h:69-73 *)
Definition slog_trace (strict : bool) (l : Z) (tag func : list Z) (line : Z) (msg : list Z) (s : st) : outcome st :=
  if enabled l s then print strict ([91; level_char l; 47] ++ tag ++ [93; 40] ++ func ++ [58] ++ decimal line ++ [41; 32] ++ msg ++ [10]) s else Ret s.
(** __slog_internal_hex_print, slog.c:81-104; junk: what the array holds at first. %s prints up to the terminator *)
Fixpoint cstr (b : list Z) : outcome (list Z) := match b with [] => Ub | c :: b => if c =? 0 then Ret [] else do r <- cstr b; Ret (c :: r) end.
Definition hex_print (strict : bool) (l : Z) (tag chars : list Z) (count : Z) (junk : list Z) (s : st) : outcome st :=
  do r <- str_char2hex junk 256 chars count;
  do t <- cstr (fst r);
  slog strict (if (l =? 1) || (l =? 2) || (l =? 3) || (l =? 4) then l else 5) tag t s.
(** SLOGV_HEX ... SLOGE_HEX, slog.h:107-111 *)
Definition slog_hex (strict : bool) (l : Z) (tag chars : list Z) (count : Z) (junk : list Z) (s : st) : outcome st :=
  if enabled l s then hex_print strict l tag chars count junk s else Ret s.

(** slog_stdout2file, slog.c:39-57. fp_out is NULL or stdout, so lines 47-49 are never reached *)
Definition slog_stdout2file (strict ok : bool) (path : option (list Z)) (s : st) : outcome st :=
  match path with
  | None | Some [] => Ret s
  | Some p => do o <- o_flush strict (so s);
              do r <- o_reopen strict ok (File p) o;
              Ret (mk_s (lvl s) (fst r) (xfp s) (snd r))
  end.
(** slog_back2stdout, slog.c:59-73 *)
Definition slog_back2stdout (strict ok : bool) (s : st) : outcome st :=
  if negb (sfp s) then Ret s
  else do o <- o_flush strict (so s); do o <- o_close o;
       do r <- o_reopen strict ok Terminal o; Ret (mk_s (lvl s) false (xfp s) (snd r)).
(** xlog_stdout2file, xlog.c:144-164 *)
Definition xlog_stdout2file (strict ok : bool) (path : option (list Z)) (s : st) : outcome st :=
  match path with
  | None | Some [] => Ret s
  | Some p => do o <- (if xfp s then do o <- o_flush strict (so s); o_close o else Ret (so s));
              do o <- o_flush strict o;
              do r <- o_reopen strict ok (File p) o;
              Ret (mk_s (lvl s) (sfp s) (fst r) (snd r))
  end.
(** xlog_back2stdout, xlog.c:166-182 *)
Definition xlog_back2stdout (strict ok : bool) (s : st) : outcome st :=
  if negb (xfp s) then Ret s
  else do o <- o_flush strict (so s); do o <- o_close o;
       do r <- o_reopen strict ok Terminal o; Ret (mk_s (lvl s) (sfp s) false (snd r)).

(** ** Histories. x: of xlog, otherwise of slog *)
Inductive op := ToFile (x ok : bool) (path : option (list Z)) | Back (x ok : bool) | Print (t : list Z) | SetMin (l : Z) | Log (l : Z) (tag msg : list Z).
Definition step (strict : bool) (o : op) (s : st) : outcome st :=
  match o with
  | ToFile x ok p => (if x then xlog_stdout2file else slog_stdout2file) strict ok p s
  | Back x ok => (if x then xlog_back2stdout else slog_back2stdout) strict ok s
  | Print t => print strict t s
  | SetMin l => Ret (set_min_level l s)
  | Log l tag msg => slog strict l tag msg s
  end.
Fixpoint run (strict : bool) (l : list op) (s : st) : outcome st := match l with [] => Ret s | o :: l => do s <- step strict o s; run strict l s end.

(** ** Threads in xlog_stdout2file and xlog_back2stdout, xlog.c:144-182, statement by statement where another thread can
    interfere: the test of line 168 is outside the lock, lines 150-163 and 172-181 are inside. fclose(NULL) crashes *)
Inductive tpc := TIdle | TTested | TDone.
Inductive top := TFile (ok : bool) | TBack.
Record tst := mk_t { fp : bool; pcs : list (top * tpc) }.
Inductive res := Next (s : tst) | Crash | Stuck.
Definition texec (t : nat) (s : tst) : res :=
  match nth_error (pcs s) t with
  | Some (TFile ok, TIdle) => Next (mk_t ok (firstn t (pcs s) ++ (TFile ok, TDone) :: skipn (S t) (pcs s)))
  | Some (TBack, TIdle) => Next (mk_t (fp s) (firstn t (pcs s) ++ (TBack, if fp s then TTested else TDone) :: skipn (S t) (pcs s)))
  | Some (TBack, TTested) => if fp s then Next (mk_t false (firstn t (pcs s) ++ (TBack, TDone) :: skipn (S t) (pcs s))) else Crash
  | _ => Stuck
  end.
Fixpoint trun (l : list nat) (s : tst) : res := match l with [] => Next s | t :: l => match texec t s with Next s' => trun l s' | r => r end end.
