(** Model of mplite_print_stats, src/mem/mplite.c:281-321: the lines handed to the caller's puts function. *)
From Coq Require Import String Ascii.
From Verif Require Import CBase CStr MpliteModel.
Fixpoint bytes (s : string) : list Z := match s with EmptyString => [] | String c s => Z.of_nat (nat_of_ascii c) :: bytes s end.
(** snprintf into zStats[256] with "%u" and what puts then reads *)
Definition line (junk : list Z) (text : string) (n : Z) : outcome (list Z) :=
  do r <- snprintf_at junk 0 256 (bytes text ++ decimal (u32 n)); cstr_at (fst r) 0.
Local Open Scope string_scope.
Definition stat_lines (h : mp) : list (string * Z) :=
  [("Total number of calls to malloc: ", mp_nalloc h);
   ("Total of all malloc calls - includes internal fragmentation: ", mp_total h);
   ("Total internal fragmentation: ", mp_excess h);
   ("Current checkout, including internal fragmentation: ", mp_out h);
   ("Current number of distinct checkouts: ", mp_count h);
   ("Maximum instantaneous currentOut: ", mp_maxout h);
   ("Maximum instantaneous currentCount: ", mp_maxcount h);
   ("Largest allocation (exclusive of internal frag): ", mp_maxreq h)].
Fixpoint put_lines (junk : list Z) (l : list (string * Z)) : outcome (list (list Z)) :=
  match l with [] => Ret [] | (t, n) :: l => do a <- line junk t n; do b <- put_lines junk l; Ret (a :: b) end.
(** junk: what the stack holds. Simplified: zStats keeps the earlier line, which no later line depends on *)
Definition print_stats (junk : list Z) (h : mp) : outcome (list (list Z)) := put_lines junk (stat_lines h).
