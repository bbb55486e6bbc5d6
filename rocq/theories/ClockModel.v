(** Model of the clocks of src/time/time_util.c: gettimeofday for Windows (lines 40-132), current_ms (320-325),
    query_performance_ms (327-368), zone_offset_seconds_to_utc (166-181). *)
From Verif Require Import CBase ThreadLib.

(** ** The time of day *)
(** lines 45, 51-52 *)
Definition EPOCH : Z := 116444736000000000.
Definition UNITS_PER_SEC : Z := 10000000.
Definition UNITS_PER_USEC : Z := 10.
(** gettimeofday, lines 121-129, when the system reports ft (100 ns units since 1601); long has 32 bits *)
Definition gettimeofday_win (ft : Z) : Z * Z :=
  let unix_epoch := u64 (ft - EPOCH) in
  (s32 (unix_epoch / UNITS_PER_SEC), s32 (unix_epoch mod UNITS_PER_SEC / UNITS_PER_USEC)).
(** time_util_current_ms, line 324, from tv_sec and tv_usec *)
Definition current_ms (tv : Z * Z) : Z := u64 (u64 (u64 (fst tv) * 1000) + u64 (snd tv) / 1000).
Definition current_ms_win (ft : Z) : Z := current_ms (gettimeofday_win ft).

(** ** gettimeofday's one-time initialiser, lines 65-105 and 121, for any number of threads, statement by
    statement. has_k: kernel32.dll found (line 87); has_p: GetSystemTimePreciseAsFileTime found (line 88) *)
Inductive fn := FInit | FPrecise | FPlain | FNull.
Inductive gpc := GIdle | G121 | G87 | G88 | G101 | G104 | GCall (f : fn).
Record gst := mk_gs { gp : fn; gpcs : list gpc; glog : list (nat * fn) }.
Definition g_init (n : nat) : gst := mk_gs FInit (repeat GIdle n) [].
Inductive res (S : Type) := Next (s : S) | Crash | Stuck.
Arguments Next {S}. Arguments Crash {S}. Arguments Stuck {S}.
Definition ggo (s : gst) (f : fn) (t : nat) (p : gpc) : res gst := Next (mk_gs f (lset t p (gpcs s)) (glog s)).
(** calling through the pointer: the initialiser, a system function, or address 0 *)
Definition gcall (s : gst) (t : nat) : res gst :=
  match gp s with FInit => ggo s (gp s) t G87 | FNull => Crash | f => ggo s (gp s) t (GCall f) end.
Definition gexec (has_k has_p : bool) (t : nat) (s : gst) : res gst :=
  match nth_error (gpcs s) t with
  | None => Stuck
  | Some GIdle => ggo s (gp s) t G121
  | Some G121 => gcall s t
  | Some G87 => ggo s (gp s) t (if has_k then G88 else G101)
  | Some G88 => if has_p then ggo s FPrecise t G104 else ggo s FNull t G101
  | Some G101 => ggo s FPlain t G104
  | Some G104 => gcall s t
  | Some (GCall f) => Next (mk_gs (gp s) (lset t GIdle (gpcs s)) ((t, f) :: glog s))
  end.
Fixpoint grun (has_k has_p : bool) (l : list nat) (s : gst) : res gst :=
  match l with [] => Next s | t :: l => match gexec has_k has_p t s with Next s' => grun has_k has_p l s' | r => r end end.

(** ** time_util_query_performance_ms for any number of threads; freq: what QueryPerformanceFrequency reports.
    The ASSERT of line 348 only evaluates its argument in a release build *)
Inductive ppc := PIdle | P361 | I346 | I347 | I350 | I351 | C335 | Q363 (m : Z) | D364 (m c : Z).
(** pfp: the pointer of line 341 has been switched; pctr: the performance counter; plog: thread, counter value
    read, result *)
Record pst := mk_ps { pfp : bool; pcache : Z; pctr : Z; ppcs : list ppc; plog : list (nat * Z * Z) }.
Definition p_init (n : nat) : pst := mk_ps false 0 0 (repeat PIdle n) [].
Definition pgo (s : pst) (t : nat) (p : ppc) : res pst := Next (mk_ps (pfp s) (pcache s) (pctr s) (lset t p (ppcs s)) (plog s)).
Definition pexec (freq : Z) (t : nat) (s : pst) : res pst :=
  match nth_error (ppcs s) t with
  | None => Stuck
  | Some PIdle => pgo s t P361
  | Some P361 => pgo s t (if pfp s then C335 else I346)                       (* 361 *)
  | Some I346 => pgo s t I347                                                 (* 345-346 *)
  | Some I347 => Next (mk_ps (pfp s) (freq / 1000) (pctr s) (lset t I350 (ppcs s)) (plog s))   (* 347-348 *)
  | Some I350 => Next (mk_ps true (pcache s) (pctr s) (lset t I351 (ppcs s)) (plog s))         (* 350 *)
  | Some I351 => pgo s t (if pfp s then C335 else I346)                       (* 351 *)
  | Some C335 => pgo s t (Q363 (pcache s))                                    (* 335 *)
  | Some (Q363 m) => pgo s t (D364 m (pctr s))                                (* 362-363 *)
  | Some (D364 m c) => if m =? 0 then Crash                                   (* 364 *)
                       else Next (mk_ps (pfp s) (pcache s) (pctr s) (lset t PIdle (ppcs s)) ((t, c, c / m) :: plog s))
  end.
(** PTick d: the counter goes on by d *)
Inductive pact := PStep (t : nat) | PTick (d : Z).
Definition pdo (freq : Z) (a : pact) (s : pst) : res pst :=
  match a with
  | PStep t => pexec freq t s
  | PTick d => if d <? 0 then Stuck else Next (mk_ps (pfp s) (pcache s) (pctr s + d) (ppcs s) (plog s))
  end.
Fixpoint prun (freq : Z) (l : list pact) (s : pst) : res pst :=
  match l with [] => Next s | a :: l => match pdo freq a s with Next s' => prun freq l s' | r => r end end.

(** ** time_util_zone_offset_seconds_to_utc, lines 166-181. A broken-down time is the count of its seconds;
    gmtime of raw is raw; mktime: the instant mktime finds for a local time *)
Definition zone_offset (mktime : Z -> Z) (raw : Z) : Z := raw - mktime raw.
