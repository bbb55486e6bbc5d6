(** Specification for C33 and C34: the Gregorian calendar by counting days, and the time texts. *)
From Verif Require Import CBase CStr TimeModel.

(** ** The Gregorian calendar: a date is (year, month 1..12, day 1..31) *)
Definition leap (y : Z) : bool := (y mod 4 =? 0) && (negb (y mod 100 =? 0) || (y mod 400 =? 0)).
Definition month_days (y m : Z) : Z :=
  if m =? 2 then (if leap y then 29 else 28)
  else if (m =? 4) || (m =? 6) || (m =? 9) || (m =? 11) then 30 else 31.
Definition next_day (x : Z * Z * Z) : Z * Z * Z :=
  let '(y, m, d) := x in
  if d <? month_days y m then (y, m, d + 1)
  else if m <? 12 then (y, m + 1, 1) else (y + 1, 1, 1).
(** the date [n] days after 1 January 1970 *)
Definition date_of (n : Z) : Z * Z * Z := Nat.iter (Z.to_nat n) next_day (1970, 1, 1).
(** the broken-down local time of [t] seconds after the epoch in a zone [tz] hours east of Greenwich:
    C conventions, months from 0 and years from 1900 *)
Definition local_time (t tz : Z) : tm :=
  let l := t + 3600 * tz in
  let '(y, m, d) := date_of (l / 86400) in
  {| tm_sec := l mod 60; tm_min := (l / 60) mod 60; tm_hour := (l / 3600) mod 24;
     tm_mday := d; tm_mon := m - 1; tm_year := y - 1900 |}.

(** ** Texts *)
Definition two_digits (n : Z) : list Z := [48 + n / 10; 48 + n mod 10].
(** what every C library's strftime guarantees here: a text (no NUL) that leaves room for ".mmm" *)
Definition strftime_ok (sf : strftime_fn) : Prop := forall f v, text (sf f v) /\ zlen (sf f v) <= 19.
(** and the C standard's meaning of %m %d %H %M %S for fields in their normal ranges *)
Definition tm_normal (v : tm) : Prop :=
  0 <= tm_sec v <= 60 /\ 0 <= tm_min v <= 59 /\ 0 <= tm_hour v <= 23 /\ 1 <= tm_mday v <= 31 /\ 0 <= tm_mon v <= 11.
Definition strftime_std (sf : strftime_fn) : Prop := forall v, tm_normal v ->
  sf FMT_STAMP v = two_digits (tm_mon v + 1) ++ [45] ++ two_digits (tm_mday v) ++ [32] ++ two_digits (tm_hour v)
                   ++ [58] ++ two_digits (tm_min v) ++ [58] ++ two_digits (tm_sec v) /\
  sf FMT_FILE v = two_digits (tm_mon v + 1) ++ two_digits (tm_mday v) ++ two_digits (tm_hour v)
                  ++ two_digits (tm_min v) ++ two_digits (tm_sec v).
(** ".mmm" *)
Definition dot_millis (usec : Z) : list Z := let n := usec / 1000 in [46; 48 + n / 100; 48 + n / 10 mod 10; 48 + n mod 10].
(** the call uses one of the two formats of the API and a buffer of TIME_STR_SIZE bytes *)
Definition api_call (k : call) : Prop := (k_fmt k = FMT_STAMP \/ k_fmt k = FMT_FILE) /\ zlen (k_str k) = TIME_STR_SIZE.
(** states reachable by any number of threads making such calls in any interleaving *)
Inductive reach (sf : strftime_fn) : state -> Prop :=
| reach0 : reach sf init
| reach1 s a s' : reach sf s -> (forall tid k, a = Enter tid k -> api_call k) -> step sf s a = Some s' -> reach sf s'.
