(** What RFC 1123 and RFC 2822 ask for: "Fri, 11 Jun 2021 03:42:56 GMT". *)
From Verif Require Import CBase CStr TimeModel TimeSpec RfcModel.
From Coq Require Import String Ascii.

Definition bytes (s : string) : list Z := map (fun a => Z.of_nat (nat_of_ascii a)) (list_ascii_of_string s).
Definition day_name (w : Z) : list Z :=
  bytes (nth (Z.to_nat w) ["Sun"; "Mon"; "Tue"; "Wed"; "Thu"; "Fri"; "Sat"]%string ""%string).
Definition month_name (m : Z) : list Z :=
  bytes (nth (Z.to_nat (m - 1)) ["Jan"; "Feb"; "Mar"; "Apr"; "May"; "Jun"; "Jul"; "Aug"; "Sep"; "Oct"; "Nov"; "Dec"]%string ""%string).
(** the C (POSIX) locale, where gmtime's zone is +0000 *)
Definition C_locale : locale := mk_l day_name (fun m => month_name (m + 1)) (bytes "+0000").
(** names of three letters, a zone of at most five *)
Definition small_locale (l : locale) : Prop :=
  (forall w, 0 <= w < 7 -> text (l_day l w) /\ zlen (l_day l w) = 3) /\ (forall m, 0 <= m < 12 -> text (l_mon l m) /\ zlen (l_mon l m) = 3) /\ text (l_zone l) /\ zlen (l_zone l) <= 5.

(** the days 0 = Sunday .. 6 = Saturday; 1 January 1970 was a Thursday *)
Definition weekday (t : Z) : Z := (t / 86400 + 4) mod 7.
Definition year_of (t : Z) : Z := let '(y, _, _) := date_at (t / 86400) in y.
Definition month_of (t : Z) : Z := let '(_, m, _) := date_at (t / 86400) in m.
Definition day_of (t : Z) : Z := let '(_, _, d) := date_at (t / 86400) in d.
Definition four_digits (n : Z) : list Z := two_digits (n / 100) ++ two_digits (n mod 100).
Definition clock (t : Z) : list Z :=
  two_digits (t mod 86400 / 3600) ++ bytes ":" ++ two_digits (t mod 3600 / 60) ++ bytes ":" ++ two_digits (t mod 60).
(** the date text with the names of a locale and a zone *)
Definition date_text (day mon zone : list Z) (t : Z) : list Z :=
  day ++ bytes ", " ++ two_digits (day_of t) ++ bytes " " ++ mon ++ bytes " " ++ four_digits (year_of t) ++ bytes " " ++ clock t ++ bytes " " ++ zone.
Definition rfc_text (zone : list Z) (t : Z) : list Z := date_text (day_name (weekday t)) (month_name (month_of t)) zone t.
Definition GMT : list Z := bytes "GMT".
Definition UTC : list Z := bytes "UTC".
Definition plus0000 : list Z := bytes "+0000".
