(** Model of src/time/time_rfc1123.c and src/time/time_rfc2822.c.
    Of the C library: gmtime_r is given by the calendar (TimeSpec) and fails when the year does not fit an int;
    strftime is an interpreter of the directives these files use, in any locale. *)
From Verif Require Import CBase CStr TimeModel TimeSpec.

(** ** The C library *)
Record gtm := mk_g { g_sec : Z; g_min : Z; g_hour : Z; g_mday : Z; g_mon : Z; g_year : Z; g_wday : Z }.
(** the date n days after 1 January 1970, n of any sign: the calendar repeats every 400 years, 146097 days *)
Definition date_at (n : Z) : Z * Z * Z := let '(y, m, d) := date_of (n mod 146097) in (y + 400 * (n / 146097), m, d).
(** gmtime_r: None when it returns NULL (EOVERFLOW) and stores nothing *)
Definition gmtime_r (t : Z) : option gtm :=
  let '(y, m, d) := date_at (t / 86400) in
  if int_ok (y - 1900) then Some (mk_g (t mod 60) (t / 60 mod 60) (t / 3600 mod 24) d (m - 1) (y - 1900) ((t / 86400 + 4) mod 7)) else None.
(** abbreviated names of the locale, and the text %z stands for *)
Record locale := mk_l { l_day : Z -> list Z; l_mon : Z -> list Z; l_zone : list Z }.
Definition signed (n : Z) : list Z := if n <? 0 then 45 :: decimal (- n) else decimal n.
Definition directive (l : locale) (v : gtm) (c : Z) : list Z :=
  if c =? 97 then l_day l (g_wday v)                (* %a *)
  else if c =? 98 then l_mon l (g_mon v)            (* %b *)
  else if c =? 100 then two_digits (g_mday v)       (* %d *)
  else if c =? 72 then two_digits (g_hour v)        (* %H *)
  else if c =? 77 then two_digits (g_min v)         (* %M *)
  else if c =? 83 then two_digits (g_sec v)         (* %S *)
  else if c =? 84 then two_digits (g_hour v) ++ [58] ++ two_digits (g_min v) ++ [58] ++ two_digits (g_sec v) (* %T *)
  else if c =? 89 then signed (g_year v + 1900)     (* %Y *)
  else if c =? 122 then l_zone l                    (* %z *)
  else [].
Fixpoint expand (l : locale) (v : gtm) (f : list Z) : list Z :=
  match f with
  | [] => []
  | c :: f => if c =? 37 then match f with d :: f => directive l v d ++ expand l v f | [] => [] end else c :: expand l v f
  end.
(** strftime: text and terminator if they fit into max bytes, else the max bytes are unspecified (junk) *)
Definition strftime (l : locale) (junk : Z -> Z) (buf : list Z) (max : Z) (f : list Z) (v : gtm) : outcome (list Z) :=
  let s := expand l v f in
  if zlen s + 1 <=? max then mwrite buf 0 (s ++ [0]) else mwrite buf 0 (map (fun i => junk (Z.of_nat i)) (seq 0 (Z.to_nat max))).

(** ** time_rfc1123.c *)
(** DAY_NAMES, MONTH_NAMES, lines 5-9: indexing outside is undefined *)
Definition DAY_NAMES : list (list Z) := [[83;117;110]; [77;111;110]; [84;117;101]; [87;101;100]; [84;104;117]; [70;114;105]; [83;97;116]].
Definition MONTH_NAMES : list (list Z) := [[74;97;110]; [70;101;98]; [77;97;114]; [65;112;114]; [77;97;121]; [74;117;110];
  [74;117;108]; [65;117;103]; [83;101;112]; [79;99;116]; [78;111;118]; [68;101;99]].
Definition name (t : list (list Z)) (i : Z) : outcome (list Z) :=
  if i <? 0 then Ub else match nth_error t (Z.to_nat i) with Some x => Ret x | None => Ub end.
(** "---, %d --- %Y %H:%M:%S GMT", line 20 *)
Definition FMT1123 : list Z := [45;45;45;44;32;37;100;32;45;45;45;32;37;89;32;37;72;58;37;77;58;37;83;32;71;77;84].
(** inc/time/time_rfc1123.h:12 *)
Definition SIZE1123 : Z := 30.
(** time_rfc1123, lines 11-24. out: None for NULL; size: the argument; uninit: what the uninitialised struct tm
    holds. The buffer and the result *)
Definition time_rfc1123 (l : locale) (junk : Z -> Z) (uninit : gtm) (t : Z) (out : option (list Z)) (size : Z) : outcome (option (list Z) * Z) :=
  match out with
  | None => Ret (None, -1)                                                    (* 13-16 *)
  | Some buf =>
      if size <? SIZE1123 then Ret (Some buf, -1)
      else let v := match gmtime_r t with Some v => v | None => uninit end in  (* 17-18 *)
           do buf <- strftime l junk buf SIZE1123 FMT1123 v;                   (* 20 *)
           do n <- name DAY_NAMES (g_wday v); do buf <- mwrite buf 0 (ztake 3 n);   (* 21 *)
           do n <- name MONTH_NAMES (g_mon v); do buf <- mwrite buf 8 (ztake 3 n);  (* 22 *)
           Ret (Some buf, 0)
  end.

(** ** time_rfc2822.c *)
(** inc/time/time_rfc2822.h:12-13 *)
Definition SIZE2822 : Z := 32.
Definition SIZE2822_UTC : Z := 30.
(** "%a, %d %b %Y %T %z" and "%a, %d %b %Y %T UTC", lines 24 and 34 *)
Definition FMT2822 : list Z := [37;97;44;32;37;100;32;37;98;32;37;89;32;37;84;32;37;122].
Definition FMT2822_UTC : list Z := [37;97;44;32;37;100;32;37;98;32;37;89;32;37;84;32;85;84;67].
(** time_strf, lines 4-16 *)
Definition time_strf (l : locale) (junk : Z -> Z) (uninit : gtm) (t : Z) (buf : list Z) (size : Z) (f : list Z) : outcome (list Z) :=
  do buf <- mstore buf 0 0;                                                    (* 7 *)
  let v := match gmtime_r t with Some v => v | None => uninit end in           (* 9 *)
  strftime l junk buf size f v.                                                (* 10-15 *)
(** time_rfc2822 and time_rfc2822_utc, lines 18-26 and 28-36 *)
Definition rfc2822 (min : Z) (f : list Z) (l : locale) (junk : Z -> Z) (uninit : gtm) (t : Z) (out : option (list Z)) (size : Z) : outcome (option (list Z) * Z) :=
  match out with
  | None => Ret (None, -1)
  | Some buf => if size <? min then Ret (Some buf, -1) else do buf <- time_strf l junk uninit t buf size f; Ret (Some buf, 0)
  end.
Definition time_rfc2822 := rfc2822 SIZE2822 FMT2822.
Definition time_rfc2822_utc := rfc2822 SIZE2822_UTC FMT2822_UTC.
