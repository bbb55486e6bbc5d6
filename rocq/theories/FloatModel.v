(** Model of the floating-point numbers of src/mem/str_params.c: str_params_add_double, add_float, get_double, get_float
    (lines 226-242, 292-319). Finite IEEE numbers as rationals; printf and strtod round correctly, to even (glibc).
    Simplified: infinities and NaN, and strtod's exponents, hexadecimal numbers and names, are left out. *)
From Coq Require Export QArith Qround Qpower.
From Verif Require Import CBase CStr StrParamsModel.
Open Scope Z_scope.

(** sign, significand, exponent: a number has several representations *)
Record fl := mk_f { neg : bool; mant : Z; expo : Z }.
Definition pow2 (e : Z) : Q := Qpower (2#1) e.
Definition mag (x : fl) : Q := (inject_Z (mant x) * pow2 (expo x))%Q.
Definition val (x : fl) : Q := if neg x then (- mag x)%Q else mag x.
(** to the nearest integer, ties to even *)
Definition nearest (q : Q) : Z :=
  let f := Qfloor q in
  let r := (q - inject_Z f)%Q in
  if Qle_bool (1#2) r then if Qle_bool r (1#2) then if Z.even f then f else f + 1 else f + 1 else f.
(** the exponent of the leading bit of a positive number *)
Definition lead (v : Q) : Z :=
  let k := Z.log2 (Qnum v) - Z.log2 (QDen v) in if Qle_bool (pow2 k) v then k else k - 1.
(** rounding to P bits, least exponent emin *)
Definition round (P emin : Z) (sgn : bool) (v : Q) : fl :=
  if Qle_bool v 0 then mk_f sgn 0 emin
  else let e := Z.max emin (lead v - (P - 1)) in mk_f sgn (nearest (v / pow2 e)) e.
Definition round_double : bool -> Q -> fl := round 53 (-1074).
Definition round_float : bool -> Q -> fl := round 24 (-149).

(** printf("%.10f") *)
Fixpoint pad (k : nat) (n : Z) : list Z := match k with O => [] | S k => pad k (n / 10) ++ [48 + n mod 10] end.
Definition fmt10 (x : fl) : list Z :=
  let n := nearest (mag x * inject_Z (10 ^ 10)) in
  (if neg x then [45] else []) ++ decimal (n / 10 ^ 10) ++ [46] ++ pad 10 (n mod 10 ^ 10).
(** strtod(s, &end) and strtof(s, &end) on decimal notation: the number and the offset of end *)
Definition strto (rnd : bool -> Q -> fl) (s : list Z) : fl * Z :=
  let w := count_space s in
  let s1 := zdrop w s in
  let ng := match s1 with c :: _ => c =? 45 | [] => false end in
  let sgn := match s1 with c :: _ => if (c =? 45) || (c =? 43) then 1 else 0 | [] => 0 end in
  let s2 := zdrop sgn s1 in
  let i := strtol_digits 10 0 s2 in
  let s3 := zdrop (snd i) s2 in
  let dot := match s3 with c :: _ => c =? 46 | [] => false end in
  let f := if dot then strtol_digits 10 (fst i) (zdrop 1 s3) else (fst i, 0) in
  if snd i + snd f =? 0 then (mk_f false 0 0, 0)
  else (rnd ng (fst f # Z.to_pos (10 ^ snd f)), w + sgn + snd i + (if dot then 1 + snd f else 0)).
Definition strtod : list Z -> fl * Z := strto round_double.
Definition strtof : list Z -> fl * Z := strto round_float.

(** str_params_add_double, lines 226-237, is StrParamsModel.sp_add_double with the text of the number *)
Definition add_double (a : sp_alloc) (p : sp) (key : list Z) (x : fl) : outcome (sp * Z) := sp_add_double a p key (fmt10 x).
(** str_params_add_float, lines 239-242: a float is a double *)
Definition add_float (a : sp_alloc) (p : sp) (key : list Z) (x : fl) : outcome (sp * Z) := add_double a p key x.
(** str_params_get_double, lines 292-308: code and, when 0, the value stored in *out_val *)
Definition get_double (p : sp) (key : list Z) : outcome (Z * option fl) :=
  do v <- sp_get p key;
  if v =? 0 then Ret (-2, None)
  else
    let value := decode v in
    let r := strtod value in
    if (zlen value =? 0) || negb (snd r =? zlen value) then Ret (-22, None) else Ret (0, Some (fst r)).
(** str_params_get_float, lines 310-319: conversion of a double to float *)
Definition get_float (p : sp) (key : list Z) : outcome (Z * option fl) :=
  do (c, v) <- get_double p key; Ret (c, option_map (fun x => round_float (neg x) (mag x)) v).
