(** Specification: which pairs of a significand and an exponent are finite IEEE numbers. *)
From Verif Require Import CBase FloatModel.
(** binary64: 53 bits *)
Definition is_double (x : fl) : Prop := 0 <= mant x < 2 ^ 53 /\ -1074 <= expo x <= 971.
(** binary32: 24 bits *)
Definition is_float (x : fl) : Prop := 0 <= mant x < 2 ^ 24 /\ -149 <= expo x <= 104.
(** a store after any history of operations *)
From Verif Require Import CStr StrParamsModel StrParamsSpec.
Definition reached (p1 : sp) : Prop := exists okx t r p h res,
  tables_ok okx /\ text t /\ sp_create true true okx (Some (t ++ 0 :: r)) = Ret (Some p) /\
  Forall valid_op h /\ zlen h < 288230376151711744 /\ sp_run p h = Ret (p1, res).
(** every allocation of the call succeeds *)
Definition enough (a : sp_alloc) : Prop := tables_ok (sa_table a) /\ sa_key a = true /\ sa_val a = true /\ sa_entry a = true.
(** a number in decimal notation: white space, a sign, digits with perhaps a point; negative or not, all its digits as one integer,
    and how many of them follow the point *)
Definition digits_value (l : list Z) : Z := fold_left (fun n c => 10 * n + (c - 48)) l 0.
Definition number (v : list Z) (negative : bool) (n k : Z) : Prop := exists sp sign ip fp point,
  v = sp ++ sign ++ ip ++ point ++ fp /\ Forall (fun c => c = 32 \/ 9 <= c <= 13) sp /\
  (sign = [45] /\ negative = true \/ (sign = [] \/ sign = [43]) /\ negative = false) /\
  Forall (fun c => 48 <= c <= 57) (ip ++ fp) /\ ip ++ fp <> [] /\ (point = [46] \/ point = [] /\ fp = []) /\ n = digits_value (ip ++ fp) /\ k = zlen fp.
(** no letters: no exponent, not hexadecimal, not "inf" or "nan" *)
Definition letterless (v : list Z) : Prop := Forall (fun c => ~ (65 <= c <= 90) /\ ~ (97 <= c <= 122)) v.
