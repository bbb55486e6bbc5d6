(** Model of ini_parser_get_double and ini_parser_get_float, src/file/ini_parser.c:584-592, with ini_parser_get_value, lines 647-667 and 702-711.
    As in FloatModel.v, infinities (so overflow), NaN, exponents, hexadecimal numbers and names are left out of strtod and strtof. *)
From Verif Require Import CBase CStr FloatModel IniModel.
(** code and, if it is written, the value *)
Definition ini_get_real (conv : list Z -> fl * Z) (p : ini) (section key : option (list Z)) : outcome (Z * option fl) :=
  do (ret, blk) <- ini_get p section key (Some (repeat 0 256)) INI_VALUE_STACK_SIZE;      (* 650-651 *)
  if negb (ret =? SUCCEED) then Ret (ret, None)                                          (* 652-655 *)
  else match blk with
  | None => Ub
  | Some blk =>
    do t <- cstr_at blk 0;
    if zlen t =? 0 then Ret (FAILED, None)                                               (* 656-659 *)
    else let r := conv t in
         if snd r =? zlen t then Ret (SUCCEED, Some (fst r)) else Ret (FAILED, None)     (* 663-665: not written on failure *)
  end.
Definition ini_get_double := ini_get_real strtod.
Definition ini_get_float := ini_get_real strtof.
