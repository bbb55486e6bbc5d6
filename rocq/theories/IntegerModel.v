(** Model of src/data/integer.c. Arguments are uint32_t values, that is 0 <= i < 2^32. *)
From Verif Require Import CBase.

(** src/data/integer.c:3-6 *)
Definition integer_is_power_of_two (i : Z) : bool :=
  (i >? 1) && (Z.land i (u32 (i - 1)) =? 0).

(** src/data/integer.c:8-27 *)
Definition integer_roundup_pow_of_two (i : Z) : Z :=
  if i <? 1 then 0
  else if integer_is_power_of_two i then i
  else
    let i := Z.lor i (Z.shiftr i 1) in
    let i := Z.lor i (Z.shiftr i 2) in
    let i := Z.lor i (Z.shiftr i 4) in
    let i := Z.lor i (Z.shiftr i 8) in
    let i := Z.lor i (Z.shiftr i 16) in
    u32 (i + 1).

(** src/data/integer.c:29-41 *)
Definition integer_rounddown_pow_of_two (i : Z) : Z :=
  if i <? 2 then 0
  else let r := integer_roundup_pow_of_two i in
       if r =? i then r else Z.shiftr r 1.
