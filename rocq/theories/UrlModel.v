(** Model of src/net/url_encoder_decoder.c. Bytes are stored as 0..255. *)
From Verif Require Import CBase Base64Model.

(** src/net/url_encoder_decoder.c:3 *)
Definition hexchars : list Z := [48;49;50;51;52;53;54;55;56;57;65;66;67;68;69;70;0].

(** the character test at lines 20-23 and 130-133, on a (signed) char *)
Definition plain_char (ch : Z) : bool :=
  ((ch >=? 65) && (ch <=? 90)) || ((ch >=? 97) && (ch <=? 122)) || ((ch >=? 48) && (ch <=? 57)) ||
  (ch =? 46) || (ch =? 45) || (ch =? 42) || (ch =? 95).

(** the for loop at lines 16-47. Result: buffer and inl (input_index, output_index) at the end of the
    loop, or inr code for `return -2` *)
Fixpoint ue_loop (fuel : nat) (out : list Z) (osize : Z) (src : list Z) (slen : Z) (i o : Z)
  : outcome (list Z * (Z * Z + Z)) :=
  if (i <? slen) && (o <? u64 (osize - 1)) then
    match fuel with
    | O => NoFuel
    | S fuel =>
      do b <- mload src i;
      let ch := schar b in
      if plain_char ch then
        do out <- mstore out o (ch mod 256); ue_loop fuel out osize src slen (i + 1) (o + 1)
      else if ch =? 32 then
        do out <- mstore out o 43; ue_loop fuel out osize src slen (i + 1) (o + 1)
      else if u64 (o + 3) <? osize then
        do out <- mstore out o 37;
        do h <- mload hexchars (Z.shiftr (ch mod 256) 4); do out <- mstore out (o + 1) h;
        do l <- mload hexchars (Z.land (ch mod 256) 15); do out <- mstore out (o + 2) l;
        ue_loop fuel out osize src slen (i + 1) (o + 3)
      else Ret (out, inr (-2))
    end
  else Ret (out, inl (i, o)).

(** lcu_url_encode, src/net/url_encoder_decoder.c:5-59 *)
Definition lcu_url_encode (out : list Z) (osize : Z) (src : list Z) (slen : Z) : outcome (list Z * Z) :=
  if (slen <? 1) || (osize <? 2) then Ret (out, -1)
  else
    do (out, r) <- ue_loop (Z.to_nat slen) out osize src slen 0 0;
    match r with
    | inr code => Ret (out, code)
    | inl (i, o) =>
      if i =? 0 then Ret (out, 0)
      else if i =? slen then do out <- mstore out o 0; Ret (out, s32 o)
      else Ret (out, -3)
    end.

(** lines 88-103 and 108-122: value of a hexadecimal digit, None for `return -2` *)
Definition ud_hex (ch : Z) : option Z :=
  if (ch >=? 65) && (ch <=? 70) then Some (ch - 65 + 10)
  else if (ch >=? 48) && (ch <=? 57) then Some (ch - 48)
  else if (ch >=? 97) && (ch <=? 102) then Some (ch - 97 + 10)
  else None.

(** the for loop at lines 74-142; inr code is `return -2` *)
Fixpoint ud_loop (fuel : nat) (out : list Z) (osize : Z) (src : list Z) (slen : Z) (i o : Z)
  : outcome (list Z * (Z * Z + Z)) :=
  if (i <? slen) && (o <? u64 (osize - 1)) then
    match fuel with
    | O => NoFuel
    | S fuel =>
      do b <- mload src i;
      let ch := schar b in
      if ch =? 43 then
        do out <- mstore out o 32; ud_loop fuel out osize src slen (i + 1) (o + 1)
      else if ch =? 37 then
        if u64 (i + 3) <=? slen then
          do b1 <- mload src (i + 1);
          match ud_hex (schar b1) with
          | None => Ret (out, inr (-2))
          | Some h =>
            let oc := schar (Z.shiftl h 4 mod 256) in
            do b2 <- mload src (i + 2);
            match ud_hex (schar b2) with
            | None => Ret (out, inr (-2))
            | Some l =>
              do out <- mstore out o (Z.lor oc l mod 256);
              ud_loop fuel out osize src slen (i + 3) (o + 1)
            end
          end
        else Ret (out, inl (i, o))
      else if plain_char ch then
        do out <- mstore out o (ch mod 256); ud_loop fuel out osize src slen (i + 1) (o + 1)
      else Ret (out, inr (-2))
    end
  else Ret (out, inl (i, o)).

(** lcu_url_decode, src/net/url_encoder_decoder.c:61-152, with a non-NULL last_src_pos; result: buffer,
    return value, offset of *last_src_pos in src *)
Definition lcu_url_decode (out : list Z) (osize : Z) (src : list Z) (slen : Z) : outcome (list Z * Z * Z) :=
  if (slen <? 1) || (osize <? 2) then Ret (out, -1, 0)
  else
    do (out, r) <- ud_loop (Z.to_nat slen) out osize src slen 0 0;
    match r with
    | inr code => Ret (out, code, 0)
    | inl (i, o) => do out <- mstore out o 0; Ret (out, s32 o, i)
    end.
