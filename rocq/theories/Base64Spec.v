(** RFC 4648 base64, stated arithmetically, independently of the C code. *)
From Verif Require Import CBase.

(** table 1 of RFC 4648 *)
Definition b64char (d : Z) : Z :=
  if d <? 26 then 65 + d            (* A-Z *)
  else if d <? 52 then 97 + (d - 26) (* a-z *)
  else if d <? 62 then 48 + (d - 52) (* 0-9 *)
  else if d =? 62 then 43            (* + *)
  else 47.                           (* / *)

(** 24-bit groups, most significant first, cut into four 6-bit digits; '=' is 61 *)
Fixpoint b64_encode (s : list Z) : list Z :=
  match s with
  | a :: b :: c :: s' =>
      let n := a * 65536 + b * 256 + c in
      b64char (n / 262144) :: b64char (n / 4096 mod 64) :: b64char (n / 64 mod 64) :: b64char (n mod 64) :: b64_encode s'
  | [a; b] =>
      let n := a * 65536 + b * 256 in
      [b64char (n / 262144); b64char (n / 4096 mod 64); b64char (n / 64 mod 64); 61]
  | [a] =>
      let n := a * 65536 in
      [b64char (n / 262144); b64char (n / 4096 mod 64); 61; 61]
  | [] => []
  end.

(** the value of an alphabet character, None for any other byte *)
Definition b64val (c : Z) : option Z :=
  if (65 <=? c) && (c <=? 90) then Some (c - 65)
  else if (97 <=? c) && (c <=? 122) then Some (c - 97 + 26)
  else if (48 <=? c) && (c <=? 57) then Some (c - 48 + 52)
  else if c =? 43 then Some 62
  else if c =? 47 then Some 63
  else None.

(** values of the longest leading run of alphabet characters *)
Fixpoint b64_digits (s : list Z) : list Z :=
  match s with
  | c :: s' => match b64val c with Some v => v :: b64_digits s' | None => [] end
  | [] => []
  end.

(** bytes described by 6-bit digits: 4 digits give 3 bytes, 3 give 2, 2 give 1, a lone digit gives nothing *)
Fixpoint digits_bytes (d : list Z) : list Z :=
  match d with
  | v0 :: v1 :: v2 :: v3 :: d' =>
      let n := ((v0 * 64 + v1) * 64 + v2) * 64 + v3 in
      n / 65536 :: n / 256 mod 256 :: n mod 256 :: digits_bytes d'
  | [v0; v1; v2] =>
      let n := ((v0 * 64 + v1) * 64 + v2) * 64 in
      [n / 65536; n / 256 mod 256]
  | [v0; v1] =>
      let n := (v0 * 64 + v1) * 4096 in
      [n / 65536]
  | _ => []
  end.
