(** Form-URL coding, stated independently of the C code. *)
From Verif Require Import CBase.

(** A-Z a-z 0-9 . - * _ *)
Definition unreserved (c : Z) : bool :=
  ((65 <=? c) && (c <=? 90)) || ((97 <=? c) && (c <=? 122)) || ((48 <=? c) && (c <=? 57)) ||
  (c =? 46) || (c =? 45) || (c =? 42) || (c =? 95).
Definition hexdigit (d : Z) : Z := if d <? 10 then 48 + d else 65 + (d - 10).
Definition url_enc1 (c : Z) : list Z :=
  if unreserved c then [c]
  else if c =? 32 then [43]                                 (* ' ' -> '+' *)
  else [37; hexdigit (c / 16); hexdigit (c mod 16)].        (* %XX *)
Fixpoint url_enc (s : list Z) : list Z :=
  match s with [] => [] | c :: s' => url_enc1 c ++ url_enc s' end.

Definition hexvalue (c : Z) : option Z :=
  if (48 <=? c) && (c <=? 57) then Some (c - 48)
  else if (65 <=? c) && (c <=? 70) then Some (c - 55)
  else if (97 <=? c) && (c <=? 102) then Some (c - 87)
  else None.

(** decode at most [limit] bytes: Some (bytes, input consumed), None when an illegal character or a bad
    escape is met; an escape cut off by the end of the input stops the decoding there. *)
Fixpoint url_dec (limit : Z) (s : list Z) : option (list Z * Z) :=
  if limit <=? 0 then Some ([], 0)
  else match s with
  | [] => Some ([], 0)
  | c :: s' =>
    if c =? 43 then
      match url_dec (limit - 1) s' with Some (d, k) => Some (32 :: d, k + 1) | None => None end
    else if c =? 37 then
      match s' with
      | h :: l :: s'' =>
        match hexvalue h, hexvalue l with
        | Some hv, Some lv =>
          match url_dec (limit - 1) s'' with Some (d, k) => Some (hv * 16 + lv :: d, k + 3) | None => None end
        | _, _ => None
        end
      | _ => Some ([], 0)
      end
    else if unreserved c then
      match url_dec (limit - 1) s' with Some (d, k) => Some (c :: d, k + 1) | None => None end
    else None
  end.
