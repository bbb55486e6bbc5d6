(** Names without undefined bytes, numbers inside names, and what ordering means; used by Props_Vers.v *)
From Verif Require Import CBase.

(** an ASCII file name *)
Definition ascii (s : list Z) : Prop := forall c, In c s -> 1 <= c <= 127.
Definition digit (c : Z) : bool := (48 <=? c) && (c <=? 57).
(** the number written by a list of decimal digits *)
Definition value (d : list Z) : Z := fold_left (fun n c => 10 * n + (c - 48)) d 0.
(** digits without a leading zero *)
Definition numeral (d : list Z) : Prop := d <> [] /\ (forall c, In c d -> digit c = true) /\ hd 0 d <> 48.
Definition ends_plain (p : list Z) : Prop := p = [] \/ exists q c, p = q ++ [c] /\ digit c = false.
Definition starts_plain (p : list Z) : Prop := digit (hd 0 p) = false.
(** byte by byte, a proper prefix first *)
Fixpoint dict (a b : list Z) : Z :=
  match a, b with
  | [], [] => 0
  | [], _ :: _ => -1
  | _ :: _, [] => 1
  | x :: a, y :: b => if x =? y then dict a b else Z.sgn (x - y)
  end.
