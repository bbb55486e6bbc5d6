(** Specifications for src/mem/strings.c, independent of the code. *)
From Verif Require Import CBase CStr.

(** leftmost, non-overlapping replacement of every occurrence of p (p non-empty) by r *)
Inductive replaced (p r : list Z) : list Z -> list Z -> Prop :=
| repl_end : replaced p r [] []
| repl_hit : forall s out, replaced p r s out -> replaced p r (p ++ s) (r ++ out)
| repl_skip : forall c s out, (forall rest, c :: s <> p ++ rest) -> replaced p r s out ->
    replaced p r (c :: s) (c :: out).

(** split at every delimiter byte, keeping empty fields *)
Fixpoint fields (d s : list Z) : list (list Z) :=
  match s with
  | [] => [[]]
  | c :: s' =>
    if inset c d then [] :: fields d s'
    else match fields d s' with f :: fs => (c :: f) :: fs | [] => [[c]] end
  end.
(** the maximal non-empty delimiter-free pieces, in order *)
Definition pieces (d s : list Z) : list (list Z) :=
  filter (fun f => match f with [] => false | _ => true end) (fields d s).

(** removal of leading / trailing bytes of a set *)
Fixpoint drop_in (set s : list Z) : list Z :=
  match s with c :: s' => if inset c set then drop_in set s' else s | [] => [] end.
Definition trimmed (set s : list Z) : list Z := rev (drop_in set (rev (drop_in set s))).

(** bytes that are not UTF-8 continuation bytes 10xxxxxx *)
Definition code_points (s : list Z) : Z := zlen (filter (fun b => negb ((128 <=? b) && (b <? 192))) s).

(** lower case hex text, one space before each byte *)
Definition hexl (d : Z) : Z := if d <? 10 then 48 + d else 87 + d.
Definition hex_text (s : list Z) : list Z := flat_map (fun b => [32; hexl (b / 16); hexl (b mod 16)]) s.
