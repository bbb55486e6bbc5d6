(** Specification of the memory of an ini_parser: what the calls answer, from the answers of calloc, and what is lost. *)
From Verif Require Import CBase LifeModel IniLifeModel TpLifeSpec.

(** sections in order, with their entries in order; the section looked at first: none yet, the one made last, or one that was
    deleted; the number of blocks lost *)
Inductive cached := Never | Newest | Deleted.
Record aini := mk_a { secs : list (Z * list (Z * Z)); cache : cached; lost : nat }.
Definition fresh_ini : aini := mk_a [] Never 0.

Fixpoint pos {A} (n : Z) (l : list (Z * A)) : option nat :=
  match l with [] => None | x :: r => if fst x =? n then Some O else match pos n r with Some i => Some (S i) | None => None end end.
Definition place (a : aini) (s : Z) : option nat :=
  match cache a with
  | Newest => match nth_error (secs a) (length (secs a) - 1) with Some x => if fst x =? s then Some (length (secs a) - 1)%nat else pos s (secs a) | None => None end
  | _ => pos s (secs a)
  end.
Fixpoint set_at {A} (i : nat) (x : A) (l : list A) : list A := match l, i with [], _ => [] | _ :: r, O => x :: r | a :: r, S i => a :: set_at i x r end.
Fixpoint drop_at {A} (i : nat) (l : list A) : list A := match l, i with [], _ => [] | _ :: r, O => r | a :: r, S i => a :: drop_at i r end.
Definition entries (i : nat) (a : aini) : list (Z * Z) := match nth_error (secs a) i with Some x => snd x | None => [] end.
Definition with_entries (i : nat) (e : list (Z * Z)) (a : aini) : aini :=
  mk_a (match nth_error (secs a) i with Some x => set_at i (fst x, e) (secs a) | None => secs a end) (cache a) (lost a).

Section Spec.
Variable cut : Z -> Z.
(** an entry in section i: replaced, or added if there is memory for the entry and for its node *)
Definition a_put_entry (i : nat) (k v : Z) (a : aini) (o : list bool) : Z * aini * list bool :=
  match pos k (entries i a) with
  | Some j => (0, with_entries i (set_at j (match nth_error (entries i a) j with Some x => fst x | None => 0 end, v) (entries i a)) a, o)
  | None => let '(b, o) := nxt_answer o in if negb b then (3, a, o) else
            let '(b, o) := nxt_answer o in if negb b then (1, a, o) else (0, with_entries i (entries i a ++ [(cut k, v)]) a, o)
  end.
(** a section is made of three blocks; if the third is refused, the second is lost *)
Definition a_put (s k v : Z) (a : aini) (o : list bool) : Z * aini * list bool :=
  match place a s with
  | Some i => a_put_entry i k v a o
  | None => let '(b, o) := nxt_answer o in if negb b then (3, a, o) else
            let '(b, o) := nxt_answer o in if negb b then (3, a, o) else
            let '(b, o) := nxt_answer o in if negb b then (3, mk_a (secs a) (cache a) (S (lost a)), o) else
            a_put_entry (length (secs a)) k v (mk_a (secs a ++ [(cut s, [])]) Newest (lost a)) o
  end.
(** no answer at all (undefined) once the section made last was deleted *)
Definition a_step (op : op) (a : aini) (o : list bool) : option (res * aini * list bool) :=
  match cache a with
  | Deleted => None
  | _ => Some
    match op with
    | Put s k v => let '(r, a, o) := a_put s k v a o in (RCode r, a, o)
    | Get s k => (RVal match place a s with Some i => match pos k (entries i a) with Some j => match nth_error (entries i a) j with Some x => Some (snd x) | None => None end | None => None end | None => None end, a, o)
    | DeleteKey s k => match place a s with Some i => match pos k (entries i a) with Some j => (RCode 0, with_entries i (drop_at j (entries i a)) a, o) | None => (RCode 4, a, o) end | None => (RCode 4, a, o) end
    | DeleteSection s => match place a s with
                         | Some i => (RCode 0, mk_a (drop_at i (secs a)) (if Nat.eqb i (length (secs a) - 1) then Deleted else cache a) (lost a), o)
                         | None => (RCode 4, a, o) end
    end
  end.
Fixpoint a_run (l : list op) (a : aini) (o : list bool) : option (list res * aini * list bool) :=
  match l with
  | [] => Some ([], a, o)
  | x :: l => match a_step x a o with Some (r, a, o) => match a_run l a o with Some (rs, a, o) => Some (r :: rs, a, o) | None => None end | None => None end
  end.
End Spec.
