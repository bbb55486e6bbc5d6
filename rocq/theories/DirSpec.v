(** What a user of directory streams expects: a stream is a position in a listing. *)
From Verif Require Import CBase DirModel.

(** what can be done with an open stream; ans is what the system answers when the directory is searched anew *)
Inductive op := ORead | OTell | OSeek (loc : Z) (ans : answer) | ORewind (ans : answer).
Inductive obs := VEntry (e : option dirent) | VPos (p : Z) | VDone.
(** where a stream is: before the entries l; moved to a position that does not exist; the directory has gone *)
Inductive place := At (l : list ent) | Nowhere | Lost.
(** the name shown for an entry: its name, else its short name *)
Definition shown (conv : list Z -> option (list Z)) (e : ent) : option (list Z) :=
  match conv (nm e) with Some s => Some s | None => if (length (alt e) =? 0)%nat then None else conv (alt e) end.
(** the position before l *)
Definition pos_of (l : list ent) : Z := match l with e :: _ => hash (nm e) | [] => LONG_MAX end.
(** the record for entry e when the entries r follow *)
Definition entry (conv : list Z -> option (list Z)) (e : ent) (r : list ent) : dirent :=
  match shown conv e with
  | Some s => mk_de s (Z.of_nat (length s)) (type_of (attr e)) (pos_of r)
  | None => mk_de [63] 1 DT_UNKNOWN (-1)
  end.
(** the part of a listing from the first entry with a hash on *)
Fixpoint from_hash (loc : Z) (l : list ent) : place :=
  match l with [] => Nowhere | e :: r => if hash (nm e) =? loc then At l else from_hash loc r end.
Definition listing (ans : answer) : list ent := match ans with Some l => l | None => [] end.
Definition step (conv : list Z -> option (list Z)) (p : place) (o : op) : obs * place :=
  match o with
  | ORead => match p with At (e :: r) => (VEntry (Some (entry conv e r)), At r) | _ => (VEntry None, p) end
  | OTell => (VPos (match p with At l => pos_of l | Nowhere => LONG_MAX | Lost => -1 end), p)
  | OSeek loc ans =>
      (VDone, match p with
              | Lost => Lost
              | _ => if loc <? 0 then Nowhere else match listing ans with [] => Lost | l => from_hash loc l end
              end)
  | ORewind ans =>
      (VDone, match p with
              | Lost => Lost
              | _ => match listing ans with [] => Lost | l => match p with Nowhere => Nowhere | _ => At l end end
              end)
  end.
Fixpoint steps (conv : list Z -> option (list Z)) (p : place) (os : list op) : list obs * place :=
  match os with [] => ([], p) | o :: os => let '(v, p) := step conv p o in let '(vs, p) := steps conv p os in (v :: vs, p) end.

(** the same with the code *)
Definition do1 (conv : list Z -> option (list Z)) (d : dir) (w : world) (o : op) : outcome (obs * dir * world) :=
  match o with
  | ORead => let '(e, d) := readdir conv d in Ret (VEntry e, d, w)
  | OTell => let '(p, d) := telldir d in Ret (VPos p, d, w)
  | OSeek loc ans => do r <- seekdir ans loc d w; Ret (VDone, fst r, snd r)
  | ORewind ans => do r <- rewinddir ans d w; Ret (VDone, fst r, snd r)
  end.
Fixpoint do_all (conv : list Z -> option (list Z)) (d : dir) (w : world) (os : list op) : outcome (list obs * dir * world) :=
  match os with
  | [] => Ret ([], d, w)
  | o :: os => do r <- do1 conv d w o; let '(v, d, w) := r in do s <- do_all conv d w os; let '(vs, d, w) := s in Ret (v :: vs, d, w)
  end.
(** identifiers of things not held yet are new; 0 is not used *)
Definition sane (w : world) : Prop := (1 <= nxt w)%nat /\ (forall i, In i (live w) -> (i < nxt w)%nat) /\ NoDup (live w).

(** ** Search pattern: the directory itself, a separator unless there is one, and a star *)
Definition ends_in_sep (p : list Z) : Prop := exists q c, p = q ++ [c] /\ (c = 92 \/ c = 47 \/ c = 58).

(** ** scandir: the records of a whole listing *)
Fixpoint entries (conv : list Z -> option (list Z)) (L : list ent) : list dirent :=
  match L with [] => [] | e :: r => entry conv e r :: entries conv r end.
Definition opt_list {A : Type} (o : option A) : list A := match o with Some a => [a] | None => [] end.
