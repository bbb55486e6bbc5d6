(** Specification for C41, C42, C48: what file_util.c is to do. *)
From Verif Require Import CBase CStr FileModel.

Definition is_sep (c : Z) : bool := (c =? 92) || (c =? 47).

(** the directories named by a path, outermost first: its prefixes that end in a separator *)
Fixpoint dirs_from (pre rest : list Z) : list (list Z) :=
  match rest with
  | [] => []
  | c :: r => if is_sep c then (pre ++ [c]) :: dirs_from (pre ++ [c]) r else dirs_from (pre ++ [c]) r
  end.
Definition dirs_of (path : list Z) : list (list Z) := dirs_from [] path.
(** create the missing ones in order, stopping at the first failure; the paths tried are listed newest first *)
Fixpoint create_missing {F} (ops : fsys F) (ds : list (list Z)) (f : F) (calls : list (list Z)) : Z * F * list (list Z) :=
  match ds with
  | [] => (0, f, calls)
  | d :: ds => if fs_exists ops f d then create_missing ops ds f calls
               else let '(r, f') := fs_mkdir ops f d in
                    if r =? 0 then create_missing ops ds f' (d :: calls) else (r, f', d :: calls)
  end.
(** a file system whose mkdir, when it reports success, has created that directory, and never removes any *)
Definition fs_sane {F} (ops : fsys F) : Prop :=
  forall f d r f', fs_mkdir ops f d = (r, f') ->
    (r = 0 -> fs_exists ops f' d = true) /\ (forall p, fs_exists ops f p = true -> fs_exists ops f' p = true).

(** the lines of a text file: pieces between newlines; nothing after the last newline is not a line *)
Fixpoint lines_from (cur rest : list Z) : list (list Z) :=
  match rest with
  | [] => match cur with [] => [] | _ => [cur] end
  | c :: r => if c =? 10 then cur :: lines_from [] r else lines_from (cur ++ [c]) r
  end.
Definition lines_of (file : list Z) : list (list Z) := lines_from [] file.
(** the pieces the 1024-byte buffer cuts a file into: a piece ends at a newline (not part of it) or after 1023
    bytes; [n] = bytes that still fit in the current piece [cur] *)
Fixpoint pieces_from (n : nat) (cur rest : list Z) : list (list Z) :=
  match rest with
  | [] => match cur with [] => [] | _ => [cur] end
  | c :: r => if c =? 10 then cur :: pieces_from 1023 [] r
              else match n with
                   | S (S m) => pieces_from (S m) (cur ++ [c]) r
                   | _ => (cur ++ [c]) :: pieces_from 1023 [] r
                   end
  end.
Definition pieces_of (file : list Z) : list (list Z) := pieces_from 1023 [] file.
(** a line without its carriage return (if it is the last byte), and without leading white space *)
Definition chomp (l : list Z) : list Z :=
  match rev l with c :: r => if c =? 13 then rev r else l | [] => l end.
Definition shown (l : list Z) : list Z := skip_space (chomp l).
(** give every non-blank line with its number to the callback until it answers non-zero *)
Fixpoint deliver {U} (fn : U -> Z -> list Z -> Z * U) (ls : list (list Z)) (i : Z) (u : U) : Z * U :=
  match ls with
  | [] => (0, u)
  | l :: ls => match shown l with
               | [] => deliver fn ls (i + 1) u
               | t => let '(r, u') := fn u i t in if r =? 0 then deliver fn ls (i + 1) u' else (r, u')
               end
  end.
