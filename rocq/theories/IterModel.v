(** Model of src/file/file_iterator.c (POSIX). W: everything outside the function: files, the handler's data. *)
From Verif Require Import CBase.

(** limits.h of Linux; 260 on Windows, file_iterator.c:16-18 *)
Definition PATH_MAX : Z := 4096.
Section Iter.
  Context {W : Type}.
  (** stat: None an error, Some b a directory or not. list_dir: what readdir returns after a successful opendir.
      handler: gets the directory, the name and the type of an entry. opened, closed: the stream's life *)
  Variable stat : W -> list Z -> option bool.
  Variable list_dir : W -> list Z -> option (list (list Z)).
  Variable handler : list Z -> list Z -> Z -> W -> Z * W.
  (** pri_get_file_stat, lines 20-35 *)
  Definition get_stat (w : W) (path : list Z) : Z := match stat w path with None => -1 | Some true => 1 | Some false => 0 end.
  (** lines 60-71 *)
  Definition is_dots (name : list Z) : bool :=
    let len := Z.of_nat (length name) in
    if len <? 3 then ((len =? 1) && (nth 0 name 0 =? 46)) || ((len =? 2) && (nth 0 name 0 =? 46) && (nth 1 name 0 =? 46)) else false.
  (** line 72: snprintf keeps what fits into PATH_MAX bytes with the terminator *)
  Definition path_buf (dir name : list Z) : list Z := firstn (Z.to_nat (PATH_MAX - 1)) (dir ++ 47 :: name).
  (** lines 58-91; the log has one item per call of the handler: name, type, result, the outside before and after *)
  Fixpoint iter (dir : list Z) (names : list (list Z)) (w : W) : list (list Z * Z * Z * W * W) * W :=
    match names with
    | [] => ([], w)
    | n :: ns =>
        if is_dots n then iter dir ns w
        else let st := get_stat w (path_buf dir n) in
             if st =? -1 then ([], w)
             else let '(r, w') := handler dir n st w in
                  if negb (r =? 0) then ([(n, st, r, w, w')], w')
                  else let '(l, w2) := iter dir ns w' in ((n, st, r, w, w') :: l, w2)
    end.
  (** file_iterator_foreach, lines 37-94: result, log, outside, whether a stream was opened and how often closed *)
  Definition foreach (dir : list Z) (w : W) : Z * list (list Z * Z * Z * W * W) * W * (nat * nat) :=
    let st := get_stat w dir in
    if (st =? 0) || (st =? -1) then (1, [], w, (0, 0)%nat)
    else match list_dir w dir with
         | None => (1, [], w, (0, 0)%nat)
         | Some names => let '(l, w') := iter dir names w in (0, l, w', (1, 1)%nat)
         end.
End Iter.
