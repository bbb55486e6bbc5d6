(** Model of the directory streams of inc/sys/dirent_windows.h: opendir, readdir, telldir, seekdir, rewinddir,
    closedir (lines 372-970) and scandir (972-1067).
    Simplified: the wide and the multi-byte stream are one record (each DIR has its own _WDIR); errno and the
    constant fields d_ino, d_reclen are left out. *)
From Verif Require Import CBase.

(** ** The system *)
(** WIN32_FIND_DATAW: file name, 8.3 name (wide characters without terminator), attributes *)
Record ent := mk_en { nm : list Z; alt : list Z; attr : Z }.
(** memory and search handles: what is held; orc: answers of malloc to come (success when used up) *)
Record world := mk_w { orc : list bool; nxt : nat; live : list nat }.
Definition acquire (w : world) : nat * world := (nxt w, mk_w (orc w) (S (nxt w)) (nxt w :: live w)).
Definition malloc_ (w : world) : option nat * world :=
  match orc w with
  | false :: t => (None, mk_w t (nxt w) (live w))
  | true :: t => let '(i, w') := acquire (mk_w t (nxt w) (live w)) in (Some i, w')
  | [] => let '(i, w') := acquire w in (Some i, w')
  end.
(** free, FindClose *)
Definition release (i : nat) (w : world) : outcome world :=
  if existsb (Nat.eqb i) (live w) then Ret (mk_w (orc w) (nxt w) (filter (fun j => negb (Nat.eqb i j)) (live w))) else Ub.
(** FindFirstFileExW: ans is the list of entries that match, None an error; an empty match is an error too *)
Definition answer : Type := option (list ent).

(** ** Streams *)
(** lines 236-265, 290-293; the three identifiers are the DIR, the _WDIR and the pattern; hnd: search handle and the
    entries FindNextFileW will return *)
Record dir := mk_d { d_id : nat; w_id : nat; p_id : nat; hnd : option (nat * list ent); data : ent; cached : bool; invalid : bool }.
Definition LONG_MAX : Z := 2147483647.
(** dirent_hash, lines 681-693; long has 32 bits *)
Definition hash (name : list Z) : Z :=
  Z.land (fold_left (fun h c => u32 (u32 (u32 (h * 32) + h) + c)) (firstn 260 name) 5381) 2147483647.
(** dirent_first, lines 611-649: was an entry found *)
Definition first (ans : answer) (d : dir) (w : world) : bool * dir * world :=
  match ans with
  | Some (e :: r) => let '(i, w') := acquire w in (true, mk_d (d_id d) (w_id d) (p_id d) (Some (i, r)) e true (invalid d), w')
  | _ => (false, mk_d (d_id d) (w_id d) (p_id d) None (data d) false true, w)
  end.
(** dirent_next, lines 652-674 *)
Definition next (d : dir) : option ent * dir :=
  if invalid d then (None, d)
  else if cached d then (Some (data d), mk_d (d_id d) (w_id d) (p_id d) (hnd d) (data d) false (invalid d))
  else match hnd d with
       | Some (i, e :: r) => (Some e, mk_d (d_id d) (w_id d) (p_id d) (Some (i, r)) e false (invalid d))
       | _ => (None, d)
       end.
Definition set_cached (d : dir) : dir := mk_d (d_id d) (w_id d) (p_id d) (hnd d) (data d) true (invalid d).
Definition set_invalid (d : dir) (b : bool) : dir := mk_d (d_id d) (w_id d) (p_id d) (hnd d) (data d) (cached d) b.

(** struct dirent *)
Inductive dtype := DT_CHR | DT_DIR | DT_REG | DT_UNKNOWN.
Record dirent := mk_de { d_name : list Z; d_namlen : Z; d_type : dtype; d_off : Z }.
Definition type_of (a : Z) : dtype := if negb (Z.land a 64 =? 0) then DT_CHR else if negb (Z.land a 16 =? 0) then DT_DIR else DT_REG.
(** readdir, readdir_r, lines 731-834; conv: wcstombs_s *)
Definition readdir (conv : list Z -> option (list Z)) (d : dir) : option dirent * dir :=
  match next d with
  | (None, d) => (None, d)
  | (Some e, d) =>
      match (match conv (nm e) with Some s => Some s | None => match alt e with [] => None | _ => conv (alt e) end end) with
      | Some s => match next d with
                  | (Some e2, d) => (Some (mk_de s (Z.of_nat (length s)) (type_of (attr e)) (hash (nm e2))), set_cached d)
                  | (None, d) => (Some (mk_de s (Z.of_nat (length s)) (type_of (attr e)) LONG_MAX), d)
                  end
      | None => (Some (mk_de [63] 1 DT_UNKNOWN (-1)), d)
      end
  end.
(** telldir, _wtelldir, lines 871-903 *)
Definition telldir (d : dir) : Z * dir :=
  match hnd d with
  | None => (-1, d)
  | Some _ => match next d with (None, d) => (LONG_MAX, d) | (Some e, d) => (hash (nm e), set_cached d) end
  end.
(** the loop of _wseekdir, lines 933-947; fuel: entries plus one *)
Fixpoint seek_loop (fuel : nat) (loc : Z) (d : dir) : outcome (bool * dir) :=
  match fuel with
  | O => NoFuel
  | S f => match next d with
           | (None, d) => Ret (false, d)
           | (Some e, d) => if hash (nm e) =? loc then Ret (true, d) else seek_loop f loc d
           end
  end.
(** seekdir, _wseekdir, lines 906-970 *)
Definition seekdir (ans : answer) (loc : Z) (d : dir) (w : world) : outcome (dir * world) :=
  match hnd d with
  | None => Ret (set_invalid d true, w)
  | Some (i, _) =>
      if loc <? 0 then Ret (set_invalid d true, w)
      else do w <- release i w;
           let '(ok, d, w) := first ans d w in
           if negb ok then Ret (set_invalid d true, w)
           else do r <- seek_loop (2 + length (match ans with Some l => l | None => [] end)) loc (set_invalid d false);
                Ret (if fst r then set_invalid (set_cached (snd r)) false else set_invalid (snd r) true, w)
  end.
(** rewinddir, _wrewinddir, lines 597-608, 860-868 *)
Definition rewinddir (ans : answer) (d : dir) (w : world) : outcome (dir * world) :=
  match hnd d with
  | None => Ret (d, w)
  | Some (i, _) => do w <- release i w; let '(_, d, w) := first ans d w in Ret (d, w)
  end.
(** _wclosedir, lines 564-591 *)
Definition wclosedir (d : dir) (w : world) : outcome world :=
  do w <- match hnd d with Some (i, _) => release i w | None => Ret w end;
  do w <- (if Nat.eqb (p_id d) 0 then Ret w else release (p_id d) w); release (w_id d) w.
(** closedir, lines 837-857 *)
Definition closedir (d : dir) (w : world) : outcome (Z * world) :=
  do w <- wclosedir d w; do w <- release (d_id d) w; Ret (0, w).

(** The search pattern, lines 408-452. p1, p2: the absolute path GetFullPathNameW finds at its first and second call
    (None: error). The buffer has room for (2n + 16) / 2 characters. Result: error, or the pattern *)
Definition pattern (p1 p2 : option (list Z)) : outcome (option (list Z)) :=
  let n := match p1 with Some p => Z.of_nat (length p) + 1 | None => 0 end in
  match p2 with
  | None => Ret None
  | Some p =>
      let room := n + 8 in
      let len := Z.of_nat (length p) in
      if len =? 0 then Ret None
      else if n <=? len then Ub                               (* not copied: p[-1] is not initialised or outside *)
      else let sep := last p 0 in
           let t := if (sep =? 92) || (sep =? 47) || (sep =? 58) then p ++ [42] else p ++ [92; 42] in
           if Z.of_nat (length t) <? room then Ret (Some t) else Ub
  end.
(** opendir, _wopendir, lines 378-465, 696-728. name: the wide form of the name (None: cannot be converted); the
    identifier 0 stands for a NULL pattern. Result: the stream and the pattern used *)
Definition opendir (name : option (list Z)) (p1 p2 : option (list Z)) (ans : answer) (w : world) : outcome (option (dir * list Z) * world) :=
  match malloc_ w with
  | (None, w) => Ret (None, w)
  | (Some di, w) =>
      match name with
      | None | Some [] => do w <- release di w; Ret (None, w)
      | Some _ =>
          match malloc_ w with
          | (None, w) => do w <- release di w; Ret (None, w)
          | (Some wi, w) =>
              let fail := fun d w => do w <- wclosedir d w; do w <- release di w; Ret (None, w) in
              let d0 := mk_d di wi O None (mk_en [] [] 0) false false in
              match malloc_ w with
              | (None, w) => fail d0 w
              | (Some pi, w) =>
                  let d1 := mk_d di wi pi None (mk_en [] [] 0) false false in
                  do t <- pattern p1 p2;
                  match t with
                  | None => fail d1 w
                  | Some t => let '(ok, d, w) := first ans d1 w in if ok then Ret (Some (d, t), w) else fail d w
                  end
              end
          end
      end
  end.

(** ** scandir, lines 973-1067. files: the entries kept and their blocks; fid: the block of the pointer table and
    its capacity. nl: the caller's namelist is not NULL *)
Fixpoint scan (fuel : nat) (conv : list Z -> option (list Z)) (flt : dirent -> bool) (tmp : option nat) (files : list (nat * dirent)) (tab : option (nat * nat)) (d : dir) (w : world)
  : outcome (bool * option nat * list (nat * dirent) * option (nat * nat) * dir * world) :=
  match fuel with
  | O => NoFuel
  | S f =>
      let '(tmp, w) := match tmp with Some t => (Some t, w) | None => malloc_ w end in               (* 995-999 *)
      match tmp with
      | None => Ret (false, None, files, tab, d, w)
      | Some t =>
          match readdir conv d with                                                                 (* 1003 *)
          | (None, d) => Ret (true, Some t, files, tab, d, w)
          | (Some e, d) =>
              if negb (flt e) then scan f conv flt (Some t) files tab d w                           (* 1011 *)
              else
                let size := length files in
                let cap := match tab with Some (_, c) => c | None => O end in
                let '(ok, tab, w) :=
                  if Nat.leb cap size then                                                          (* 1015-1027 realloc *)
                    match malloc_ w with
                    | (None, w) => (Ret false, tab, w)
                    | (Some i, w) => match tab with
                                     | Some (j, _) => match release j w with Ret w => (Ret true, Some (i, (size * 2 + 16)%nat), w) | _ => (Ub, tab, w) end
                                     | None => (Ret true, Some (i, (size * 2 + 16)%nat), w)
                                     end
                    end
                  else (Ret true, tab, w) in
                do ok <- ok;
                if negb ok then Ret (false, Some t, files, tab, d, w)
                else match tab with
                     | Some (_, c) => if Nat.ltb size c then scan f conv flt None (files ++ [(t, e)]) tab d w else Ub   (* 1030 *)
                     | None => Ub
                     end
          end
      end
  end.
Fixpoint release_all (l : list nat) (w : world) : outcome world := match l with [] => Ret w | i :: l => do w <- release i w; release_all l w end.
Definition release_opt (o : option nat) (w : world) : outcome world := match o with Some i => release i w | None => Ret w end.
(** sort: what qsort does with the table; result: the code, the table stored in namelist (its block and entries) *)
Definition scandir (conv : list Z -> option (list Z)) (flt : dirent -> bool) (sort : list (nat * dirent) -> list (nat * dirent)) (fuel : nat)
    (name p1 p2 : option (list Z)) (ans : answer) (w : world) : outcome (Z * option (option nat * list (nat * dirent)) * world) :=
  do r <- opendir name p1 p2 ans w;
  match r with
  | (None, w) => Ret (-1, None, w)
  | (Some (d, _), w) =>
      do s <- scan fuel conv flt None [] None d w;
      let '(ok, tmp, files, tab, d, w) := s in
      do rw <- (if ok then Ret (Z.of_nat (length files), Some (option_map (@fst nat nat) tab, sort files), w)
                else do w <- release_all (map fst files) w; do w <- release_opt (option_map (@fst nat nat) tab) w; Ret (-1, None, w));
      let '(code, out, w) := rw in
      do w <- release_opt tmp w;
      do c <- closedir d w; Ret (code, out, snd c)
  end.
