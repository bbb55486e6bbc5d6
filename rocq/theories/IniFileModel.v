(** Model of the files of src/file/ini_parser.c: ini_parser_is_file_path, ini_parser_parse_file, ini_parser_save. A file
    system maps paths to contents; streams and blocks count what is open or allocated by these functions. Simplified:
    fwrite writes the bytes in order, and what it wrote is in the file at once. *)
From Verif Require Import CBase IniModel IniReaderModel StringBuilderModel.
From Verif Require FileModel.

Record world := mk_w { files : list (list Z * list Z); streams : Z; blocks : Z }.
Definition content (p : list Z) (w : world) : option (list Z) :=
  match find (fun f => if list_eq_dec Z.eq_dec (fst f) p then true else false) (files w) with Some f => Some (snd f) | None => None end.
Definition store (p c : list Z) (w : world) : world :=
  mk_w ((p, c) :: filter (fun f => negb (if list_eq_dec Z.eq_dec (fst f) p then true else false)) (files w)) (streams w) (blocks w).
Definition open1 (w : world) : world := mk_w (files w) (streams w + 1) (blocks w).
Definition close1 (w : world) : world := mk_w (files w) (streams w - 1) (blocks w).
Definition malloc1 (w : world) : world := mk_w (files w) (streams w) (blocks w + 1).
Definition free1 (w : world) : world := mk_w (files w) (streams w) (blocks w - 1).

(** ini_parser_is_file_path, lines 98-122 *)
Fixpoint first_mark (s : list Z) : bool :=
  match s with [] => true | c :: r => if FileModel.isspace c then first_mark r else negb ((c =? 35) || (c =? 91)) end.
Definition is_file_path (str : option (list Z)) : bool :=
  match str with
  | None | Some [] => false
  | Some s => if existsb (Z.eqb 10) s then false else first_mark s
  end.

(** ini_parser_parse_file, lines 151-193. can_open: fopen; ok: malloc; got: how many bytes fread gives. The text ends
    at the first zero byte *)
Fixpoint upto0 (b : list Z) : list Z := match b with [] => [] | c :: b => if c =? 0 then [] else c :: upto0 b end.
Definition parse_file (can_open ok : bool) (got : Z) (parse : list Z -> outcome (option ini)) (path : option (list Z)) (w : world) : outcome (option ini * world) :=
  match path with
  | None | Some [] => Ret (None, w)
  | Some path =>
      match (if can_open then content path w else None) with
      | None => Ret (None, w)
      | Some c =>
          let w := open1 w in
          if zlen c <? 6 then Ret (None, close1 w)
          else if negb ok then Ret (None, close1 w)
          else let w := malloc1 w in
               do b <- mstore (repeat 205 (Z.to_nat (zlen c + 1))) (zlen c) 0;
               let n := Z.max 0 (Z.min got (zlen c)) in
               do b <- mwrite b 0 (ztake n c);
               do r <- (if negb (n =? zlen c) then Ret None else parse (upto0 b));
               Ret (r, free1 (close1 w))
      end
  end.

(** ini_parser_save, lines 542-567. can_open: fopen(path, "wb"); put: how many bytes fwrite writes. The list: the
    world at each moment something in it changed, the latest last *)
Definition save (can_open : bool) (dump : outcome (option (list Z))) (put : Z) (path : option (list Z)) (w : world) : outcome (Z * world * list world) :=
  match path with
  | None | Some [] => Ret (INVALID_PARAM, w, [])
  | Some path =>
      if negb can_open then Ret (INVALID_PARAM, w, [])
      else let w1 := open1 (store path [] w) in
           do d <- dump;
           match d with
           | None => Ret (FAILED, w1, [w1])
           | Some [] => let w2 := malloc1 w1 in Ret (FAILED, free1 w2, [w1; w2; free1 w2])
           | Some t => let w2 := malloc1 w1 in
                       let n := Z.to_nat (Z.max 0 (Z.min put (zlen t))) in
                       let ws := map (fun k => store path (firstn k t) w2) (seq 1 n) in
                       let w3 := store path (firstn n t) w2 in
                       Ret (SUCCEED, close1 (free1 w3), [w1; w2] ++ ws ++ [free1 w3; close1 (free1 w3)])
           end
  end.

(** ini_reader_parse_file and ini_reader_parse, src/file/ini_reader.c:248-267. fgets (of the C library) hands out the same
    pieces as ini_reader_string, zero bytes included; junk: what the uninitialised line array holds *)
Definition reader_parse {U} (h : ini_handler U) (junk : list Z) (can_open : bool) (path : list Z) (u : U) (w : world) : outcome (Z * U * world) :=
  match (if can_open then content path w else None) with
  | None => Ret (-1, u, w)
  | Some c => let w := open1 w in
              do r <- stream_loop (length c) h (mk_rd junk (repeat 0 50) (repeat 0 50) 0 u) 0 c;
              Ret (fst r, snd r, close1 w)
  end.
