(** Model of src/file/ini_reader.c as configured by inc/file/ini_reader.h (multi-line 1, BOM 1, start comments ";#",
    inline comments ";", stack line of 200 bytes, do not stop on errors, no-value 1, no handler on new section),
    reading from a string. The line, section and prev_name arrays are bounds-checked blocks. isspace is the one
    of the C locale. The handler is a parameter with its own state. *)
From Verif Require Import CBase CStr FileModel.

(** INI_MAX_LINE, inc/file/ini_reader.h:130; MAX_SECTION, MAX_NAME, src/file/ini_reader.c:38-39 *)
Definition INI_MAX_LINE : Z := 200.
Definition MAX_SECTION : Z := 50.
Definition MAX_NAME : Z := 50.

(** ini_rstrip, src/file/ini_reader.c:48-54: the loop, then the function *)
Fixpoint rstrip_loop (fuel : nat) (line : list Z) (s p : Z) : outcome (list Z) :=
  if s <? p then
    match fuel with
    | O => NoFuel
    | S fuel =>
      do c <- mload line (p - 1);
      if isspace c then do line <- mstore line (p - 1) 0; rstrip_loop fuel line s (p - 1) else Ret line
    end
  else Ret line.
Definition ini_rstrip (line : list Z) (s : Z) : outcome (list Z) :=
  do n <- strlen_at line s; rstrip_loop (Z.to_nat n) line s (s + n).

(** ini_lskip, src/file/ini_reader.c:57-62 *)
Fixpoint lskip_loop (fuel : nat) (line : list Z) (s : Z) : outcome Z :=
  do c <- mload line s;
  if negb (c =? 0) && isspace c then
    match fuel with O => NoFuel | S fuel => lskip_loop fuel line (s + 1) end
  else Ret s.
Definition ini_lskip (line : list Z) (s : Z) : outcome Z := lskip_loop (length line) line s.

(** ini_find_chars_or_comment, src/file/ini_reader.c:67-82; chars: None is NULL *)
Fixpoint find_loop (fuel : nat) (line : list Z) (s : Z) (chars : option (list Z)) (was_space : bool) : outcome Z :=
  do c <- mload line s;
  if negb (c =? 0) && (match chars with None => true | Some cs => negb (inset c cs) end) && negb (was_space && inset c [59]) then
    match fuel with O => NoFuel | S fuel => find_loop fuel line (s + 1) chars (isspace c) end
  else Ret s.
Definition ini_find_chars_or_comment (line : list Z) (s : Z) (chars : option (list Z)) : outcome Z :=
  find_loop (length line) line s chars false.

(** ini_strncpy0, src/file/ini_reader.c:86-94: dest of [size] bytes, src at an offset of the line *)
Fixpoint strncpy0_loop (fuel : nat) (dest line : list Z) (src i : Z) : outcome (list Z) :=
  match fuel with
  | O => mstore dest i 0
  | S fuel =>
    do c <- mload line (src + i);
    if c =? 0 then mstore dest i 0
    else do dest <- mstore dest i c; strncpy0_loop fuel dest line src (i + 1)
  end.
Definition ini_strncpy0 (dest line : list Z) (src size : Z) : outcome (list Z) :=
  strncpy0_loop (Z.to_nat (size - 1)) dest line src 0.

(** a handler: user state, section, name, value (None: NULL); true: non-zero *)
Definition ini_handler (U : Type) := U -> list Z -> list Z -> option (list Z) -> outcome (bool * U).

(** the local variables of ini_reader_parse_stream that live across lines *)
Record rd (U : Type) := mk_rd { r_line : list Z; r_section : list Z; r_prev : list Z; r_error : Z; r_user : U }.
Arguments mk_rd {U}. Arguments r_line {U}. Arguments r_section {U}. Arguments r_prev {U}. Arguments r_error {U}. Arguments r_user {U}.

(** HANDLER(user, section, name, value) with the error bookkeeping of lines 182-183, 220-221, 228-229 *)
Definition call_handler {U} (h : ini_handler U) (x : rd U) (line : list Z) (prev : list Z) (lineno : Z)
    (name : outcome (list Z)) (value : outcome (option (list Z))) : outcome (rd U) :=
  do s <- cstr_at (r_section x) 0;
  do n <- name;
  do v <- value;
  do (ok, u) <- h (r_user x) s n v;
  Ret (mk_rd line (r_section x) prev (if negb ok && (r_error x =? 0) then lineno else r_error x) u).

(** one iteration of the loop, src/file/ini_reader.c:157-239 (lineno already incremented) *)
Definition parse_line {U} (h : ini_handler U) (x : rd U) (lineno : Z) : outcome (rd U) :=
  let line := r_line x in
  do b0 <- mload line 0;
  do bom <- (if (lineno =? 1) && (b0 =? 239) then                                    (* 161-165 *)
               do b1 <- mload line 1;
               if b1 =? 187 then do b2 <- mload line 2; Ret (b2 =? 191) else Ret false
             else Ret false);
  let start := if bom then 3 else 0 in
  do line <- ini_rstrip line start;                                                  (* 167 *)
  do start <- ini_lskip line start;
  do c <- mload line start;
  do p0 <- mload (r_prev x) 0;
  if (c =? 0) || inset c [59; 35] then                                               (* 169: strchr finds the terminator too *)
    Ret (mk_rd line (r_section x) (r_prev x) (r_error x) (r_user x))
  else if negb (p0 =? 0) && (0 <? start) then                                        (* 173 *)
    do e <- ini_find_chars_or_comment line start None;                               (* 175 *)
    do ec <- mload line e;
    do line <- (if negb (ec =? 0) then mstore line e 0 else Ret line);               (* 176-177 *)
    do line <- ini_rstrip line start;                                                (* 178 *)
    call_handler h x line (r_prev x) lineno (cstr_at (r_prev x) 0) (do v <- cstr_at line start; Ret (Some v))   (* 182-183 *)
  else if c =? 91 then                                                               (* 186 *)
    do e <- ini_find_chars_or_comment line (start + 1) (Some [93]);                  (* 188 *)
    do ec <- mload line e;
    if ec =? 93 then
      do line <- mstore line e 0;                                                    (* 190 *)
      do sec <- ini_strncpy0 (r_section x) line (start + 1) MAX_SECTION;             (* 191 *)
      do prev <- mstore (r_prev x) 0 0;                                              (* 192 *)
      Ret (mk_rd line sec prev (r_error x) (r_user x))
    else Ret (mk_rd line (r_section x) (r_prev x) (if r_error x =? 0 then lineno else r_error x) (r_user x))   (* 198-201 *)
  else
    do e <- ini_find_chars_or_comment line start (Some [61; 58]);                    (* 205 *)
    do ec <- mload line e;
    if (ec =? 61) || (ec =? 58) then
      do line <- mstore line e 0;                                                    (* 207 *)
      do line <- ini_rstrip line start;                                              (* 208 *)
      let value := e + 1 in                                                          (* 209 *)
      do e <- ini_find_chars_or_comment line value None;                             (* 211 *)
      do ec <- mload line e;
      do line <- (if negb (ec =? 0) then mstore line e 0 else Ret line);             (* 212-213 *)
      do value <- ini_lskip line value;                                              (* 215 *)
      do line <- ini_rstrip line value;                                              (* 216 *)
      do prev <- ini_strncpy0 (r_prev x) line start MAX_NAME;                        (* 219 *)
      call_handler h x line prev lineno (cstr_at line start) (do v <- cstr_at line value; Ret (Some v))   (* 220-221 *)
    else if r_error x =? 0 then                                                      (* 223 *)
      do line <- mstore line e 0;                                                    (* 226 *)
      do line <- ini_rstrip line start;                                              (* 227 *)
      call_handler h x line (r_prev x) lineno (cstr_at line start) (Ret None)        (* 228-229 *)
    else Ret (mk_rd line (r_section x) (r_prev x) (r_error x) (r_user x)).

(** ini_reader_string, src/file/ini_reader.c:271-294: the copying loop for num - 1 = fuel characters *)
Fixpoint reader_loop (fuel : nat) (str : list Z) (i : Z) (rest : list Z) : outcome (list Z * list Z) :=
  match fuel, rest with
  | S fuel, c :: rest =>
    do str <- mstore str i c;
    if c =? 10 then do str <- mstore str (i + 1) 0; Ret (str, rest)
    else reader_loop fuel str (i + 1) rest
  | _, _ => do str <- mstore str i 0; Ret (str, rest)
  end.

(** ini_reader_parse_stream, src/file/ini_reader.c:97-247 (the loop) *)
Fixpoint stream_loop {U} (fuel : nat) (h : ini_handler U) (x : rd U) (lineno : Z) (rest : list Z) : outcome (Z * U) :=
  match rest with
  | [] => Ret (r_error x, r_user x)                                                  (* 136, 278 *)
  | _ =>
    match fuel with
    | O => NoFuel
    | S fuel =>
      do (line, rest) <- reader_loop (Z.to_nat (INI_MAX_LINE - 1)) (r_line x) 0 rest;
      do lineno <- sint (lineno + 1);                                                (* 157 *)
      do x <- parse_line h (mk_rd line (r_section x) (r_prev x) (r_error x) (r_user x)) lineno;
      stream_loop fuel h x lineno rest
    end
  end.
(** ini_reader_parse_string, src/file/ini_reader.c:297-304; [junk] is what the uninitialised line array holds *)
Definition ini_reader_parse_string {U} (h : ini_handler U) (junk : list Z) (string : list Z) (u : U) : outcome (Z * U) :=
  stream_loop (length string) h (mk_rd junk (repeat 0 50) (repeat 0 50) 0 u) 0 string.
