(** Model of src/mem/strings.c. Buffers are lists of bytes 0..255; pointers into them are offsets. *)
From Verif Require Import CBase CStr.

(** lines 43-52: copy until n runs out or a NUL was copied; result: dst, d (= s), n *)
Fixpoint cpy_loop (fuel : nat) (dst src : list Z) (d n : Z) : outcome (list Z * Z * Z) :=
  match fuel with
  | O => NoFuel
  | S fuel =>
    let n := n - 1 in
    if n =? 0 then Ret (dst, d, n)
    else do c <- mload src d; do dst <- mstore dst d c;
         if c =? 0 then Ret (dst, d + 1, n) else cpy_loop fuel dst src (d + 1) n
  end.
(** lines 61-62: run s past the NUL; result: s *)
Fixpoint skip_loop (fuel : nat) (src : list Z) (s : Z) : outcome Z :=
  match fuel with
  | O => NoFuel
  | S fuel => do c <- mload src s; if c =? 0 then Ret (s + 1) else skip_loop fuel src (s + 1)
  end.
(** strlcpy, src/mem/strings.c:35-65 *)
Definition strlcpy (dst src : list Z) (size : Z) : outcome (list Z * Z) :=
  do (dst, d, n) <- (if size =? 0 then Ret (dst, 0, 0) else cpy_loop (Z.to_nat size) dst src 0 size);
  if n =? 0 then
    do dst <- (if size =? 0 then Ret dst else mstore dst d 0);
    do s <- skip_loop (S (length src)) src d;
    Ret (dst, s - 1)
  else Ret (dst, d - 1).

(** lines 74-78: find the end of dst within n bytes *)
Fixpoint cat_find (fuel : nat) (dst : list Z) (d n : Z) : outcome Z :=
  if n =? 0 then Ret d
  else match fuel with
  | O => NoFuel
  | S fuel => do c <- mload dst d; if c =? 0 then Ret d else cat_find fuel dst (d + 1) (n - 1)
  end.
(** lines 87-95; result: dst, d, s *)
Fixpoint cat_loop (fuel : nat) (dst src : list Z) (d s n : Z) : outcome (list Z * Z * Z) :=
  match fuel with
  | O => NoFuel
  | S fuel =>
    do c <- mload src s;
    if c =? 0 then Ret (dst, d, s)
    else if n =? 1 then cat_loop fuel dst src d (s + 1) n
    else do dst <- mstore dst d c; cat_loop fuel dst src (d + 1) (s + 1) (n - 1)
  end.
(** strlcat, src/mem/strings.c:67-99 *)
Definition strlcat (dst src : list Z) (size : Z) : outcome (list Z * Z) :=
  do dlen <- cat_find (Z.to_nat size) dst 0 size;
  let n := size - dlen in
  if n =? 0 then do l <- strlen_at src 0; Ret (dst, dlen + l)
  else
    do (dst, d, s) <- cat_loop (S (length src)) dst src dlen 0 n;
    do dst <- mstore dst d 0;
    Ret (dst, dlen + s).

(** strreplace, src/mem/strings.c:105-148. original, pattern and replacement are the texts without their
    terminators; oriptr is an offset into the original. The counting loop, lines 118-121: *)
Fixpoint count_loop (fuel : nat) (o p : list Z) (off cnt : Z) : outcome Z :=
  match strstr (zdrop off o) p with
  | None => Ret cnt
  | Some k => match fuel with
              | O => NoFuel
              | S fuel => count_loop fuel o p (off + k + zlen p) (cnt + 1)
              end
  end.
(** lines 132-144; result: buffer, retptr, oriptr *)
Fixpoint repl_loop (fuel : nat) (o p r buf : list Z) (off ret : Z) : outcome (list Z * Z * Z) :=
  match strstr (zdrop off o) p with
  | None => Ret (buf, ret, off)
  | Some k => match fuel with
              | O => NoFuel
              | S fuel =>
                do buf <- mwrite buf ret (zsub off k o);
                do buf <- mwrite buf (ret + k) r;
                repl_loop fuel o p r buf (off + k + zlen p) (ret + k + zlen r)
              end
  end.
Definition strreplace (malloc : Z -> option (list Z)) (fuel : nat) (o p r : list Z) : outcome (option (list Z)) :=
  do cnt <- count_loop fuel o p 0 0;
  let retlen := u64 (zlen o + cnt * u64 (zlen r - zlen p)) in
  match malloc (u64 (retlen + 1)) with
  | None => Ret None
  | Some buf =>
    do buf <- mstore buf 0 0;
    do (buf, ret, off) <- repl_loop fuel o p r buf 0 0;
    do buf <- mwrite buf ret (zdrop off o ++ [0]);   (* strcpy *)
    Ret (Some buf)
  end.

(** strtok_r (POSIX; glibc behaviour): ctx is the saved offset. Result: buffer, token, saved offset *)
Definition strtok_r (buf delim : list Z) (ctx : Z) : outcome (list Z * option Z * Z) :=
  do s <- cstr_at buf ctx;
  let a := span_in delim s in
  let s' := zdrop a s in
  match s' with
  | [] => Ret (buf, None, ctx + a)
  | _ =>
    let k := span_out delim s' in
    if k =? zlen s' then Ret (buf, Some (ctx + a), ctx + a + k)
    else do buf <- mstore buf (ctx + a + k) 0; Ret (buf, Some (ctx + a), ctx + a + k + 1)
  end.
(** the loop at lines 158-164; toks are the pointers stored so far *)
Fixpoint split_loop (fuel : nat) (buf delim : list Z) (ctx : Z) (tok : option Z) (toks : list Z) (cap : Z)
  : outcome (list Z * list Z) :=
  match tok with
  | None => Ret (buf, toks)
  | Some t =>
    if zlen toks <? cap then
      match fuel with
      | O => NoFuel
      | S fuel =>
        do (buf, tok, ctx) <- strtok_r buf delim ctx;
        split_loop fuel buf delim ctx tok (toks ++ [t]) cap
      end
    else Ret (buf, toks)
  end.
(** strsplit, src/mem/strings.c:150-165; result: the modified buffer and the stored pointers *)
Definition strsplit (buf delim : list Z) (cap : Z) : outcome (list Z * list Z) :=
  do (buf, tok, ctx) <- strtok_r buf delim 0;
  split_loop (length buf) buf delim ctx tok [] cap.

(** strtrim, src/mem/strings.c:167-179. Pointers are offsets; for an empty string `end` is the offset -1
    (C leaves the pointer s - 1 undefined; the model only compares it). *)
Fixpoint trim_l (fuel : nat) (s cset : list Z) (sp en : Z) : outcome Z :=
  if sp <=? en then
    match fuel with
    | O => NoFuel
    | S fuel => do c <- mload s sp; if inset c cset then trim_l fuel s cset (sp + 1) en else Ret sp
    end
  else Ret sp.
Fixpoint trim_r (fuel : nat) (s cset : list Z) (ep sp : Z) : outcome Z :=
  if ep >? sp then
    match fuel with
    | O => NoFuel
    | S fuel => do c <- mload s ep; if inset c cset then trim_r fuel s cset (ep - 1) sp else Ret ep
    end
  else Ret ep.
Definition strtrim (s cset : list Z) : outcome (list Z) :=
  do l <- strlen_at s 0;
  let en := l - 1 in
  do sp <- trim_l (length s) s cset 0 en;
  do ep <- trim_r (length s) s cset en sp;
  let len := if sp >? ep then 0 else ep - sp + 1 in
  do s <- (if negb (len =? 0) && negb (sp =? 0) then do m <- mread s sp len; mwrite s 0 m else Ret s);
  mstore s len 0.

(** strnutf8len, src/mem/strings.c:186-197. The terminator test reads *utf8str before the count test. *)
Fixpoint utf8_loop (fuel : nat) (s : list Z) (i maxc pts : Z) : outcome Z :=
  match fuel with
  | O => NoFuel
  | S fuel =>
    do c <- mload s i;
    if negb (c =? 0) && (i <? maxc)
    then utf8_loop fuel s (i + 1) maxc (pts + (if Z.land c 192 =? 128 then 0 else 1))
    else Ret pts
  end.
Definition strnutf8len (s : list Z) (maxc : Z) : outcome Z := utf8_loop (S (length s)) s 0 maxc 0.
(** strutf8len, src/mem/strings.c:181-184 *)
Definition strutf8len (s : list Z) : outcome Z := do l <- strlen_at s 0; strnutf8len s l.

(** str_char2hex, src/mem/strings.c:199-223 *)
Definition hexlow (d : Z) : Z := if d <? 10 then 48 + d else 97 + (d - 10).
(** " %02x" *)
Definition hex3 (b : Z) : list Z := [32; hexlow (b / 16); hexlow (b mod 16)].
(** "hex truncated(%zu):" *)
Definition trunc_text (n : Z) : list Z :=
  [104;101;120;32;116;114;117;110;99;97;116;101;100;40] ++ decimal n ++ [41;58].
Fixpoint hex_loop (fuel : nat) (out : list Z) (cap : Z) (chars : list Z) (count i len : Z) : outcome (list Z * Z) :=
  if i <? count then
    match fuel with
    | O => NoFuel
    | S fuel =>
      do c <- mload chars i;
      do (out, r) <- snprintf_at out len (u64 (cap - len - 1)) (hex3 c);
      if negb (r =? 3) then Ret (out, len)
      else hex_loop fuel out cap chars count (i + 1) (len + r)
    end
  else Ret (out, len).
Definition str_char2hex (out : list Z) (cap : Z) (chars : list Z) (count : Z) : outcome (list Z * Z) :=
  do out <- mstore out 0 0;
  do (out, len, count) <-
    (if u64 (count * 3) >=? cap
     then do (out, l) <- snprintf_at out 0 (u64 (cap - 1)) (trunc_text count);
          Ret (out, l, u64 (cap / 3 - 1))
     else Ret (out, 0, count));
  hex_loop (S (length chars)) out cap chars count 0 len.
