(** Model of src/data/base64.c. Bytes are stored as 0..255; buffers are lists, pointers offsets. *)
From Verif Require Import CBase.

(** reading a byte as a (signed) char *)
Definition schar (b : Z) : Z := if b <? 128 then b else b - 256.

(** src/data/base64.c:15-16 *)
Definition basis_64 : list Z :=
  [65;66;67;68;69;70;71;72;73;74;75;76;77;78;79;80;81;82;83;84;85;86;87;88;89;90;
   97;98;99;100;101;102;103;104;105;106;107;108;109;110;111;112;113;114;115;116;117;118;119;120;121;122;
   48;49;50;51;52;53;54;55;56;57;43;47].

(** src/data/base64.c:18-21 *)
Definition lcu_base64_encode_buf_size (n : Z) : Z := s32 (u64 (u64 (n + 2) / 3 * 4 + 1)).
(** src/data/base64.c:88-91 *)
Definition lcu_base64_decode_buf_size (n : Z) : Z := s32 (u64 (u64 (n + 3) / 4 * 3 + 1)).

(** `*p++ = c` *)
Definition put (op : list Z * Z) (c : Z) : outcome (list Z * Z) :=
  do out <- mstore (fst op) (snd op) c; Ret (out, snd op + 1).

(** the for loop, src/data/base64.c:33-41; result: buffer, write offset, i *)
Fixpoint enc_loop (fuel : nat) (src : list Z) (len : Z) (op : list Z * Z) (i : Z) : outcome (list Z * Z * Z) :=
  if i <? u64 (len - 2) then
    match fuel with
    | O => NoFuel
    | S fuel =>
      do a <- mload src i;
      do b <- mload src (i + 1);
      do c <- mload src (i + 2);
      let a := schar a in let b := schar b in let c := schar c in
      do e0 <- mload basis_64 (Z.land (Z.shiftr a 2) 63); do op <- put op e0;
      do e1 <- mload basis_64 (Z.lor (Z.shiftl (Z.land a 3) 4) (Z.shiftr (Z.land b 240) 4)); do op <- put op e1;
      do e2 <- mload basis_64 (Z.lor (Z.shiftl (Z.land b 15) 2) (Z.shiftr (Z.land c 192) 6)); do op <- put op e2;
      do e3 <- mload basis_64 (Z.land c 63); do op <- put op e3;
      enc_loop fuel src len op (u64 (i + 3))
    end
  else Ret (op, i).

(** src/data/base64.c:23-61; the fuel bounds the number of loop iterations (len/3) *)
Definition lcu_base64_encode (out : list Z) (src : list Z) (len : Z) : outcome (list Z * Z) :=
  if len <? 2 then Ret (out, -1)
  else
    do (op, i) <- enc_loop (Z.to_nat len) src len (out, 0) 0;
    do op <-
      (if i <? len then
         do a <- mload src i; let a := schar a in
         do e0 <- mload basis_64 (Z.land (Z.shiftr a 2) 63); do op <- put op e0;
         do op <-
           (if i =? len - 1 then
              do e1 <- mload basis_64 (Z.shiftl (Z.land a 3) 4); do op <- put op e1;
              put op 61
            else
              do b <- mload src (i + 1); let b := schar b in
              do e1 <- mload basis_64 (Z.lor (Z.shiftl (Z.land a 3) 4) (Z.shiftr (Z.land b 240) 4)); do op <- put op e1;
              do e2 <- mload basis_64 (Z.shiftl (Z.land b 15) 2); put op e2);
         put op 61
       else Ret op);
    do op <- put op 0;
    Ret (fst op, s32 (snd op)).

(** src/data/base64.c:64-86 *)
Definition pr2six : list Z :=
  [64;64;64;64;64;64;64;64;64;64;64;64;64;64;64;64;
   64;64;64;64;64;64;64;64;64;64;64;64;64;64;64;64;
   64;64;64;64;64;64;64;64;64;64;64;62;64;64;64;63;
   52;53;54;55;56;57;58;59;60;61;64;64;64;64;64;64;
   64;0;1;2;3;4;5;6;7;8;9;10;11;12;13;14;
   15;16;17;18;19;20;21;22;23;24;25;64;64;64;64;64;
   64;26;27;28;29;30;31;32;33;34;35;36;37;38;39;40;
   41;42;43;44;45;46;47;48;49;50;51;64;64;64;64;64;
   64;64;64;64;64;64;64;64;64;64;64;64;64;64;64;64;
   64;64;64;64;64;64;64;64;64;64;64;64;64;64;64;64;
   64;64;64;64;64;64;64;64;64;64;64;64;64;64;64;64;
   64;64;64;64;64;64;64;64;64;64;64;64;64;64;64;64;
   64;64;64;64;64;64;64;64;64;64;64;64;64;64;64;64;
   64;64;64;64;64;64;64;64;64;64;64;64;64;64;64;64;
   64;64;64;64;64;64;64;64;64;64;64;64;64;64;64;64;
   64;64;64;64;64;64;64;64;64;64;64;64;64;64;64;64].

(** pr2six[src[i]] *)
Definition six (src : list Z) (i : Z) : outcome Z := do c <- mload src i; mload pr2six c.

(** src/data/base64.c:100-102: index of the first character outside the alphabet *)
Fixpoint count_pr (fuel : nat) (src : list Z) (i : Z) : outcome Z :=
  match fuel with
  | O => NoFuel
  | S fuel => do v <- six src i; if v <=? 63 then count_pr fuel src (i + 1) else Ret i
  end.

(** the three output bytes, src/data/base64.c:110-112 and 120-131; (unsigned char) casts are mod 256 *)
Definition byte0 (v0 v1 : Z) : Z := Z.lor (Z.shiftl v0 2) (Z.shiftr v1 4) mod 256.
Definition byte1 (v1 v2 : Z) : Z := Z.lor (Z.shiftl v1 4) (Z.shiftr v2 2) mod 256.
Definition byte2 (v2 v3 : Z) : Z := Z.lor (Z.shiftl v2 6) v3 mod 256.

(** src/data/base64.c:108-116; result: buffer, write offset, read offset, remaining count *)
Fixpoint dec_loop (fuel : nat) (src : list Z) (op : list Z * Z) (bi n : Z) : outcome (list Z * Z * Z * Z) :=
  if n >? 4 then
    match fuel with
    | O => NoFuel
    | S fuel =>
      do v0 <- six src bi; do v1 <- six src (bi + 1); do op <- put op (byte0 v0 v1);
      do v1 <- six src (bi + 1); do v2 <- six src (bi + 2); do op <- put op (byte1 v1 v2);
      do v2 <- six src (bi + 2); do v3 <- six src (bi + 3); do op <- put op (byte2 v2 v3);
      dec_loop fuel src op (bi + 4) (n - 4)
    end
  else Ret (op, bi, n).

(** src/data/base64.c:93-136; the int count is exact for strings shorter than 2^31 (s32) *)
Definition lcu_base64_decode (out : list Z) (src : list Z) : outcome (list Z * Z) :=
  do n0 <- count_pr (S (length src)) src 0;
  let n := s32 n0 in
  do n3 <- sint (n + 3);
  do nb <- sint (Z.quot n3 4 * 3);
  do (op, bi, n) <- dec_loop (length src) src (out, 0) 0 n;
  do op <- (if n >? 1 then do v0 <- six src bi; do v1 <- six src (bi + 1); put op (byte0 v0 v1) else Ret op);
  do op <- (if n >? 2 then do v1 <- six src (bi + 1); do v2 <- six src (bi + 2); put op (byte1 v1 v2) else Ret op);
  do op <- (if n >? 3 then do v2 <- six src (bi + 2); do v3 <- six src (bi + 3); put op (byte2 v2 v3) else Ret op);
  do op <- put op 0;
  Ret (fst op, nb - Z.land (4 - n) 3).
