(** Model of src/data/hash_functions.c. A string key is a block and an offset; char is signed (x86, ARM
    Linux default differs: the theorems hold for both readings where stated). *)
From Verif Require Import CBase.

(** a byte read through `const char*`, char signed *)
Definition schar (b : Z) : Z := if b <? 128 then b else b - 256.

(** PTR_TO_INT, line 23, and hash_function_naive, lines 26-29: the low 32 bits as int *)
Definition hash_function_naive (key : Z) : Z := s32 key.
(** hash_function_integer, lines 33-36: int times the 64-bit constant 2654435761, converted to int *)
Definition hash_function_integer (key : Z) : Z := s32 (s32 key * 2654435761).
(** hash_function_pointer, lines 38-41 *)
Definition hash_function_pointer (key : Z) : Z := s32 (s32 key * 2654435761).

(** hash_function_string, lines 52-63: the loop over the bytes from the current position, with the int
    arithmetic as ISO C defines it: a left shift of a negative int, and any overflow, are undefined *)
Fixpoint hash_loop_strict (hash : Z) (bytes : list Z) : outcome Z :=
  match bytes with
  | [] => Ub
  | b :: rest =>
    if b =? 0 then Ret hash
    else if hash <? 0 then Ub
    else do a <- sint (hash * 32); do a <- sint (a + hash); do a <- sint (a + schar b);
         hash_loop_strict a rest
  end.
Definition hash_function_string_strict (bytes : list Z) : outcome Z := hash_loop_strict 5381 bytes.
(** the same with wrapping arithmetic, what gcc -fwrapv guarantees *)
Fixpoint hash_loop (hash : Z) (bytes : list Z) : outcome Z :=
  match bytes with
  | [] => Ub
  | b :: rest => if b =? 0 then Ret hash else hash_loop (s32 (s32 (s32 (hash * 32) + hash) + schar b)) rest
  end.
Definition hash_function_string (bytes : list Z) : outcome Z := hash_loop 5381 bytes.

(** hashmap_hash, src/data/hashmap.c:206-217, wrapping arithmetic *)
Fixpoint hashmap_hash_loop (n : nat) (h : Z) (data : list Z) : outcome Z :=
  match n with
  | O => Ret h
  | S n => match data with [] => Ub | b :: rest => hashmap_hash_loop n (s32 (s32 (h * 31) + schar b)) rest end
  end.
Definition hashmap_hash (data : list Z) (size : Z) : outcome Z := hashmap_hash_loop (Z.to_nat size) (s32 size) data.
