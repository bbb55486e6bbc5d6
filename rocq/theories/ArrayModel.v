(** Model of src/data/array.c. The struct is a record; [ar_data] is the block array->data points into
    (internal_storage first, a separate block after the first growth: [ar_moved]). ASSERTs are modelled as
    aborting (debug build, inc/common_macro.h:207-229; the release build evaluates and ignores them). *)
From Verif Require Import CBase StringBuilderModel.

(** src/data/array.c:29-36; sizeof(array_t) = 32 *)
Record array := mk_ar { ar_es : Z; ar_len : Z; ar_cap : Z; ar_data : list Z; ar_moved : bool }.

(** array_new_with_init_capacity, src/data/array.c:46-61. calloc gives zeros; the storage is what remains of
    the block after the 32 bytes of the struct *)
Definition array_new_with (al : allocator) (es cap : Z) : option array :=
  let cap := if cap <? 4 then 4 else cap in
  match al (u64 (32 + u64 (es * cap))) with
  | None => None
  | Some b => Some (mk_ar es 0 cap (repeat 0 (Z.to_nat (zlen b - 32))) false)
  end.
(** array_new, src/data/array.c:41-44 *)
Definition array_new (al : allocator) (es : Z) : option array := array_new_with al es 16.

(** array_at, src/data/array.c:81-86; the caller then reads es bytes there *)
Definition array_at (a : array) (i : Z) : outcome Z :=
  if i <? ar_len a then Ret (i * ar_es a) else Abrt.
Definition array_read (a : array) (i : Z) : outcome (list Z) :=
  do p <- array_at a i; mread (ar_data a) p (ar_es a).
(** array_length, src/data/array.c:88-92 *)
Definition array_length (a : array) : Z := ar_len a.

(** grow, src/data/array.c:113-129 *)
Definition array_grow (al : allocator) (a : array) : outcome (array * bool) :=
  let newcap := u64 (ar_cap a + ar_cap a / 2) in
  let size := u64 (newcap * ar_es a) in
  match (if ar_moved a then realloc al (ar_data a) size else al size) with
  | None => Ret (a, false)
  | Some nd =>
    do nd <- (if ar_moved a then Ret nd
              else do m <- mread (ar_data a) 0 (ar_len a * ar_es a); mwrite nd 0 m);
    Ret (mk_ar (ar_es a) (ar_len a) newcap nd true, true)
  end.

(** array_append_ptr, src/data/array.c:99-111; src is the block data points to *)
Definition array_append_ptr (al : allocator) (a : array) (src : list Z) : outcome (array * bool) :=
  do (a, ok) <- (if ar_len a =? ar_cap a then array_grow al a else Ret (a, true));
  if negb ok then Ret (a, false)
  else
    let a := mk_ar (ar_es a) (ar_len a + 1) (ar_cap a) (ar_data a) (ar_moved a) in
    do p <- array_at a (ar_len a - 1);
    do m <- mread src 0 (ar_es a);
    do d <- mwrite (ar_data a) p m;
    Ret (mk_ar (ar_es a) (ar_len a) (ar_cap a) d (ar_moved a), true).
(** array_append_value, src/data/array.c:94-97; the address of a uint32_t, little endian *)
Definition le32 (v : Z) : list Z := [v mod 256; v / 256 mod 256; v / 65536 mod 256; v / 16777216 mod 256].
Definition array_append_value (al : allocator) (a : array) (v : Z) : outcome (array * bool) :=
  array_append_ptr al a (le32 v).

(** histories of appends: an element given by pointer or by value *)
Inductive ar_op := ArPtr (src : list Z) | ArVal (v : Z).
Definition ar_step (al : allocator) (a : array) (o : ar_op) : outcome (array * bool) :=
  match o with ArPtr s => array_append_ptr al a s | ArVal v => array_append_value al a v end.
Fixpoint ar_run (a : array) (h : list (allocator * ar_op)) : outcome (array * list bool) :=
  match h with
  | [] => Ret (a, [])
  | (al, o) :: h => do (a, ok) <- ar_step al a o; do (a, rest) <- ar_run a h; Ret (a, ok :: rest)
  end.
