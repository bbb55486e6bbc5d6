(** Model of src/mem/stringbuilder.c. The struct is a record; the buffer is a block of bytes 0..255.
    An allocator is a function giving for a requested size a fresh block or None (NULL); each call gets its
    own, so that any pattern of failures is covered. Handles are non-NULL (line 86-89 etc. refuse NULL). *)
From Verif Require Import CBase CStr.

Definition allocator := Z -> option (list Z).

(** src/mem/stringbuilder.c:11-16 *)
Record sbuilder := mk_sb { sb_buf : list Z; sb_alloc : Z; sb_len : Z }.

(** realloc: a block of the new size that starts with the old contents (as far as it fits) *)
Definition realloc (al : allocator) (old : list Z) (k : Z) : option (list Z) :=
  match al k with
  | None => None
  | Some nb => Some (ztake k old ++ zdrop (zlen (ztake k old)) nb)
  end.

(** stringbuilder_create, src/mem/stringbuilder.c:18-40; al1 is asked for the struct (24 bytes) *)
Definition sb_create (al1 al2 : allocator) (init : Z) : outcome (option sbuilder) :=
  match al1 24 with
  | None => Ret None
  | Some _ =>
    let init := if init <? 2 then 128 else init in
    match al2 init with
    | None => Ret None
    | Some buf => do buf <- mstore buf 0 0; Ret (Some (mk_sb buf init 0))
    end
  end.

(** the doubling loop, lines 66-75; None is `return -3` *)
Fixpoint sb_double (fuel : nat) (should need : Z) : outcome (option Z) :=
  if should <? need then
    match fuel with
    | O => NoFuel
    | S fuel => let should := u64 (should * 2) in
                if should =? 0 then Ret None else sb_double fuel should need
    end
  else Ret (Some should).

(** sb_ensure_space, src/mem/stringbuilder.c:55-85 *)
Definition sb_ensure (al : allocator) (sb : sbuilder) (n : Z) : outcome (sbuilder * Z) :=
  if n =? 0 then Ret (sb, -1)
  else
    let need := u64 (sb_len sb + n + 1) in
    if sb_alloc sb >=? need then Ret (sb, 0)
    else
      do s <- sb_double 64 (sb_alloc sb) need;
      match s with
      | None => Ret (sb, -3)
      | Some size =>
        match realloc al (sb_buf sb) size with
        | None => Ret (sb, -4)
        | Some nb => Ret (mk_sb nb size (sb_len sb), 0)
        end
      end.

(** stringbuilder_appendchar, src/mem/stringbuilder.c:87-101 *)
Definition sb_appendchar (al : allocator) (sb : sbuilder) (c : Z) : outcome (sbuilder * Z) :=
  do (sb, r) <- sb_ensure al sb 1;
  if negb (r =? 0) then Ret (sb, -1)
  else
    do b <- mstore (sb_buf sb) (sb_len sb) c;
    let len := u64 (sb_len sb + 1) in
    do b <- mstore b len 0;
    Ret (mk_sb b (sb_alloc sb) len, 0).

(** stringbuilder_appendnstr, src/mem/stringbuilder.c:108-131; str is the block the pointer points to *)
Definition sb_appendnstr (al : allocator) (sb : sbuilder) (str : list Z) (len : Z) : outcome (sbuilder * Z) :=
  do len <- (if len =? 0 then strlen_at str 0 else Ret len);
  if len =? 0 then Ret (sb, -2)
  else
    do (sb, r) <- sb_ensure al sb len;
    if negb (r =? 0) then Ret (sb, -3)
    else
      do m <- mread str 0 len;
      do b <- mwrite (sb_buf sb) (sb_len sb) m;
      let l := u64 (sb_len sb + len) in
      do b <- mstore b l 0;
      Ret (mk_sb b (sb_alloc sb) l, 0).
(** stringbuilder_appendstr, src/mem/stringbuilder.c:103-106 *)
Definition sb_appendstr (al : allocator) (sb : sbuilder) (str : list Z) : outcome (sbuilder * Z) :=
  sb_appendnstr al sb str 0.

(** stringbuilder_appendf, src/mem/stringbuilder.c:133-162; the formatting itself is libc's: [fmt] is the
    text it produces, or None for an output error (vsnprintf returns -1) *)
Definition vsnprintf_len (fmt : option (list Z)) : Z := match fmt with Some t => zlen t | None => -1 end.
Definition sb_appendf (al : allocator) (sb : sbuilder) (fmt : option (list Z)) : outcome (sbuilder * Z) :=
  let len := u64 (vsnprintf_len fmt) in
  if len <? 1 then Ret (sb, -2)
  else
    do (sb, r) <- sb_ensure al sb len;
    if negb (r =? 0) then Ret (sb, -3)
    else
      do b <- (match fmt with
               | Some t => do (b, _) <- snprintf_at (sb_buf sb) (sb_len sb) (u64 (len + 1)) t; Ret b
               | None => Ret (sb_buf sb)
               end);
      let l := u64 (sb_len sb + len) in
      do b <- mstore b l 0;
      Ret (mk_sb b (sb_alloc sb) l, 0).

(** stringbuilder_clear, src/mem/stringbuilder.c:164-173 *)
Definition sb_clear (sb : sbuilder) : outcome (sbuilder * Z) :=
  do b <- mstore (sb_buf sb) 0 0; Ret (mk_sb b (sb_alloc sb) 0, 0).

(** stringbuilder_len / stringbuilder_to_string, src/mem/stringbuilder.c:175-183; the observed string is
    the bytes a caller reads through the pointer: length + 1 of them *)
Definition sb_observe (sb : sbuilder) : outcome (Z * list Z) :=
  do s <- mread (sb_buf sb) 0 (sb_len sb + 1); Ret (sb_len sb, s).

(** histories *)
Inductive sb_op :=
| SbChar (c : Z)
| SbStr (str : list Z)
| SbNStr (str : list Z) (len : Z)
| SbFmt (t : list Z)
| SbClear.
Definition sb_step (al : allocator) (sb : sbuilder) (o : sb_op) : outcome (sbuilder * Z) :=
  match o with
  | SbChar c => sb_appendchar al sb c
  | SbStr s => sb_appendstr al sb s
  | SbNStr s n => sb_appendnstr al sb s n
  | SbFmt t => sb_appendf al sb (Some t)
  | SbClear => sb_clear sb
  end.
(** result of each call: return code, then length and string as seen afterwards *)
Fixpoint sb_run (sb : sbuilder) (h : list (allocator * sb_op)) : outcome (list (Z * (Z * list Z))) :=
  match h with
  | [] => Ret []
  | (al, o) :: h =>
    do (sb, r) <- sb_step al sb o;
    do ob <- sb_observe sb;
    do rest <- sb_run sb h;
    Ret ((r, ob) :: rest)
  end.
(** the builder after a history *)
Fixpoint sb_exec (sb : sbuilder) (h : list (allocator * sb_op)) : outcome sbuilder :=
  match h with
  | [] => Ret sb
  | (al, o) :: h => do (sb, _) <- sb_step al sb o; sb_exec sb h
  end.
