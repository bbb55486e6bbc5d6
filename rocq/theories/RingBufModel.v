(** Model of /repo/src/ring/ring_buf.c (all functions). size_t is 64 bit. Memory content is
    polymorphic because the code only copies it. *)
From Verif Require Import CBase.

Section RingBuf.
Context {A : Type}.

(** ring_buf.c:17-24 struct __ring_buf_t. [need_free_myself] is kept; pbuf is the block itself. *)
Record ring := mk_ring {
  rg_own : bool;          (* need_free_myself *)
  rg_mem : list A;        (* pbuf: the data area *)
  rg_size : Z; rg_r : Z; rg_w : Z }.

(** sizeof(struct __ring_buf_t) on LP64: bool+pad 8, pointer 8, three size_t 24 *)
Definition ring_struct_size : Z := 40.

(** ring_buf.c:26 *)
Definition avail_read (h : ring) : Z := u64 (rg_size h + rg_w h - rg_r h) mod rg_size h.
(** ring_buf.c:28 *)
Definition avail_write (h : ring) : Z := u64 (rg_size h + rg_r h - rg_w h - 1) mod rg_size h.

(** ring_buf.c:30-48. The block given by the caller is [mem] (None = NULL pointer) of exactly
    [buf_size] cells; the data area is what follows the control structure (the structure itself
    is the record, so its cells are dropped from the block). *)
Definition create_with_mem (mem : option (list A)) (buf_size : Z) : outcome (option ring) :=
  match mem with
  | None => Ret None
  | Some m =>
    if buf_size <? u64 (ring_struct_size + 3) then Ret None
    else if zlen m <? ring_struct_size then Ub (* writing the header needs the room *)
    else Ret (Some (mk_ring false (zdrop ring_struct_size m) (u64 (buf_size - ring_struct_size)) 0 0))
  end.

(** ring_buf.c:50-73. [malloc n] is the memory malloc returns for a request of n bytes. *)
Definition create (malloc : Z -> option (list A)) (size : Z) : outcome (option ring) :=
  if size <? 3 then Ret None
  else
    let expect := u64 (size + ring_struct_size) in
    match malloc expect with
    | None => Ret None
    | Some m =>
      do oh <- create_with_mem (Some m) expect;
      match oh with
      | None => Ret None
      | Some h => Ret (Some (mk_ring true (rg_mem h) (rg_size h) (rg_r h) (rg_w h)))
      end
    end.

(** ring_buf.c:85-126 internal_ring_buf_read. [target] is the caller's block (None = NULL).
    Result: handle, target block afterwards, return value. *)
Definition internal_read (h : ring) (is_peek : bool) (target : option (list A)) (len : Z)
  : outcome (ring * option (list A) * Z) :=
  if (len =? 0) || (len >? avail_read h) then Ret (h, target, 0)
  else
    let first_max := u64 (rg_size h - rg_r h) in
    let first := if len >? first_max then first_max else len in
    do t1 <- match target with
             | None => Ret None
             | Some t => do d <- mread (rg_mem h) (rg_r h) first; do t' <- mwrite t 0 d; Ret (Some t')
             end;
    let second := u64 (len - first) in
    if negb (second =? 0) then
      do t2 <- match t1 with
               | None => Ret None
               | Some t => do d <- mread (rg_mem h) 0 second; do t' <- mwrite t first d; Ret (Some t')
               end;
      let h' := if is_peek then h else mk_ring (rg_own h) (rg_mem h) (rg_size h) second (rg_w h) in
      Ret (h', t2, len)
    else
      let nr := u64 (rg_r h + first) in
      let nr := if nr =? rg_size h then 0 else nr in
      let h' := if is_peek then h else mk_ring (rg_own h) (rg_mem h) (rg_size h) nr (rg_w h) in
      Ret (h', t1, len).

(** ring_buf.c:128-141 *)
Definition read (h : ring) target len := internal_read h false target len.
Definition peek (h : ring) target len := internal_read h true target len.
Definition discard (h : ring) len := internal_read h false None len.

(** ring_buf.c:143-175. [src] is the caller's source block. *)
Definition write (h : ring) (src : list A) (len : Z) : outcome (ring * Z) :=
  if (len =? 0) || (len >? avail_write h) then Ret (h, 0)
  else
    let first_max := u64 (rg_size h - rg_w h) in
    let first := if len >? first_max then first_max else len in
    do m1 <- (if negb (first =? 0)
              then do d <- mread src 0 first; mwrite (rg_mem h) (rg_w h) d
              else Ret (rg_mem h));
    let second := u64 (len - first) in
    if second =? 0 then
      let nw := u64 (rg_w h + first) in
      let nw := if nw =? rg_size h then 0 else nw in
      Ret (mk_ring (rg_own h) m1 (rg_size h) (rg_r h) nw, len)
    else
      do d <- mread src first second;
      do m2 <- mwrite m1 0 d;
      Ret (mk_ring (rg_own h) m2 (rg_size h) (rg_r h) second, len).

(** ring_buf.c:177-180 *)
Definition clear (h : ring) : ring := mk_ring (rg_own h) (rg_mem h) (rg_size h) 0 0.

(** The calls a client can make. *)
Inductive op :=
| OWrite (src : list A) (len : Z)
| ORead (target : option (list A)) (len : Z)
| OPeek (target : option (list A)) (len : Z)
| ODiscard (len : Z)
| OClear
| OAvailRead
| OAvailWrite.

(** What a call shows its caller: return value and the content of the target block afterwards. *)
Definition obs : Type := (Z * option (list A))%type.

Definition step (h : ring) (o : op) : outcome (ring * obs) :=
  match o with
  | OWrite src len => do r <- write h src len; Ret (fst r, (snd r, None))
  | ORead t len => do r <- read h t len; Ret (fst (fst r), (snd r, snd (fst r)))
  | OPeek t len => do r <- peek h t len; Ret (fst (fst r), (snd r, snd (fst r)))
  | ODiscard len => do r <- discard h len; Ret (fst (fst r), (snd r, None))
  | OClear => Ret (clear h, (0, None))
  | OAvailRead => Ret (h, (avail_read h, None))
  | OAvailWrite => Ret (h, (avail_write h, None))
  end.

Fixpoint run (h : ring) (ops : list op) : outcome (ring * list obs) :=
  match ops with
  | [] => Ret (h, [])
  | o :: rest =>
    do r <- step h o;
    do r2 <- run (fst r) rest;
    Ret (fst r2, snd r :: snd r2)
  end.
End RingBuf.
Arguments ring : clear implicits.
Arguments op : clear implicits.
Arguments obs : clear implicits.
