(** Model of /repo/src/ring/msg_queue.c over the RingBuffer model. Cells are bytes; uint32_t values
    are stored little-endian (x86-64/AArch64). size_t is 64 bit. *)
From Verif Require Import CBase RingBuffer2Model.

(** in-memory representation of msg_header_t { uint32_t msg_size } (msg_queue.c:11-14) *)
Definition le32 (x : Z) : list Z := [x mod 256; (x / 256) mod 256; (x / 65536) mod 256; (x / 16777216) mod 256].
Definition le32_dec (l : list Z) : outcome Z :=
  match l with
  | [a; b; c; d] => Ret (a + 256 * b + 65536 * c + 16777216 * d)
  | _ => Ub
  end.

(** inc/ring/msg_queue.h msg_q_code_e *)
Definition MQ_SUCCESS := 0. Definition MQ_NULL_HANDLE := 2. Definition MQ_AGAIN := 3.
Definition MQ_EMPTY := 4. Definition MQ_FULL := 5. Definition MQ_BUF_NOT_ENOUGH := 6.

Definition hdr_size : Z := 4.
(** sizeof(struct __msg_queue): one pointer *)
Definition mq_struct_size : Z := 8.

(** ASSERT_ABORT(cond) *)
Definition assert_abort (c : bool) : outcome unit := if c then Ret tt else Abrt.

(** msg_queue.c:16-36. The queue object is its ring buffer. *)
Definition mq_create (malloc : Z -> option (list Z)) (buf_size : Z) : outcome (option (rb Z)) :=
  if buf_size <? hdr_size + 4 then Ret None
  else match malloc (u64 (mq_struct_size + buf_size)) with
       | None => Ret None
       | Some m =>
         if zlen m <? mq_struct_size then Ub
         else rb_create_with_mem (Some (zdrop mq_struct_size m)) buf_size
       end.

(** msg_queue.c:38-55 *)
Definition mq_push (q : option (rb Z)) (msg : option (list Z)) (size : Z) : outcome (option (rb Z) * Z) :=
  match q, msg with
  | Some h, Some m =>
    if size =? 0 then Ret (q, MQ_NULL_HANDLE)
    else if rb_avail_write h <? u64 (hdr_size + size) then Ret (q, MQ_FULL)
    else
      do r1 <- rb_write h (Some (le32 size)) hdr_size;
      do _ <- assert_abort (snd r1 =? hdr_size);
      do r2 <- rb_write (fst r1) (Some m) size;
      do _ <- assert_abort (snd r2 =? size);
      Ret (Some (fst r2), MQ_SUCCESS)
  | _, _ => Ret (q, MQ_NULL_HANDLE)
  end.

(** msg_queue.c:57-69 *)
Definition mq_next_msg_size (q : option (rb Z)) : outcome Z :=
  match q with
  | None => Ret 0
  | Some h =>
    if rb_avail_read h <? hdr_size + 1 then Ret 0
    else
      do r <- rb_peek h (Some [0; 0; 0; 0]) hdr_size;
      do _ <- assert_abort (snd r =? hdr_size);
      match snd (fst r) with Some l => le32_dec l | None => Ub end
  end.

(** msg_queue.c:71-100. Result: queue, target block, the size variable, code. *)
Definition mq_pop (q : option (rb Z)) (msg : option (list Z)) (sizep : option Z)
  : outcome (option (rb Z) * option (list Z) * option Z * Z) :=
  match q, msg, sizep with
  | Some h, Some t, Some sz =>
    let avail := rb_avail_read h in
    if avail <? hdr_size + 1 then Ret (q, msg, sizep, MQ_EMPTY)
    else
      do r <- rb_peek h (Some [0; 0; 0; 0]) hdr_size;
      do _ <- assert_abort (snd r =? hdr_size);
      do n <- match snd (fst r) with Some l => le32_dec l | None => Ub end;
      if avail <? u64 (hdr_size + n) then Ret (q, msg, sizep, MQ_AGAIN)
      else if n >? sz then Ret (q, msg, Some n, MQ_BUF_NOT_ENOUGH)
      else
        do r1 <- rb_discard h hdr_size;
        do _ <- assert_abort (snd r1 =? hdr_size);
        do r2 <- rb_read (fst (fst r1)) (Some t) n;
        do _ <- assert_abort (snd r2 =? n);
        Ret (Some (fst (fst r2)), snd (fst r2), sizep, MQ_SUCCESS)
  | _, _, _ => Ret (q, msg, sizep, MQ_NULL_HANDLE)
  end.

(** msg_queue.c:102-118: ASSERT_ABORT on a NULL queue *)
Definition mq_clear (q : option (rb Z)) : outcome (option (rb Z)) :=
  match q with Some h => Ret (Some (rb_clear h)) | None => Abrt end.
Definition mq_available_pop_bytes (q : option (rb Z)) : outcome Z :=
  match q with Some h => Ret (rb_avail_read h) | None => Abrt end.
Definition mq_available_push_bytes (q : option (rb Z)) : outcome Z :=
  match q with Some h => Ret (rb_avail_write h) | None => Abrt end.

(** msg_queue.c:120-129. Argument: None = NULL pointer-to-pointer, Some None = pointer to NULL.
    Result: number of blocks released and the pointer value afterwards. the field ring_buf_p
    is read before any NULL check of the handle. *)
Definition mq_destroy (qpp : option (option (rb Z))) : outcome (Z * option (option (rb Z))) :=
  match qpp with
  | None => Ret (0, None)
  | Some None => Ub
  | Some (Some _) => Ret (1, Some None)
  end.

Inductive mqop :=
| MPush (msg : option (list Z)) (size : Z)
| MPop (target : option (list Z)) (sizep : option Z)
| MNext | MClear | MPopBytes | MPushBytes.

(** observable: code or number; the caller's target block; the caller's size variable *)
Definition mqobs : Type := (Z * option (list Z) * option Z)%type.

Definition mq_step (q : option (rb Z)) (o : mqop) : outcome (option (rb Z) * mqobs) :=
  match o with
  | MPush m n => do r <- mq_push q m n; Ret (fst r, (snd r, None, None))
  | MPop t s => do r <- mq_pop q t s;
                Ret (fst (fst (fst r)), (snd r, snd (fst (fst r)), snd (fst r)))
  | MNext => do n <- mq_next_msg_size q; Ret (q, (n, None, None))
  | MClear => do q' <- mq_clear q; Ret (q', (0, None, None))
  | MPopBytes => do n <- mq_available_pop_bytes q; Ret (q, (n, None, None))
  | MPushBytes => do n <- mq_available_push_bytes q; Ret (q, (n, None, None))
  end.

Fixpoint mq_run (q : option (rb Z)) (ops : list mqop) : outcome (option (rb Z) * list mqobs) :=
  match ops with
  | [] => Ret (q, [])
  | o :: rest =>
    do r <- mq_step q o;
    do r2 <- mq_run (fst r) rest;
    Ret (fst r2, snd r :: snd r2)
  end.
