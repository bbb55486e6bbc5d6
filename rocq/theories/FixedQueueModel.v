(** Model of /repo/src/ring/fixed_msg_queue.c over the RingBuffer model. *)
From Verif Require Import CBase RingBuffer2Model.

Section Fixed.
Context {A : Type}.
(** fixed_msg_queue.c:6-10 *)
Record fq := mk_fq { fq_ring : rb A; fq_one : Z }.
(** sizeof(struct _fixed_msg_queue_s): pointer 8, uint32 4, padding 4 *)
Definition fq_struct_size : Z := 16.

(** fixed_msg_queue.c:12-35. `one_msg_byte_size * max_msg_capacity` is a uint32_t product. *)
Definition fq_create (malloc : Z -> option (list A)) (one cap : Z) : outcome (option fq) :=
  if (one <? 1) || (cap <? 1) then Ret None
  else
    let expect := u64 (fq_struct_size + u32 (one * cap)) in
    match malloc expect with
    | None => Ret None
    | Some m =>
      if zlen m <? fq_struct_size then Ub
      else
        do r <- rb_create_with_mem (Some (zdrop fq_struct_size m)) (u32 (expect - fq_struct_size));
        match r with None => Ret None | Some h => Ret (Some (mk_fq h one)) end
    end.

(** fixed_msg_queue.c:65-85 *)
Definition fq_pop_amount (q : fq) : Z := rb_avail_read (fq_ring q) / fq_one q.
Definition fq_push_amount (q : fq) : Z := rb_avail_write (fq_ring q) / fq_one q.
Definition fq_is_empty (q : fq) : bool := 0 =? fq_pop_amount q.
Definition fq_is_full (q : fq) : bool := 0 =? fq_push_amount q.

(** fixed_msg_queue.c:37-46 *)
Definition fq_push (q : fq) (msg : option (list A)) : outcome (fq * bool) :=
  if fq_is_full q then Ret (q, false)
  else do r <- rb_write (fq_ring q) msg (fq_one q);
       Ret (mk_fq (fst r) (fq_one q), snd r =? fq_one q).

(** fixed_msg_queue.c:48-58 *)
Definition fq_pop (q : fq) (target : option (list A)) : outcome (fq * option (list A) * bool) :=
  if fq_is_empty q || match target with None => true | Some _ => false end then Ret (q, target, false)
  else do r <- rb_read (fq_ring q) target (fq_one q);
       Ret (mk_fq (fst (fst r)) (fq_one q), snd (fst r), snd r =? fq_one q).

(** fixed_msg_queue.c:60-63 *)
Definition fq_clear (q : fq) : fq := mk_fq (rb_clear (fq_ring q)) (fq_one q).

Inductive fqop := FPush (msg : option (list A)) | FPop (target : option (list A)) | FClear
  | FPopAmount | FPushAmount | FIsEmpty | FIsFull.
Definition fqobs : Type := (Z * option (list A))%type.

Definition fq_step (q : fq) (o : fqop) : outcome (fq * fqobs) :=
  match o with
  | FPush m => do r <- fq_push q m; Ret (fst r, (b2z (snd r), None))
  | FPop t => do r <- fq_pop q t; Ret (fst (fst r), (b2z (snd r), snd (fst r)))
  | FClear => Ret (fq_clear q, (0, None))
  | FPopAmount => Ret (q, (fq_pop_amount q, None))
  | FPushAmount => Ret (q, (fq_push_amount q, None))
  | FIsEmpty => Ret (q, (b2z (fq_is_empty q), None))
  | FIsFull => Ret (q, (b2z (fq_is_full q), None))
  end.
Fixpoint fq_run (q : fq) (ops : list fqop) : outcome (fq * list fqobs) :=
  match ops with
  | [] => Ret (q, [])
  | o :: rest => do r <- fq_step q o; do r2 <- fq_run (fst r) rest; Ret (fst r2, snd r :: snd r2)
  end.
End Fixed.
Arguments fq : clear implicits.
Arguments fqop : clear implicits.
Arguments fqobs : clear implicits.
