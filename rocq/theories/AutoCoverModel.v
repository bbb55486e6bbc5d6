(** Model of /repo/src/ring/autocover_buffer.c over the RingBuffer model. The lock callbacks are not
    modelled (each call is one atomic operation). ASSERT is a debug-only check and is dropped;
    ASSERT_ABORT aborts. *)
From Verif Require Import CBase RingBuffer2Model.

Section AutoCover.
Context {A : Type}.
(** autocover_buffer.c:8-16 *)
Record acb := mk_acb { ac_ring : rb A; ac_size : Z }.

(** inc/ring/autocover_buffer.h *)
Definition AC_COVERED : Z := -3.
Definition AC_NOT_ENOUGH : Z := -4.

(** autocover_buffer.c:28-51. [ok]: calloc of the handle succeeded. *)
Definition ac_create (ok : bool) (calloc : Z -> option (list A)) (cap : Z) : outcome (option acb) :=
  if ok then
    do r <- rb_create calloc cap;
    match r with None => Ret None | Some h => Ret (Some (mk_acb h (rb_real_capacity h))) end
  else Ret None.

(** autocover_buffer.c:64-100: the readable length from [pos] on, as an int *)
Definition ac_can_read (b : acb) (pos : Z) : Z :=
  let mask := u32 (ac_size b - 1) in
  let c := Z.land pos mask in
  let avail := rb_avail_read (ac_ring b) in
  let r := Z.land (rb_read_position (ac_ring b)) mask in
  let w := Z.land (rb_write_position (ac_ring b)) mask in
  if u32 (w - r) =? avail then
    if (c >=? r) && (c <? w) then s32 (u32 (avail - u32 (c - r))) else AC_COVERED
  else
    if (c >? w) && (c <? r) then AC_COVERED
    else if c >=? r then s32 (u32 (avail - u32 (c - r)))
    else s32 (u32 (w - c)).

(** autocover_buffer.c:57-117. Result: buffer, target block, returned int. *)
Definition ac_internal_read (b : acb) (pos : Z) (target : option (list A)) (req : Z)
  : outcome (acb * option (list A) * Z) :=
  let can := ac_can_read b pos in
  let avail := rb_avail_read (ac_ring b) in
  if negb (can <=? s32 avail) then Abrt
  else
    match target with
    | None => Ret (b, None, can)
    | Some _ =>
      if can >=? s32 req then
        let should := u32 (avail - can) in
        do r1 <- (if negb (should =? 0) then do r <- rb_discard (ac_ring b) should; Ret (fst (fst r))
                  else Ret (ac_ring b));
        do r2 <- rb_read r1 target req;
        if snd r2 =? req then Ret (mk_acb (fst (fst r2)) (ac_size b), snd (fst r2), can) else Abrt
      else Ret (b, target, can)
    end.

(** autocover_buffer.c:119-123 *)
Definition ac_available_read (b : acb) (pos : Z) : outcome Z :=
  do r <- ac_internal_read b pos None 0; Ret (snd r).

(** autocover_buffer.c:125-149 *)
Definition ac_read (b : acb) (pos : Z) (target : option (list A)) (req : Z)
  : outcome (acb * option (list A) * Z) :=
  do r <- ac_internal_read b pos target req;
  let n := snd r in
  if n <? 0 then Ret (fst r, n)
  else if n <? s32 req then Ret (fst r, AC_NOT_ENOUGH)
  else Ret (fst r, s32 req).

(** autocover_buffer.c:151-168 *)
Definition ac_write (b : acb) (src : option (list A)) (len : Z) : outcome (acb * Z) :=
  let avail := rb_avail_write (ac_ring b) in
  do r1 <- (if len >? avail then do r <- rb_discard (ac_ring b) (u32 (len - avail)); Ret (fst (fst r))
            else Ret (ac_ring b));
  do r2 <- rb_write r1 src len;
  if snd r2 =? len then Ret (mk_acb (fst r2) (ac_size b), s32 (snd r2)) else Abrt.

Inductive acop :=
| AWrite (src : list A) (len : Z)
| ARead (pos : Z) (target : list A) (req : Z)
| AAvail (pos : Z).
Definition acobs : Type := (Z * option (list A))%type.

Definition ac_step (b : acb) (o : acop) : outcome (acb * acobs) :=
  match o with
  | AWrite s n => do r <- ac_write b (Some s) n; Ret (fst r, (snd r, None))
  | ARead p t n => do r <- ac_read b (u32 p) (Some t) n; Ret (fst (fst r), (snd r, snd (fst r)))
  | AAvail p => do n <- ac_available_read b (u32 p); Ret (b, (n, None))
  end.
Fixpoint ac_run (b : acb) (ops : list acop) : outcome (acb * list acobs) :=
  match ops with
  | [] => Ret (b, [])
  | o :: rest => do r <- ac_step b o; do r2 <- ac_run (fst r) rest; Ret (fst r2, snd r :: snd r2)
  end.
End AutoCover.
Arguments acb : clear implicits.
Arguments acop : clear implicits.
Arguments acobs : clear implicits.
