(** Model of /repo/src/ring/ringbuffer.c (line numbers of that file). uint32_t counters wrap. *)
From Verif Require Import CBase.

(** ringbuffer.c:30-33 *)
Definition is_power_of_2 (n : Z) : bool := (n >? 1) && (Z.land n (u32 (n - 1)) =? 0).

(** ringbuffer.c:42-46 `while (x >>= 1) counter++` *)
Fixpoint count_shifts (fuel : nat) (x counter : Z) : outcome Z :=
  match fuel with
  | O => NoFuel
  | S f => let x := Z.shiftr x 1 in
           if x =? 0 then Ret counter else count_shifts f x (u32 (counter + 1))
  end.
(** ringbuffer.c:35-48. `2 << counter` is an int shift: for counter >= 30 the result is not
    representable in int, undefined behaviour. 64 is fuel for the shift loop (32 suffice). *)
Definition roundup_pow_of_two (x : Z) : outcome Z :=
  if (x =? 0) || is_power_of_2 x then Ret x
  else do c <- count_shifts 64 x 0;
       do r <- sint (2 * 2 ^ c);
       Ret (u32 r).

Section RingBuffer.
Context {A : Type}.

(** ringbuffer.c:50-57 *)
Record rb := mk_rb { rb_own : bool; rb_in : Z; rb_out : Z; rb_size : Z; rb_buf : list A }.

(** sizeof(struct __ring_buffer_t) on LP64: bool+pad 4, three uint32 12, pointer 8 *)
Definition rb_struct_size : Z := 24.

(** ringbuffer.c:59 *)
Definition rb_avail_read (h : rb) : Z := u32 (rb_in h - rb_out h).
(** ringbuffer.c:60 *)
Definition rb_avail_write (h : rb) : Z := u32 (rb_size h - rb_avail_read h).

(** ringbuffer.c:62-88. [mem]: the caller's block, [buf_size] its declared length.
    The data area [rb_buf] is all of the block behind the structure. *)
Definition rb_create_with_mem (mem : option (list A)) (buf_size : Z) : outcome (option rb) :=
  match mem with
  | None => Ret None
  | Some m =>
    if buf_size <? u32 (rb_struct_size + 4) then Ret None
    else
      let sz := u32 (buf_size - rb_struct_size) in
      do sz2 <- (if is_power_of_2 sz then Ret sz
                 else do r <- roundup_pow_of_two sz; Ret (Z.shiftr r 1));
      if zlen m <? rb_struct_size then Ub
      else Ret (Some (mk_rb false 0 0 sz2 (zdrop rb_struct_size m)))
  end.

(** ringbuffer.c:90-119. [calloc n]: the block returned for n bytes. *)
Definition rb_create (calloc : Z -> option (list A)) (buf_size : Z) : outcome (option rb) :=
  if buf_size <? 2 then Ret None
  else
    do sz <- (if is_power_of_2 buf_size then Ret buf_size else roundup_pow_of_two buf_size);
    let expect := u32 (rb_struct_size + sz) in
    match calloc expect with
    | None => Ret None
    | Some m =>
      do oh <- rb_create_with_mem (Some m) expect;
      match oh with
      | None => Ret None
      | Some h => Ret (Some (mk_rb true (rb_in h) (rb_out h) (rb_size h) (rb_buf h)))
      end
    end.

(** ringbuffer.c:141-149 *)
Definition rb_is_empty (h : rb) : bool := 0 =? rb_avail_read h.
Definition rb_is_full (h : rb) : bool := 0 =? rb_avail_write h.
(** ringbuffer.c:151-159 *)
Definition rb_clear (h : rb) : rb := mk_rb (rb_own h) 0 0 (rb_size h) (rb_buf h).
(** ringbuffer.c:161-174 *)
Definition rb_read_position (h : rb) : Z := rb_out h.
Definition rb_write_position (h : rb) : Z := rb_in h.
Definition rb_real_capacity (h : rb) : Z := rb_size h.

(** ringbuffer.c:17 *)
Definition take_min (a b : Z) : Z := if a >? b then b else a.

(** ringbuffer.c:186-223. [src] None = NULL. *)
Definition rb_write (h : rb) (src : option (list A)) (size : Z) : outcome (rb * Z) :=
  match src with
  | None => Ret (h, 0)
  | Some s =>
    if size =? 0 then Ret (h, 0)
    else
      let avail := rb_avail_write h in
      if avail =? 0 then Ret (h, 0)
      else
        let size := take_min size avail in
        let start := Z.land (rb_in h) (u32 (rb_size h - 1)) in
        let first_max := u32 (rb_size h - start) in
        let first := take_min size first_max in
        do m1 <- (if negb (first =? 0)
                  then do d <- mread s 0 first; mwrite (rb_buf h) start d
                  else Ret (rb_buf h));
        let rest := u32 (size - first) in
        do m2 <- (if rest >? 0
                  then do d <- mread s first rest; mwrite m1 0 d
                  else Ret m1);
        Ret (mk_rb (rb_own h) (u32 (rb_in h + size)) (rb_out h) (rb_size h) m2, size)
  end.

(** ringbuffer.c:225-269. Result: handle, target block afterwards, return value. *)
Definition rb_read_internal (h : rb) (target : option (list A)) (size : Z) (is_peek : bool)
  : outcome (rb * option (list A) * Z) :=
  if size =? 0 then Ret (h, target, 0)
  else
    let avail := rb_avail_read h in
    if avail =? 0 then Ret (h, target, 0)
    else
      let size := take_min size avail in
      do t' <- match target with
               | None => Ret None
               | Some t =>
                 let start := Z.land (rb_out h) (u32 (rb_size h - 1)) in
                 let first_max := u32 (rb_size h - start) in
                 let first := take_min size first_max in
                 do t1 <- (if negb (first =? 0)
                           then do d <- mread (rb_buf h) start first; mwrite t 0 d
                           else Ret t);
                 let rest := u32 (size - first) in
                 do t2 <- (if negb (rest =? 0)
                           then do d <- mread (rb_buf h) 0 rest; mwrite t1 first d
                           else Ret t1);
                 Ret (Some t2)
               end;
      let h' := if is_peek then h
                else mk_rb (rb_own h) (rb_in h) (u32 (rb_out h + size)) (rb_size h) (rb_buf h) in
      Ret (h', t', size).

(** ringbuffer.c:271-284 *)
Definition rb_read (h : rb) (target : option (list A)) (size : Z) :=
  match target with
  | None => Ret (h, None, 0)
  | Some _ => rb_read_internal h target size false
  end.
Definition rb_peek (h : rb) target size := rb_read_internal h target size true.
Definition rb_discard (h : rb) size := rb_read_internal h None size false.

Inductive rbop :=
| BWrite (src : option (list A)) (size : Z)
| BRead (target : option (list A)) (size : Z)
| BPeek (target : option (list A)) (size : Z)
| BDiscard (size : Z)
| BClear
| BAvailRead | BAvailWrite | BIsEmpty | BIsFull | BCapacity.

Definition rbobs : Type := (Z * option (list A))%type.
Definition b2z (b : bool) : Z := if b then 1 else 0.

Definition rb_step (h : rb) (o : rbop) : outcome (rb * rbobs) :=
  match o with
  | BWrite src n => do r <- rb_write h src n; Ret (fst r, (snd r, None))
  | BRead t n => do r <- rb_read h t n; Ret (fst (fst r), (snd r, snd (fst r)))
  | BPeek t n => do r <- rb_peek h t n; Ret (fst (fst r), (snd r, snd (fst r)))
  | BDiscard n => do r <- rb_discard h n; Ret (fst (fst r), (snd r, None))
  | BClear => Ret (rb_clear h, (0, None))
  | BAvailRead => Ret (h, (rb_avail_read h, None))
  | BAvailWrite => Ret (h, (rb_avail_write h, None))
  | BIsEmpty => Ret (h, (b2z (rb_is_empty h), None))
  | BIsFull => Ret (h, (b2z (rb_is_full h), None))
  | BCapacity => Ret (h, (rb_real_capacity h, None))
  end.

Fixpoint rb_run (h : rb) (ops : list rbop) : outcome (rb * list rbobs) :=
  match ops with
  | [] => Ret (h, [])
  | o :: rest =>
    do r <- rb_step h o;
    do r2 <- rb_run (fst r) rest;
    Ret (fst r2, snd r :: snd r2)
  end.
End RingBuffer.
Arguments rb : clear implicits.
Arguments rbop : clear implicits.
Arguments rbobs : clear implicits.
