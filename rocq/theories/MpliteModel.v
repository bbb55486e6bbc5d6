(** Model of src/mem/mplite.c (buddy allocator in the caller's memory). Pointers into the pool are offsets from
    zPool, None = NULL. Simplified: the caller's buffer is split into the pool zPool[0 .. nBlock*szAtom) and the
    control bytes aCtrl[0 .. nBlock) as two blocks, so crossing from one to the other is Ub; the lock callbacks are left out
    (each call is one atomic step, which is what they provide); ASSERT is taken as in a debug build (Abrt when
    false): where no Abrt happens the release build, which ignores it, does the same. *)
From Verif Require Import CBase.

Definition assert_ (b : bool) : outcome unit := if b then Ret tt else Abrt.

(** inc/mem/mplite.h:89-121 *)
Record mp := mk_mp {
  mp_sz : Z; mp_n : Z; mp_mem : list Z;
  mp_nalloc : Z; mp_total : Z; mp_excess : Z; mp_out : Z; mp_count : Z; mp_maxout : Z; mp_maxcount : Z; mp_maxreq : Z;
  mp_free : list Z; mp_ctrl : list Z }.

Definition set_mem (h : mp) (m : list Z) : mp :=
  mk_mp (mp_sz h) (mp_n h) m (mp_nalloc h) (mp_total h) (mp_excess h) (mp_out h) (mp_count h) (mp_maxout h) (mp_maxcount h) (mp_maxreq h) (mp_free h) (mp_ctrl h).
Definition set_free (h : mp) (f : list Z) : mp :=
  mk_mp (mp_sz h) (mp_n h) (mp_mem h) (mp_nalloc h) (mp_total h) (mp_excess h) (mp_out h) (mp_count h) (mp_maxout h) (mp_maxcount h) (mp_maxreq h) f (mp_ctrl h).
Definition set_ctrl (h : mp) (c : list Z) : mp :=
  mk_mp (mp_sz h) (mp_n h) (mp_mem h) (mp_nalloc h) (mp_total h) (mp_excess h) (mp_out h) (mp_count h) (mp_maxout h) (mp_maxcount h) (mp_maxreq h) (mp_free h) c.
Definition set_stats (h : mp) (nalloc total excess out count maxout maxcount maxreq : Z) : mp :=
  mk_mp (mp_sz h) (mp_n h) (mp_mem h) nalloc total excess out count maxout maxcount maxreq (mp_free h) (mp_ctrl h).

(** an int in memory: 4 bytes, little endian *)
Definition le4 (v : Z) : list Z := let u := u32 v in [u mod 256; u / 256 mod 256; u / 65536 mod 256; u / 16777216].
Definition load_int (m : list Z) (off : Z) : outcome Z :=
  do b <- mread m off 4;
  match b with [a; b; c; d] => Ret (s32 (a + 256 * b + 65536 * c + 16777216 * d)) | _ => Ub end.
Definition store_int (m : list Z) (off v : Z) : outcome (list Z) := mwrite m off (le4 v).

(** mplite_getlink, lines 37-38; next at offset 0 and prev at offset 4 of mplite_link, lines 17-21 *)
Definition get_next (h : mp) (i : Z) : outcome Z := load_int (mp_mem h) (i * mp_sz h).
Definition get_prev (h : mp) (i : Z) : outcome Z := load_int (mp_mem h) (i * mp_sz h + 4).
Definition set_next (h : mp) (i v : Z) : outcome mp := do m <- store_int (mp_mem h) (i * mp_sz h) v; Ret (set_mem h m).
Definition set_prev (h : mp) (i v : Z) : outcome mp := do m <- store_int (mp_mem h) (i * mp_sz h + 4) v; Ret (set_mem h m).
Definition store_ctrl (h : mp) (i v : Z) : outcome mp := do c <- mstore (mp_ctrl h) i v; Ret (set_ctrl h c).
Definition store_head (h : mp) (l v : Z) : outcome mp := do f <- mstore (mp_free h) l v; Ret (set_free h f).

(** mplite_logarithm, lines 332-337 *)
Fixpoint log_loop (fuel : nat) (l v : Z) : outcome Z :=
  if (l <? 31) && (Z.shiftl 1 l <? v) then match fuel with O => NoFuel | S fuel => log_loop fuel (l + 1) v end else Ret l.
Definition mplite_logarithm (v : Z) : outcome Z := log_loop 32 0 v.

(** mplite_size, lines 343-351 *)
Definition mplite_size (h : mp) (p : Z) : outcome Z :=
  let i := Z.quot p (mp_sz h) in
  do _ <- assert_ ((0 <=? i) && (i <? mp_n h));
  do c <- mload (mp_ctrl h) i;
  do s <- sint (Z.shiftl 1 (Z.land c 31));
  sint (mp_sz h * s).

(** mplite_link, lines 356-371 *)
Definition mplite_link (h : mp) (i l : Z) : outcome mp :=
  do _ <- assert_ ((0 <=? i) && (i <? mp_n h));
  do _ <- assert_ ((0 <=? l) && (l <=? 30));
  do c <- mload (mp_ctrl h) i;
  do _ <- assert_ (Z.land c 31 =? l);
  do x <- mload (mp_free h) l;
  do h <- set_next h i x;
  do h <- set_prev h i (-1);
  do h <- (if 0 <=? x then do _ <- assert_ (x <? mp_n h); set_prev h x i else Ret h);
  store_head h l i.

(** mplite_unlink, lines 377-398 *)
Definition mplite_unlink (h : mp) (i l : Z) : outcome mp :=
  do _ <- assert_ ((0 <=? i) && (i <? mp_n h));
  do _ <- assert_ ((0 <=? l) && (l <=? 30));
  do c <- mload (mp_ctrl h) i;
  do _ <- assert_ (Z.land c 31 =? l);
  do next <- get_next h i;
  do prev <- get_prev h i;
  do h <- (if prev <? 0 then store_head h l next else set_next h prev next);
  if 0 <=? next then set_prev h next prev else Ret h.

(** mplite_init, lines 55-119. The loop of lines 106-116; ii counts down, k = ii *)
Fixpoint init_loop (k : nat) (h : mp) (off : Z) : outcome mp :=
  let a := Z.shiftl 1 (Z.of_nat k) in
  do e <- sint (off + a);
  do (h, off) <-
    (if e <=? mp_n h then
       do h <- store_ctrl h off (Z.lor (Z.of_nat k) 32);
       do h <- mplite_link h off (Z.of_nat k);
       Ret (h, e)
     else Ret (h, off));
  do e <- sint (off + a);
  do _ <- assert_ (mp_n h <? e);
  match k with O => Ret h | S k => init_loop k h off end.
(** lines 91-94 *)
Fixpoint atom_loop (fuel : nat) (sz : Z) : outcome Z :=
  if sz <? 8 then match fuel with O => NoFuel | S fuel => do s <- sint (Z.shiftl sz 1); atom_loop fuel s end else Ret sz.
(** result None: MPLITE_ERR_INVPAR. buf: the content of the caller's buffer, or None for NULL *)
Definition mplite_init (buf : option (list Z)) (buf_size min_alloc : Z) : outcome (option mp) :=
  match buf with
  | None => Ret None
  | Some buf =>
    if (buf_size <=? 0) || (min_alloc <=? 0) then Ret None
    else
      do l <- mplite_logarithm min_alloc;
      do s <- sint (Z.shiftl 1 l);
      do sz <- atom_loop 4 s;
      let n := buf_size / (sz + 1) in
      do pool <- mread buf 0 (n * sz);
      do ctrl <- mread buf (n * sz) n;
      do h <- init_loop 30 (mk_mp sz n pool 0 0 0 0 0 0 0 0 (repeat (-1) 31) ctrl) 0;
      Ret (Some h)
  end.

(** the loop of lines 434-436: rounding up; result iFullSz, iLogsize *)
Fixpoint round_loop (fuel : nat) (full l nbyte : Z) : outcome (Z * Z) :=
  if full <? nbyte then
    match fuel with O => NoFuel | S fuel => do f <- sint (Z.shiftl full 1); round_loop fuel f (l + 1) nbyte end
  else Ret (full, l).
(** the loop of lines 442-443 *)
Fixpoint find_bin (fuel : nat) (h : mp) (bin : Z) : outcome Z :=
  if bin <=? 30 then
    do x <- mload (mp_free h) bin;
    if x <? 0 then match fuel with O => NoFuel | S fuel => find_bin fuel h (bin + 1) end else Ret bin
  else Ret bin.
(** the loop of lines 452-460; [d] = iBin - iLogsize *)
Fixpoint split_loop (d : nat) (h : mp) (i l : Z) : outcome mp :=
  match d with
  | O => Ret h
  | S d =>
    let bin := l + Z.of_nat d in
    let new_size := Z.shiftl 1 bin in
    do h <- store_ctrl h (i + new_size) (Z.lor 32 bin);
    do h <- mplite_link h (i + new_size) bin;
    split_loop d h i l
  end.
(** mplite_malloc_unsafe, lines 414-486 *)
Definition mplite_malloc_unsafe (h : mp) (nbyte : Z) : outcome (mp * option Z) :=
  if (nbyte <=? 0) || (1073741824 <? nbyte) then Ret (h, None)
  else
    let h := if mp_maxreq h <? nbyte then
      set_stats h (mp_nalloc h) (mp_total h) (mp_excess h) (mp_out h) (mp_count h) (mp_maxout h) (mp_maxcount h) nbyte else h in
    do (full, l) <- round_loop 32 (mp_sz h) 0 nbyte;
    do bin <- find_bin 31 h l;
    if 30 <? bin then Ret (h, None)
    else
      do i <- mload (mp_free h) bin;
      do h <- mplite_unlink h i bin;
      do h <- split_loop (Z.to_nat (bin - l)) h i l;
      do h <- store_ctrl h i l;
      let count := u32 (mp_count h + 1) in
      let out := u32 (mp_out h + full) in
      let h := set_stats h (u64 (mp_nalloc h + 1)) (u64 (mp_total h + full)) (u64 (mp_excess h + (full - nbyte))) out count
        (if mp_maxout h <? out then out else mp_maxout h) (if mp_maxcount h <? count then count else mp_maxcount h) (mp_maxreq h) in
      Ret (h, Some (i * mp_sz h)).
(** mplite_malloc, lines 121-136 *)
Definition mplite_malloc (h : mp) (nbyte : Z) : outcome (mp * option Z) :=
  if nbyte <=? 0 then Ret (h, None) else mplite_malloc_unsafe h nbyte.

(** the loop of lines 523-552; result: the block and its log size *)
Fixpoint merge_loop (fuel : nat) (h : mp) (i l : Z) : outcome (mp * Z * Z) :=
  if l <? 30 then
    let size := Z.shiftl 1 l in
    let odd := Z.land (Z.shiftr i l) 1 =? 1 in
    let b := if odd then i - size else i + size in
    do _ <- assert_ (negb odd || (0 <=? b));
    if negb odd && (mp_n h <=? b) then Ret (h, i, l)
    else
      do c <- mload (mp_ctrl h) b;
      if negb (c =? Z.lor 32 l) then Ret (h, i, l)
      else
        do h <- mplite_unlink h b l;
        let l := l + 1 in
        do (h, i) <-
          (if b <? i then
             do h <- store_ctrl h b (Z.lor 32 l); do h <- store_ctrl h i 0; Ret (h, b)
           else
             do h <- store_ctrl h i (Z.lor 32 l); do h <- store_ctrl h b 0; Ret (h, i));
        match fuel with O => NoFuel | S fuel => merge_loop fuel h i l end
  else Ret (h, i, l).
(** mplite_free_unsafe, lines 494-561 *)
Definition mplite_free_unsafe (h : mp) (p : Z) : outcome mp :=
  let i := Z.quot p (mp_sz h) in
  do _ <- assert_ ((0 <=? i) && (i <? mp_n h));
  do _ <- assert_ (Z.rem p (mp_sz h) =? 0);
  do c <- mload (mp_ctrl h) i;
  do _ <- assert_ (Z.land c 32 =? 0);
  let l := Z.land c 31 in
  let size := Z.shiftl 1 l in
  do _ <- assert_ (u32 (i + size - 1) <? mp_n h);
  do h <- store_ctrl h i (Z.lor c 32);
  do c2 <- mload (mp_ctrl h) (i + size - 1);
  do h <- store_ctrl h (i + size - 1) (Z.lor c2 32);
  do _ <- assert_ (0 <? mp_count h);
  do _ <- assert_ (u32 (size * mp_sz h) <=? mp_out h);
  let count := u32 (mp_count h - 1) in
  let out := u32 (mp_out h - size * mp_sz h) in
  let h := set_stats h (mp_nalloc h) (mp_total h) (mp_excess h) out count (mp_maxout h) (mp_maxcount h) (mp_maxreq h) in
  do _ <- assert_ ((0 <? out) || (count =? 0));
  do _ <- assert_ ((0 <? count) || (out =? 0));
  do h <- store_ctrl h i (Z.lor 32 l);
  do (h, i, l) <- merge_loop 31 h i l;
  mplite_link h i l.
(** mplite_free, lines 138-149 *)
Definition mplite_free (h : mp) (p : option Z) : outcome mp :=
  match p with None => Ret h | Some p => mplite_free_unsafe h p end.

(** mplite_calloc, lines 151-159 *)
Definition mplite_calloc (h : mp) (nbyte : Z) : outcome (mp * option Z) :=
  do (h, p) <- mplite_malloc h nbyte;
  match p with
  | None => Ret (h, None)
  | Some p => do m <- mwrite (mp_mem h) p (repeat 0 (Z.to_nat nbyte)); Ret (set_mem h m, Some p)
  end.
(** mplite_realloc, lines 161-188 *)
Definition mplite_realloc (h : mp) (p : option Z) (nbyte : Z) : outcome (mp * option Z) :=
  match p with
  | None => Ret (h, None)
  | Some p =>
    if (nbyte <=? 0) || negb (Z.land nbyte (nbyte - 1) =? 0) then Ret (h, None)
    else
      do old <- mplite_size h p;
      if nbyte <=? old then Ret (h, Some p)
      else
        do (h, q) <- mplite_malloc_unsafe h nbyte;
        match q with
        | None => Ret (h, None)
        | Some q =>
          do s <- mread (mp_mem h) p old;
          do m <- mwrite (mp_mem h) q s;
          do h <- mplite_free_unsafe (set_mem h m) p;
          Ret (h, Some q)
        end
  end.
(** mplite_resize, lines 194-213; true = MPLITE_OK *)
Definition mplite_resize (h : mp) (p : option Z) (nbyte : Z) : outcome bool :=
  match p with
  | None => Ret false
  | Some p =>
    if (nbyte <=? 0) || negb (Z.land nbyte (nbyte - 1) =? 0) then Ret false
    else do old <- mplite_size h p; Ret (nbyte <=? old)
  end.
(** mplite_maxmem, lines 216-233; k = i *)
Fixpoint maxmem_loop (k : nat) (h : mp) : outcome Z :=
  match k with
  | O => Ret 0
  | S k => do x <- mload (mp_free h) (Z.of_nat k); if x =? -1 then maxmem_loop k h else sint (Z.shiftl 1 (Z.of_nat k) * mp_sz h)
  end.
Definition mplite_maxmem (h : mp) : outcome Z := maxmem_loop 31 h.
(** mplite_freemem, lines 236-260: the inner loop of lines 247-253 and the outer one *)
Fixpoint walk (fuel : nat) (h : mp) (index blocksize total : Z) : outcome Z :=
  if index =? -1 then Ret total
  else match fuel with
       | O => NoFuel
       | S fuel => do nx <- get_next h index; do t <- sint (total + blocksize); walk fuel h nx blocksize t
       end.
Fixpoint freemem_loop (k : nat) (h : mp) (total : Z) : outcome Z :=
  match k with
  | O => Ret total
  | S k =>
    let i := 30 - Z.of_nat k in
    do x <- mload (mp_free h) i;
    do t <- walk (S (Z.to_nat (mp_n h))) h x (Z.shiftl 1 i) total;
    freemem_loop k h t
  end.
Definition mplite_freemem (h : mp) : outcome Z := do t <- freemem_loop 31 h 0; sint (t * mp_sz h).
(** mplite_roundup, lines 263-276 *)
Definition mplite_roundup (h : mp) (n : Z) : outcome Z :=
  if (n <? 1) || (1073741824 <? n) then Ret 0 else do (full, _) <- round_loop 32 (mp_sz h) 0 n; Ret full.

(** histories: the caller's calls and its own writes into the blocks it was given *)
Inductive mp_op := OMalloc (n : Z) | OCalloc (n : Z) | OFree (p : Z) | ORealloc (p n : Z) | OWrite (p off : Z) (bytes : list Z).
Definition mp_step (h : mp) (o : mp_op) : outcome (mp * option Z) :=
  match o with
  | OMalloc n => mplite_malloc h n
  | OCalloc n => mplite_calloc h n
  | OFree p => do h <- mplite_free h (Some p); Ret (h, None)
  | ORealloc p n => mplite_realloc h (Some p) n
  | OWrite p off bs => do m <- mwrite (mp_mem h) (p + off) bs; Ret (set_mem h m, None)
  end.
