(** Interleaving model of one producer thread and one consumer thread using the same msg_queue
    (/repo/src/ring/msg_queue.c) over the lock-free ring buffer (/repo/src/ring/ringbuffer.c).
    Every access to shared memory (the counters in/out and each single byte of the data area) is one
    step; the scheduler may switch threads between any two steps. Memory is sequentially consistent:
    this is a simplification, in and out are plain (non-atomic) uint32_t in the C code. Calls with
    NULL pointers or message size 0 return at once without touching the queue and are not modelled. *)
From Verif Require Import CBase RingBuffer2Model MsgQueueModel.

(** msg_queue.c:38-55 msg_queue_push and the RingBuffer_write calls (ringbuffer.c:186-223) in it.
    The message is the first msg_size bytes of the caller's block. *)
Inductive ppc :=
| PIdle
| P44 (m : list Z)                       (* msg_queue.c:44: about to read the free space *)
| P196 (hd : bool) (m : list Z)          (* ringbuffer.c:196 in the write of the header (hd) or payload *)
| PCopy (hd : bool) (m : list Z) (n start i : Z)  (* ringbuffer.c:214/219: next to copy is byte i of n *)
| PRet (m : list Z) (code : Z).          (* returning *)

(** the four calls of RingBuffer_read_internal made by msg_queue_next_msg_size and msg_queue_pop *)
Inductive job :=
| JNext                                          (* msg_queue.c:66, peek of the header *)
| JPeek (t : list Z) (cap a : Z)                 (* msg_queue.c:84; t, cap: caller's block and size, a: line 78 *)
| JDisc (t : list Z) (cap n : Z)                 (* msg_queue.c:95; n: header.msg_size *)
| JRead (t : list Z) (cap n : Z).                (* msg_queue.c:97 *)

Inductive cpc :=
| CIdle
| C60                                            (* msg_queue.c:60 *)
| C78 (t : list Z) (cap : Z)                     (* msg_queue.c:78 *)
| C235 (j : job)                                 (* ringbuffer.c:235 *)
| CCopy (j : job) (n start i : Z) (tgt : list Z) (* ringbuffer.c:255/261: next to copy is byte i of n *)
| CRet (t : list Z) (cap code : Z) (t' : list Z) (sz' : Z)
| CNRet (n : Z).

(** what the two callers see, newest event first in the log *)
Inductive ev :=
| EPush (m : list Z)                             (* msg_queue_push called *)
| EPushRet (m : list Z) (code : Z)               (* ... returns code *)
| EPop (t : list Z) (cap : Z)                    (* msg_queue_pop called: block t, size variable cap *)
| EPopRet (t : list Z) (cap code : Z) (t' : list Z) (sz' : Z) (* ... returns: block and size afterwards *)
| ENext                                          (* msg_queue_next_msg_size called *)
| ENextRet (n : Z).

Record st := mk_st { cin : Z; cout : Z; csize : Z; mem : list Z; pp : ppc; cp : cpc; log : list ev }.
Definition set_pp s x := mk_st (cin s) (cout s) (csize s) (mem s) x (cp s) (log s).
Definition set_cp s x := mk_st (cin s) (cout s) (csize s) (mem s) (pp s) x (log s).
Definition set_in s x := mk_st x (cout s) (csize s) (mem s) (pp s) (cp s) (log s).
Definition set_out s x := mk_st (cin s) x (csize s) (mem s) (pp s) (cp s) (log s).
Definition set_mem s x := mk_st (cin s) (cout s) (csize s) x (pp s) (cp s) (log s).
Definition emit s e := mk_st (cin s) (cout s) (csize s) (mem s) (pp s) (cp s) (e :: log s).

(** ringbuffer.c:59, 60 *)
Definition avail_read s := u32 (cin s - cout s).
Definition avail_write s := u32 (csize s - avail_read s).

(** ringbuffer.c:209-219 / 250-261: the place of byte i of a transfer of n bytes from [start] *)
Definition place (size n start i : Z) : Z :=
  let first := take_min n (u32 (size - start)) in
  if i <? first then start + i else i - first.

(** source of the header write (msg_queue.c:49-50) and of the payload write (line 52) *)
Definition psrc (hd : bool) (m : list Z) : list Z := if hd then le32 (zlen m) else m.

(** msg_queue.c:51/53: the write returned [n] *)
Definition pfinish (hd : bool) (m : list Z) (n : Z) : outcome ppc :=
  if hd then (do _ <- assert_abort (n =? hdr_size); Ret (P196 false m))
  else (do _ <- assert_abort (n =? zlen m); Ret (PRet m MQ_SUCCESS)).

(** one step of the producer *)
Definition pstep (s : st) : outcome st :=
  match pp s with
  | PIdle => Ret s
  | P44 m =>
      Ret (set_pp s (if avail_write s <? u64 (hdr_size + zlen m) then PRet m MQ_FULL else P196 true m))
  | P196 hd m =>
      let size := zlen (psrc hd m) in
      let avail := avail_write s in
      if (size =? 0) || (avail =? 0) then do p <- pfinish hd m 0; Ret (set_pp s p)
      else Ret (set_pp s (PCopy hd m (take_min size avail) (Z.land (cin s) (u32 (csize s - 1))) 0))
  | PCopy hd m n start i =>
      if i <? n then
        do b <- mload (psrc hd m) i;
        do mm <- mstore (mem s) (place (csize s) n start i) b;
        Ret (set_pp (set_mem s mm) (PCopy hd m n start (i + 1)))
      else (* ringbuffer.c:221 *)
        do p <- pfinish hd m n;
        Ret (set_pp (set_in s (u32 (cin s + n))) p)
  | PRet m code => Ret (set_pp (emit s (EPushRet m code)) PIdle)
  end.

(** requested size, target block, is_peek of a read *)
Definition jreq (j : job) : Z := match j with JRead _ _ n => n | _ => hdr_size end.
Definition jtgt (j : job) : option (list Z) :=
  match j with JNext | JPeek _ _ _ => Some [0; 0; 0; 0] | JDisc _ _ _ => None | JRead t _ _ => Some t end.
Definition jpeek (j : job) : bool := match j with JNext | JPeek _ _ _ => true | _ => false end.

(** the read returned [n] with the target block holding [tgt]: msg_queue.c:67-68, 85-94, 96, 98-99 *)
Definition cfinish (j : job) (n : Z) (tgt : list Z) : outcome cpc :=
  do _ <- assert_abort (n =? jreq j);
  match j with
  | JNext => do x <- le32_dec tgt; Ret (CNRet x)
  | JPeek t cap a =>
      do x <- le32_dec tgt;
      if a <? u64 (hdr_size + x) then Ret (CRet t cap MQ_AGAIN t cap)
      else if x >? cap then Ret (CRet t cap MQ_BUF_NOT_ENOUGH t x)
      else Ret (C235 (JDisc t cap x))
  | JDisc t cap x => Ret (C235 (JRead t cap x))
  | JRead t cap x => Ret (CRet t cap MQ_SUCCESS tgt cap)
  end.

(** one step of the consumer *)
Definition cstep (s : st) : outcome st :=
  match cp s with
  | CIdle => Ret s
  | C60 => Ret (set_cp s (if avail_read s <? hdr_size + 1 then CNRet 0 else C235 JNext))
  | C78 t cap =>
      let a := avail_read s in
      Ret (set_cp s (if a <? hdr_size + 1 then CRet t cap MQ_EMPTY t cap else C235 (JPeek t cap a)))
  | C235 j =>
      let avail := avail_read s in
      let tgt := match jtgt j with Some t => t | None => [] end in
      if (jreq j =? 0) || (avail =? 0) then do c <- cfinish j 0 tgt; Ret (set_cp s c)
      else
        let n := take_min (jreq j) avail in
        Ret (set_cp s (CCopy j n (Z.land (cout s) (u32 (csize s - 1)))
                             (match jtgt j with Some _ => 0 | None => n end) tgt))
  | CCopy j n start i tgt =>
      if i <? n then
        do b <- mload (mem s) (place (csize s) n start i);
        do tgt' <- mstore tgt i b;
        Ret (set_cp s (CCopy j n start (i + 1) tgt'))
      else if jpeek j then do c <- cfinish j n tgt; Ret (set_cp s c)
      else (* ringbuffer.c:266 *)
        do c <- cfinish j n tgt;
        Ret (set_cp (set_out s (u32 (cout s + n))) c)
  | CRet t cap code t' sz' => Ret (set_cp (emit s (EPopRet t cap code t' sz')) CIdle)
  | CNRet n => Ret (set_cp (emit s (ENextRet n)) CIdle)
  end.

(** scheduler: either thread takes its next step, or an idle thread starts a call *)
Inductive step : st -> st -> Prop :=
| SP s s' : pstep s = Ret s' -> step s s'
| SC s s' : cstep s = Ret s' -> step s s'
| SPush s m : pp s = PIdle -> 0 < zlen m < two32 -> step s (set_pp (emit s (EPush m)) (P44 m))
| SPop s t cap : cp s = CIdle -> 0 <= cap < two32 -> cap <= zlen t ->
    step s (set_cp (emit s (EPop t cap)) (C78 t cap))
| SNext s : cp s = CIdle -> step s (set_cp (emit s ENext) C60).

(** the queue object [q] returned by msg_queue_create, handed to the two threads *)
Definition boot (q : rb Z) : st :=
  mk_st (rb_in q) (rb_out q) (rb_size q) (rb_buf q) PIdle CIdle [].

Inductive reach (q : rb Z) : st -> Prop :=
| R0 : reach q (boot q)
| RS s s' : reach q s -> step s s' -> reach q s'.

(** executable schedules, for concrete runs *)
Inductive act := AP | AC | APush (m : list Z) | APop (t : list Z) (cap : Z) | ANext.
Definition act_step (s : st) (a : act) : option st :=
  match a with
  | AP => match pstep s with Ret s' => Some s' | _ => None end
  | AC => match cstep s with Ret s' => Some s' | _ => None end
  | APush m => match pp s with
               | PIdle => if (0 <? zlen m) && (zlen m <? two32)
                          then Some (set_pp (emit s (EPush m)) (P44 m)) else None
               | _ => None end
  | APop t cap => match cp s with
                  | CIdle => if (0 <=? cap) && (cap <? two32) && (cap <=? zlen t)
                             then Some (set_cp (emit s (EPop t cap)) (C78 t cap)) else None
                  | _ => None end
  | ANext => match cp s with CIdle => Some (set_cp (emit s ENext) C60) | _ => None end
  end.
Fixpoint go (s : st) (l : list act) : option st :=
  match l with
  | [] => Some s
  | a :: r => match act_step s a with Some s' => go s' r | None => None end
  end.
