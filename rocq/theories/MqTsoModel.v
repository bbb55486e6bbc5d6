(** One producer thread and one consumer thread using the same msg_queue (/repo/src/ring/msg_queue.c, over /repo/src/ring/ringbuffer.c) without a lock,
    on a machine with store buffers: a store goes into the thread's buffer and reaches memory later, at a time the scheduler chooses; in order
    (x86-TSO), or, with [reorder] = true, overtaking older stores to other places. A thread sees its own newest store of its own counter. Calls, program
    points and arithmetic are those of SpscModel (msg_queue.c:38-100, ringbuffer.c:59-60, 186-268). Simplified: a store of a counter or of a byte is
    not torn; calls with NULL or message size 0 return at once and are left out. *)
From Verif Require Import CBase RingBuffer2Model MsgQueueModel SpscModel.

Inductive wr := SByte (a b : Z) | SIn (x : Z).        (* a store of the producer: of a byte of the data area, of in *)
Inductive tev := E (e : ev) | WSync | RSync.          (* what the callers see, and barriers executed between calls *)
Record tst := mk_tst { t_in : Z; t_out : Z; t_size : Z; t_mem : list Z; t_wbuf : list wr; t_rbuf : list Z; t_pp : ppc; t_cp : cpc; t_log : list tev }.
Definition tset_pp s x := mk_tst (t_in s) (t_out s) (t_size s) (t_mem s) (t_wbuf s) (t_rbuf s) x (t_cp s) (t_log s).
Definition tset_cp s x := mk_tst (t_in s) (t_out s) (t_size s) (t_mem s) (t_wbuf s) (t_rbuf s) (t_pp s) x (t_log s).
Definition tset_in s x := mk_tst x (t_out s) (t_size s) (t_mem s) (t_wbuf s) (t_rbuf s) (t_pp s) (t_cp s) (t_log s).
Definition tset_out s x := mk_tst (t_in s) x (t_size s) (t_mem s) (t_wbuf s) (t_rbuf s) (t_pp s) (t_cp s) (t_log s).
Definition tset_mem s x := mk_tst (t_in s) (t_out s) (t_size s) x (t_wbuf s) (t_rbuf s) (t_pp s) (t_cp s) (t_log s).
Definition tset_wbuf s x := mk_tst (t_in s) (t_out s) (t_size s) (t_mem s) x (t_rbuf s) (t_pp s) (t_cp s) (t_log s).
Definition tset_rbuf s x := mk_tst (t_in s) (t_out s) (t_size s) (t_mem s) (t_wbuf s) x (t_pp s) (t_cp s) (t_log s).
Definition temit s e := mk_tst (t_in s) (t_out s) (t_size s) (t_mem s) (t_wbuf s) (t_rbuf s) (t_pp s) (t_cp s) (e :: t_log s).
Definition w_store s e := tset_wbuf s (t_wbuf s ++ [e]).   (* oldest store first in the buffers *)
Definition r_store s x := tset_rbuf s (t_rbuf s ++ [x]).
(** a thread's load of its own counter *)
Fixpoint fwd_w (b : list wr) (x : Z) : Z := match b with [] => x | SIn y :: b => fwd_w b y | SByte _ _ :: b => fwd_w b x end.
Fixpoint fwd_r (b : list Z) (x : Z) : Z := match b with [] => x | y :: b => fwd_r b y end.
Definition own_in s := fwd_w (t_wbuf s) (t_in s).
Definition own_out s := fwd_r (t_rbuf s) (t_out s).
(** ringbuffer.c:59, 60 as each thread computes them *)
Definition room s := u32 (t_size s - u32 (own_in s - t_out s)).      (* by the producer *)
Definition filled s := u32 (t_in s - own_out s).                     (* by the consumer *)

(** one step of the producer; lines as in SpscModel.pstep *)
Definition tpstep (s : tst) : outcome tst :=
  match t_pp s with
  | PIdle => Ret s
  | P44 m => Ret (tset_pp s (if room s <? u64 (hdr_size + zlen m) then PRet m MQ_FULL else P196 true m))
  | P196 hd m =>
      let size := zlen (psrc hd m) in
      let avail := room s in
      if (size =? 0) || (avail =? 0) then do p <- pfinish hd m 0; Ret (tset_pp s p)
      else Ret (tset_pp s (PCopy hd m (take_min size avail) (Z.land (own_in s) (u32 (t_size s - 1))) 0))
  | PCopy hd m n start i =>
      if i <? n then
        do b <- mload (psrc hd m) i;
        Ret (tset_pp (w_store s (SByte (place (t_size s) n start i) b)) (PCopy hd m n start (i + 1)))
      else
        do p <- pfinish hd m n;
        Ret (tset_pp (w_store s (SIn (u32 (own_in s + n)))) p)
  | PRet m code => Ret (tset_pp (temit s (E (EPushRet m code))) PIdle)
  end.
(** one step of the consumer; lines as in SpscModel.cstep *)
Definition tcstep (s : tst) : outcome tst :=
  match t_cp s with
  | CIdle => Ret s
  | C60 => Ret (tset_cp s (if filled s <? hdr_size + 1 then CNRet 0 else C235 JNext))
  | C78 t cap =>
      let a := filled s in
      Ret (tset_cp s (if a <? hdr_size + 1 then CRet t cap MQ_EMPTY t cap else C235 (JPeek t cap a)))
  | C235 j =>
      let avail := filled s in
      let tgt := match jtgt j with Some t => t | None => [] end in
      if (jreq j =? 0) || (avail =? 0) then do c <- cfinish j 0 tgt; Ret (tset_cp s c)
      else
        let n := take_min (jreq j) avail in
        Ret (tset_cp s (CCopy j n (Z.land (own_out s) (u32 (t_size s - 1))) (match jtgt j with Some _ => 0 | None => n end) tgt))
  | CCopy j n start i tgt =>
      if i <? n then
        do b <- mload (t_mem s) (place (t_size s) n start i);
        do tgt' <- mstore tgt i b;
        Ret (tset_cp s (CCopy j n start (i + 1) tgt'))
      else if jpeek j then do c <- cfinish j n tgt; Ret (tset_cp s c)
      else
        do c <- cfinish j n tgt;
        Ret (tset_cp (r_store s (u32 (own_out s + n))) c)
  | CRet t cap code t' sz' => Ret (tset_cp (temit s (E (EPopRet t cap code t' sz'))) CIdle)
  | CNRet n => Ret (tset_cp (temit s (E (ENextRet n))) CIdle)
  end.
(** a store reaches memory *)
Definition commit (s : tst) (e : wr) : outcome tst :=
  match e with SByte a b => do m <- mstore (t_mem s) a b; Ret (tset_mem s m) | SIn x => Ret (tset_in s x) end.
Definition same_place (e e' : wr) : bool := match e, e' with SByte a _, SByte a' _ => a =? a' | SIn _, SIn _ => true | _, _ => false end.

Section Reorder.
Variable reorder : bool.
(** scheduler: a thread takes its next step, begins a call, has a barrier behind it, or one of its stores reaches memory *)
Inductive tstep : tst -> tst -> Prop :=
| TP s s' : tpstep s = Ret s' -> tstep s s'
| TC s s' : tcstep s = Ret s' -> tstep s s'
| TPush s m : t_pp s = PIdle -> 0 < zlen m < two32 -> tstep s (tset_pp (temit s (E (EPush m))) (P44 m))
| TPop s t cap : t_cp s = CIdle -> 0 <= cap < two32 -> cap <= zlen t -> tstep s (tset_cp (temit s (E (EPop t cap))) (C78 t cap))
| TNext s : t_cp s = CIdle -> tstep s (tset_cp (temit s (E ENext)) C60)
| TWFlush s s' a e b : t_wbuf s = a ++ e :: b -> (reorder = true \/ a = []) -> forallb (fun x => negb (same_place x e)) a = true ->
    commit (tset_wbuf s (a ++ b)) e = Ret s' -> tstep s s'
| TRFlush s x b : t_rbuf s = x :: b -> tstep s (tset_rbuf (tset_out s x) b)
| TWSync s : t_pp s = PIdle -> t_wbuf s = [] -> tstep s (temit s WSync)
| TRSync s : t_cp s = CIdle -> t_rbuf s = [] -> tstep s (temit s RSync).
Definition tboot (q : rb Z) : tst := mk_tst (rb_in q) (rb_out q) (rb_size q) (rb_buf q) [] [] PIdle CIdle [].
Inductive treach (q : rb Z) : tst -> Prop :=
| T0 : treach q (tboot q)
| TS s s' : treach q s -> tstep s s' -> treach q s'.
End Reorder.
