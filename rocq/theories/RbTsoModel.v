(** One writer thread and one reader thread using the same RingBuffer (/repo/src/ring/ringbuffer.c) or fixed_msg_queue
    (/repo/src/ring/fixed_msg_queue.c; one: its message size) without a lock, on a machine with store buffers: a store goes into the thread's buffer and
    reaches memory later, at a time the scheduler chooses; in order (x86-TSO), or, with [reorder] = true, overtaking older stores to other places.
    A thread sees its own newest store of its own counter. Calls, program points and arithmetic are those of RbMtModel (ringbuffer.c:59-60, 178-284,
    fixed_msg_queue.c:37-86). Simplified: a store of a counter or of a byte is not torn; calls with NULL return at once and are left out. *)
From Verif Require Import CBase RingBuffer2Model FixedQueueModel RbMtModel.

Inductive wr := SByte (a b : Z) | SIn (x : Z).        (* a store of the writer: of a byte of the data area, of in *)
Inductive tev := E (e : ev) | WSync | RSync.          (* what the callers see, and barriers executed between calls *)
Record tst := mk_tst { t_in : Z; t_out : Z; t_size : Z; t_mem : list Z; t_wbuf : list wr; t_rbuf : list Z; t_wp : wpc; t_rp : rpc; t_log : list tev }.
Definition tset_wp s x := mk_tst (t_in s) (t_out s) (t_size s) (t_mem s) (t_wbuf s) (t_rbuf s) x (t_rp s) (t_log s).
Definition tset_rp s x := mk_tst (t_in s) (t_out s) (t_size s) (t_mem s) (t_wbuf s) (t_rbuf s) (t_wp s) x (t_log s).
Definition tset_in s x := mk_tst x (t_out s) (t_size s) (t_mem s) (t_wbuf s) (t_rbuf s) (t_wp s) (t_rp s) (t_log s).
Definition tset_out s x := mk_tst (t_in s) x (t_size s) (t_mem s) (t_wbuf s) (t_rbuf s) (t_wp s) (t_rp s) (t_log s).
Definition tset_mem s x := mk_tst (t_in s) (t_out s) (t_size s) x (t_wbuf s) (t_rbuf s) (t_wp s) (t_rp s) (t_log s).
Definition tset_wbuf s x := mk_tst (t_in s) (t_out s) (t_size s) (t_mem s) x (t_rbuf s) (t_wp s) (t_rp s) (t_log s).
Definition tset_rbuf s x := mk_tst (t_in s) (t_out s) (t_size s) (t_mem s) (t_wbuf s) x (t_wp s) (t_rp s) (t_log s).
Definition temit s e := mk_tst (t_in s) (t_out s) (t_size s) (t_mem s) (t_wbuf s) (t_rbuf s) (t_wp s) (t_rp s) (e :: t_log s).
Definition w_store s e := tset_wbuf s (t_wbuf s ++ [e]).   (* oldest store first in the buffers *)
Definition r_store s x := tset_rbuf s (t_rbuf s ++ [x]).
(** a thread's load of its own counter *)
Fixpoint fwd_w (b : list wr) (x : Z) : Z := match b with [] => x | SIn y :: b => fwd_w b y | SByte _ _ :: b => fwd_w b x end.
Fixpoint fwd_r (b : list Z) (x : Z) : Z := match b with [] => x | y :: b => fwd_r b y end.
Definition own_in s := fwd_w (t_wbuf s) (t_in s).
Definition own_out s := fwd_r (t_rbuf s) (t_out s).
(** ringbuffer.c:59, 60 as each thread computes them *)
Definition room s := u32 (t_size s - u32 (own_in s - t_out s)).      (* by the writer *)
Definition stored s := u32 (t_in s - own_out s).                     (* by the reader *)

Section One.
Variable one : Z.
(** one step of the writer; lines as in RbMtModel.wstep *)
Definition twstep (s : tst) : outcome tst :=
  match t_wp s with
  | WIdle => Ret s
  | WSpaceAt => Ret (tset_wp s (WRet WSpace (room s)))
  | WFull m => Ret (tset_wp s (if 0 =? room s / one then WRet (WPush m) 0 else WAvail (WPush m)))
  | WAvail c =>
      let avail := room s in
      if (wsize one c =? 0) || (avail =? 0) then Ret (tset_wp s (WRet c (wret one c 0)))
      else Ret (tset_wp s (WCopy c (take_min (wsize one c) avail) (Z.land (own_in s) (u32 (t_size s - 1))) 0))
  | WCopy c n start i =>
      if i <? n then
        do b <- mload (wsrc c) i;
        Ret (tset_wp (w_store s (SByte (place (t_size s) n start i) b)) (WCopy c n start (i + 1)))
      else Ret (tset_wp (w_store s (SIn (u32 (own_in s + n)))) (WRet c (wret one c n)))
  | WRet c n => Ret (tset_wp (temit s (E (EWRet c n))) WIdle)
  end.
(** one step of the reader; lines as in RbMtModel.rstep *)
Definition trstep (s : tst) : outcome tst :=
  match t_rp s with
  | RIdle => Ret s
  | RAvailAt => Ret (tset_rp s (RRet RAvail (stored s) None))
  | REmpty t => Ret (tset_rp s (if 0 =? stored s / one then RRet (RPop t) 0 (Some t) else RFetch (RPop t)))
  | RFetch c =>
      let avail := stored s in
      if (rsize one c =? 0) || (avail =? 0) then Ret (tset_rp s (RRet c (rret one c 0) (rtgt c)))
      else
        let n := take_min (rsize one c) avail in
        Ret (tset_rp s (RCopy c n (Z.land (own_out s) (u32 (t_size s - 1))) (match rtgt c with Some _ => 0 | None => n end) (match rtgt c with Some t => t | None => [] end)))
  | RCopy c n start i t =>
      if i <? n then
        do b <- mload (t_mem s) (place (t_size s) n start i);
        do t <- mstore t i b;
        Ret (tset_rp s (RCopy c n start (i + 1) t))
      else
        let s' := if is_peek c then s else r_store s (u32 (own_out s + n)) in
        Ret (tset_rp s' (RRet c (rret one c n) (match rtgt c with Some _ => Some t | None => None end)))
  | RRet c n t => Ret (tset_rp (temit s (E (ERRet c n t))) RIdle)
  end.
(** a store reaches memory *)
Definition commit (s : tst) (e : wr) : outcome tst :=
  match e with SByte a b => do m <- mstore (t_mem s) a b; Ret (tset_mem s m) | SIn x => Ret (tset_in s x) end.
Definition same_place (e e' : wr) : bool := match e, e' with SByte a _, SByte a' _ => a =? a' | SIn _, SIn _ => true | _, _ => false end.
Variable reorder : bool.
(** scheduler: a thread takes its next step, begins a call, has a barrier behind it, or one of its stores reaches memory *)
Inductive tstep : tst -> tst -> Prop :=
| TW s s' : twstep s = Ret s' -> tstep s s'
| TR s s' : trstep s = Ret s' -> tstep s s'
| TWCall s c : t_wp s = WIdle -> wok one c -> tstep s (tset_wp (temit s (E (EWCall c))) (wbegin c))
| TRCall s c : t_rp s = RIdle -> rok one c -> tstep s (tset_rp (temit s (E (ERCall c))) (rbegin c))
| TWFlush s s' a e b : t_wbuf s = a ++ e :: b -> (reorder = true \/ a = []) -> forallb (fun x => negb (same_place x e)) a = true ->
    commit (tset_wbuf s (a ++ b)) e = Ret s' -> tstep s s'
| TRFlush s x b : t_rbuf s = x :: b -> tstep s (tset_rbuf (tset_out s x) b)
| TWSync s : t_wp s = WIdle -> t_wbuf s = [] -> tstep s (temit s WSync)
| TRSync s : t_rp s = RIdle -> t_rbuf s = [] -> tstep s (temit s RSync).
Definition tboot (h : rb Z) : tst := mk_tst (rb_in h) (rb_out h) (rb_size h) (rb_buf h) [] [] WIdle RIdle [].
Inductive treach (h : rb Z) : tst -> Prop :=
| T0 : treach h (tboot h)
| TS s s' : treach h s -> tstep s s' -> treach h s'.
End One.
