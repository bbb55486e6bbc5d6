(** Model of /repo/src/ring/fixed_msg_queue_handler.c on a machine with store buffers (x86-TSO): the client thread (push and clear), the worker thread and a
    thread that destroys the handler, as in FHandlerModel, with its program points and lines. A store to shared memory - a byte of the data area, in, out,
    min_valid_token (line 25), flag2exit (line 18) - goes into the storing thread's buffer and reaches memory later; all of them are plain stores of
    (volatile) variables: no barrier. token_counter and msg_send_cache are used by the client only. sem_post (lines 127, 167) and sem_wait (line 49) are
    locked instructions: they happen when the thread's stores have reached memory; a thread's end and the join (line 169) likewise. Simplified: the
    worker's pending store of the flag is kept apart from its stores of out and may overtake them (more behaviours than x86 has); a store of a counter or of
    a token is not torn; the log, the status callback and creation failures are left out, as in FHandlerModel. *)
From Verif Require Import CBase RingBuffer2Model FixedQueueModel MsgQueueModel SpscModel FHandlerModel.

(** stores of the client on their way: a byte of the data area, in, min_valid_token *)
Inductive cst := CByte (a b : Z) | CIn (x : Z) | CMin (x : Z).
(** x_in, x_out, x_mem, x_min, x_flag: what is in memory. x_cb: the client's stores on their way, oldest first; x_ob: the worker's stores of out; x_wfl, x_dfl: a store
    of true to flag2exit by the worker, by the destroying thread, is on its way *)
Record ft := mk_ft { x_in : Z; x_out : Z; x_size : Z; x_mem : list Z; x_cb : list cst; x_ob : list Z; x_tok : Z; x_min : Z; x_sem : Z;
                     x_flag : bool; x_wfl : bool; x_dfl : bool; x_buf : list Z; x_wk : vpc; x_pr : fpc; x_ds : epc; x_log : list kev }.
Definition xset_in s x := mk_ft x (x_out s) (x_size s) (x_mem s) (x_cb s) (x_ob s) (x_tok s) (x_min s) (x_sem s) (x_flag s) (x_wfl s) (x_dfl s) (x_buf s) (x_wk s) (x_pr s) (x_ds s) (x_log s).
Definition xset_out s x := mk_ft (x_in s) x (x_size s) (x_mem s) (x_cb s) (x_ob s) (x_tok s) (x_min s) (x_sem s) (x_flag s) (x_wfl s) (x_dfl s) (x_buf s) (x_wk s) (x_pr s) (x_ds s) (x_log s).
Definition xset_mem s x := mk_ft (x_in s) (x_out s) (x_size s) x (x_cb s) (x_ob s) (x_tok s) (x_min s) (x_sem s) (x_flag s) (x_wfl s) (x_dfl s) (x_buf s) (x_wk s) (x_pr s) (x_ds s) (x_log s).
Definition xset_cb s x := mk_ft (x_in s) (x_out s) (x_size s) (x_mem s) x (x_ob s) (x_tok s) (x_min s) (x_sem s) (x_flag s) (x_wfl s) (x_dfl s) (x_buf s) (x_wk s) (x_pr s) (x_ds s) (x_log s).
Definition xset_ob s x := mk_ft (x_in s) (x_out s) (x_size s) (x_mem s) (x_cb s) x (x_tok s) (x_min s) (x_sem s) (x_flag s) (x_wfl s) (x_dfl s) (x_buf s) (x_wk s) (x_pr s) (x_ds s) (x_log s).
Definition xset_tok s x := mk_ft (x_in s) (x_out s) (x_size s) (x_mem s) (x_cb s) (x_ob s) x (x_min s) (x_sem s) (x_flag s) (x_wfl s) (x_dfl s) (x_buf s) (x_wk s) (x_pr s) (x_ds s) (x_log s).
Definition xset_min s x := mk_ft (x_in s) (x_out s) (x_size s) (x_mem s) (x_cb s) (x_ob s) (x_tok s) x (x_sem s) (x_flag s) (x_wfl s) (x_dfl s) (x_buf s) (x_wk s) (x_pr s) (x_ds s) (x_log s).
Definition xset_sem s x := mk_ft (x_in s) (x_out s) (x_size s) (x_mem s) (x_cb s) (x_ob s) (x_tok s) (x_min s) x (x_flag s) (x_wfl s) (x_dfl s) (x_buf s) (x_wk s) (x_pr s) (x_ds s) (x_log s).
Definition xset_flag s x := mk_ft (x_in s) (x_out s) (x_size s) (x_mem s) (x_cb s) (x_ob s) (x_tok s) (x_min s) (x_sem s) x (x_wfl s) (x_dfl s) (x_buf s) (x_wk s) (x_pr s) (x_ds s) (x_log s).
Definition xset_wfl s x := mk_ft (x_in s) (x_out s) (x_size s) (x_mem s) (x_cb s) (x_ob s) (x_tok s) (x_min s) (x_sem s) (x_flag s) x (x_dfl s) (x_buf s) (x_wk s) (x_pr s) (x_ds s) (x_log s).
Definition xset_dfl s x := mk_ft (x_in s) (x_out s) (x_size s) (x_mem s) (x_cb s) (x_ob s) (x_tok s) (x_min s) (x_sem s) (x_flag s) (x_wfl s) x (x_buf s) (x_wk s) (x_pr s) (x_ds s) (x_log s).
Definition xset_buf s x := mk_ft (x_in s) (x_out s) (x_size s) (x_mem s) (x_cb s) (x_ob s) (x_tok s) (x_min s) (x_sem s) (x_flag s) (x_wfl s) (x_dfl s) x (x_wk s) (x_pr s) (x_ds s) (x_log s).
Definition xset_wk s x := mk_ft (x_in s) (x_out s) (x_size s) (x_mem s) (x_cb s) (x_ob s) (x_tok s) (x_min s) (x_sem s) (x_flag s) (x_wfl s) (x_dfl s) (x_buf s) x (x_pr s) (x_ds s) (x_log s).
Definition xset_pr s x := mk_ft (x_in s) (x_out s) (x_size s) (x_mem s) (x_cb s) (x_ob s) (x_tok s) (x_min s) (x_sem s) (x_flag s) (x_wfl s) (x_dfl s) (x_buf s) (x_wk s) x (x_ds s) (x_log s).
Definition xset_ds s x := mk_ft (x_in s) (x_out s) (x_size s) (x_mem s) (x_cb s) (x_ob s) (x_tok s) (x_min s) (x_sem s) (x_flag s) (x_wfl s) (x_dfl s) (x_buf s) (x_wk s) (x_pr s) x (x_log s).
Definition xemit s e := mk_ft (x_in s) (x_out s) (x_size s) (x_mem s) (x_cb s) (x_ob s) (x_tok s) (x_min s) (x_sem s) (x_flag s) (x_wfl s) (x_dfl s) (x_buf s) (x_wk s) (x_pr s) (x_ds s) (e :: x_log s).
Definition c_store s e := xset_cb s (x_cb s ++ [e]).

(** a thread's load of a variable it stores itself *)
Fixpoint c_in (b : list cst) (x : Z) : Z := match b with [] => x | CIn y :: b => c_in b y | _ :: b => c_in b x end.
Fixpoint w_out (b : list Z) (x : Z) : Z := match b with [] => x | y :: b => w_out b y end.
Definition xown_in s := c_in (x_cb s) (x_in s).
Definition xown_out s := w_out (x_ob s) (x_out s).
(** ringbuffer.c:59, 60 as the worker and the client compute them *)
Definition xavail_read s := u32 (x_in s - xown_out s).
Definition xavail_write s := u32 (x_size s - u32 (xown_in s - x_out s)).

(** one step of the client thread (lines as in FHandlerModel.fpexec); one: one_msg_byte_size *)
Definition xpexec (one : Z) (s : ft) : outcome (option ft) :=
  match x_pr s with
  | FIdle => Ret None
  | F111 m => Ret (Some (xset_pr s (if x_flag s then FRet m MQ_NULL_HANDLE else F117 m)))
  | F117 m => Ret (Some (xset_pr s (F39 m (wire (x_tok s) m))))
  | F39 m w => Ret (Some (xset_pr s (if xavail_write s / one =? 0 then FRet m MQ_FULL else F196 m w)))
  | F196 m w =>
      let avail := xavail_write s in
      if avail =? 0 then Ret (Some (xset_pr s (FRet m MQ_FULL)))
      else Ret (Some (xset_pr s (FCopy m w (take_min one avail) (Z.land (xown_in s) (u32 (x_size s - 1))) 0)))
  | FCopy m w n start i =>
      if i <? n then
        do b <- mload w i;
        Ret (Some (xset_pr (c_store s (CByte (place (x_size s) n start i) b)) (FCopy m w n start (i + 1))))
      else Ret (Some (xset_pr (c_store s (CIn (u32 (xown_in s + n)))) (if n =? one then F126 m else FRet m MQ_FULL)))
  | F126 m => Ret (Some (xset_pr (xset_tok s (u64 (x_tok s + 1))) (F127 m)))
  | F127 m => match x_cb s with [] => Ret (Some (xset_pr (xset_sem s (x_sem s + 1)) (FRet m MQ_SUCCESS))) | _ => Ret None end
  | FRet m code => Ret (Some (xset_pr (xemit s (KPushRet m code)) FIdle))
  | F153 => Ret (Some (xset_pr (c_store s (CMin (x_tok s))) F156))
  | F156 => Ret (Some (xset_pr (xemit s KClearRet) FIdle))
  end.

(** one step of the worker (lines as in FHandlerModel.fwexec); r: what the callback returns. None: it cannot move now *)
Definition xwexec (one r : Z) (s : ft) : outcome (option ft) :=
  match x_wk s with
  | V49 => match x_ob s with [] => if 0 <? x_sem s then Ret (Some (xset_wk (xset_sem s (x_sem s - 1)) V50)) else Ret None | _ => Ret None end
  | V50 => Ret (Some (xset_wk s (if x_flag s || x_wfl s then V73 else V51)))
  | V51 => Ret (Some (xset_wk s (if xavail_read s / one =? 0 then V49 else V235)))
  | V235 =>
      let avail := xavail_read s in
      if avail =? 0 then Ret (Some (xset_wk s V49))
      else Ret (Some (xset_wk s (VCopy (take_min one avail) (Z.land (xown_out s) (u32 (x_size s - 1))) 0)))
  | VCopy n start i =>
      if i <? n then
        do b <- mload (x_mem s) (place (x_size s) n start i);
        do t <- mstore (x_buf s) i b;
        Ret (Some (xset_wk (xset_buf s t) (VCopy n start (i + 1))))
      else Ret (Some (xset_wk (xset_ob s (x_ob s ++ [u32 (xown_out s + n)])) (if n =? one then V58 else V49)))
  | V58 => Ret (Some (xset_wk s (if wire_token (x_buf s) >=? x_min s then V60 else V49)))
  | V60 => Ret (Some (xset_wk (xemit s (KCb (wire_token (x_buf s)) (wire_msg (x_buf s)))) VCb))
  | VCb => Ret (Some (xset_wk (xemit s (KCbRet r)) (if r =? 0 then V49 else V73)))
  | V73 => Ret (Some (xset_wk (xset_wfl s true) VDone))
  | VDone => Ret None
  end.

(** one step of destroy (lines 165-169) *)
Definition xdexec (s : ft) : option ft :=
  match x_ds s with
  | ENone | EDone => None
  | E165 => Some (xset_ds (xset_dfl s true) E167)
  | E167 => if x_dfl s then None else Some (xset_ds (xset_sem s (x_sem s + 1)) E168)
  | E168 => match x_wk s, x_ob s, x_wfl s with VDone, [], false => Some (xset_ds (xemit s KDestroyed) EDone) | _, _, _ => None end
  end.

(** a store of the client reaches memory; a byte outside the data area would be a fault *)
Definition xcommit (s : ft) (e : cst) : outcome ft :=
  match e with
  | CByte a b => do m <- mstore (x_mem s) a b; Ret (xset_mem s m)
  | CIn x => Ret (xset_in s x)
  | CMin x => Ret (xset_min s x)
  end.
(** stores reaching memory: of the client (XFC), of the worker (XFO, XFW), of the destroying thread (XFD) *)
Inductive xflush : ft -> ft -> Prop :=
| XFC s e b s' : x_cb s = e :: b -> xcommit (xset_cb s b) e = Ret s' -> xflush s s'
| XFO s x b : x_ob s = x :: b -> xflush s (xset_ob (xset_out s x) b)
| XFW s : x_wfl s = true -> xflush s (xset_wfl (xset_flag s true) false)
| XFD s : x_dfl s = true -> xflush s (xset_dfl (xset_flag s true) false).

Inductive xstep (one : Z) : ft -> ft -> Prop :=
| XSW s r s' : xwexec one r s = Ret (Some s') -> xstep one s s'
| XSP s s' : xpexec one s = Ret (Some s') -> xstep one s s'
| XSD s s' : xdexec s = Some s' -> xstep one s s'
| XSF s s' : xflush s s' -> xstep one s s'
| XSPush s m : x_pr s = FIdle -> x_ds s = ENone -> zlen m + 8 = one -> xstep one s (xset_pr (xemit s (KPush m)) (F111 m))
| XSClear s : x_pr s = FIdle -> x_ds s = ENone -> xstep one s (xset_pr (xemit s KClear) F153)
| XSDestroy s : x_ds s = ENone -> x_pr s = FIdle -> xstep one s (xset_ds (xemit s KDestroy) E165).

(** fixed_msg_queue_handler.c:93-97 and 45: a handler just created around queue [q] *)
Definition xboot (q : fq Z) : ft :=
  mk_ft (rb_in (fq_ring q)) (rb_out (fq_ring q)) (rb_size (fq_ring q)) (rb_buf (fq_ring q)) [] [] 0 0 0 false false false
        (repeat 0 (Z.to_nat (fq_one q))) V49 FIdle ENone [].
Inductive xreach (q : fq Z) : ft -> Prop :=
| XR0 : xreach q (xboot q)
| XRS s s' : xreach q s -> xstep (fq_one q) s s' -> xreach q s'.
