(** Model of /repo/src/ring/fixed_msg_queue_handler.c over /repo/src/ring/fixed_msg_queue.c and the ring
    buffer (/repo/src/ring/ringbuffer.c:186-275): one client thread that pushes and clears (the caller
    serialises these, line 115), the worker thread, and a thread that destroys the handler. Each access to
    shared memory - the counters in/out, each single byte of the data area, flag2exit, min_valid_token,
    the semaphore - is one step, and the scheduler may switch threads between any two steps. Sequentially
    consistent memory. Not modelled: logging, the status callback (lines 30-37), creation failures. *)
From Verif Require Import CBase RingBuffer2Model FixedQueueModel MsgQueueModel SpscModel.

(** little-endian bytes of a size_t: the token field, fixed_msg_queue_handler.c:12 *)
Fixpoint le_bytes (n : nat) (x : Z) : list Z :=
  match n with O => [] | S n => x mod 256 :: le_bytes n (x / 256) end.
Fixpoint le_value (l : list Z) : Z := match l with [] => 0 | b :: l => b + 256 * le_value l end.
(** fixed_msg_queue_handler.c:10-14: fixed_handler_msg_t, the token and then the message *)
Definition wire (token : Z) (m : list Z) : list Z := le_bytes 8 token ++ m.
Definition wire_token (w : list Z) : Z := le_value (ztake 8 w).
Definition wire_msg (w : list Z) : list Z := zdrop 8 w.

(** client thread: fixed_msg_queue_handler_push (109-129) and fixed_msg_queue_handler_clear (151-156) *)
Inductive fpc :=
| FIdle
| F111 (m : list Z)                         (* test of flag2exit *)
| F117 (m : list Z)                         (* copy message and token into msg_send_cache *)
| F39 (m w : list Z)                        (* fixed_msg_queue.c:39, w: msg_send_cache *)
| F196 (m w : list Z)                       (* ringbuffer.c:196 *)
| FCopy (m w : list Z) (n start i : Z)      (* ringbuffer.c:214/219: next to copy is byte i of n *)
| F126 (m : list Z)                         (* ++token_counter *)
| F127 (m : list Z)                         (* sem_post *)
| FRet (m : list Z) (code : Z)
| F153                                      (* clear: min_valid_token = token_counter *)
| F156.                                     (* clear returns *)
(** worker thread, fixed_msg_queue_handler.c:39-77 *)
Inductive vpc :=
| V49                                       (* sem_wait *)
| V50                                       (* test of flag2exit *)
| V51                                       (* fixed_msg_queue.c:51 *)
| V235                                      (* ringbuffer.c:235 *)
| VCopy (n start i : Z)                     (* ringbuffer.c:255/261 *)
| V58                                       (* token test *)
| V60                                       (* about to call the callback *)
| VCb                                       (* inside the callback *)
| V73                                       (* leaving the loop *)
| VDone.
(** fixed_msg_queue_handler_destroy, fixed_msg_queue_handler.c:158-180 *)
Inductive epc := ENone | E165 | E167 | E168 | EDone.

(** observable events, newest first. The token is not passed to the callback; it is recorded to tell
    messages with equal content apart. *)
Inductive kev :=
| KPush (m : list Z) | KPushRet (m : list Z) (code : Z)
| KClear | KClearRet
| KCb (token : Z) (m : list Z) | KCbRet (r : Z)
| KDestroy | KDestroyed.

Record fh := mk_fh { fin : Z; fout : Z; fsize : Z; fmem : list Z; ftok : Z; fmin : Z; fsem : Z; fflag : bool;
                     fbuf : list Z; fwk : vpc; fpr : fpc; fds : epc; flog : list kev }.
Definition set_fin s x := mk_fh x (fout s) (fsize s) (fmem s) (ftok s) (fmin s) (fsem s) (fflag s) (fbuf s) (fwk s) (fpr s) (fds s) (flog s).
Definition set_fout s x := mk_fh (fin s) x (fsize s) (fmem s) (ftok s) (fmin s) (fsem s) (fflag s) (fbuf s) (fwk s) (fpr s) (fds s) (flog s).
Definition set_fmem s x := mk_fh (fin s) (fout s) (fsize s) x (ftok s) (fmin s) (fsem s) (fflag s) (fbuf s) (fwk s) (fpr s) (fds s) (flog s).
Definition set_ftok s x := mk_fh (fin s) (fout s) (fsize s) (fmem s) x (fmin s) (fsem s) (fflag s) (fbuf s) (fwk s) (fpr s) (fds s) (flog s).
Definition set_fmin s x := mk_fh (fin s) (fout s) (fsize s) (fmem s) (ftok s) x (fsem s) (fflag s) (fbuf s) (fwk s) (fpr s) (fds s) (flog s).
Definition set_fsem s x := mk_fh (fin s) (fout s) (fsize s) (fmem s) (ftok s) (fmin s) x (fflag s) (fbuf s) (fwk s) (fpr s) (fds s) (flog s).
Definition set_fflag s x := mk_fh (fin s) (fout s) (fsize s) (fmem s) (ftok s) (fmin s) (fsem s) x (fbuf s) (fwk s) (fpr s) (fds s) (flog s).
Definition set_fbuf s x := mk_fh (fin s) (fout s) (fsize s) (fmem s) (ftok s) (fmin s) (fsem s) (fflag s) x (fwk s) (fpr s) (fds s) (flog s).
Definition set_fwk s x := mk_fh (fin s) (fout s) (fsize s) (fmem s) (ftok s) (fmin s) (fsem s) (fflag s) (fbuf s) x (fpr s) (fds s) (flog s).
Definition set_fpr s x := mk_fh (fin s) (fout s) (fsize s) (fmem s) (ftok s) (fmin s) (fsem s) (fflag s) (fbuf s) (fwk s) x (fds s) (flog s).
Definition set_fds s x := mk_fh (fin s) (fout s) (fsize s) (fmem s) (ftok s) (fmin s) (fsem s) (fflag s) (fbuf s) (fwk s) (fpr s) x (flog s).
Definition femit s e := mk_fh (fin s) (fout s) (fsize s) (fmem s) (ftok s) (fmin s) (fsem s) (fflag s) (fbuf s) (fwk s) (fpr s) (fds s) (e :: flog s).

(** ringbuffer.c:59, 60 *)
Definition favail_read s := u32 (fin s - fout s).
Definition favail_write s := u32 (fsize s - favail_read s).

(** one step of the client thread; one: one_msg_byte_size *)
Definition fpexec (one : Z) (s : fh) : outcome (option fh) :=
  match fpr s with
  | FIdle => Ret None
  | F111 m => Ret (Some (set_fpr s (if fflag s then FRet m MQ_NULL_HANDLE else F117 m)))
  | F117 m => Ret (Some (set_fpr s (F39 m (wire (ftok s) m))))
  | F39 m w => Ret (Some (set_fpr s (if favail_write s / one =? 0 then FRet m MQ_FULL else F196 m w)))
  | F196 m w =>
      let avail := favail_write s in
      if avail =? 0 then Ret (Some (set_fpr s (FRet m MQ_FULL)))
      else Ret (Some (set_fpr s (FCopy m w (take_min one avail) (Z.land (fin s) (u32 (fsize s - 1))) 0)))
  | FCopy m w n start i =>
      if i <? n then
        do b <- mload w i;
        do mm <- mstore (fmem s) (place (fsize s) n start i) b;
        Ret (Some (set_fpr (set_fmem s mm) (FCopy m w n start (i + 1))))
      else (* ringbuffer.c:221, fixed_msg_queue.c:43-45 *)
        Ret (Some (set_fpr (set_fin s (u32 (fin s + n))) (if n =? one then F126 m else FRet m MQ_FULL)))
  | F126 m => Ret (Some (set_fpr (set_ftok s (u64 (ftok s + 1))) (F127 m)))
  | F127 m => Ret (Some (set_fpr (set_fsem s (fsem s + 1)) (FRet m MQ_SUCCESS)))
  | FRet m code => Ret (Some (set_fpr (femit s (KPushRet m code)) FIdle))
  | F153 => Ret (Some (set_fpr (set_fmin s (ftok s)) F156))
  | F156 => Ret (Some (set_fpr (femit s KClearRet) FIdle))
  end.

(** one step of the worker; r: what the callback returns. None: blocked in sem_wait or finished *)
Definition fwexec (one r : Z) (s : fh) : outcome (option fh) :=
  match fwk s with
  | V49 => if 0 <? fsem s then Ret (Some (set_fwk (set_fsem s (fsem s - 1)) V50)) else Ret None
  | V50 => Ret (Some (set_fwk s (if fflag s then V73 else V51)))
  | V51 => Ret (Some (set_fwk s (if favail_read s / one =? 0 then V49 else V235)))
  | V235 =>
      let avail := favail_read s in
      if avail =? 0 then Ret (Some (set_fwk s V49))
      else Ret (Some (set_fwk s (VCopy (take_min one avail) (Z.land (fout s) (u32 (fsize s - 1))) 0)))
  | VCopy n start i =>
      if i <? n then
        do b <- mload (fmem s) (place (fsize s) n start i);
        do t <- mstore (fbuf s) i b;
        Ret (Some (set_fwk (set_fbuf s t) (VCopy n start (i + 1))))
      else (* ringbuffer.c:266, fixed_msg_queue.c:55-57 *)
        Ret (Some (set_fwk (set_fout s (u32 (fout s + n))) (if n =? one then V58 else V49)))
  | V58 => Ret (Some (set_fwk s (if wire_token (fbuf s) >=? fmin s then V60 else V49)))
  | V60 => Ret (Some (set_fwk (femit s (KCb (wire_token (fbuf s)) (wire_msg (fbuf s)))) VCb))
  | VCb => Ret (Some (set_fwk (femit s (KCbRet r)) (if r =? 0 then V49 else V73)))
  | V73 => Ret (Some (set_fwk (set_fflag s true) VDone))
  | VDone => Ret None
  end.

(** one step of destroy; the join at lines 168-169 waits for the worker to finish *)
Definition fdexec (s : fh) : option fh :=
  match fds s with
  | ENone | EDone => None
  | E165 => Some (set_fds (set_fflag s true) E167)
  | E167 => Some (set_fds (set_fsem s (fsem s + 1)) E168)
  | E168 => match fwk s with VDone => Some (set_fds (femit s KDestroyed) EDone) | _ => None end
  end.

Inductive fhstep (one : Z) : fh -> fh -> Prop :=
| FSW s r s' : fwexec one r s = Ret (Some s') -> fhstep one s s'
| FSP s s' : fpexec one s = Ret (Some s') -> fhstep one s s'
| FSD s s' : fdexec s = Some s' -> fhstep one s s'
| FSPush s m : fpr s = FIdle -> fds s = ENone -> zlen m + 8 = one -> fhstep one s (set_fpr (femit s (KPush m)) (F111 m))
| FSClear s : fpr s = FIdle -> fds s = ENone -> fhstep one s (set_fpr (femit s KClear) F153)
| FSDestroy s : fds s = ENone -> fpr s = FIdle -> fhstep one s (set_fds (femit s KDestroy) E165).

(** fixed_msg_queue_handler.c:93-97 and 45: a handler just created around queue [q] *)
Definition fhboot (q : fq Z) : fh :=
  mk_fh (rb_in (fq_ring q)) (rb_out (fq_ring q)) (rb_size (fq_ring q)) (rb_buf (fq_ring q)) 0 0 0 false
        (repeat 0 (Z.to_nat (fq_one q))) V49 FIdle ENone [].
Inductive fhreach (q : fq Z) : fh -> Prop :=
| FR0 : fhreach q (fhboot q)
| FRS s s' : fhreach q s -> fhstep (fq_one q) s s' -> fhreach q s'.
