(** Interleaving model of one writer thread and one reader thread using the same RingBuffer (/repo/src/ring/ringbuffer.c), directly or
    as a fixed_msg_queue (/repo/src/ring/fixed_msg_queue.c; one: its message size). Every access to memory of the other thread (the counters
    in and out, each single byte of the data area) is one step; the scheduler may switch threads between any two steps.
    Simplified: memory is sequentially consistent (in and out are plain uint32_t); `in += size` and `out += size` are one step (only one thread
    writes each); calls with NULL return at once and are left out. *)
From Verif Require Import CBase RingBuffer2Model FixedQueueModel.

(** ** Calls *)
Inductive wcall :=
| WWrite (src : list Z) (size : Z)        (* RingBuffer_write(h, src, size) *)
| WSpace                                  (* RingBuffer_available_write, and is_full: 0 == that *)
| WPush (src : list Z).                   (* fixed_msg_queue_push *)
Inductive rcall :=
| RRead (t : list Z) (size : Z)           (* RingBuffer_read; t: the block of the target *)
| RPeek (t : option (list Z)) (size : Z)  (* RingBuffer_peek *)
| RDiscard (size : Z)                     (* RingBuffer_discard *)
| RAvail                                  (* RingBuffer_available_read, and is_empty *)
| RPop (t : list Z).                      (* fixed_msg_queue_pop *)

Section One.
Variable one : Z.
(** what a call asks for: RingBuffer_write and RingBuffer_read_internal, ringbuffer.c:186, 225, 271-284, fixed_msg_queue.c:43-45, 55-57 *)
Definition wsrc (c : wcall) : list Z := match c with WWrite s _ => s | WPush s => s | WSpace => [] end.
Definition wsize (c : wcall) : Z := match c with WWrite _ n => n | WPush _ => one | WSpace => 0 end.
Definition rtgt (c : rcall) : option (list Z) := match c with RRead t _ => Some t | RPeek t _ => t | RPop t => Some t | RDiscard _ | RAvail => None end.
Definition rsize (c : rcall) : Z := match c with RRead _ n | RPeek _ n | RDiscard n => n | RPop _ => one | RAvail => 0 end.
Definition is_peek (c : rcall) : bool := match c with RPeek _ _ => true | _ => false end.
(** what the call returns when the transfer was n bytes: fixed_msg_queue.c:43-45, 55-57 *)
Definition wret (c : wcall) (n : Z) : Z := match c with WPush _ => b2z (n =? one) | _ => n end.
Definition rret (c : rcall) (n : Z) : Z := match c with RPop _ => b2z (n =? one) | _ => n end.

Inductive wpc :=
| WIdle
| WSpaceAt                                          (* ringbuffer.c:183 *)
| WFull (s : list Z)                                (* fixed_msg_queue.c:39 *)
| WAvail (c : wcall)                                (* ringbuffer.c:188-205 *)
| WCopy (c : wcall) (n start i : Z)                 (* ringbuffer.c:214/219: next is byte i of n *)
| WRet (c : wcall) (n : Z).
Inductive rpc :=
| RIdle
| RAvailAt                                          (* ringbuffer.c:178 *)
| REmpty (t : list Z)                               (* fixed_msg_queue.c:51 *)
| RFetch (c : rcall)                                (* ringbuffer.c:227-245 *)
| RCopy (c : rcall) (n start i : Z) (t : list Z)    (* ringbuffer.c:255/261: next is byte i of n *)
| RRet (c : rcall) (n : Z) (t : option (list Z)).   (* t: the target block afterwards *)
(** what the two callers see; newest first in the log *)
Inductive ev := EWCall (c : wcall) | EWRet (c : wcall) (n : Z) | ERCall (c : rcall) | ERRet (c : rcall) (n : Z) (t : option (list Z)).

Record st := mk_st { cin : Z; cout : Z; csize : Z; mem : list Z; wp : wpc; rp : rpc; log : list ev }.
Definition set_wp s x := mk_st (cin s) (cout s) (csize s) (mem s) x (rp s) (log s).
Definition set_rp s x := mk_st (cin s) (cout s) (csize s) (mem s) (wp s) x (log s).
Definition set_in s x := mk_st x (cout s) (csize s) (mem s) (wp s) (rp s) (log s).
Definition set_out s x := mk_st (cin s) x (csize s) (mem s) (wp s) (rp s) (log s).
Definition set_mem s x := mk_st (cin s) (cout s) (csize s) x (wp s) (rp s) (log s).
Definition emit s e := mk_st (cin s) (cout s) (csize s) (mem s) (wp s) (rp s) (e :: log s).

(** ringbuffer.c:59, 60 *)
Definition avail_read s := u32 (cin s - cout s).
Definition avail_write s := u32 (csize s - avail_read s).
(** ringbuffer.c:209-219 / 250-261: the place of byte i of a transfer of n bytes from start *)
Definition place (size n start i : Z) : Z :=
  let first := take_min n (u32 (size - start)) in
  if i <? first then start + i else i - first.

(** one step of the writer *)
Definition wstep (s : st) : outcome st :=
  match wp s with
  | WIdle => Ret s
  | WSpaceAt => Ret (set_wp s (WRet WSpace (avail_write s)))
  | WFull m => Ret (set_wp s (if 0 =? avail_write s / one then WRet (WPush m) 0 else WAvail (WPush m)))   (* fixed_msg_queue.c:71-75, 82-85 *)
  | WAvail c =>
      let avail := avail_write s in
      if (wsize c =? 0) || (avail =? 0) then Ret (set_wp s (WRet c (wret c 0)))
      else Ret (set_wp s (WCopy c (take_min (wsize c) avail) (Z.land (cin s) (u32 (csize s - 1))) 0))
  | WCopy c n start i =>
      if i <? n then
        do b <- mload (wsrc c) i;
        do m <- mstore (mem s) (place (csize s) n start i) b;
        Ret (set_wp (set_mem s m) (WCopy c n start (i + 1)))
      else Ret (set_wp (set_in s (u32 (cin s + n))) (WRet c (wret c n)))                                      (* ringbuffer.c:221 *)
  | WRet c n => Ret (set_wp (emit s (EWRet c n)) WIdle)
  end.
(** one step of the reader *)
Definition rstep (s : st) : outcome st :=
  match rp s with
  | RIdle => Ret s
  | RAvailAt => Ret (set_rp s (RRet RAvail (avail_read s) None))
  | REmpty t => Ret (set_rp s (if 0 =? avail_read s / one then RRet (RPop t) 0 (Some t) else RFetch (RPop t)))   (* fixed_msg_queue.c:65-69, 77-80 *)
  | RFetch c =>
      let avail := avail_read s in
      if (rsize c =? 0) || (avail =? 0) then Ret (set_rp s (RRet c (rret c 0) (rtgt c)))
      else
        let n := take_min (rsize c) avail in
        Ret (set_rp s (RCopy c n (Z.land (cout s) (u32 (csize s - 1))) (match rtgt c with Some _ => 0 | None => n end) (match rtgt c with Some t => t | None => [] end)))
  | RCopy c n start i t =>
      if i <? n then
        do b <- mload (mem s) (place (csize s) n start i);
        do t <- mstore t i b;
        Ret (set_rp s (RCopy c n start (i + 1) t))
      else
        let s' := if is_peek c then s else set_out s (u32 (cout s + n)) in                                        (* ringbuffer.c:264-267 *)
        Ret (set_rp s' (RRet c (rret c n) (match rtgt c with Some _ => Some t | None => None end)))
  | RRet c n t => Ret (set_rp (emit s (ERRet c n t)) RIdle)
  end.

Definition wbegin (c : wcall) : wpc := match c with WSpace => WSpaceAt | WPush m => WFull m | WWrite _ _ => WAvail c end.
Definition rbegin (c : rcall) : rpc := match c with RAvail => RAvailAt | RPop t => REmpty t | _ => RFetch c end.
(** the caller's blocks are at least as long as the sizes given *)
Definition wok (c : wcall) : Prop := 0 <= wsize c < two32 /\ match c with WSpace => True | _ => wsize c <= zlen (wsrc c) end.
Definition rok (c : rcall) : Prop := 0 <= rsize c < two32 /\ match rtgt c with Some t => rsize c <= zlen t | None => True end.
(** scheduler: either thread takes its next step, or an idle thread begins a call *)
Inductive step : st -> st -> Prop :=
| SW s s' : wstep s = Ret s' -> step s s'
| SR s s' : rstep s = Ret s' -> step s s'
| SWCall s c : wp s = WIdle -> wok c -> step s (set_wp (emit s (EWCall c)) (wbegin c))
| SRCall s c : rp s = RIdle -> rok c -> step s (set_rp (emit s (ERCall c)) (rbegin c)).
(** a RingBuffer handed to the two threads *)
Definition boot (h : rb Z) : st := mk_st (rb_in h) (rb_out h) (rb_size h) (rb_buf h) WIdle RIdle [].
Inductive reach (h : rb Z) : st -> Prop :=
| R0 : reach h (boot h)
| RS s s' : reach h s -> step s s' -> reach h s'.
(** RingBuffer_clear (ringbuffer.c:151-159) called by the reader: the first of its two writes, and the second *)
Definition clear_in (s : st) : st := set_in s 0.
Definition clear_out (s : st) : st := set_out s 0.
End One.
