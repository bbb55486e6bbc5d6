(** Interleaving model of one writer thread and one reader thread using the same ring_buf (/repo/src/ring/ring_buf.c) without a lock. Every access
    to memory of the other thread (the offsets, each single byte of the data area) is one step; the scheduler may switch threads between any two.
    size_t is 64 bit. Simplified: memory is sequentially consistent (the offsets are plain size_t); a thread's reads of its own
    offset are not steps of their own (only it writes it). *)
From Verif Require Import CBase RingBufModel.

Inductive wcall :=
| WWrite (src : list Z) (len : Z)         (* ring_buf_write; src: the caller's block *)
| WSpace.                                 (* ring_buf_available_write *)
Inductive rcall :=
| RRead (t : option (list Z)) (len : Z)   (* ring_buf_read; t: the block of the target, None: NULL *)
| RPeek (t : option (list Z)) (len : Z)   (* ring_buf_peek *)
| RDiscard (len : Z)                      (* ring_buf_discard *)
| RAvail.                                 (* ring_buf_available_read *)
Definition wlen (c : wcall) : Z := match c with WWrite _ n => n | WSpace => 0 end.
Definition wsrc (c : wcall) : list Z := match c with WWrite s _ => s | WSpace => [] end.
(** lines 128-141: the arguments of internal_ring_buf_read *)
Definition rlen (c : rcall) : Z := match c with RRead _ n | RPeek _ n | RDiscard n => n | RAvail => 0 end.
Definition rtgt (c : rcall) : option (list Z) := match c with RRead t _ | RPeek t _ => t | RDiscard _ | RAvail => None end.
Definition is_peek (c : rcall) : bool := match c with RPeek _ _ => true | _ => false end.

Inductive wpc :=
| WIdle
| WSpaceAt                                          (* line 82 *)
| WCheck (c : wcall)                                (* line 145 *)
| WCopy (c : wcall) (start i : Z)                   (* lines 155, 171: next is byte i; start: offset_write at line 151 *)
| WRet (c : wcall) (n : Z).
Inductive rpc :=
| RIdle
| RAvailAt                                          (* line 77 *)
| RCheck (c : rcall)                                (* line 87 *)
| RCopy (c : rcall) (start i : Z) (t : list Z)      (* lines 97, 106: next is byte i; start: offset_read at line 93 *)
| RRet (c : rcall) (n : Z) (t : option (list Z)).   (* t: the target block afterwards *)
(** what the two callers see; newest first in the log *)
Inductive ev := EWCall (c : wcall) | EWRet (c : wcall) (n : Z) | ERCall (c : rcall) | ERRet (c : rcall) (n : Z) (t : option (list Z)).
Record st := mk_st { off_w : Z; off_r : Z; csize : Z; mem : list Z; wp : wpc; rp : rpc; log : list ev }.
Definition set_wp s x := mk_st (off_w s) (off_r s) (csize s) (mem s) x (rp s) (log s).
Definition set_rp s x := mk_st (off_w s) (off_r s) (csize s) (mem s) (wp s) x (log s).
Definition set_w s x := mk_st x (off_r s) (csize s) (mem s) (wp s) (rp s) (log s).
Definition set_r s x := mk_st (off_w s) x (csize s) (mem s) (wp s) (rp s) (log s).
Definition set_mem s x := mk_st (off_w s) (off_r s) (csize s) x (wp s) (rp s) (log s).
Definition emit s e := mk_st (off_w s) (off_r s) (csize s) (mem s) (wp s) (rp s) (e :: log s).

(** lines 26, 28 *)
Definition avail_read s := u64 (csize s + off_w s - off_r s) mod csize s.
Definition avail_write s := u64 (csize s + off_r s - off_w s - 1) mod csize s.
(** lines 93-94, 151-152: the length of the first part *)
Definition first_part (size start n : Z) : Z := let max := u64 (size - start) in if n >? max then max else n.
(** the place of byte i of a transfer of n bytes from start *)
Definition place (size n start i : Z) : Z := let first := first_part size start n in if i <? first then start + i else i - first.
(** lines 101-124, 159-173: the offset stored at the end; off: the offset read again *)
Definition advance (size n start off : Z) : Z :=
  let first := first_part size start n in
  let second := u64 (n - first) in
  if second =? 0 then (let x := u64 (off + first) in if x =? size then 0 else x) else second.

(** one step of the writer *)
Definition wstep (s : st) : outcome st :=
  match wp s with
  | WIdle => Ret s
  | WSpaceAt => Ret (set_wp s (WRet WSpace (avail_write s)))
  | WCheck c => if (wlen c =? 0) || (wlen c >? avail_write s) then Ret (set_wp s (WRet c 0)) else Ret (set_wp s (WCopy c (off_w s) 0))
  | WCopy c start i =>
      if i <? wlen c then
        do b <- mload (wsrc c) i;
        do m <- mstore (mem s) (place (csize s) (wlen c) start i) b;
        Ret (set_wp (set_mem s m) (WCopy c start (i + 1)))
      else Ret (set_wp (set_w s (advance (csize s) (wlen c) start (off_w s))) (WRet c (wlen c)))
  | WRet c n => Ret (set_wp (emit s (EWRet c n)) WIdle)
  end.
(** one step of the reader *)
Definition rstep (s : st) : outcome st :=
  match rp s with
  | RIdle => Ret s
  | RAvailAt => Ret (set_rp s (RRet RAvail (avail_read s) None))
  | RCheck c =>
      if (rlen c =? 0) || (rlen c >? avail_read s) then Ret (set_rp s (RRet c 0 (rtgt c)))
      else Ret (set_rp s (RCopy c (off_r s) (match rtgt c with Some _ => 0 | None => rlen c end) (match rtgt c with Some t => t | None => [] end)))
  | RCopy c start i t =>
      if i <? rlen c then
        do b <- mload (mem s) (place (csize s) (rlen c) start i);
        do t <- mstore t i b;
        Ret (set_rp s (RCopy c start (i + 1) t))
      else
        let s' := if is_peek c then s else set_r s (advance (csize s) (rlen c) start (off_r s)) in
        Ret (set_rp s' (RRet c (rlen c) (match rtgt c with Some _ => Some t | None => None end)))
  | RRet c n t => Ret (set_rp (emit s (ERRet c n t)) RIdle)
  end.
Definition wbegin (c : wcall) : wpc := match c with WSpace => WSpaceAt | WWrite _ _ => WCheck c end.
Definition rbegin (c : rcall) : rpc := match c with RAvail => RAvailAt | _ => RCheck c end.
(** the caller's blocks are at least as long as the lengths given *)
Definition wok (c : wcall) : Prop := match c with WWrite s n => 0 <= n < two64 /\ n <= zlen s | WSpace => True end.
Definition rok (c : rcall) : Prop := 0 <= rlen c < two64 /\ match rtgt c with Some t => rlen c <= zlen t | None => True end.
(** scheduler: either thread takes its next step, or an idle thread begins a call *)
Inductive step : st -> st -> Prop :=
| SW s s' : wstep s = Ret s' -> step s s'
| SR s s' : rstep s = Ret s' -> step s s'
| SWCall s c : wp s = WIdle -> wok c -> step s (set_wp (emit s (EWCall c)) (wbegin c))
| SRCall s c : rp s = RIdle -> rok c -> step s (set_rp (emit s (ERCall c)) (rbegin c)).
(** a ring_buf handed to the two threads *)
Definition boot (h : @ring Z) : st := mk_st (rg_w h) (rg_r h) (rg_size h) (rg_mem h) WIdle RIdle [].
Inductive reach (h : @ring Z) : st -> Prop :=
| R0 : reach h (boot h)
| RS s s' : reach h s -> step s s' -> reach h s'.
(** ring_buf_clear, line 179, called by the reader: its two stores (offset_write first) *)
Definition clear_w (s : st) : st := set_w s 0.
Definition clear_r (s : st) : st := set_r s 0.
