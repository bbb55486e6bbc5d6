(** One writer thread and one reader thread using the same ring_buf (/repo/src/ring/ring_buf.c) without a lock, on a machine with store buffers:
    a store goes into the thread's buffer and reaches memory later, at a time the scheduler chooses. With [reorder] = false the buffer is first in
    first out (x86-TSO); with [reorder] = true a store may overtake older ones to other places (as on ARM, or as a compiler may order plain stores).
    A thread sees its own newest store of its own offset (forwarding); neither thread loads anything else it stores. The calls, their program
    points and the arithmetic are those of RgMtModel (ring_buf.c:26-175). size_t is 64 bit; a store of an offset or of a byte is not torn. *)
From Verif Require Import CBase RingBufModel RgMtModel.

Inductive wr := SByte (a b : Z) | SOff (x : Z).        (* a store of the writer: of a byte of the data area, of offset_write *)
(** what the callers see, and barriers executed between calls; newest first *)
Inductive tev := E (e : ev) | WSync | RSync.
Record tst := mk_tst { t_w : Z; t_r : Z; t_size : Z; t_mem : list Z; t_wbuf : list wr; t_rbuf : list Z; t_wp : wpc; t_rp : rpc; t_log : list tev }.
Definition tset_wp s x := mk_tst (t_w s) (t_r s) (t_size s) (t_mem s) (t_wbuf s) (t_rbuf s) x (t_rp s) (t_log s).
Definition tset_rp s x := mk_tst (t_w s) (t_r s) (t_size s) (t_mem s) (t_wbuf s) (t_rbuf s) (t_wp s) x (t_log s).
Definition tset_w s x := mk_tst x (t_r s) (t_size s) (t_mem s) (t_wbuf s) (t_rbuf s) (t_wp s) (t_rp s) (t_log s).
Definition tset_r s x := mk_tst (t_w s) x (t_size s) (t_mem s) (t_wbuf s) (t_rbuf s) (t_wp s) (t_rp s) (t_log s).
Definition tset_mem s x := mk_tst (t_w s) (t_r s) (t_size s) x (t_wbuf s) (t_rbuf s) (t_wp s) (t_rp s) (t_log s).
Definition tset_wbuf s x := mk_tst (t_w s) (t_r s) (t_size s) (t_mem s) x (t_rbuf s) (t_wp s) (t_rp s) (t_log s).
Definition tset_rbuf s x := mk_tst (t_w s) (t_r s) (t_size s) (t_mem s) (t_wbuf s) x (t_wp s) (t_rp s) (t_log s).
Definition temit s e := mk_tst (t_w s) (t_r s) (t_size s) (t_mem s) (t_wbuf s) (t_rbuf s) (t_wp s) (t_rp s) (e :: t_log s).
(** oldest store first in the buffers *)
Definition w_store s e := tset_wbuf s (t_wbuf s ++ [e]).
Definition r_store s x := tset_rbuf s (t_rbuf s ++ [x]).

(** a thread's load of its own offset *)
Fixpoint fwd_w (b : list wr) (x : Z) : Z := match b with [] => x | SOff y :: b => fwd_w b y | SByte _ _ :: b => fwd_w b x end.
Fixpoint fwd_r (b : list Z) (x : Z) : Z := match b with [] => x | y :: b => fwd_r b y end.
Definition own_w s := fwd_w (t_wbuf s) (t_w s).
Definition own_r s := fwd_r (t_rbuf s) (t_r s).
(** lines 26, 28 as each thread computes them: its own offset forwarded, the other's from memory *)
Definition room s := u64 (t_size s + t_r s - own_w s - 1) mod t_size s.     (* line 145, by the writer *)
Definition stored s := u64 (t_size s + t_w s - own_r s) mod t_size s.       (* line 87, by the reader *)

(** one step of the writer; lines as in RgMtModel.wstep *)
Definition twstep (s : tst) : outcome tst :=
  match t_wp s with
  | WIdle => Ret s
  | WSpaceAt => Ret (tset_wp s (WRet WSpace (room s)))
  | WCheck c => if (wlen c =? 0) || (wlen c >? room s) then Ret (tset_wp s (WRet c 0)) else Ret (tset_wp s (WCopy c (own_w s) 0))
  | WCopy c start i =>
      if i <? wlen c then
        do b <- mload (wsrc c) i;
        Ret (tset_wp (w_store s (SByte (place (t_size s) (wlen c) start i) b)) (WCopy c start (i + 1)))
      else Ret (tset_wp (w_store s (SOff (advance (t_size s) (wlen c) start (own_w s)))) (WRet c (wlen c)))
  | WRet c n => Ret (tset_wp (temit s (E (EWRet c n))) WIdle)
  end.
(** one step of the reader; lines as in RgMtModel.rstep. The target block is its own *)
Definition trstep (s : tst) : outcome tst :=
  match t_rp s with
  | RIdle => Ret s
  | RAvailAt => Ret (tset_rp s (RRet RAvail (stored s) None))
  | RCheck c =>
      if (rlen c =? 0) || (rlen c >? stored s) then Ret (tset_rp s (RRet c 0 (rtgt c)))
      else Ret (tset_rp s (RCopy c (own_r s) (match rtgt c with Some _ => 0 | None => rlen c end) (match rtgt c with Some t => t | None => [] end)))
  | RCopy c start i t =>
      if i <? rlen c then
        do b <- mload (t_mem s) (place (t_size s) (rlen c) start i);
        do t <- mstore t i b;
        Ret (tset_rp s (RCopy c start (i + 1) t))
      else
        let s' := if is_peek c then s else r_store s (advance (t_size s) (rlen c) start (own_r s)) in
        Ret (tset_rp s' (RRet c (rlen c) (match rtgt c with Some _ => Some t | None => None end)))
  | RRet c n t => Ret (tset_rp (temit s (E (ERRet c n t))) RIdle)
  end.
(** a store reaches memory *)
Definition commit (s : tst) (e : wr) : outcome tst :=
  match e with SByte a b => do m <- mstore (t_mem s) a b; Ret (tset_mem s m) | SOff x => Ret (tset_w s x) end.
Definition same_place (e e' : wr) : bool := match e, e' with SByte a _, SByte a' _ => a =? a' | SOff _, SOff _ => true | _, _ => false end.
Section Machine.
Variable reorder : bool.
(** scheduler: a thread takes its next step, begins a call, has a barrier behind it, or one of its stores reaches memory *)
Inductive tstep : tst -> tst -> Prop :=
| TW s s' : twstep s = Ret s' -> tstep s s'
| TR s s' : trstep s = Ret s' -> tstep s s'
| TWCall s c : t_wp s = WIdle -> wok c -> tstep s (tset_wp (temit s (E (EWCall c))) (wbegin c))
| TRCall s c : t_rp s = RIdle -> rok c -> tstep s (tset_rp (temit s (E (ERCall c))) (rbegin c))
| TWFlush s s' a e b : t_wbuf s = a ++ e :: b -> (reorder = true \/ a = []) -> forallb (fun x => negb (same_place x e)) a = true ->
    commit (tset_wbuf s (a ++ b)) e = Ret s' -> tstep s s'
| TRFlush s x b : t_rbuf s = x :: b -> tstep s (tset_rbuf (tset_r s x) b)
| TWSync s : t_wp s = WIdle -> t_wbuf s = [] -> tstep s (temit s WSync)
| TRSync s : t_rp s = RIdle -> t_rbuf s = [] -> tstep s (temit s RSync).
Definition tboot (h : @ring Z) : tst := mk_tst (rg_w h) (rg_r h) (rg_size h) (rg_mem h) [] [] WIdle RIdle [].
Inductive treach (h : @ring Z) : tst -> Prop :=
| T0 : treach h (tboot h)
| TS s s' : treach h s -> tstep s s' -> treach h s'.
End Machine.
