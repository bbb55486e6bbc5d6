(** Model of /repo/src/ring/msg_queue_handler.c: one producer side (pushes are serialised by the
    caller, as the header demands), the worker thread, and a thread that destroys the handler.
    The queue operations are not atomic: they run step by step, byte by byte, in the interleaving
    model of SpscModel. Sequentially consistent memory. Not modelled: logging, the status callback
    (msg_queue_handler.c:35-42), the creation failure paths (lines 113-141). *)
From Verif Require Import CBase RingBuffer2Model MsgQueueModel SpscModel.

(** msg_queue_handler.c:21-33: n & (n-1), then 2 << counter in int *)
Definition roundup_power2 (n : Z) : outcome Z :=
  if Z.land n (u64 (n - 1)) =? 0 then Ret n
  else do c <- count_shifts 64 n 0; sint (2 * 2 ^ c).

(** worker thread, msg_queue_handler.c:44-111, by source line *)
Inductive wpc :=
| W51                       (* malloc of the first buffer *)
| W64 (last : Z)            (* top of the loop; last_status *)
| W66                       (* sem_wait *)
| W68                       (* test of flag2exit *)
| W73                       (* about to call msg_queue_pop *)
| WPop                      (* inside msg_queue_pop *)
| W78 (size : Z)            (* buffer too small: free, malloc *)
| W96                       (* about to call the callback *)
| WCb                       (* inside the callback *)
| W103                      (* leaving the loop *)
| WDone.
(** msg_queue_handler_push, msg_queue_handler.c:143-155 *)
Inductive hpc := HIdle | H145 (m : list Z) | H149 (m : list Z) | H152 (m : list Z) | HRet (m : list Z) (code : Z).
(** msg_queue_handler_destroy, msg_queue_handler.c:167-190 *)
Inductive dpc := DNone | D174 | D176 | D177 | DDone.

(** observable events, newest first *)
Inductive hev :=
| HPush (m : list Z) | HPushRet (m : list Z) (code : Z)
| HCb (block : list Z)      (* the callback is called; the block its argument points to *)
| HCbRet (r : Z)
| HOom                      (* a malloc in the worker failed *)
| HDestroy | HDestroyed.

Record hst := mk_h { inner : st; sem : Z; flag : bool; buf : list Z; bsize : Z;
                     wk : wpc; pr : hpc; ds : dpc; hlog : list hev }.
Definition set_inner s x := mk_h x (sem s) (flag s) (buf s) (bsize s) (wk s) (pr s) (ds s) (hlog s).
Definition set_sem s x := mk_h (inner s) x (flag s) (buf s) (bsize s) (wk s) (pr s) (ds s) (hlog s).
Definition set_flag s x := mk_h (inner s) (sem s) x (buf s) (bsize s) (wk s) (pr s) (ds s) (hlog s).
Definition set_buf s x n := mk_h (inner s) (sem s) (flag s) x n (wk s) (pr s) (ds s) (hlog s).
Definition set_wk s x := mk_h (inner s) (sem s) (flag s) (buf s) (bsize s) x (pr s) (ds s) (hlog s).
Definition set_pr s x := mk_h (inner s) (sem s) (flag s) (buf s) (bsize s) (wk s) x (ds s) (hlog s).
Definition set_ds s x := mk_h (inner s) (sem s) (flag s) (buf s) (bsize s) (wk s) (pr s) x (hlog s).
Definition hemit s e := mk_h (inner s) (sem s) (flag s) (buf s) (bsize s) (wk s) (pr s) (ds s) (e :: hlog s).

(** what the environment decides in one worker step: the result of malloc (None = failure, otherwise
    a block of arbitrary content) and the callback's return value *)
Record choice := { c_mem : option (list Z); c_ret : Z }.

(** one step of the worker; None: it cannot move (blocked in sem_wait, finished, or the choice does
    not fit: a malloc result of the wrong length) *)
Definition wexec (c : choice) (s : hst) : outcome (option hst) :=
  match wk s with
  | W51 =>
      match c_mem c with
      | None => Ret (Some (set_wk (set_flag (hemit s HOom) true) WDone))
      | Some b => if zlen b =? 4096 then Ret (Some (set_wk (set_buf s b 4096) (W64 MQ_SUCCESS))) else Ret None
      end
  | W64 last => Ret (Some (set_wk s (if (last =? MQ_SUCCESS) || (last =? MQ_EMPTY) then W66 else W68)))
  | W66 => if 0 <? sem s then Ret (Some (set_wk (set_sem s (sem s - 1)) W68)) else Ret None
  | W68 => Ret (Some (set_wk s (if flag s then W103 else W73)))
  | W73 => Ret (Some (set_wk (set_inner s (set_cp (emit (inner s) (EPop (buf s) (u32 (bsize s)))) (C78 (buf s) (u32 (bsize s))))) WPop))
  | WPop =>
      do i' <- cstep (inner s);
      let s' := set_inner s i' in
      Ret (Some (match cp (inner s) with
                 | CRet _ _ code t' sz' =>
                     let s' := set_buf s' t' (bsize s) in
                     if code =? MQ_SUCCESS then set_wk s' W96
                     else if code =? MQ_BUF_NOT_ENOUGH then set_wk s' (W78 sz')
                     else set_wk s' (W64 code)
                 | _ => s'
                 end))
  | W78 size =>
      do n <- roundup_power2 size;
      match c_mem c with
      | None => Ret (Some (set_wk (hemit s HOom) W103))
      | Some b => if zlen b =? n then Ret (Some (set_wk (set_buf s b n) (W64 MQ_BUF_NOT_ENOUGH))) else Ret None
      end
  | W96 => Ret (Some (set_wk (hemit s (HCb (buf s))) WCb))
  | WCb => Ret (Some (set_wk (hemit s (HCbRet (c_ret c))) (if c_ret c =? 0 then W64 MQ_SUCCESS else W103)))
  | W103 => Ret (Some (set_wk (set_flag s true) WDone))
  | WDone => Ret None
  end.

(** one step of the pushing thread *)
Definition pexec (s : hst) : outcome (option hst) :=
  match pr s with
  | HIdle => Ret None
  | H145 m => if flag s then Ret (Some (set_pr s (HRet m MQ_NULL_HANDLE)))
              else Ret (Some (set_pr (set_inner s (set_pp (emit (inner s) (EPush m)) (P44 m))) (H149 m)))
  | H149 m =>
      do i' <- pstep (inner s);
      let s' := set_inner s i' in
      Ret (Some (match pp (inner s) with
                 | PRet _ code => if code =? MQ_SUCCESS then set_pr s' (H152 m) else set_pr s' (HRet m code)
                 | _ => s'
                 end))
  | H152 m => Ret (Some (set_pr (set_sem s (sem s + 1)) (HRet m MQ_SUCCESS)))
  | HRet m code => Ret (Some (set_pr (hemit s (HPushRet m code)) HIdle))
  end.

(** one step of msg_queue_handler_destroy; the join at line 177 waits for the worker to finish *)
Definition dexec (s : hst) : option hst :=
  match ds s with
  | DNone | DDone => None
  | D174 => Some (set_ds (set_flag s true) D176)
  | D176 => Some (set_ds (set_sem s (sem s + 1)) D177)
  | D177 => match wk s with WDone => Some (set_ds (hemit s HDestroyed) DDone) | _ => None end
  end.

Inductive hstep : hst -> hst -> Prop :=
| HSW s c s' : wexec c s = Ret (Some s') -> hstep s s'
| HSP s s' : pexec s = Ret (Some s') -> hstep s s'
| HSD s s' : dexec s = Some s' -> hstep s s'
| HSCall s m : pr s = HIdle -> ds s = DNone -> 0 < zlen m < two32 -> hstep s (set_pr (hemit s (HPush m)) (H145 m))
| HSDestroy s : ds s = DNone -> pr s = HIdle -> hstep s (set_ds (hemit s HDestroy) D174).

(** msg_queue_handler.c:123-140: a handler just created around queue [q] *)
Definition hboot (q : rb Z) : hst := mk_h (boot q) 0 false [] 0 W51 HIdle DNone [].
Inductive hreach (q : rb Z) : hst -> Prop :=
| HR0 : hreach q (hboot q)
| HRS s s' : hreach q s -> hstep s s' -> hreach q s'.
