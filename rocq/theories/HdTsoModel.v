(** Model of /repo/src/ring/msg_queue_handler.c on a machine with store buffers (x86-TSO): the pushing thread, the worker thread and a thread that destroys
    the handler, as in HandlerModel, over the queue of MqTsoModel, whose stores reach memory late. The exit flag (line 16, volatile: no barrier) is stored
    late as well. sem_post and sem_wait are locked instructions: they happen when the thread's stores have reached memory; a thread's end and pthread_join
    likewise. Program points, lines and what is left out as in HandlerModel. Simplified: a pending store of the flag is kept apart from the thread's other
    stores and may reach memory before older ones (more behaviours than x86 has). *)
From Verif Require Import CBase RingBuffer2Model MsgQueueModel SpscModel HandlerModel MqTsoModel.

(** g_flag: the flag in memory; g_wfl, g_dfl: a store of true by the worker, by the destroying thread, on its way *)
Record gst := mk_g { g_q : tst; g_sem : Z; g_flag : bool; g_wfl : bool; g_dfl : bool; g_buf : list Z; g_bsize : Z;
                     g_wk : wpc; g_pr : hpc; g_ds : dpc; g_log : list hev }.
Definition gset_q s x := mk_g x (g_sem s) (g_flag s) (g_wfl s) (g_dfl s) (g_buf s) (g_bsize s) (g_wk s) (g_pr s) (g_ds s) (g_log s).
Definition gset_sem s x := mk_g (g_q s) x (g_flag s) (g_wfl s) (g_dfl s) (g_buf s) (g_bsize s) (g_wk s) (g_pr s) (g_ds s) (g_log s).
Definition gset_flag s x := mk_g (g_q s) (g_sem s) x (g_wfl s) (g_dfl s) (g_buf s) (g_bsize s) (g_wk s) (g_pr s) (g_ds s) (g_log s).
Definition gset_wfl s x := mk_g (g_q s) (g_sem s) (g_flag s) x (g_dfl s) (g_buf s) (g_bsize s) (g_wk s) (g_pr s) (g_ds s) (g_log s).
Definition gset_dfl s x := mk_g (g_q s) (g_sem s) (g_flag s) (g_wfl s) x (g_buf s) (g_bsize s) (g_wk s) (g_pr s) (g_ds s) (g_log s).
Definition gset_buf s x n := mk_g (g_q s) (g_sem s) (g_flag s) (g_wfl s) (g_dfl s) x n (g_wk s) (g_pr s) (g_ds s) (g_log s).
Definition gset_wk s x := mk_g (g_q s) (g_sem s) (g_flag s) (g_wfl s) (g_dfl s) (g_buf s) (g_bsize s) x (g_pr s) (g_ds s) (g_log s).
Definition gset_pr s x := mk_g (g_q s) (g_sem s) (g_flag s) (g_wfl s) (g_dfl s) (g_buf s) (g_bsize s) (g_wk s) x (g_ds s) (g_log s).
Definition gset_ds s x := mk_g (g_q s) (g_sem s) (g_flag s) (g_wfl s) (g_dfl s) (g_buf s) (g_bsize s) (g_wk s) (g_pr s) x (g_log s).
Definition gemit s e := mk_g (g_q s) (g_sem s) (g_flag s) (g_wfl s) (g_dfl s) (g_buf s) (g_bsize s) (g_wk s) (g_pr s) (g_ds s) (e :: g_log s).

(** one step of the worker, msg_queue_handler.c:44-111; None: it cannot move now *)
Definition gwexec (c : choice) (s : gst) : outcome (option gst) :=
  match g_wk s with
  | W51 =>
      match c_mem c with
      | None => Ret (Some (gset_wk (gset_wfl (gemit s HOom) true) WDone))
      | Some b => if zlen b =? 4096 then Ret (Some (gset_wk (gset_buf s b 4096) (W64 MQ_SUCCESS))) else Ret None
      end
  | W64 last => Ret (Some (gset_wk s (if (last =? MQ_SUCCESS) || (last =? MQ_EMPTY) then W66 else W68)))
  | W66 =>
      match t_rbuf (g_q s) with
      | [] => if 0 <? g_sem s then Ret (Some (gset_wk (gset_q (gset_sem s (g_sem s - 1)) (temit (g_q s) RSync)) W68)) else Ret None
      | _ => Ret None
      end
  | W68 => Ret (Some (gset_wk s (if g_flag s || g_wfl s then W103 else W73)))
  | W73 => Ret (Some (gset_wk (gset_q s (tset_cp (temit (g_q s) (E (EPop (g_buf s) (u32 (g_bsize s))))) (C78 (g_buf s) (u32 (g_bsize s))))) WPop))
  | WPop =>
      do i' <- tcstep (g_q s);
      let s' := gset_q s i' in
      Ret (Some (match t_cp (g_q s) with
                 | CRet _ _ code t' sz' =>
                     let s' := gset_buf s' t' (g_bsize s) in
                     if code =? MQ_SUCCESS then gset_wk s' W96
                     else if code =? MQ_BUF_NOT_ENOUGH then gset_wk s' (W78 sz')
                     else gset_wk s' (W64 code)
                 | _ => s'
                 end))
  | W78 size =>
      do n <- roundup_power2 size;
      match c_mem c with
      | None => Ret (Some (gset_wk (gemit s HOom) W103))
      | Some b => if zlen b =? n then Ret (Some (gset_wk (gset_buf s b n) (W64 MQ_BUF_NOT_ENOUGH))) else Ret None
      end
  | W96 => Ret (Some (gset_wk (gemit s (HCb (g_buf s))) WCb))
  | WCb => Ret (Some (gset_wk (gemit s (HCbRet (c_ret c))) (if c_ret c =? 0 then W64 MQ_SUCCESS else W103)))
  | W103 => Ret (Some (gset_wk (gset_wfl s true) WDone))
  | WDone => Ret None
  end.

(** one step of the pushing thread, msg_queue_handler.c:143-155 *)
Definition gpexec (s : gst) : outcome (option gst) :=
  match g_pr s with
  | HIdle => Ret None
  | H145 m => if g_flag s then Ret (Some (gset_pr s (HRet m MQ_NULL_HANDLE)))
              else Ret (Some (gset_pr (gset_q s (tset_pp (temit (g_q s) (E (EPush m))) (P44 m))) (H149 m)))
  | H149 m =>
      do i' <- tpstep (g_q s);
      let s' := gset_q s i' in
      Ret (Some (match t_pp (g_q s) with
                 | PRet _ code => if code =? MQ_SUCCESS then gset_pr s' (H152 m) else gset_pr s' (HRet m code)
                 | _ => s'
                 end))
  | H152 m =>
      match t_wbuf (g_q s) with
      | [] => Ret (Some (gset_pr (gset_q (gset_sem s (g_sem s + 1)) (temit (g_q s) WSync)) (HRet m MQ_SUCCESS)))
      | _ => Ret None
      end
  | HRet m code => Ret (Some (gset_pr (gemit s (HPushRet m code)) HIdle))
  end.

(** one step of msg_queue_handler_destroy, msg_queue_handler.c:167-190; the join waits for the worker's end, when its stores are in memory *)
Definition gdexec (s : gst) : option gst :=
  match g_ds s with
  | DNone | DDone => None
  | D174 => Some (gset_ds (gset_dfl s true) D176)
  | D176 => if g_dfl s then None else Some (gset_ds (gset_sem s (g_sem s + 1)) D177)
  | D177 => match g_wk s, t_rbuf (g_q s), g_wfl s with WDone, [], false => Some (gset_ds (gemit s HDestroyed) DDone) | _, _, _ => None end
  end.

(** a store reaches memory: of the pushing thread (GFW), of the worker (GFR, GFF), of the destroying thread (GFD) *)
Inductive gflush : gst -> gst -> Prop :=
| GFW s e b i : t_wbuf (g_q s) = e :: b -> commit (tset_wbuf (g_q s) b) e = Ret i -> gflush s (gset_q s i)
| GFR s x b : t_rbuf (g_q s) = x :: b -> gflush s (gset_q s (tset_rbuf (tset_out (g_q s) x) b))
| GFF s : g_wfl s = true -> gflush s (gset_wfl (gset_flag s true) false)
| GFD s : g_dfl s = true -> gflush s (gset_dfl (gset_flag s true) false).
Inductive gstep : gst -> gst -> Prop :=
| GSW s c s' : gwexec c s = Ret (Some s') -> gstep s s'
| GSP s s' : gpexec s = Ret (Some s') -> gstep s s'
| GSD s s' : gdexec s = Some s' -> gstep s s'
| GSF s s' : gflush s s' -> gstep s s'
| GSCall s m : g_pr s = HIdle -> g_ds s = DNone -> 0 < zlen m < two32 -> gstep s (gset_pr (gemit s (HPush m)) (H145 m))
| GSDestroy s : g_ds s = DNone -> g_pr s = HIdle -> gstep s (gset_ds (gemit s HDestroy) D174).

(** msg_queue_handler.c:123-140: a handler just created around queue [q] *)
Definition gboot (q : rb Z) : gst := mk_g (tboot q) 0 false false false [] 0 W51 HIdle DNone [].
Inductive greach (q : rb Z) : gst -> Prop :=
| GR0 : greach q (gboot q)
| GRS s s' : greach q s -> gstep s s' -> greach q s'.
