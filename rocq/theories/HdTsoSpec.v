(** Specification for C83: the handler's log is that of HandlerSpec (hsent, haccepted, callbacks, ended, begins). *)
From Verif Require Import CBase HandlerModel HandlerSpec MqTsoModel HdTsoModel.
(** the worker sleeps in sem_wait and nothing would wake it *)
Definition gasleep (s : gst) : Prop := g_wk s = W66 /\ g_sem s = 0.
(** no store of any thread to the handler or its queue is on its way *)
Definition settled (s : gst) : Prop := t_wbuf (g_q s) = [] /\ t_rbuf (g_q s) = [] /\ g_wfl s = false /\ g_dfl s = false.
(** steps of the other threads, stores reaching memory, new calls *)
Inductive gothers : gst -> gst -> Prop :=
| GOP s s' : gpexec s = Ret (Some s') -> gothers s s'
| GOD s s' : gdexec s = Some s' -> gothers s s'
| GOF s s' : gflush s s' -> gothers s s'
| GOCall s m : g_pr s = HIdle -> g_ds s = DNone -> 0 < zlen m < two32 -> gothers s (gset_pr (gemit s (HPush m)) (H145 m))
| GODestroy s : g_ds s = DNone -> g_pr s = HIdle -> gothers s (gset_ds (gemit s HDestroy) D174).
(** [gwrun n s s']: an execution from s to s' in which the worker takes n steps without calling the callback, while everything else goes on *)
Inductive gwrun : nat -> gst -> gst -> Prop :=
| gwrun_nil s : gwrun 0 s s
| gwrun_own n c s s' s'' : gwexec c s = Ret (Some s') -> callbacks (g_log s') = callbacks (g_log s) -> gwrun n s' s'' -> gwrun (S n) s s''
| gwrun_other n s s' s'' : gothers s s' -> gwrun n s' s'' -> gwrun n s s''.
