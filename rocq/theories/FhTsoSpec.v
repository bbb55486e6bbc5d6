(** Specification for C85: the log is read as in FHandlerSpec (ksent, kaccepted, cleared, kended). *)
From Verif Require Import CBase FHandlerModel FHandlerSpec FhTsoModel.
(** the worker sleeps in sem_wait and nothing would wake it *)
Definition xasleep (s : ft) : Prop := x_wk s = V49 /\ x_sem s = 0.
(** no store of the worker or of the destroying thread is on its way, and none of the client but to min_valid_token *)
Definition xsettled (s : ft) : Prop :=
  x_ob s = [] /\ x_wfl s = false /\ x_dfl s = false /\ forall e, In e (x_cb s) -> exists x, e = CMin x.
(** [xvrun one n s s']: an execution from s to s' in which the worker takes n steps, none of them a sem_wait, while everything else goes on *)
Inductive xvrun (one : Z) : nat -> ft -> ft -> Prop :=
| xvrun_nil s : xvrun one 0 s s
| xvrun_own n r s s' s'' : x_wk s <> V49 -> xwexec one r s = Ret (Some s') -> xvrun one n s' s'' -> xvrun one (S n) s s''
| xvrun_other n s s' s'' : xstep one s s' -> x_wk s' = x_wk s -> xvrun one n s' s'' -> xvrun one n s s''.
