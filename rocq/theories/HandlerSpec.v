(** What users of a message queue handler see: the log of calls, returns and callbacks (newest first). *)
From Verif Require Import CBase HandlerModel.

(** messages of the push calls so far that were not refused (those still in progress included) *)
Fixpoint hsent (l : list hev) : list (list Z) :=
  match l with
  | [] => []
  | HPush m :: l => hsent l ++ [m]
  | HPushRet _ c :: l => if c =? 0 then hsent l else removelast (hsent l)
  | _ :: l => hsent l
  end.
(** messages whose push returned success *)
Fixpoint haccepted (l : list hev) : list (list Z) :=
  match l with
  | [] => []
  | HPushRet m c :: l => if c =? 0 then haccepted l ++ [m] else haccepted l
  | _ :: l => haccepted l
  end.
(** the blocks passed to the callback, in order *)
Fixpoint callbacks (l : list hev) : list (list Z) :=
  match l with
  | [] => []
  | HCb b :: l => callbacks l ++ [b]
  | _ :: l => callbacks l
  end.
(** something ended the handler: the callback returned nonzero, a malloc failed, or destroy was called *)
Definition ended (l : list hev) : Prop :=
  (exists r, In (HCbRet r) l /\ r <> 0) \/ In HOom l \/ In HDestroy l.

(** the block starts with the message *)
Definition begins (block m : list Z) : Prop := exists rest, block = m ++ rest.

(** the worker sleeps in sem_wait and nothing would wake it *)
Definition asleep (s : hst) : Prop := wk s = W66 /\ sem s = 0.

(** steps of the other threads: the pusher, the destroyer, and new calls *)
Inductive others : hst -> hst -> Prop :=
| OP s s' : pexec s = Ret (Some s') -> others s s'
| OD s s' : dexec s = Some s' -> others s s'
| OCall s m : pr s = HIdle -> ds s = DNone -> 0 < zlen m < two32 -> others s (set_pr (hemit s (HPush m)) (H145 m))
| ODestroy s : ds s = DNone -> pr s = HIdle -> others s (set_ds (hemit s HDestroy) D174).
(** [wrun n s s']: an execution from s to s' in which the worker takes n steps without calling the
    callback, while the other threads do whatever they like *)
Inductive wrun : nat -> hst -> hst -> Prop :=
| wrun_nil s : wrun 0 s s
| wrun_own n c s s' s'' : wexec c s = Ret (Some s') -> callbacks (hlog s') = callbacks (hlog s) -> wrun n s' s'' -> wrun (S n) s s''
| wrun_other n s s' s'' : others s s' -> wrun n s' s'' -> wrun n s s''.
