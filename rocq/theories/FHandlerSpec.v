(** What users of a fixed message queue handler see (log: newest event first). *)
From Verif Require Import CBase FHandlerModel.

(** messages of the push calls so far that were not refused (one still in progress included) *)
Fixpoint ksent (l : list kev) : list (list Z) :=
  match l with
  | [] => []
  | KPush m :: l => ksent l ++ [m]
  | KPushRet _ c :: l => if c =? 0 then ksent l else removelast (ksent l)
  | _ :: l => ksent l
  end.
(** messages whose push returned success *)
Fixpoint kaccepted (l : list kev) : list (list Z) :=
  match l with
  | [] => []
  | KPushRet m c :: l => if c =? 0 then kaccepted l ++ [m] else kaccepted l
  | _ :: l => kaccepted l
  end.
(** how many messages had been accepted when clear was last called (0: never) *)
Fixpoint cleared (l : list kev) : Z :=
  match l with
  | [] => 0
  | KClear :: l => zlen (kaccepted l)
  | _ :: l => cleared l
  end.
Definition kended (l : list kev) : Prop := (exists r, In (KCbRet r) l /\ r <> 0) \/ In KDestroy l.
(** the worker sleeps in sem_wait and nothing would wake it *)
Definition fasleep (s : fh) : Prop := fwk s = V49 /\ fsem s = 0.

(** [vrun one n s s']: an execution from s to s' in which the worker takes n steps, none of them a sem_wait,
    while the other threads do whatever they like *)
Inductive vrun (one : Z) : nat -> fh -> fh -> Prop :=
| vrun_nil s : vrun one 0 s s
| vrun_own n r s s' s'' : fwk s <> V49 -> fwexec one r s = Ret (Some s') -> vrun one n s' s'' -> vrun one (S n) s s''
| vrun_other n s s' s'' : fhstep one s s' -> fwk s' = fwk s -> vrun one n s' s'' -> vrun one n s s''.
