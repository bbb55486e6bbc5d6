(** Specification for C81: what one producer and one consumer of a msg_queue may rely on when stores reach memory late. The words sent, accepted, pops,
    occupied, next_msg, stored and prefix are those of SpscSpec. *)
From Verif Require Import CBase SpscModel SpscSpec MqTsoModel.
Definition plain (l : list tev) : list ev := flat_map (fun e => match e with E e => [e] | WSync | RSync => [] end) l.
(** the log when the call in progress began; the log at the newest barrier *)
Fixpoint pcall_at (l : list tev) : list tev := match l with [] => [] | E (EPush _) :: l => l | _ :: l => pcall_at l end.
Fixpoint ccall_at (l : list tev) : list tev := match l with [] => [] | E (EPop _ _) :: l | E ENext :: l => l | _ :: l => ccall_at l end.
Fixpoint wsync_at (l : list tev) : list tev := match l with [] => [] | WSync :: l => l | _ :: l => wsync_at l end.
Fixpoint rsync_at (l : list tev) : list tev := match l with [] => [] | RSync :: l => l | _ :: l => rsync_at l end.
(** everything pushed before the producer's last barrier before this call of the consumer has been popped *)
Definition none_missed (l : list tev) : Prop := (length (accepted (plain (wsync_at (ccall_at l)))) <= length (pops (plain l)))%nat.
(** the messages in the queue when the producer's call began, not counting as popped what was popped after the consumer's last barrier *)
Definition maybe_waiting (l : list tev) : list (list Z) := skipn (length (pops (plain (rsync_at (pcall_at l))))) (accepted (plain (pcall_at l))).
(** codes: 0 success, 4 empty, 5 full, 6 buffer too small *)
Definition tev_ok (capacity : Z) (e : tev) (l : list tev) : Prop :=
  match e with
  | E (EPushRet m c) => c = 0 \/ c = 5 /\ capacity < occupied (maybe_waiting l) + 4 + zlen m
  | E (EPopRet t cap c t' sz') =>
      (c = 0 /\ sz' = cap /\ exists m, next_msg (plain l) m /\ zlen m <= cap /\ t' = m ++ zdrop (zlen m) t) \/
      (c = 4 /\ sz' = cap /\ t' = t /\ none_missed l) \/
      (c = 6 /\ t' = t /\ exists m, next_msg (plain l) m /\ cap < zlen m /\ sz' = zlen m)
  | E (ENextRet n) => (n = 0 /\ none_missed l) \/ exists m, next_msg (plain l) m /\ n = zlen m
  | _ => True
  end.
(** runs in which one thread takes n steps of one call while everything else goes on *)
Inductive tprun (o : bool) : nat -> tst -> tst -> Prop :=
| tprun_nil s : tprun o 0 s s
| tprun_own n s s' s'' : t_pp s <> PIdle -> tpstep s = Ret s' -> tprun o n s' s'' -> tprun o (S n) s s''
| tprun_other n s s' s'' : tstep o s s' -> t_pp s' = t_pp s -> tprun o n s' s'' -> tprun o n s s''.
Inductive tcrun (o : bool) : nat -> tst -> tst -> Prop :=
| tcrun_nil s : tcrun o 0 s s
| tcrun_own n s s' s'' : t_cp s <> CIdle -> tcstep s = Ret s' -> tcrun o n s' s'' -> tcrun o (S n) s s''
| tcrun_other n s s' s'' : tstep o s s' -> t_cp s' = t_cp s -> tcrun o n s' s'' -> tcrun o n s s''.
