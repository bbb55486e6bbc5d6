(** Specification for C80: what the two threads may rely on when stores reach memory late. The words wrote, taken, offered, taking, got, agree, prefix,
    popped, sent, queue_only and ring are those of RbMtSpec. *)
From Verif Require Import CBase RbMtModel RbMtSpec RbTsoModel.
Definition plain (l : list tev) : list ev := flat_map (fun e => match e with E e => [e] | WSync | RSync => [] end) l.
(** the log when the call in progress began; the log at the newest barrier *)
Fixpoint wcall_at (l : list tev) : list tev := match l with [] => [] | E (EWCall _) :: l => l | _ :: l => wcall_at l end.
Fixpoint rcall_at (l : list tev) : list tev := match l with [] => [] | E (ERCall _) :: l => l | _ :: l => rcall_at l end.
Fixpoint wsync_at (l : list tev) : list tev := match l with [] => [] | WSync :: l => l | _ :: l => wsync_at l end.
Fixpoint rsync_at (l : list tev) : list tev := match l with [] => [] | RSync :: l => l | _ :: l => rsync_at l end.
Section One.
Variable one : Z.
(** Every answer is the one a sequential ring of cap bytes would give: for the writer, when k bytes had been taken - no fewer than those
    of the reads before the reader's last barrier before this call, no more than with the read in progress; for the reader, when k bytes had been
    written - no fewer than those written before the writer's last barrier before this call, no more than with the write in progress *)
Definition tev_ok (cap : Z) (e : tev) (l : list tev) : Prop :=
  match e with
  | E (EWRet c n) =>
      wopen (plain l) = Some c /\
      exists k, taken one (plain (rsync_at (wcall_at l))) <= k <= taking one (plain l) /\
      let free := cap - (zlen (wrote one (plain l)) - k) in
      0 <= free <= cap /\
      match c with
      | WWrite _ size => n = Z.min size free
      | WSpace => n = free
      | WPush _ => n = if one <=? free then 1 else 0
      end
  | E (ERRet c n t') =>
      ropen (plain l) = Some c /\
      exists k, zlen (wrote one (plain (wsync_at (rcall_at l)))) <= k <= zlen (offered one (plain l)) /\
      let stored := k - taken one (plain l) in
      let next m := ztake m (zdrop (taken one (plain l)) (offered one (plain l))) in
      0 <= stored <= cap /\
      match c with
      | RRead t size => n = Z.min size stored /\ t' = Some (next n ++ zdrop n t)
      | RPeek (Some t) size => n = Z.min size stored /\ t' = Some (next n ++ zdrop n t)
      | RPeek None size => n = Z.min size stored /\ t' = None
      | RDiscard size => n = Z.min size stored /\ t' = None
      | RAvail => n = stored /\ t' = None
      | RPop t => if one <=? stored then n = 1 /\ t' = Some (next one ++ zdrop one t) else n = 0 /\ t' = Some t
      end
  | _ => True
  end.
(** runs in which one thread takes n steps of one call while everything else goes on *)
Inductive twrun (o : bool) : nat -> tst -> tst -> Prop :=
| twrun_nil s : twrun o 0 s s
| twrun_own n s s' s'' : t_wp s <> WIdle -> twstep one s = Ret s' -> twrun o n s' s'' -> twrun o (S n) s s''
| twrun_other n s s' s'' : tstep one o s s' -> t_wp s' = t_wp s -> twrun o n s' s'' -> twrun o n s s''.
Inductive trrun (o : bool) : nat -> tst -> tst -> Prop :=
| trrun_nil s : trrun o 0 s s
| trrun_own n s s' s'' : t_rp s <> RIdle -> trstep one s = Ret s' -> trrun o n s' s'' -> trrun o (S n) s s''
| trrun_other n s s' s'' : tstep one o s s' -> t_rp s' = t_rp s -> trrun o n s' s'' -> trrun o n s s''.
End One.
