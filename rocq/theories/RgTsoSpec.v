(** Specification for C79: what the two threads may rely on when stores reach memory late. The words wrote, taken, offered, taking, granted, got,
    agree, prefix and empty_ring are those of RgMtSpec. *)
From Verif Require Import CBase RingBufModel RgMtModel RgMtSpec RgTsoModel.
Definition plain (l : list tev) : list ev := flat_map (fun e => match e with E e => [e] | WSync | RSync => [] end) l.
(** the log when the call in progress began; the log at the newest barrier *)
Fixpoint wcall_at (l : list tev) : list tev := match l with [] => [] | E (EWCall _) :: l => l | _ :: l => wcall_at l end.
Fixpoint rcall_at (l : list tev) : list tev := match l with [] => [] | E (ERCall _) :: l => l | _ :: l => rcall_at l end.
Fixpoint wsync_at (l : list tev) : list tev := match l with [] => [] | WSync :: l => l | _ :: l => wsync_at l end.
Fixpoint rsync_at (l : list tev) : list tev := match l with [] => [] | RSync :: l => l | _ :: l => rsync_at l end.
(** Every answer is the one a sequential ring of cap bytes would give: for the writer, when k bytes had been taken - no fewer than those
    of the reads before the reader's last barrier before this call, no more than with the read in progress; for the reader, when k bytes had been
    written - no fewer than those written before the writer's last barrier before this call, no more than with the write in progress *)
Definition tev_ok (cap : Z) (e : tev) (l : list tev) : Prop :=
  match e with
  | E (EWRet c n) =>
      wopen (plain l) = Some c /\
      exists k, taken (plain (rsync_at (wcall_at l))) <= k <= taking (plain l) /\
      let free := cap - (zlen (wrote (plain l)) - k) in
      0 <= free <= cap /\ n = match c with WWrite _ len => granted len free | WSpace => free end
  | E (ERRet c n t') =>
      ropen (plain l) = Some c /\
      exists k, zlen (wrote (plain (wsync_at (rcall_at l)))) <= k <= zlen (offered (plain l)) /\
      let stored := k - taken (plain l) in
      0 <= stored <= cap /\ n = match c with RRead _ len | RPeek _ len | RDiscard len => granted len stored | RAvail => stored end /\
      t' = match rtgt c with Some t => Some (ztake n (zdrop (taken (plain l)) (offered (plain l))) ++ zdrop n t) | None => None end
  | _ => True
  end.
(** runs in which one thread takes n steps of one call while everything else goes on *)
Inductive twrun (o : bool) : nat -> tst -> tst -> Prop :=
| twrun_nil s : twrun o 0 s s
| twrun_own n s s' s'' : t_wp s <> WIdle -> twstep s = Ret s' -> twrun o n s' s'' -> twrun o (S n) s s''
| twrun_other n s s' s'' : tstep o s s' -> t_wp s' = t_wp s -> twrun o n s' s'' -> twrun o n s s''.
Inductive trrun (o : bool) : nat -> tst -> tst -> Prop :=
| trrun_nil s : trrun o 0 s s
| trrun_own n s s' s'' : t_rp s <> RIdle -> trstep s = Ret s' -> trrun o n s' s'' -> trrun o (S n) s s''
| trrun_other n s s' s'' : tstep o s s' -> t_rp s' = t_rp s -> trrun o n s' s'' -> trrun o n s s''.
