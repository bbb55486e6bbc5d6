(** Specification for C73: what the writer and the reader may rely on, on the log of calls and returns (newest first). *)
From Verif Require Import CBase RbMtModel.
Section One.
Variable one : Z.
(** bytes a call has handed over when it returned n; bytes it has taken *)
Definition wbytes (c : wcall) (n : Z) : list Z := match c with WWrite s _ => ztake n s | WPush s => if n =? 1 then ztake one s else [] | WSpace => [] end.
Definition rbytes (c : rcall) (n : Z) : Z := match c with RRead _ _ | RDiscard _ => n | RPop _ => if n =? 1 then one else 0 | RPeek _ _ | RAvail => 0 end.
(** all bytes whose write has returned, in order *)
Fixpoint wrote (l : list ev) : list Z := match l with [] => [] | EWRet c n :: l => wrote l ++ wbytes c n | _ :: l => wrote l end.
(** number of bytes taken by reads, discards and pops that have returned *)
Fixpoint taken (l : list ev) : Z := match l with [] => 0 | ERRet c n _ :: l => taken l + rbytes c n | _ :: l => taken l end.
(** the call each thread is in *)
Fixpoint wopen (l : list ev) : option wcall := match l with [] => None | EWCall c :: _ => Some c | EWRet _ _ :: _ => None | _ :: l => wopen l end.
Fixpoint ropen (l : list ev) : option rcall := match l with [] => None | ERCall c :: _ => Some c | ERRet _ _ _ :: _ => None | _ :: l => ropen l end.
(** ... and the log when it began *)
Fixpoint at_wcall (l : list ev) : list ev := match l with [] => [] | EWCall _ :: l => l | _ :: l => at_wcall l end.
Fixpoint at_rcall (l : list ev) : list ev := match l with [] => [] | ERCall _ :: l => l | _ :: l => at_rcall l end.
(** all bytes written, with those of the write in progress *)
Definition offered (l : list ev) : list Z := wrote l ++ match wopen l with Some c => ztake (wsize one c) (wsrc c) | None => [] end.
(** an upper bound of what has been taken: with the whole request of the call in progress *)
Definition taking (l : list ev) : Z := taken l + match ropen l with Some c => rsize one c | None => 0 end.

(** Every answer is the one a sequential ring of cap bytes would give at some moment during the call:
    for the writer, when k bytes had been taken; for the reader, when k bytes had been written *)
Definition event_ok (cap : Z) (e : ev) (l : list ev) : Prop :=
  match e with
  | EWCall _ | ERCall _ => True
  | EWRet c n =>
      wopen l = Some c /\
      exists k, taken (at_wcall l) <= k <= taking l /\
      let free := cap - (zlen (wrote l) - k) in
      0 <= free <= cap /\
      match c with
      | WWrite _ size => n = Z.min size free
      | WSpace => n = free
      | WPush _ => n = if one <=? free then 1 else 0
      end
  | ERRet c n t' =>
      ropen l = Some c /\
      exists k, zlen (wrote (at_rcall l)) <= k <= zlen (offered l) /\
      let stored := k - taken l in
      let next m := ztake m (zdrop (taken l) (offered l)) in
      0 <= stored <= cap /\
      match c with
      | RRead t size => n = Z.min size stored /\ t' = Some (next n ++ zdrop n t)
      | RPeek (Some t) size => n = Z.min size stored /\ t' = Some (next n ++ zdrop n t)
      | RPeek None size => n = Z.min size stored /\ t' = None
      | RDiscard size => n = Z.min size stored /\ t' = None
      | RAvail => n = stored /\ t' = None
      | RPop t => if one <=? stored then n = 1 /\ t' = Some (next one ++ zdrop one t) else n = 0 /\ t' = Some t
      end
  end.

(** the bytes the reader got, in order; None: thrown away by a discard *)
Definition gets (c : rcall) (n : Z) (t' : option (list Z)) : list (option Z) :=
  match c, t' with
  | RRead _ _, Some t => map Some (ztake n t)
  | RPop _, Some t => if n =? 1 then map Some (ztake one t) else []
  | RDiscard _, _ => repeat None (Z.to_nat n)
  | _, _ => []
  end.
Fixpoint got (l : list ev) : list (option Z) := match l with [] => [] | ERRet c n t :: l => got l ++ gets c n t | _ :: l => got l end.
(** the messages of a fixed_msg_queue: pushed (with the one being pushed), and popped *)
Definition msg (c : wcall) : list (list Z) := match c with WPush s => [ztake one s] | _ => [] end.
Fixpoint accepted (l : list ev) : list (list Z) := match l with [] => [] | EWRet c n :: l => accepted l ++ (if n =? 1 then msg c else []) | _ :: l => accepted l end.
Definition sent (l : list ev) : list (list Z) := accepted l ++ match wopen l with Some c => msg c | None => [] end.
Fixpoint popped (l : list ev) : list (list Z) :=
  match l with [] => [] | ERRet (RPop _) n (Some t) :: l => popped l ++ (if n =? 1 then [ztake one t] else []) | _ :: l => popped l end.
(** only the queue's own functions are used *)
Definition queue_only (l : list ev) : Prop :=
  Forall (fun e => match e with EWCall (WPush _) | EWRet (WPush _) _ | ERCall (RPop _) | ERRet (RPop _) _ _ => True | _ => False end) l.
Definition prefix {A} (a b : list A) : Prop := exists c, b = a ++ c.

(** an execution in which the writer (the reader) takes n steps of one and the same call, while the other thread does whatever it likes *)
Inductive wrun : nat -> st -> st -> Prop :=
| wrun_nil s : wrun 0 s s
| wrun_own n s s' s'' : wp s <> WIdle -> wstep one s = Ret s' -> wrun n s' s'' -> wrun (S n) s s''
| wrun_other n s s' s'' : step one s s' -> wp s' = wp s -> wrun n s' s'' -> wrun n s s''.
Inductive rrun : nat -> st -> st -> Prop :=
| rrun_nil s : rrun 0 s s
| rrun_own n s s' s'' : rp s <> RIdle -> rstep one s = Ret s' -> rrun n s' s'' -> rrun (S n) s s''
| rrun_other n s s' s'' : step one s s' -> rp s' = rp s -> rrun n s' s'' -> rrun n s s''.
End One.
(** an empty RingBuffer: capacity a power of two, the counters at any value (so that they wrap sooner or later) *)
From Verif Require Import RingBuffer2Model.
Definition ring (h : rb Z) : Prop :=
  (exists j, 1 <= j <= 31 /\ rb_size h = 2 ^ j) /\ rb_size h <= zlen (rb_buf h) /\ 0 <= rb_in h < 2 ^ 32 /\ rb_out h = rb_in h.
(** what the reader got agrees with the bytes b *)
Definition agree (g : list (option Z)) (b : list Z) : Prop := Forall2 (fun o x => o = None \/ o = Some x) g b.
