(** Specification for C78: what the writer and the reader of a ring_buf may rely on, on the log of calls and returns (newest first). *)
From Verif Require Import CBase RingBufModel RgMtModel.
(** all bytes whose write has returned, in order *)
Definition wbytes (c : wcall) (n : Z) : list Z := match c with WWrite s _ => ztake n s | WSpace => [] end.
Fixpoint wrote (l : list ev) : list Z := match l with [] => [] | EWRet c n :: l => wrote l ++ wbytes c n | _ :: l => wrote l end.
(** number of bytes taken by reads and discards that have returned *)
Definition rbytes (c : rcall) (n : Z) : Z := match c with RRead _ _ | RDiscard _ => n | RPeek _ _ | RAvail => 0 end.
Fixpoint taken (l : list ev) : Z := match l with [] => 0 | ERRet c n _ :: l => taken l + rbytes c n | _ :: l => taken l end.
(** the call each thread is in, and the log when it began *)
Fixpoint wopen (l : list ev) : option wcall := match l with [] => None | EWCall c :: _ => Some c | EWRet _ _ :: _ => None | _ :: l => wopen l end.
Fixpoint ropen (l : list ev) : option rcall := match l with [] => None | ERCall c :: _ => Some c | ERRet _ _ _ :: _ => None | _ :: l => ropen l end.
Fixpoint at_wcall (l : list ev) : list ev := match l with [] => [] | EWCall _ :: l => l | _ :: l => at_wcall l end.
Fixpoint at_rcall (l : list ev) : list ev := match l with [] => [] | ERCall _ :: l => l | _ :: l => at_rcall l end.
(** all bytes written, with those of the write in progress *)
Definition offered (l : list ev) : list Z := wrote l ++ match wopen l with Some c => ztake (wlen c) (wsrc c) | None => [] end.
(** an upper bound of what has been taken: with the whole request of the call in progress *)
Definition taking (l : list ev) : Z := taken l + match ropen l with Some c => rlen c | None => 0 end.
(** all or nothing *)
Definition granted (len room : Z) : Z := if (1 <=? len) && (len <=? room) then len else 0.
(** Every answer is the one a sequential ring of cap bytes would give at some moment during the call:
    for the writer, when k bytes had been taken; for the reader, when k bytes had been written *)
Definition event_ok (cap : Z) (e : ev) (l : list ev) : Prop :=
  match e with
  | EWCall _ | ERCall _ => True
  | EWRet c n =>
      wopen l = Some c /\
      exists k, taken (at_wcall l) <= k <= taking l /\
      let free := cap - (zlen (wrote l) - k) in
      0 <= free <= cap /\ n = match c with WWrite _ len => granted len free | WSpace => free end
  | ERRet c n t' =>
      ropen l = Some c /\
      exists k, zlen (wrote (at_rcall l)) <= k <= zlen (offered l) /\
      let stored := k - taken l in
      0 <= stored <= cap /\ n = match c with RRead _ len | RPeek _ len | RDiscard len => granted len stored | RAvail => stored end /\
      t' = match rtgt c with Some t => Some (ztake n (zdrop (taken l) (offered l)) ++ zdrop n t) | None => None end
  end.
(** the bytes the reader got, in order; None: thrown away *)
Definition gets (c : rcall) (n : Z) (t' : option (list Z)) : list (option Z) :=
  match c, t' with
  | RRead _ _, Some t => map Some (ztake n t)
  | RRead _ _, None | RDiscard _, _ => repeat None (Z.to_nat n)
  | _, _ => []
  end.
Fixpoint got (l : list ev) : list (option Z) := match l with [] => [] | ERRet c n t :: l => got l ++ gets c n t | _ :: l => got l end.
Definition prefix {A} (a b : list A) : Prop := exists c, b = a ++ c.
(** what the reader got agrees with the bytes b *)
Definition agree (g : list (option Z)) (b : list Z) : Prop := Forall2 (fun o x => o = None \/ o = Some x) g b.
(** an execution in which the writer (the reader) takes n steps of one and the same call, while the other thread does whatever it likes *)
Inductive wrun : nat -> st -> st -> Prop :=
| wrun_nil s : wrun 0 s s
| wrun_own n s s' s'' : wp s <> WIdle -> wstep s = Ret s' -> wrun n s' s'' -> wrun (S n) s s''
| wrun_other n s s' s'' : step s s' -> wp s' = wp s -> wrun n s' s'' -> wrun n s s''.
Inductive rrun : nat -> st -> st -> Prop :=
| rrun_nil s : rrun 0 s s
| rrun_own n s s' s'' : rp s <> RIdle -> rstep s = Ret s' -> rrun n s' s'' -> rrun (S n) s s''
| rrun_other n s s' s'' : step s s' -> rp s' = rp s -> rrun n s' s'' -> rrun n s s''.
(** an empty ring_buf, its offsets anywhere *)
Definition empty_ring (h : @ring Z) : Prop := 3 <= rg_size h < 2 ^ 63 /\ rg_size h <= zlen (rg_mem h) /\ 0 <= rg_w h < rg_size h /\ rg_r h = rg_w h.
