(** What one producer and one consumer may rely on, as a predicate on the log of calls and returns
    (newest event first). *)
From Verif Require Import CBase SpscModel.

(** messages of the push calls so far, in call order, without those answered "full" *)
Fixpoint sent (l : list ev) : list (list Z) :=
  match l with
  | [] => []
  | EPush m :: l => sent l ++ [m]
  | EPushRet _ c :: l => if c =? 0 then sent l else removelast (sent l)
  | _ :: l => sent l
  end.
(** messages whose push has returned success *)
Fixpoint accepted (l : list ev) : list (list Z) :=
  match l with
  | [] => []
  | EPushRet m c :: l => if c =? 0 then accepted l ++ [m] else accepted l
  | _ :: l => accepted l
  end.
(** successful pops so far, in order: the caller's block before and after, and its size *)
Fixpoint pops (l : list ev) : list (list Z * list Z * Z) :=
  match l with
  | [] => []
  | EPopRet t cap c t' _ :: l => if c =? 0 then pops l ++ [(t, t', cap)] else pops l
  | _ :: l => pops l
  end.
(** the log as it was when the consumer's (producer's) latest call was made *)
Fixpoint at_ccall (l : list ev) : list ev :=
  match l with
  | [] => []
  | EPop _ _ :: l | ENext :: l => l
  | _ :: l => at_ccall l
  end.
Fixpoint at_pcall (l : list ev) : list ev :=
  match l with
  | [] => []
  | EPush _ :: l => l
  | _ :: l => at_pcall l
  end.

(** bytes a list of messages occupies: each its length + 4 *)
Fixpoint occupied (q : list (list Z)) : Z :=
  match q with [] => 0 | m :: r => 4 + zlen m + occupied r end.

(** the messages that were certainly in the queue when the producer's latest call was made *)
Definition waiting (l : list ev) : list (list Z) := skipn (length (pops l)) (accepted l).

(** the message a consumer call must deal with: the first one sent and not popped yet *)
Definition next_msg (l : list ev) (m : list Z) : Prop := nth_error (sent l) (length (pops l)) = Some m.
(** every message whose push had returned before the consumer's latest call has been popped *)
Definition nothing_missed (l : list ev) : Prop :=
  (length (accepted (at_ccall l)) <= length (pops l))%nat.

(** codes: 0 success, 4 empty, 5 full, 6 buffer too small *)
Definition event_ok (capacity : Z) (e : ev) (l : list ev) : Prop :=
  match e with
  | EPush _ | EPop _ _ | ENext => True
  | EPushRet m c =>
      c = 0 \/
      c = 5 /\ capacity < occupied (waiting (at_pcall l)) + 4 + zlen m
  | EPopRet t cap c t' sz' =>
      (c = 0 /\ sz' = cap /\ exists m, next_msg l m /\ zlen m <= cap /\ t' = m ++ zdrop (zlen m) t) \/
      (c = 4 /\ sz' = cap /\ t' = t /\ nothing_missed l) \/
      (c = 6 /\ t' = t /\ exists m, next_msg l m /\ cap < zlen m /\ sz' = zlen m)
  | ENextRet n =>
      (n = 0 /\ nothing_missed l) \/ exists m, next_msg l m /\ n = zlen m
  end.

(** block [t] with message [m] stored at its beginning gives [t'] *)
Definition stored (p : list Z * list Z * Z) (m : list Z) : Prop :=
  let '(t, t', cap) := p in zlen m <= cap /\ t' = m ++ zdrop (zlen m) t.

Definition prefix {A} (a b : list A) : Prop := exists c, b = a ++ c.

(** [prun n s s'], [crun n s s']: an execution from s to s' in which the producer (resp. the consumer) takes
    n steps of one and the same call, while the other thread may do whatever it likes *)
Inductive prun : nat -> st -> st -> Prop :=
| prun_nil s : prun 0 s s
| prun_own n s s' s'' : pp s <> PIdle -> pstep s = Ret s' -> prun n s' s'' -> prun (S n) s s''
| prun_other n s s' s'' : step s s' -> pp s' = pp s -> prun n s' s'' -> prun n s s''.
Inductive crun : nat -> st -> st -> Prop :=
| crun_nil s : crun 0 s s
| crun_own n s s' s'' : cp s <> CIdle -> cstep s = Ret s' -> crun n s' s'' -> crun (S n) s s''
| crun_other n s s' s'' : step s s' -> cp s' = cp s -> crun n s' s'' -> crun n s s''.
