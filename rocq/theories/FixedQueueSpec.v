(** Specification of fixed_msg_queue: a FIFO of at most [cap] messages of [one] cells each. *)
From Verif Require Import CBase FixedQueueModel.
Section Spec.
Context {A : Type}.
Definition fq_spec_step (one cap : Z) (q : list (list A)) (o : fqop A) : list (list A) * fqobs A :=
  match o with
  | FPush None => (q, (0, None))
  | FPush (Some m) => if zlen q <? cap then (q ++ [ztake one m], (1, None)) else (q, (0, None))
  | FPop None => (q, (0, None))
  | FPop (Some t) => match q with
                     | [] => (q, (0, Some t))
                     | m :: r => (r, (1, Some (m ++ zdrop one t)))
                     end
  | FClear => ([], (0, None))
  | FPopAmount => (q, (zlen q, None))
  | FPushAmount => (q, (cap - zlen q, None))
  | FIsEmpty => (q, (if zlen q =? 0 then 1 else 0, None))
  | FIsFull => (q, (if zlen q =? cap then 1 else 0, None))
  end.
Fixpoint fq_spec_run (one cap : Z) (q : list (list A)) (ops : list (fqop A)) : list (list A) * list (fqobs A) :=
  match ops with
  | [] => (q, [])
  | o :: rest => let r := fq_spec_step one cap q o in
                 let r2 := fq_spec_run one cap (fst r) rest in (fst r2, snd r :: snd r2)
  end.
(** the caller's message and target blocks hold at least one message *)
Definition fq_valid_op (one : Z) (o : fqop A) : Prop :=
  match o with FPush (Some m) => one <= zlen m | FPop (Some t) => one <= zlen t | _ => True end.
End Spec.
