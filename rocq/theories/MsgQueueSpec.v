(** Specification of msg_queue: a FIFO of messages; each message occupies its length + 4. *)
From Verif Require Import CBase MsgQueueModel.

Fixpoint used (q : list (list Z)) : Z :=
  match q with [] => 0 | m :: r => 4 + zlen m + used r end.

Definition fill (d t : list Z) : list Z := d ++ zdrop (zlen d) t.

(** codes: 0 success, 2 null, 4 empty, 5 full, 6 buffer too small *)
Definition mq_spec_step (cap : Z) (q : list (list Z)) (o : mqop) : list (list Z) * mqobs :=
  match o with
  | MPush None _ => (q, (2, None, None))
  | MPush (Some m) n =>
      if n =? 0 then (q, (2, None, None))
      else if 4 + n <=? cap - used q then (q ++ [ztake n m], (0, None, None))
      else (q, (5, None, None))
  | MPop (Some t) (Some sz) =>
      match q with
      | [] => (q, (4, Some t, Some sz))
      | m :: r => if zlen m <=? sz then (r, (0, Some (fill m t), Some sz))
                  else (q, (6, Some t, Some (zlen m)))
      end
  | MPop t s => (q, (2, t, s))
  | MNext => (q, (match q with [] => 0 | m :: _ => zlen m end, None, None))
  | MClear => ([], (0, None, None))
  | MPopBytes => (q, (used q, None, None))
  | MPushBytes => (q, (cap - used q, None, None))
  end.

Fixpoint mq_spec_run (cap : Z) (q : list (list Z)) (ops : list mqop) : list (list Z) * list mqobs :=
  match ops with
  | [] => (q, [])
  | o :: rest =>
      let r := mq_spec_step cap q o in
      let r2 := mq_spec_run cap (fst r) rest in
      (fst r2, snd r :: snd r2)
  end.

(** caller obligations: sizes are uint32_t, blocks at least as long as claimed *)
Definition mq_valid_op (o : mqop) : Prop :=
  match o with
  | MPush m n => 0 <= n < two32 /\ match m with None => True | Some b => n <= zlen b end
  | MPop t s => match s with None => True | Some sz => 0 <= sz < two32 /\
                  match t with None => True | Some b => sz <= zlen b end end
  | _ => True
  end.
