(** Specification of RingBuffer: a FIFO of capacity [cap] with partial transfers. *)
From Verif Require Import CBase RingBuffer2Model.

Section Spec.
Context {A : Type}.
Definition lay (d t : list A) : list A := d ++ zdrop (zlen d) t.

Definition fifo_step (cap : Z) (q : list A) (o : rbop A) : list A * rbobs A :=
  match o with
  | BWrite None n => (q, (0, None))
  | BWrite (Some s) n => let k := Z.min n (cap - zlen q) in (q ++ ztake k s, (k, None))
  | BRead None n => (q, (0, None))
  | BRead (Some t) n => let k := Z.min n (zlen q) in (zdrop k q, (k, Some (lay (ztake k q) t)))
  | BPeek t n => let k := Z.min n (zlen q) in (q, (k, option_map (lay (ztake k q)) t))
  | BDiscard n => let k := Z.min n (zlen q) in (zdrop k q, (k, None))
  | BClear => ([], (0, None))
  | BAvailRead => (q, (zlen q, None))
  | BAvailWrite => (q, (cap - zlen q, None))
  | BIsEmpty => (q, (if zlen q =? 0 then 1 else 0, None))
  | BIsFull => (q, (if zlen q =? cap then 1 else 0, None))
  | BCapacity => (q, (cap, None))
  end.

Fixpoint fifo_run (cap : Z) (q : list A) (ops : list (rbop A)) : list A * list (rbobs A) :=
  match ops with
  | [] => (q, [])
  | o :: rest =>
      let r := fifo_step cap q o in
      let r2 := fifo_run cap (fst r) rest in
      (fst r2, snd r :: snd r2)
  end.

(** sizes are uint32_t and the caller's blocks are as long as claimed *)
Definition rb_valid_op (o : rbop A) : Prop :=
  match o with
  | BWrite s n => 0 <= n < two32 /\ match s with None => True | Some b => n <= zlen b end
  | BRead t n | BPeek t n => 0 <= n < two32 /\ match t with None => True | Some b => n <= zlen b end
  | BDiscard n => 0 <= n < two32
  | _ => True
  end.
End Spec.
