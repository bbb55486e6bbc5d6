(** Specification of ring_buf independent of the implementation: a bounded, all-or-nothing FIFO. *)
From Verif Require Import CBase RingBufModel.

Section Spec.
Context {A : Type}.

(** A queue is the list of stored elements, oldest first; [cap] is its capacity. *)
Definition overlay (d t : list A) : list A := d ++ zdrop (zlen d) t.

Definition spec_step (cap : Z) (q : list A) (o : op A) : list A * obs A :=
  match o with
  | OWrite src len =>
      if (0 <? len) && (len <=? cap - zlen q) then (q ++ ztake len src, (len, None)) else (q, (0, None))
  | ORead t len =>
      if (0 <? len) && (len <=? zlen q)
      then (zdrop len q, (len, option_map (overlay (ztake len q)) t)) else (q, (0, t))
  | OPeek t len =>
      if (0 <? len) && (len <=? zlen q)
      then (q, (len, option_map (overlay (ztake len q)) t)) else (q, (0, t))
  | ODiscard len =>
      if (0 <? len) && (len <=? zlen q) then (zdrop len q, (len, None)) else (q, (0, None))
  | OClear => ([], (0, None))
  | OAvailRead => (q, (zlen q, None))
  | OAvailWrite => (q, (cap - zlen q, None))
  end.

Fixpoint spec_run (cap : Z) (q : list A) (ops : list (op A)) : list A * list (obs A) :=
  match ops with
  | [] => (q, [])
  | o :: rest =>
      let r := spec_step cap q o in
      let r2 := spec_run cap (fst r) rest in
      (fst r2, snd r :: snd r2)
  end.

(** What the API asks of its caller: lengths are size_t values and blocks are as long as claimed. *)
Definition valid_op (o : op A) : Prop :=
  match o with
  | OWrite src len => 0 <= len < two64 /\ len <= zlen src
  | ORead t len | OPeek t len =>
      0 <= len < two64 /\ match t with None => True | Some b => len <= zlen b end
  | ODiscard len => 0 <= len < two64
  | _ => True
  end.
End Spec.
