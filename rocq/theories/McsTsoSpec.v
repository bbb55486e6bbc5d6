(** Specification for C84; holds_lock, arrived, got, inq and left_steps are those of McsSpec. *)
From Verif Require Import CBase McsModel McsSpec McsTsoModel.
(** as McsSpec.calm: CreateEvent never fails, and a node is used again only when no thread is about to touch it *)
Definition tmcalm (m : tm) (a : tmact) : Prop :=
  match a with TMAcquire _ n | TMTry _ n => quiet (mk m) n | TMStep _ ok => ok = true | _ => True end.
(** the value last written to a data word, whoever wrote it *)
Fixpoint latest (d0 : Z -> Z) (a : Z) (l : list dev) : Z :=
  match l with [] => d0 a | DW _ a' v :: l => if a' =? a then v else latest d0 a l | _ :: l => latest d0 a l end.
(** no store to the data is on its way from this thread *)
Definition published (m : tm) (t : Z) : Prop := forall a v, ~ In (LD a v) (mb m t).
