(** Specification for C76: the number of a format that is nearest to a rational. *)
From Coq Require Import QArith Qabs.
From Verif Require Import CBase FloatModel FloatSpec.
Definition nearest_of (format : fl -> Prop) (q : Q) (x : fl) : Prop :=
  (exists y, format y /\ neg y = neg x /\ mag y == mag x)%Q /\ forall y, format y -> (Qabs (mag x - q) <= Qabs (mag y - q))%Q.
