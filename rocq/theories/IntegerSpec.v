(** Specification for C18: powers of two and bounds among them. *)
From Verif Require Import CBase.

Definition power_of_two (p : Z) : Prop := exists k, 0 <= k /\ p = 2 ^ k.
Definition least_pow2_above (i p : Z) : Prop :=
  power_of_two p /\ i <= p /\ forall q, power_of_two q -> i <= q -> p <= q.
Definition greatest_pow2_below (i p : Z) : Prop :=
  power_of_two p /\ p <= i /\ forall q, power_of_two q -> q <= i -> q <= p.
