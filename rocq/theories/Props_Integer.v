(** C18: src/data/integer.c *)
From Verif Require Import CBase IntegerModel IntegerSpec IntegerProof.

(** The test is exact for every uint32_t value except 1 = 2^0, which it rejects. *)
Theorem C18_is_power_of_two :
  forall i, 0 <= i < 2 ^ 32 -> integer_is_power_of_two i = true <-> (power_of_two i /\ i <> 1).
Proof. exact int_is_pow2_spec. Qed.
Print Assumptions C18_is_power_of_two.

(** Rounding up gives the least power of two not below i, for every i that has one in 32 bits
    (2 <= i <= 2^31); the documented values at 0 and 1; and 0 for all larger values. *)
Theorem C18_roundup_pow_of_two :
  (forall i, 2 <= i <= 2 ^ 31 -> least_pow2_above i (integer_roundup_pow_of_two i)) /\
  integer_roundup_pow_of_two 0 = 0 /\ integer_roundup_pow_of_two 1 = 2 /\
  (forall i, 2 ^ 31 < i < 2 ^ 32 -> integer_roundup_pow_of_two i = 0).
Proof. exact (conj roundup_lemma roundup_edges). Qed.
Print Assumptions C18_roundup_pow_of_two.

Theorem C18_rounddown_pow_of_two :
  (forall i, 2 <= i <= 2 ^ 31 -> greatest_pow2_below i (integer_rounddown_pow_of_two i)) /\
  integer_rounddown_pow_of_two 0 = 0 /\ integer_rounddown_pow_of_two 1 = 0.
Proof. exact (conj rounddown_lemma (conj (proj1 rounddown_edges) (proj1 (proj2 rounddown_edges)))). Qed.
Print Assumptions C18_rounddown_pow_of_two.

(** For i above 2^31 the greatest power of two below is 2^31, but the code returns 0. *)
Theorem C18_rounddown_large_refuted :
  forall i, 2 ^ 31 < i < 2 ^ 32 ->
    greatest_pow2_below i (2 ^ 31) /\ integer_rounddown_pow_of_two i = 0.
Proof. exact (proj2 (proj2 rounddown_edges)). Qed.
Print Assumptions C18_rounddown_large_refuted.

Example C18_case : integer_roundup_pow_of_two 1000 = 1024 /\ integer_rounddown_pow_of_two 1000 = 512
  /\ integer_rounddown_pow_of_two 3000000000 = 0 /\ 2 <= 1000 <= 2^31.
Proof. vm_compute. repeat split; congruence. Qed.
