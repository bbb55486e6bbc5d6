(** C10: src/data/array.c *)
From Verif Require Import CBase StringBuilderModel StringBuilderSpec ArrayModel ArraySpec ArrayProof.

(** C10: for every element size, initial capacity, history of appends and pattern of allocation failures,
    the array shows exactly the elements whose append returned true, in order, and nothing is accessed
    outside its blocks. Hypothesis: the initial size does not exceed the address space (see refuted). *)
Theorem C10_array_is_sequence :
  forall (al0 : allocator) (es cap : Z) (h : list (allocator * ar_op)),
  sane al0 -> 1 <= es -> 0 <= cap -> 32 + es * Z.max 4 cap < two64 ->
  Forall (fun x => sane (fst x) /\ ar_valid es (snd x)) h ->
  array_new_with al0 es cap = None \/
  exists a a' oks, array_new_with al0 es cap = Some a /\ ar_run a h = Ret (a', oks) /\ length oks = length h /\
    shows a' (accepted es h oks).
Proof. exact array_lemma. Qed.
Print Assumptions C10_array_is_sequence.

(** C10: an append fails only when the allocator refuses less than twice the current size. *)
Theorem C10_append_fails_only_without_memory :
  forall (al0 : allocator) (es cap : Z) (h : list (allocator * ar_op)) (al : allocator) (o : ar_op) (a a1 : array) (oks : list bool),
  sane al0 -> 1 <= es -> 0 <= cap -> 32 + es * Z.max 4 cap < two64 ->
  Forall (fun x => sane (fst x) /\ ar_valid es (snd x)) h -> sane al -> ar_valid es o ->
  array_new_with al0 es cap = Some a -> ar_run a h = Ret (a1, oks) ->
  serves al (2 * es * array_length a1) -> exists a2, ar_step al a1 o = Ret (a2, true).
Proof. exact append_fails_only. Qed.
Print Assumptions C10_append_fails_only_without_memory.

(** C10: an index outside the array is caught by the assertion (debug build). *)
Theorem C10_index_checked : forall (a : array) (i : Z), array_length a <= i -> array_read a i = Abrt.
Proof. exact at_out_of_range. Qed.
Print Assumptions C10_index_checked.

(** Refutes C10 without the size hypothesis: element size 2^60, default capacity: creation succeeds with no
    room at all and the first append writes outside. *)
Theorem C10_size_overflow_refuted :
  forall (al : allocator) (es : Z) (src : list Z), sane al -> serves al 32 -> es = 1152921504606846976 -> zlen src = es ->
  exists a, array_new al es = Some a /\ array_append_ptr al a src = Ub.
Proof. exact new_overflow. Qed.
Print Assumptions C10_size_overflow_refuted.

(** Refutes the documented array_append_value for elements wider than a uint32_t. *)
Theorem C10_append_value_wide_refuted :
  forall (al : allocator) (a : array) (v : Z), 4 < ar_es a -> ar_len a < ar_cap a -> array_append_value al a v = Ub.
Proof. exact append_value_wide. Qed.
Print Assumptions C10_append_value_wide_refuted.

Definition al4k : allocator := fun k => if (0 <=? k) && (k <=? 4096) then Some (repeat 9 (Z.to_nat k)) else None.
(** five appends of two-byte elements from capacity 4: the fifth grows; a sixth and seventh after a failure *)
Example C10_case :
  let al_none : allocator := fun _ => None in
  let e v := (al4k, ArVal v) in
  match array_new_with al4k 2 0 with
  | Some a => match ar_run a [e 258; e 2; e 3; e 4; (al_none, ArVal 5); e 6; e 7; (al_none, ArVal 8)] with
              | Ret (a', oks) => oks = [true;true;true;true;false;true;true;false] /\
                  array_length a' = 6 /\ array_read a' 0 = Ret [2;1] /\ array_read a' 4 = Ret [6;0]
              | _ => False end
  | None => False end.
Proof. vm_compute. repeat split; reflexivity. Qed.
Example C10_hyp : sane al4k.
Proof.
  intros k b. unfold al4k. destruct ((0 <=? k) && (k <=? 4096)) eqn:E; [|discriminate].
  intro H; injection H as <-. unfold zlen. rewrite repeat_length. lia.
Qed.
