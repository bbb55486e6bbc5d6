(** C03, C04: ringbuffer.c *)
From Verif Require Import CBase RingBuffer2Model RingBuffer2Spec RingBuffer2Proof.

(** C03: on every reachable counter position (the 32-bit counters may hold any values whose
    difference is at most the capacity, in particular values about to wrap) every history of calls
    behaves as the FIFO that currently stores the bytes [rb_abs h]. *)
Theorem C03_RingBuffer_is_fifo_any_counters :
  forall (A : Type) (h : rb A) (ops : list (rbop A)),
  rb_inv h -> Forall rb_valid_op ops ->
  exists h', rb_run h ops = Ret (h', snd (fifo_run (rb_size h) (rb_abs h) ops))
    /\ rb_inv h' /\ rb_abs h' = fst (fifo_run (rb_size h) (rb_abs h) ops) /\ rb_size h' = rb_size h.
Proof. intros A h ops; revert h; exact (rb_run_refines ops). Qed.
Print Assumptions C03_RingBuffer_is_fifo_any_counters.

(** C03/C04: a ring built in a caller's block behaves, from creation on and through every history,
    as a FIFO whose capacity is the greatest power of two fitting behind the 24-byte structure. *)
Theorem C03_RingBuffer_with_mem_is_fifo :
  forall (A : Type) (m : list A) (ops : list (rbop A)),
  28 <= zlen m -> (zlen m - 24 <= 1073741824 \/ zlen m - 24 = 2147483648) ->
  Forall rb_valid_op ops ->
  exists k h h', 1 <= k <= 31 /\ 2 ^ k <= zlen m - 24 < 2 * 2 ^ k /\
  rb_create_with_mem (Some m) (zlen m) = Ret (Some h) /\
  rb_run h ops = Ret (h', snd (fifo_run (2 ^ k) [] ops)).
Proof. exact @rb_fifo_mem_lemma. Qed.
Print Assumptions C03_RingBuffer_with_mem_is_fifo.

(** C04: RingBuffer_create(n), n >= 3: capacity is the least power of two >= n. *)
Theorem C04_RingBuffer_create_capacity :
  forall (A : Type) (calloc : Z -> option (list A)) (n : Z),
  (forall k b, calloc k = Some b -> zlen b = k) ->
  3 <= n <= 1073741824 \/ n = 2147483648 ->
  exists k, 1 <= k <= 31 /\ 2 ^ (k - 1) < n <= 2 ^ k /\
  (calloc (24 + 2 ^ k) = None -> rb_create calloc n = Ret None) /\
  (calloc (24 + 2 ^ k) <> None -> forall ops, Forall rb_valid_op ops ->
     exists h h', rb_create calloc n = Ret (Some h) /\ rb_run h ops = Ret (h', snd (fifo_run (2 ^ k) [] ops))).
Proof. exact @rb_fifo_create_lemma. Qed.
Print Assumptions C04_RingBuffer_create_capacity.

(** C04: 0, 1 and also the power of two 2 are refused (2 passes the explicit check but the block
    computed for it fails the check inside RingBuffer_create_with_mem). *)
Theorem C04_RingBuffer_create_refused :
  forall (A : Type) (calloc : Z -> option (list A)) (n : Z),
  (forall k b, calloc k = Some b -> zlen b = k) -> 0 <= n <= 2 -> rb_create calloc n = Ret None.
Proof. exact @rb_create_too_small. Qed.
Print Assumptions C04_RingBuffer_create_refused.

(** C04 is violated above 2^30: every request that is not a power of two shifts a signed int out
    of its range. *)
Theorem C04_RingBuffer_create_large_refuted :
  forall (A : Type) (calloc : Z -> option (list A)) (n : Z),
  1073741824 < n < two32 -> n <> 2147483648 -> rb_create calloc n = Ub.
Proof. exact @rb_create_ub. Qed.
Print Assumptions C04_RingBuffer_create_large_refuted.

(** C04: blocks too small for the structure and 4 bytes are refused. *)
Theorem C04_RingBuffer_with_mem_refused :
  forall (A : Type) (m : list A), zlen m < 28 -> rb_create_with_mem (Some m) (zlen m) = Ret None.
Proof. exact @create_with_mem_small. Qed.
Print Assumptions C04_RingBuffer_with_mem_refused.

(** and so do blocks above 2^30 + 24 bytes (below 2^32) other than 2^31 + 24 *)
Theorem C04_RingBuffer_with_mem_large_refuted :
  forall (A : Type) (m : list A), 1073741824 < zlen m - 24 -> zlen m < two32 -> zlen m - 24 <> 2147483648 ->
  rb_create_with_mem (Some m) (zlen m) = Ub.
Proof. exact @rb_with_mem_ub. Qed.
Print Assumptions C04_RingBuffer_with_mem_large_refuted.

(** non-vacuity: a state whose counters are about to wrap, and a history crossing the wrap *)
Example C03_case :
  let h := mk_rb false 4294967295 4294967293 4 [10; 11; 12; 13; 99] in
  let ops := [BWrite (Some [1;2;3]) 3; BAvailRead; BPeek (Some [0;0;0;0;0]) 5; BRead (Some [0;0;0]) 3; BIsFull; BDiscard 9; BIsEmpty] in
  rb_inv h /\ rb_abs h = [11; 12] /\ Forall rb_valid_op ops /\
  rb_run h ops = Ret (mk_rb false 1 1 4 [2; 11; 12; 1; 99],
     [(2,None);(4,None);(4,Some [11;12;1;2;0]);(3,Some [11;12;1]);(0,None);(1,None);(1,None)]).
Proof.
  cbv zeta. split; [|split; [vm_compute; reflexivity|split; [|vm_compute; reflexivity]]].
  - split; [exists 2; vm_compute; repeat split; congruence|]. vm_compute; repeat split; congruence.
  - repeat constructor; vm_compute; congruence.
Qed.
