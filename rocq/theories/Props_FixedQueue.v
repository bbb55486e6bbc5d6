(** C08: fixed_msg_queue.c *)
From Verif Require Import CBase RingBuffer2Model FixedQueueModel FixedQueueSpec FixedQueueProof.

(** C08, everything but the documented capacity: through every history the queue is a FIFO of whole
    messages whose real capacity is 2^k / one, with 2^k the greatest power of two fitting in
    one*cap - 24. *)
Theorem C08_fixed_queue_is_fifo :
  forall (A : Type) (malloc : Z -> option (list A)) (one cap : Z) (ops : list (fqop A)),
  (forall k b, malloc k = Some b -> zlen b = k) ->
  1 <= one -> 1 <= cap -> (one * cap - 24 <= 1073741824 \/ one * cap - 24 = 2147483648) ->
  Forall (fq_valid_op one) ops ->
  (one * cap < 28 -> fq_create malloc one cap = Ret None) /\
  (28 <= one * cap -> malloc (16 + one * cap) = None -> fq_create malloc one cap = Ret None) /\
  (28 <= one * cap -> malloc (16 + one * cap) <> None ->
   exists k q q', 1 <= k <= 31 /\ 2 ^ k <= one * cap - 24 < 2 * 2 ^ k /\
    fq_create malloc one cap = Ret (Some q) /\
    fq_run q ops = Ret (q', snd (fq_spec_run one (2 ^ k / one) [] ops))).
Proof. exact @fq_create_lemma. Qed.
Print Assumptions C08_fixed_queue_is_fifo.

(** C08 capacity part is false for every message size and capacity: a fresh queue never has room for
    max_msg_capacity messages. *)
Theorem C08_documented_capacity_refuted :
  forall (A : Type) (malloc : Z -> option (list A)) (one cap : Z) (q : fq A),
  (forall k b, malloc k = Some b -> zlen b = k) ->
  1 <= one -> 1 <= cap -> (one * cap - 24 <= 1073741824 \/ one * cap - 24 = 2147483648) ->
  fq_create malloc one cap = Ret (Some q) -> fq_push_amount q < cap.
Proof. exact @fq_capacity_api_lemma. Qed.
Print Assumptions C08_documented_capacity_refuted.

(** Worst case: creation for one message of 100 bytes succeeds, yet no push can ever succeed. *)
Theorem C08_queue_accepting_nothing_refuted :
  exists q, fq_create (fun k => Some (repeat 0 (Z.to_nat k))) 100 1 = Ret (Some q) /\
            forall m, fq_push q (Some m) = Ret (q, false).
Proof. exact fq_useless_witness. Qed.
Print Assumptions C08_queue_accepting_nothing_refuted.

Example C08_case :
  let ops := [FPush (Some [1;2;3]); FPush (Some [4;5;6]); FPop (Some [0;0;0;0]); FPopAmount; FPushAmount; FPush None; FIsFull] in
  Forall (fq_valid_op 3) ops /\
  snd (fq_spec_run 3 (2 ^ 4 / 3) [] ops) =
    [(1,None);(1,None);(1,Some [1;2;3;0]);(1,None);(4,None);(0,None);(0,None)] /\ 2 ^ 4 <= 3 * 14 - 24 < 2 * 2 ^ 4.
Proof. cbv zeta. split; [|vm_compute; repeat split; congruence]. repeat constructor; vm_compute; congruence. Qed.
