(** C05, C06: msg_queue.c *)
From Verif Require Import CBase RingBuffer2Model MsgQueueModel MsgQueueSpec MsgQueueProof MsgQueueProof2.

(** C05 (and the sequential part of C06): from creation on, through every history of calls, the queue
    shows its callers exactly what a FIFO of messages shows (see MsgQueueSpec). *)
Theorem C05_msg_queue_is_message_fifo :
  forall (malloc : Z -> option (list Z)) (n : Z) (ops : list mqop),
  (forall k b, malloc k = Some b -> zlen b = k) ->
  0 <= n -> (n - 24 <= 1073741824 \/ n - 24 = 2147483648) -> Forall mq_valid_op ops ->
  (n < 28 -> mq_create malloc n = Ret None) /\
  (28 <= n -> malloc (8 + n) = None -> mq_create malloc n = Ret None) /\
  (28 <= n -> malloc (8 + n) <> None ->
   exists k h h', 1 <= k <= 31 /\ 2 ^ k <= n - 24 < 2 * 2 ^ k /\
    mq_create malloc n = Ret (Some h) /\
    mq_run (Some h) ops = Ret (h', snd (mq_spec_run (2 ^ k) [] ops))).
Proof. exact mq_create_refines. Qed.
Print Assumptions C05_msg_queue_is_message_fifo.

(** C06: after every history that leaves the message [m] first, a pop with a smaller buffer reports
    code 6 and the size of [m], touches neither target nor queue, and the retry with a buffer of
    the reported size delivers [m]. *)
Theorem C06_small_buffer_then_retry :
  forall (malloc : Z -> option (list Z)) (n : Z) (ops : list mqop) (h : rb Z) (t t2 m : list Z) (sz : Z),
  (forall k b, malloc k = Some b -> zlen b = k) ->
  28 <= n -> (n - 24 <= 1073741824 \/ n - 24 = 2147483648) -> Forall mq_valid_op ops ->
  mq_create malloc n = Ret (Some h) ->
  forall k r, 2 ^ k <= n - 24 < 2 * 2 ^ k ->
  fst (mq_spec_run (2 ^ k) [] ops) = m :: r ->
  0 <= sz < zlen m -> sz <= zlen t -> zlen m <= zlen t2 ->
  exists h', mq_run (Some h) (ops ++ [MNext; MPop (Some t) (Some sz); MPop (Some t2) (Some (zlen m))]) =
    Ret (h', snd (mq_spec_run (2 ^ k) [] ops) ++
             [(zlen m, None, None); (6, Some t, Some (zlen m)); (0, Some (fill m t2), Some (zlen m))]).
Proof. exact mq_retry_lemma. Qed.
Print Assumptions C06_small_buffer_then_retry.

(** The header promises that the size variable tells the real size of the popped message. It is
    false: on success the variable keeps the buffer size. *)
Theorem C06_pop_reports_size_refuted :
  exists h h' t, mq_run (Some h) [MPush (Some [7; 8]) 2; MPop (Some [0; 0; 0; 0; 0]) (Some 5)] =
    Ret (h', [(0, None, None); (0, Some t, Some 5)]) /\ mq_create (fun k => Some (repeat 0 (Z.to_nat k))) 40 = Ret (Some h).
Proof. exact mq_pop_size_witness. Qed.
Print Assumptions C06_pop_reports_size_refuted.

Example C05_case :
  let ops := [MPush (Some [1;2;3]) 3; MPush (Some [4;5;6;7;8]) 5; MPush (Some [9]) 1; MNext;
              MPop (Some [0;0]) (Some 2); MPop (Some [0;0;0;0]) (Some 4); MPopBytes;
              MPop (Some [0;0;0;0;0]) (Some 5); MPop (Some [0]) (Some 1); MPushBytes] in
  Forall mq_valid_op ops /\
  snd (mq_spec_run (2 ^ 4) [] ops) =
   [(0,None,None);(0,None,None);(5,None,None);(3,None,None);(6,Some [0;0],Some 3);(0,Some [1;2;3;0],Some 4);
    (9,None,None);(0,Some [4;5;6;7;8],Some 5);(4,Some [0],Some 1);(16,None,None)].
Proof.
  cbv zeta. split; [|vm_compute; reflexivity]. repeat constructor; vm_compute; congruence.
Qed.

Example C06_case :
  let ops := [MPush (Some [1;2;3]) 3] in
  exists h, mq_create (fun k => if k <? 0 then None else Some (repeat 0 (Z.to_nat k))) 40 = Ret (Some h) /\
  (forall k b, (fun k => if k <? 0 then None else Some (repeat 0 (Z.to_nat k))) k = Some b -> zlen b = k) /\
  2 ^ 4 <= 40 - 24 < 2 * 2 ^ 4 /\ fst (mq_spec_run (2 ^ 4) [] ops) = [[1;2;3]] /\ 0 <= 1 < zlen [1;2;3].
Proof.
  cbv zeta. eexists. split; [vm_compute; reflexivity|]. split; [|vm_compute; repeat split; congruence].
  intros k b. cbn beta. destruct (k <? 0) eqn:E; [discriminate|]. intro H; injection H as <-.
  rewrite zlen_repeat; lia.
Qed.
