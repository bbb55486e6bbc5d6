(** C81: one producer thread and one consumer thread on a msg_queue, on a machine with store buffers *)
From Verif Require Import CBase RingBuffer2Model MsgQueueModel SpscModel SpscSpec Props_Spsc MqTsoModel MqTsoSpec MqTsoProof3.

(** x86-TSO: every step of both threads, and every store that reaches memory, stays in bounds and hits no ASSERT_ABORT *)
Theorem C81_no_fault :
  forall q s, created q -> treach false q s ->
  (exists s', tpstep s = Ret s') /\ (exists s', tcstep s = Ret s') /\
  (forall e b, t_wbuf s = e :: b -> exists s', commit (tset_wbuf s b) e = Ret s').
Proof. intros q s C. apply tno_fault, created_good, C. Qed.
Print Assumptions C81_no_fault.

(** x86-TSO: the messages delivered by successful pops are, in order, the first ones of the messages sent, byte for byte *)
Theorem C81_fifo :
  forall q s, created q -> treach false q s -> let l := plain (t_log s) in
  prefix (accepted l) (sent l) /\ exists delivered, prefix delivered (sent l) /\ Forall2 stored (pops l) delivered.
Proof. intros q s C. apply tfifo, created_good, C. Qed.
Print Assumptions C81_fifo.

(** x86-TSO: every answer is right up to the stores still on their way: success with exactly the next message; "empty" only if everything accepted before the
    producer's last barrier was popped; "too small" with the next message's size; "full" only if the message did not fit, counting as free only what was
    popped before the consumer's last barrier; "again" never *)
Theorem C81_every_answer :
  forall q s later e earlier, created q -> treach false q s -> t_log s = later ++ e :: earlier -> tev_ok (rb_size q) e earlier.
Proof. intros q s later e earlier C. apply tevents, created_good, C. Qed.
Print Assumptions C81_every_answer.

(** x86-TSO: neither thread waits for the other *)
Theorem C81_push_wait_free :
  forall q s m n s', created q -> treach false q s -> t_pp s = P44 m -> tprun false n s s' -> Z.of_nat n <= zlen m + 10.
Proof.
  intros q s m n s' C H EE HP. destruct (treach_inv q s (created_good q C) H) as (D & R & p & k & I).
  pose proof (tprun_bound n s s' HP D R p k I) as B. rewrite EE in B. exact B.
Qed.
Print Assumptions C81_push_wait_free.
Theorem C81_pop_wait_free :
  forall q s t cap n s', created q -> treach false q s -> t_cp s = C78 t cap -> tcrun false n s s' -> Z.of_nat n <= cap + 13.
Proof.
  intros q s t cap n s' C H EE HP. destruct (treach_inv q s (created_good q C) H) as (D & R & p & k & I).
  pose proof (tcrun_bound n s s' HP D R p k I) as B. rewrite EE in B. exact B.
Qed.
Print Assumptions C81_pop_wait_free.
Theorem C81_next_wait_free :
  forall q s n s', created q -> treach false q s -> t_cp s = C60 -> tcrun false n s s' -> Z.of_nat n <= 8.
Proof.
  intros q s n s' C H EE HP. destruct (treach_inv q s (created_good q C) H) as (D & R & p & k & I).
  pose proof (tcrun_bound n s s' HP D R p k I) as B. rewrite EE in B. exact B.
Qed.
Print Assumptions C81_next_wait_free.

(** where stores may overtake each other (msg_queue.c and ringbuffer.c have no barrier): a pop can deliver a byte that was never pushed *)
Theorem C81_reordered_refuted :
  exists q s, created q /\ treach true q s /\
  t_log s = [E (EPopRet [9] 1 0 [0] 1); E (EPop [9] 1); E (EPushRet [1] 0); E (EPush [1])].
Proof.
  set (l1 := [APush [1]] ++ repeat AP 22 ++ repeat (FW 0) 5 ++ [FW 1; APop [9] 1] ++ repeat AC 22).
  destruct (tplay true l1 (tboot demo_q)) as [s1| | |] eqn:E1; try (exfalso; vm_compute in E1; discriminate).
  pose proof (tplay_reach true demo_q l1 _ _ (T0 true demo_q) E1) as RE. exists demo_q, s1.
  split; [exact C07_demo_queue|]. split; [exact RE|]. clear RE. vm_compute in E1. injection E1 as <-. reflexivity.
Qed.
Print Assumptions C81_reordered_refuted.
(** nor do the answers of C07 hold on x86-TSO: after a push has returned success, a pop can still find the queue empty *)
Theorem C81_late_refuted :
  exists q s, created q /\ treach false q s /\
  t_log s = [E (EPopRet [9] 1 4 [9] 1); E (EPop [9] 1); E (EPushRet [1] 0); E (EPush [1])].
Proof.
  set (l1 := [APush [1]] ++ repeat AP 22 ++ repeat (FW 0) 6 ++ [APop [9] 1; AC; AC]).
  destruct (tplay false l1 (tboot demo_q)) as [s1| | |] eqn:E1; try (exfalso; vm_compute in E1; discriminate).
  pose proof (tplay_reach false demo_q l1 _ _ (T0 false demo_q) E1) as RE. exists demo_q, s1.
  split; [exact C07_demo_queue|]. split; [exact RE|]. clear RE. vm_compute in E1. injection E1 as <-. reflexivity.
Qed.
Print Assumptions C81_late_refuted.

(** a run on x86-TSO with every kind of answer: room just freed is not seen while the consumer's stores are on their way, then a barrier; the last push's
    stores are still in the buffer *)
Example C81_case :
  exists s, created demo_q /\ treach false demo_q s /\ t_wbuf s <> [] /\
  rev (t_log s) =
  [E (EPush [7;8;9;10;11;12;13]); E (EPushRet [7;8;9;10;11;12;13] 0); E (EPop [0;0] 2); E (EPopRet [0;0] 2 4 [0;0] 2); WSync;
   E (EPop [0;0] 2); E (EPopRet [0;0] 2 6 [0;0] 7); E ENext; E (ENextRet 7);
   E (EPop [0;0;0;0;0;0;0;0] 8); E (EPopRet [0;0;0;0;0;0;0;0] 8 0 [7;8;9;10;11;12;13;0] 8);
   E (EPush [1;2]); E (EPushRet [1;2] 5); RSync; E (EPush [1;2]); E (EPushRet [1;2] 0); E ENext; E (ENextRet 0)].
Proof.
  set (l1 := [APush [7;8;9;10;11;12;13]] ++ repeat AP 22 ++ [APop [0;0] 2; AC; AC] ++ repeat (FW 0) 13 ++ [SW; APop [0;0] 2] ++ repeat AC 22 ++ [ANext] ++ repeat AC 22 ++
             [APop [0;0;0;0;0;0;0;0] 8] ++ repeat AC 32 ++ [APush [1;2]; AP; AP; FR; FR; SR; APush [1;2]] ++ repeat AP 22 ++ repeat (FW 0) 3 ++ [ANext; AC; AC]).
  destruct (tplay false l1 (tboot demo_q)) as [s1| | |] eqn:E1; try (exfalso; vm_compute in E1; discriminate).
  pose proof (tplay_reach false demo_q l1 _ _ (T0 false demo_q) E1) as RE. exists s1.
  split; [exact C07_demo_queue|]. split; [exact RE|]. clear RE. vm_compute in E1. injection E1 as <-. split; [discriminate|reflexivity].
Qed.
