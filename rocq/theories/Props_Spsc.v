(** C07: one thread pushes, another thread pops, without a lock. *)
From Verif Require Import CBase RingBuffer2Model MsgQueueModel SpscModel SpscSpec.
From Verif Require RingBuffer2Proof SpscProof4.

(** queues: whatever msg_queue_create returns, for each size for which it is defined (C06) *)
Definition created (q : rb Z) : Prop :=
  exists malloc n, (forall k b, malloc k = Some b -> zlen b = k) /\
    28 <= n /\ (n - 24 <= 1073741824 \/ n - 24 = 2147483648) /\ mq_create malloc n = Ret (Some q).
Lemma created_good q : created q -> SpscProof4.good_queue q.
Proof. intros (malloc & n & A & B & C & D). eapply SpscProof4.mq_create_good; eauto. Qed.

(** In no schedule does either thread make an out-of-bounds access or run into one of the
    ASSERT_ABORTs: the next step of each thread is always defined. *)
Theorem C07_spsc_no_fault : forall q s, created q -> reach q s ->
  (exists s', pstep s = Ret s') /\ (exists s', cstep s = Ret s').
Proof. intros q s C. apply SpscProof4.spsc_no_fault, created_good, C. Qed.

(** The messages delivered by successful pops are, in order, the first ones of the messages sent:
    nothing torn, duplicated, reordered or lost; and what was accepted is what was sent. *)
Theorem C07_spsc_fifo : forall q s, created q -> reach q s ->
  prefix (accepted (log s)) (sent (log s)) /\
  exists delivered, prefix delivered (sent (log s)) /\ Forall2 stored (pops (log s)) delivered.
Proof. intros q s C. apply SpscProof4.spsc_fifo, created_good, C. Qed.

(** Every answer ever given is right: success with exactly the next message; "empty" only if
    everything accepted before the call is already popped; "too small" with the next message's size
    and nothing consumed; "again" never; "full" only if the message did not fit into the
    [rb_size q] bytes beside what was in the queue at the time of the call. *)
Theorem C07_spsc_every_answer : forall q s later e earlier, created q -> reach q s ->
  log s = later ++ e :: earlier -> event_ok (rb_size q) e earlier.
Proof. intros q s later e earlier C. apply SpscProof4.spsc_events, created_good, C. Qed.

(** Both operations are wait-free: whatever the other thread does, a push of m returns after at most
    |m| + 10 of its own steps, a pop with a block of cap bytes after at most cap + 13. *)
Theorem C07_spsc_push_wait_free : forall q s m n s', created q -> reach q s -> pp s = P44 m ->
  prun n s s' -> Z.of_nat n <= zlen m + 10.
Proof.
  intros q s m n s' C H E HP. destruct (SpscProof4.reach_inv q s (created_good q C) H) as (D & R & I).
  pose proof (SpscProof4.prun_bound n s s' HP D R I) as B. rewrite E in B. exact B.
Qed.
Theorem C07_spsc_pop_wait_free : forall q s t cap n s', created q -> reach q s -> cp s = C78 t cap ->
  crun n s s' -> Z.of_nat n <= cap + 13.
Proof.
  intros q s t cap n s' C H E HP. destruct (SpscProof4.reach_inv q s (created_good q C) H) as (D & R & I).
  pose proof (SpscProof4.crun_bound n s s' HP D R I) as B. rewrite E in B. exact B.
Qed.

(** A concrete queue and a concrete interleaving that meet the hypotheses: pops running in the
    middle of a push (header published, payload not yet), wrap-around, every kind of answer. *)
Definition demo_malloc (n : Z) : option (list Z) := if n <? 0 then None else Some (repeat 0 (Z.to_nat n)).
Definition demo_q : rb Z := mk_rb false 0 0 16 (repeat 0 16).
Example C07_demo_queue : created demo_q.
Proof.
  exists demo_malloc, 40. split.
  { intros k b H. unfold demo_malloc in H. destruct (k <? 0) eqn:E; [discriminate|]. injection H as <-.
    unfold zlen. rewrite repeat_length. lia. }
  split; [lia|]. split; [lia|]. vm_compute. reflexivity.
Qed.
Definition P_ (n : nat) := repeat AP n.
Definition C_ (n : nat) := repeat AC n.
Definition demo_run : list act :=
  [APush [7; 8; 9; 10; 11; 12; 13]] ++ P_ 8 ++ [APop [0; 0; 0; 0; 0; 0; 0; 0; 0] 9] ++ C_ 2 ++ P_ 10 ++
  [APush [1; 2]] ++ P_ 2 ++ [APop [0; 0] 2] ++ C_ 20 ++ [ANext] ++ C_ 10 ++
  [APop [0; 0; 0; 0; 0; 0; 0; 0; 0] 9] ++ C_ 3 ++ [APush [1; 2; 3]] ++ P_ 4 ++ C_ 30 ++ P_ 20 ++
  [APush [4; 5; 6]] ++ P_ 20 ++ [APop [0; 0; 0] 3] ++ C_ 30 ++ [APop [0; 0; 0] 3] ++ C_ 30.
Example C07_demo : exists s, reach demo_q s /\ rev (log s) =
  [EPush [7; 8; 9; 10; 11; 12; 13];
   EPop [0; 0; 0; 0; 0; 0; 0; 0; 0] 9;
   EPopRet [0; 0; 0; 0; 0; 0; 0; 0; 0] 9 4 [0; 0; 0; 0; 0; 0; 0; 0; 0] 9;
   EPushRet [7; 8; 9; 10; 11; 12; 13] 0; EPush [1; 2];
   EPushRet [1; 2] 5; EPop [0; 0] 2; EPopRet [0; 0] 2 6 [0; 0] 7;
   ENext; ENextRet 7; EPop [0; 0; 0; 0; 0; 0; 0; 0; 0] 9;
   EPush [1; 2; 3]; EPushRet [1; 2; 3] 5;
   EPopRet [0; 0; 0; 0; 0; 0; 0; 0; 0] 9 0 [7; 8; 9; 10; 11; 12; 13; 0; 0] 9; EPush [4; 5; 6];
   EPushRet [4; 5; 6] 0; EPop [0; 0; 0] 3;
   EPopRet [0; 0; 0] 3 0 [4; 5; 6] 3; EPop [0; 0; 0] 3;
   EPopRet [0; 0; 0] 3 4 [0; 0; 0] 3].
Proof.
  destruct (go (boot demo_q) demo_run) as [s|] eqn:E; [|vm_compute in E; discriminate].
  exists s. split; [apply (SpscProof4.go_reach demo_q demo_run (boot demo_q)); [apply R0|exact E]|].
  vm_compute in E. injection E as <-. vm_compute. reflexivity.
Qed.

Print Assumptions C07_spsc_no_fault.
Print Assumptions C07_spsc_fifo.
Print Assumptions C07_spsc_every_answer.
Print Assumptions C07_spsc_push_wait_free.
Print Assumptions C07_spsc_pop_wait_free.
