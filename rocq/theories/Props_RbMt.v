(** C73: one writer thread and one reader thread on a RingBuffer or a fixed_msg_queue, without a lock *)
From Verif Require Import CBase RingBuffer2Model FixedQueueModel RbMtModel RbMtSpec RbMtProof5.
From Coq Require Import Relations.Relation_Operators.

(** however the two threads are interleaved, byte by byte: no access outside the data area, the caller's source or the caller's target *)
Theorem C73_no_fault :
  forall one h s, 1 <= one < 2 ^ 32 -> ring h -> reach one h s ->
  (exists s', wstep one s = Ret s') /\ (exists s', rstep one s = Ret s').
Proof. intros one h s O R. exact (no_fault one h O R s). Qed.
Print Assumptions C73_no_fault.

(** every call returns what the sequential ring would return at one moment between the call and its return; what is read are the next bytes in the order written *)
Theorem C73_every_answer :
  forall one h s later e earlier, 1 <= one < 2 ^ 32 -> ring h -> reach one h s ->
  log s = later ++ e :: earlier -> event_ok one (rb_size h) e earlier.
Proof. intros one h s l e l' O R. exact (every_answer one h O R s l e l'). Qed.
Print Assumptions C73_every_answer.

(** over the whole run: the reader gets the bytes the writer wrote, each once, in order, none invented, none torn *)
Theorem C73_stream :
  forall one h s, 1 <= one < 2 ^ 32 -> ring h -> reach one h s ->
  exists S, prefix (wrote one (log s)) S /\ prefix S (offered one (log s)) /\
            agree (got one (log s)) (ztake (zlen (got one (log s))) S).
Proof. intros one h s O R. exact (stream one h O R s). Qed.
Print Assumptions C73_stream.

(** used as a fixed_msg_queue: the messages popped are the first of those pushed *)
Theorem C73_messages :
  forall one h s, 1 <= one < 2 ^ 32 -> ring h -> reach one h s -> queue_only (log s) ->
  prefix (popped one (log s)) (sent one (log s)).
Proof. intros one h s O R. exact (messages one h O R s). Qed.
Print Assumptions C73_messages.

(** neither thread ever waits for the other: a call takes a bounded number of its own steps whatever the other thread does meanwhile *)
Theorem C73_write_wait_free :
  forall one h s c n s', 1 <= one < 2 ^ 32 -> ring h -> reach one h s -> wp s = WIdle -> wok one c ->
  wrun one n (set_wp (emit s (EWCall c)) (wbegin c)) s' ->
  Z.of_nat n <= match c with WWrite _ size => size + 3 | WSpace => 2 | WPush _ => one + 4 end.
Proof. intros one h s c n s' O R. exact (wait_free_w one h O R s c n s'). Qed.
Print Assumptions C73_write_wait_free.
Theorem C73_read_wait_free :
  forall one h s c n s', 1 <= one < 2 ^ 32 -> ring h -> reach one h s -> rp s = RIdle -> rok one c ->
  rrun one n (set_rp (emit s (ERCall c)) (rbegin c)) s' ->
  Z.of_nat n <= match c with RRead _ size | RPeek _ size | RDiscard size => size + 3 | RAvail => 2 | RPop _ => one + 4 end.
Proof. intros one h s c n s' O R. exact (wait_free_r one h O R s c n s'). Qed.
Print Assumptions C73_read_wait_free.

(** the handles the create functions give out are such rings *)
Theorem C73_created :
  (forall (m : list Z) h, 28 <= zlen m -> (zlen m - 24 <= 2 ^ 30 \/ zlen m - 24 = 2 ^ 31) -> rb_create_with_mem (Some m) (zlen m) = Ret (Some h) -> ring h) /\
  (forall (calloc : Z -> option (list Z)) n h, (forall k b, calloc k = Some b -> zlen b = k) -> 3 <= n <= 2 ^ 30 \/ n = 2 ^ 31 -> rb_create calloc n = Ret (Some h) -> ring h) /\
  (forall (malloc : Z -> option (list Z)) one cap q, (forall k b, malloc k = Some b -> zlen b = k) -> 1 <= one -> 1 <= cap ->
     (one * cap - 24 <= 2 ^ 30 \/ one * cap - 24 = 2 ^ 31) -> fq_create malloc one cap = Ret (Some q) -> ring (fq_ring q) /\ fq_one q = one).
Proof. exact (conj created_mem (conj created created_queue)). Qed.
Print Assumptions C73_created.

(** RingBuffer_clear is not such an operation: called by the reader while a write is copying,
    it makes the next read return old bytes a second time; the new ones are never read *)
Theorem C73_clear_refuted :
  exists h s1 s2, ring h /\ reach 1 h s1 /\ rp s1 = RIdle /\ wrote 1 (log s1) = [1; 2; 3] /\ got 1 (log s1) = [Some 1; Some 2; Some 3] /\
  clos_refl_trans _ (step 1) (clear_out (clear_in s1)) s2 /\
  wrote 1 (log s2) = [1; 2; 3; 4; 5; 6] /\ got 1 (log s2) = [Some 1; Some 2; Some 3; Some 1; Some 2; Some 3].
Proof.
  set (h := mk_rb true 0 0 8 [0;0;0;0;0;0;0;0]).
  set (l1 := [AWC (WWrite [1;2;3] 3); AW; AW; AW; AW; AW; AW; ARC (RRead [0;0;0] 3); AR; AR; AR; AR; AR; AR; AWC (WWrite [4;5;6] 3); AW; AW]).
  set (l2 := [AW; AW; AW; AW; ARC (RRead [0;0;0] 3); AR; AR; AR; AR; AR; AR]).
  destruct (play 1 l1 (boot h)) as [s1| | |] eqn:E1; try (exfalso; vm_compute in E1; discriminate).
  assert (F1 : Forall (act_ok 1) l1) by (repeat constructor; vm_compute; congruence).
  assert (F2 : Forall (act_ok 1) l2) by (repeat constructor; vm_compute; congruence).
  pose proof (play_reach 1 h l1 F1 _ _ (R0 1 h) E1) as RE.
  destruct (play 1 l2 (clear_out (clear_in s1))) as [s2| | |] eqn:E2; try (exfalso; vm_compute in E1; injection E1 as <-; vm_compute in E2; discriminate).
  pose proof (play_steps 1 l2 F2 _ _ E2) as ST. exists h, s1, s2.
  split; [split; [exists 3; split; [lia|reflexivity]|repeat split; vm_compute; congruence]|]. split; [exact RE|].
  clear RE. vm_compute in E1. injection E1 as <-. vm_compute in E2. injection E2 as <-. repeat split; exact ST.
Qed.
Print Assumptions C73_clear_refuted.

(** a run with a partial write, 32-bit counters that wrap, and the reader copying while the writer copies *)
Example C73_case :
  let h := mk_rb true (2 ^ 32 - 3) (2 ^ 32 - 3) 4 [9;9;9;9;9] in
  exists s, ring h /\ reach 1 h s /\
  log s = [EWRet (WWrite [5;6;7] 3) 2; ERRet (RRead [0;0] 2) 2 (Some [1;2]); EWCall (WWrite [5;6;7] 3); ERCall (RRead [0;0] 2);
           EWRet (WWrite [1;2;3;4;5] 5) 4; EWCall (WWrite [1;2;3;4;5] 5)].
Proof.
  intro h.
  set (l1 := [AWC (WWrite [1;2;3;4;5] 5); AW; AW; AW; AW; AW; AW; AW; ARC (RRead [0;0] 2); AR; AR; AR; AWC (WWrite [5;6;7] 3); AR; AW; AW; AR; AW; AW; AW]).
  destruct (play 1 l1 (boot h)) as [s1| | |] eqn:E1; try (exfalso; vm_compute in E1; discriminate).
  assert (F1 : Forall (act_ok 1) l1) by (repeat constructor; vm_compute; congruence).
  pose proof (play_reach 1 h l1 F1 _ _ (R0 1 h) E1) as RE. exists s1.
  split; [split; [exists 2; split; [lia|reflexivity]|repeat split; vm_compute; congruence]|]. split; [exact RE|]. clear RE. vm_compute in E1. injection E1 as <-. reflexivity.
Qed.
(** a queue of 3-byte messages in 8 bytes *)
Example C73_case_queue :
  let h := mk_rb false 0 0 8 (repeat 0 8) in
  exists s, ring h /\ reach 3 h s /\ queue_only (log s) /\ sent 3 (log s) = [[1;2;3]; [4;5;6]; [7;8;9]] /\ accepted 3 (log s) = [[1;2;3]; [4;5;6]] /\ popped 3 (log s) = [[1;2;3]].
Proof.
  intro h.
  set (l1 := [AWC (WPush [1;2;3]); AW; AW; AW; AW; AW; AW; AW; AWC (WPush [4;5;6]); AW; AW; AW; ARC (RPop [0;0;0;0]); AR; AR; AW; AR; AW; AR; AW; AR; AR; AR; AW; AWC (WPush [7;8;9]); AW]).
  destruct (play 3 l1 (boot h)) as [s1| | |] eqn:E1; try (exfalso; vm_compute in E1; discriminate).
  assert (F1 : Forall (act_ok 3) l1) by (repeat constructor; vm_compute; congruence).
  pose proof (play_reach 3 h l1 F1 _ _ (R0 3 h) E1) as RE. exists s1.
  split; [split; [exists 3; split; [lia|reflexivity]|repeat split; vm_compute; congruence]|]. split; [exact RE|]. clear RE. vm_compute in E1. injection E1 as <-. split; [repeat constructor|]. repeat split.
Qed.
