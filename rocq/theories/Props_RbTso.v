(** C80: one writer thread and one reader thread on a RingBuffer or a fixed_msg_queue when stores reach memory late *)
From Verif Require Import CBase RingBuffer2Model FixedQueueModel RbMtModel RbMtSpec RbTsoModel RbTsoSpec RbTsoProof3.

(** x86-TSO: no access, and no store that reaches memory, is outside the data area or the callers' blocks *)
Theorem C80_no_fault :
  forall one h s, 1 <= one < 2 ^ 32 -> ring h -> treach one false h s ->
  (exists s', twstep one s = Ret s') /\ (exists s', trstep one s = Ret s') /\
  (forall e b, t_wbuf s = e :: b -> exists s', commit (tset_wbuf s b) e = Ret s').
Proof. intros one h s O R. exact (tno_fault one h O R s). Qed.
Print Assumptions C80_no_fault.

(** x86-TSO: every call returns what the sequential ring would return for some progress of the other thread: at least what the other
    thread had done before its last barrier, at most what it has begun *)
Theorem C80_every_answer :
  forall one h s later e earlier, 1 <= one < 2 ^ 32 -> ring h -> treach one false h s -> t_log s = later ++ e :: earlier -> tev_ok one (rb_size h) e earlier.
Proof. intros one h s l e l' O R. exact (tevery_answer one h O R s l e l'). Qed.
Print Assumptions C80_every_answer.

(** x86-TSO: the reader gets the bytes the writer wrote, each once, in order, none invented, none torn - without any barrier *)
Theorem C80_stream :
  forall one h s, 1 <= one < 2 ^ 32 -> ring h -> treach one false h s ->
  let l := plain (t_log s) in
  exists S, prefix (wrote one l) S /\ prefix S (offered one l) /\ agree (got one l) (ztake (zlen (got one l)) S).
Proof. intros one h s O R. exact (tstream one h O R s). Qed.
Print Assumptions C80_stream.

(** x86-TSO, used as a fixed_msg_queue: the messages popped are the first of those pushed *)
Theorem C80_messages :
  forall one h s, 1 <= one < 2 ^ 32 -> ring h -> treach one false h s ->
  let l := plain (t_log s) in queue_only l -> prefix (popped one l) (sent one l).
Proof. intros one h s O R. exact (tmessages one h O R s). Qed.
Print Assumptions C80_messages.

(** x86-TSO: neither thread waits for the other *)
Theorem C80_write_wait_free :
  forall one h s c n s', 1 <= one < 2 ^ 32 -> ring h -> treach one false h s -> t_wp s = WIdle -> wok one c ->
  twrun one false n (tset_wp (temit s (E (EWCall c))) (wbegin c)) s' ->
  Z.of_nat n <= match c with WWrite _ size => size + 3 | WSpace => 2 | WPush _ => one + 4 end.
Proof. intros one h s c n s' O R. exact (twait_free_w one h O R s c n s'). Qed.
Print Assumptions C80_write_wait_free.
Theorem C80_read_wait_free :
  forall one h s c n s', 1 <= one < 2 ^ 32 -> ring h -> treach one false h s -> t_rp s = RIdle -> rok one c ->
  trrun one false n (tset_rp (temit s (E (ERCall c))) (rbegin c)) s' ->
  Z.of_nat n <= match c with RRead _ size | RPeek _ size | RDiscard size => size + 3 | RAvail => 2 | RPop _ => one + 4 end.
Proof. intros one h s c n s' O R. exact (twait_free_r one h O R s c n s'). Qed.
Print Assumptions C80_read_wait_free.

(** where stores may overtake each other (ringbuffer.c has no barrier): the reader can get a byte that was never written *)
Theorem C80_reordered_refuted :
  exists h s, ring h /\ treach 1 true h s /\
  t_log s = [E (ERRet (RRead [0] 1) 1 (Some [9])); E (ERCall (RRead [0] 1)); E (EWRet (WWrite [1] 1) 1); E (EWCall (WWrite [1] 1))].
Proof.
  set (h := mk_rb true 0 0 4 [9;9;9;9]).
  set (l1 := [AWC (WWrite [1] 1); AW; AW; AW; AW; FW 1; ARC (RRead [0] 1); AR; AR; AR; AR]).
  destruct (tplay 1 true l1 (tboot h)) as [s1| | |] eqn:E1; try (exfalso; vm_compute in E1; discriminate).
  assert (F1 : Forall (act_ok 1) l1) by (repeat constructor; vm_compute; congruence).
  pose proof (tplay_reach 1 true h l1 F1 _ _ (T0 1 true h) E1) as RE. exists h, s1.
  split; [split; [exists 2; split; [lia|reflexivity]|repeat split; vm_compute; congruence]|]. split; [exact RE|]. clear RE. vm_compute in E1. injection E1 as <-. reflexivity.
Qed.
Print Assumptions C80_reordered_refuted.
(** nor do the answers of C73 hold on x86-TSO: after a push has returned 1, a pop can still find the queue empty *)
Theorem C80_late_refuted :
  exists h s, ring h /\ treach 3 false h s /\
  t_log s = [E (ERRet (RPop [0;0;0]) 0 (Some [0;0;0])); E (ERCall (RPop [0;0;0])); E (EWRet (WPush [1;2;3]) 1); E (EWCall (WPush [1;2;3]))].
Proof.
  set (h := mk_rb false 0 0 8 (repeat 0 8)).
  set (l1 := [AWC (WPush [1;2;3]); AW; AW; AW; AW; AW; AW; AW; FW 0; ARC (RPop [0;0;0]); AR; AR]).
  destruct (tplay 3 false l1 (tboot h)) as [s1| | |] eqn:E1; try (exfalso; vm_compute in E1; discriminate).
  assert (F1 : Forall (act_ok 3) l1) by (repeat constructor; vm_compute; congruence).
  pose proof (tplay_reach 3 false h l1 F1 _ _ (T0 3 false h) E1) as RE. exists h, s1.
  split; [split; [exists 3; split; [lia|reflexivity]|repeat split; vm_compute; congruence]|]. split; [exact RE|]. clear RE. vm_compute in E1. injection E1 as <-. reflexivity.
Qed.
Print Assumptions C80_late_refuted.

(** a run on x86-TSO with counters that wrap at 2^32: room just freed is not seen while the reader's store is on its way, then a barrier *)
Example C80_case :
  let h := mk_rb true (2 ^ 32 - 1) (2 ^ 32 - 1) 4 [9;9;9;9;9] in
  exists s, ring h /\ treach 1 false h s /\ t_wbuf s <> [] /\
  t_log s = [E (EWRet (WWrite [5;6] 2) 2); E (EWCall (WWrite [5;6] 2)); RSync; E (EWRet (WWrite [5;6] 2) 0); E (EWCall (WWrite [5;6] 2));
             E (ERRet (RRead [0;0] 2) 2 (Some [1;2])); E (ERCall (RRead [0;0] 2)); WSync; E (EWRet (WWrite [1;2;3;4;5] 5) 4); E (EWCall (WWrite [1;2;3;4;5] 5))].
Proof.
  intro h.
  set (l1 := [AWC (WWrite [1;2;3;4;5] 5); AW; AW; FW 0; AW; AW; AW; AW; AW; FW 0; FW 0; FW 0; FW 0; SW; ARC (RRead [0;0] 2); AR; AR; AR; AR; AR; AWC (WWrite [5;6] 2); AW; AW; FR; SR; AWC (WWrite [5;6] 2); AW; AW; FW 0; AW; AW; AW]).
  destruct (tplay 1 false l1 (tboot h)) as [s1| | |] eqn:E1; try (exfalso; vm_compute in E1; discriminate).
  assert (F1 : Forall (act_ok 1) l1) by (repeat constructor; vm_compute; congruence).
  pose proof (tplay_reach 1 false h l1 F1 _ _ (T0 1 false h) E1) as RE. exists s1.
  split; [split; [exists 2; split; [lia|reflexivity]|repeat split; vm_compute; congruence]|]. split; [exact RE|]. clear RE. vm_compute in E1. injection E1 as <-. split; [discriminate|reflexivity].
Qed.
(** a queue of 3-byte messages in 8 bytes: a second push whose stores are not yet in memory *)
Example C80_case_queue :
  let h := mk_rb false 0 0 8 (repeat 0 8) in
  exists s, ring h /\ treach 3 false h s /\ queue_only (plain (t_log s)) /\ t_wbuf s <> [] /\
  sent 3 (plain (t_log s)) = [[1;2;3]; [4;5;6]] /\ popped 3 (plain (t_log s)) = [[1;2;3]].
Proof.
  intro h.
  set (l1 := [AWC (WPush [1;2;3]); AW; AW; AW; AW; AW; AW; AW; FW 0; FW 0; FW 0; FW 0; AWC (WPush [4;5;6]); AW; AW; AW; ARC (RPop [0;0;0;0]); AR; AR; AW; AR; AW; AR; AW; AR; AR; AR; AW]).
  destruct (tplay 3 false l1 (tboot h)) as [s1| | |] eqn:E1; try (exfalso; vm_compute in E1; discriminate).
  assert (F1 : Forall (act_ok 3) l1) by (repeat constructor; vm_compute; congruence).
  pose proof (tplay_reach 3 false h l1 F1 _ _ (T0 3 false h) E1) as RE. exists s1.
  split; [split; [exists 3; split; [lia|reflexivity]|repeat split; vm_compute; congruence]|]. split; [exact RE|]. clear RE. vm_compute in E1. injection E1 as <-. split; [repeat constructor|]. split; [discriminate|]. split; reflexivity.
Qed.
