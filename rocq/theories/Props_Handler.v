(** C29: the message queue handler (producer, worker thread and destroyer, in every schedule). *)
From Verif Require Import CBase RingBuffer2Model MsgQueueModel SpscModel HandlerModel HandlerSpec HandlerSpec2.
From Verif Require SpscSpec SpscProof4 HandlerProof2 HandlerProof3 HandlerProof4 HandlerProof5.

(** queues: whatever msg_queue_create returns for 28 .. 2^30 + 24 bytes *)
Definition created_small (q : rb Z) : Prop :=
  exists malloc n, (forall k b, malloc k = Some b -> zlen b = k) /\
    28 <= n /\ n - 24 <= 1073741824 /\ rb_size q <= 1073741824 /\ mq_create malloc n = Ret (Some q).
Lemma small_good q : created_small q -> SpscProof4.good_queue q.
Proof. intros (malloc & n & A & B & C & _ & D). eapply SpscProof4.mq_create_good; eauto. Qed.
Lemma small_size q : created_small q -> rb_size q <= 1073741824.
Proof. intros (malloc & n & A & B & C & D & _). exact D. Qed.

(** No schedule makes the worker or the pushing thread access memory out of bounds, overflow or abort. *)
Theorem C29_handler_no_fault : forall q s c, created_small q -> hreach q s ->
  (exists o, wexec c s = Ret o) /\ (exists o, pexec s = Ret o).
Proof.
  intros q s c C H. pose proof (small_good q C) as G. pose proof (small_size q C) as S.
  pose proof (HandlerProof3.hreach_inv q G s S H) as HI. split.
  - destruct (HandlerProof2.wexec_inv q G S c s HI) as (o & E & _). eauto.
  - destruct (HandlerProof3.pexec_inv q G s HI) as (o & E & _). eauto.
Qed.

(** The callback gets the pushed messages in push order, each at most once, none skipped and none
    altered, always: the blocks passed to it begin with the first messages sent. *)
Theorem C29_handler_in_order_once : forall q s, created_small q -> hreach q s ->
  exists delivered rest, hsent (hlog s) = delivered ++ rest /\ Forall2 begins (callbacks (hlog s)) delivered.
Proof.
  intros q s C H. destruct (HandlerProof3.handler_order q s (small_good q C) (small_size q C) H) as (D & [c E] & F). eauto.
Qed.

(** Nothing is left behind: when the worker sleeps in sem_wait, no push is under way and nothing has
    ended the handler, every accepted message has been passed to the callback. *)
Theorem C29_handler_all_delivered : forall q s, created_small q -> hreach q s ->
  asleep s -> pr s = HIdle -> ~ ended (hlog s) -> Forall2 begins (callbacks (hlog s)) (haccepted (hlog s)).
Proof. intros q s C H. apply (HandlerProof3.handler_all q s (small_good q C) (small_size q C) H). Qed.

(** ... and the worker gets there: unless it has finished it sleeps or can take a step, and it never
    takes more than 2^31 + 39 steps of its own without calling the callback. *)
Theorem C29_handler_progress : forall q s, created_small q -> hreach q s ->
  wk s = WDone \/ asleep s \/ exists c s', wexec c s = Ret (Some s').
Proof. intros q s C H. apply (HandlerProof3.handler_progress q s (small_good q C) (small_size q C) H). Qed.
Theorem C29_handler_no_endless_polling : forall q s n s', created_small q -> hreach q s ->
  wrun n s s' -> Z.of_nat n <= 2147483648 + 39.
Proof. intros q s n s' C H W. apply (HandlerProof4.handler_busy_bound q (small_good q C) (small_size q C) s n s' H W). Qed.

(** A push answers success, "full" (5), or - only after something ended the handler - 2. *)
Theorem C29_handler_push_answers : forall q s m c, created_small q -> hreach q s ->
  In (HPushRet m c) (hlog s) -> c = 0 \/ c = 5 \/ (c = 2 /\ ended (hlog s)).
Proof. intros q s m c C H. apply (HandlerProof3.handler_refused q s m c (small_good q C) (small_size q C) H). Qed.

(** A push answered "full" had no room: when it was called, the accepted messages not yet passed to the callback (each its length + 4 bytes) and the
    new one did not fit the queue together. *)
Theorem C29_handler_full_means_no_room : forall q s l2 m l, created_small q -> hreach q s ->
  hlog s = l2 ++ HPushRet m 5 :: l -> rb_size q < SpscSpec.occupied (hwaiting (at_hpush l)) + 4 + zlen m.
Proof. intros q s l2 m l C H. apply (HandlerProof5.handler_full q (small_good q C) (small_size q C) s H). Qed.

(** Destroy never waits for a sleeping worker, and once it has returned the worker has finished (so no
    callback runs and nothing is touched any more). *)
Theorem C29_handler_destroy_wakes : forall q s, created_small q -> hreach q s -> ds s = D177 -> ~ asleep s.
Proof. intros q s C H. apply (HandlerProof3.handler_join q s (small_good q C) (small_size q C) H). Qed.
Theorem C29_handler_destroyed_means_finished : forall q s, created_small q -> hreach q s ->
  In HDestroyed (hlog s) -> wk s = WDone.
Proof. intros q s C H X. apply (HandlerProof4.destroyed_done q s H X). Qed.

(** ** What does not hold *)
(** Messages longer than 2^30 bytes (possible in the queue of capacity 2^31): growing the worker's
    buffer shifts an int out of range. *)
Theorem C29_handler_huge_message_refuted : exists n, 1073741824 < n < 2147483648 /\ roundup_power2 n = Ub.
Proof. exists 1073741825. split; [lia|]. vm_compute. reflexivity. Qed.

(** executable schedules; an action that is not possible is skipped *)
Inductive hact := GW (c : choice) | GP | GD | GCall (m : list Z) | GDestroy.
Definition hact_step (s : hst) (a : hact) : option hst :=
  match a with
  | GW c => match wexec c s with Ret (Some s') => Some s' | _ => None end
  | GP => match pexec s with Ret (Some s') => Some s' | _ => None end
  | GD => dexec s
  | GCall m => match pr s, ds s with HIdle, DNone => if (0 <? zlen m) && (zlen m <? two32) then Some (set_pr (hemit s (HPush m)) (H145 m)) else None | _, _ => None end
  | GDestroy => match ds s, pr s with DNone, HIdle => Some (set_ds (hemit s HDestroy) D174) | _, _ => None end
  end.
Fixpoint hgo (s : hst) (l : list hact) : hst :=
  match l with [] => s | a :: l => match hact_step s a with Some s' => hgo s' l | None => hgo s l end end.
Lemma hgo_reach q : forall l s, hreach q s -> hreach q (hgo s l).
Proof.
  induction l as [|a l IH]; intros s H; cbn; [exact H|].
  destruct (hact_step s a) as [s1|] eqn:EA; [|auto]. apply IH. apply (HRS q s s1 H).
  destruct a; cbn in EA.
  - destruct (wexec c s) as [[x|]| | |] eqn:EW; try discriminate. injection EA as <-. eapply HSW; eauto.
  - destruct (pexec s) as [[x|]| | |] eqn:EW; try discriminate. injection EA as <-. apply HSP; auto.
  - apply HSD; auto.
  - destruct (pr s) eqn:EP; try discriminate. destruct (ds s) eqn:ED; try discriminate.
    destruct (_ && _) eqn:EB; [|discriminate]. injection EA as <-. apply HSCall; auto. lia.
  - destruct (ds s) eqn:ED; try discriminate. destruct (pr s) eqn:EP; try discriminate. injection EA as <-. apply HSDestroy; auto.
Qed.
Definition demo_malloc (n : Z) : option (list Z) := if n <? 0 then None else Some (repeat 0 (Z.to_nat n)).
Definition demo_q : rb Z := mk_rb false 0 0 8192 (repeat 0 (Z.to_nat 8192)).
Example C29_demo_queue : created_small demo_q.
Proof.
  exists demo_malloc, 8216. split.
  { intros k b H. unfold demo_malloc in H. destruct (k <? 0) eqn:E; [discriminate|]. injection H as <-.
    unfold zlen. rewrite repeat_length. lia. }
  split; [lia|]. split; [lia|]. split; [cbn; lia|]. vm_compute. reflexivity.
Qed.

(** A failed malloc in the worker ends the handler silently: a message already accepted is never
    delivered, although the callback never asked to stop and nobody destroyed the handler. *)
Theorem C29_handler_message_lost_on_oom_refuted : exists s, created_small demo_q /\ hreach demo_q s /\
  wk s = WDone /\ pr s = HIdle /\ haccepted (hlog s) = [[7; 8]] /\ callbacks (hlog s) = [] /\
  ~ In HDestroy (hlog s) /\ ~ exists r, In (HCbRet r) (hlog s).
Proof.
  set (run := [GCall [7; 8]] ++ repeat GP 20 ++ [GW {| c_mem := None; c_ret := 0 |}]).
  exists (hgo (hboot demo_q) run). split; [exact C29_demo_queue|]. split; [apply hgo_reach, HR0|].
  assert (exists i b n, hgo (hboot demo_q) run = mk_h i 1 true b n WDone HIdle DNone [HOom; HPushRet [7; 8] 0; HPush [7; 8]]) as (i & b & n & ->).
  { vm_compute. do 3 eexists. reflexivity. }
  cbn. repeat split; auto.
  - intros [X|[X|[X|[]]]]; discriminate.
  - intros (r & [X|[X|[X|[]]]]); discriminate.
Qed.

(** A run that meets the hypotheses: a message of 60 bytes beside a short one, interleaved with the worker; the worker ends asleep, everything delivered. *)
Definition big : list Z := repeat 5 (Z.to_nat 60).
Definition W_ n := repeat (GW {| c_mem := Some (repeat 0 (Z.to_nat 8192)); c_ret := 0 |}) n.
Definition demo_run : list hact :=
  [GW {| c_mem := Some (repeat 0 (Z.to_nat 4096)); c_ret := 0 |}; GCall big] ++ repeat GP (Z.to_nat 60) ++ W_ 3 ++ repeat GP 20 ++
  [GCall [7; 8]] ++ W_ 3 ++ repeat GP 15 ++ W_ 9 ++ repeat GP 9 ++ W_ (Z.to_nat 110).
Definition demo_end : hst := hgo (hboot demo_q) demo_run.
Definition short (l : list Z) : Z * list Z := (zlen l, firstn 3 l).
Definition summary (s : hst) :=
  match hlog s with
  | [HCbRet r2; HCb b2; HCbRet r1; HCb b1; HPushRet m2 c2; HPush _; HPushRet m1 c1; HPush _] =>
     Some (wk s, sem s, pr s, r1, r2, short b1, short b2, c1, c2, if list_eq_dec Z.eq_dec m1 big then m2 else [])
  | _ => None
  end.
Lemma demo_summary : summary demo_end =
  Some (W66, 0, HIdle, 0, 0, (4096, [5; 5; 5]), (4096, [7; 8; 5]), 0, 0, [7; 8]).
Proof. vm_compute. reflexivity. Qed.
Example C29_demo : hreach demo_q demo_end /\ asleep demo_end /\ pr demo_end = HIdle /\ ~ ended (hlog demo_end) /\
  haccepted (hlog demo_end) = [big; [7; 8]].
Proof.
  split; [apply hgo_reach, HR0|]. pose proof demo_summary as S. revert S. generalize demo_end. intros s S.
  unfold summary in S.
  destruct (hlog s) as [|e1 l] eqn:E; [discriminate|]. destruct e1; try discriminate.
  destruct l as [|e2 l]; [discriminate|]. destruct e2; try discriminate.
  destruct l as [|e3 l]; [discriminate|]. destruct e3; try discriminate.
  destruct l as [|e4 l]; [discriminate|]. destruct e4; try discriminate.
  destruct l as [|e5 l]; [discriminate|]. destruct e5; try discriminate.
  destruct l as [|e6 l]; [discriminate|]. destruct e6; try discriminate.
  destruct l as [|e7 l]; [discriminate|]. destruct e7; try discriminate.
  destruct l as [|e8 l]; [discriminate|]. destruct e8; try discriminate.
  destruct l; [|discriminate].
  destruct (list_eq_dec Z.eq_dec m1 big) as [E0|]; [|congruence].
  assert (wk s = W66 /\ sem s = 0 /\ pr s = HIdle /\ r = 0 /\ r0 = 0 /\ code = 0 /\ code0 = 0 /\ m = [7; 8]) as (A & B & C & D1 & D2 & D3 & D4 & D5)
    by (repeat split; congruence).
  clear S E. rewrite E0, D1, D2, D3, D4, D5.
  split; [split; assumption|]. split; [assumption|]. split; [|reflexivity].
  intros [(x & X & Y)|[X|X]]; cbn in X; repeat (destruct X as [X|X]; [first [discriminate | injection X as <-; contradiction]|]); contradiction.
Qed.

Lemma wexec_flag c s s' : wexec c s = Ret (Some s') -> (flag s = true -> flag s' = true) /\ (wk s' = WDone -> flag s' = true).
Proof.
  intro H. unfold wexec in H. destruct (wk s) eqn:EW; try discriminate.
  - destruct (c_mem c) as [b|]; [|injection H as <-; split; reflexivity]. destruct (_ =? _); [|discriminate]. injection H as <-. cbn. split; [auto|discriminate].
  - injection H as <-. cbn. destruct (_ || _); split; auto; discriminate.
  - destruct (_ <? _); [|discriminate]. injection H as <-. cbn. split; [auto|discriminate].
  - injection H as <-. cbn. destruct (flag s); split; auto; discriminate.
  - injection H as <-. cbn. split; [auto|discriminate].
  - destruct (cstep (inner s)) as [i| | |]; cbn [bind] in H; try discriminate. injection H as <-.
    destruct (cp (inner s)); cbn; try (rewrite EW; split; auto; discriminate). destruct (_ =? _); [split; auto; discriminate|]. destruct (_ =? _); split; auto; discriminate.
  - destruct (roundup_power2 size); cbn [bind] in H; try discriminate. destruct (c_mem c) as [b|].
    + destruct (_ =? _); [|discriminate]. injection H as <-. cbn. split; [auto|discriminate].
    + injection H as <-. cbn. split; [auto|discriminate].
  - injection H as <-. cbn. split; [auto|discriminate].
  - injection H as <-. cbn. destruct (_ =? _); split; auto; discriminate.
  - injection H as <-. split; reflexivity.
Qed.
Lemma done_flag q s : hreach q s -> wk s = WDone -> flag s = true.
Proof.
  induction 1 as [|s s' H IH HS]; [discriminate|]. destruct HS as [s c s' HW|s s' HP|s s' HD|s m A B|s A B]; try exact IH.
  - destruct (wexec_flag c s s' HW) as [_ X]. exact X.
  - assert (wk s' = wk s /\ flag s' = flag s) as [-> ->]; [|exact IH]. unfold pexec in HP. destruct (pr s); try discriminate.
    + destruct (flag s) eqn:F; injection HP as <-; split; cbn; auto.
    + destruct (pstep (inner s)); cbn [bind] in HP; try discriminate. injection HP as <-. destruct (pp (inner s)); try (split; reflexivity). destruct (_ =? _); split; reflexivity.
    + injection HP as <-; split; reflexivity.
    + injection HP as <-; split; reflexivity.
  - unfold dexec in HD. destruct (ds s); try discriminate; try (injection HD as <-; first [exact IH | reflexivity]).
    destruct (wk s) eqn:EW; try discriminate. injection HD as <-. cbn. rewrite EW. exact IH.
Qed.
(** A push that tests the flag after the worker has ended answers 2. *)
Theorem C29_handler_push_refused_after_end : forall q s m, hreach q s -> wk s = WDone -> pr s = H145 m ->
  exists s', pexec s = Ret (Some s') /\ pr s' = HRet m 2.
Proof. intros q s m H D P. pose proof (done_flag q s H D) as F. unfold pexec. rewrite P, F. eexists. split; reflexivity. Qed.
Example C29_push_refused_demo : let s := hgo (hboot demo_q) [GW {| c_mem := None; c_ret := 0 |}; GCall [7; 8]] in hreach demo_q s /\ wk s = WDone /\ pr s = H145 [7; 8].
Proof. split; [apply hgo_reach, HR0|]. split; reflexivity. Qed.

Definition demo_q8 : rb Z := mk_rb false 0 0 8 (repeat 0 (Z.to_nat 8)).
Example C29_full_demo : created_small demo_q8 /\ let s := hgo (hboot demo_q8) ([GCall [1; 2; 3]] ++ repeat GP 20 ++ [GCall [4]; GP; GP; GP; GP]) in
  hreach demo_q8 s /\ hlog s = [] ++ HPushRet [4] 5 :: [HPush [4]; HPushRet [1; 2; 3] 0; HPush [1; 2; 3]] /\
  hwaiting (at_hpush [HPush [4]; HPushRet [1; 2; 3] 0; HPush [1; 2; 3]]) = [[1; 2; 3]].
Proof.
  split.
  { exists demo_malloc, 32. split.
    { intros k b H. unfold demo_malloc in H. destruct (k <? 0) eqn:E; [discriminate|]. injection H as <-.
      unfold zlen. rewrite repeat_length. lia. }
    split; [lia|]. split; [lia|]. split; [cbn; lia|]. vm_compute. reflexivity. }
  split; [apply hgo_reach, HR0|]. split; vm_compute; reflexivity.
Qed.

Print Assumptions C29_handler_no_fault.
Print Assumptions C29_handler_in_order_once.
Print Assumptions C29_handler_all_delivered.
Print Assumptions C29_handler_progress.
Print Assumptions C29_handler_no_endless_polling.
Print Assumptions C29_handler_push_answers.
Print Assumptions C29_handler_destroy_wakes.
Print Assumptions C29_handler_destroyed_means_finished.
Print Assumptions C29_handler_huge_message_refuted.
Print Assumptions C29_handler_message_lost_on_oom_refuted.
Print Assumptions C29_handler_push_refused_after_end.
Print Assumptions C29_handler_full_means_no_room.
