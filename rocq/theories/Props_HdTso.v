(** C83: the message queue handler between three threads when stores reach memory late (x86-TSO). *)
From Verif Require Import CBase RingBuffer2Model MsgQueueModel SpscModel HandlerModel HandlerSpec HandlerSpec2 MqTsoModel HdTsoModel HdTsoSpec.
From Verif Require MqTsoProof3 HdTsoProof HdTsoProof2 HdTsoProof3 HdTsoProof4 SpscSpec Props_Handler.

(** as in C29: whatever msg_queue_create returns for 28 .. 2^30 + 24 bytes *)
Notation created_small := Props_Handler.created_small.

(** No schedule and no delay of stores makes a thread access memory out of bounds, overflow or abort. *)
Theorem C83_no_fault : forall q s c, created_small q -> greach q s -> (exists o, gwexec c s = Ret o) /\ (exists o, gpexec s = Ret o).
Proof.
  intros q s c C H. pose proof (Props_Handler.small_good q C) as G. pose proof (Props_Handler.small_size q C) as S.
  pose proof (HdTsoProof2.greach_inv q G s S H) as HI. split.
  - destruct (HdTsoProof.wexec_inv q G S c s HI) as (o & E & _). eauto.
  - destruct (HdTsoProof2.pexec_inv q G s HI) as (o & E & _). eauto.
Qed.

(** The callback gets the pushed messages in push order, each at most once, none skipped and none altered, always. *)
Theorem C83_in_order_once : forall q s, created_small q -> greach q s ->
  exists delivered rest, hsent (g_log s) = delivered ++ rest /\ Forall2 begins (callbacks (g_log s)) delivered.
Proof.
  intros q s C H. destruct (HdTsoProof2.ghandler_order q s (Props_Handler.small_good q C) (Props_Handler.small_size q C) H) as (D & [c E] & F). eauto.
Qed.

(** Nothing is left behind: when the worker sleeps in sem_wait, no push is under way and nothing has ended the handler, every accepted message has been
    passed to the callback, whatever stores are still on their way. *)
Theorem C83_all_delivered : forall q s, created_small q -> greach q s ->
  gasleep s -> g_pr s = HIdle -> ~ ended (g_log s) -> Forall2 begins (callbacks (g_log s)) (haccepted (g_log s)).
Proof. intros q s C H. apply (HdTsoProof2.ghandler_all q s (Props_Handler.small_good q C) (Props_Handler.small_size q C) H). Qed.

(** The worker gets there: unless it has finished it sleeps, can take a step, or waits in sem_wait for a store of its own, which can reach memory ... *)
Theorem C83_progress : forall q s, created_small q -> greach q s ->
  g_wk s = WDone \/ gasleep s \/ (exists c s', gwexec c s = Ret (Some s')) \/ (g_wk s = W66 /\ t_rbuf (g_q s) <> [] /\ exists s', gflush s s').
Proof. intros q s C H. apply (HdTsoProof2.ghandler_progress q s (Props_Handler.small_good q C) (Props_Handler.small_size q C) H). Qed.
(** ... and it never takes more than 2^31 + 39 steps of its own without calling the callback. *)
Theorem C83_no_endless_polling : forall q s n s', created_small q -> greach q s -> gwrun n s s' -> Z.of_nat n <= 2147483648 + 39.
Proof. intros q s n s' C H W. apply (HdTsoProof3.ghandler_busy_bound q (Props_Handler.small_good q C) (Props_Handler.small_size q C) s n s' H W). Qed.

(** A push answers success, "full" (5), or - only after something ended the handler - 2. *)
Theorem C83_push_answers : forall q s m c, created_small q -> greach q s ->
  In (HPushRet m c) (g_log s) -> c = 0 \/ c = 5 \/ (c = 2 /\ ended (g_log s)).
Proof. intros q s m c C H. apply (HdTsoProof2.ghandler_refused q s m c (Props_Handler.small_good q C) (Props_Handler.small_size q C) H). Qed.

(** Destroy never waits for a sleeping worker: its store of the flag is in memory before the worker is woken, so the worker ends ... *)
Theorem C83_destroy_wakes : forall q s, created_small q -> greach q s -> g_ds s = D177 -> g_flag s = true /\ ~ gasleep s.
Proof.
  intros q s C H E. pose proof (Props_Handler.small_good q C) as G. pose proof (Props_Handler.small_size q C) as S. split.
  - pose proof (HdTsoProof2.greach_inv q G s S H) as HI. destruct (HdTsoProof.h_dp q s HI) as [F _]; [|exact F]. unfold HdTsoProof.dp. rewrite E. reflexivity.
  - apply (HdTsoProof2.ghandler_join q s G S H E).
Qed.
(** ... and once destroy has returned the worker has finished and no store of any thread to the handler or the queue is on its way: what destroy frees is
    not written any more. *)
Theorem C83_destroyed_means_finished : forall q s, created_small q -> greach q s -> In HDestroyed (g_log s) -> g_wk s = WDone /\ settled s.
Proof.
  intros q s C H X. destruct (HdTsoProof3.gdestroyed_done q (Props_Handler.small_good q C) (Props_Handler.small_size q C) s H X) as (A & _ & B). auto.
Qed.

(** executable schedules; an action that is not possible is skipped. GFl: the oldest store of the pusher (0), of the worker to the queue (1), of the worker
    to the flag (2), of the destroyer (3) reaches memory *)
Inductive gact := GW (c : choice) | GP | GD | GFl (n : nat) | GCall (m : list Z) | GDestroy.
Definition gact_step (s : gst) (a : gact) : option gst :=
  match a with
  | GW c => match gwexec c s with Ret (Some s') => Some s' | _ => None end
  | GP => match gpexec s with Ret (Some s') => Some s' | _ => None end
  | GD => gdexec s
  | GFl 0 => match t_wbuf (g_q s) with e :: b => match commit (tset_wbuf (g_q s) b) e with Ret i => Some (gset_q s i) | _ => None end | [] => None end
  | GFl 1 => match t_rbuf (g_q s) with x :: b => Some (gset_q s (tset_rbuf (tset_out (g_q s) x) b)) | [] => None end
  | GFl 2 => if g_wfl s then Some (gset_wfl (gset_flag s true) false) else None
  | GFl _ => if g_dfl s then Some (gset_dfl (gset_flag s true) false) else None
  | GCall m => match g_pr s, g_ds s with HIdle, DNone => if (0 <? zlen m) && (zlen m <? two32) then Some (gset_pr (gemit s (HPush m)) (H145 m)) else None | _, _ => None end
  | GDestroy => match g_ds s, g_pr s with DNone, HIdle => Some (gset_ds (gemit s HDestroy) D174) | _, _ => None end
  end.
Fixpoint ggo (s : gst) (l : list gact) : gst := match l with [] => s | a :: l => match gact_step s a with Some s' => ggo s' l | None => ggo s l end end.
Lemma ggo_reach q : forall l s, greach q s -> greach q (ggo s l).
Proof.
  induction l as [|a l IH]; intros s H; cbn; [exact H|].
  destruct (gact_step s a) as [s1|] eqn:EA; [|auto]. apply IH. apply (GRS q s s1 H).
  destruct a as [c| | |n|m|]; cbn in EA.
  - destruct (gwexec c s) as [[x|]| | |] eqn:EW; try discriminate. injection EA as <-. eapply GSW; eauto.
  - destruct (gpexec s) as [[x|]| | |] eqn:EW; try discriminate. injection EA as <-. apply GSP; auto.
  - apply GSD; auto.
  - apply GSF. destruct n as [|[|[|n]]].
    + destruct (t_wbuf (g_q s)) as [|e b] eqn:EB; [discriminate|]. destruct (commit _ _) as [i| | |] eqn:EC; try discriminate. injection EA as <-. eapply GFW; eauto.
    + destruct (t_rbuf (g_q s)) as [|x b] eqn:EB; [discriminate|]. injection EA as <-. eapply GFR; eauto.
    + destruct (g_wfl s) eqn:EB; [|discriminate]. injection EA as <-. apply GFF; auto.
    + destruct (g_dfl s) eqn:EB; [|discriminate]. injection EA as <-. apply GFD; auto.
  - destruct (g_pr s) eqn:EP; try discriminate. destruct (g_ds s) eqn:ED; try discriminate.
    destruct (_ && _) eqn:EB; [|discriminate]. injection EA as <-. apply GSCall; auto. lia.
  - destruct (g_ds s) eqn:ED; try discriminate. destruct (g_pr s) eqn:EP; try discriminate. injection EA as <-. apply GSDestroy; auto.
Qed.
Notation demo_q := Props_Handler.demo_q.

(** ** What does not hold *)
(** A push that begins after the worker has ended, and whose stores are all in memory, can still be accepted, because the worker's store of the exit flag is
    not in memory yet: the message is never delivered, and the pusher is told it was taken. *)
Definition late_run : list gact := [GW {| c_mem := None; c_ret := 0 |}; GCall [7; 8]] ++ repeat GP 40 ++ repeat (GFl 0) 20 ++ repeat GP 5.
Theorem C83_push_after_end_refused_refuted : exists s, created_small demo_q /\ greach demo_q s /\
  (g_log s, g_wk s, t_wbuf (g_q s)) = ([HPushRet [7; 8] 0; HPush [7; 8]; HOom], WDone, []).
Proof.
  exists (ggo (gboot demo_q) late_run). split; [exact Props_Handler.C29_demo_queue|]. split; [apply ggo_reach, GR0|]. vm_compute. reflexivity.
Qed.

(** ** A run that meets the hypotheses: two messages whose stores reach memory late; the worker ends asleep with its store of the read offset still on its
    way, everything delivered. *)
Definition W_ n := repeat (GW {| c_mem := Some (repeat 0 (Z.to_nat 4096)); c_ret := 0 |}) n.
Definition demo_run : list gact :=
  W_ 3 ++ [GCall [7; 8]] ++ repeat GP 30 ++ W_ 2 ++ repeat (GFl 0) 20 ++ repeat GP 3 ++ [GCall [9]] ++ repeat GP 30 ++ W_ 60 ++ repeat (GFl 0) 20 ++ repeat GP 3 ++
  W_ 30 ++ repeat (GFl 1) 3 ++ W_ 60.
Definition demo_end : gst := ggo (gboot demo_q) demo_run.
Definition endedb (l : list hev) : bool := existsb (fun e => match e with HCbRet r => negb (r =? 0) | HOom | HDestroy => true | _ => false end) l.
Lemma endedb_false l : endedb l = false -> ~ ended l.
Proof.
  intros H [(r & X & Y)|[X|X]]; unfold endedb in H; rewrite <- not_true_iff_false in H; apply H, existsb_exists; eexists; (split; [exact X|]); cbn; auto.
  destruct (r =? 0) eqn:E; [lia|reflexivity].
Qed.
Lemma demo_summary : (g_wk demo_end, g_sem demo_end, g_pr demo_end, haccepted (g_log demo_end), map (firstn 3) (callbacks (g_log demo_end)), endedb (g_log demo_end), t_rbuf (g_q demo_end)) =
  (W66, 0, HIdle, [[7; 8]; [9]], [[7; 8; 0]; [9; 8; 0]], false, [10; 11]).
Proof. vm_compute. reflexivity. Qed.
Example C83_demo : greach demo_q demo_end /\ gasleep demo_end /\ g_pr demo_end = HIdle /\ ~ ended (g_log demo_end) /\
  haccepted (g_log demo_end) = [[7; 8]; [9]] /\ t_rbuf (g_q demo_end) <> [].
Proof.
  split; [apply ggo_reach, GR0|]. pose proof demo_summary as S. revert S. generalize demo_end. intros s S.
  assert (g_wk s = W66 /\ g_sem s = 0 /\ g_pr s = HIdle /\ haccepted (g_log s) = [[7; 8]; [9]] /\ endedb (g_log s) = false /\ t_rbuf (g_q s) = [10; 11]) as (A & B & C & D & E & F) by (repeat split; congruence).
  split; [split; assumption|]. split; [assumption|]. split; [apply endedb_false; assumption|]. split; [assumption|]. rewrite F. discriminate.
Qed.
(** ... and one of destroy: it returns with the worker over *)
Definition demo_end2 : gst := ggo demo_end ([GDestroy] ++ repeat GD 3 ++ [GFl 3] ++ repeat GD 3 ++ repeat (GFl 1) 3 ++ W_ 5 ++ repeat GD 3 ++ [GFl 2] ++ repeat GD 2).
Example C83_demo_destroy : greach demo_q demo_end2 /\ In HDestroyed (g_log demo_end2).
Proof.
  split; [apply ggo_reach, C83_demo|].
  assert (existsb (fun e => match e with HDestroyed => true | _ => false end) (g_log demo_end2) = true) as H by (vm_compute; reflexivity).
  apply existsb_exists in H. destruct H as (x & X & Y). destruct x; try discriminate Y. exact X.
Qed.

Lemma gdone_flag q s : greach q s -> g_wk s = WDone -> g_wfl s = true \/ g_flag s = true.
Proof.
  induction 1 as [|s s' H IH HS]; [discriminate|]. destruct HS as [s c s' HW|s s' HP|s s' HD|s s' HF|s m A B|s A B]; try exact IH.
  - unfold gwexec in HW. destruct (g_wk s) eqn:EW; try discriminate.
    + destruct (c_mem c) as [b|]; [|injection HW as <-; left; reflexivity]. destruct (_ =? _); [|discriminate]. injection HW as <-. discriminate.
    + injection HW as <-. cbn. destruct (_ || _); discriminate.
    + destruct (t_rbuf _); [|discriminate]. destruct (_ <? _); [|discriminate]. injection HW as <-. discriminate.
    + injection HW as <-. cbn. destruct (_ || _); discriminate.
    + injection HW as <-. discriminate.
    + destruct (tcstep (g_q s)) as [i| | |]; cbn [bind] in HW; try discriminate. injection HW as <-.
      destruct (t_cp (g_q s)); cbn; try (rewrite EW; discriminate). destruct (_ =? _); [discriminate|]. destruct (_ =? _); discriminate.
    + destruct (roundup_power2 size); cbn [bind] in HW; try discriminate. destruct (c_mem c) as [b|]; [destruct (_ =? _); [|discriminate]|]; injection HW as <-; discriminate.
    + injection HW as <-. discriminate.
    + injection HW as <-. cbn. destruct (_ =? _); discriminate.
    + injection HW as <-. left; reflexivity.
  - assert (g_wk s' = g_wk s /\ g_wfl s' = g_wfl s /\ g_flag s' = g_flag s) as (-> & -> & ->); [|exact IH]. unfold gpexec in HP. destruct (g_pr s); try discriminate.
    + destruct (g_flag s) eqn:F; injection HP as <-; cbn; auto.
    + destruct (tpstep (g_q s)); cbn [bind] in HP; try discriminate. injection HP as <-. destruct (t_pp (g_q s)); try (repeat split; reflexivity). destruct (_ =? _); repeat split; reflexivity.
    + destruct (t_wbuf _); [|discriminate]. injection HP as <-. repeat split; reflexivity.
    + injection HP as <-. repeat split; reflexivity.
  - unfold gdexec in HD. destruct (g_ds s); try discriminate; try (injection HD as <-; exact IH).
    + destruct (g_dfl s); [discriminate|]. injection HD as <-. exact IH.
    + destruct (g_wk s) eqn:EW; try discriminate. destruct (t_rbuf _); [|discriminate]. destruct (g_wfl s) eqn:EF; [discriminate|]. injection HD as <-. cbn. rewrite EW, EF. exact IH.
  - destruct HF as [s e b i EB EC|s x b EB|s EB|s EB]; try exact IH; intros; right; reflexivity.
Qed.
(** A push that tests the flag after the worker has ended, its store of the flag being in memory, answers 2. *)
Theorem C83_push_refused_after_end : forall q s m, greach q s -> g_wk s = WDone -> g_wfl s = false -> g_pr s = H145 m ->
  exists s', gpexec s = Ret (Some s') /\ g_pr s' = HRet m 2.
Proof.
  intros q s m H D W P. destruct (gdone_flag q s H D) as [F|F]; [congruence|]. unfold gpexec. rewrite P, F. eexists. split; reflexivity.
Qed.
Example C83_push_refused_demo : let s := ggo (gboot demo_q) [GW {| c_mem := None; c_ret := 0 |}; GFl 2; GCall [7; 8]] in
  greach demo_q s /\ g_wk s = WDone /\ g_wfl s = false /\ g_pr s = H145 [7; 8].
Proof. split; [apply ggo_reach, GR0|]. repeat split; vm_compute; reflexivity. Qed.

(** A push answered "full" had no room but for the message passed to the callback last: when it was called, the accepted messages not passed to the callback,
    that one counted among them (each its length + 4 bytes), and the new one did not fit the queue together. *)
Theorem C83_full_means_no_room : forall q s l2 m l, created_small q -> greach q s -> g_log s = l2 ++ HPushRet m 5 :: l ->
  rb_size q < SpscSpec.occupied (skipn (length (callbacks (at_hpush l)) - 1) (haccepted (at_hpush l))) + 4 + zlen m.
Proof. intros q s l2 m l C H. apply (HdTsoProof4.g_full q (Props_Handler.small_good q C) (Props_Handler.small_size q C) s H). Qed.
(** The exception is needed: a push after the callback of the only message is answered "full", the worker's stores of the read offset being on their way; without
    delayed stores it would have had to succeed (C29_handler_full_means_no_room). *)
Definition full_run : list gact := W_ 3 ++ [GCall [1; 2; 3]] ++ repeat GP 30 ++ repeat (GFl 0) 20 ++ repeat GP 3 ++ W_ 60 ++ [GCall [4]] ++ repeat GP 10.
Definition full_end : gst := ggo (gboot Props_Handler.demo_q8) full_run.
Lemma full_summary : match g_log full_end with HPushRet m c :: l => (m, c, length (callbacks (at_hpush l)), haccepted (at_hpush l)) | _ => ([], 0, 0%nat, []) end =
  ([4], 5, 1%nat, [[1; 2; 3]]).
Proof. vm_compute. reflexivity. Qed.
Theorem C83_full_means_no_room_exactly_refuted : exists q s m l, created_small q /\ greach q s /\ g_log s = HPushRet m 5 :: l /\
  SpscSpec.occupied (hwaiting (at_hpush l)) + 4 + zlen m <= rb_size q.
Proof.
  exists Props_Handler.demo_q8, full_end. pose proof full_summary as S. assert (greach Props_Handler.demo_q8 full_end) as R by apply ggo_reach, GR0. revert S R. generalize full_end. intros s S R.
  destruct (g_log s) as [|[m|m c|b|r| | |] l] eqn:E; try discriminate S. injection S as -> -> S1 S2.
  exists [4], l. split; [apply Props_Handler.C29_full_demo|]. split; [exact R|]. split; [reflexivity|].
  unfold hwaiting. rewrite S1, S2. vm_compute. discriminate.
Qed.

Print Assumptions C83_no_fault.
Print Assumptions C83_in_order_once.
Print Assumptions C83_all_delivered.
Print Assumptions C83_progress.
Print Assumptions C83_no_endless_polling.
Print Assumptions C83_push_answers.
Print Assumptions C83_destroy_wakes.
Print Assumptions C83_destroyed_means_finished.
Print Assumptions C83_push_after_end_refused_refuted.
Print Assumptions C83_push_refused_after_end.
Print Assumptions C83_full_means_no_room.
Print Assumptions C83_full_means_no_room_exactly_refuted.
