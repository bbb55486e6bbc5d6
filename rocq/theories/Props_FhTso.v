(** C85: the fixed message queue handler between three threads when stores reach memory late (x86-TSO). *)
From Verif Require Import CBase RingBuffer2Model FixedQueueModel FHandlerModel FHandlerSpec FHandlerSpec2 FhTsoModel FhTsoSpec.
From Verif Require FhTsoProof5 FhTsoProof6 Props_FHandler.

(** as in C30: whatever fixed_msg_queue_create returns, and fewer than 2^64 - 2 messages accepted so far *)
Notation fcreated := Props_FHandler.fcreated.
Definition young (s : ft) : Prop := zlen (kaccepted (x_log s)) + 2 < two64.

(** No schedule and no delay of stores makes a thread access memory out of bounds, and every byte on its way lies in the data area. *)
Theorem C85_no_fault : forall q s r, fcreated q -> xreach q s -> young s ->
  (exists o, xwexec (fq_one q) r s = Ret o) /\ (exists o, xpexec (fq_one q) s = Ret o) /\
  (forall e b, x_cb s = e :: b -> exists s', xcommit (xset_cb s b) e = Ret s').
Proof. intros q s r C H Y. destruct (Props_FHandler.fcreated_good q C). apply FhTsoProof5.x_no_fault; auto. Qed.

(** In order, at most once, unmodified: the k-th message sent is delivered as itself, and after every message delivered before it. *)
Theorem C85_in_order_at_most_once : forall q s later k m earlier, fcreated q -> xreach q s -> young s ->
  x_log s = later ++ KCb k m :: earlier ->
  znth k (ksent (x_log s)) = Some m /\ forall k' m', In (KCb k' m') earlier -> k' < k.
Proof. intros q s later k m earlier C H Y. destruct (Props_FHandler.fcreated_good q C). apply (FhTsoProof5.x_order q); auto. Qed.

(** Nothing pushed after the latest clear is lost: when the worker sleeps, no call is under way and nothing has ended the handler, each of these messages has
    been delivered, whatever stores are still on their way. *)
Theorem C85_nothing_lost_after_clear : forall q s k, fcreated q -> xreach q s -> young s ->
  xasleep s -> x_pr s = FIdle -> ~ kended (x_log s) ->
  cleared (x_log s) <= k < zlen (kaccepted (x_log s)) -> exists m, In (KCb k m) (x_log s).
Proof. intros q s k C H Y. destruct (Props_FHandler.fcreated_good q C). apply (FhTsoProof5.x_all q); auto. Qed.
(** ... and the worker gets there: unless finished it sleeps, can take a step, or waits in sem_wait for a store of its own, which can reach memory; between two
    sem_waits it takes at most [one] + 8 steps. *)
Theorem C85_progress : forall q s, fcreated q -> xreach q s -> young s ->
  x_wk s = VDone \/ xasleep s \/ (exists s', xwexec (fq_one q) 0 s = Ret (Some s')) \/ (x_wk s = V49 /\ x_ob s <> [] /\ exists s', xflush s s').
Proof. intros q s C H Y. destruct (Props_FHandler.fcreated_good q C). apply (FhTsoProof5.x_progress q); auto. Qed.
Theorem C85_bounded_work : forall q n s s', fcreated q -> xreach q s -> young s' ->
  xvrun (fq_one q) n s s' -> Z.of_nat n <= fq_one q + 8.
Proof. intros q n s s' C H Y R. destruct (Props_FHandler.fcreated_good q C). eapply (FhTsoProof5.xvrun_bound q n s s'); eauto. Qed.

(** When the worker has caught up - it sleeps and its stores are in memory - there is room for a message, if the queue can hold one at all. *)
Theorem C85_room_when_caught_up : forall q s m w, fcreated q -> xreach q s -> young s -> fq_one q <= x_size s ->
  xasleep s -> x_ob s = [] -> ~ kended (x_log s) -> x_pr s = F39 m w -> xpexec (fq_one q) s = Ret (Some (xset_pr s (F196 m w))).
Proof. intros q s m w C H Y. destruct (Props_FHandler.fcreated_good q C). apply (FhTsoProof5.x_room q); auto. Qed.

(** A push answered "full" had no room, except that the slot of the message taken last need not count as free yet: when it was called, the messages
    accepted so far, from the one of the latest callback on, and the new one did not fit the queue together. *)
Theorem C85_full_means_no_room : forall q s l2 m l, fcreated q -> xreach q s -> young s -> x_log s = l2 ++ KPushRet m 5 :: l ->
  rb_size (fq_ring q) < fq_one q * (zlen (kaccepted (at_kpush l)) - Z.max 0 (kupto (at_kpush l) - 1) + 1).
Proof. intros q s l2 m l C H Y. destruct (Props_FHandler.fcreated_good q C). apply (FhTsoProof6.x_full q); auto. Qed.

(** Clear takes effect with the next successful push: once that push has returned at most one callback - the very first one - can still be for a message
    accepted before the clear. *)
Theorem C85_clear_after_next_push : forall q s later k m mid m0 mid2 earlier, fcreated q -> xreach q s -> young s ->
  x_log s = later ++ KCb k m :: mid ++ KPushRet m0 0 :: mid2 ++ KClearRet :: earlier ->
  k < zlen (kaccepted earlier) -> forall k' m', ~ In (KCb k' m') mid.
Proof.
  intros q s later k m mid m0 mid2 earlier C H Y E L. destruct (Props_FHandler.fcreated_good q C).
  destruct (FhTsoProof5.x_clear q ltac:(auto) ltac:(auto) s later k m mid m0 mid2 earlier H Y E); [lia|assumption].
Qed.

(** Destroy never waits for a sleeping worker: its store of the flag is in memory before the worker is woken ... *)
Theorem C85_destroy_wakes : forall q s, fcreated q -> xreach q s -> young s -> x_ds s = E168 -> x_flag s = true /\ ~ xasleep s.
Proof. intros q s C H Y. destruct (Props_FHandler.fcreated_good q C). apply (FhTsoProof5.x_join q); auto. Qed.
(** ... and once destroy has returned the worker has finished, and no store to the memory that destroy frees is on its way, but for those of clear. *)
Theorem C85_destroyed_means_finished : forall q s, fcreated q -> xreach q s -> young s -> In KDestroyed (x_log s) -> x_wk s = VDone /\ xsettled s.
Proof. intros q s C H Y. destruct (Props_FHandler.fcreated_good q C). apply (FhTsoProof5.x_destroyed_settled q); auto. Qed.

(** ** Concrete runs; an action that is not possible is skipped. YF: the oldest store of the client (0), of the worker to out (1), of the worker to the flag (2),
    of the destroyer (3) reaches memory *)
Inductive yact := YW (r : Z) | YP | YD | YF (n : nat) | YPush (m : list Z) | YClear | YDestroy.
Definition yact_step (one : Z) (s : ft) (a : yact) : option ft :=
  match a with
  | YW r => match xwexec one r s with Ret (Some s') => Some s' | _ => None end
  | YP => match xpexec one s with Ret (Some s') => Some s' | _ => None end
  | YD => xdexec s
  | YF 0 => match x_cb s with e :: b => match xcommit (xset_cb s b) e with Ret s' => Some s' | _ => None end | [] => None end
  | YF 1 => match x_ob s with x :: b => Some (xset_ob (xset_out s x) b) | [] => None end
  | YF 2 => if x_wfl s then Some (xset_wfl (xset_flag s true) false) else None
  | YF _ => if x_dfl s then Some (xset_dfl (xset_flag s true) false) else None
  | YPush m => match x_pr s, x_ds s with FIdle, ENone => if zlen m + 8 =? one then Some (xset_pr (xemit s (KPush m)) (F111 m)) else None | _, _ => None end
  | YClear => match x_pr s, x_ds s with FIdle, ENone => Some (xset_pr (xemit s KClear) F153) | _, _ => None end
  | YDestroy => match x_ds s, x_pr s with ENone, FIdle => Some (xset_ds (xemit s KDestroy) E165) | _, _ => None end
  end.
Fixpoint ygo (one : Z) (s : ft) (l : list yact) : ft :=
  match l with [] => s | a :: l => match yact_step one s a with Some s' => ygo one s' l | None => ygo one s l end end.
Lemma ygo_reach q : forall l s, xreach q s -> xreach q (ygo (fq_one q) s l).
Proof.
  induction l as [|a l IH]; intros s H; cbn; [exact H|].
  destruct (yact_step (fq_one q) s a) as [s1|] eqn:EA; [|auto]. apply IH. apply (XRS q s s1 H).
  destruct a as [r| | |n|m| |]; cbn in EA.
  - destruct (xwexec (fq_one q) r s) as [[x|]| | |] eqn:EW; try discriminate. injection EA as <-. eapply XSW; eauto.
  - destruct (xpexec (fq_one q) s) as [[x|]| | |] eqn:EW; try discriminate. injection EA as <-. apply XSP; auto.
  - apply XSD; auto.
  - apply XSF. destruct n as [|[|[|n]]].
    + destruct (x_cb s) as [|e b] eqn:EB; [discriminate|]. destruct (xcommit _ _) as [i| | |] eqn:EC; try discriminate. injection EA as <-. eapply XFC; eauto.
    + destruct (x_ob s) as [|x b] eqn:EB; [discriminate|]. injection EA as <-. eapply XFO; eauto.
    + destruct (x_wfl s) eqn:EB; [|discriminate]. injection EA as <-. apply XFW; auto.
    + destruct (x_dfl s) eqn:EB; [|discriminate]. injection EA as <-. apply XFD; auto.
  - destruct (x_pr s) eqn:EP; try discriminate. destruct (x_ds s) eqn:ED; try discriminate.
    destruct (_ =? _) eqn:EB; [|discriminate]. injection EA as <-. apply XSPush; auto. lia.
  - destruct (x_pr s) eqn:EP; try discriminate. destruct (x_ds s) eqn:ED; try discriminate. injection EA as <-. apply XSClear; auto.
  - destruct (x_ds s) eqn:ED; try discriminate. destruct (x_pr s) eqn:EP; try discriminate. injection EA as <-. apply XSDestroy; auto.
Qed.
Notation demo_q := Props_FHandler.demo_q.
Definition push_ m : list yact := [YPush m] ++ repeat YP 20 ++ repeat (YF 0) 20 ++ repeat YP 20.
Definition work_ : list yact := repeat (YW 0) 30 ++ [YF 1].

(** ** What does not hold *)
(** After clear has returned any number of callbacks can be for messages pushed before it, as long as its store is on its way (here two: the bound of C30 is gone). *)
Theorem C85_clear_at_most_one_late_refuted : exists s, fcreated demo_q /\ xreach demo_q s /\
  x_log s = [KCbRet 0; KCb 1 [9; 9]; KCbRet 0; KCb 0 [7; 8]; KClearRet; KClear; KPushRet [9; 9] 0; KPush [9; 9]; KPushRet [7; 8] 0; KPush [7; 8]].
Proof.
  exists (ygo 10 (xboot demo_q) (push_ [7; 8] ++ push_ [9; 9] ++ [YClear; YP; YP] ++ work_ ++ work_)).
  split; [exact Props_FHandler.C30_demo_queue|]. split; [apply (ygo_reach demo_q), XR0|]. vm_compute. reflexivity.
Qed.
(** A clear whose thread is not synchronised with the one that calls destroy can store to the handler after destroy has freed it. *)
Theorem C85_nothing_stored_after_destroy_refuted : exists s, fcreated demo_q /\ xreach demo_q s /\
  (x_log s, x_cb s) = ([KDestroyed; KDestroy; KClearRet; KClear], [CMin 0]).
Proof.
  exists (ygo 10 (xboot demo_q) ([YClear; YP; YP; YDestroy; YD; YF 3; YD] ++ repeat (YW 0) 10 ++ [YF 2; YD])).
  split; [exact Props_FHandler.C30_demo_queue|]. split; [apply (ygo_reach demo_q), XR0|]. vm_compute. reflexivity.
Qed.

(** ** Runs that meet the hypotheses: full queue (seen through a late store of out), clear with messages waiting, a push that makes it take effect, index
    wrap-around; it ends with the worker asleep, a store of it on its way, nothing ended. *)
Definition demo_end : ft :=
  ygo 10 (xboot demo_q)
    (push_ [1; 1] ++ push_ [2; 2] ++ push_ [3; 3] ++ repeat (YW 0) 20 ++ push_ [4; 4] ++ [YF 1] ++ [YClear; YP; YP] ++ push_ [5; 5] ++ work_ ++ work_ ++ work_ ++
     push_ [6; 6] ++ repeat (YW 0) 30).
Lemma demo_summary : (rev (x_log demo_end), x_wk demo_end, x_sem demo_end, x_pr demo_end, x_ob demo_end, x_cb demo_end) =
  ([KPush [1; 1]; KPushRet [1; 1] 0; KPush [2; 2]; KPushRet [2; 2] 0; KPush [3; 3]; KPushRet [3; 3] 0; KCb 0 [1; 1]; KCbRet 0; KPush [4; 4]; KPushRet [4; 4] 5;
    KClear; KClearRet; KPush [5; 5]; KPushRet [5; 5] 0; KCb 3 [5; 5]; KCbRet 0; KPush [6; 6]; KPushRet [6; 6] 0; KCb 4 [6; 6]; KCbRet 0],
   V49, 0, FIdle, [50], []).
Proof. vm_compute. reflexivity. Qed.
Definition kendedb (l : list kev) : bool := existsb (fun e => match e with KCbRet r => negb (r =? 0) | KDestroy => true | _ => false end) l.
Lemma kendedb_false l : kendedb l = false -> ~ kended l.
Proof.
  intros H [(r & X & Y)|X]; unfold kendedb in H; rewrite <- not_true_iff_false in H; apply H, existsb_exists; eexists; (split; [exact X|]); cbn; auto.
  destruct (r =? 0) eqn:E; [lia|reflexivity].
Qed.
Lemma demo_summary2 : (zlen (kaccepted (x_log demo_end)), kendedb (x_log demo_end), cleared (x_log demo_end)) = (5, false, 3).
Proof. vm_compute. reflexivity. Qed.
Example C85_demo : xreach demo_q demo_end /\ young demo_end /\ xasleep demo_end /\ x_pr demo_end = FIdle /\ ~ kended (x_log demo_end) /\
  cleared (x_log demo_end) = 3 /\ zlen (kaccepted (x_log demo_end)) = 5 /\ x_ob demo_end <> [].
Proof.
  split; [apply (ygo_reach demo_q), XR0|]. pose proof demo_summary as S. pose proof demo_summary2 as S2. revert S S2. generalize demo_end. intros s S S2.
  assert (x_wk s = V49 /\ x_sem s = 0 /\ x_pr s = FIdle /\ x_ob s = [50]) as (B & C & D & E) by (repeat split; congruence).
  assert (zlen (kaccepted (x_log s)) = 5 /\ kendedb (x_log s) = false /\ cleared (x_log s) = 3) as (F & G & J) by (repeat split; congruence).
  split; [unfold young; rewrite F; reflexivity|]. split; [split; assumption|]. split; [assumption|]. split; [apply kendedb_false; assumption|].
  split; [assumption|]. split; [assumption|]. rewrite E. discriminate.
Qed.
(** ... and one in which the queue has been full before and C85_room_when_caught_up applies *)
Definition demo_room : ft := ygo 10 demo_end [YF 1; YPush [7; 8]; YP; YP].
Lemma demo_room_summary : (x_wk demo_room, x_sem demo_room, x_pr demo_room, x_ob demo_room, x_size demo_room) =
  (V49, 0, F39 [7; 8] [5; 0; 0; 0; 0; 0; 0; 0; 7; 8], [], 32).
Proof. vm_compute. reflexivity. Qed.
Lemma demo_room_summary2 : (zlen (kaccepted (x_log demo_room)), kendedb (x_log demo_room)) = (5, false).
Proof. vm_compute. reflexivity. Qed.
Example C85_demo_room : xreach demo_q demo_room /\ young demo_room /\ fq_one demo_q <= x_size demo_room /\ xasleep demo_room /\ x_ob demo_room = [] /\
  ~ kended (x_log demo_room) /\ x_pr demo_room = F39 [7; 8] [5; 0; 0; 0; 0; 0; 0; 0; 7; 8].
Proof.
  split; [apply (ygo_reach demo_q), C85_demo|]. pose proof demo_room_summary as S. pose proof demo_room_summary2 as S2. revert S S2. generalize demo_room. intros s S S2.
  injection S as B C D E F. injection S2 as G J.
  split; [unfold young; rewrite G; reflexivity|]. split; [rewrite F; discriminate|]. split; [split; assumption|]. split; [assumption|].
  split; [apply kendedb_false; assumption|assumption].
Qed.
(** ... its log has the form of C85_clear_after_next_push *)
Example C85_demo_clear : exists later mid mid2 earlier, x_log demo_end = later ++ KCb 3 [5; 5] :: mid ++ KPushRet [5; 5] 0 :: mid2 ++ KClearRet :: earlier.
Proof.
  pose proof demo_summary as S. revert S. generalize demo_end. intros s S. assert (x_log s = rev (fst (fst (fst (fst (fst (rev (x_log s), x_wk s, x_sem s, x_pr s, x_ob s, x_cb s))))))) as E by (cbn [fst]; rewrite rev_involutive; reflexivity).
  rewrite S in E. cbn [fst rev app] in E. rewrite E. exists [KCbRet 0; KCb 4 [6; 6]; KPushRet [6; 6] 0; KPush [6; 6]; KCbRet 0], [], [KPush [5; 5]]. eexists. reflexivity.
Qed.
(** ... a push in it is answered "full" although the message of the latest callback has left the queue: the bound of C30_full_means_no_room does not hold *)
Theorem C85_full_means_no_room_exactly_refuted : exists s l2 m l, fcreated demo_q /\ xreach demo_q s /\ young s /\ x_log s = l2 ++ KPushRet m 5 :: l /\
  fq_one demo_q * (zlen (kaccepted (at_kpush l)) - kupto (at_kpush l) + 1) <= rb_size (fq_ring demo_q).
Proof.
  exists demo_end. pose proof demo_summary as S. pose proof C85_demo as (R & Y & _). revert S R Y. generalize demo_end. intros s S R Y.
  assert (x_log s = rev (fst (fst (fst (fst (fst (rev (x_log s), x_wk s, x_sem s, x_pr s, x_ob s, x_cb s))))))) as E by (cbn [fst]; rewrite rev_involutive; reflexivity).
  rewrite S in E. cbn [fst rev app] in E. rewrite E.
  exists [KCbRet 0; KCb 4 [6; 6]; KPushRet [6; 6] 0; KPush [6; 6]; KCbRet 0; KCb 3 [5; 5]; KPushRet [5; 5] 0; KPush [5; 5]; KClearRet; KClear], [4; 4].
  eexists. split; [exact Props_FHandler.C30_demo_queue|]. split; [exact R|]. split; [exact Y|]. split; [reflexivity|]. vm_compute. discriminate.
Qed.
(** ... and one of destroy *)
Definition demo_end2 : ft := ygo 10 demo_end ([YDestroy; YD; YF 3; YD; YF 1] ++ repeat (YW 0) 10 ++ [YF 2; YD]).
Example C85_demo_destroy : xreach demo_q demo_end2 /\ young demo_end2 /\ In KDestroyed (x_log demo_end2).
Proof.
  split; [apply (ygo_reach demo_q), C85_demo|].
  split; [unfold young; assert (zlen (kaccepted (x_log demo_end2)) = 5) as -> by (vm_compute; reflexivity); reflexivity|].
  assert (existsb (fun e => match e with KDestroyed => true | _ => false end) (x_log demo_end2) = true) as H by (vm_compute; reflexivity).
  apply existsb_exists in H. destruct H as (x & X & Y). destruct x; try discriminate Y. exact X.
Qed.

Lemma xdone_flag q s : xreach q s -> x_wk s = VDone -> x_wfl s = true \/ x_flag s = true.
Proof.
  induction 1 as [|s s' H IH HS]; [discriminate|]. destruct HS as [s r s' HW|s s' HP|s s' HD|s s' HF|s m A B C|s A B|s A B]; try exact IH.
  - unfold xwexec in HW. destruct (x_wk s) eqn:EW; try discriminate; try (injection HW as <-; cbn; discriminate); try (injection HW as <-; left; reflexivity).
    + destruct (x_ob s); [|discriminate]. destruct (_ <? _); [|discriminate]. injection HW as <-. discriminate.
    + injection HW as <-. cbn. destruct (_ || _); discriminate.
    + injection HW as <-. cbn. destruct (_ =? _); discriminate.
    + destruct (_ =? _); injection HW as <-; discriminate.
    + destruct (_ <? _); [|injection HW as <-; cbn; destruct (_ =? _); discriminate].
      destruct (mload _ _); cbn [bind] in HW; try discriminate. destruct (mstore _ _ _); cbn [bind] in HW; try discriminate. injection HW as <-. discriminate.
    + injection HW as <-. cbn. destruct (_ >=? _); discriminate.
    + injection HW as <-. cbn. destruct (_ =? _); discriminate.
  - assert (x_wk s' = x_wk s /\ x_wfl s' = x_wfl s /\ x_flag s' = x_flag s) as (-> & -> & ->); [|exact IH].
    unfold xpexec in HP. destruct (x_pr s); try discriminate; try (injection HP as <-; repeat split; reflexivity).
    + destruct (_ =? _); injection HP as <-; repeat split; reflexivity.
    + destruct (_ <? _); [|injection HP as <-; repeat split; reflexivity].
      destruct (mload _ _); cbn [bind] in HP; try discriminate. injection HP as <-; repeat split; reflexivity.
    + destruct (x_cb s); [|discriminate]. injection HP as <-; repeat split; reflexivity.
  - unfold xdexec in HD. destruct (x_ds s); try discriminate; try (injection HD as <-; exact IH).
    + destruct (x_dfl s); [discriminate|]. injection HD as <-. exact IH.
    + destruct (x_wk s) eqn:EW; try discriminate. destruct (x_ob s); [|discriminate]. destruct (x_wfl s) eqn:EF; [discriminate|]. injection HD as <-. cbn. rewrite EW, EF. exact IH.
  - destruct HF as [s e b s2 EB EC|s x b EB|s EB|s EB]; try exact IH; try (intros; right; reflexivity).
    assert (x_wk s2 = x_wk s /\ x_wfl s2 = x_wfl s /\ x_flag s2 = x_flag s) as (-> & -> & ->); [|exact IH].
    destruct e; cbn [xcommit] in EC; try (injection EC as <-; repeat split; reflexivity).
    destruct (mstore _ _ _); cbn [bind] in EC; try discriminate. injection EC as <-; repeat split; reflexivity.
Qed.
(** A push that tests the flag after the worker has ended, its store of the flag being in memory, answers 2. *)
Theorem C85_push_refused_after_end : forall q s m, xreach q s -> x_wk s = VDone -> x_wfl s = false -> x_pr s = F111 m ->
  exists s', xpexec (fq_one q) s = Ret (Some s') /\ x_pr s' = FRet m 2.
Proof.
  intros q s m H D W P. destruct (xdone_flag q s H D) as [F|F]; [congruence|]. unfold xpexec. rewrite P, F. eexists. split; reflexivity.
Qed.
Example C85_push_refused_demo : let s := ygo 10 (xboot demo_q) (push_ [1; 1] ++ repeat (YW 1) 40 ++ [YF 1; YF 2; YPush [7; 8]]) in
  xreach demo_q s /\ x_wk s = VDone /\ x_wfl s = false /\ x_pr s = F111 [7; 8].
Proof. split; [apply (ygo_reach demo_q), XR0|]. repeat split; vm_compute; reflexivity. Qed.

Print Assumptions C85_no_fault.
Print Assumptions C85_in_order_at_most_once.
Print Assumptions C85_nothing_lost_after_clear.
Print Assumptions C85_progress.
Print Assumptions C85_bounded_work.
Print Assumptions C85_clear_after_next_push.
Print Assumptions C85_destroy_wakes.
Print Assumptions C85_destroyed_means_finished.
Print Assumptions C85_clear_at_most_one_late_refuted.
Print Assumptions C85_nothing_stored_after_destroy_refuted.
Print Assumptions C85_push_refused_after_end.
Print Assumptions C85_room_when_caught_up.
Print Assumptions C85_full_means_no_room.
Print Assumptions C85_full_means_no_room_exactly_refuted.
