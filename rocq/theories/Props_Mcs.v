(** C45: the MCS queue lock, for every number of threads and nodes and every interleaving. *)
From Verif Require Import CBase McsModel McsSpec McsProof McsProof2 McsProof6 McsProof7.

(** [calm]: CreateEvent succeeds, and a node is handed in again only when no thread is still about to
    touch it as its predecessor's node. *)

(** Never two threads between the return of acquire and the call of release. *)
Theorem C45_mcs_mutual_exclusion : forall s t u, mreach calm s -> holds_lock s t -> holds_lock s u -> t = u.
Proof.
  intros s t u R (n & P) (n' & P'). destruct (good_reach s R) as (q & d & I).
  eapply granted_unique; eauto; [rewrite P | rewrite P']; reflexivity.
Qed.

(** The lock is given in the order in which the threads queued (the exchange on the lock word). *)
Theorem C45_mcs_fifo : forall s, mreach calm s -> exists waiting, arrived (mlog s) = got (mlog s) ++ waiting.
Proof.
  intros s R. destruct (good_reach s R) as (q & d & I). rewrite (i_arr _ _ _ I), (i_got _ _ _ I). unfold headgot.
  destruct q as [|[n t] r]; [exists []; rewrite !app_nil_r; reflexivity|].
  destruct (granted (pcs s t)); [exists r; rewrite <- app_assoc; reflexivity | exists ((n, t) :: r); rewrite app_nil_r; reflexivity].
Qed.

(** No step uses a null successor or a closed event handle. *)
Theorem C45_mcs_no_fault : forall s t, mreach calm s -> exists r, mexec s t true = Ret r.
Proof. intros s t R. destruct (exec_ok s t (good_reach s R)) as (r & E & _). eauto. Qed.

(** No waiter is lost: when no thread can take a step, a thread inside a lock function waits for a thread
    that holds the lock and has not called release. *)
Theorem C45_mcs_no_lost_waiter : forall s, mreach calm s -> (forall t, mexec s t true = Ret None) ->
  forall u n, own (pcs s u) = Some n -> exists t, holds_lock s t.
Proof. intros s R. apply stuck_means_held. apply good_reach. exact R. Qed.

(** And that point is reached: each thread takes at most 12 steps per call, so a run without new calls
    ends. (The number goes down with each step of the thread and is not changed by steps of others.) *)
Theorem C45_mcs_steps_bounded : forall s t ok s', mexec s t ok = Ret (Some s') ->
  0 <= left_steps (pcs s' t) < left_steps (pcs s t) /\ left_steps (pcs s t) <= 12 /\
  forall u, u <> t -> left_steps (pcs s' u) = left_steps (pcs s u).
Proof.
  intros s t ok s' H. destruct (mexec_left _ _ _ _ H) as (A & B). split; [exact A|]. split.
  - destruct (pcs s t); cbn; try lia; destruct k; lia.
  - intros u N. rewrite B by exact N. reflexivity.
Qed.

(** The lock word is free exactly when no thread holds the lock, waits for it or is giving it away. *)
Theorem C45_mcs_free_iff_unused : forall s, mreach calm s -> (tail s = None <-> forall t, inq (pcs s t) = None).
Proof.
  intros s R. destruct (good_reach s R) as (q & d & I). split.
  - intros T t. destruct (inq (pcs s t)) as [n|] eqn:Q; [|reflexivity]. apply (i_in _ _ _ I) in Q.
    destruct (i_tail _ _ _ I) as [(-> & _) | (r & x & u & _ & X)]; [contradiction | congruence].
  - intros H. destruct (i_tail _ _ _ I) as [(_ & X) | (r & x & u & E & X)]; [exact X|].
    assert (Q : inq (pcs s u) = Some x) by (apply (i_in _ _ _ I); rewrite E; apply in_app_iff; right; left; reflexivity).
    rewrite H in Q. discriminate.
Qed.

(** try_acquire: it is refused only while another thread holds the lock, waits for it or is giving it
    away; it succeeds otherwise; it never waits. *)
Theorem C45_mcs_try : forall s t n, mreach calm s -> pcs s t = PTry n ->
  exists s', mexec s t true = Ret (Some s') /\
    (holds_lock s' t /\ (forall u, inq (pcs s u) = None) \/
     pcs s' t = PIdle /\ mlog s' = EBusy t :: mlog s /\ exists u m, u <> t /\ inq (pcs s u) = Some m).
Proof.
  intros s t n R P. unfold mexec. rewrite P. destruct (tail s) as [x|] eqn:T.
  - eexists. split; [reflexivity|]. right. cbn. rewrite upd_eq. split; [reflexivity|]. split; [reflexivity|].
    eapply busy_occupied; eauto. apply good_reach. exact R.
  - eexists. split; [reflexivity|]. left. split; [exists n; cbn; apply upd_eq|]. apply C45_mcs_free_iff_unused; auto.
Qed.

(** the three threads of the runs below, with nodes 10, 20 and 30 *)
Definition ts3 : list Z := [1; 2; 3].
Definition St t := MStep t true.
Definition take1 : list mact := [MAcquire 1 10; St 1; St 1; St 1; St 1].
Definition view (o : option mst) := match o with Some s => Some (pcs s 1, pcs s 2, pcs s 3, tail s, nfl s 10, rev (mlog s)) | None => None end.

(** thread 1 holds, 2 and 3 queue and sleep, 1 releases, 2 gets the lock *)
Definition demo_run : list mact := take1 ++ [MAcquire 2 20; St 2; St 2; St 2; St 2; St 2; St 2; St 2; St 2; St 2]
  ++ [MAcquire 3 30; St 3; St 3; St 3; St 3; St 3; St 3; St 3; St 3; St 3]
  ++ [MRelease 1; St 1; St 1; St 1; St 2; St 2].
Example C45_mcs_demo : exists s, mreach calm s /\ holds_lock s 2 /\ stuck s 3 /\
  got (mlog s) = [(10, 1); (20, 2)] /\ arrived (mlog s) = [(10, 1); (20, 2); (30, 3)].
Proof.
  destruct (mrun ts3 true m0 demo_run) as [s|] eqn:E; [|vm_compute in E; discriminate].
  exists s. split; [eapply mrun_calm; [apply MR0, m0_boot | apply m0_idle | exact E]|].
  assert (V : Some (pcs s 2, pcs s 3, evs s 1, mlog s) = Some (PHeld 20, PWait4 (WReady 30) (Some 1), EvOpen false,
     [EGot 20 2; ERelease 10 1; EArrive 30 3; EArrive 20 2; EGot 10 1; EArrive 10 1])).
  { transitivity (match mrun ts3 true m0 demo_run with Some s => Some (pcs s 2, pcs s 3, evs s 1, mlog s) | None => None end);
      [rewrite E; reflexivity | vm_compute; reflexivity]. }
  injection V as P2 P3 E3 L. rewrite L. split; [exists 20; exact P2|]. split; [exists (WReady 30), 1; auto|]. split; reflexivity.
Qed.
(** a state in which nobody can move although threads wait: the premise of the theorem above *)
Example C45_mcs_demo_blocked : exists s, mreach calm s /\ holds_lock s 2 /\ (forall t, mexec s t true = Ret None) /\ own (pcs s 3) = Some 30.
Proof.
  destruct (mrun ts3 true m0 demo_run) as [s|] eqn:E; [|vm_compute in E; discriminate].
  exists s. split; [eapply mrun_calm; [apply MR0, m0_boot | apply m0_idle | exact E]|].
  assert (V : Some (pcs s 1, pcs s 2, pcs s 3, evs s 1) = Some (PIdle, PHeld 20, PWait4 (WReady 30) (Some 1), EvOpen false)).
  { transitivity (match mrun ts3 true m0 demo_run with Some s => Some (pcs s 1, pcs s 2, pcs s 3, evs s 1) | None => None end);
      [rewrite E; reflexivity | vm_compute; reflexivity]. }
  injection V as P1 P2 P3 E3. split; [exists 20; exact P2|]. split; [|rewrite P3; reflexivity].
  assert (O : others_idle ts3 s).
  { clear -E. assert (X : forall l x y, others_idle ts3 x -> mrun ts3 true x l = Some y -> others_idle ts3 y).
    { induction l as [|a l IH]; intros x y O H; cbn in H; [injection H as <-; exact O|].
      destruct (mgo ts3 true x a) as [z|] eqn:G; [|discriminate]. destruct (mgo_ok _ _ _ _ _ O G) as (_ & H2 & _). eapply IH; eauto. }
    eapply X; [apply m0_idle | exact E]. }
  intros t. unfold mexec. destruct (in_dec Z.eq_dec t ts3) as [[<- | [<- | [<- | []]]] | N].
  - rewrite P1. reflexivity.
  - rewrite P2. reflexivity.
  - rewrite P3, E3. reflexivity.
  - rewrite (O t N). reflexivity.
Qed.

(** What calm leaves out, and why. *)

(** 1. Even in a calm run, release can return while the successor is still about to write to the node's
    next flag: the node, typically a local variable of a function that has returned, is written to. *)
Definition late_run : list mact := take1 ++ [MAcquire 2 20; St 2; St 2; St 2; St 2; St 2] ++ [MRelease 1; St 1; St 1].
Theorem C45_mcs_touches_released_node_refuted : exists s s', mreach calm s /\ pcs s 1 = PIdle /\ (forall u, own (pcs s u) <> Some 10) /\
  mexec s 2 true = Ret (Some s') /\ nfl s 10 = F0 /\ nfl s' 10 = F1.
Proof.
  destruct (mrun ts3 true m0 late_run) as [s|] eqn:E; [|vm_compute in E; discriminate].
  assert (R : mreach calm s) by (eapply mrun_calm; [apply MR0, m0_boot | apply m0_idle | exact E]).
  assert (V : Some (pcs s 1, pcs s 2, nfl s 10, rfl s 20) = Some (PIdle, PSet (SNext 20 10), F0, F1)).
  { transitivity (match mrun ts3 true m0 late_run with Some s => Some (pcs s 1, pcs s 2, nfl s 10, rfl s 20) | None => None end);
      [rewrite E; reflexivity | vm_compute; reflexivity]. }
  injection V as P1 P2 F _. exists s. eexists. split; [exact R|]. split; [exact P1|]. split.
  - destruct (good_reach s R) as (q & d & I). destruct (pred_of _ _ _ _ _ _ I (or_intror P2)) as [(tp & A) | (_ & U & _)]; [|exact U].
    exfalso. pose proof (q_own _ _ _ _ _ I (adj_l _ _ _ _ _ A)) as O.
    assert (X : forall l x y, others_idle ts3 x -> mrun ts3 true x l = Some y -> others_idle ts3 y).
    { induction l as [|a l IH]; intros x y O' H; cbn in H; [injection H as <-; exact O'|].
      destruct (mgo ts3 true x a) as [z|] eqn:G; [|discriminate]. destruct (mgo_ok _ _ _ _ _ O' G) as (_ & H2 & _). eapply IH; eauto. }
    pose proof (X _ _ _ (m0_idle ts3) E) as OI.
    assert (V3 : Some (pcs s 3) = Some PIdle).
    { transitivity (match mrun ts3 true m0 late_run with Some s => Some (pcs s 3) | None => None end); [rewrite E; reflexivity | vm_compute; reflexivity]. }
    injection V3 as P3.
    destruct (in_dec Z.eq_dec tp ts3) as [[<- | [<- | [<- | []]]] | N]; rewrite ?P1, ?P2, ?P3 in O; try discriminate.
    rewrite (OI tp N) in O. discriminate.
  - unfold mexec. rewrite P2. cbn [sflag]. rewrite F. split; [reflexivity|]. split; [reflexivity|]. reflexivity.
Qed.

(** 2. If thread 1 takes the lock again with the same node in that window, its new release finds the flag
    set too early and dereferences a null successor. *)
Definition reuse_run : list mact := late_run ++ [MAcquire 1 10; St 1; St 1; St 1] ++ [St 2; St 2]
  ++ [St 1; St 1; St 1] ++ [MRelease 2; St 2; St 2] ++ [St 1] ++ [MAcquire 3 30; St 3; St 3; St 3; St 3] ++ [MRelease 1; St 1; St 1; St 1].
Theorem C45_mcs_reused_node_refuted : exists s, mreach (fun _ _ => True) s /\ mexec s 1 true = Ub.
Proof.
  destruct (mrun ts3 false m0 reuse_run) as [s|] eqn:E; [|vm_compute in E; discriminate].
  exists s. split; [eapply mrun_any; [auto | apply MR0, m0_boot | apply m0_idle | exact E]|].
  assert (V : Some (pcs s 1, nxt s 10) = Some (PRel3 10, None)).
  { transitivity (match mrun ts3 false m0 reuse_run with Some s => Some (pcs s 1, nxt s 10) | None => None end);
      [rewrite E; reflexivity | vm_compute; reflexivity]. }
  injection V as P N. unfold mexec. rewrite P, N. reflexivity.
Qed.

(** 3. If CreateEvent fails, the waiter does not wait: two threads hold the lock. *)
Definition noevent_run : list mact := take1 ++ [MAcquire 2 20; St 2; St 2; St 2; St 2; St 2; St 2; St 2; MStep 2 false; St 2; St 2; St 2].
Theorem C45_mcs_no_event_refuted : exists s, mreach (fun _ _ => True) s /\ holds_lock s 1 /\ holds_lock s 2.
Proof.
  destruct (mrun ts3 false m0 noevent_run) as [s|] eqn:E; [|vm_compute in E; discriminate].
  exists s. split; [eapply mrun_any; [auto | apply MR0, m0_boot | apply m0_idle | exact E]|].
  assert (V : Some (pcs s 1, pcs s 2) = Some (PHeld 10, PHeld 20)).
  { transitivity (match mrun ts3 false m0 noevent_run with Some s => Some (pcs s 1, pcs s 2) | None => None end);
      [rewrite E; reflexivity | vm_compute; reflexivity]. }
  injection V as P1 P2. split; eexists; eassumption.
Qed.

Print Assumptions C45_mcs_mutual_exclusion.
Print Assumptions C45_mcs_fifo.
Print Assumptions C45_mcs_no_fault.
Print Assumptions C45_mcs_no_lost_waiter.
Print Assumptions C45_mcs_steps_bounded.
Print Assumptions C45_mcs_free_iff_unused.
Print Assumptions C45_mcs_try.
Print Assumptions C45_mcs_touches_released_node_refuted.
Print Assumptions C45_mcs_reused_node_refuted.
Print Assumptions C45_mcs_no_event_refuted.
