(** C50: the condition variable of the simple Windows pthread layer, for every number of threads and every
    interleaving. [reach 0 0 g n]: a variable initialised in memory whose mWaiting and mWake are zero. *)
From Verif Require Import CBase ThreadLib CondModel CondSpec CondProof CondProof2 CondProof3 CondProof4 CondProof5 CondProof6 CondProof7.

Section C50.
Context (g : Z) (n : nat) (G : 0 <= g < two64) (N : Z.of_nat n < two31).

(** No thread is woken that was not granted a wake-up by a signal or broadcast made after it started to
    wait, and no thread waits twice. *)
Theorem C50_cond_legal : forall s, reach 0 0 g n s -> legal (clog s).
Proof. intros s R. apply (i_legal _ _ (reach_inv _ _ _ G N R)). Qed.

(** No wake-up is lost: when no thread inside a call can go on, every wake-up that signals and broadcasts
    granted has woken a thread. *)
Theorem C50_cond_no_lost_wakeup : forall s, reach 0 0 g n s -> at_rest s -> wakes (clog s) = granted (clog s).
Proof.
  intros s R A. pose proof (rest_pending _ _ (reach_inv _ _ _ G N R) A). pose proof (wakes_granted (clog s)). lia.
Qed.

(** Such a state can always be reached by continuing the calls in progress (fewer than 2^64 notifications). *)
Theorem C50_cond_progress : forall s, reach 0 0 g n s -> notifies (clog s) + Z.of_nat n < two64 ->
  exists l s', run l s = Some s' /\ Forall internal l /\ at_rest s'.
Proof.
  intros s R B. apply (progress g); [eapply reach_inv; eauto|].
  assert (Q : lsum fn (pcs s) <= zlen (pcs s)) by (apply lsum_le_zlen; intros ? q _; destruct q; cbn; lia).
  assert (E : zlen (pcs s) = Z.of_nat n); [|lia].
  destruct R as (l & R). assert (X : forall l s s', run l s = Some s' -> zlen (pcs s') = zlen (pcs s)).
  { clear. induction l as [|a l IH]; intros s s' R; cbn in R; [congruence|]. destruct (do_act a s) as [s1|] eqn:E; [|discriminate].
    rewrite (IH _ _ R). clear IH R. assert (K : forall x k, zlen (pcs (release x k)) = zlen (pcs x)) by (intros; unfold release; destruct (_ <=? _); reflexivity).
    destruct a; cbn in E.
    - unfold exec, lock_c in E. destruct (nth_error (pcs s) t) as [p|]; [|discriminate].
      destruct p; try discriminate; try (destruct (lck s); [discriminate|]); try (destruct (0 <? sem s); [|discriminate]);
        try (destruct (mtx s); [discriminate|]); injection E as <-; cbn [pcs set_pc set_lck set_sem set_mtx set_waiting set_wake set_gen emit]; rewrite ?lset_zlen;
        try reflexivity; destruct (wake =? 0); rewrite ?K; reflexivity.
    - destruct (idle s t); [|discriminate]. destruct (mtx s); [discriminate|]. injection E as <-. reflexivity.
    - destruct (idle s t && owns (mtx s) t); [|discriminate]. injection E as <-. reflexivity.
    - destruct (idle s t && owns (mtx s) t); [|discriminate]. injection E as <-. apply lset_zlen.
    - destruct (idle s t); [|discriminate]. injection E as <-. apply lset_zlen.
    - destruct (idle s t); [|discriminate]. injection E as <-. apply lset_zlen. }
  rewrite (X _ _ _ R). cbn. unfold zlen. rewrite repeat_length. reflexivity.
Qed.

(** A broadcast wakes every thread that was waiting, and a signal wakes one of them if there is any, when
    no other notification follows. *)
Theorem C50_cond_broadcast : forall s h2 h1 b, reach 0 0 g n s -> at_rest s -> clog s = h2 ++ EBcast b :: h1 -> silent h2 ->
  forall t, In t (waiters h1) -> In (EWake t) h2.
Proof.
  intros s h2 h1 b R A E S. pose proof (reach_inv _ _ _ G N R) as I. pose proof (rest_pending _ _ I A) as P. pose proof (i_legal _ _ I) as L.
  rewrite E in P, L. eapply bcast_all; eauto.
Qed.
Theorem C50_cond_signal : forall s h2 h1 b, reach 0 0 g n s -> at_rest s -> clog s = h2 ++ ESignal b :: h1 -> silent h2 ->
  waiters h1 <> [] -> exists t, In t (waiters h1) /\ In (EWake t) h2.
Proof.
  intros s h2 h1 b R A E S. pose proof (reach_inv _ _ _ G N R) as I. pose proof (rest_pending _ _ I A) as P. pose proof (i_legal _ _ I) as L.
  rewrite E in P, L. eapply signal_one; eauto. exact Logic.I.
Qed.

(** wait gives the mutex up only as a registered waiter (so a notification made under the mutex sees it),
    and has it again when it returns. *)
Theorem C50_cond_wait_atomic : forall s t p, reach 0 0 g n s -> nth_error (pcs s) t = Some p -> inside_wait p = true -> mtx s <> Some t ->
  In t (waiters (clog s)) \/ woken t (clog s).
Proof.
  intros s t p R E W M. pose proof (reach_inv _ _ _ G N R) as I. pose proof (reach_winv _ _ _ R) as V.
  destruct (reg p) eqn:Q; [left; apply (i_in _ _ I _ _ E); exact Q | right]. apply (V _ _ E).
  pose proof (i_mtx _ _ I _ _ E) as (H & _). destruct p; cbn in *; try discriminate; try reflexivity; exfalso; apply M; apply H; reflexivity.
Qed.
Theorem C50_cond_returns_with_mutex : forall s a s' t, reach 0 0 g n s -> do_act a s = Some s' -> clog s' = ERet t :: clog s ->
  mtx s = None /\ mtx s' = Some t /\ woken t (clog s).
Proof.
  intros s a s' t R H C. pose proof (reach_winv _ _ _ R) as V.
  assert (NX : forall h : list ev, h <> ERet t :: h) by (intros h X; apply (f_equal (@length ev)) in X; cbn in X; lia).
  destruct a; cbn in H.
  - unfold exec, lock_c in H. destruct (nth_error (pcs s) t0) as [p|] eqn:E; [|discriminate].
    assert (K3 : forall x k, clog (release x k) = clog x) by (intros; unfold release; destruct (_ <=? _); reflexivity).
    destruct p; try discriminate; try (destruct (lck s); [discriminate|]); try (destruct (0 <? sem s); [|discriminate]);
        try (destruct (mtx s) eqn:M; [discriminate|]); injection H as <-; cbn [clog set_pc set_lck set_sem set_mtx set_waiting set_wake set_gen emit] in C;
        try (exfalso; eapply NX; exact C); try discriminate C;
        try (destruct (wake =? 0); rewrite ?K3 in C; exfalso; eapply NX; exact C).
    injection C as <-. split; [reflexivity|]. split; [reflexivity|]. apply (V _ _ E). reflexivity.
  - destruct (idle s t0); [|discriminate]. destruct (mtx s); [discriminate|]. injection H as <-. exfalso; eapply NX; exact C.
  - destruct (idle s t0 && owns (mtx s) t0); [|discriminate]. injection H as <-. exfalso; eapply NX; exact C.
  - destruct (idle s t0 && owns (mtx s) t0); [|discriminate]. injection H as <-. exfalso; eapply NX; exact C.
  - destruct (idle s t0); [|discriminate]. injection H as <-. exfalso; eapply NX; exact C.
  - destruct (idle s t0); [|discriminate]. injection H as <-. exfalso; eapply NX; exact C.
Qed.

(** The counters do not wrap and the semaphore does not overflow. *)
Theorem C50_cond_counters : forall s, reach 0 0 g n s -> 0 <= sem s <= wake s /\ wake s <= waiting s /\ waiting s < two31.
Proof.
  intros s R. pose proof (reach_inv _ _ _ G N R) as I. destruct (inv_bounds _ _ I). pose proof (i_tok _ _ I). pose proof (i_sem _ _ I).
  pose proof (i_len _ _ I). lia.
Qed.
End C50.
Print Assumptions C50_cond_legal.
Print Assumptions C50_cond_no_lost_wakeup.
Print Assumptions C50_cond_progress.
Print Assumptions C50_cond_broadcast.
Print Assumptions C50_cond_signal.
Print Assumptions C50_cond_wait_atomic.
Print Assumptions C50_cond_returns_with_mutex.
Print Assumptions C50_cond_counters.

Lemma rest_check : forall s, forallb (fun t => match exec t s with None => true | _ => false end) (seq 0 (length (pcs s))) = true -> at_rest s.
Proof.
  intros s H t. destruct (nth_error (pcs s) t) as [p|] eqn:E; [|unfold exec; rewrite E; reflexivity].
  rewrite forallb_forall in H. specialize (H t). destruct (exec t s); [|reflexivity]. discriminate H.
  apply in_seq. split; [lia|]. apply nth_error_Some. congruence.
Qed.
(** Runs. [St t k]: k steps of thread t. *)
Fixpoint St (t k : nat) : list act := match k with O => [] | S k => AStep t :: St t k end.
Definition wait (t : nat) : list act := ALock t :: AWait t :: St t 5.      (* up to the semaphore *)
Definition state (l : list act) (s : cst) : cst := match run l s with Some s' => s' | None => s end.
Definition c0 : cst := cond_init 0 0 0 3.

(** 0 and 1 wait, 2 broadcasts, both are woken, 0 returns and 1 waits for the mutex *)
Definition demo : list act := wait 0 ++ wait 1 ++ ABcast 2 :: St 2 6 ++ St 0 8 ++ St 1 7.
Example C50_cond_demo : reach 0 0 0 3 (state demo c0) /\ at_rest (state demo c0) /\ mtx (state demo c0) = Some 0%nat /\
  clog (state demo c0) = [EWake 1; ERet 0; EWake 0; EBcast 2; EWait 1; EWait 0].
Proof.
  split; [exists demo; vm_compute; reflexivity|]. split; [|split; vm_compute; reflexivity].
  apply rest_check. vm_compute. reflexivity.
Qed.

(** POSIX says more: a broadcast wakes every thread that waits at that moment, whatever follows. Here a
    later signal lets newer waiters use the wake-up: 0 waits, 2 broadcasts, 1 and 2 wait, 3 signals, 1 and 2
    are woken, 0 waits for ever. *)
Definition stolen : list act := wait 0 ++ ABcast 2 :: St 2 6 ++ wait 1 ++ wait 2 ++ ASignal 3 :: St 3 6 ++ St 1 8 ++ [AUnlock 1] ++ St 2 8.
Definition c4 : cst := cond_init 0 0 0 4.
Theorem C50_cond_broadcast_stolen_refuted : exists s h2 h1 t, reach 0 0 0 4 s /\ at_rest s /\ clog s = h2 ++ EBcast 2 :: h1 /\
  In t (waiters h1) /\ In t (waiters (clog s)) /\ wakes h2 = 2.
Proof.
  exists (state stolen c4), [ERet 2; EWake 2; ERet 1; EWake 1; ESignal 3; EWait 2; EWait 1], [EWait 0], 0%nat.
  split; [exists stolen; vm_compute; reflexivity|]. split.
  - apply rest_check. vm_compute. reflexivity.
  - split; [vm_compute; reflexivity|]. split; [left; reflexivity|]. split; [vm_compute; left; reflexivity | reflexivity].
Qed.
Print Assumptions C50_cond_broadcast_stolen_refuted.

(** pthread_cond_init does not set mWaiting, mWake and mGeneration: in memory where mWake is not zero, a
    signal to a waiting thread is lost. *)
Definition lost : list act := wait 0 ++ ASignal 1 :: St 1 4.
Theorem C50_cond_init_not_zeroed_refuted : exists k s, reach 0 k 0 2 s /\ at_rest s /\ clog s = [ESignal 1; EWait 0].
Proof.
  exists 5, (state lost (cond_init 0 5 0 2)). split; [exists lost; vm_compute; reflexivity|]. split; [|vm_compute; reflexivity].
  apply rest_check. vm_compute. reflexivity.
Qed.
Print Assumptions C50_cond_init_not_zeroed_refuted.

(** A newer waiter takes the unit, finds that it is not for it, and puts it back: it can do so for ever
    while the thread to be woken does not run. *)
Definition spin_start : list act := wait 0 ++ ASignal 2 :: St 2 6 ++ wait 1.
Theorem C50_cond_spin : exists s, reach 0 0 0 3 s /\ 0 < pending (clog s) /\ ~ at_rest s /\ run (St 1 6) s = Some s.
Proof.
  exists (state spin_start c0). split; [exists spin_start; vm_compute; reflexivity|]. split; [vm_compute; reflexivity|].
  split; [|vm_compute; reflexivity]. intros A. specialize (A 0%nat). vm_compute in A. discriminate.
Qed.
Print Assumptions C50_cond_spin.
