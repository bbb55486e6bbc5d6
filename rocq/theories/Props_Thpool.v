(** C31, C32, C47: src/thread/thpool.c *)
From Verif Require Import CBase ThpoolModel ThpoolSpec ThpoolProof ThpoolProof2 ThpoolProof3 ThpoolProof4 ThpoolProof5.

(** C31: whatever the schedule, the number of workers and the calls, the events follow the rules of [allowed]. *)
Theorem C31_history_is_legal : forall (N : nat) (W : nat -> Prop) (x : state), reach N W x -> legal (log (shr x)).
Proof. intros N W x H. apply (inv_reach _ _ _ H). Qed.
Print Assumptions C31_history_is_legal.

(** C31: jobs leave the queue in the order in which they entered it; none is lost from the queue, duplicated or invented. *)
Theorem C31_first_in_first_out : forall (N : nat) (W : nat -> Prop) (x : state), reach N W x ->
  NoDup (adds (log (shr x))) /\ exists waiting, adds (log (shr x)) = takes (log (shr x)) ++ waiting /\ len (shr x) = Z.of_nat (length waiting).
Proof. intros N W x H. destruct (inv_reach _ _ _ H). split; [apply i_jb|]. now apply queue_len. Qed.
Print Assumptions C31_first_in_first_out.

(** C31: no job is started twice or finishes twice; a job that is started was submitted before, and finishes only after its start. *)
Theorem C31_at_most_once : forall (N : nat) (W : nat -> Prop) (x : state), reach N W x ->
  NoDup (starts (log (shr x))) /\ NoDup (dones (log (shr x))) /\
  (forall l1 j l2, log (shr x) = l1 ++ EStart j :: l2 -> In (EAdd j) l1) /\
  (forall l1 j l2, log (shr x) = l1 ++ EDone j :: l2 -> In (EStart j) l1).
Proof.
  intros N W x H. pose proof (C31_history_is_legal _ _ _ H) as L. repeat split.
  - now apply legal_starts.
  - now apply legal_dones.
  - intros l1 j l2 E. destruct (L _ _ _ E) as (T & _). apply in_split in T. destruct T as (a & b & ->). rewrite <- app_assoc in E. cbn in E.
    destruct (L _ _ _ E) as (q & Q). apply in_or_app. left. apply adds_in. rewrite Q. apply in_or_app. right. now left.
  - intros l1 j l2 E. apply (L _ _ _ E).
Qed.
Print Assumptions C31_at_most_once.

(** C31: NULL is never dereferenced: neither the empty queue's front nor its rear. *)
Theorem C31_no_null_dereference : forall (N : nat) (W : nat -> Prop) (x : state) (t : nat), reach N W x -> exec t (pcs x t) (shr x) <> Ub.
Proof. intros N W x t H. eapply no_ub, inv_reach, H. Qed.
Print Assumptions C31_no_null_dereference.

(** C31: every job is executed. While the pool is not destroyed, code that is left running (no further calls) cannot run for ever, whatever
    the scheduler does; and when nothing is left to run, every submitted job is done - no job is left behind with all workers asleep. *)
Theorem C31_no_endless_run : forall (N : nat) (W : nat -> Prop) (x : state) (f : nat -> state), reach N W x -> f 0%nat = x -> ~ forall n, runs N (f n) (f (S n)).
Proof.
  intros N W x f H E R. pose proof (runs_acc N W x (inv_reach _ _ _ H)) as A. rewrite <- E in A. clear H E x.
  remember (f 0%nat) as x eqn:Ex. assert (K : exists n, x = f n) by eauto. clear Ex.
  induction A as [x A IH]. destruct K as (n & ->). apply (IH (f (S n))); [apply R|eauto].
Qed.
Print Assumptions C31_no_endless_run.
Theorem C31_all_done_when_quiet : forall (N : nat) (W : nat -> Prop) (x : state), reach N W x -> (0 < N)%nat -> keep (shr x) = true -> quiescent N x -> all_done x.
Proof. intros N W x H HN Hk Q. eapply quiescent_done; eauto using inv_reach. Qed.
Print Assumptions C31_all_done_when_quiet.

(** C31: with one worker, jobs are started in order of submission. *)
Theorem C31_one_worker_order : forall (W : nat -> Prop) (x : state), reach 1 W x -> exists rest, adds (log (shr x)) = starts (log (shr x)) ++ rest.
Proof.
  intros W x H. destruct (C31_first_in_first_out 1 W x H) as (_ & q & E & _). rewrite E, (order_reach W x H), <- app_assoc. eauto.
Qed.
Print Assumptions C31_one_worker_order.

(** C31: a pool made with thpool_init(0) (or a negative number) accepts jobs and never runs them. *)
Theorem C31_no_workers_refuted : exists x, reach 0 any x /\ quiescent 0 x /\ keep (shr x) = true /\ In (EAdded 0 0) (log (shr x)) /\ ~ In (EDone 0) (log (shr x)).
Proof.
  destruct (go_start 0 1 ([Up; Ad 0%nat] ++ repeat (X 0) 9 ++ [Sg0 0%nat] ++ repeat (X 0) 3)
    (fun y => all_below 1 (fun u => stopped (pcs y u)) && up (shr y) && keep (shr y) &&
       log_is [EAdd 0; EAdded 0 0]%nat y)) as (x & R & F & P); [lia|vm_compute; reflexivity|].
  bools. exists x. split; [easy|]. split; [eapply stopped_quiescent; eauto|]. split; [easy|].
  apply log_is_ok in H0. rewrite H0. cbn. intuition discriminate.
Qed.
Print Assumptions C31_no_workers_refuted.

(** C32: when thpool_wait returns, there was a moment since the call at which every job ever submitted (by anyone, including by other
    jobs) was done - so in particular every job submitted before the call. *)
Theorem C32_wait_returns_idle : forall (N : nat) (W : nat -> Prop) (x : state) l1 t l2, reach N W x -> log (shr x) = l1 ++ ERet t :: l2 -> idle_since t l1.
Proof. intros N W x l1 t l2 H E. apply (C31_history_is_legal _ _ _ H _ _ _ E). Qed.
Print Assumptions C32_wait_returns_idle.
Theorem C32_wait_covers_earlier_jobs : forall (N : nat) (W : nat -> Prop) (x : state) l1 t l2 l3, reach N W x ->
  log (shr x) = l1 ++ ECall t :: l2 ++ ERet t :: l3 -> forall j, In (EAdd j) l1 -> In (EDone j) (l1 ++ ECall t :: l2).
Proof.
  intros N W x l1 t l2 l3 H E j Hj.
  destruct (C32_wait_returns_idle N W x (l1 ++ ECall t :: l2) t l3 H) as (a & b & Ea & _ & Nb & D).
  { rewrite E, <- app_assoc. reflexivity. }
  destruct (app_split_call t l1 l2 a b Ea Nb) as (c & Ec). rewrite Ea. apply in_or_app. left. apply D. rewrite Ec. apply in_or_app. now left.
Qed.
Print Assumptions C32_wait_covers_earlier_jobs.

(** C32: if only one thread ever calls thpool_wait, it is never left waiting: when nothing is left to run, each of its calls has returned. *)
Theorem C32_single_waiter_returns : forall (N : nat) (W : nat -> Prop) (x : state) t, single W -> reach N W x -> (0 < N)%nat -> keep (shr x) = true ->
  quiescent N x -> ~ pendw t (log (shr x)).
Proof.
  intros N W x t SW H HN Hk Q P. pose proof (quiescent_stopped N W x (inv_reach _ _ _ H) Q t) as S. apply (calls_reach _ _ _ H) in P.
  pose proof (quiescent_wait N W x t SW H Q Hk HN). destruct (pcs x t); try discriminate; easy.
Qed.
Print Assumptions C32_single_waiter_returns.

(** a run with one worker, one job and two threads in thpool_wait: only one of them is woken *)
Definition script : list cmd :=
  repeat (X 0) 7 ++ [Up; Ad 1%nat] ++ repeat (X 1) 9 ++ [Sg 1%nat 0%nat] ++ repeat (X 1) 3 ++ [Wa 2%nat] ++ repeat (X 2) 3 ++ [Wa 3%nat] ++ repeat (X 3) 3 ++
  repeat (X 0) 21 ++ [Al 0%nat 2%nat] ++ repeat (X 0) 5 ++ repeat (X 2) 5.
(** C32: with two threads in thpool_wait, the second waits for ever although everything is done (line 395 signals one thread only). *)
Theorem C32_second_waiter_refuted : exists x, reach 1 any x /\ quiescent 1 x /\ keep (shr x) = true /\ all_done x /\ pendw 3 (log (shr x)).
Proof.
  destruct (go_start 1 4 script
    (fun y => all_below 4 (fun u => stopped (pcs y u)) && up (shr y) && keep (shr y) &&
       log_is [EAdd 0; EAdded 1 0; ECall 2; ECall 3; ETake 0; EStart 0; EDone 0; ERet 2]%nat y)) as (x & R & F & P); [lia|vm_compute; reflexivity|].
  bools. exists x. split; [easy|]. assert (Q : quiescent 1 x) by (eapply stopped_quiescent; eauto). repeat split; auto.
  - eapply C31_all_done_when_quiet; eauto.
  - assert (E : log (shr x) = [EAdd 0; EAdded 1 0; ECall 2; ECall 3; ETake 0; EStart 0; EDone 0; ERet 2]).
    { now apply log_is_ok. }
    exists [EAdd 0; EAdded 1 0; ECall 2]%nat, [ETake 0; EStart 0; EDone 0; ERet 2]%nat. rewrite E. split; [reflexivity|]. cbn. intuition discriminate.
Qed.
Print Assumptions C32_second_waiter_refuted.

(** C47: when thpool_destroy frees the pool, every job that was started has finished and every worker has left its loop. *)
Theorem C47_destroy_waits_for_running_jobs : forall (N : nat) (W : nat -> Prop) (x : state), reach N W x -> freed (shr x) = true ->
  (forall j, In (ETake j) (log (shr x)) -> In (EDone j) (log (shr x))) /\ forall u, (u < N)%nat -> pcs x u = X401 \/ pcs x u = Xend.
Proof.
  intros N W x H Hf. destruct (inv_reach _ _ _ H). pose proof (m_dead _ _ i_ms (or_intror Hf)) as D. split; [|exact D].
  intros j Hj. apply takes_in in Hj. apply dones_in. destruct (h_tk _ i_tk j Hj) as [|(t & K)]; [easy|]. exfalso.
  pose proof (held_inW _ _ K) as Kw. apply inW_worker in Kw. rewrite (i_ro t) in Kw. apply Nat.ltb_lt in Kw.
  destruct (D t Kw) as [E|E]; rewrite E in K; discriminate.
Qed.
Print Assumptions C47_destroy_waits_for_running_jobs.
(** C47: but the last worker may still be about to unlock the freed pool's mutex (line 401): a use after free. *)
Theorem C47_destroy_too_early_refuted : exists x, reach 1 any x /\ freed (shr x) = true /\ pcs x 0%nat = X401.
Proof.
  destruct (go_start 1 2 (repeat (X 0) 7 ++ [Up; De 1%nat] ++ repeat (X 1) 4 ++ [Bc 1%nat; X 1] ++ repeat (X 0) 7 ++ [X 1; X 1])
    (fun y => freed (shr y) && match pcs y 0%nat with X401 => true | _ => false end)) as (x & R & F & P); [lia|vm_compute; reflexivity|].
  bools. exists x. repeat split; auto. destruct (pcs x 0%nat); try discriminate. reflexivity.
Qed.
Print Assumptions C47_destroy_too_early_refuted.
(** C47: jobs still queued when thpool_destroy is called are never run. *)
Theorem C47_destroy_drops_queued_jobs_refuted : exists x, reach 1 any x /\ freed (shr x) = true /\ In (EAdded 1 0) (log (shr x)) /\ ~ In (EStart 0) (log (shr x)).
Proof.
  destruct (go_start 1 2 (repeat (X 0) 7 ++ [Up; Ad 1%nat] ++ repeat (X 1) 9 ++ [Sg 1%nat 0%nat] ++ repeat (X 1) 3 ++ [De 1%nat; X 1] ++ repeat (X 0) 7 ++ [X 1; X 1])
    (fun y => freed (shr y) && log_is [EAdd 0; EAdded 1 0]%nat y)) as (x & R & F & P); [lia|vm_compute; reflexivity|].
  bools. apply log_is_ok in H0. exists x. rewrite H0. repeat split; auto; cbn; intuition discriminate.
Qed.
Print Assumptions C47_destroy_drops_queued_jobs_refuted.

(** the hypotheses are met: two workers, two jobs, a waiter whose call returned, nothing left to run *)
Example C31_C32_reached : exists x, reach 2 any x /\ quiescent 2 x /\ keep (shr x) = true /\ In (ERet 2) (log (shr x)) /\ length (dones (log (shr x))) = 2%nat.
Proof.
  destruct (go_start 2 3 (repeat (X 0) 7 ++ repeat (X 1) 7 ++ [Up; Ad 2%nat] ++ repeat (X 2) 9 ++ [Sg 2%nat 0%nat] ++ repeat (X 2) 3 ++
      [Ad 2%nat] ++ repeat (X 2) 9 ++ [Sg 2%nat 1%nat] ++ repeat (X 2) 3 ++ [Wa 2%nat] ++ repeat (X 2) 3 ++
      repeat (X 0) 15 ++ [Sg0 0%nat] ++ repeat (X 0) 5 ++ repeat (X 1) 18 ++ repeat (X 0) 8 ++ repeat (X 1) 3 ++ [Al 1%nat 2%nat] ++ repeat (X 1) 5 ++ repeat (X 2) 5)
    (fun y => all_below 3 (fun u => stopped (pcs y u)) && up (shr y) && keep (shr y) && existsb (fun e => match e with ERet 2 => true | _ => false end) (log (shr y)) &&
       Nat.eqb (length (dones (log (shr y)))) 2)) as (x & R & F & P); [lia|vm_compute; reflexivity|].
  bools. exists x. split; [easy|]. split; [eapply stopped_quiescent; eauto|]. repeat split; auto; [|now apply Nat.eqb_eq].
  apply existsb_exists in H1. destruct H1 as (e & He & K). destruct e as [| | | | | |[|[|[|]]]]; try discriminate. exact He.
Qed.
