(** C51: the reader/writer lock of the simple Windows pthread layer, for every number of threads and every
    interleaving of their lock and unlock calls. [reach n s]: s is a state of n threads sharing one lock. *)
From Verif Require Import CBase ThreadLib RwlockModel RwlockSpec RwlockProof RwlockProof2 RwlockProof3 RwlockProof4.

Section C51.
Context (n : nat) (N : Z.of_nat n < two31).

(** While a thread is between wrlock and unlock no other thread holds the lock in any way. *)
Theorem C51_rwlock_exclusion : forall s t u, reach n s -> writing s t -> reading s u \/ writing s u -> u = t.
Proof.
  intros s t u R W H. pose proof (reach_inv _ _ N R) as I. destruct (Nat.eq_dec u t) as [E|D]; [exact E | exfalso].
  unfold writing, reading in *. pose proof (member (pcs s) t HoldW fL ltac:(auto) W) as ML. cbn in ML.
  assert (K : lsum fR (pcs s) <= 1) by (destruct (i_ex _ _ I); lia).
  assert (X : exists q, nth_error (pcs s) u = Some q /\ fR q = 1) by (destruct H as [H|H]; rewrite H; eexists; split; reflexivity).
  destruct X as (q & Eu & Q). pose proof (member (lset t Idle (pcs s)) u q fR ltac:(auto)) as M.
  rewrite (lset_nth _ _ _ _ _ W) in M. destruct (Nat.eq_dec u t); [contradiction|]. specialize (M Eu).
  rewrite (lsum_lset _ _ _ _ _ W) in M. cbn [fR] in M. lia.
Qed.

(** Every history is legal: a reader is let in only when no writer holds the lock or has asked for it, a
    writer only when nobody holds it; what the history says about a thread is what the thread sees. *)
Theorem C51_rwlock_legal : forall s, reach n s -> legal (rlog s) /\
  (forall t, reading s t -> In t (rholders (rlog s))) /\ (forall t, writing s t -> In t (wholders (rlog s))) /\
  (forall t, nth_error (pcs s) t = Some Idle -> ~ In t (rholders (rlog s)) /\ ~ In t (wholders (rlog s)) /\ ~ In t (wqueue (rlog s))).
Proof.
  intros s R. pose proof (reach_inv _ _ N R) as I. split; [apply I|]. split; [|split].
  - intros t E. apply (i_lr _ _ I _ _ E). reflexivity.
  - intros t E. apply (i_lw _ _ I _ _ E). reflexivity.
  - intros t E. rewrite (i_lr _ _ I _ _ E), (i_lw _ _ I _ _ E), (i_lq _ _ I _ _ E). repeat split; discriminate.
Qed.

(** The two assertions of the code never fail. *)
Theorem C51_rwlock_asserts : forall s a, reach n s -> exists r, do_act a s = Ret r.
Proof. intros s a R. destruct (act_inv n a s N (reach_inv _ _ N R)) as (r & E & _). eauto. Qed.

(** No deadlock: when no thread inside a call can go on, a blocked reader waits for a thread that holds the
    lock for writing or for one that is blocked in wrlock, and a blocked writer waits for a thread that
    holds the lock; so if nobody holds the lock, nobody is blocked. *)
Theorem C51_rwlock_blocked : forall s t p, reach n s -> at_rest s -> nth_error (pcs s) t = Some p -> inside p = true ->
  (exists u, reading s u \/ writing s u) /\
  (in_rdlock p = true -> exists u q, nth_error (pcs s) u = Some q /\ (q = HoldW \/ inside q = true /\ in_rdlock q = false)) /\
  p <> U450 false /\ p <> U450 true.
Proof.
  intros s t p R A E H. pose proof (reach_inv _ _ N R) as I. destruct (rest_pc _ _ _ _ I A E H) as [(-> & _)|(-> & _)].
  - destruct (rest_r _ _ _ I A E) as (u & [Hu|Hu]).
    + split; [exists u; auto|]. split; [|split; discriminate]. intros _. exists u, HoldW. auto.
    + split; [destruct (rest_w _ _ _ I A Hu) as (v & [X|X]); exists v; auto|]. split; [|split; discriminate].
      intros _. exists u, W418. auto.
  - destruct (rest_w _ _ _ I A E) as (v & X). split; [exists v; tauto|]. split; [discriminate | split; discriminate].
Qed.

(** Calls that are not blocked end: at most 12 steps per thread, in any order, and then the state is at rest. *)
Theorem C51_rwlock_bounded : forall s l s', reach n s -> Forall internal l -> run l s = Some s' -> Z.of_nat (length l) <= 12 * Z.of_nat n.
Proof.
  intros s l s' R F X. pose proof (reach_inv _ _ N R) as I.
  assert (B : lsum rank (pcs s) <= 12 * zlen (pcs s)).
  { clear. induction (pcs s) as [|p l IH]; [reflexivity|]. cbn [lsum]. rewrite zlen_cons. assert (rank p <= 12) by (destruct p; cbn; lia). lia. }
  rewrite (i_len _ _ I) in B. assert (G : Z.of_nat (length l) + lsum rank (pcs s') <= lsum rank (pcs s)).
  { clear R I B. revert s X. induction F as [|a l Fa F IH]; intros s X; cbn in X; [injection X as <-; cbn; lia|].
    destruct a; cbn in Fa; try contradiction. cbn [do_act] in X. destruct (exec t s) as [[s1|]| | |] eqn:E; try discriminate.
    pose proof (exec_rank _ _ _ E). specialize (IH _ X). cbn [length]. lia. }
  pose proof (lsum_nonneg rank (pcs s') (fun _ q _ => rank_pos q)). lia.
Qed.
Theorem C51_rwlock_progress : forall s, reach n s -> exists l s', run l s = Some s' /\ Forall internal l /\ at_rest s'.
Proof.
  intros s R. apply (progress (Z.to_nat (lsum rank (pcs s))) n); [exact N | apply reach_inv; assumption|].
  pose proof (lsum_nonneg rank (pcs s) (fun _ q _ => rank_pos q)). lia.
Qed.

(** The counters do not wrap. *)
Theorem C51_rwlock_counters : forall s, reach n s -> 0 <= readers s < two31 /\ 0 <= writers s <= 1 /\ 0 <= wwait s < two31.
Proof.
  intros s R. pose proof (reach_inv _ _ N R) as I. pose proof (sums_pos (pcs s)). pose proof (i_len _ _ I). pose proof (i_ex _ _ I).
  rewrite (i_rd _ _ I), (i_wr _ _ I), (i_q _ _ I). lia.
Qed.
End C51.

(** What a legal history means: a writer is alone. *)
Theorem C51_rwlock_legal_exclusive : forall h, legal h -> wholders h = [] \/ exists t, wholders h = [t] /\ rholders h = [].
Proof.
  induction h as [|e h IH]; intros L; [left; reflexivity|]. destruct e; cbn [legal wholders rholders] in *.
  - apply IH, L.
  - left. apply L.
  - right. exists t. destruct L as (_ & -> & -> & _). auto.
  - destruct L as (L & _). destruct (IH L) as [->|(u & -> & ->)]; [left; reflexivity|]. cbn. destruct (Nat.eq_dec t u); [left; reflexivity | right; exists u; auto].
Qed.
Print Assumptions C51_rwlock_exclusion.
Print Assumptions C51_rwlock_legal.
Print Assumptions C51_rwlock_asserts.
Print Assumptions C51_rwlock_blocked.
Print Assumptions C51_rwlock_bounded.
Print Assumptions C51_rwlock_progress.
Print Assumptions C51_rwlock_counters.
Print Assumptions C51_rwlock_legal_exclusive.

Lemma rest_check : forall s, forallb (fun t => match exec t s with Ret None => true | _ => false end) (seq 0 (length (pcs s))) = true -> at_rest s.
Proof.
  intros s H t. destruct (nth_error (pcs s) t) as [p|] eqn:E; [|unfold exec; rewrite E; reflexivity].
  rewrite forallb_forall in H. specialize (H t). destruct (exec t s) as [[s'|]| | |]; try reflexivity; discriminate H;
  apply in_seq; (split; [lia|]); apply nth_error_Some; congruence.
Qed.
Fixpoint St (t k : nat) : list act := match k with O => [] | S k => AStep t :: St t k end.
Definition state (l : list act) (s : rst) : rst := match run l s with Some s' => s' | None => s end.

(** 0 and 1 read; 2 asks for writing and blocks; 3 asks for reading and blocks behind the writer *)
Definition demo : list act := ARead 0 :: St 0 5 ++ ARead 1 :: St 1 5 ++ AWrite 2 :: St 2 4 ++ [ARead 3].
Example C51_rwlock_demo : reach 4 (state demo (rw_init 4)) /\ at_rest (state demo (rw_init 4)) /\
  rlog (state demo (rw_init 4)) = [EReqW 2; EGotR 1; EGotR 0] /\ reading (state demo (rw_init 4)) 0 /\ reading (state demo (rw_init 4)) 1.
Proof.
  split; [exists demo; vm_compute; reflexivity|]. split; [apply rest_check; vm_compute; reflexivity|].
  split; [vm_compute; reflexivity|]. split; vm_compute; reflexivity.
Qed.
(** both readers leave, the writer gets in and 3 still waits; the writer leaves, 3 reads *)
Definition demo2 : list act := demo ++ AUnlock 0 :: St 0 5 ++ AUnlock 1 :: St 1 6 ++ St 2 8.
Example C51_rwlock_demo2 : reach 4 (state demo2 (rw_init 4)) /\ at_rest (state demo2 (rw_init 4)) /\ writing (state demo2 (rw_init 4)) 2 /\
  rlog (state (demo2 ++ AUnlock 2 :: St 2 6 ++ St 3 5) (rw_init 4)) = [EGotR 3; EUnlock 2; EGotW 2; EUnlock 1; EUnlock 0; EReqW 2; EGotR 1; EGotR 0].
Proof.
  split; [exists demo2; vm_compute; reflexivity|]. split; [apply rest_check; vm_compute; reflexivity|].
  split; vm_compute; reflexivity.
Qed.

(** A thread that holds the lock for reading and asks for it again, while a writer waits, blocks for ever:
    the state in which 3 is that thread is the one of the demo (3 waits for 2, 2 for the readers). The lock
    does not support nested read locks, which POSIX allows. *)
Definition n1 : list act := ARead 0 :: St 0 5.
Theorem C51_rwlock_nested_read_refuted : exists s, reach 2 s /\ at_rest s /\ reading s 0 /\
  exists s', run (AWrite 1 :: St 1 4) s = Some s' /\ forall s2, s2 = set_pc s' 0 R342 -> at_rest s2.
Proof.
  exists (state n1 (rw_init 2)). split; [exists n1; vm_compute; reflexivity|]. split; [apply rest_check; vm_compute; reflexivity|].
  split; [vm_compute; reflexivity|]. exists (state (n1 ++ AWrite 1 :: St 1 4) (rw_init 2)). split; [vm_compute; reflexivity|].
  intros s2 ->. apply rest_check. vm_compute. reflexivity.
Qed.
Print Assumptions C51_rwlock_nested_read_refuted.
