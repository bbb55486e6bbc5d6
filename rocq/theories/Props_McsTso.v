(** C84: the MCS queue lock, and the data it guards, on a machine with store buffers (x86-TSO). *)
From Verif Require Import CBase McsModel McsSpec McsProof McsProof2 McsProof6 McsProof7 McsTsoModel McsTsoSpec McsTsoProof McsTsoProof2.

(** Data read while holding the lock is the value last written under the lock, by whichever thread: no barrier of the caller is needed. *)
Theorem C84_reads_latest : forall d0 m newer t a v older, tmreach d0 tmcalm m -> ml m = newer ++ DR t a v :: older -> v = latest d0 a older.
Proof. intros d0 m newer t a v older R E. destruct (sim_reach d0 m R) as (f & S). eapply (s_log d0 m f S); eauto. Qed.

(** When a thread has the lock, everything other threads wrote to the data is in memory. *)
Theorem C84_published : forall d0 m t u, tmreach d0 tmcalm m -> holds_lock (mk m) t -> u <> t -> published m u.
Proof.
  intros d0 m t u R (n & H) N. destruct (sim_reach d0 m R) as (f & S). apply (sim_alone d0 m f t u S); [|exact N].
  apply (rpc_held _ _ _ n (s_pc d0 m f S t)) in H. rewrite H. reflexivity.
Qed.
(** ... and when nobody holds the lock or is releasing it, memory holds the values last written. *)
Theorem C84_memory_up_to_date : forall d0 m a, tmreach d0 tmcalm m -> (forall t, inq (pcs (mk m) t) = None) -> md m a = latest d0 a (ml m).
Proof.
  intros d0 m a R H. destruct (sim_reach d0 m R) as (f & S).
  assert (P : forall u, published m u).
  { intros u b v K. pose proof (s_pc d0 m f S u) as PT. destruct (rpc_data _ _ _ b v PT K) as [E G]. specialize (H u).
    rewrite <- (proj1 (proj2 (rpc_own _ _ _ PT))) in H. destruct (f u); cbn in *; try discriminate; destruct k; discriminate. }
  pose proof (s_dat d0 m f S 0 a (fun u _ => P u)) as D. rewrite fwd_nodata in D by apply (P 0). exact D.
Qed.

(** Never two threads between the return of acquire and the call of release. *)
Theorem C84_mutual_exclusion : forall d0 m t u, tmreach d0 tmcalm m -> holds_lock (mk m) t -> holds_lock (mk m) u -> t = u.
Proof.
  intros d0 m t u R (n & P) (n' & P'). destruct (sim_reach d0 m R) as (f & S). destruct (good_reach _ (s_reach d0 m f S)) as (q & d & I).
  apply (rpc_held _ _ _ n (s_pc d0 m f S t)) in P. apply (rpc_held _ _ _ n' (s_pc d0 m f S u)) in P'.
  apply (granted_unique _ q d t u I); cbn; [rewrite P|rewrite P']; reflexivity.
Qed.

(** The lock is given in the order in which the threads queued. *)
Theorem C84_fifo : forall d0 m, tmreach d0 tmcalm m -> exists waiting, arrived (mlog (mk m)) = got (mlog (mk m)) ++ waiting.
Proof.
  intros d0 m R. destruct (sim_reach d0 m R) as (f & S). destruct (good_reach _ (s_reach d0 m f S)) as (q & d & I).
  pose proof (i_arr _ _ _ I) as A. pose proof (i_got _ _ _ I) as G. cbn [wpcs mlog] in A, G. rewrite A, G. unfold headgot.
  destruct q as [|[n t] r]; [exists []; rewrite !app_nil_r; reflexivity|].
  destruct (granted _); [exists r; rewrite <- app_assoc; reflexivity | exists ((n, t) :: r); rewrite app_nil_r; reflexivity].
Qed.

(** No step uses a null successor or a closed event handle. *)
Theorem C84_no_fault : forall d0 m t, tmreach d0 tmcalm m -> exists r, tmexec m t true = Ret r.
Proof.
  intros d0 m t R. destruct (sim_reach d0 m R) as (f & S). pose proof (s_pc d0 m f S t) as PT.
  assert (X : exists r, (match mb m t with [] => do r <- mexec (mk m) t true; Ret (match r with Some k => Some (mset_k m k) | None => None end) | _ => Ret None end) = Ret r).
  { destruct (mb m t) eqn:B; [|eauto]. assert (F : f t = pcs (mk m) t) by (apply (rpc_own _ _ _ PT); reflexivity).
    destruct (exec_ok _ t (good_reach _ (s_reach d0 m f S))) as (r & E & _). rewrite (mexec_wpcs (mk m) t true f F) in E.
    destruct (mexec (mk m) t true); cbn [bind] in *; try discriminate. eauto. }
  unfold tmexec. destruct (pcs (mk m) t); eauto.
Qed.

(** No waiter is lost: when no thread can take a step and no store is on its way, a thread inside a lock function waits for a thread that holds the lock
    and has not called release. *)
Theorem C84_no_lost_waiter : forall d0 m, tmreach d0 tmcalm m -> (forall t, tmexec m t true = Ret None) -> (forall t, mb m t = []) ->
  forall u n, own (pcs (mk m) u) = Some n -> exists t, holds_lock (mk m) t.
Proof.
  intros d0 m R H B u n O. destruct (sim_reach d0 m R) as (f & S).
  assert (F : forall t, f t = pcs (mk m) t) by (intro t; apply (rpc_own _ _ _ (s_pc d0 m f S t)); apply B).
  assert (HS : forall t, mexec (wpcs (mk m) f) t true = Ret None).
  { intros t. rewrite (mexec_wpcs (mk m) t true f (F t)). specialize (H t). unfold tmexec in H. rewrite B in H.
    destruct (mexec (mk m) t true) as [[k|]| | |] eqn:E; cbn [bind] in *; try reflexivity; exfalso;
      unfold mexec in E; destruct (pcs (mk m) t); discriminate. }
  destruct (stuck_means_held _ (good_reach _ (s_reach d0 m f S)) HS u n) as (t & n' & K); [cbn; rewrite F; exact O|].
  exists t, n'. cbn in K. rewrite F in K. exact K.
Qed.
(** A store on its way can always reach memory, and a thread takes at most 12 steps per call. *)
Theorem C84_steps_bounded : forall m t ok m', tmexec m t ok = Ret (Some m') ->
  0 <= left_steps (pcs (mk m') t) < left_steps (pcs (mk m) t) /\ left_steps (pcs (mk m) t) <= 12 /\
  forall u, u <> t -> left_steps (pcs (mk m') u) = left_steps (pcs (mk m) u).
Proof.
  intros m t ok m' H. split; [|split].
  2: { destruct (pcs (mk m) t) as [| | | | | | |[]|[]|[]|[]|[]|[]|[]| | | |]; cbn; lia. }
  all: unfold tmexec in H; destruct (pcs (mk m) t) as [|n y|n y|n y|n|n|n p|k0|k0 e0|k0|k0|k0 eo|k0 eo|k0 eo|n|n|n|n] eqn:EP;
    try (injection H as <-; cbn; rewrite upd_eq; try destruct y; cbn; lia);
    try (injection H as <-; intros u N; cbn; rewrite upd_ne by exact N; reflexivity);
    (destruct (mb m t); [|discriminate H]; destruct (mexec (mk m) t ok) as [[k|]| | |] eqn:E; cbn [bind] in H; try discriminate H;
     injection H as <-; cbn [mk mset_k]; destruct (mexec_left _ _ _ _ E) as (X & Y); rewrite EP in X; try exact X; intros u N; rewrite Y by exact N; reflexivity).
Qed.

(** The lock word is free exactly when no thread holds the lock, waits for it or is giving it away. *)
Theorem C84_free_iff_unused : forall d0 m, tmreach d0 tmcalm m -> (McsModel.tail (mk m) = None <-> forall t, inq (pcs (mk m) t) = None).
Proof.
  intros d0 m R. destruct (sim_reach d0 m R) as (f & S). destruct (good_reach _ (s_reach d0 m f S)) as (q & d & I).
  assert (Q : forall t, inq (f t) = inq (pcs (mk m) t)) by (intro t; apply (rpc_own _ _ _ (s_pc d0 m f S t))). split.
  - intros T t. rewrite <- Q. destruct (inq (f t)) as [n|] eqn:Qn; [|reflexivity]. apply (i_in _ _ _ I n t) in Qn.
    destruct (i_tail _ _ _ I) as [(-> & _) | (r & x & u & _ & X)]; [contradiction | cbn in X; congruence].
  - intros H. destruct (i_tail _ _ _ I) as [(_ & X) | (r & x & u & E & X)]; [exact X|].
    assert (Qn : inq (f u) = Some x) by (apply (i_in _ _ _ I); rewrite E; apply in_app_iff; right; left; reflexivity).
    rewrite Q, H in Qn. discriminate.
Qed.

(** ** Runs *)
Definition tmgo (ts : list Z) (m : tm) (a : tmact) : option tm :=
  let lift a := match mgo ts true (mk m) a with Some k => Some (mset_k m k) | None => None end in
  match a with
  | TMAcquire t n => lift (MAcquire t n)
  | TMTry t n => lift (MTry t n)
  | TMRelease t => lift (MRelease t)
  | TMStep t ok => if ok then match tmexec m t true with Ret (Some m') => Some m' | _ => None end else None
  | TMFlush t => match mb m t with e :: b => Some (mcommit (pop_w m t b) e) | [] => None end
  | TMWrite t a v => match pcs (mk m) t with PHeld _ => Some (dlogm (push_w m t (LD a v)) (DW t a v)) | _ => None end
  | TMRead t a => match pcs (mk m) t with PHeld _ => Some (dlogm m (DR t a (fwd (mb m t) a (md m a)))) | _ => None end
  end.
Fixpoint tmrun (ts : list Z) (m : tm) (l : list tmact) : option tm := match l with [] => Some m | a :: l => match tmgo ts m a with Some m' => tmrun ts m' l | None => None end end.
Lemma tmgo_ok ts m a m' : others_idle ts (mk m) -> tmgo ts m a = Some m' -> tmstep m a m' /\ tmcalm m a /\ others_idle ts (mk m').
Proof.
  intros O H. destruct a as [t n|t n|t ok|t|t|t a v|t a]; cbn [tmgo] in H.
  - destruct (mgo ts true (mk m) (MAcquire t n)) as [k|] eqn:G; [|discriminate H]. injection H as <-.
    destruct (mgo_ok _ _ _ _ _ O G) as (A & B & C). inversion A; subst. split; [constructor; auto|]. split; [exact (C eq_refl)|exact B].
  - destruct (mgo ts true (mk m) (MTry t n)) as [k|] eqn:G; [|discriminate H]. injection H as <-.
    destruct (mgo_ok _ _ _ _ _ O G) as (A & B & C). inversion A; subst. split; [constructor; auto|]. split; [exact (C eq_refl)|exact B].
  - destruct ok; [|discriminate H]. destruct (tmexec m t true) as [[x|]| | |] eqn:E; try discriminate H. injection H as <-.
    split; [econstructor; exact E|]. split; [reflexivity|]. intros u N. destruct (C84_steps_bounded _ _ _ _ E) as (X & _ & _).
    unfold tmexec in E. destruct (Z.eq_dec u t) as [->|NU].
    + rewrite (O t N) in E. destruct (mb m t); [unfold mexec in E; rewrite (O t N) in E|]; discriminate E.
    + assert (K : pcs (mk x) u = pcs (mk m) u); [|rewrite K; apply O; exact N].
      destruct (pcs (mk m) t) eqn:EP; try (injection E as <-; cbn; apply upd_ne; exact NU);
        (destruct (mb m t); [|discriminate E]; destruct (mexec (mk m) t true) as [[k1|]| | |] eqn:EM; cbn [bind] in E; try discriminate E;
         injection E as <-; apply (mexec_others _ _ _ _ EM); exact NU).
  - destruct (mgo ts true (mk m) (MRelease t)) as [k|] eqn:G; [|discriminate H]. injection H as <-.
    destruct (mgo_ok _ _ _ _ _ O G) as (A & B & C). inversion A; subst. split; [constructor; auto|]. split; [exact Logic.I|exact B].
  - destruct (mb m t) as [|e b] eqn:B; [discriminate H|]. injection H as <-. split; [constructor; exact B|]. split; [exact Logic.I|].
    intros u N. replace (pcs (mk (mcommit (pop_w m t b) e)) u) with (pcs (mk m) u) by (destruct e; reflexivity). apply O; exact N.
  - destruct (pcs (mk m) t) eqn:P; try discriminate H. injection H as <-. split; [econstructor; exact P|]. split; [exact Logic.I|exact O].
  - destruct (pcs (mk m) t) eqn:P; try discriminate H. injection H as <-. split; [econstructor; exact P|]. split; [exact Logic.I|exact O].
Qed.
Lemma tmrun_reach d0 ts l : forall m m', tmreach d0 tmcalm m -> others_idle ts (mk m) -> tmrun ts m l = Some m' -> tmreach d0 tmcalm m'.
Proof.
  induction l as [|a l IH]; intros m m' R O H; cbn [tmrun] in H; [injection H as <-; exact R|].
  destruct (tmgo ts m a) as [m1|] eqn:G; [|discriminate H]. destruct (tmgo_ok _ _ _ _ O G) as (A & B & C). apply (IH m1 m'); auto. eapply TMS; eauto.
Qed.
Definition tm0 : tm := mk_tm m0 (fun _ => []) (fun _ => 0) [].
Lemma tm0_reach : tmreach (fun _ => 0) tmcalm tm0.
Proof. apply TM0. split; [exact m0_boot|]. repeat split. Qed.

(** Thread 1 takes the lock and writes twice, reads its own value back while memory is old, and calls release; thread 2, queued behind it, gets the lock and reads what
    thread 1 wrote. *)
Definition St t := TMStep t true.
Definition take1 : list tmact := [TMAcquire 1 10; St 1; St 1; St 1; TMFlush 1; TMFlush 1; TMFlush 1; St 1; TMWrite 1 7 5; TMRead 1 7; TMWrite 1 7 6].
Definition demo_run : list tmact := take1 ++ [TMAcquire 2 20; St 2; St 2; St 2; TMFlush 2; TMFlush 2; TMFlush 2; St 2; St 2; TMFlush 2; St 2; St 2; St 2; St 2] ++
  [TMFlush 1; TMRelease 1; TMFlush 1; St 1; St 1; St 1; St 2; St 2; TMRead 2 7].
Example C84_demo : exists m, tmreach (fun _ => 0) tmcalm m /\ holds_lock (mk m) 2 /\ ml m = [DR 2 7 6; DW 1 7 6; DR 1 7 5; DW 1 7 5] /\
  got (mlog (mk m)) = [(10, 1); (20, 2)].
Proof.
  destruct (tmrun [1; 2] tm0 demo_run) as [m|] eqn:E; [|vm_compute in E; discriminate E].
  exists m. split; [eapply tmrun_reach; [apply tm0_reach|apply m0_idle|exact E]|].
  assert (V : Some (pcs (mk m) 2, ml m, got (mlog (mk m))) = Some (PHeld 20, [DR 2 7 6; DW 1 7 6; DR 1 7 5; DW 1 7 5], [(10, 1); (20, 2)])).
  { transitivity (match tmrun [1; 2] tm0 demo_run with Some m => Some (pcs (mk m) 2, ml m, got (mlog (mk m))) | None => None end); [rewrite E; reflexivity|vm_compute; reflexivity]. }
  injection V as P L G. split; [exists 20; exact P|]. split; [exact L|exact G].
Qed.

Lemma tmrun_idle ts l : forall m m', others_idle ts (mk m) -> tmrun ts m l = Some m' -> others_idle ts (mk m').
Proof.
  induction l as [|a l IH]; intros m m' O H; cbn [tmrun] in H; [injection H as <-; exact O|].
  destruct (tmgo ts m a) as [m1|] eqn:G; [|discriminate H]. destruct (tmgo_ok _ _ _ _ O G) as (A & B & C). apply (IH m1 m'); auto.
Qed.
(** a state that meets the premises of C84_no_lost_waiter: thread 1 holds the lock, thread 2 sleeps, nothing is on its way *)
Definition sleep_run : list tmact := take1 ++ [TMAcquire 2 20; St 2; St 2; St 2; TMFlush 2; TMFlush 2; TMFlush 2; St 2; St 2; TMFlush 2; St 2; St 2; St 2; St 2] ++ [TMFlush 1; TMFlush 1].
Example C84_demo_blocked : exists m, tmreach (fun _ => 0) tmcalm m /\ (forall t, tmexec m t true = Ret None) /\ (forall t, mb m t = []) /\
  own (pcs (mk m) 2) = Some 20 /\ stuck (mk m) 2.
Proof.
  destruct (tmrun [1; 2] tm0 sleep_run) as [m|] eqn:E; [|vm_compute in E; discriminate E].
  assert (R : tmreach (fun _ => 0) tmcalm m) by (eapply tmrun_reach; [apply tm0_reach|apply m0_idle|exact E]).
  pose proof (tmrun_idle [1; 2] sleep_run tm0 m (m0_idle _) E) as O.
  assert (V : Some (pcs (mk m) 1, pcs (mk m) 2, evs (mk m) 0, mb m 1, mb m 2) = Some (PHeld 10, PWait4 (WReady 20) (Some 0), EvOpen false, [], [])).
  { transitivity (match tmrun [1; 2] tm0 sleep_run with Some m => Some (pcs (mk m) 1, pcs (mk m) 2, evs (mk m) 0, mb m 1, mb m 2) | None => None end); [rewrite E; reflexivity|vm_compute; reflexivity]. }
  injection V as P1 P2 V B1 B2.
  assert (B : forall t, mb m t = []).
  { intros t. destruct (Z.eq_dec t 1) as [->|N1]; [exact B1|]. destruct (Z.eq_dec t 2) as [->|N2]; [exact B2|].
    destruct (sim_reach _ m R) as (f & S). pose proof (s_pc _ m f S t) as PT. rewrite (O t) in PT by (intros [X|[X|[]]]; congruence). apply PT. }
  exists m. split; [exact R|]. split; [|split; [exact B|split; [rewrite P2; reflexivity|exists (WReady 20), 0; auto]]].
  intros t. unfold tmexec. rewrite B. destruct (Z.eq_dec t 1) as [->|N1]; [rewrite P1; unfold mexec; rewrite P1; reflexivity|].
  destruct (Z.eq_dec t 2) as [->|N2]; [rewrite P2; unfold mexec; rewrite P2, V; reflexivity|].
  assert (PI : pcs (mk m) t = PIdle) by (apply O; intros [X|[X|[]]]; congruence). rewrite PI. unfold mexec. rewrite PI. reflexivity.
Qed.
(** ... and of C84_memory_up_to_date, after something was written *)
Example C84_demo_free : exists m, tmreach (fun _ => 0) tmcalm m /\ (forall t, inq (pcs (mk m) t) = None) /\ md m 7 = 6.
Proof.
  set (run := take1 ++ [TMRelease 1; TMFlush 1; TMFlush 1; St 1; St 1]).
  destruct (tmrun [1; 2] tm0 run) as [m|] eqn:E; [|vm_compute in E; discriminate E].
  pose proof (tmrun_idle [1; 2] run tm0 m (m0_idle _) E) as O.
  assert (V : Some (pcs (mk m) 1, pcs (mk m) 2, md m 7) = Some (PIdle, PIdle, 6)).
  { transitivity (match tmrun [1; 2] tm0 run with Some m => Some (pcs (mk m) 1, pcs (mk m) 2, md m 7) | None => None end); [rewrite E; reflexivity|vm_compute; reflexivity]. }
  injection V as P1 P2 V. exists m. split; [eapply tmrun_reach; [apply tm0_reach|apply m0_idle|exact E]|]. split; [|exact V].
  intros t. destruct (Z.eq_dec t 1) as [->|N1]; [rewrite P1; reflexivity|]. destruct (Z.eq_dec t 2) as [->|N2]; [rewrite P2; reflexivity|].
  rewrite (O t) by (intros [X|[X|[]]]; congruence). reflexivity.
Qed.

(** ** What does not hold *)
(** Calling release does not publish the data: that happens inside release, at its first interlocked instruction. *)
Theorem C84_published_when_release_is_called_refuted : exists m, tmreach (fun _ => 0) tmcalm m /\ pcs (mk m) 1 = PRel1 10 /\ md m 7 = 0 /\ latest (fun _ => 0) 7 (ml m) = 6.
Proof.
  destruct (tmrun [1; 2] tm0 (take1 ++ [TMRelease 1])) as [m|] eqn:E; [|vm_compute in E; discriminate E].
  exists m. split; [eapply tmrun_reach; [apply tm0_reach|apply m0_idle|exact E]|].
  assert (V : Some (pcs (mk m) 1, md m 7, latest (fun _ => 0) 7 (ml m)) = Some (PRel1 10, 0, 6)).
  { transitivity (match tmrun [1; 2] tm0 (take1 ++ [TMRelease 1]) with Some m => Some (pcs (mk m) 1, md m 7, latest (fun _ => 0) 7 (ml m)) | None => None end); [rewrite E; reflexivity|vm_compute; reflexivity]. }
  injection V as P L G. auto.
Qed.

Print Assumptions C84_reads_latest.
Print Assumptions C84_published.
Print Assumptions C84_memory_up_to_date.
Print Assumptions C84_mutual_exclusion.
Print Assumptions C84_fifo.
Print Assumptions C84_no_fault.
Print Assumptions C84_no_lost_waiter.
Print Assumptions C84_steps_bounded.
Print Assumptions C84_free_iff_unused.
Print Assumptions C84_published_when_release_is_called_refuted.
