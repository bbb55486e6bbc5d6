(** Reachable states, rest states and progress. *)
From Verif Require Import CBase ThreadLib CondModel CondSpec CondProof CondProof2 CondProof3 CondProof4.

Lemma init_inv : forall g0 n, 0 <= g0 < two64 -> Z.of_nat n < two31 -> inv g0 (cond_init 0 0 g0 n).
Proof.
  intros g0 n G N. assert (R : forall t p, nth_error (repeat Idle n) t = Some p -> p = Idle) by (intros; eapply nth_error_repeat; eauto).
  constructor; cbn [cond_init waiting wake gen sem lck mtx pcs clog].
  - unfold zlen. rewrite repeat_length. exact N.
  - intros t p E. rewrite (R _ _ E). cbn. split; discriminate.
  - intros; discriminate.
  - intros t p E. rewrite (R _ _ E). exact Logic.I.
  - intros t p E. rewrite (R _ _ E). exact Logic.I.
  - intros t p E. rewrite (R _ _ E). cbn. split; discriminate.
  - intros t p E. rewrite (R _ _ E). cbn. split; [contradiction | discriminate].
  - intros t []. 
  - intros t p g E. rewrite (R _ _ E). discriminate.
  - rewrite lsum_zero; [cbn; rewrite u64_small; lia|]. intros t p E. rewrite (R _ _ E). reflexivity.
  - rewrite lsum_zero; [reflexivity|]. intros t p E. rewrite (R _ _ E). reflexivity.
  - rewrite !lsum_zero; [reflexivity| |]; intros t p E; rewrite (R _ _ E); reflexivity.
  - rewrite lsum_zero; [reflexivity|]. intros t p E. rewrite (R _ _ E). reflexivity.
  - lia.
  - rewrite lsum_zero; [reflexivity|]. intros t p E. rewrite (R _ _ E). reflexivity.
  - exact Logic.I.
Qed.

Lemma idle_pc : forall s t, idle s t = true -> nth_error (pcs s) t = Some Idle.
Proof. unfold idle. intros s t H. destruct (nth_error (pcs s) t) as [[]|]; congruence. Qed.
Lemma owns_eq : forall o t, owns o t = true -> o = Some t.
Proof. unfold owns. intros [u|] t H; [|discriminate]. apply Nat.eqb_eq in H. congruence. Qed.

Lemma mtx_inv : forall g0 s t x, inv g0 s -> nth_error (pcs s) t = Some Idle ->
  (mtx s = None /\ x = Some t \/ mtx s = Some t /\ x = None) -> inv g0 (set_mtx s x).
Proof.
  intros g0 s t x I E H.
  replace (set_mtx s x) with (set_pc (set_mtx s x) t Idle).
  2: { unfold set_pc, set_mtx. cbn. rewrite (lset_same _ _ _ E). reflexivity. }
  pose proof (i_sem _ _ I). fr_ I E.
Qed.

Lemma act_inv : forall g0 a s s', inv g0 s -> do_act a s = Some s' -> inv g0 s'.
Proof.
  intros g0 a s s' I H. destruct a; cbn in H.
  - eapply exec_inv; eauto.
  - destruct (idle s t) eqn:D; [|discriminate]. apply idle_pc in D. destruct (mtx s) eqn:M; [discriminate|]. injection H as <-.
    eapply mtx_inv; eauto.
  - destruct (idle s t) eqn:D; [|discriminate]. apply idle_pc in D. destruct (owns (mtx s) t) eqn:O; [|discriminate]. apply owns_eq in O.
    injection H as <-. eapply mtx_inv; eauto.
  - destruct (idle s t) eqn:E; [|discriminate]. apply idle_pc in E. destruct (owns (mtx s) t) eqn:O; [|discriminate]. apply owns_eq in O.
    injection H as <-. refine (frame_inv _ _ _ _ _ _ I E _). constructor; [proj; reflexivity|..]; proj; cbn [hl val hm nm reg locg fa f199 ftok fd inside_wait andb negb];
      try reflexivity; try tauto; try lia; try (intros; discriminate); try exact Logic.I.
    + rewrite (i_gen _ _ I). f_equal. lia.
    + exact (i_sem _ _ I).
  - destruct (idle s t) eqn:E; [|discriminate]. apply idle_pc in E. injection H as <-. pose proof (i_sem _ _ I). fr_ I E.
  - destruct (idle s t) eqn:E; [|discriminate]. apply idle_pc in E. injection H as <-. pose proof (i_sem _ _ I). fr_ I E.
Qed.
Lemma run_inv : forall g0 l s s', inv g0 s -> run l s = Some s' -> inv g0 s'.
Proof.
  induction l as [|a l IH]; intros s s' I H; cbn in H; [congruence|]. destruct (do_act a s) as [s1|] eqn:E; [|discriminate].
  eapply IH; [|exact H]. eapply act_inv; eauto.
Qed.
Lemma reach_inv : forall g0 n s, 0 <= g0 < two64 -> Z.of_nat n < two31 -> reach 0 0 g0 n s -> inv g0 s.
Proof. intros g0 n s G N (l & R). eapply run_inv; [|exact R]. apply init_inv; auto. Qed.
