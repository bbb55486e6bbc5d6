(** A push answered "full" had no room but for the slot of the message taken last: the log of the fixed message queue handler under x86-TSO. *)
From Verif Require Import MpliteProof2 MpliteProof6.
From Verif Require Import CBase SeqLib RingBuffer2Model RingBuffer2Proof FixedQueueModel MsgQueueModel SpscModel SpscSpec SpscProof
  FHandlerModel FHandlerSpec FHandlerSpec2 FHandlerProof FHandlerProof4 FhTsoModel FhTsoSpec FhTsoProof FhTsoProof5.

Lemma xwexec_quiet one r s s' : xwexec one r s = Ret (Some s') -> x_pr s' = x_pr s /\ x_size s' = x_size s /\ exists x, x_log s' = x ++ x_log s /\ Forall kquiet x.
Proof.
  intro H. unfold xwexec in H.
  assert (forall y, x_pr y = x_pr s -> x_size y = x_size s -> x_log y = x_log s -> x_pr y = x_pr s /\ x_size y = x_size s /\ exists x, x_log y = x ++ x_log s /\ Forall kquiet x) as Z0.
  { intros y A B C. split; [exact A|]. split; [exact B|]. exists []. split; [exact C|constructor]. }
  destruct (x_wk s); try discriminate; try (injection H as <-; apply Z0; reflexivity).
  - destruct (x_ob s); [|discriminate]. destruct (_ <? _); [|discriminate]. injection H as <-. apply Z0; reflexivity.
  - destruct (_ =? _); injection H as <-; apply Z0; reflexivity.
  - destruct (_ <? _); [|injection H as <-; apply Z0; reflexivity].
    destruct (mload _ _); cbn [bind] in H; try discriminate. destruct (mstore _ _ _); cbn [bind] in H; try discriminate. injection H as <-. apply Z0; reflexivity.
  - injection H as <-. split; [reflexivity|]. split; [reflexivity|]. eexists [_]. split; [reflexivity|repeat constructor].
  - injection H as <-. split; [reflexivity|]. split; [reflexivity|]. eexists [_]. split; [reflexivity|repeat constructor].
Qed.

Section Full.
Variable q : fq Z.
Hypothesis Hq : rb_in (fq_ring q) = 0 /\ rb_out (fq_ring q) = 0 /\ is_pow2 (rb_size (fq_ring q)) /\ rb_size (fq_ring q) <= zlen (rb_buf (fq_ring q)).
Hypothesis Hone : 8 <= fq_one q < two32.

Definition knoroom (l : list kev) : Prop := rb_size (fq_ring q) < fq_one q * (zlen (kaccepted l) - Z.max 0 (kupto l - 1) + 1).
Record xfull (s : ft) : Prop := {
  kx_size : x_size s = rb_size (fq_ring q);
  kx_log : forall l2 m l, x_log s = l2 ++ KPushRet m 5 :: l -> knoroom (at_kpush l);
  kx_ret : forall m, x_pr s = FRet m 5 -> knoroom (at_kpush (x_log s));
  kx_p : pushing (x_pr s) -> kaccepted (at_kpush (x_log s)) = kaccepted (x_log s) }.

Lemma kquiet_full s s' x : xfull s -> x_pr s' = x_pr s -> x_size s' = x_size s -> x_log s' = x ++ x_log s -> Forall kquiet x -> xfull s'.
Proof.
  intros [A B C D] EP ES EH QH. destruct (kq_at x (x_log s) QH) as [H1 H2].
  constructor; rewrite ?EP, ?ES, ?EH, ?H1, ?H2; auto.
  intros l2 m l E. destruct (kq_ev _ _ _ _ _ _ QH E) as (l3 & X). eapply B; exact X.
Qed.
Lemma kupto_le s A c d e : xinv (fq_one q) s A c d e -> kupto (at_kpush (x_log s)) <= d.
Proof.
  intros (Q & _ & []). destruct (at_kpush_suffix (x_log s)) as (x & E).
  assert (kupto (at_kpush (x_log s)) <= kupto (x_log s)) as M.
  { pose proof (kupto_mono x (at_kpush (x_log s))) as K. rewrite <- E in K. apply K; [assumption|]. intros k m I. destruct (y_cb k m I). lia. }
  destruct (kupto_in (x_log s)) as [X|(k & m & I & X)].
  - destruct Q. lia.
  - destruct (y_cb k m I). destruct (held (x_wk s)); lia.
Qed.

Lemma xfull_step s s' : (exists A c d e, xinv (fq_one q) s A c d e) -> xstep (fq_one q) s s' -> xfull s -> xfull s'.
Proof.
  intros (A & c & d & e0 & I) HS F. destruct HS as [s r s' H|s s' H|s s' H|s s' H|s m EP ED M|s P D|s P D].
  - destruct (xwexec_quiet _ _ _ _ H) as (EP & ES & x & E & Q). eapply kquiet_full; eauto.
  - pose proof (kupto_le s A c d e0 I) as KU. destruct I as (Q & _ & L). pose proof (xavail_write_eq _ _ _ _ _ _ Q) as AW. destruct F as [K1 K2 K3 K4].
    assert (0 < fq_one q) as O1 by lia. assert (Z.max 0 (kupto (at_kpush (x_log s)) - 1) <= e0) as KM by (destruct Q; destruct y_ob; lia).
    pose proof (y_p _ _ _ _ _ _ Q) as VP. pose proof (y_acc _ _ _ L) as VA. unfold xp in VP. unfold xpexec in H. destruct (x_pr s) eqn:EP; try discriminate.
    + injection H as <-. constructor; cbn; auto; destruct (x_flag s); try discriminate; auto.
    + injection H as <-. constructor; cbn; auto. discriminate.
    + destruct (xavail_write s / fq_one q =? 0) eqn:E; injection H as <-; constructor; cbn; auto; try discriminate.
      intros m0 _. unfold knoroom. rewrite K4 by exact Logic.I. cbn in VA. rewrite app_nil_r in VA. rewrite <- VA.
      apply Z.eqb_eq in E. rewrite AW, K1 in E.
      assert (rb_size (fq_ring q) - fq_one q * (zlen A - e0) < fq_one q).
      { destruct (Z_lt_dec (rb_size (fq_ring q) - fq_one q * (zlen A - e0)) (fq_one q)) as [|N]; [assumption|].
        assert (1 <= (rb_size (fq_ring q) - fq_one q * (zlen A - e0)) / fq_one q) by (apply Z.div_le_lower_bound; lia). lia. }
      nia.
    + destruct VP as (V1 & V2 & V3). destruct (_ =? 0) eqn:E; injection H as <-; constructor; cbn; auto; try discriminate. nia.
    + destruct VP as (V1 & V2 & V3 & -> & _). destruct (_ <? _).
      * destruct (mload _ _); cbn [bind] in H; try discriminate. injection H as <-.
        constructor; cbn; auto. discriminate.
      * rewrite Z.eqb_refl in H. injection H as <-. constructor; cbn; auto. discriminate.
    + injection H as <-. constructor; cbn; auto. discriminate.
    + destruct (x_cb s); [|discriminate]. injection H as <-. constructor; cbn; auto. intros m0 E. discriminate.
    + injection H as <-. constructor; cbn; auto; try discriminate; [|contradiction]. intros l2 m' l E. destruct l2 as [|e l2]; cbn in E; injection E.
      * intros E2 -> ->. rewrite <- E2. apply (K3 m'). reflexivity.
      * intros E2 _. eapply K2. exact E2.
    + injection H as <-. constructor; cbn; auto; discriminate || contradiction.
    + injection H as <-. constructor; cbn; auto; try discriminate; try contradiction. intros l2 m' l E. destruct l2 as [|e l2]; cbn in E; [discriminate|].
      injection E as _ E. eapply K2. exact E.
  - unfold xdexec in H. destruct (x_ds s); try discriminate.
    + injection H as <-. apply (kquiet_full s _ []); auto; constructor.
    + destruct (x_dfl s); [discriminate|]. injection H as <-. apply (kquiet_full s _ []); auto; constructor.
    + destruct (x_wk s); try discriminate. destruct (x_ob s); try discriminate. destruct (x_wfl s); try discriminate.
      injection H as <-. apply (kquiet_full s _ [KDestroyed]); auto; repeat constructor.
  - destruct H as [s e b s' E H|s x b E|s E|s E]; try (apply (kquiet_full s _ []); auto; constructor).
    unfold xcommit in H. destruct e; [destruct (mstore _ _ _); cbn [bind] in H; try discriminate|..]; injection H as <-; apply (kquiet_full s _ []); auto; constructor.
  - destruct F as [K1 K2 K3 K4]. constructor; cbn; auto; try discriminate. intros l2 m' l E. destruct l2 as [|e l2]; cbn in E; [discriminate|].
    injection E as _ E. eapply K2. exact E.
  - destruct F as [K1 K2 K3 K4]. constructor; cbn; auto; try discriminate; try contradiction. intros l2 m' l E. destruct l2 as [|e l2]; cbn in E; [discriminate|].
    injection E as _ E. eapply K2. exact E.
  - apply (kquiet_full s _ [KDestroy]); auto; repeat constructor.
Qed.

Lemma x_full s : xreach q s -> zlen (kaccepted (x_log s)) + 2 < two64 -> forall l2 m l, x_log s = l2 ++ KPushRet m 5 :: l ->
  rb_size (fq_ring q) < fq_one q * (zlen (kaccepted (at_kpush l)) - Z.max 0 (kupto (at_kpush l) - 1) + 1).
Proof.
  intros H HT. apply kx_log. induction H as [|s s' H IH HS].
  - constructor; cbn; try discriminate; try contradiction; auto. intros l2 m l E. destruct l2; discriminate.
  - destruct (xstep_log _ _ _ HS) as (x & EX). rewrite EX in HT. pose proof (FHandlerProof3.kaccepted_mono x (x_log s)) as HM.
    eapply xfull_step; eauto; [|apply IH; lia]. apply xreach_inv; auto. lia.
Qed.
End Full.
