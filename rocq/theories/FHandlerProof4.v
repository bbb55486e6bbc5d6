(** A push answered "full" had no room: the log of the fixed message queue handler. *)
From Verif Require Import MpliteProof2 MpliteProof6.
From Verif Require Import CBase SeqLib RingBuffer2Model RingBuffer2Proof FixedQueueModel MsgQueueModel SpscModel SpscSpec SpscProof
  FHandlerModel FHandlerSpec FHandlerSpec2 FHandlerProof FHandlerProof2 FHandlerProof3.

Definition kquiet (e : kev) : Prop := match e with KPush _ | KPushRet _ _ => False | _ => True end.
Lemma kq_at x l : Forall kquiet x -> at_kpush (x ++ l) = at_kpush l /\ kaccepted (x ++ l) = kaccepted l.
Proof. induction 1 as [|e x H _ [IH1 IH2]]; [split; reflexivity|]. destruct e; cbn in *; try contradiction; split; assumption. Qed.
Lemma kq_ev x l l2 m c l0 : Forall kquiet x -> x ++ l = l2 ++ KPushRet m c :: l0 -> exists l3, l = l3 ++ KPushRet m c :: l0.
Proof.
  intro H. revert l2. induction H as [|e x H _ IH]; intros l2 E; [exists l2; exact E|].
  destruct l2 as [|e2 l2]; cbn in E; injection E as E1 E2; [subst e; contradiction|]. eapply IH; exact E2.
Qed.
Lemma kupto_in l : kupto l = 0 \/ exists k m, In (KCb k m) l /\ kupto l = k + 1.
Proof.
  induction l as [|e l [IH|(k & m & I & E)]]; [left; reflexivity| |].
  - destruct e; cbn [kupto]; auto. right. do 2 eexists. split; [left; reflexivity|reflexivity].
  - destruct e; cbn [kupto]; try (right; exists k, m; split; [right; exact I|exact E]). right. do 2 eexists. split; [left; reflexivity|reflexivity].
Qed.
Lemma kupto_mono x l : kord (x ++ l) -> (forall k m, In (KCb k m) (x ++ l) -> 0 <= k) -> kupto l <= kupto (x ++ l).
Proof.
  induction x as [|e x IH]; cbn [app]; intros K P; [lia|].
  assert (kord (x ++ l)) as K' by (destruct e; cbn [kord] in K; tauto). specialize (IH K' (fun k m I => P k m (or_intror I))).
  destruct e; cbn [kupto]; try exact IH. destruct K as [K _]. destruct (kupto_in (x ++ l)) as [E|(k' & m' & I & E)].
  - specialize (P _ _ (or_introl eq_refl)). lia.
  - specialize (K _ _ I). lia.
Qed.
Lemma at_kpush_suffix l : exists x, l = x ++ at_kpush l.
Proof. induction l as [|e l (x & IH)]; [exists []; reflexivity|]. destruct e; cbn [at_kpush]; try (eexists (_ :: x); cbn; f_equal; exact IH). eexists [_]. reflexivity. Qed.

Lemma fwexec_quiet one r s s' : fwexec one r s = Ret (Some s') -> fpr s' = fpr s /\ fsize s' = fsize s /\ exists x, flog s' = x ++ flog s /\ Forall kquiet x.
Proof.
  intro H. unfold fwexec in H.
  assert (forall y, fpr y = fpr s -> fsize y = fsize s -> flog y = flog s -> fpr y = fpr s /\ fsize y = fsize s /\ exists x, flog y = x ++ flog s /\ Forall kquiet x) as Z0.
  { intros y A B C. split; [exact A|]. split; [exact B|]. exists []. split; [exact C|constructor]. }
  destruct (fwk s); try discriminate; try (injection H as <-; apply Z0; reflexivity).
  - destruct (_ <? _); [|discriminate]. injection H as <-. apply Z0; reflexivity.
  - destruct (_ =? _); injection H as <-; apply Z0; reflexivity.
  - destruct (_ <? _); [|injection H as <-; apply Z0; reflexivity].
    destruct (mload _ _); cbn [bind] in H; try discriminate. destruct (mstore _ _ _); cbn [bind] in H; try discriminate. injection H as <-. apply Z0; reflexivity.
  - injection H as <-. split; [reflexivity|]. split; [reflexivity|]. eexists [_]. split; [reflexivity|repeat constructor].
  - injection H as <-. split; [reflexivity|]. split; [reflexivity|]. eexists [_]. split; [reflexivity|repeat constructor].
Qed.

Definition pushing (p : fpc) : Prop := match p with FIdle | F153 | F156 => False | _ => True end.
Section Full.
Variable q : fq Z.
Hypothesis Hq : rb_in (fq_ring q) = 0 /\ rb_out (fq_ring q) = 0 /\ is_pow2 (rb_size (fq_ring q)) /\ rb_size (fq_ring q) <= zlen (rb_buf (fq_ring q)).
Hypothesis Hone : 8 <= fq_one q < two32.

Definition knoroom (l : list kev) : Prop := rb_size (fq_ring q) < fq_one q * (zlen (kaccepted l) - kupto l + 1).
Record kfull (s : fh) : Prop := {
  k_size : fsize s = rb_size (fq_ring q);
  k_log : forall l2 m l, flog s = l2 ++ KPushRet m 5 :: l -> knoroom (at_kpush l);
  k_ret : forall m, fpr s = FRet m 5 -> knoroom (at_kpush (flog s));
  k_p : pushing (fpr s) -> kaccepted (at_kpush (flog s)) = kaccepted (flog s) }.

Lemma kquiet_full s s' x : kfull s -> fpr s' = fpr s -> fsize s' = fsize s -> flog s' = x ++ flog s -> Forall kquiet x -> kfull s'.
Proof.
  intros [A B C D] EP ES EH QH. destruct (kq_at x (flog s) QH) as [H1 H2].
  constructor; rewrite ?EP, ?ES, ?EH, ?H1, ?H2; auto.
  intros l2 m l E. destruct (kq_ev _ _ _ _ _ _ QH E) as (l3 & X). eapply B; exact X.
Qed.
Lemma kupto_le s A d : finv (fq_one q) s A d -> kupto (at_kpush (flog s)) <= d.
Proof.
  intros (Q & _ & []). destruct (at_kpush_suffix (flog s)) as (x & E).
  assert (kupto (at_kpush (flog s)) <= kupto (flog s)) as M.
  { pose proof (kupto_mono x (at_kpush (flog s))) as K. rewrite <- E in K. apply K; [assumption|]. intros k m I. destruct (v_cb k m I). lia. }
  destruct (kupto_in (flog s)) as [X|(k & m & I & X)].
  - destruct Q. lia.
  - destruct (v_cb k m I). destruct (held (fwk s)); lia.
Qed.

Lemma kfull_step s s' : (exists A d, finv (fq_one q) s A d) -> fhstep (fq_one q) s s' -> kfull s -> kfull s'.
Proof.
  intros (A & d & I) HS F. destruct HS as [s r s' H|s s' H|s s' H|s m EP ED M|s P D|s P D].
  - destruct (fwexec_quiet _ _ _ _ H) as (EP & ES & x & E & Q). eapply kquiet_full; eauto.
  - pose proof (kupto_le s A d I) as KU. destruct I as (Q & _ & L). pose proof (favail_write_eq _ _ _ _ Q) as AW. destruct F as [K1 K2 K3 K4].
    assert (0 < fq_one q) as O1 by lia.
    pose proof (v_p _ _ _ _ Q) as VP. pose proof (v_acc _ _ _ L) as VA. unfold vp in VP. unfold fpexec in H. destruct (fpr s) eqn:EP; try discriminate.
    + injection H as <-. constructor; cbn; auto; destruct (fflag s); try discriminate; auto.
    + injection H as <-. constructor; cbn; auto. discriminate.
    + destruct (favail_write s / fq_one q =? 0) eqn:E; injection H as <-; constructor; cbn; auto; try discriminate.
      intros m0 _. unfold knoroom. rewrite K4 by exact Logic.I. cbn in VA. rewrite app_nil_r in VA. rewrite <- VA.
      apply Z.eqb_eq in E. rewrite AW, K1 in E.
      assert (rb_size (fq_ring q) - fq_one q * (zlen A - d) < fq_one q).
      { destruct (Z_lt_dec (rb_size (fq_ring q) - fq_one q * (zlen A - d)) (fq_one q)) as [|N]; [assumption|].
        assert (1 <= (rb_size (fq_ring q) - fq_one q * (zlen A - d)) / fq_one q) by (apply Z.div_le_lower_bound; lia). lia. }
      nia.
    + destruct VP as (V1 & V2 & V3). destruct (_ =? 0) eqn:E; injection H as <-; constructor; cbn; auto; try discriminate. nia.
    + destruct VP as (V1 & V2 & V3 & -> & _). destruct (_ <? _).
      * destruct (mload _ _); cbn [bind] in H; try discriminate. destruct (mstore _ _ _); cbn [bind] in H; try discriminate. injection H as <-.
        constructor; cbn; auto. discriminate.
      * rewrite Z.eqb_refl in H. injection H as <-. constructor; cbn; auto. discriminate.
    + injection H as <-. constructor; cbn; auto. discriminate.
    + injection H as <-. constructor; cbn; auto. intros m0 E. discriminate.
    + injection H as <-. constructor; cbn; auto; try discriminate; [|contradiction]. intros l2 m' l E. destruct l2 as [|e l2]; cbn in E; injection E.
      * intros E2 -> ->. rewrite <- E2. apply (K3 m'). reflexivity.
      * intros E2 _. eapply K2. exact E2.
    + injection H as <-. constructor; cbn; auto; discriminate || contradiction.
    + injection H as <-. constructor; cbn; auto; try discriminate; try contradiction. intros l2 m' l E. destruct l2 as [|e l2]; cbn in E; [discriminate|].
      injection E as _ E. eapply K2. exact E.
  - unfold fdexec in H. destruct (fds s); try discriminate.
    + injection H as <-. apply (kquiet_full s _ []); auto; constructor.
    + injection H as <-. apply (kquiet_full s _ []); auto; constructor.
    + destruct (fwk s); try discriminate. injection H as <-. apply (kquiet_full s _ [KDestroyed]); auto; repeat constructor.
  - destruct F as [K1 K2 K3 K4]. constructor; cbn; auto; try discriminate. intros l2 m' l E. destruct l2 as [|e l2]; cbn in E; [discriminate|].
    injection E as _ E. eapply K2. exact E.
  - destruct F as [K1 K2 K3 K4]. constructor; cbn; auto; try discriminate; try contradiction. intros l2 m' l E. destruct l2 as [|e l2]; cbn in E; [discriminate|].
    injection E as _ E. eapply K2. exact E.
  - apply (kquiet_full s _ [KDestroy]); auto; repeat constructor.
Qed.

Lemma fh_full s : fhreach q s -> zlen (kaccepted (flog s)) + 2 < two64 -> forall l2 m l, flog s = l2 ++ KPushRet m 5 :: l ->
  rb_size (fq_ring q) < fq_one q * (zlen (kaccepted (at_kpush l)) - kupto (at_kpush l) + 1).
Proof.
  intros H HT. apply k_log. induction H as [|s s' H IH HS].
  - constructor; cbn; try discriminate; try contradiction; auto. intros l2 m l E. destruct l2; discriminate.
  - destruct (fhstep_log _ _ _ HS) as (x & EX). rewrite EX in HT. pose proof (kaccepted_mono x (flog s)) as HM.
    eapply kfull_step; eauto; [|apply IH; lia]. apply fhreach_inv; auto. lia.
Qed.
End Full.
