From Verif Require Import MpliteProof2 MpliteProof6.
From Verif Require Import CBase SeqLib RingBuffer2Model RingBuffer2Proof FixedQueueModel MsgQueueModel SpscModel SpscSpec SpscProof
  FHandlerModel FHandlerSpec FHandlerProof FHandlerProof2 FHandlerProof3 FhTsoModel FhTsoSpec FhTsoProof FhTsoProof2 FhTsoProof3 FhTsoProof4.

Section Reach.
Variable q : fq Z.
Hypothesis Hq : rb_in (fq_ring q) = 0 /\ rb_out (fq_ring q) = 0 /\ is_pow2 (rb_size (fq_ring q)) /\ rb_size (fq_ring q) <= zlen (rb_buf (fq_ring q)).
Hypothesis Hone : 8 <= fq_one q < two32.

Lemma xboot_inv : xinv (fq_one q) (xboot q) [] 0 0 0.
Proof.
  destruct Hq as (A & B & C & D). pose proof (pow2_bound _ C). split; [|split].
  - constructor; unfold xp, xw, xshape, xboot; xb; auto; change (zlen (@nil (list Z))) with 0; rewrite ?Z.mul_0_r; auto; try lia; try (unfold two64; lia).
    + intros p b [].
    + intros k m j _ K. rewrite znth_nil in K. discriminate.
    + unfold zlen. rewrite repeat_length. lia.
  - constructor; unfold xover, xboot; cbn; auto; try lia; try discriminate; try congruence. intros [X|[X|X]]; discriminate.
  - constructor; cbn; auto; try lia; try discriminate.
    + change (zlen (@nil (list Z))) with 0. split; [lia|]. split; [lia|]. split; [intros v []|reflexivity].
    + intros mid earlier X. destruct mid; discriminate.
    + intros mid m0 mid2 earlier X. destruct mid; discriminate.
    + intros later k m mid m0 mid2 earlier X. destruct later; discriminate.
Qed.
Lemma xwexec_log one r s s' : xwexec one r s = Ret (Some s') -> exists x, x_log s' = x ++ x_log s.
Proof.
  intro H. unfold xwexec in H. destruct (x_wk s); try discriminate; try (injection H as <-; exists []; reflexivity); try (injection H as <-; eexists [_]; reflexivity).
  - destruct (x_ob s); [|discriminate]. destruct (_ <? _); [|discriminate]. injection H as <-; exists []; reflexivity.
  - destruct (_ =? _); injection H as <-; exists []; reflexivity.
  - destruct (_ <? _); [|injection H as <-; exists []; reflexivity].
    destruct (mload _ _); cbn [bind] in H; try discriminate.
    destruct (mstore _ _ _); cbn [bind] in H; try discriminate. injection H as <-; exists []; reflexivity.
Qed.
Lemma xstep_log one s s' : xstep one s s' -> exists x, x_log s' = x ++ x_log s.
Proof.
  intros [s0 r s1 H|s0 s1 H|s0 s1 H|s0 s1 H|s0 m P D M|s0 P D|s0 P D]; try (eexists [_]; reflexivity).
  - eapply xwexec_log; eauto.
  - unfold xpexec in H. destruct (x_pr s0); try discriminate; try (injection H as <-; exists []; reflexivity); try (injection H as <-; eexists [_]; reflexivity).
    + destruct (_ =? _); injection H as <-; exists []; reflexivity.
    + destruct (_ <? _); [|injection H as <-; exists []; reflexivity].
      destruct (mload _ _); cbn [bind] in H; try discriminate. injection H as <-; exists []; reflexivity.
    + destruct (x_cb s0); [|discriminate]. injection H as <-; exists []; reflexivity.
  - unfold xdexec in H. destruct (x_ds s0); try discriminate; try (injection H as <-; exists []; reflexivity).
    + destruct (x_dfl s0); [discriminate|]. injection H as <-; exists []; reflexivity.
    + destruct (x_wk s0); try discriminate. destruct (x_ob s0); [|discriminate]. destruct (x_wfl s0); [discriminate|]. injection H as <-; eexists [_]; reflexivity.
  - exists []. destruct H as [s2 ev b s3 EB EC|s2 x b EB|s2 EB|s2 EB]; try reflexivity.
    destruct ev; cbn [xcommit] in EC; try (injection EC as <-; reflexivity).
    destruct (mstore _ _ _); cbn [bind] in EC; try discriminate. injection EC as <-; reflexivity.
Qed.
Lemma xreach_inv s : xreach q s -> zlen (kaccepted (x_log s)) + 2 < two64 -> exists A c d e, xinv (fq_one q) s A c d e.
Proof.
  induction 1 as [|s s' H IH HS]; intro HT; [exists [], 0, 0, 0; apply xboot_inv|].
  destruct (xstep_log _ _ _ HS) as (x & EX). rewrite EX in HT. pose proof (kaccepted_mono x (x_log s)) as HM.
  destruct IH as (A & c & d & e & IV); [lia|].
  destruct HS as [s r s' HW|s s' HP|s s' HD|s s' HF|s m P D M|s P D|s P D].
  - destruct (xwexec_inv (fq_one q) r s A c d e IV) as (o & E & K). rewrite HW in E. injection E as <-. destruct (K s' eq_refl) as (d' & I'). exists A, c, d', e. exact I'.
  - destruct (xpexec_inv (fq_one q) s A c d e IV ltac:(lia)) as (o & E & K). rewrite HP in E. injection E as <-. destruct (K s' eq_refl) as (A' & c' & I'). exists A', c', d, e. exact I'.
  - exists A, c, d, e. eapply xdexec_inv; eauto.
  - destruct (xflush_inv (fq_one q) s s' A c d e IV HF) as (c' & e' & I'). exists A, c', d, e'. exact I'.
  - exists A, c, d, e. apply xpush_inv; auto.
  - exists A, c, d, e. apply xclear_inv; auto.
  - exists A, c, d, e. apply xdestroy_inv; auto.
Qed.

(** ** consequences *)
Lemma x_no_fault s r : xreach q s -> zlen (kaccepted (x_log s)) + 2 < two64 ->
  (exists o, xwexec (fq_one q) r s = Ret o) /\ (exists o, xpexec (fq_one q) s = Ret o) /\
  (forall ev b, x_cb s = ev :: b -> exists s', xcommit (xset_cb s b) ev = Ret s').
Proof.
  intros H HT. destruct (xreach_inv s H HT) as (A & c & d & e & IV). split; [|split].
  - destruct (xwexec_inv (fq_one q) r s A c d e IV) as (o & E & _). eauto.
  - destruct (xpexec_inv (fq_one q) s A c d e IV HT) as (o & E & _). eauto.
  - intros ev b E. destruct IV as (Q & _). eapply xcommit_ok; eauto.
Qed.
Lemma x_order s later k m earlier : xreach q s -> zlen (kaccepted (x_log s)) + 2 < two64 ->
  x_log s = later ++ KCb k m :: earlier ->
  znth k (ksent (x_log s)) = Some m /\ forall k' m', In (KCb k' m') earlier -> k' < k.
Proof.
  intros H HT E. destruct (xreach_inv s H HT) as (A & c & d & e & _ & _ & L). destruct L. split.
  - destruct (y_cb k m) as [R Z]; [rewrite E; apply in_app_iff; right; left; reflexivity|].
    rewrite y_sent. pose proof (znth_Some_range _ _ _ Z). rewrite znth_app_l by lia. exact Z.
  - rewrite E in y_ord. eapply kord_split; eauto.
Qed.
Lemma x_all s k : xreach q s -> zlen (kaccepted (x_log s)) + 2 < two64 -> xasleep s -> x_pr s = FIdle -> ~ kended (x_log s) ->
  cleared (x_log s) <= k < zlen (kaccepted (x_log s)) -> exists m, In (KCb k m) (x_log s).
Proof.
  intros H HT [EW ES] EP NE HK. destruct (xreach_inv s H HT) as (A & c & d & e & Q & S & L). destruct Q, S, L.
  rewrite EW, EP in *. xb. apply y_all. rewrite app_nil_r in y_acc. rewrite <- y_acc in HK.
  destruct y_cnt as [[K|K]|K]; [congruence|congruence|].
  assert (edp (x_ds s) = 0) as D0.
  { destruct (x_ds s) eqn:ED; try reflexivity; exfalso; apply NE; right; apply y_des; discriminate. }
  lia.
Qed.
Lemma x_clear s later k m mid m0 mid2 earlier : xreach q s -> zlen (kaccepted (x_log s)) + 2 < two64 ->
  x_log s = later ++ KCb k m :: mid ++ KPushRet m0 0 :: mid2 ++ KClearRet :: earlier ->
  zlen (kaccepted earlier) <= k \/ forall k' m', ~ In (KCb k' m') mid.
Proof. intros H HT E. destruct (xreach_inv s H HT) as (A & c & d & e & _ & _ & []). eapply y_ok; eauto. Qed.
Lemma x_progress s : xreach q s -> zlen (kaccepted (x_log s)) + 2 < two64 ->
  x_wk s = VDone \/ xasleep s \/ (exists s', xwexec (fq_one q) 0 s = Ret (Some s')) \/ (x_wk s = V49 /\ x_ob s <> [] /\ exists s', xflush s s').
Proof.
  intros H HT. destruct (xreach_inv s H HT) as (A & c & d & e & IV). destruct (xwexec_inv (fq_one q) 0 s A c d e IV) as (o & E & _).
  destruct IV as (_ & S & _). destruct S.
  destruct (x_wk s) eqn:EW; auto; right.
  - destruct (Z_lt_dec 0 (x_sem s)); [right|left; split; [exact EW|lia]]. destruct (x_ob s) as [|y b] eqn:EO.
    + left. unfold xwexec. rewrite EW, EO. destruct (0 <? x_sem s) eqn:E0; [eauto|lia].
    + right. split; [reflexivity|]. split; [discriminate|]. eexists. eapply XFO; eauto.
  - right; left. unfold xwexec. rewrite EW. eauto.
  - right; left. unfold xwexec. rewrite EW. eauto.
  - right; left. unfold xwexec. rewrite EW. destruct (_ =? 0); eauto.
  - right; left. unfold xwexec in *. rewrite EW in *. destruct (_ <? _); [|eauto]. destruct (mload _ _); cbn [bind] in *; try discriminate.
    destruct (mstore _ _ _); cbn [bind] in *; try discriminate. eauto.
  - right; left. unfold xwexec. rewrite EW. eauto.
  - right; left. unfold xwexec. rewrite EW. eauto.
  - right; left. unfold xwexec. rewrite EW. eauto.
  - right; left. unfold xwexec. rewrite EW. eauto.
Qed.
Lemma x_join s : xreach q s -> zlen (kaccepted (x_log s)) + 2 < two64 -> x_ds s = E168 -> x_flag s = true /\ ~ xasleep s.
Proof.
  intros H HT E. destruct (xreach_inv s H HT) as (A & c & d & e & _ & S & _). destruct S.
  rewrite E in y_dp. destruct (y_dp eq_refl) as (F & _ & K). split; [exact F|]. intros [A0 B0]. destruct K as [K|[[K|K]|K]]; try congruence; try lia.
Qed.
Lemma x_room s m w : xreach q s -> zlen (kaccepted (x_log s)) + 2 < two64 -> fq_one q <= x_size s -> xasleep s -> x_ob s = [] -> ~ kended (x_log s) -> x_pr s = F39 m w ->
  xpexec (fq_one q) s = Ret (Some (xset_pr s (F196 m w))).
Proof.
  intros H HT HS [EW ES] EO NE EP. destruct (xreach_inv s H HT) as (A & c & d & e & Q & S & L). pose proof (xavail_write_eq _ _ _ _ _ _ Q) as AW.
  destruct Q, S. rewrite EW, EP, ES in *. xb. unfold xover in *. rewrite EW in *.
  assert (e = d) as -> by (destruct y_ob as [[_ ?]|[? _]]; [assumption|congruence]).
  assert (edp (x_ds s) = 0) as D0.
  { destruct (x_ds s) eqn:ED; try reflexivity; exfalso; apply NE; right; apply y_des; discriminate. }
  assert (zlen A = d) as EA by (destruct y_cnt as [[K|K]|K]; try discriminate; lia).
  unfold xpexec. rewrite EP, AW, EA, Z.sub_diag, Z.mul_0_r, Z.sub_0_r.
  assert (1 <= x_size s / fq_one q) by (apply Z.div_le_lower_bound; lia). destruct (_ =? 0) eqn:E; [lia|reflexivity].
Qed.
(** between calls only stores to min_valid_token can be pending in the client's buffer *)
Lemma x_idle_stores s : xreach q s -> zlen (kaccepted (x_log s)) + 2 < two64 -> x_pr s = FIdle -> forall ev, In ev (x_cb s) -> exists x, ev = CMin x.
Proof.
  intros H HT E ev K. destruct (xreach_inv s H HT) as (A & c & d & e & Q & _). destruct Q. rewrite E in *. destruct ev as [p b|x|x]; eauto.
  - specialize (y_byte p b K). discriminate.
  - exfalso. destruct y_shape as [[_ N]|(_ & X & _)]; [exact (N x K)|]. rewrite E in X. discriminate.
Qed.
Lemma x_destroyed s : xreach q s -> zlen (kaccepted (x_log s)) + 2 < two64 -> In KDestroyed (x_log s) -> x_wk s = VDone /\ x_ob s = [] /\ x_wfl s = false /\ x_dfl s = false.
Proof.
  intros H HT K. destruct (xreach_inv s H HT) as (A & c & d & e & _ & S & _). destruct S. specialize (y_dl K). destruct (y_dd y_dl) as (X & Y & Z).
  rewrite y_dl in y_dp. destruct (y_dp eq_refl) as (_ & F & _). auto.
Qed.
(** no call is under way once destroy has been called *)
Lemma x_destroy_idle s : xreach q s -> x_ds s <> ENone -> x_pr s = FIdle.
Proof.
  induction 1 as [|s s' H IH HS]; intro D; [cbn in D; congruence|].
  destruct HS as [s r s' HW|s s' HP|s s' HD|s s' HF|s m P DD M|s P DD|s P DD]; xb; try congruence.
  - assert (x_ds s' = x_ds s /\ x_pr s' = x_pr s) as [E1 E2]; [|rewrite E1 in D; rewrite E2; auto].
    unfold xwexec in HW. destruct (x_wk s); try discriminate; try (injection HW as <-; split; reflexivity).
    + destruct (x_ob s); [|discriminate]. destruct (_ <? _); [|discriminate]. injection HW as <-; split; reflexivity.
    + destruct (_ =? _); injection HW as <-; split; reflexivity.
    + destruct (_ <? _); [|injection HW as <-; split; reflexivity].
      destruct (mload _ _); cbn [bind] in HW; try discriminate.
      destruct (mstore _ _ _); cbn [bind] in HW; try discriminate. injection HW as <-; split; reflexivity.
  - exfalso. assert (x_ds s' = x_ds s) as E1.
    { unfold xpexec in HP. destruct (x_pr s); try discriminate; try (injection HP as <-; reflexivity).
      - destruct (_ =? _); injection HP as <-; reflexivity.
      - destruct (_ <? _); [|injection HP as <-; reflexivity]. destruct (mload _ _); cbn [bind] in HP; try discriminate. injection HP as <-; reflexivity.
      - destruct (x_cb s); [|discriminate]. injection HP as <-; reflexivity. }
    rewrite E1 in D. specialize (IH D). unfold xpexec in HP. rewrite IH in HP. discriminate.
  - assert (x_ds s <> ENone /\ x_pr s' = x_pr s) as [E1 E2]; [|rewrite E2; auto].
    unfold xdexec in HD. destruct (x_ds s); try discriminate; (split; [discriminate|]).
    + injection HD as <-; reflexivity.
    + destruct (x_dfl s); [discriminate|]. injection HD as <-; reflexivity.
    + destruct (x_wk s); try discriminate. destruct (x_ob s); [|discriminate]. destruct (x_wfl s); [discriminate|]. injection HD as <-; reflexivity.
  - assert (x_ds s' = x_ds s /\ x_pr s' = x_pr s) as [E1 E2]; [|rewrite E1 in D; rewrite E2; auto].
    destruct HF as [s ev b s' EB EC|s x b EB|s EB|s EB]; try (split; reflexivity).
    destruct ev; cbn [xcommit] in EC; try (injection EC as <-; split; reflexivity).
    destruct (mstore _ _ _); cbn [bind] in EC; try discriminate. injection EC as <-; split; reflexivity.
Qed.
Lemma x_destroyed_settled s : xreach q s -> zlen (kaccepted (x_log s)) + 2 < two64 -> In KDestroyed (x_log s) -> x_wk s = VDone /\ xsettled s.
Proof.
  intros H HT K. destruct (x_destroyed s H HT K) as (A & B & C & D). split; [exact A|]. split; [exact B|]. split; [exact C|]. split; [exact D|].
  apply x_idle_stores; auto. apply x_destroy_idle; auto. destruct (xreach_inv s H HT) as (A0 & c & d & e & _ & S & _). destruct S. rewrite (y_dl K). discriminate.
Qed.
End Reach.

Definition xrank (one : Z) (w : vpc) : Z :=
  match w with V49 => 0 | V50 => one + 8 | V51 => one + 7 | V235 => one + 6 | VCopy n _ i => n - i + 5 | V58 => 4 | V60 => 3 | VCb => 2 | V73 => 1 | VDone => 0 end.
Lemma xvrun_log one n s s' : xvrun one n s s' -> exists x, x_log s' = x ++ x_log s.
Proof.
  induction 1 as [s|n r s s1 s2 NW HW _ IH|n s s1 s2 HS E _ IH]; [exists []; reflexivity| |].
  - destruct IH as (x & ->). destruct (xwexec_log one r s s1 HW) as (z & ->). exists (x ++ z). rewrite app_assoc; reflexivity.
  - destruct IH as (x & ->). destruct (xstep_log one s s1 HS) as (z & ->). exists (x ++ z). rewrite app_assoc; reflexivity.
Qed.
Lemma xvrun_bound q n s s' : (rb_in (fq_ring q) = 0 /\ rb_out (fq_ring q) = 0 /\ is_pow2 (rb_size (fq_ring q)) /\ rb_size (fq_ring q) <= zlen (rb_buf (fq_ring q))) ->
  8 <= fq_one q < two32 -> xvrun (fq_one q) n s s' -> xreach q s -> zlen (kaccepted (x_log s')) + 2 < two64 -> Z.of_nat n <= fq_one q + 8.
Proof.
  intros Hq Ho H HR HT. assert (Z.of_nat n <= xrank (fq_one q) (x_wk s)) as B.
  { induction H as [s|n r s s1 s2 NW HW HRun IH|n s s1 s2 HS E HRun IH].
    - destruct (xreach_inv q Hq Ho s HR HT) as (A & c & d & e & Q & _). destruct Q. unfold xw in y_w. unfold xrank. destruct (x_wk s); lia.
    - assert (xreach q s1) as R1 by (eapply XRS; [exact HR|eapply XSW; eauto]). specialize (IH R1 HT).
      destruct (xvrun_log _ _ _ _ HRun) as (x & Ex). destruct (xwexec_log _ _ _ _ HW) as (z & Ez).
      assert (zlen (kaccepted (x_log s)) + 2 < two64) as HT0.
      { rewrite Ex, Ez, app_assoc in HT. pose proof (kaccepted_mono (x ++ z) (x_log s)). lia. }
      destruct (xreach_inv q Hq Ho s HR HT0) as (A & c & d & e & Q & _). destruct Q. unfold xw in y_w.
      assert (xrank (fq_one q) (x_wk s1) < xrank (fq_one q) (x_wk s)); [|lia].
      unfold xwexec in HW. destruct (x_wk s) eqn:EW; try congruence; unfold xrank; try rewrite EW.
      + injection HW as <-. cbn. destruct (x_flag s || x_wfl s); lia.
      + injection HW as <-. cbn. destruct (_ =? 0); lia.
      + destruct (_ =? 0); injection HW as <-; cbn; [lia|]. rewrite take_min_eq. lia.
      + destruct (i <? n0) eqn:E.
        * destruct (mload _ _); cbn [bind] in HW; try discriminate.
          destruct (mstore _ _ _); cbn [bind] in HW; try discriminate. injection HW as <-; cbn. lia.
        * injection HW as <-; cbn. destruct (_ =? _); lia.
      + injection HW as <-; cbn. destruct (_ >=? _); lia.
      + injection HW as <-; cbn. lia.
      + injection HW as <-; cbn. destruct (_ =? _); lia.
      + injection HW as <-; cbn. lia.
    - assert (xreach q s1) as R1 by (eapply XRS; eauto). specialize (IH R1 HT). rewrite E in IH. exact IH. }
  destruct (xvrun_log _ _ _ _ H) as (y & Ey). rewrite Ey in HT. pose proof (kaccepted_mono y (x_log s)).
  destruct (xreach_inv q Hq Ho s HR ltac:(lia)) as (A & c & d & e & Q & _). destruct Q. unfold xw in y_w.
  unfold xrank in B. destruct (x_wk s); lia.
Qed.
